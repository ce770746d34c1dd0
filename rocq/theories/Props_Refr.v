(** * Theorems: refraction (C46-C48, C50, C66, C67) *)
From Coq Require Import Reals ZArith Lra Lia Psatz Bool.
From Coquelicot Require Import Continuity Hierarchy.
From Verif Require Import Num NumR Geom M_Sphere P_Sphere M_Refr P_Refr P_Simpson P_Refz P_RefzC P_Refv.
From Interval Require Import Tactic.
Local Open Scope R_scope.
Local Notation tanR := Rtrigo1.tan.

(** the refraction model: in vacuo zenith distance of an observed zenith distance [z] *)
Definition unrefract (a b z : R) : R := z + a * tanR z + b * tanR z ^ 3.

(** ** C46: palRefco.  A tan z + B tan^3 z reproduces palRefro at tan z = 1 and tan z = 4 *)
Theorem C46_palRefco : forall hm tdk pmb rh wl phi tlr eps,
  let '(a, b) := palRefco hm tdk pmb rh wl phi tlr eps in
  exists z1 z4,
    a * 1 + b * 1 ^ 3 = palRefro z1 hm tdk pmb rh wl phi tlr eps /\
    a * 4 + b * 4 ^ 3 = palRefro z4 hm tdk pmb rh wl phi tlr eps /\
    Rabs (tanR z1 - 1) <= 1 / 10 ^ 15 /\ Rabs (tanR z4 - 4) <= 1 / 10 ^ 14 /\ 0 < z1 < PI / 2 /\ 0 < z4 < PI / 2.
Proof.
  intros. unfold palRefco. exists ATN1, ATN4.
  generalize (palRefro ATN1 hm tdk pmb rh wl phi tlr eps) (palRefro ATN4 hm tdk pmb rh wl phi tlr eps). intros r1 r2.
  replace (@lit R RA 64.0) with 64 by (rn; lra). replace (@lit R RA 4.0) with 4 by (rn; lra).
  replace (@lit R RA 60.0) with 60 by (rn; lra). rops.
  split; [field|]. split; [field|].
  replace (ATN1 : R) with (7853981633974483 / 10000000000000000) by (unfold ATN1; rn; lra).
  replace (ATN4 : R) with (1325817663668033 / 1000000000000000) by (unfold ATN4; rn; lra).
  split; [interval with (i_prec 100)|]. split; [interval with (i_prec 100)|]. split; split; interval.
Qed.

(** ** C47: palRefro *)
(** for every arithmetic (doubles included) 12 passes of at most 16384 points per layer suffice *)
Theorem C47_terminates : forall T (A : Arith T) passes points zobs hm tdk pmb rh wl phi tlr eps,
  (12 <= passes)%nat -> (16384 <= Z.of_nat points)%Z ->
  palRefro_fuel passes points zobs hm tdk pmb rh wl phi tlr eps =
    Some (palRefro zobs hm tdk pmb rh wl phi tlr eps).
Proof. intros. now apply palRefro_total. Qed.
(** the result depends on the arguments only through their documented safe values *)
Theorem C47_clamped : forall zobs hm tdk pmb rh wl phi tlr eps,
  palRefro zobs hm tdk pmb rh wl phi tlr eps =
  palRefro (palDrange zobs) (clampR (-1000) 80000 hm) (clampR 100 500 tdk) (clampR 0 10000 pmb)
    (clampR 0 1 rh) (Rmax wl (1/10)) phi (clampR (1/1000) (1/100) (Rabs tlr)) (clampR (1/10^12) (1/10) (Rabs eps)).
Proof.
  intros. rewrite !palRefro_val. replace (1 / 10 ^ 12) with (1 / 1000000000000) by lra.
  assert (Q1 := clampR_range (1/1000) (1/100) (Rabs tlr) ltac:(lra)).
  assert (Q2 := clampR_range (1/1000000000000) (1/10) (Rabs eps) ltac:(lra)).
  rewrite (Rabs_pos_eq (clampR (1/1000) (1/100) (Rabs tlr))) by lra.
  rewrite (Rabs_pos_eq (clampR (1/1000000000000) (1/10) (Rabs eps))) by lra.
  rewrite !clampR_idem by lra. rewrite (palDrange_id (palDrange zobs)) by apply palDrange_range.
  replace (Rmax (Rmax wl (1/10)) (1/10)) with (Rmax wl (1/10)) by (unfold Rmax; repeat destruct (Rle_dec _ _); lra).
  reflexivity.
Qed.
Theorem C47_zenith : forall hm tdk pmb rh wl phi tlr eps, palRefro 0 hm tdk pmb rh wl phi tlr eps = 0.
Proof.
  intros. rewrite palRefro_val. cbv zeta. assert (P := PI_RGT_0). rewrite palDrange_id by lra.
  rewrite Rabs_R0, Rmin_left by lra. rewrite core_zenith. destruct (Rlt_dec 0 0); lra.
Qed.
Theorem C47_odd : forall zobs hm tdk pmb rh wl phi tlr eps, - PI < zobs < PI ->
  palRefro (- zobs) hm tdk pmb rh wl phi tlr eps = - palRefro zobs hm tdk pmb rh wl phi tlr eps.
Proof.
  intros zobs hm tdk pmb rh wl phi tlr eps H.
  destruct (Req_dec zobs 0) as [->|N]; [rewrite Ropp_0, C47_zenith; lra|].
  rewrite !palRefro_val. cbv zeta. rewrite !palDrange_id by lra. rewrite Rabs_Ropp.
  destruct (Rlt_dec (- zobs) 0), (Rlt_dec zobs 0); lra.
Qed.
(** held constant beyond 93 degrees (the code's 93 degrees is 1.623156204 rad) *)
Theorem C47_beyond_93 : forall zobs hm tdk pmb rh wl phi tlr eps, 1.623156204 <= zobs <= PI ->
  palRefro zobs hm tdk pmb rh wl phi tlr eps = palRefro 1.623156204 hm tdk pmb rh wl phi tlr eps.
Proof.
  intros zobs hm tdk pmb rh wl phi tlr eps H.
  assert (L : 1.623156204 <= PI) by interval.
  rewrite !palRefro_val. cbv zeta. assert (P := PI_RGT_0). rewrite (palDrange_id zobs), (palDrange_id 1.623156204) by lra.
  rewrite (Rabs_pos_eq zobs), (Rabs_pos_eq 1.623156204) by lra. rewrite (Rmin_right zobs), (Rmin_right 1.623156204) by lra.
  destruct (Rlt_dec zobs 0) as [C|C]; [lra|]. destruct (Rlt_dec 1.623156204 0) as [C'|C']; [lra|]. reflexivity.
Qed.
Theorem C47_no_air : forall zobs hm tdk pmb rh wl phi tlr eps, pmb <= 0 ->
  palRefro zobs hm tdk pmb rh wl phi tlr eps = 0.
Proof.
  intros zobs hm tdk pmb rh wl phi tlr eps H. rewrite palRefro_val. cbv zeta.
  replace (clampR 0 10000 pmb) with 0 by (unfold clampR, Rmin, Rmax; repeat destruct (Rle_dec _ _); lra).
  rewrite core_vacuum. destruct (Rlt_dec _ _); lra.
Qed.
Theorem C47_93_degrees : Rabs (1.623156204 - 93 * (PI / 180)) <= 1 / 10 ^ 9.
Proof. interval with (i_prec 60). Qed.

(** ** C67: the refraction is the sum of two composite Simpson integrals, tropospheric and
    stratospheric, each on 8 * 2^j strips, stopped by the tolerance or at 16384 strips *)
(** zenith distance at a level: sin z = k / (r n), as the code computes it *)
Definition zd_at (k r n : R) : R := atan2R (k / (r * n)) (sqrtR (Rmax (1 - k / (r * n) * (k / (r * n))) 0)).
Definition integrand (l : R * R) : R := snd l / (fst l + snd l).
Theorem C67_palRefro_simpson : forall zobs hm tdk pmb rh wl phi tlr eps,
  let z := Rmin (Rabs (palDrange zobs)) 1.623156204 in
  let h := clampR (-1000) 80000 hm in let t0 := clampR 100 500 tdk in
  let al := clampR (1/1000) (1/100) (Rabs tlr) in let tol := clampR (1/1000000000000) (1/10) (Rabs eps) / 2 in
  let a := rf_atm h t0 (clampR 0 10000 pmb) (clampR 0 1 rh) (Rmax wl (1/10)) phi al in
  let r0 := 6378120 + h in let rt := 6378120 + Rmax 11000 h in let rs := 6378120 + 80000 in
  (* the two layers: r |-> (n, r dn/dr) *)
  let trop := rf_layt a r0 t0 in
  let strat := pal1Atms rt (rf_tt a r0 t0 rt) (fst (trop rt)) (ra_gamal a) in
  let k := fst (trop r0) * r0 * sinR z in
  let zt := zd_at k rt (fst (trop rt)) in let zts := zd_at k rt (fst (strat rt)) in let zs := zd_at k rs (fst (strat rs)) in
  exists reft refs,
    simpson_result trop k z (zt - z) (integrand (trop r0)) (integrand (trop rt)) tol reft /\
    simpson_result strat k zts (zs - zts) (integrand (strat rt)) (integrand (strat rs)) tol refs /\
    palRefro zobs hm tdk pmb rh wl phi tlr eps = if Rlt_dec (palDrange zobs) 0 then - (reft + refs) else reft + refs.
Proof.
  intros. rewrite palRefro_val. cbv zeta. fold z h t0 al tol.
  assert (K := rf_core_core z h t0 (clampR 0 10000 pmb) (clampR 0 1 rh) (Rmax wl (1/10)) phi al tol).
  revert K. generalize (core z h t0 (clampR 0 10000 pmb) (clampR 0 1 rh) (Rmax wl (1/10)) phi al tol). intros c.
  unfold rf_core. fold a.
  replace (add rfS h) with r0 by (unfold r0, rfS; rn; lra).
  replace (add rfS (DMAX rfHT h)) with rt by (rewrite DMAX_R; unfold rt, rfS, rfHT; rn; f_equal; f_equal; lra).
  replace (add rfS rfHS) with rs by (unfold rs, rfS, rfHS; rn; lra).
  cbv zeta. fold trop.
  rewrite (surjective_pairing (trop r0)), (surjective_pairing (trop rt)). cbv beta iota. fold strat.
  rewrite (surjective_pairing (strat rt)), (surjective_pairing (strat rs)). cbv beta iota.
  change (mul (mul (fst (trop r0)) r0) (sin z)) with k.
  assert (ZE : forall r n, rf_zd k r n = zd_at k r n).
  { intros r n. unfold rf_zd, zd_at. cbv zeta. rewrite DMAX_R. rops.
    replace (litR 1.0) with 1 by (rlit; lra). replace (litR 0.0) with 0 by (rlit; lra). reflexivity. }
  rewrite !ZE. fold zt zts zs. change (@sub R RA) with Rminus.
  replace (@lit R RA 0.0) with 0 by (rn; lra). replace (@lit R RA 1.0) with 1 by (rn; lra).
  match goal with |- context [match ?l with _ => _ end] => destruct l as [rT|] eqn:Ea; [|discriminate] end.
  match goal with |- context [match ?l with _ => _ end] => destruct l as [rS|] eqn:Eb; [|discriminate] end.
  intros E. injection E as <-. exists rT, rS. split; [|split].
  - exact (loop_simpson0 _ _ _ _ _ _ _ _ _ _ _ Ea).
  - exact (loop_simpson0 _ _ _ _ _ _ _ _ _ _ _ Eb).
  - rops. reflexivity.
Qed.

(** ** C48: palRefz *)
(** A up to 61.9 arcsec and B down to -0.0825 arcsec: the usual range *)
Definition usual (a b : R) : Prop := 0 <= a <= 3 / 10000 /\ - (4 / 10000000) <= b <= 0.
Example C48_witness : usual (60 * (PI / 648000)) (- (0.067 * (PI / 648000))).
Proof. unfold usual. split; split; interval. Qed.
Theorem C48_inverse_80 : forall zu a b, usual a b -> Rabs zu <= 80 * (PI / 180) ->
  Rabs (unrefract a b (palRefz zu a b) - zu) <= 3 / 10 ^ 15.
Proof. intros zu a b [Ha Hb] H. now apply refz_80. Qed.
Theorem C48_inverse_83 : forall zu a b, usual a b -> Rabs zu <= 83 * (PI / 180) ->
  Rabs (unrefract a b (palRefz zu a b) - zu) <= 3 / 10 ^ 13.
Proof. intros zu a b [Ha Hb] H. now apply refz_83. Qed.
(** beyond 83 degrees: the refraction at 83 degrees scaled by the empirical formula *)
Theorem C48_high : forall zu a b, 83 * (PI / 180) <= zu ->
  let deg := Rmin 93 (zu * (180 / PI)) in
  let f e := (0.55445 - 0.01133 * e + 0.00202 * e ^ 2) / (1 + 0.28385 * e + 0.02390 * e ^ 2) in
  zu - palRefz zu a b = (83 * (PI / 180) - palRefz (83 * (PI / 180)) a b) * (f (90 - deg) / f 7).
Proof.
  intros zu a b H deg f. assert (P := PI_RGT_0). rewrite (palRefz_all zu), (palRefz_low (83 * (PI / 180))) by lra.
  fold Z83 in *. rewrite Rmin_right by easy.
  assert (F : forall e, f e = hizd e). { intros e. unfold f, hizd. f_equal; lra. }
  rewrite (F (90 - deg)), (F 7). clear F. clearbody f. assert (HD : 83 <= zu * (180 / PI)).
  { unfold Z83 in H. apply Rmult_le_compat_r with (r := 180 / PI) in H; [|left; apply Rdiv_lt_0_compat; lra].
    replace (83 * (PI / 180) * (180 / PI)) with 83 in H by (field; lra). exact H. }
  unfold elev. rewrite (Rmax_right 83) by easy. fold deg. ring.
Qed.
(** the refraction is constant beyond 93 degrees *)
Theorem C48_beyond_93 : forall zu a b, 93 * (PI / 180) <= zu ->
  zu - palRefz zu a b = 93 * (PI / 180) - palRefz (93 * (PI / 180)) a b.
Proof.
  intros zu a b H. assert (P := PI_RGT_0). rewrite !palRefz_all.
  assert (E : forall z, 93 * (PI / 180) <= z -> elev z = -3 /\ Rmin z Z83 = Z83).
  { intros z Hz. assert (HD : 93 <= z * (180 / PI)).
    { apply Rmult_le_compat_r with (r := 180 / PI) in Hz; [|left; apply Rdiv_lt_0_compat; lra].
      replace (93 * (PI / 180) * (180 / PI)) with 93 in Hz by (field; lra). exact Hz. }
    unfold elev. rewrite Rmax_right, Rmin_left by lra. split; [lra|]. apply Rmin_right. unfold Z83. lra. }
  destruct (E zu H) as [-> ->]. destruct (E (93 * (PI / 180)) (Rle_refl _)) as [-> ->]. ring.
Qed.
(** "there is no glitch": continuous at every zenith distance, in particular at 83 and 93 degrees *)
Theorem C48_continuous : forall a b zu, usual a b -> 0 <= zu ->
  continuous (fun z => palRefz z a b) zu.
Proof.
  intros a b zu [Ha Hb] H. apply palRefz_cont; try easy. unfold Z83. assert (P := PI_RGT_0). lra.
Qed.

(** ** C66: palRefv *)
(** [azel p z]: unit Az/El vector at zenith distance [z] in the vertical plane of direction [p] *)
Definition azel (p z : R) : vec R := V (sinR z * cosR p) (sinR z * sinR p) (cosR z).
Theorem C66_palRefv : forall p zu a b, usual a b -> 0 <= zu <= 83 * (PI / 180) ->
  exists g zr, palRefv (azel p zu) a b = scale g (azel p zr) /\
    Rabs (g - 1) <= 1 / 10 ^ 10 /\ Rabs (zr - zu) <= 3 / 1000 /\
    Rabs (unrefract a b zr - zu) <= 2 / 10 ^ 6 /\
    (zu <= 70 * (PI / 180) -> a <= 60 * (PI / 648000) -> Rabs (unrefract a b zr - zu) <= 1 / 1000 * (PI / 648000)) /\
    (zu <= 30 * (PI / 180) -> Rabs (unrefract a b zr - zu) <= 2 / 1000000 * (PI / 648000)).
Proof.
  intros p zu a b [Ha Hb] Hz. assert (P := PI_RGT_0).
  assert (AZ : Rabs zu = zu) by (apply Rabs_pos_eq; lra).
  assert (C0 : 1 / 20 <= cosR zu).
  { destruct Hz. interval with (i_bisect zu). }
  destruct (refv_resid a b (3/10000) zu (83 * (PI / 180) + 3/1000) (84/10) ltac:(lra) Ha Hb ltac:(lra)) as (F & D & D3 & K);
    [split; interval|interval|lra|].
  set (d := dstep a b zu) in *.
  assert (Dm : Rabs d <= 1/100) by lra.
  destruct (len_factor d Dm) as [G0 G1]. destruct (atan_cubic_abs d) as [_ A2].
  exists ((1 - d * d / 2) * sqrtR (1 + d * d)), (zu - Ratan.atan d).
  split; [apply refv_dir; lra|].
  assert (D' : Rabs d <= 3/1000) by lra.
  split.
  { eapply Rle_trans; [exact G1|]. replace (d ^ 4) with (Rabs d ^ 4).
    - apply Rle_trans with ((3/1000)^4); [apply pow_incr; split; [apply Rabs_pos|easy]|lra].
    - replace (Rabs d ^ 4) with ((Rabs d ^ 2) ^ 2) by ring. rewrite pow2_abs. ring. }
  split.
  { replace (zu - Ratan.atan d - zu) with (- Ratan.atan d) by ring. rewrite Rabs_Ropp. lra. }
  split; [eapply Rle_trans; [exact K|]; lra|]. clear K D3 D. split.
  - intros H70 Ha60.
    assert (Ha' : 0 <= a <= 291/1000000). { split; [lra|]. eapply Rle_trans; [exact Ha60|]. interval. }
    destruct (refv_resid a b (291/1000000) zu (70 * (PI / 180) + 3/1000) (2774/1000) ltac:(lra) Ha' Hb ltac:(lra)) as (_ & _ & _ & K);
      [split; interval|interval|lra|].
    eapply Rle_trans; [exact K|]. interval with (i_prec 60).
  - intros H30.
    destruct (refv_resid a b (3/10000) zu (30 * (PI / 180) + 3/1000) (5814/10000) ltac:(lra) Ha Hb ltac:(lra)) as (_ & _ & _ & K);
      [split; interval|interval|lra|].
    eapply Rle_trans; [exact K|]. interval with (i_prec 60).
Qed.
(** the documented "better than 1 microarcsecond within 30 degrees" fails for A = 60 arcsec *)
Theorem C66_1uas_refuted : let a := 60 * (PI / 648000) in let zu := 30 * (PI / 180) in
  exists g zr, palRefv (azel 0 zu) a 0 = scale g (azel 0 zr) /\
  13 / 10000000 * (PI / 648000) <= unrefract a 0 zr - zu.
Proof.
  intros a zu.
  set (d := dstep a 0 zu). exists ((1 - d * d / 2) * sqrtR (1 + d * d)), (zu - Ratan.atan d).
  assert (Hd : d = a * tanR zu / (1 + a * (1 + tanR zu ^ 2))).
  { unfold d, dstep, modelF, modelF1. f_equal; ring. }
  split.
  - apply refv_dir; [unfold zu; split; interval|unfold zu; interval|]. unfold modelF1, a, zu.
    match goal with |- ?x <> 0 => assert (0 < x) by interval; lra end.
  - unfold unrefract. rewrite Hd. unfold zu, a. rewrite Rmult_0_l, Rplus_0_r. interval with (i_prec 120).
Qed.
(** below about 3 degrees elevation the correction is held at that for z = 0.05 *)
Theorem C66_low : forall x y z a b, z < 1/20 ->
  palRefv (V x y z) a b = vadd (palRefv (V x y (1/20)) a b) (V 0 0 (z - 1/20)).
Proof.
  intros x y z a b H. unfold palRefv. cbn [vx vy vz]. cbv zeta.
  replace (@lit R RA 0.05) with (1/20) by (rn; lra).
  rewrite !DMAX_R, (Rmax_right z), (Rmax_left (1/20)) by lra. unfold vadd. cbn [vx vy vz]. rops. f_equal; ring.
Qed.
Theorem C66_zenith : forall z a b, palRefv (V 0 0 z) a b = V 0 0 z.
Proof.
  intros z a b. unfold palRefv. cbn [vx vy vz]. cbv zeta. rops. rewrite DMAX_R.
  replace (litR 0.05) with (1/20) by (rlit; lra). replace (litR 1.0) with 1 by (rlit; lra).
  replace (0 * 0 + 0 * 0) with 0 by ring. rewrite sqrt_0. unfold Rdiv at 1 2 3 4 5 6 7. 
  f_equal; [ring|ring|]. unfold Rdiv. ring.
Qed.
Theorem C66_no_refraction : forall v, palRefv v 0 0 = v.
Proof.
  intros [x y z]. unfold palRefv. cbn [vx vy vz]. cbv zeta. rops.
  replace (litR 1.0) with 1 by (rlit; lra). replace (litR 3.0) with 3 by (rlit; lra).
  set (q := DMAX z (litR 0.05)).
  replace (0 + 0 * (x * x + y * y) / (q * q)) with 0 by (unfold Rdiv; ring).
  replace (0 / (1 + (0 + 3 * (0 * (x * x + y * y) / (q * q))) * (q * q + (x * x + y * y)) / (q * q))) with 0 by (unfold Rdiv; ring).
  unfold Rdiv. f_equal; ring.
Qed.

(** ** C50: palAtmdsp *)
(** refractivity (n-1) of the air at the observer for wavelength [wl] (micrometres) *)
Definition refractivity (tdk pmb rh wl : R) : R :=
  let t := clampR 100 500 tdk in let p := clampR 0 10000 pmb in let h := clampR 0 1 rh in
  let w := Rmax wl (1/10) in
  ((77.5317e-6 + (0.43909e-6 + 0.00367e-6 / w ^ 2) / w ^ 2) * p
   - 11.2684e-6 * (h * Rpower 10 (- 8.7115 + 0.03477 * t))) / t.
Lemma atmd_dn_val : forall tdk pmb rh wl, atmd_dn tdk pmb rh wl = refractivity tdk pmb rh wl.
Proof.
  intros. unfold atmd_dn, atmd_w2, refractivity, clampR. cbv zeta. rewrite !DMIN_R, !DMAX_R.
  replace (@lit R RA 100.0) with 100 by (rn; lra). replace (@lit R RA 500.0) with 500 by (rn; lra).
  replace (@lit R RA 0.0) with 0 by (rn; lra). replace (@lit R RA 10000.0) with 10000 by (rn; lra).
  replace (@lit R RA 1.0) with 1 by (rn; lra). replace (@lit R RA 0.1) with (1/10) by (rn; lra).
  replace (@lit R RA 10.0) with 10 by (rn; lra).
  change (@pow R RA) with powR. unfold powR. destruct (Rlt_dec 0 10); [|lra].
  rops. replace (litR 8.7115) with 8.7115 by (rlit; lra). replace (litR 0.03477) with 0.03477 by (rlit; lra).
  replace (litR 77.5317e-6) with 77.5317e-6 by (rlit; lra).
  replace (litR 0.43909e-6) with 0.43909e-6 by (rlit; lra).
  replace (litR 0.00367e-6) with 0.00367e-6 by (rlit; lra).
  replace (litR 11.2684e-6) with 11.2684e-6 by (rlit; lra).
  set (w := Rmax wl (1/10)). replace (w ^ 2) with (w * w) by ring. try replace (-8.7115) with (- (8.7115)) by lra. reflexivity.
Qed.
Lemma palAtmdsp_val : forall tdk pmb rh wl1 a1 b1 wl2,
  let d1 := refractivity tdk pmb rh wl1 in let d2 := refractivity tdk pmb rh wl2 in
  wl1 <= 100 -> wl2 <= 100 -> d1 <> 0 ->
  palAtmdsp tdk pmb rh wl1 a1 b1 wl2 =
    (a1 * (d2 / d1), if Req_EM_T d1 a1 then b1 * (d2 / d1) else b1 * (d2 / d1) * (1 + d1 * (d1 - d2) / (2 * (d1 - a1)))).
Proof.
  intros tdk pmb rh wl1 a1 b1 wl2 d1 d2 W1 W2 D. unfold palAtmdsp. rewrite !atmd_dn_val. fold d1 d2.
  replace (@lit R RA 100.0) with 100 by (rn; lra). replace (@lit R RA 0.0) with 0 by (rn; lra).
  replace (@lit R RA 1.0) with 1 by (rn; lra). replace (@lit R RA 2.0) with 2 by (rn; lra).
  rops. unfold Rltb, Reqb.
  destruct (Rlt_dec 100 wl1); [lra|]. destruct (Rlt_dec 100 wl2); [lra|]. cbn [orb].
  destruct (Req_EM_T d1 0); [contradiction|]. cbn [negb]. destruct (Req_EM_T d1 a1); reflexivity.
Qed.
(** no dispersion at radio wavelengths *)
Theorem C50_radio : forall tdk pmb rh wl1 a1 b1 wl2, 100 < wl1 \/ 100 < wl2 ->
  palAtmdsp tdk pmb rh wl1 a1 b1 wl2 = (a1, b1).
Proof.
  intros tdk pmb rh wl1 a1 b1 wl2 H. unfold palAtmdsp.
  replace (@lit R RA 100.0) with 100 by (rn; lra). rops. unfold Rltb.
  destruct (Rlt_dec 100 wl1), (Rlt_dec 100 wl2); cbn [orb]; try reflexivity. lra.
Qed.
(** no change of wavelength, no change of constants *)
Theorem C50_same_wavelength : forall tdk pmb rh wl a1 b1, palAtmdsp tdk pmb rh wl a1 b1 wl = (a1, b1).
Proof.
  intros tdk pmb rh wl a1 b1. destruct (Rle_dec wl 100) as [W|W]; [|apply C50_radio; lra].
  destruct (Req_EM_T (refractivity tdk pmb rh wl) 0) as [Z|Z].
  - unfold palAtmdsp. rewrite !atmd_dn_val, Z. replace (@lit R RA 0.0) with 0 by (rn; lra).
    replace (@lit R RA 100.0) with 100 by (rn; lra). rops. unfold Rltb, Reqb.
    destruct (Rlt_dec 100 wl); [lra|]. cbn [orb]. destruct (Req_EM_T 0 0); [reflexivity|lra].
  - rewrite palAtmdsp_val by easy. f_equal; [field; easy|].
    destruct (Req_EM_T _ _) as [E|E]; [field; easy|].
    replace (refractivity tdk pmb rh wl - refractivity tdk pmb rh wl) with 0 by ring.
    field. lra.
Qed.
(** A follows the refractivity of the air at the observer *)
Theorem C50_A_scales : forall tdk pmb rh wl1 a1 b1 wl2, wl1 <= 100 -> wl2 <= 100 ->
  refractivity tdk pmb rh wl1 <> 0 ->
  fst (palAtmdsp tdk pmb rh wl1 a1 b1 wl2) = a1 * (refractivity tdk pmb rh wl2 / refractivity tdk pmb rh wl1).
Proof. intros. now rewrite palAtmdsp_val. Qed.
Theorem C50_B_scales : forall tdk pmb rh wl1 a1 b1 wl2, wl1 <= 100 -> wl2 <= 100 ->
  let d1 := refractivity tdk pmb rh wl1 in let d2 := refractivity tdk pmb rh wl2 in
  d1 <> 0 -> a1 <> d1 ->
  snd (palAtmdsp tdk pmb rh wl1 a1 b1 wl2) = b1 * (d2 / d1) * (1 + d1 * (d1 - d2) / (2 * (d1 - a1))).
Proof.
  intros tdk pmb rh wl1 a1 b1 wl2 W1 W2 d1 d2 D Na. rewrite palAtmdsp_val by easy. fold d1 d2.
  cbn [snd]. destruct (Req_EM_T d1 a1) as [E|E]; [congruence|reflexivity].
Qed.
(** going from wl1 to wl2 and on to wl3 gives the same A as going straight to wl3; there and back
    restores A exactly, and B to second order in the dispersion *)
Theorem C50_A_chain : forall tdk pmb rh wl1 wl2 wl3 a1 b1, wl1 <= 100 -> wl2 <= 100 -> wl3 <= 100 ->
  refractivity tdk pmb rh wl1 <> 0 -> refractivity tdk pmb rh wl2 <> 0 ->
  let '(a2, b2) := palAtmdsp tdk pmb rh wl1 a1 b1 wl2 in
  fst (palAtmdsp tdk pmb rh wl2 a2 b2 wl3) = fst (palAtmdsp tdk pmb rh wl1 a1 b1 wl3).
Proof.
  intros. rewrite palAtmdsp_val by easy. rewrite !C50_A_scales by easy. field. easy.
Qed.
Theorem C50_round_trip : forall tdk pmb rh wl1 wl2 a1 b1, wl1 <= 100 -> wl2 <= 100 ->
  let d1 := refractivity tdk pmb rh wl1 in let d2 := refractivity tdk pmb rh wl2 in
  d1 <> 0 -> d2 <> 0 -> a1 <> d1 ->
  let '(a2, b2) := palAtmdsp tdk pmb rh wl1 a1 b1 wl2 in
  let x := d1 * (d1 - d2) / (2 * (d1 - a1)) in
  palAtmdsp tdk pmb rh wl2 a2 b2 wl1 = (a1, b1 * (1 - x ^ 2)).
Proof.
  intros tdk pmb rh wl1 wl2 a1 b1 W1 W2 d1 d2 D1 D2 Na.
  rewrite palAtmdsp_val by easy. fold d1 d2. cbv zeta. rewrite palAtmdsp_val by easy. fold d1 d2.
  assert (N : d1 - a1 <> 0) by lra.
  destruct (Req_EM_T d1 a1); [congruence|].
  destruct (Req_EM_T d2 (a1 * (d2 / d1))) as [E|E].
  - exfalso. apply Na. apply Rmult_eq_reg_l with d2; [|easy]. rewrite E at 2. field. easy.
  - assert (N2 : d2 * (d1 - a1) <> 0) by (apply Rmult_integral_contrapositive; easy).
    f_equal; field; [easy|]. repeat split; try easy. intros Q. apply N2. lra.
Qed.
(** air disperses normally: the shorter the wavelength the larger the refractivity, and so A *)
Theorem C50_normal_dispersion : forall tdk pmb rh wl1 wl2, 1/10 <= wl1 < wl2 -> 0 < pmb ->
  refractivity tdk pmb rh wl2 < refractivity tdk pmb rh wl1.
Proof.
  intros tdk pmb rh wl1 wl2 H Hp. unfold refractivity. cbv zeta.
  assert (T0 : 100 <= clampR 100 500 tdk <= 500) by (apply clampR_range; lra).
  assert (P0 : 0 < clampR 0 10000 pmb). { unfold clampR, Rmin, Rmax. repeat destruct (Rle_dec _ _); lra. }
  rewrite (Rmax_left wl1), (Rmax_left wl2) by lra.
  generalize dependent (clampR 100 500 tdk). generalize dependent (clampR 0 10000 pmb). intros p P0 t T0.
  generalize (clampR 0 1 rh * Rpower 10 (- 8.7115 + 0.03477 * t)). intros q.
  apply Rmult_lt_compat_r; [apply Rinv_0_lt_compat; lra|]. 
  assert (S : / wl2 ^ 2 < / wl1 ^ 2). { assert (0 < wl1 ^ 2) by (apply pow_lt; lra). assert (0 < wl2 ^ 2) by (apply pow_lt; lra).
    apply Rinv_lt_contravar; [now apply Rmult_lt_0_compat|]. simpl. nra. }
  assert (S2 : 0 < / wl2 ^ 2) by (apply Rinv_0_lt_compat, pow_lt; lra).
  unfold Rdiv. apply Rplus_lt_compat_r. apply Rmult_lt_compat_r; [easy|].
  set (u := / wl1 ^ 2) in *. set (v := / wl2 ^ 2) in *. clearbody u v.
  assert (Q : v * v < u * u) by nra. lra.
Qed.
Theorem C50_blue_more : forall tdk pmb rh wl1 wl2 a1 b1, 1/10 <= wl1 < wl2 -> wl2 <= 100 -> 0 < pmb ->
  0 < refractivity tdk pmb rh wl1 -> 0 < a1 ->
  fst (palAtmdsp tdk pmb rh wl1 a1 b1 wl2) < a1.
Proof.
  intros tdk pmb rh wl1 wl2 a1 b1 H W Hp D Ha. assert (L := C50_normal_dispersion tdk pmb rh wl1 wl2 H Hp).
  rewrite C50_A_scales by lra. rewrite <- (Rmult_1_r a1) at 2. apply Rmult_lt_compat_l; [easy|].
  apply Rmult_lt_reg_r with (refractivity tdk pmb rh wl1); [easy|]. unfold Rdiv. rewrite Rmult_assoc, Rinv_l; lra.
Qed.
(** sea level, 15 C, 60% humidity, green light: the hypotheses hold *)
Example C50_witness : 0 < refractivity 288 1013 (6/10) (55/100) /\ 0 < refractivity 288 1013 (6/10) 1 /\
  (60 * (PI / 648000)) <> refractivity 288 1013 (6/10) (55/100).
Proof.
  unfold refractivity, clampR. cbv zeta.
  rewrite !(Rmax_left _ (1/10)), !(Rmax_left _ 100), !(Rmax_left _ 0), !(Rmin_left 288), !(Rmin_left 1013), !(Rmin_left (6/10)) by lra.
  unfold Rpower. split; [interval|]. split; [interval|].
  apply Rgt_not_eq. apply Rlt_gt. interval with (i_prec 60).
Qed.
