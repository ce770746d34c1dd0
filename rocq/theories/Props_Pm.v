(** * Theorems: proper motion in space (C80) *)
From Coq Require Import Reals ZArith Lra Lia Psatz Bool List.
From Coquelicot Require Import Coquelicot.
From Interval Require Import Tactic.
From Verif Require Import Num NumR Erfa Geom M_Sphere M_Frames P_Frames M_Kin M_Misc M_Pm P_Pm.
Import ListNotations.
Local Open Scope R_scope.

(** ** Specification *)
(** speed of light, au per day *)
Definition light : R := 86400 * 299792458 / 149597870700.
(** au, for a parallax in arcseconds *)
Definition distance (px : R) : R := 648000 / PI / px.
(** the catalogue's motion at right angles to the line of sight: rates of right ascension and declination, radians per year *)
Definition rates (ra dec pr pd : R) : vec R := vadd (scale (pr * cosR dec) (east ra)) (scale pd (north ra dec)).
Definition catalogue_motion (ra dec pr pd px : R) : vec R := scale (distance px / 365.25) (rates ra dec pr pd).
(** its radial velocity, km/s, in au per day *)
Definition catalogue_radial (rv : R) : R := rv * 86400 * 1000 / 149597870700.
(** What is seen, per day of the observer's time, of a body at [P] moving at [V]: the light takes longer as the body recedes;
    and the radial velocity by the Doppler shift of special relativity, the frequency being received as
    1 - v/c times that emitted. *)
Definition radial (P V : vec R) : R := dot P V / norm P.
Definition seen_motion (P V : vec R) : vec R := scale (1 / (1 + radial P V / light)) (vsub V (scale (radial P V / norm P) P)).
Definition seen_radial (P V : vec R) : R := light * (1 - R_sqrt.sqrt (1 - (norm V / light) ^ 2) / (1 + radial P V / light)).
(** the star at the catalogue's epoch *)
Definition star (ra dec px : R) : vec R := scale (distance px) (dir ra dec).
(** slower than a tenth of the speed of light *)
Definition slow (ra dec pr pd px rv : R) : Prop :=
  catalogue_radial rv ^ 2 + norm (catalogue_motion ra dec pr pd px) ^ 2 <= (0.1 * light) ^ 2.

Lemma catalogue_vt : forall ra dec pr pd px,
  scale (648000 / PI / px) (vadd (scale (pr / 365.25 * cosR dec) (east ra)) (scale (pd / 365.25) (north ra dec))) = catalogue_motion ra dec pr pd px.
Proof.
  intros. unfold catalogue_motion, rates, distance. set (k := 648000 / PI / px). assert (K : 365.25 <> 0) by lra. revert K. generalize 365.25. intros y K.
  unfold east, north. vnorm. f_equal; field; exact K.
Qed.

(** the inertial motion, and its defining facts *)
Lemma star_motion : forall old ra dec pr pd px rv, 1e-7 <= px -> slow ra dec pr pd px rv -> old = false \/ rv <> 0 ->
  exists iw V d, eraStarpv (T := R) old ra dec pr pd px rv = (iw, PV (star ra dec px) V) /\ dot V V < light * light /\
    norm (vsub (seen_motion (star ra dec px) V) (catalogue_motion ra dec pr pd px)) <= 1e-37 /\
    Rabs (seen_radial (star ra dec px) V - catalogue_radial rv) <= 1e-37 /\
    (* tangential part *)
    vsub V (scale (dot (dir ra dec) V) (dir ra dec)) = scale d (catalogue_motion ra dec pr pd px) /\
    Rabs (1 + dot (dir ra dec) V / light - d) <= 1e-40 /\ Rabs (dot (dir ra dec) V / light) <= 0.14.
Proof.
  intros old ra dec pr pd px rv Hp Hs Ho. destruct (eraStarpv old ra dec pr pd px rv) as [iw p] eqn:E.
  destruct (starpv_val old ra dec pr pd px rv iw p E Hp) as [Ep [r [d [Ev [Hr [H1 H2]]]]]].
  - rewrite catalogue_vt. unfold slow in Hs. cbn [Rpow_def.pow] in Hs. rewrite !Rmult_1_r in Hs. rewrite norm_sq in Hs.
    replace (86400 * rv * 1000 / 149597870700) with (catalogue_radial rv) by (unfold catalogue_radial; f_equal; ring). exact Hs.
  - exact Ho.
  - rewrite catalogue_vt in *. replace (86400 * rv * 1000 / 149597870700) with (catalogue_radial rv) in * by (unfold catalogue_radial; f_equal; ring).
    fold (distance px) in Ep. fold (star ra dec px) in Ep. destruct p as [P V]. cbn [pvp pvv] in *. subst P.
    exists iw, V, d. split; [reflexivity|].
    assert (Ut : dot (dir ra dec) (catalogue_motion ra dec pr pd px) = 0) by (unfold catalogue_motion, rates; rewrite dot_scale_r, perp_dir; ring).
    assert (Uu : dot (dir ra dec) (dir ra dec) = 1) by apply dir_unit. assert (C := lightspeed_pos). 
    change light with lightspeed. unfold seen_motion, seen_radial. change light with lightspeed.
    unfold star. set (u := dir ra dec) in *. set (w := catalogue_motion ra dec pr pd px) in *. set (vr := catalogue_radial rv) in *.
    unfold slow in Hs. fold w vr in Hs. change light with lightspeed in Hs.
    set (c := lightspeed) in *. assert (Pi := PI_RGT_0). assert (D0 : 0 < distance px) by (unfold distance; repeat apply Rdiv_lt_0_compat; lra).
    set (k := distance px) in *. clearbody u w vr c k. clear Ho E Hp ra dec pr pd px rv old iw.
    assert (Eu : dot u V = c * r). { rewrite Ev. transitivity (c * r * dot u u + d * dot u w); [destruct u as [u1 u2 u3], w as [w1 w2 w3]; vnorm; ring|]. rewrite Uu, Ut. ring. }
    assert (Er : radial (scale k u) V = c * r). { unfold radial. rewrite dot_scale_l, norm_scale, (norm_unit u Uu), Eu by lra. field. lra. }
    assert (Nk : norm (scale k u) = k) by (rewrite norm_scale, (norm_unit u Uu) by lra; ring).
    rewrite !Er, Nk, Eu. set (t := d * (norm w / c)) in *.
    assert (Et : c * r / c = r) by (field; lra). rewrite !Et.
    assert (EV : dot V V = (c * c) * (r * r + t * t)).
    { rewrite Ev. transitivity (c * r * (c * r) * dot u u + 2 * c * r * d * dot u w + d * d * dot w w); [destruct u as [u1 u2 u3], w as [w1 w2 w3]; vnorm; ring|].
      rewrite Uu, Ut, <- norm_sq. unfold t. field. lra. }
    assert (W := reg_w r t Hr). destruct Hr as [Ar At]. apply Rcomplements.Rabs_le_between in Ar.
    assert (Tg : vsub V (scale (c * r) u) = scale d w). { rewrite Ev. destruct u as [u1 u2 u3], w as [w1 w2 w3]; vnorm; f_equal; ring. }
    assert (Nw : norm w <= 0.1 * c). { assert (N0 := norm_pos w). cbn [Rpow_def.pow] in Hs. destruct (Rle_dec (norm w) (0.1 * c)) as [|Q]; [assumption|]. exfalso. nra. }
    split; [rewrite EV; nra|]. split; [|split; [|split; [|split]]].
    + rewrite scale_scale. replace (c * r / k * k) with (c * r) by (field; lra). rewrite Tg.
      replace (vsub (scale (1 / (1 + r)) (scale d w)) w) with (scale ((d - (1 + r)) / (1 + r)) w) by (destruct w as [w1 w2 w3]; vnorm; f_equal; field; lra).
      assert (NS : forall q v, norm (scale q v) = Rabs q * norm v).
      { intros q v. unfold norm. rewrite dot_scale_l, dot_scale_r, <- Rmult_assoc, sqrt_mult_alt by nra. f_equal. exact (sqrt_Rsqr_abs q). }
      rewrite NS. unfold Rdiv. rewrite Rabs_mult, (Rabs_minus_sym d (1 + r)). rewrite (Rabs_pos_eq (/ (1 + r))) by (left; apply Rinv_0_lt_compat; lra).
      assert (I : / (1 + r) <= / 0.86) by (apply Rinv_le_contravar; lra). assert (I0 : 0 < / (1 + r)) by (apply Rinv_0_lt_compat; lra).
      assert (N0 := norm_pos w). assert (A0 := Rabs_pos (1 + r - d)).
      apply Rle_trans with ((1e-40 * / 0.86) * 17.4); [|lra]. apply Rmult_le_compat; [nra|lra| |lra]. apply Rmult_le_compat; lra.
    + replace (1 - (norm V / c) ^ 2) with (1 - (r * r + t * t)).
      2:{ cbn [Rpow_def.pow]. rewrite Rmult_1_r. replace (norm V / c * (norm V / c)) with (norm V * norm V / (c * c)) by (field; lra). rewrite norm_sq, EV. field. lra. }
      unfold g in H2. set (q := R_sqrt.sqrt (1 - (r * r + t * t))) in *.
      set (e1 := 1 + r - d) in *. set (e2 := q - 1 - (r - d * (vr / c))) in *.
      replace (c * (1 - q / (1 + r)) - vr) with (- ((vr / c) * c * e1 + c * e2) / (1 + r)).
      2:{ unfold e1, e2. field. lra. }
      unfold Rdiv. rewrite Rabs_mult, Rabs_Ropp. rewrite (Rabs_pos_eq (/ (1 + r))) by (left; apply Rinv_0_lt_compat; lra).
      assert (I : / (1 + r) <= / 0.86) by (apply Rinv_le_contravar; lra). assert (I0 : 0 < / (1 + r)) by (apply Rinv_0_lt_compat; lra).
      replace (vr * / c * c) with vr by (field; lra).
      assert (Vr : Rabs vr <= 17.4). { cbn [Rpow_def.pow] in Hs. assert (N0 := norm_pos w). apply Rabs_le. split; nra. }
      assert (B : Rabs (vr * e1 + c * e2) <= 192e-40).
      { eapply Rle_trans; [apply Rabs_triang|]. rewrite !Rabs_mult, (Rabs_pos_eq c) by lra. assert (P1 := Rabs_pos e1). assert (P2 := Rabs_pos e2). assert (P3 := Rabs_pos vr).
        assert (Rabs vr * Rabs e1 <= 17.4 * 1e-40) by (apply Rmult_le_compat; lra). assert (c * Rabs e2 <= 174 * 1e-40) by (apply Rmult_le_compat; lra). lra. }
      assert (P := Rabs_pos (vr * e1 + c * e2)). apply Rle_trans with (192e-40 * / 0.86); [apply Rmult_le_compat; lra|lra].
    + rewrite Tg. reflexivity.
    + exact H1.
    + apply Rabs_le. lra.
Qed.

(** [ra, dec] in their ranges, pointing along [w] *)
Definition toward (ra dec : R) (w : vec R) : Prop :=
  0 <= ra < 2 * PI /\ - (PI / 2) <= dec <= PI / 2 /\ dir ra dec = scale (1 / norm w) w.

(** ** C80_palPm: the star moves uniformly in a straight line, with the one velocity that shows the catalogue's proper motion
    and radial velocity; the place at [ep1] is where it was when it emitted the light that arrives then. *)
Theorem C80_palPm : forall old r0 d0 pr pd px rv, 1e-7 <= px -> slow r0 d0 pr pd px rv -> old = false \/ rv <> 0 ->
  let P := star r0 d0 px in
  exists V, norm V < light /\
    norm (vsub (seen_motion P V) (catalogue_motion r0 d0 pr pd px)) <= 1e-37 /\
    Rabs (seen_radial P V - catalogue_radial rv) <= 1e-37 /\
    forall ep0 ep1, exists s, let Q := vadd P (scale s V) in
      s + norm Q / light = 365.25 * (ep1 - ep0) + norm P / light /\
      match palPm (T := R) old r0 d0 pr pd px rv ep0 ep1 with
      | Some (r1, d1) => Q <> vzero /\ toward r1 d1 Q
      | None => Q = vzero   (* the star hits the observer *)
      end.
Proof.
  intros old r0 d0 pr pd px rv Hp Hs Ho P. destruct (star_motion old r0 d0 pr pd px rv Hp Hs Ho) as [iw [V [d [E [Hv [H1 [H2 _]]]]]]].
  exists V. split; [|split; [exact H1|split; [exact H2|]]].
  - assert (N := norm_sq V). assert (N0 := norm_pos V). assert (C := lightspeed_pos). change light with lightspeed in *. destruct (Rlt_dec (norm V) lightspeed) as [|Q]; [assumption|]. exfalso. nra.
  - intros ep0 ep1. exists (emission P V (365.25 * (ep1 - ep0))). cbv zeta. split; [exact (emission_ok P V _ Hv)|].
    destruct (pm_val old r0 d0 pr pd px rv ep0 ep1 iw P V E Hv) as [A B]. cbv zeta in A, B.
    set (Q := along P V (emission P V (365.25 * (ep1 - ep0)))) in *. change (vadd P (scale (emission P V (365.25 * (ep1 - ep0))) V)) with Q.
    destruct (vdec Q) as [Z|N]; [rewrite (B Z); exact Z|]. rewrite (A N). split; [exact N|].
    destruct (C2s_anp_range Q) as [R1 R2]. split; [exact R1|]. split; [exact R2|]. exact (C2s_anp_dir Q N).
Qed.

(** ** C80_unique_velocity: no two velocities below that of light show the same proper motion and radial velocity. *)
Theorem C80_unique_velocity : forall P V W, P <> vzero -> norm V < light -> norm W < light ->
  seen_motion P V = seen_motion P W -> seen_radial P V = seen_radial P W -> V = W.
Proof.
  intros P V W HP HV HW H1 H2. assert (C := lightspeed_pos). change light with lightspeed in *. unfold seen_motion, seen_radial in *. change light with lightspeed in *.
  set (c := lightspeed) in *. clearbody c. set (n := norm P) in *. assert (Hn : 0 < n) by (apply norm_gt0; exact HP).
  set (u := scale (1 / n) P). assert (Uu : dot u u = 1) by (unfold u; rewrite dot_scale_l, dot_scale_r, <- norm_sq; fold n; field; lra).
  assert (K : forall X, norm X < c -> exists r t, -1 < r < 1 /\ radial P X = c * r /\ X = vadd (scale (c * r) u) t /\ dot u t = 0 /\
     scale (1 / (1 + radial P X / c)) (vsub X (scale (radial P X / n) P)) = scale (1 / (1 + r)) t /\
     c * (1 - R_sqrt.sqrt (1 - (norm X / c) ^ 2) / (1 + radial P X / c)) = c * (1 - R_sqrt.sqrt (1 - r * r - dot t t / (c * c)) / (1 + r)) /\ 0 < 1 - r * r - dot t t / (c * c)).
  { intros X HX. set (r := dot u X / c). set (t := vsub X (scale (c * r) u)). exists r, t.
    assert (Er : c * r = dot u X) by (unfold r; field; lra).
    assert (Ur : dot u t = 0). { unfold t. transitivity (dot u X - c * r * dot u u); [destruct u as [u1 u2 u3], X as [x1 x2 x3]; vnorm; ring|]. rewrite Uu, Er. ring. }
    assert (EX : X = vadd (scale (c * r) u) t) by (unfold t; destruct u as [u1 u2 u3], X as [x1 x2 x3]; vnorm; f_equal; ring).
    assert (XX : norm X * norm X = c * r * (c * r) + dot t t).
    { rewrite norm_sq. rewrite EX at 1 2. transitivity (c * r * (c * r) * dot u u + 2 * (c * r) * dot u t + dot t t); [destruct u as [u1 u2 u3]; destruct t as [x1 x2 x3]; vnorm; ring|]. rewrite Uu, Ur. ring. }
    assert (Rd : radial P X = c * r). { unfold radial. rewrite Er. unfold u. rewrite dot_scale_l. fold n. field. lra. }
    assert (NX := norm_pos X). assert (Pt := dot_pos t).
    assert (Lr : -1 < r < 1). { assert (- c < c * r < c) by (split; nra). split; nra. }
    assert (Ew : 1 - (norm X / c) ^ 2 = 1 - r * r - dot t t / (c * c)).
    { cbn [Rpow_def.pow]. rewrite Rmult_1_r. replace (norm X / c * (norm X / c)) with (norm X * norm X / (c * c)) by (field; lra). rewrite XX. field. lra. }
    split; [exact Lr|]. split; [exact Rd|]. split; [exact EX|]. split; [exact Ur|]. rewrite Rd. replace (c * r / c) with r by (field; lra). split; [|split].
    - f_equal. unfold t, u. rewrite scale_scale. f_equal. f_equal. field. lra.
    - rewrite Ew. reflexivity.
    - rewrite <- Ew. cbn [Rpow_def.pow]. rewrite Rmult_1_r. assert (norm X / c < 1). { apply (Rmult_lt_reg_r c); [lra|]. replace (norm X / c * c) with (norm X) by (field; lra). lra. }
      assert (0 <= norm X / c) by (apply Rmult_le_pos; [lra|left; apply Rinv_0_lt_compat; lra]). nra. }
  destruct (K V HV) as [r [t [A1 [A2 [A3 [A4 [A5 [A6 A7]]]]]]]]. destruct (K W HW) as [r' [t' [B1 [B2 [B3 [B4 [B5 [B6 B7]]]]]]]]. clear K.
  rewrite A5, B5 in H1. rewrite A6, B6 in H2.
  set (y := scale (1 / (1 + r)) t) in *.
  assert (Et : t = scale (1 + r) y) by (unfold y; rewrite scale_scale; replace ((1 + r) * (1 / (1 + r))) with 1 by (field; lra); symmetry; apply scale_1).
  assert (Et' : t' = scale (1 + r') y) by (rewrite H1, scale_scale; replace ((1 + r') * (1 / (1 + r'))) with 1 by (field; lra); symmetry; apply scale_1).
  assert (Dt : dot t t = (1 + r) * (1 + r) * dot y y) by (rewrite Et, dot_scale_l, dot_scale_r; ring).
  assert (Dt' : dot t' t' = (1 + r') * (1 + r') * dot y y) by (rewrite Et', dot_scale_l, dot_scale_r; ring).
  set (q := R_sqrt.sqrt (1 - r * r - dot t t / (c * c))) in *. set (q' := R_sqrt.sqrt (1 - r' * r' - dot t' t' / (c * c))) in *.
  assert (Q := sqrt_sqrt (1 - r * r - dot t t / (c * c)) ltac:(lra)). assert (Q' := sqrt_sqrt (1 - r' * r' - dot t' t' / (c * c)) ltac:(lra)).
  fold q in Q. fold q' in Q'. rewrite Dt in Q. rewrite Dt' in Q'. set (k := dot y y / (c * c)).
  replace ((1 + r) * (1 + r) * dot y y / (c * c)) with ((1 + r) * (1 + r) * k) in Q by (unfold k; field; lra).
  replace ((1 + r') * (1 + r') * dot y y / (c * c)) with ((1 + r') * (1 + r') * k) in Q' by (unfold k; field; lra).
  assert (Hz : q / (1 + r) = q' / (1 + r')) by (apply (Rmult_eq_reg_l c); [lra|lra]).
  set (z := q / (1 + r)) in *. assert (Eq : q = z * (1 + r)) by (unfold z; field; lra). assert (Eq' : q' = z * (1 + r')) by (rewrite Hz; field; lra).
  rewrite Eq in Q. rewrite Eq' in Q'.
  assert (F : (1 + r) * (z * z + k) = 1 - r) by (apply (Rmult_eq_reg_l (1 + r)); [nra|lra]).
  assert (F' : (1 + r') * (z * z + k) = 1 - r') by (apply (Rmult_eq_reg_l (1 + r')); [nra|lra]).
  assert (Err : r = r'). { assert (G : (r - r') * (z * z + k + 1) = 0) by lra. apply Rmult_integral in G. destruct G as [G|G]; [lra|].
    assert (0 <= k) by (unfold k; apply Rmult_le_pos; [apply dot_pos|left; apply Rinv_0_lt_compat; nra]). nra. }
  rewrite A3, B3, Et, Et', Err. reflexivity.
Qed.
(** ** C80_same_epoch *)
Theorem C80_same_epoch : forall old r0 d0 pr pd px rv ep, 1e-7 <= px -> slow r0 d0 pr pd px rv -> old = false \/ rv <> 0 ->
  0 <= r0 < 2 * PI -> - (PI / 2) < d0 < PI / 2 ->
  palPm (T := R) old r0 d0 pr pd px rv ep ep = Some (r0, d0).
Proof.
  intros old r0 d0 pr pd px rv ep Hp Hs Ho Hr Hd. destruct (star_motion old r0 d0 pr pd px rv Hp Hs Ho) as [iw [V [d [E [Hv _]]]]].
  destruct (pm_val old r0 d0 pr pd px rv ep ep iw _ V E Hv) as [A _]. cbv zeta in A. rewrite Rminus_eq_0, Rmult_0_r, (emission_0 _ V Hv) in A.
  set (P := star r0 d0 px) in *. replace (along P V 0) with P in A by (unfold along; destruct P as [p1 p2 p3], V as [v1 v2 v3]; vnorm; f_equal; ring).
  assert (Pi := PI_RGT_0). assert (D0 : 0 < distance px) by (unfold distance; repeat apply Rdiv_lt_0_compat; lra).
  assert (U := dir_unit r0 d0). assert (NP : norm P = distance px) by (unfold P, star; rewrite norm_scale, (norm_unit _ U) by lra; ring).
  assert (N : P <> vzero) by (intro Z; rewrite Z in NP; unfold norm in NP; replace (dot vzero vzero) with 0 in NP by (vnorm; ring); rewrite sqrt_0 in NP; lra).
  rewrite (A N). assert (D := C2s_anp_dir P N). destruct (C2s_anp_range P) as [R1 R2].
  replace (scale (1 / norm P) P) with (dir r0 d0) in D.
  2:{ rewrite NP. unfold P, star. rewrite scale_scale. replace (1 / distance px * distance px) with 1 by (field; lra). symmetry. apply scale_1. }
  assert (EL := dir_inj_lat _ _ _ _ D ltac:(lra) ltac:(lra)). symmetry in D. assert (EA := dir_inj_lon _ _ _ _ D ltac:(lra) ltac:(lra)).
  rewrite EL. rewrite (cong_range_eq _ _ R1 Hr (cong_sym _ _ EA)). reflexivity.
Qed.

(** ** C80_proper_motion: the rate of change of the place, per year, at the catalogue's epoch is the proper motion given. *)
Definition place (old : bool) (r0 d0 pr pd px rv ep0 ep : R) : vec R :=
  match palPm (T := R) old r0 d0 pr pd px rv ep0 ep with Some (r1, d1) => dir r1 d1 | None => vzero end.
Lemma emission_deriv : forall P V, P <> vzero -> dot V V < lightspeed * lightspeed ->
  is_derive (fun dt : R => emission P V dt) 0 (1 / (1 + dot P V / (lightspeed * norm P))).
Proof.
  intros P V HP Hv. assert (C := lightspeed_pos). set (c := lightspeed) in *. set (n := norm P). assert (Hn : 0 < n) by (apply norm_gt0; exact HP).
  set (v2 := dot V V) in *. set (b := dot P V). set (m := c * c - v2). assert (Hm : 0 < m) by (unfold m; lra).
  assert (Hb : Rabs b < n * c).
  { assert (B := cauchy_abs P V). fold b n in B. assert (N := norm_sq V). fold v2 in N. assert (N0 := norm_pos V). assert (norm V < c) by (destruct (Rlt_dec (norm V) c); [assumption|exfalso; nra]). nra. }
  apply Rabs_lt_between in Hb. set (t1 := n / c). assert (Et : c * t1 = n) by (unfold t1; field; lra).
  assert (E : forall dt, emission P V dt = dt + (t1 - (- (b + (dt + t1) * v2) + R_sqrt.sqrt ((b + (dt + t1) * v2) * (b + (dt + t1) * v2) + m * (n * n + 2 * (dt + t1) * b + (dt + t1) * (dt + t1) * v2))) / m)).
  { intro dt. unfold emission. fold c n. change (n / c) with t1. unfold tl2. fold v2 m.
    replace (dot (along P V (dt + t1)) V) with (b + (dt + t1) * v2) by (unfold b, v2, along; destruct P as [p1 p2 p3], V as [v1 w2 v3]; vnorm; ring).
    replace (dot (along P V (dt + t1)) (along P V (dt + t1))) with (n * n + 2 * (dt + t1) * b + (dt + t1) * (dt + t1) * v2)
      by (unfold n, b, v2, along; rewrite norm_sq; destruct P as [p1 p2 p3], V as [v1 w2 v3]; vnorm; ring). reflexivity. }
  apply is_derive_ext with (1 := fun dt => eq_sym (E dt)). 
  set (q := b + c * n). assert (Hq : 0 < q) by (unfold q; nra).
  assert (Eq : (b + (0 + t1) * v2) * (b + (0 + t1) * v2) + m * (n * n + 2 * (0 + t1) * b + (0 + t1) * (0 + t1) * v2) = q * q).
  { unfold q, m. replace n with (c * t1). ring. }
  auto_derive.
  - rewrite Eq. nra.
  - rewrite Eq. change (sqrtR (q * q)) with (R_sqrt.sqrt (q * q)). rewrite (sqrt_square q) by lra.
    replace (1 * v2 * (b + (0 + t1) * v2) + (b + (0 + t1) * v2) * (1 * v2) + m * (2 * 1 * b + (1 * (0 + t1) + (0 + t1) * 1) * v2)) with (2 * (c * c) * (b + t1 * v2)) by (unfold m; ring).
    replace (1 / (1 + b / (c * n))) with (c * n / q) by (unfold q; field; split; [unfold q in Hq; lra|nra]).
    apply (Rmult_eq_reg_r (m * q)); [|nra].
    transitivity (m * q + (v2 * q - c * c * (b + t1 * v2))); [field; lra|]. transitivity (c * n * m); [|field; lra].
    unfold q, m. rewrite <- Et. ring.
Qed.
Lemma dir_deriv : forall (p v n b v2 : R), 0 < n -> is_derive (fun s : R => (p + s * v) / R_sqrt.sqrt (n * n + 2 * s * b + s * s * v2)) 0 (v / n - p * b / (n * n * n)).
Proof.
  intros p v n b v2 Hn. assert (E : n * n + 2 * 0 * b + 0 * 0 * v2 = n * n) by ring. assert (S : R_sqrt.sqrt (n * n) = n) by (apply sqrt_square; lra).
  auto_derive.
  - rewrite E. split; [nra|]. split; [|exact I]. change (sqrtR (n * n)) with (R_sqrt.sqrt (n * n)). rewrite S. lra.
  - rewrite E. change (sqrtR (n * n)) with (R_sqrt.sqrt (n * n)). rewrite S. field. lra.
Qed.
Theorem C80_proper_motion : forall old r0 d0 pr pd px rv ep0, 1e-7 <= px -> slow r0 d0 pr pd px rv -> old = false \/ rv <> 0 ->
  exists D, let x := place old r0 d0 pr pd px rv ep0 in
    is_derive (fun ep => vx (x ep)) ep0 (vx D) /\ is_derive (fun ep => vy (x ep)) ep0 (vy D) /\ is_derive (fun ep => vz (x ep)) ep0 (vz D) /\
    norm (vsub D (rates r0 d0 pr pd)) <= 1e-39 * norm (rates r0 d0 pr pd).
Proof.
  intros old r0 d0 pr pd px rv ep0 Hp Hs Ho. destruct (star_motion old r0 d0 pr pd px rv Hp Hs Ho) as [iw [V [d [E [Hv [_ [_ [Ht [Hd Hr]]]]]]]]].
  set (P := star r0 d0 px) in *. change light with lightspeed in *. assert (C := lightspeed_pos).
  assert (Pi := PI_RGT_0). assert (D0 : 0 < distance px) by (unfold distance; repeat apply Rdiv_lt_0_compat; lra).
  assert (U := dir_unit r0 d0). assert (NP : norm P = distance px) by (unfold P, star; rewrite norm_scale, (norm_unit _ U) by lra; ring).
  assert (N : P <> vzero) by (intro Z; rewrite Z in NP; unfold norm in NP; replace (dot vzero vzero) with 0 in NP by (vnorm; ring); rewrite sqrt_0 in NP; lra).
  set (n := distance px) in *. set (u := dir r0 d0) in *. set (v2 := dot V V). set (b := dot P V).
  assert (Eb : b = n * dot u V) by (unfold b, P, star; rewrite dot_scale_l; reflexivity).
  assert (EP : P = scale n u) by reflexivity.
  set (be := dot u V / lightspeed) in *. apply Rcomplements.Rabs_le_between in Hr.
  set (S := fun ep : R => emission P V (365.25 * (ep - ep0))).
  assert (DS : is_derive S ep0 (365.25 * (1 / (1 + be)))).
  { assert (D1 := emission_deriv P V N Hv). replace (dot P V / (lightspeed * norm P)) with be in D1 by (unfold be; fold b; rewrite Eb, NP; field; lra).
    assert (D2 : is_derive (fun ep : R => 365.25 * (ep - ep0)) ep0 365.25) by (auto_derive; [exact I|ring]).
    refine (is_derive_comp (fun dt : R => emission P V dt) (fun ep => 365.25 * (ep - ep0)) ep0 _ _ _ D2).
    replace (365.25 * (ep0 - ep0)) with 0 by ring. exact D1. }
  assert (S0 : S ep0 = 0) by (unfold S; rewrite Rminus_eq_0, Rmult_0_r; exact (emission_0 P V Hv)).
  assert (EX : forall ep, place old r0 d0 pr pd px rv ep0 ep = scale (1 / R_sqrt.sqrt (n * n + 2 * S ep * b + S ep * S ep * v2)) (along P V (S ep))).
  { intro ep. unfold place. destruct (pm_val old r0 d0 pr pd px rv ep0 ep iw P V E Hv) as [A B]. cbv zeta in A, B. fold (S ep) in A, B. 
    set (Q := along P V (S ep)) in *. replace (n * n + 2 * S ep * b + S ep * S ep * v2) with (dot Q Q).
    2:{ unfold Q, b, v2. rewrite <- NP, norm_sq. unfold along. destruct P as [p1 p2 p3], V as [v1 w2 v3]; vnorm; ring. }
    change (R_sqrt.sqrt (dot Q Q)) with (norm Q). destruct (vdec Q) as [Z|NQ]; [rewrite (B Z), Z; vnorm; f_equal; ring|]. rewrite (A NQ). apply C2s_anp_dir. exact NQ. }
  exists (scale (365.25 * (1 / (1 + be))) (vsub (scale (1 / n) V) (scale (b / (n * n * n)) P))). cbv zeta.
  assert (G : forall (pi : R) (vi : R) (f : R -> R), (forall ep, f ep = (1 / R_sqrt.sqrt (n * n + 2 * S ep * b + S ep * S ep * v2)) * (pi + S ep * vi)) ->
     is_derive f ep0 ((365.25 * (1 / (1 + be))) * (1 / n * vi - b / (n * n * n) * pi))).
  { intros pi vi f Hf. apply (is_derive_ext (fun ep => (fun s : R => (pi + s * vi) / R_sqrt.sqrt (n * n + 2 * s * b + s * s * v2)) (S ep))).
    - intro t. rewrite Hf. match goal with |- @eq _ ?a ?b => change (@eq R a b) end. unfold Rdiv. ring.
    - replace ((365.25 * (1 / (1 + be))) * (1 / n * vi - b / (n * n * n) * pi)) with ((365.25 * (1 / (1 + be))) * (vi / n - pi * b / (n * n * n))) by (unfold Rdiv; ring).
      refine (is_derive_comp (fun s : R => (pi + s * vi) / R_sqrt.sqrt (n * n + 2 * s * b + s * s * v2)) S ep0 _ _ _ DS). rewrite S0. apply dir_deriv. exact D0. }
  split; [|split; [|split]].
  - apply (G (vx P) (vx V)). intro ep. rewrite EX. reflexivity.
  - apply (G (vy P) (vy V)). intro ep. rewrite EX. reflexivity.
  - apply (G (vz P) (vz V)). intro ep. rewrite EX. reflexivity.
  - set (w := rates r0 d0 pr pd) in *.
    assert (F : scale (365.25 * (1 / (1 + be))) (vsub (scale (1 / n) V) (scale (b / (n * n * n)) P)) = scale (d / (1 + be)) w).
    { replace (vsub (scale (1 / n) V) (scale (b / (n * n * n)) P)) with (scale (1 / n) (vsub V (scale (dot u V) u))).
      2:{ rewrite EP, Eb. set (z := dot u V). clearbody z. clear - D0. destruct u as [u1 u2 u3], V as [v1 w2 v3]; vnorm; f_equal; field; lra. }
      rewrite Ht. unfold catalogue_motion. fold n w. rewrite !scale_scale. f_equal. generalize 365.25 (Rgt_not_eq 365.25 0 ltac:(lra)). intros y Hy. field. split; [lra|]. split; [exact Hy|lra]. }
    rewrite F. replace (vsub (scale (d / (1 + be)) w) w) with (scale ((d - (1 + be)) / (1 + be)) w) by (clear - Hr; destruct w as [w1 w2 w3]; vnorm; f_equal; field; lra).
    assert (NS : forall q v, norm (scale q v) = Rabs q * norm v).
    { intros q v. unfold norm. rewrite dot_scale_l, dot_scale_r, <- Rmult_assoc, sqrt_mult_alt by nra. f_equal. exact (sqrt_Rsqr_abs q). }
    rewrite NS. apply Rmult_le_compat_r; [apply norm_pos|]. unfold Rdiv. rewrite Rabs_mult, (Rabs_minus_sym d). rewrite (Rabs_pos_eq (/ (1 + be))) by (left; apply Rinv_0_lt_compat; lra).
    assert (I : / (1 + be) <= / 0.86) by (apply Rinv_le_contravar; lra). assert (I0 : 0 < / (1 + be)) by (apply Rinv_0_lt_compat; lra). assert (A0 := Rabs_pos (1 + be - d)).
    apply Rle_trans with (1e-40 * / 0.86); [apply Rmult_le_compat; lra|lra].
Qed.

(** ** C80_no_parallax: with no (or a negative or tiny) parallax, any proper motion above 3.3 milliarcseconds per year is
    silently ignored: the star is taken to be ten megaparsecs away, and so to be moving too fast.  (palPm.c's notes say only that the
    parallax "should not be zero".) *)
Lemma loop_zero : forall n i s, b_r s = 0 -> b_t s = 0 -> b_del s = 0 -> snd (fst (starpv_loop (T := R) n i 0 0 s)) = 0.
Proof.
  induction n as [|n IH]; intros i s Hr Ht Hd; [exact Hd|].
  rewrite loop_S by (rewrite Hr, Ht; lra). cbv zeta. rewrite Hr, Ht. assert (G0 : g 0 0 = 0) by (unfold g; replace (1 - (0 * 0 + 0 * 0)) with 1 by ring; rewrite sqrt_1; ring).
  rewrite G0. destruct (_ && _ && _); [reflexivity|]. apply IH; cbn [b_r b_t b_del]; try ring; reflexivity.
Qed.
Lemma dot_rates : forall a b pr pd, dot (rates a b pr pd) (rates a b pr pd) = (pr * cosR b) * (pr * cosR b) + pd * pd.
Proof.
  intros a b pr pd. assert (A := sin2_cos2 a). assert (B := sin2_cos2 b). unfold Rsqr in A, B. unfold rates, east, north. vnorm.
  generalize dependent (sinR a). intros sa A. generalize dependent (cosR a). intros ca A. generalize dependent (sinR b). intros sb B. generalize dependent (cosR b). intros cb B.
  transitivity (pr * cb * (pr * cb) * (sa * sa + ca * ca) + pd * pd * (sb * sb * (sa * sa + ca * ca) + cb * cb)); [ring|]. rewrite A. rewrite !Rmult_1_r, B. ring.
Qed.
Theorem C80_no_parallax : forall old r0 d0 pr pd px rv ep0 ep1, px < 1e-7 -> (1.6e-8) ^ 2 <= (pr * cosR d0) ^ 2 + pd ^ 2 ->
  0 <= r0 < 2 * PI -> - (PI / 2) < d0 < PI / 2 ->
  palPm (T := R) old r0 d0 pr pd px rv ep0 ep1 = Some (r0, d0).
Proof.
  intros old r0 d0 pr pd px rv ep0 ep1 Hp Hm Hr Hd. destruct (eraStarpv old r0 d0 pr pd px rv) as [iw p] eqn:E.
  assert (C := lightspeed_pos). assert (Pi := PI_RGT_0). assert (Pi4 := PI_4). assert (U := dir_unit r0 d0).
  set (k := 648000 / PI / 1e-7). assert (Hk : 2.06e12 <= k) by (unfold k; interval).
  assert (Ep : p = PV (scale k (dir r0 d0)) vzero).
  { unfold eraStarpv in E. rops. replace (litR 1e-7) with 1e-7 in E by (rlit; lra). rewrite Rleb_false in E by lra. rewrite DC_val in E.
    replace (DR2AS / 1e-7) with k in E by (unfold k, DR2AS; rn; reflexivity). rewrite S2pv_val in E. cbn [pvp pvv] in E.
    replace (DJY (T := R)) with 365.25 in E by (unfold DJY; rn; lra).
    match type of E with context [vadd (scale ?x (dir r0 d0)) (scale k ?w)] => set (vr := x) in *; set (vt := scale k w) in * end.
    assert (Et : vt = scale (k / 365.25) (rates r0 d0 pr pd)).
    { unfold vt, rates. generalize 365.25 (Rgt_not_eq 365.25 0 ltac:(lra)). intros y Hy. unfold east, north. vnorm. f_equal; field; exact Hy. }
    assert (Ut : dot (dir r0 d0) vt = 0) by (rewrite Et, dot_scale_r; unfold rates; rewrite perp_dir; ring).
    assert (Nt : 90 * 90 <= dot vt vt). { rewrite Et, dot_scale_l, dot_scale_r, dot_rates. cbn [Rpow_def.pow] in Hm. rewrite !Rmult_1_r in Hm.
      assert (Y : 5.63e9 <= k / 365.25) by lra. assert (Y2 : 5.63e9 * 5.63e9 <= k / 365.25 * (k / 365.25)) by nra. rewrite <- Rmult_assoc.
      apply Rle_trans with (5.63e9 * 5.63e9 * (1.6e-8 * 1.6e-8)); [lra|]. apply Rmult_le_compat; nra. }
    rewrite !eraPm_norm in E. set (obs := vadd (scale vr (dir r0 d0)) vt) in *.
    assert (No : 90 <= norm obs).
    { assert (O : dot obs obs = vr * vr + dot vt vt). { unfold obs. transitivity (vr * vr * dot (dir r0 d0) (dir r0 d0) + 2 * vr * dot (dir r0 d0) vt + dot vt vt); [destruct (dir r0 d0) as [u1 u2 u3], vt as [t1 t2 t3]; vnorm; ring|]. rewrite Ut. unfold unitv in U. rewrite U. ring. }
      assert (N := norm_sq obs). assert (N0 := norm_pos obs). destruct (Rle_dec 90 (norm obs)) as [|Q]; [assumption|]. exfalso. nra. }
    replace (litR 0.5) with 0.5 in E by (rlit; lra). rewrite (Rltb_true 0.5 (norm obs / lightspeed)) in E.
    2:{ apply (Rmult_lt_reg_r lightspeed); [lra|]. replace (norm obs / lightspeed * lightspeed) with (norm obs) by (field; lra). lra. }
    replace (eraZp (T := R)) with vzero in E by (unfold eraZp; rn; reflexivity).
    set (x := snd (eraPn (scale k (dir r0 d0)))) in *. rewrite !eraPdp_dot in E. replace (dot x vzero) with 0 in E by (destruct x as [x1 x2 x3]; vnorm; ring).
    rewrite !eraSxp_scale in E. replace (eraPmp (T := R) vzero (scale 0 x)) with vzero in E by (unfold eraPmp; rops; destruct x as [x1 x2 x3]; vnorm; f_equal; ring).
    rewrite eraPm_norm in E. replace (norm vzero) with 0 in E by (unfold norm; replace (dot vzero vzero) with 0 by (vnorm; ring); symmetry; apply sqrt_0).
    replace (0 / lightspeed) with 0 in E by (field; lra). replace (litR 0.0) with 0 in E by (rlit; lra).
    assert (LZ := loop_zero 100 0 (Betas 0 0 0 0 0 0 0 0) eq_refl eq_refl eq_refl).
    destruct (starpv_loop 100 0 0 0 (Betas 0 0 0 0 0 0 0 0)) as [[d del] st]. cbn [fst snd] in LZ. subst del.
    apply (f_equal snd) in E. cbn [snd] in E. rewrite <- E. f_equal. 
    match goal with |- eraPpp (if old then ?a else ?b) ?t = _ => assert (Ea : (if old then a else b) = vzero); [|assert (Eb : t = vzero)] end.
    - assert (SZ : forall q v, q = 0 -> scale q v = vzero) by (intros q [v1 v2 v3] ->; vnorm; f_equal; ring).
      destruct old; rewrite eraSxp_scale; [rewrite scale_scale|]; apply SZ; ring.
    - rewrite eraSxp_scale. unfold scale, vzero. cbn [vx vy vz]. f_equal; ring.
    - rewrite Ea, Eb. unfold eraPpp, vzero. cbn [vx vy vz]. rops. f_equal; ring. }
  subst p. assert (HV : dot vzero vzero < lightspeed * lightspeed) by (replace (dot vzero vzero) with 0 by (vnorm; ring); nra).
  set (P := scale k (dir r0 d0)) in *.
  destruct (pm_val old r0 d0 pr pd px rv ep0 ep1 iw P vzero E HV) as [A _]. cbv zeta in A.
  match type of A with context [along P vzero ?s] => replace (along P vzero s) with P in A by (generalize s; intro s0; unfold along; destruct P as [p1 p2 p3]; vnorm; f_equal; ring) end.
  assert (NP : norm P = k) by (unfold P; rewrite norm_scale, (norm_unit _ U) by lra; ring).
  assert (N : P <> vzero) by (intro Z; rewrite Z in NP; unfold norm in NP; replace (dot vzero vzero) with 0 in NP by (vnorm; ring); rewrite sqrt_0 in NP; lra).
  rewrite (A N). assert (D := C2s_anp_dir P N). destruct (C2s_anp_range P) as [R1 R2].
  replace (scale (1 / norm P) P) with (dir r0 d0) in D.
  2:{ rewrite NP. unfold P. rewrite scale_scale. replace (1 / k * k) with 1 by (field; lra). symmetry. apply scale_1. }
  assert (EL := dir_inj_lat _ _ _ _ D ltac:(lra) ltac:(lra)). symmetry in D. assert (EA := dir_inj_lon _ _ _ _ D ltac:(lra) ltac:(lra)).
  rewrite EL. rewrite (cong_range_eq _ _ R1 Hr (cong_sym _ _ EA)). reflexivity.
Qed.

(** Non-vacuity: Barnard's star *)
Example C80_eg : 1e-7 <= 0.5469 /\ slow 4.7028 0.0819 (-3.87e-6) 5.0245e-5 0.5469 (-110.5) /\ -110.5 <> 0.
Proof.
  split; [lra|]. split; [|lra]. unfold slow. cbn [Rpow_def.pow]. rewrite !Rmult_1_r, norm_sq. unfold catalogue_motion. rewrite dot_scale_l, dot_scale_r, dot_rates.
  unfold catalogue_radial, distance, light. interval.
Qed.
(** and a star of the same proper motion with its parallax left at zero does not move *)
Example C80_no_parallax_eg : 0 < 1e-7 /\ (1.6e-8) ^ 2 <= (-3.87e-6 * cosR 0.0819) ^ 2 + 5.0245e-5 ^ 2.
Proof. split; [lra|]. interval. Qed.
