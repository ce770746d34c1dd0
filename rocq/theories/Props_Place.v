(** * Theorems: mean, apparent and observed place (C51-C54) *)
From Coq Require Import Reals ZArith Lra Lia Psatz Bool Ascii String.
From Verif Require Import Num NumR Erfa Erfa2 Geom M_Sphere P_Sphere M_Time M_Frames P_Frames P_Eterms Props_Frames M_Place P_Place.
From Interval Require Import Tactic.
Local Open Scope R_scope.

(** ** Specification vocabulary *)
(** distance between two directions (the chord: the angle to first order, never more than it) *)
Definition chord (a1 d1 a2 d2 : R) : R := norm (vsub (dir a1 d1) (dir a2 d2)).
(** parameters such as palMappa produces for an Earth-like observer: speed at most 1.1e-4 c,
    2GM/(c^2 r) at most 2.1e-8, the Lorentz factor consistent with the velocity *)
Definition earthlike (a : amprms R) : Prop :=
  unitv (am_ehn a) /\ 0 <= am_gr2e a <= 21 / 10 ^ 9 /\ norm (am_abv a) <= 11 / 100000 /\
  am_ab1 a = sqrtR (1 - dot (am_abv a) (am_abv a)) /\ rotation (am_npb a).
(** the star is at least 0.81 degrees (three solar radii) from the centre of the Sun,
    whose direction is - ehn *)
Definition clear_of_sun (a : amprms R) (ra dec : R) : Prop := 1 / 10000 <= 1 + dot (dir ra dec) (am_ehn a).

Lemma earthlike_b : forall a, earthlike a ->
  am_ab1 a * am_ab1 a = 1 - dot (am_abv a) (am_abv a) /\ 0 < am_ab1 a.
Proof.
  intros a (_ & _ & N & E & _). assert (Q := norm_sq (am_abv a)). assert (P := norm_pos (am_abv a)).
  assert (S : dot (am_abv a) (am_abv a) <= 1/2) by nra. rewrite E. split.
  - apply sqrt_sqrt. lra.
  - apply sqrt_lt_R0. lra.
Qed.

(** ** C53: palAmpqk undoes palMapqkz *)
Lemma palAmpqk_near : forall a rm dm s0 e1, earthlike a -> clear_of_sun a rm dm -> unitv s0 -> e1 <= 1 / 10 ^ 10 ->
  let u := unit_of (defl (am_gr2e a) (am_ehn a) (dir rm dm)) in
  norm (vsub s0 (unit_of (aber (am_ab1 a) (am_abv a) u u))) <= e1 ->
  let p1 := repeat_n 2 (aq_aberr (am_ab1 a) (am_abv a) s0) s0 in
  let p := repeat_n 5 (aq_deflect (am_gr2e a) (am_ehn a) p1) p1 in
  unitv p /\ norm (vsub p (dir rm dm)) <= 11 / 10 ^ 12 + 11 / 10 * e1.
Proof.
  intros a rm dm s0 e1 H Hs Us L1 u E1 p1 p.
  destruct (earthlike_b a H) as [B B0]. destruct H as (U & G & N & _ & R).
  assert (Up := dir_unit rm dm). unfold clear_of_sun in Hs.
  assert (LB := lam_bounds (am_gr2e a) (am_ehn a) (dir rm dm) G U Up Hs).
  set (f := defl (am_gr2e a) (am_ehn a) (dir rm dm)) in *.
  assert (Uu : unitv u) by (apply unit_of_unitv, norm_nz; lra).
  assert (Z1 : 0 <= e1) by (eapply Rle_trans; [apply norm_pos|exact E1]).
  destruct (aq_two (am_ab1 a) (am_abv a) B B0 N u s0 e1 Uu Us E1 ltac:(lra)) as [X1 X2]. fold p1 in X1, X2.
  assert (D1 : norm (vsub p1 f) <= 29 / 10 ^ 13 + 1003 / 1000 * e1 + 45 / 10 ^ 13).
  { replace (vsub p1 f) with (vadd (vsub p1 u) (vsub u f)) by vring.
    eapply Rle_trans; [apply norm_triangle|]. apply Rplus_le_compat; [exact X2|].
    unfold f at 1. rewrite (defl_scale (am_gr2e a) (am_ehn a) (dir rm dm)) by (fold f; lra). fold f. fold u.
    replace (vsub u (scale (norm f) u)) with (scale (1 - norm f) u) by vring.
    rewrite norm_scale_abs, (norm_unit u Uu), Rabs_minus_sym, Rabs_pos_eq by lra. lra. }
  destruct (df_five (am_gr2e a) (am_ehn a) (dir rm dm) G U Up Hs p1 _ D1 ltac:(lra)) as [Y1 Y2].
  split; [exact Y1|]. eapply Rle_trans; [exact Y2|]. lra.
Qed.

Lemma palMapqkz_dir : forall a rm dm, earthlike a ->
  let f := defl (am_gr2e a) (am_ehn a) (dir rm dm) in
  let '(ra, da) := palMapqkz rm dm a in
  dir ra da = mapp (am_npb a) (unit_of (aber (am_ab1 a) (am_abv a) f f)) /\
  norm (vsub (unit_of (aber (am_ab1 a) (am_abv a) f f)) (unit_of (aber (am_ab1 a) (am_abv a) (unit_of f) (unit_of f))))
    <= 12 / 10 ^ 5 * (norm f - 1) /\ 0 < norm (aber (am_ab1 a) (am_abv a) f f).
Proof.
  intros a rm dm H f. destruct (earthlike_b a H) as [B B0]. destruct H as (U & G & N & _ & R).
  assert (Up := dir_unit rm dm).
  destruct (defl_any (am_gr2e a) (am_ehn a) (dir rm dm) G U Up) as [L1 L2]. fold f in L1, L2.
  assert (F0 : 0 < norm f) by lra. assert (S := defl_scale (am_gr2e a) (am_ehn a) (dir rm dm) F0). fold f in S.
  assert (Uu : unitv (unit_of f)) by (apply unit_of_unitv, norm_nz; lra).
  assert (D0 : norm (vsub f (scale (norm f) (unit_of f))) <= 0).
  { rewrite <- S. replace (vsub f f) with vzero by vring. rewrite norm_zero. lra. }
  destruct (aber_near (am_ab1 a) (am_abv a) (unit_of f) f (norm f) 0 B B0 N Uu ltac:(lra) D0 ltac:(lra)) as [Z1 Z2].
  rewrite <- S in Z1, Z2.
  assert (W : 0 < norm (aber (am_ab1 a) (am_abv a) f f)).
  { destruct (norm_pos (aber (am_ab1 a) (am_abv a) f f)); [easy|congruence]. }
  unfold palMapqkz. cbv zeta. rewrite eraS2c_dir, mq_deflect_val. fold f. rewrite mq_aberr_val.
  rewrite (surjective_pairing (mq_radec _ _)).
  split; [now apply mq_radec_dir|]. split; [lra|exact W].
Qed.

Lemma palAmpqk_dir : forall a ra da,
  let p2 := mapp (mtr (am_npb a)) (dir ra da) in
  let p1 := repeat_n 2 (aq_aberr (am_ab1 a) (am_abv a) p2) p2 in
  let p := repeat_n 5 (aq_deflect (am_gr2e a) (am_ehn a) p1) p1 in
  unitv p -> let '(rm, dm) := palAmpqk ra da a in dir rm dm = p.
Proof.
  intros a ra da p2 p1 p H. unfold palAmpqk. cbv zeta. rewrite eraS2c_dir, eraTrxp_mapp. fold p2. fold p1. fold p.
  rewrite (surjective_pairing (eraC2s p)). now apply C2s_anp_unit.
Qed.

Lemma palAmpqk_dir' : forall a ra da p2 p1 p,
  mapp (mtr (am_npb a)) (dir ra da) = p2 ->
  repeat_n 2 (aq_aberr (am_ab1 a) (am_abv a) p2) p2 = p1 ->
  repeat_n 5 (aq_deflect (am_gr2e a) (am_ehn a) p1) p1 = p ->
  unitv p -> let '(rm, dm) := palAmpqk ra da a in dir rm dm = p.
Proof.
  intros a ra da p2 p1 p E2 E1 E0 H. subst p2 p1 p. now apply palAmpqk_dir.
Qed.
Lemma repeat_fix : forall B n (f : B -> B) x, f x = x -> repeat_n n f x = x.
Proof. intros B n f x H. induction n as [|n IH]; [reflexivity|]. cbn [repeat_n]. now rewrite H. Qed.

(** the inverse tolerates an error [e] in the apparent place *)
Theorem C53_inverse_stable : forall a rm dm ra' da' e, earthlike a -> clear_of_sun a rm dm -> e <= 9 / 10 ^ 11 ->
  (let '(ra, da) := palMapqkz rm dm a in chord ra' da' ra da <= e) ->
  let '(rm', dm') := palAmpqk ra' da' a in chord rm' dm' rm dm <= 12 / 10 ^ 12 + 11 / 10 * e.
Proof.
  intros a rm dm ra' da' e H Hs Le. assert (Q := palMapqkz_dir a rm dm H). cbv zeta in Q.
  assert (HH := H). destruct H as (U & G & N & E & R).
  assert (LB := lam_bounds (am_gr2e a) (am_ehn a) (dir rm dm) G U (dir_unit rm dm) Hs).
  destruct (palMapqkz rm dm a) as [ra da]. destruct Q as (Q1 & Q2 & _).
  set (f := defl (am_gr2e a) (am_ehn a) (dir rm dm)) in *. intros Hc.
  set (p2 := mapp (mtr (am_npb a)) (dir ra' da')).
  assert (U2 : unitv p2) by (apply rot_unit; [now apply rotation_mtr|apply dir_unit]).
  assert (Hc' : norm (vsub p2 (unit_of (aber (am_ab1 a) (am_abv a) f f))) <= e).
  { unfold p2. rewrite <- (rot_app_tr (am_npb a) (unit_of _) R), <- Q1.
    rewrite <- mapp_vsub, norm_rot by now apply rotation_mtr. exact Hc. }
  destruct (palAmpqk_near a rm dm p2 (e + 55 / 10 ^ 17) HH Hs U2 ltac:(lra)) as [P1 P2].
  { cbv zeta. fold f.
    match goal with |- norm (vsub _ ?s) <= _ =>
      replace (vsub p2 s) with (vadd (vsub p2 (unit_of (aber (am_ab1 a) (am_abv a) f f))) (vsub (unit_of (aber (am_ab1 a) (am_abv a) f f)) s)) by vring end.
    eapply Rle_trans; [apply norm_triangle|]. lra. }
  assert (D := palAmpqk_dir a ra' da'). cbv zeta in D. fold p2 in D. specialize (D P1).
  destruct (palAmpqk ra' da' a) as [rm' dm']. unfold chord. rewrite D. eapply Rle_trans; [exact P2|]. lra.
Qed.
(** mean -> apparent -> mean: two and a half microarcseconds *)
Theorem C53_round_trip : forall a rm dm, earthlike a -> clear_of_sun a rm dm ->
  let '(ra, da) := palMapqkz rm dm a in
  let '(rm', dm') := palAmpqk ra da a in chord rm' dm' rm dm <= 12 / 10 ^ 12.
Proof.
  intros a rm dm H Hs. assert (Q := C53_inverse_stable a rm dm (fst (palMapqkz rm dm a)) (snd (palMapqkz rm dm a)) 0 H Hs ltac:(lra)).
  destruct (palMapqkz rm dm a) as [ra da]. cbn [fst snd] in Q.
  assert (C0 : chord ra da ra da <= 0). { unfold chord. replace (vsub (dir ra da) (dir ra da)) with vzero by vring. rewrite norm_zero. lra. }
  specialize (Q C0). destruct (palAmpqk ra da a) as [rm' dm']. lra.
Qed.
Theorem C53_ranges : forall ra da a rm dm,
  (let '(r, d) := palMapqkz rm dm a in 0 <= r < 2 * PI /\ - (PI / 2) <= d <= PI / 2) /\
  (let '(r, d) := palAmpqk ra da a in 0 <= r < 2 * PI /\ - (PI / 2) <= d <= PI / 2).
Proof.
  intros. split.
  - unfold palMapqkz. cbv zeta. rewrite (surjective_pairing (mq_radec _ _)). apply mq_radec_range.
  - unfold palAmpqk. cbv zeta. rewrite (surjective_pairing (eraC2s _)). apply C2s_anp_range.
Qed.
(** an observer at rest far from the Sun sees the mean place rotated, and the inverse is exact *)
Theorem C53_no_aberration : forall a rm dm, am_gr2e a = 0 -> am_abv a = vzero -> am_ab1 a = 1 -> rotation (am_npb a) ->
  let '(ra, da) := palMapqkz rm dm a in
  dir ra da = mapp (am_npb a) (dir rm dm) /\
  (unitv (am_ehn a) -> dot (dir rm dm) (am_ehn a) <> -1 ->
   let '(rm', dm') := palAmpqk ra da a in dir rm' dm' = dir rm dm).
Proof.
  intros a rm dm Hg Hv Hb R.
  assert (F : forall p, defl 0 (am_ehn a) p = p).
  { intros p. unfold defl. cbv zeta. replace (0 / Rmax (dot p (am_ehn a) + 1) (1 / 100000)) with 0 by (unfold Rdiv; ring). vring. }
  assert (B : forall p, aber 1 vzero p p = p) by (intros p; unfold aber; vring).
  assert (Q : dir (fst (palMapqkz rm dm a)) (snd (palMapqkz rm dm a)) = mapp (am_npb a) (dir rm dm)).
  { unfold palMapqkz. cbv zeta. rewrite (eraS2c_dir rm dm). rewrite mq_deflect_val. rewrite mq_aberr_val. rewrite Hg. rewrite Hv. rewrite Hb. rewrite (F (dir rm dm)). rewrite (B (dir rm dm)).
    rewrite mq_radec_dir; [|easy|rewrite norm_unit by apply dir_unit; lra]. now rewrite unit_of_unit by apply dir_unit. }
  destruct (palMapqkz rm dm a) as [ra da]. cbn [fst snd] in Q. split; [exact Q|]. intros U Hd.
  assert (Up := dir_unit rm dm).
  assert (S1 : forall s, unitv s -> aq_aberr 1 vzero s s = s).
  { intros s Us. assert (E : Gab 1 vzero s s = s). { unfold Gab. vcases. vnorm. f_equal; field. }
    rewrite aq_aberr_val; rewrite E; [now apply unit_of_unit|]. apply norm_nz. rewrite norm_unit by easy. lra. }
  assert (S2 : aq_deflect 0 (am_ehn a) (dir rm dm) (dir rm dm) = dir rm dm).
  { assert (E : Gdf 0 (am_ehn a) (dir rm dm) (dir rm dm) = dir rm dm).
    { unfold Gdf. cbv zeta. assert (N : 1 + dot (dir rm dm) (am_ehn a) <> 0) by lra.
      generalize dependent (dot (dir rm dm) (am_ehn a)). intros t _ N. generalize (dir rm dm). intros d.
      vd d. destruct (am_ehn a) as [e1 e2 e3]. unfold scale, vsub. cbn [vx vy vz]. f_equal; field; lra. }
    rewrite aq_deflect_val; rewrite E; [now apply unit_of_unit|apply dir_nz]. }
  apply (palAmpqk_dir' a ra da (dir rm dm) (dir rm dm) (dir rm dm)).
  - rewrite Q. apply (rot_app_tr (am_npb a) _ R).
  - rewrite Hv, Hb. apply repeat_fix, S1, Up.
  - rewrite Hg. apply repeat_fix, S2.
  - exact Up.
Qed.

(** ** C52: palMapqk with parallax, proper motion and radial velocity *)
(** the geocentric (unnormalised) direction of the star at the epoch of the parameters: the catalogue
    direction, moved by [am_pmt] years of space motion, less the observer's displacement times the parallax.
    [pr], [pd] rad/yr of coordinate ra and dec, [px] arcsec, [rv] km/s, 0.210945028 AU/yr per km/s *)
Definition east (rm : R) : vec R := V (- sinR rm) (cosR rm) 0.
Definition north (rm dm : R) : vec R := V (- (sinR dm * cosR rm)) (- (sinR dm * sinR rm)) (cosR dm).
Definition star_vec (a : amprms R) (rm dm pr pd px rv : R) : vec R :=
  let pxr := px * (PI / 648000) in
  let motion := vadd (vadd (scale (pr * cosR dm) (east rm)) (scale pd (north rm dm)))
                     (scale (210945028 / 10 ^ 9 * rv * pxr) (dir rm dm)) in
  vsub (vadd (dir rm dm) (scale (am_pmt a) motion)) (scale pxr (am_eb a)).

Lemma DAS2R_pi : (DAS2R : R) = PI / 648000.
Proof. unfold DAS2R; rn; field. Qed.
Lemma mq_star_val : forall a rm dm pr pd px rv,
  mq_star rm dm pr pd px rv (am_pmt a) (am_eb a) = star_vec a rm dm pr pd px rv.
Proof.
  intros. unfold mq_star, star_vec, east, north. cbv zeta. rewrite DAS2R_pi. rewrite eraS2c_dir.
  unfold dir, vsub, vadd, scale. cbn [vx vy vz]. rn. 
  replace (@lit R RA 0.210945028) with (210945028 / 10 ^ 9) by (rn; lra).
  generalize (cosR rm) (sinR rm) (cosR dm) (sinR dm) (PI / 648000). intros c1 s1 c2 s2 k.
  f_equal; field.
Qed.

(** palMapqk is palMapqkz at the star's geocentric direction, to [63e-10 * | |p| - 1 | + 1e-13] rad *)
Theorem C52_general : forall a rm dm pr pd px rv rm2 dm2 rho, earthlike a ->
  let p := star_vec a rm dm pr pd px rv in
  Rabs (norm p - 1) <= rho -> rho <= 1 / 10 -> dir rm2 dm2 = unit_of p ->
  let '(ra, da) := palMapqk rm dm pr pd px rv a in
  let '(ra2, da2) := palMapqkz rm2 dm2 a in
  chord ra da ra2 da2 <= 63 / 10 ^ 10 * rho + 1 / 10 ^ 13.
Proof.
  intros a rm dm pr pd px rv rm2 dm2 rho H p Hr Lr E.
  assert (Q := palMapqkz_dir a rm2 dm2 H). cbv zeta in Q.
  destruct (earthlike_b a H) as [B B0]. destruct H as (U & G & N & _ & R).
  destruct (palMapqkz rm2 dm2 a) as [ra2 da2]. destruct Q as (Q1 & Q2 & _).
  assert (Up := dir_unit rm2 dm2).
  destruct (defl_any (am_gr2e a) (am_ehn a) (dir rm2 dm2) G U Up) as [L1 L2].
  assert (S := defl_scale (am_gr2e a) (am_ehn a) (dir rm2 dm2) ltac:(lra)).
  assert (K : mq_aberr (am_ab1 a) (am_abv a) p (mq_deflect (am_gr2e a) (am_ehn a) (snd (eraPn p)))
    = aber (am_ab1 a) (am_abv a) p (defl (am_gr2e a) (am_ehn a) (dir rm2 dm2))).
  { apply Rabs_le_inv in Hr. assert (P0 : p <> vzero) by (apply norm_nz; lra).
    rewrite mq_aberr_val, mq_deflect_val, eraPn_unit by easy. now rewrite E. }
  set (f := defl (am_gr2e a) (am_ehn a) (dir rm2 dm2)) in *.
  assert (Uu : unitv (unit_of f)) by (apply unit_of_unitv, norm_nz; lra).
  assert (D0 : norm (vsub p f) <= rho + 1 / 10 ^ 5).
  { rewrite (sub_split p (dir rm2 dm2) f). eapply Rle_trans; [apply norm_triangle|].
    apply Rplus_le_compat; [|rewrite norm_sub_sym; exact L2].
    rewrite E. apply Rabs_le_inv in Hr. assert (P0 : p <> vzero) by (apply norm_nz; lra).
    assert (X : vsub p (unit_of p) = scale (norm p - 1) (unit_of p)).
    { unfold unit_of. rewrite scale_scale. replace ((norm p - 1) * (1 / norm p)) with (1 - 1 / norm p) by (field; lra).
      generalize (1 / norm p). intros k. clearbody p. vring. }
    rewrite X, norm_scale_abs, (norm_unit _ (unit_of_unitv p P0)), Rmult_1_r. apply Rabs_le; lra. }
  rewrite S in D0 at 1.
  destruct (aber_near (am_ab1 a) (am_abv a) (unit_of f) p (norm f) (rho + 1/10^5) B B0 N Uu ltac:(lra) D0 ltac:(lra)) as [Z1 Z2].
  rewrite <- S in Z1, Z2.
  unfold palMapqk. rewrite mq_star_val. fold p. rewrite (surjective_pairing (eraPn p)), K.
  rewrite (surjective_pairing (mq_radec _ _)).
  unfold chord. rewrite Q1, mq_radec_dir; [|easy|].
  2:{ destruct (norm_pos (aber (am_ab1 a) (am_abv a) p f)); [easy|congruence]. }
  rewrite <- mapp_vsub, norm_rot by easy.
  rewrite (sub_split _ (unit_of (aber (am_ab1 a) (am_abv a) (unit_of f) (unit_of f))) _).
  eapply Rle_trans; [apply norm_triangle|].
  rewrite (norm_sub_sym (unit_of (aber (am_ab1 a) (am_abv a) (unit_of f) (unit_of f)))). lra.
Qed.
Lemma star_vec_zero : forall a rm dm, star_vec a rm dm 0 0 0 0 = dir rm dm.
Proof.
  intros. unfold star_vec, east, north. cbv zeta. generalize (dir rm dm) (am_eb a) (am_pmt a). intros d v0 k.
  vd d. destruct v0 as [e1 e2 e3]. unfold vsub, vadd, scale. cbn [vx vy vz]. f_equal; ring.
Qed.
(** a star of no parallax, proper motion or radial velocity: the two routines agree to 1e-13 rad (20 nanoarcsec) *)
Theorem C52_zero_motion : forall a rm dm, earthlike a ->
  let '(ra, da) := palMapqk rm dm 0 0 0 0 a in
  let '(ra2, da2) := palMapqkz rm dm a in
  chord ra da ra2 da2 <= 1 / 10 ^ 13.
Proof.
  intros a rm dm H. assert (Q := C52_general a rm dm 0 0 0 0 rm dm 0 H). cbv zeta in Q. rewrite star_vec_zero in Q.
  rewrite (norm_unit _ (dir_unit rm dm)), (unit_of_unit _ (dir_unit rm dm)) in Q.
  specialize (Q ltac:(replace (1 - 1) with 0 by ring; rewrite Rabs_R0; lra) ltac:(lra) eq_refl).
  destruct (palMapqk rm dm 0 0 0 0 a) as [ra da]. destruct (palMapqkz rm dm a) as [ra2 da2]. lra.
Qed.
(** far from the Sun (no light deflection) they agree exactly *)
Theorem C52_no_deflection : forall a rm dm, am_gr2e a = 0 ->
  palMapqk rm dm 0 0 0 0 a = palMapqkz rm dm a.
Proof.
  intros a rm dm Hg.
  assert (F : forall p, defl 0 (am_ehn a) p = p).
  { intros p. unfold defl. cbv zeta. replace (0 / Rmax (dot p (am_ehn a) + 1) (1 / 100000)) with 0 by (unfold Rdiv; ring). vring. }
  unfold palMapqk, palMapqkz. rewrite mq_star_val, star_vec_zero. cbv zeta. rewrite (eraS2c_dir rm dm).
  rewrite (surjective_pairing (eraPn (dir rm dm))), eraPn_unit by apply dir_nz.
  rewrite (unit_of_unit _ (dir_unit rm dm)), mq_deflect_val, Hg, F. reflexivity.
Qed.
(** ... but not exactly when there is both deflection and aberration (palMapqk.c:159 uses the undeflected
    vector in the aberration formula, palMapqkz.c:138 the deflected one) *)
Definition demo_params : amprms R :=
  Amprms 0 (V 0 0 0) (V 0 1 0) (2 / 10 ^ 8) (V 0 (1 / 10000) 0) (sqrtR (1 - dot (V 0 (1/10000) 0) (V 0 (1/10000) 0))) mid.
Lemma demo_earthlike : earthlike demo_params.
Proof.
  unfold earthlike, demo_params. cbn [am_ehn am_gr2e am_abv am_ab1 am_npb]. repeat split; try lra.
  - unfold unitv, dot. cbn [vx vy vz]. lra.
  - apply norm_le; [lra|]. unfold dot. cbn [vx vy vz]. lra.
  - apply rotation_mid.
  - apply rotation_mid.
Qed.
Lemma demo_clear : clear_of_sun demo_params 0 0.
Proof.
  unfold clear_of_sun, demo_params, dir, dot. cbn [am_ehn vx vy vz]. rewrite sin_0, cos_0. lra.
Qed.
Theorem C52_exact_refuted : earthlike demo_params /\
  palMapqk 0 0 0 0 0 0 demo_params <> palMapqkz 0 0 demo_params.
Proof.
  split; [apply demo_earthlike|]. intros E.
  destruct (earthlike_b _ demo_earthlike) as [B B0].
  set (b := am_ab1 demo_params) in *.
  assert (D : dir 0 0 = V 1 0 0) by (unfold dir; rewrite sin_0, cos_0; f_equal; ring).
  assert (F : defl (2 / 10 ^ 8) (V 0 1 0) (V 1 0 0) = V 1 (2 / 10 ^ 8) 0).
  { unfold defl. cbv zeta. replace (dot (V 1 0 0) (V 0 1 0)) with 0 by (unfold dot; cbn [vx vy vz]; ring).
    rewrite Rmax_left by lra. unfold vadd, vsub, scale. cbn [vx vy vz]. f_equal; field. }
  assert (W1 : mq_aberr b (am_abv demo_params) (V 1 0 0) (V 1 (2 / 10 ^ 8) 0) = V b (b * (2 / 10^8) + 1 / 10000) 0).
  { rewrite mq_aberr_val. unfold aber, demo_params, dot, vadd, scale. cbn [am_abv vx vy vz]. f_equal; field; lra. }
  assert (W2 : mq_aberr b (am_abv demo_params) (V 1 (2 / 10 ^ 8) 0) (V 1 (2 / 10 ^ 8) 0)
     = V b (b * (2 / 10^8) + (1 + 2 / 10 ^ 12 / (b + 1)) * (1 / 10000)) 0).
  { rewrite mq_aberr_val. unfold aber, demo_params, dot, vadd, scale. cbn [am_abv vx vy vz]. f_equal; field; lra. }
  assert (Q1 : palMapqk 0 0 0 0 0 0 demo_params = mq_radec mid (V b (b * (2 / 10^8) + 1 / 10000) 0)).
  { unfold palMapqk. rewrite mq_star_val, star_vec_zero, D.
    rewrite (surjective_pairing (eraPn (V 1 0 0))), eraPn_unit by (intros Z; assert (Y := f_equal (@vx R) Z); cbn in Y; lra).
    rewrite unit_of_unit by (unfold unitv, dot; cbn [vx vy vz]; ring).
    rewrite mq_deflect_val. change (am_gr2e demo_params) with (2 / 10 ^ 8). change (am_ehn demo_params) with (V 0 1 0 : vec R).
    rewrite F. fold b. rewrite W1. reflexivity. }
  assert (Q2 : palMapqkz 0 0 demo_params = mq_radec mid (V b (b * (2 / 10^8) + (1 + 2 / 10 ^ 12 / (b + 1)) * (1 / 10000)) 0)).
  { unfold palMapqkz. cbv zeta. rewrite (eraS2c_dir 0 0), D.
    rewrite mq_deflect_val. change (am_gr2e demo_params) with (2 / 10 ^ 8). change (am_ehn demo_params) with (V 0 1 0 : vec R).
    rewrite F. fold b. rewrite W2. reflexivity. }
  rewrite Q1, Q2 in E. clear Q1 Q2 W1 W2 F D. clearbody b.
  assert (P : forall y, 0 < norm (V b y 0)).
  { intros y. apply norm_gt0. intros Z. assert (Y := f_equal (@vx R) Z). cbn in Y. lra. }
  assert (G : forall y, dir (fst (mq_radec mid (V b y 0))) (snd (mq_radec mid (V b y 0))) = unit_of (V b y 0)).
  { intros y. rewrite mq_radec_dir by auto using rotation_mid. apply mapp_mid. }
  assert (H : unit_of (V b (b * (2 / 10^8) + 1 / 10000) 0) =
    unit_of (V b (b * (2 / 10^8) + (1 + 2 / 10 ^ 12 / (b + 1)) * (1 / 10000)) 0)).
  { rewrite <- !G. now rewrite E. }
  set (y1 := b * (2 / 10^8) + 1 / 10000) in *. set (y2 := b * (2 / 10^8) + (1 + 2 / 10 ^ 12 / (b + 1)) * (1 / 10000)) in *.
  assert (Hx := f_equal (@vx R) H). assert (Hy := f_equal (@vy R) H).
  unfold unit_of, scale in Hx, Hy. cbn [vx vy] in Hx, Hy.
  assert (N1 := P y1). assert (N2 := P y2).
  assert (I1 : 0 < 1 / norm (V b y1 0)) by (apply Rdiv_lt_0_compat; lra).
  assert (K : 1 / norm (V b y1 0) = 1 / norm (V b y2 0)) by (apply Rmult_eq_reg_r with b; lra).
  rewrite <- K in Hy. apply Rmult_eq_reg_l in Hy; [|lra].
  assert (0 < 2 / 10 ^ 12 / (b + 1)) by (apply Rdiv_lt_0_compat; lra). unfold y1, y2 in Hy. lra.
Qed.

(** ** C51: the parameters and the one-shot routines *)
(** the frame of the ephemeris: mean equator and equinox of [eq], or the ephemeris's own if [eq <= 0] *)
Definition eq_frame (eq : R) : mat R :=
  if Rlt_dec 0 eq then eraPmat06 (24000005 / 10) (515445 / 10 + (eq - 2000) * (36525 / 100)) else mid.
Lemma eq_frame_rot : forall eq, rotation (eq_frame eq).
Proof. intros. unfold eq_frame. destruct (Rlt_dec 0 eq); [apply eraPmat06_rot|apply rotation_mid]. Qed.
Local Opaque eraPmat06.
Lemma palEvp_val : forall epv00 date eq,
  let '(pvh, pvb) := epv00 (24000005 / 10) date in
  palEvp epv00 date eq = (vdiv (mapp (eq_frame eq) (pvv pvb)) 86400, mapp (eq_frame eq) (pvp pvb),
    vdiv (mapp (eq_frame eq) (pvv pvh)) 86400, mapp (eq_frame eq) (pvp pvh)).
Proof.
  intros. unfold palEvp. replace (@lit R RA 2400000.5) with (24000005 / 10) by (rn; lra).
  destruct (epv00 (24000005 / 10) date) as [pvh pvb]. unfold eq_frame.
  replace SPD with 86400 by (unfold SPD; rn; lra).
  replace (@lit R RA 0.0) with 0 by (rn; lra).
  change (ltb 0 eq) with (Rltb 0 eq).
  destruct (Rltb_spec 0 eq) as [L|L]; destruct (Rlt_dec 0 eq); try contradiction.
  - unfold eraEpj2jd. cbv beta iota zeta. unfold eraRxpv. cbn [pvp pvv]. rewrite !eraRxp_mapp.
    replace (@lit R RA 2400000.5) with (24000005 / 10) by (rn; lra).
    replace (@add R RA (@lit R RA 51544.5) (@mul R RA (@sub R RA eq (@ofZ R RA 2000)) DJY))
      with (515445 / 10 + (eq - 2000) * (36525 / 100)) by (unfold DJY; rn; lra).
    reflexivity.
  - now rewrite !mapp_mid.
Qed.
(** what palMappa returns, for any ephemeris *)
Theorem C51_parameters : forall epv00 prenut eq date,
  let '(pvh, pvb) := epv00 (24000005 / 10) date in
  let M := eq_frame eq in
  let a := palMappa epv00 prenut eq date in
  pvp pvh <> vzero ->
  am_pmt a = 2000 + (date - 515445 / 10) / (36525 / 100) - eq /\
  am_eb a = mapp M (pvp pvb) /\
  am_ehn a = mapp M (unit_of (pvp pvh)) /\
  am_gr2e a = 2 * (987063 / 10 ^ 14) / norm (pvp pvh) /\
  am_abv a = scale (499004782 / 10 ^ 6 / 86400) (mapp M (pvv pvb)) /\
  am_ab1 a = sqrtR (1 - dot (am_abv a) (am_abv a)) /\
  am_npb a = prenut eq date.
Proof.
  intros. assert (Q := palEvp_val epv00 date eq). unfold palMappa.
  destruct (epv00 (24000005 / 10) date) as [pvh pvb]. cbv zeta. intros NZ. rewrite Q. clear Q.
  assert (RM := eq_frame_rot eq). set (M := eq_frame eq) in *. clearbody M.
  assert (NZ' : mapp M (pvp pvh) <> vzero) by now apply rot_nz.
  rewrite (eraPn_nz (mapp M (pvp pvh))) by easy.
  replace CR with (499004782 / 10 ^ 6) by (unfold CR; rn; lra).
  set (abv := V _ _ _). rewrite (surjective_pairing (eraPn abv)). cbn [am_pmt am_eb am_ehn am_gr2e am_abv am_ab1 am_npb].
  rewrite norm_rot by easy.
  split; [|split; [|split; [|split; [|split; [|split]]]]]; try reflexivity.
  - unfold eraEpj, MJD0, DJ00, DJY. rn. lra.
  - unfold unit_of. now rewrite mapp_scale.
  - rn. lra.
  - unfold abv, vdiv, scale. rops. cbn [vx vy vz]. f_equal; field.
  - assert (W : fst (eraPn abv) = norm abv).
    { unfold eraPn. rewrite eraPm_norm. destruct (eqb (norm abv) _); reflexivity. }
    rewrite W. replace (@lit R RA 1.0) with 1 by (rn; lra). rops. now rewrite norm_sq.
Qed.

(** the parameters are Earth-like whenever the ephemeris is: at least 0.95 au from the Sun, at most
    0.019 au/day with respect to the barycentre *)
Theorem C51_earthlike : forall epv00 prenut eq date, rotation (prenut eq date) ->
  (let '(pvh, pvb) := epv00 (24000005 / 10) date in 95 / 100 <= norm (pvp pvh) /\ norm (pvv pvb) <= 19 / 1000) ->
  earthlike (palMappa epv00 prenut eq date).
Proof.
  intros epv00 prenut eq date RP H. assert (Q := C51_parameters epv00 prenut eq date).
  destruct (epv00 (24000005 / 10) date) as [pvh pvb]. cbv zeta in Q. destruct H as [H1 H2].
  destruct (Q ltac:(apply norm_nz; lra)) as (_ & _ & E1 & E2 & E3 & E4 & E5).
  unfold earthlike. rewrite E5. split; [|split; [|split; [|split]]]; try easy.
  - rewrite E1. apply rot_unit; [apply eq_frame_rot|]. apply unit_of_unitv, norm_nz; lra.
  - rewrite E2. unfold Rdiv at 2.
    assert (I : 0 < / norm (pvp pvh) <= / (95 / 100)) by (split; [apply Rinv_0_lt_compat; lra|apply Rinv_le_contravar; lra]).
    replace (/ (95 / 100)) with (100 / 95) in I by field. lra.
  - rewrite E3, norm_scale, norm_rot by (try apply eq_frame_rot; lra).
    apply Rle_trans with (499004782 / 10 ^ 6 / 86400 * (19 / 1000)); [apply Rmult_le_compat_l; lra|lra].
Qed.
(** the one-shot routines are the two-step ones *)
Theorem C51_one_shot : forall epv00 prenut rm dm pr pd px rv ra da eq date,
  palMap epv00 prenut rm dm pr pd px rv eq date = palMapqk rm dm pr pd px rv (palMappa epv00 prenut eq date) /\
  palAmp epv00 prenut ra da date eq = palAmpqk ra da (palMappa epv00 prenut eq date).
Proof. split; reflexivity. Qed.
(** mean to apparent and back, with the routines' own parameters: 2.7 microarcseconds *)
Theorem C51_round_trip : forall epv00 p06e pnm06a rm dm eq date,
  (forall d1 d2, rotation (pnm06a d1 d2)) ->
  (let '(pvh, pvb) := epv00 (24000005 / 10) date in
   95 / 100 <= norm (pvp pvh) /\ norm (pvv pvb) <= 19 / 1000 /\
   1 / 10000 <= 1 + dot (dir rm dm) (mapp (eq_frame eq) (unit_of (pvp pvh)))) ->
  let '(ra, da) := palMap epv00 (palPrenut p06e pnm06a) rm dm 0 0 0 0 eq date in
  let '(rm', dm') := palAmp epv00 (palPrenut p06e pnm06a) ra da date eq in
  chord rm' dm' rm dm <= 13 / 10 ^ 12.
Proof.
  intros epv00 p06e pnm06a rm dm eq date RP H. unfold palMap, palAmp.
  assert (E : earthlike (palMappa epv00 (palPrenut p06e pnm06a) eq date)).
  { apply C51_earthlike; [now apply C20_palPrenut|]. destruct (epv00 (24000005 / 10) date). easy. }
  assert (S : clear_of_sun (palMappa epv00 (palPrenut p06e pnm06a) eq date) rm dm).
  { assert (Q := C51_parameters epv00 (palPrenut p06e pnm06a) eq date). destruct (epv00 (24000005 / 10) date) as [pvh pvb].
    cbv zeta in Q. destruct H as (H1 & _ & H3). destruct (Q ltac:(apply norm_nz; lra)) as (_ & _ & E1 & _).
    unfold clear_of_sun. now rewrite E1. }
  set (a := palMappa _ _ _ _) in *. clearbody a.
  assert (Z := C52_zero_motion a rm dm E).
  destruct (palMapqk rm dm 0 0 0 0 a) as [ra da].
  assert (Q := C53_inverse_stable a rm dm ra da (1 / 10 ^ 13) E S ltac:(lra)).
  destruct (palMapqkz rm dm a) as [ra2 da2]. specialize (Q Z).
  destruct (palAmpqk ra da a) as [rm' dm']. lra.
Qed.
Example C51_witness : exists (epv00 : R -> R -> pv R * pv R), 
  let '(pvh, pvb) := epv00 (24000005 / 10) 51544 in
  95 / 100 <= norm (pvp pvh) /\ norm (pvv pvb) <= 19 / 1000 /\
  1 / 10000 <= 1 + dot (dir 0 0) (mapp (eq_frame 0) (unit_of (pvp pvh))).
Proof.
  exists (fun _ _ => (PV (V 1 0 0) (V 0 (17 / 1000) 0), PV (V 1 0 0) (V 0 (17/1000) 0))). cbn [pvp pvv].
  assert (U : unitv (V 1 0 0)) by (unfold unitv, dot; cbn [vx vy vz]; ring).
  rewrite (norm_unit _ U). split; [lra|]. split.
  - apply norm_le; [lra|]. unfold dot. cbn [vx vy vz]. lra.
  - unfold eq_frame. destruct (Rlt_dec 0 0); [lra|]. rewrite mapp_mid, (unit_of_unit _ U).
    unfold dir, dot. cbn [vx vy vz]. rewrite sin_0, cos_0. lra.
Qed.
