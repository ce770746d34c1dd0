(** * Theorems: galactic and supergalactic coordinates in double precision (C88) *)
From Coq Require Import Reals ZArith Lra Lia Psatz Bool.
From Flocq Require Import Core.
From Interval Require Import Tactic.
From Verif Require Import Num NumR NumD NumDE Geom Erfa M_Sphere M_Frames P_Sphere P_Frames Props_Dangle Props_Dsep Props_Dsph Props_Dhor.
Local Open Scope R_scope.

(** a matrix rounded entry by entry, and the product of a rounded matrix and a vector *)
Definition rdv (v : vec R) : vec R := V (rd (vx v)) (rd (vy v)) (rd (vz v)).
Definition rdm (m : mat R) : mat R := M (rdv (m0 m)) (rdv (m1 m)) (rdv (m2 m)).
Definition drow (r p : vec R) : R := rd (rd (rd (0 + rd (vx r * vx p)) + rd (vy r * vy p)) + rd (vz r * vz p)).
Lemma drow_ddot : forall r p, drow r p = ddot r p.
Proof. intros. unfold drow, ddot. rewrite Rplus_0_l. now rewrite (rd_id (rd (vx r * vx p))) by apply fmt_rd. Qed.
Definition dapp (m : mat R) (v : vec R) : vec R := V (drow (m0 m) v) (drow (m1 m) v) (drow (m2 m) v).

Lemma rdv_err : forall r, norm r <= 1.0001 -> norm (vsub (rdv r) r) <= 1.001 * u53.
Proof.
  intros r H. assert (E1 := eta_small). assert (E0 := eta_pos). assert (P := norm_pos r).
  assert (S : dot r r <= 1.0002001) by (rewrite <- norm_sq; nra). unfold dot in S.
  assert (Q : forall x, Rabs (rd x - x) <= u53 * Rabs x + eta) by (intros; apply rd_err).
  assert (X : forall x, (rd x - x) * (rd x - x) <= 1.0001 * u53 * u53 * (x * x) + 1e-40 ).
  { intros x. specialize (Q x). assert (Ax := Rabs_pos x). assert (A2 : Rabs x * Rabs x = x * x) by (rewrite <- Rabs_mult; apply Rabs_pos_eq, Rle_0_sqr).
    rewrite <- A2. set (z := Rabs x) in *. clearbody z. assert (Y := Rabs_pos (rd x - x)).
    assert (A3 : Rabs (rd x - x) * Rabs (rd x - x) = (rd x - x) * (rd x - x)) by (rewrite <- Rabs_mult; apply Rabs_pos_eq, Rle_0_sqr).
    rewrite <- A3. set (w := Rabs (rd x - x)) in *. clearbody w.
    assert (U : 0 < u53 <= 1.2e-16) by (unfold u53; lra). set (u := u53) in *. clearbody u.
    assert (w * w <= (u * z + eta) * (u * z + eta)) by (apply Rmult_le_compat; lra).
    assert (G : 2 * (u * z) * eta <= 0.0001 * (u * z) * (u * z) + 1e4 * eta * eta) by (assert (0 <= (0.01 * (u * z) - 100 * eta) * (0.01 * (u * z) - 100 * eta)) by apply Rle_0_sqr; lra).
    assert (eta * eta <= 1e-60) by nra. lra. }
  apply Rsqr_incr_0_var; [|unfold u53; lra]. unfold Rsqr. rewrite norm_sq. unfold dot, vsub, rdv; cbn [vx vy vz].
  assert (X1 := X (vx r)). assert (X2 := X (vy r)). assert (X3 := X (vz r)).
  unfold u53 in *. lra.
Qed.
(** one row: literal rounded, dot product in doubles *)
Lemma row_err : forall r v p d, norm r <= 1.0001 -> norm v = 1 -> norm (vsub v p) <= d * u53 -> 0 <= d <= 100 ->
  Rabs (drow (rdv r) p - dot r v) <= (1.0001 * d + 4.02) * u53.
Proof.
  intros r v p d Hr Hv Hp Hd. rewrite drow_ddot. assert (E1 := eta_small). assert (E0 := eta_pos).
  assert (A := ddot_err (rdv r) p). assert (B := rdv_err r Hr).
  assert (N1 := norm_diff (rdv r) r). assert (N2 := norm_diff v p). rewrite Hv in N2.
  assert (Pr := norm_pos r). assert (Pp := norm_pos p). assert (Pr' := norm_pos (rdv r)).
  assert (U : 0 < u53 <= 1.2e-16) by (unfold u53; lra). apply Rabs_le_inv in N1, N2.
  assert (Q1 : norm (rdv r) <= 1.00011) by nra. assert (Q2 : norm p <= 1.00001) by nra.
  assert (E2 : eta <= 1e-100 * u53) by (unfold u53; lra).
  assert (C := cauchy_abs (vsub (rdv r) r) p). assert (D := cauchy_abs r (vsub v p)).
  assert (C1 : norm (vsub (rdv r) r) * norm p <= 1.001 * u53 * 1.00001) by (apply Rmult_le_compat; try apply norm_pos; lra).
  assert (D1 : norm r * norm (vsub v p) <= 1.0001 * (d * u53)) by (apply Rmult_le_compat; try apply norm_pos; lra).
  assert (A1 : norm (rdv r) * norm p <= 1.00011 * 1.00001) by (apply Rmult_le_compat; lra).
  assert (A2 : 3.01 * u53 * (norm (rdv r) * norm p) <= 3.01 * u53 * (1.00011 * 1.00001)) by (apply Rmult_le_compat_l; lra).
  assert (E : ddot (rdv r) p - dot r v = (ddot (rdv r) p - dot (rdv r) p) + dot (vsub (rdv r) r) p - dot r (vsub v p)) by vring.
  rewrite E. apply Rabs_le_inv in A, C, D. apply Rabs_le. lra.
Qed.
Lemma dapp_err : forall m v p, norm (m0 m) <= 1.0001 -> norm (m1 m) <= 1.0001 -> norm (m2 m) <= 1.0001 -> norm v = 1 ->
  norm (vsub v p) <= 4.4 * u53 -> norm (vsub (mapp m v) (dapp (rdm m) p)) <= 1.65e-15.
Proof.
  intros m v p H0 H1 H2 Hv Hp.
  assert (A0 := row_err _ v p 4.4 H0 Hv Hp ltac:(lra)). assert (A1 := row_err _ v p 4.4 H1 Hv Hp ltac:(lra)).
  assert (A2 := row_err _ v p 4.4 H2 Hv Hp ltac:(lra)). unfold u53 in *.
  eapply Rle_trans; [apply (norm_le_comps _ 9.4e-16)|lra]; unfold vsub, mapp, dapp, rdm; cbn [vx vy vz m0 m1 m2]; rewrite Rabs_minus_sym; lra.
Qed.

Section D.
Variable L : Libm.
(** the four conversions run in double arithmetic *)
Definition deqgal (r d : R) : R * R := @palEqgal R (DA L) r d.
Definition dgaleq (l b : R) : R * R := @palGaleq R (DA L) l b.
Definition dgalsup (l b : R) : R * R := @palGalsup R (DA L) l b.
Definition dsupgal (l b : R) : R * R := @palSupgal R (DA L) l b.

Definition conv_D (m : mat R) (a b : R) : R * R :=
  let '(x, y) := dcc2s L (dapp (rdm m) (ddir L a b)) in (@eraAnp R (DA L) x, @eraAnpm R (DA L) y).
Lemma deqgal_unf : forall a b, deqgal a b = conv_D rmat_eqgal a b.
Proof.
  intros. unfold deqgal, palEqgal, conv_D. cbv zeta.
  match goal with |- (let '(_, _) := eraC2s ?v in _) = _ => assert (E : v = dapp (rdm rmat_eqgal) (ddir L a b)) end.
  { unfold rmat_eqgal, eraRxp, row_dot, eraS2c, dapp, rdm, rdv, drow, ddir. cbn [vx vy vz m0 m1 m2]. dn.
    rewrite !(rdZ 0) by (cbn; lia). rewrite !rd_opp. reflexivity. }
  rewrite E. reflexivity.
Qed.
Lemma dgaleq_unf : forall a b, dgaleq a b = conv_D (mtr rmat_galeq) a b.
Proof.
  intros. unfold dgaleq, palGaleq, conv_D. cbv zeta.
  match goal with |- (let '(_, _) := eraC2s ?v in _) = _ => assert (E : v = dapp (rdm (mtr rmat_galeq)) (ddir L a b)) end.
  { unfold rmat_galeq, eraTrxp, eraTr, mtr, eraRxp, row_dot, eraS2c, dapp, rdm, rdv, drow, ddir. cbn [vx vy vz m0 m1 m2]. dn.
    rewrite !(rdZ 0) by (cbn; lia). rewrite !rd_opp. reflexivity. }
  rewrite E. reflexivity.
Qed.
Lemma dgalsup_unf : forall a b, dgalsup a b = conv_D rmat_galsup a b.
Proof.
  intros. unfold dgalsup, palGalsup, conv_D. cbv zeta.
  match goal with |- (let '(_, _) := eraC2s ?v in _) = _ => assert (E : v = dapp (rdm rmat_galsup) (ddir L a b)) end.
  { unfold rmat_galsup, eraRxp, row_dot, eraS2c, dapp, rdm, rdv, drow, ddir. cbn [vx vy vz m0 m1 m2]. dn.
    rewrite !(rdZ 0) by (cbn; lia). rewrite !rd_opp. reflexivity. }
  rewrite E. reflexivity.
Qed.
Lemma dsupgal_unf : forall a b, dsupgal a b = conv_D (mtr rmat_supgal) a b.
Proof.
  intros. unfold dsupgal, palSupgal, conv_D. cbv zeta.
  match goal with |- (let '(_, _) := eraC2s ?v in _) = _ => assert (E : v = dapp (rdm (mtr rmat_supgal)) (ddir L a b)) end.
  { unfold rmat_supgal, eraTrxp, eraTr, mtr, eraRxp, row_dot, eraS2c, dapp, rdm, rdv, drow, ddir. cbn [vx vy vz m0 m1 m2]. dn.
    rewrite !(rdZ 0) by (cbn; lia). rewrite !rd_opp. reflexivity. }
  rewrite E. reflexivity.
Qed.
Lemma anp_D : forall x, Rabs x <= 4 -> @eraAnp R (DA L) x = if Rltb x 0 then rd (x + 2 * PI64) else x.
Proof.
  intros x H. unfold eraAnp. rewrite D2PI_D. dn. rewrite (rdZ 0) by (cbn; lia).
  rewrite fmodR_small by (assert (P := PI64_pos); lra). reflexivity.
Qed.
Lemma anpm_D : forall x, Rabs x <= 3 -> @eraAnpm R (DA L) x = x.
Proof.
  intros x H. unfold eraAnpm. rewrite !D2PI_D. dops. rewrite rd_PI.
  rewrite fmodR_small by (assert (P := PI64_pos); lra). destruct (Rleb_spec PI64 (Rabs x)) as [C|C]; [|easy].
  assert (P := PI64_pos). lra.
Qed.
(** the result of dcc2s is a double, and bounded *)
Lemma dcc2s_lon : forall e v, atan2_acc L e -> e <= 0.5 -> atan2_dbl L -> fmtv v -> fmt (fst (dcc2s L v)) /\ -4 <= fst (dcc2s L v) <= 4.
Proof.
  intros e v HA He HF (F1 & F2 & F3). rewrite dcc2s_unf. cbn [fst].
  destruct (Reqb_spec (rd (rd (vx v * vx v) + rd (vy v * vy v))) 0) as [|N]; [split; [apply fmt0|lra]|].
  split; [now apply HF|].
  assert (NZ : vy v <> 0 \/ vx v <> 0).
  { destruct (Req_dec (vy v) 0) as [Y0|]; [right|now left]. intros X0. apply N. rewrite X0, Y0.
    rewrite !Rmult_0_l, rd_0, Rplus_0_r, rd_0. reflexivity. }
  assert (K := HA _ _ F2 F1 NZ). assert (R0 := atan2_range (vy v) (vx v)). apply Rabs_le_inv in K.
  assert (P : 3 < PI < 3.2) by (split; interval). lra.
Qed.
(** the exact conversion by the literal matrix m *)
Definition conv_R (m : mat R) (a b : R) : R * R := let w := mapp m (dir a b) in (eraAnp (fst (eraC2s w)), snd (eraC2s w)).
Lemma conv_err : forall e m a b, atan2_acc L e -> 0 <= e <= 0.5 -> atan2_dbl L -> trig_acc L u53 ->
  norm (m0 m) <= 1.0001 -> norm (m1 m) <= 1.0001 -> norm (m2 m) <= 1.0001 -> (forall v, norm v = 1 -> 0.999 <= norm (mapp m v)) ->
  fmt a -> fmt b ->
  let '(l', b') := conv_D m a b in let '(l, bb) := conv_R m a b in
  0 <= l' < 2 * PI /\ Rabs (b' - bb) <= 2e-15 + e /\
  (1e-8 <= cosR bb -> exists k : Z, Rabs (l' - (l + IZR k * (2 * PI))) <= 1.66e-15 / cosR bb + 7e-16 + e).
Proof.
  intros e m a b HA He HF HT H0 H1 H2 HM Fa Fb.
  assert (U : norm (dir a b) = 1) by apply norm_unit, dir_unit.
  assert (K := dapp_err m (dir a b) (ddir L a b) H0 H1 H2 U (ddir_err L HT a b Fa Fb)).
  unfold conv_D, conv_R. cbv zeta. set (p := dapp (rdm m) (ddir L a b)) in *. set (w := mapp m (dir a b)) in *.
  assert (Fp : fmtv p) by (repeat split; apply fmt_rd).
  assert (N := HM _ U). fold w in N.
  assert (W : w <> vzero).
  { intros E. rewrite E in N. unfold norm, dot, vzero in N. cbn [vx vy vz] in N. replace (0 * 0 + 0 * 0 + 0 * 0) with 0 in N by ring.
    rewrite sqrt_0 in N. lra. }
  assert (E := C2s_anp_dir w W). destruct (C2s_anp_range w) as [RA RB].
  set (l := eraAnp (fst (eraC2s w))) in *. set (bb := snd (eraC2s w)) in *.
  assert (Ew : w = scale (norm w) (dir l bb)).
  { rewrite E, scale_scale. replace (norm w * (1 / norm w)) with 1 by (field; lra). now rewrite scale_1. }
  rewrite Ew in K.
  assert (T : / 10 ^ 65 <= norm w) by lra.
  destruct (dcc2s_near L e p (norm w) l bb 1.652e-15 HA (proj1 He) Fp T RB) as [A B]; [nra|lra|].
  destruct (dcc2s_lon e p HA (proj2 He) HF Fp) as [G1 G2].
  rewrite (surjective_pairing (dcc2s L p)). set (x := fst (dcc2s L p)) in *. set (y := snd (dcc2s L p)) in *.
  rewrite anp_D by (apply Rabs_le; lra).
  assert (P : 3 < PI < 3.2) by (split; interval).
  rewrite anpm_D by (apply Rabs_le_inv in A; apply Rabs_le; lra).
  destruct (wrap x (proj1 G2) (proj2 G2) G1) as (R0 & _ & k & Hk).
  split; [exact R0|]. split; [lra|]. intros C. destruct B as [j Hj]; [lra|lra|]. exists (k + j)%Z. rewrite plus_IZR.
  assert (Q : 1.0000001 * (1.652e-15 / cosR bb) <= 1.66e-15 / cosR bb).
  { unfold Rdiv. assert (0 < / cosR bb) by (apply Rinv_0_lt_compat; lra). nra. }
  apply Rabs_le_inv in Hk, Hj. apply Rabs_le. lra.
Qed.

Lemma near_lower : forall eps m v, 0 <= eps <= 1e-4 -> near eps (mmul (mtr m) m) mid -> norm v = 1 -> 0.999 <= norm (mapp m v).
Proof.
  intros eps m v He H Hn. assert (Hv : unitv v) by (unfold unitv; rewrite <- norm_sq, Hn; ring).
  assert (K := near_app eps _ mid v ltac:(lra) H Hv). rewrite mapp_mid in K. set (G := mmul (mtr m) m) in *.
  assert (S : norm (mapp m v) * norm (mapp m v) = 1 + dot v (vsub (mapp G v) v)).
  { rewrite norm_sq, dot_mapp, <- mapp_mmul. fold G. generalize G. clear - Hv. intros G.
    replace (dot v (vsub (mapp G v) v)) with (dot v (mapp G v) - dot v v) by vring. unfold unitv in Hv. lra. }
  assert (C := cauchy_abs v (vsub (mapp G v) v)). rewrite Hn in C. apply Rabs_le_inv in C.
  assert (P := norm_pos (mapp m v)). nra.
Qed.
Lemma norm_row : forall r, dot r r <= 1.0002 -> norm r <= 1.0001.
Proof. intros r H. apply Rsqr_incr_0_var; [|lra]. unfold Rsqr. rewrite norm_sq. lra. Qed.

(** C88: the rounding errors of the four conversions, for all finite doubles: 2e-15 radians in latitude and 1.7e-15 on the sky in
    longitude (plus the error of atan2) from the conversion in exact arithmetic, which C17 and C18 compare with the definition
    of the systems; the longitude is in [0,2pi) *)
Definition agrees (e : R) (o x : R * R) : Prop :=
  0 <= fst o < 2 * PI /\ Rabs (snd o - snd x) <= 2e-15 + e /\
  (1e-8 <= cosR (snd x) -> exists k : Z, Rabs (fst o - (fst x + IZR k * (2 * PI))) <= 1.66e-15 / cosR (snd x) + 7e-16 + e).
Theorem C88_rounding : forall e a b, atan2_acc L e -> 0 <= e <= 0.5 -> atan2_dbl L -> trig_acc L u53 -> is_double a -> is_double b ->
  agrees e (deqgal a b) (palEqgal a b) /\ agrees e (dgaleq a b) (palGaleq a b) /\
  agrees e (dgalsup a b) (palGalsup a b) /\ agrees e (dsupgal a b) (palSupgal a b).
Proof.
  intros e a b HA He HF HT Da Db. apply double_fmt in Da, Db.
  assert (G : forall m, norm (m0 m) <= 1.0001 -> norm (m1 m) <= 1.0001 -> norm (m2 m) <= 1.0001 ->
    (forall v, norm v = 1 -> 0.999 <= norm (mapp m v)) -> agrees e (conv_D m a b) (conv_R m a b)).
  { intros m H0 H1 H2 H3. assert (K := conv_err e m a b HA He HF HT H0 H1 H2 H3 Da Db).
    destruct (conv_D m a b), (conv_R m a b). exact K. }
  split; [|split; [|split]].
  - rewrite deqgal_unf, palEqgal_val. apply G; try (apply norm_row; unfold rmat_eqgal, dot; cbn [vx vy vz m0 m1 m2]; rn; lra).
    intros v. apply (near_lower 5e-11); [lra|]. exact eqgal_near.
  - rewrite dgaleq_unf, palGaleq_val. apply G; try (apply norm_row; unfold rmat_galeq, mtr, dot; cbn [vx vy vz m0 m1 m2]; rn; lra).
    intros v. apply (near_lower 5e-11); [lra|]. exact eqgal_near'.
  - rewrite dgalsup_unf, palGalsup_val. apply G; try (apply norm_row; unfold rmat_galsup, dot; cbn [vx vy vz m0 m1 m2]; rn; lra).
    intros v. apply (near_lower 2e-12); [lra|]. exact galsup_near.
  - rewrite dsupgal_unf, palSupgal_val. apply G; try (apply norm_row; unfold rmat_supgal, mtr, dot; cbn [vx vy vz m0 m1 m2]; rn; lra).
    intros v. apply (near_lower 2e-12); [lra|]. exact galsup_near'.
Qed.
End D.
(** Non-vacuity: with a correctly rounded libm, the galactic latitude of the point of right ascension 3, declination 1 *)
Example C88_eg : Rabs (snd (deqgal Lcr 3 1) - snd (palEqgal 3 1)) <= 2.3e-15.
Proof.
  assert (D : forall n, (Z.abs n <= 4)%Z -> is_double (IZR n)).
  { intros n H. split; [apply FLT_format_generic; [now unfold Prec_gt_0|apply fmtZ; lia]|].
    apply Rlt_le_trans with (bpow radix2 3); [|apply bpow_le; lia]. rewrite <- abs_IZR. apply IZR_lt. cbn. lia. }
  destruct (C88_rounding Lcr 2.3e-16 3 1 Lcr_atan2 ltac:(lra) Lcr_atan2_dbl Lcr_trig (D 3%Z ltac:(lia)) (D 1%Z ltac:(lia))) as ((_ & K & _) & _). lra.
Qed.
