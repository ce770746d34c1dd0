(** * Theorems: separations in double precision (C84) *)
From Coq Require Import Reals ZArith Lra Lia Psatz Bool.
From Flocq Require Import Core.
From Interval Require Import Tactic.
From Verif Require Import Num NumR NumD NumDE Geom Erfa M_Sphere P_Sphere.
Local Open Scope R_scope.

(** What is asked of libm, on doubles: [atan2], [sin], [cos] within [e] of the mathematical function. *)
Definition atan2_acc (L : Libm) (e : R) : Prop :=
  forall y x, fmt y -> fmt x -> (y <> 0 \/ x <> 0) -> Rabs (l_atan2 L y x - atan2R y x) <= e.
Definition trig_acc (L : Libm) (e : R) : Prop :=
  forall x, fmt x -> Rabs (l_sin L x - sinR x) <= e /\ Rabs (l_cos L x - cosR x) <= e.

(** ** Moving the end of a vector by d turns it by about d/r *)
Lemma sin_small : forall x d, 0 <= d <= 1e-6 -> Rabs x <= PI / 2 -> Rabs (sinR x) <= d -> Rabs x <= 1.0000001 * d.
Proof.
  intros x d Hd Hx Hs. assert (P := PI_RGT_0). assert (P4 := PI_4). assert (P3 : 3 < PI) by interval.
  assert (G : forall y, 0 <= y <= PI / 2 -> sinR y <= d -> y <= 1.0000001 * d).
  { intros y Hy Sy. destruct (Rle_or_lt y (1.0000001 * d)) as [|C]; [easy|exfalso].
    assert (M : sinR (1.0000001 * d) < sinR y) by (apply sin_increasing_1; lra).
    assert (D0 : 0 < d \/ d = 0) by lra. destruct D0 as [D0|D0].
    - assert (K : d < sinR (1.0000001 * d)); [|lra].
      set (z := 1.0000001 * d). assert (Z1 : 0 < z <= 1.1e-6) by (unfold z; lra).
      destruct (sin_bound z 0 ltac:(lra) ltac:(lra)) as [B _]. unfold sin_approx, sin_term in B. cbn in B.
      assert (z * z <= 1.3e-12) by nra. assert (z * (z * z) <= 1.3e-12 * z) by nra. unfold z in *. lra.
    - subst d. rewrite Rmult_0_r, sin_0 in M. lra. }
  unfold Rabs in *. destruct (Rcase_abs x) as [H|H].
  - apply G; [lra|]. rewrite sin_neg. destruct (Rcase_abs (sinR x)); lra.
  - apply G; [lra|]. destruct (Rcase_abs (sinR x)); lra.
Qed.
Lemma polar_pert : forall r t r' t' d, 0 < r -> 0 <= r' -> Rabs (t' - t) <= PI -> 0 <= d <= 1e-6 * r ->
  (r * cosR t - r' * cosR t') * (r * cosR t - r' * cosR t') + (r * sinR t - r' * sinR t') * (r * sinR t - r' * sinR t') <= d * d ->
  Rabs (t' - t) <= 1.0000001 * (d / r).
Proof.
  intros r t r' t' d Hr Hr' Ht Hd H. assert (P := PI_RGT_0). apply Rabs_le_inv in Ht.
  assert (S := sin_minus t' t). assert (C := cos_minus t' t). assert (T := sin2_cos2 t). assert (T' := sin2_cos2 t'). unfold Rsqr in *.
  set (c := cosR t) in *. set (s := sinR t) in *. set (c' := cosR t') in *. set (s' := sinR t') in *.
  set (A := r * c - r' * c') in *. set (B := r * s - r' * s') in *.
  (* components of the displacement along and across the direction t' *)
  assert (L : (A * c' + B * s') * (A * c' + B * s') + (A * s' - B * c') * (A * s' - B * c') <= d * d).
  { replace ((A * c' + B * s') * (A * c' + B * s') + (A * s' - B * c') * (A * s' - B * c')) with ((A * A + B * B) * (s' * s' + c' * c')) by ring.
    rewrite T'. lra. }
  assert (E1 : A * c' + B * s' = r * cosR (t' - t) - r').
  { unfold A, B. rewrite C. replace (r' * c' * c') with (r' * (c' * c')) by ring.
    replace ((r * c - r' * c') * c' + (r * s - r' * s') * s') with (r * (c' * c + s' * s) - r' * (s' * s' + c' * c')) by ring.
    rewrite T'. ring. }
  assert (E2 : A * s' - B * c' = r * sinR (t' - t)) by (rewrite S; unfold A, B; ring).
  rewrite E1, E2 in L. set (D := t' - t) in *.
  assert (Ls : Rabs (r * sinR D) <= d).
  { rewrite <- (Rabs_pos_eq d) by lra. apply Rsqr_le_abs_0. unfold Rsqr. assert (Z0 := Rle_0_sqr (r * cosR D - r')). unfold Rsqr in Z0. lra. }
  assert (Lc : Rabs (r * cosR D - r') <= d).
  { rewrite <- (Rabs_pos_eq d) by lra. apply Rsqr_le_abs_0. unfold Rsqr. assert (Z0 := Rle_0_sqr (r * sinR D)). unfold Rsqr in Z0. lra. }
  rewrite Rabs_mult, (Rabs_pos_eq r) in Ls by lra. apply Rabs_le_inv in Lc.
  assert (Ss : Rabs (sinR D) <= d / r) by (apply Rmult_le_reg_l with r; [easy|]; replace (r * (d / r)) with d by (field; lra); easy).
  assert (Q : d / r <= 1e-6) by (apply Rmult_le_reg_r with r; [easy|]; replace (d / r * r) with d by (field; lra); lra).
  assert (Q0 : 0 <= d / r) by (apply Rmult_le_pos; [lra|apply Rlt_le, Rinv_0_lt_compat; easy]).
  apply sin_small; [lra| |easy].
  apply Rabs_le. destruct (Rle_or_lt (cosR D) 0) as [N|N].
  - exfalso. assert (U := sin2_cos2 D). unfold Rsqr in U. apply Rabs_le_inv in Ss.
    assert (V1 : cosR D * cosR D >= 0.9) by nra. assert (cosR D <= - 0.9) by nra. nra.
  - split.
    + destruct (Rle_or_lt (- (PI / 2)) D) as [|G]; [easy|exfalso].
      assert (Z0 : cosR (- D) <= 0) by (apply cos_le_0; unfold D in *; lra). rewrite cos_neg in Z0. lra.
    + destruct (Rle_or_lt D (PI / 2)) as [|G]; [easy|exfalso].
      assert (Z0 : cosR D <= 0) by (apply cos_le_0; unfold D in *; lra). lra.
Qed.

Section D.
Variable L : Libm.
(** palDsepv and palDsep run in double arithmetic *)
Definition dsepv (a b : vec R) : R := @palDsepv R (DA L) a b.
Definition dsep (a1 b1 a2 b2 : R) : R := @palDsep R (DA L) a1 b1 a2 b2.

Lemma dsepv_unf : forall a b, dsepv a b =
  if negb (Reqb (dnorm (dcross a b)) 0) || negb (Reqb (ddot a b) 0) then l_atan2 L (dnorm (dcross a b)) (ddot a b) else 0.
Proof.
  intros a b. unfold dsepv, palDsepv, eraSepp. cbv zeta. dn. rewrite (rdZ 0) by (cbn; lia). reflexivity.
Qed.

(** the two arguments of atan2, against any vectors a0, b0 nearby *)
Lemma vsub_tri : forall a b c, norm (vsub a c) <= norm (vsub a b) + norm (vsub b c).
Proof.
  intros a b c. apply Rsqr_incr_0_var; [|apply Rplus_le_le_0_compat; apply norm_pos]. unfold Rsqr.
  assert (K := cauchy_abs (vsub a b) (vsub b c)). apply Rabs_le_inv in K.
  rewrite norm_sq. assert (A := norm_sq (vsub a b)). assert (B := norm_sq (vsub b c)).
  assert (E : dot (vsub a c) (vsub a c) = dot (vsub a b) (vsub a b) + dot (vsub b c) (vsub b c) + 2 * dot (vsub a b) (vsub b c)) by vring.
  rewrite E. nra.
Qed.
Lemma norm_diff : forall a b, Rabs (norm a - norm b) <= norm (vsub a b).
Proof.
  assert (G : forall a b, norm a - norm b <= norm (vsub a b)).
  { intros a b. assert (K := vsub_tri a b vzero).
    assert (Ea : vsub a vzero = a) by vring. assert (Eb : vsub b vzero = b) by vring. rewrite Ea, Eb in K. lra. }
  intros a b. apply Rabs_le. assert (H1 := G a b). assert (H2 := G b a).
  assert (E : norm (vsub b a) = norm (vsub a b)) by (unfold norm; f_equal; vring). lra.
Qed.
(** the general bound: the double separation of a, b against the exact one *)
Lemma dsepv_bound : forall a b e t, atan2_acc L e -> 0 <= t <= PI ->
  / 10 ^ 65 <= norm a -> / 10 ^ 65 <= norm b ->
  dot a b = norm a * norm b * cosR t -> Rabs (dsepv a b - t) <= 8e-16 + e.
Proof.
  intros a b e t HL Ht Ha Hb Hc. assert (P := PI_RGT_0).
  set (N := norm a * norm b) in *.
  assert (NN : / 10 ^ 130 <= N).
  { replace (/ 10 ^ 130) with (/ 10 ^ 65 * / 10 ^ 65) by (rewrite <- Rinv_mult; f_equal; lra). apply Rmult_le_compat; try easy;
    apply Rlt_le, Rinv_0_lt_compat; lra. }
  assert (N0 : 0 < N) by (assert (0 < / 10 ^ 130) by (apply Rinv_0_lt_compat; lra); lra).
  assert (EE : eta <= 1e-19 * N) by (assert (A := eta_small); lra).
  assert (E0 := eta_pos).
  assert (X := ddot_err a b). fold N in X.
  assert (Y : Rabs (dnorm (dcross a b) - norm (cross a b)) <= 6.2 * u53 * N).
  { assert (A := dnorm_err (dcross a b)). assert (B := dcross_err a b). fold N in B.
    assert (C := norm_diff (dcross a b) (cross a b)).
    assert (M : norm (cross a b) <= N).
    { apply Rsqr_incr_0_var; [|lra]. unfold Rsqr. rewrite norm_sq, lagrange, <- !norm_sq. unfold N. nra. }
    unfold u53 in *. apply Rabs_le_inv in A, C. apply Rabs_le. assert (U : / 10 ^ 149 <= 1e-18 * N) by lra. lra. }
  assert (Hs : norm (cross a b) = N * sinR t).
  { apply Rsqr_inj; [apply norm_pos|apply Rmult_le_pos; [lra|apply sin_ge_0; lra]|]. unfold Rsqr. rewrite norm_sq, lagrange, Hc, <- !norm_sq.
    assert (T := sin2_cos2 t). unfold Rsqr in T. fold N.
    replace (norm a * norm a * (norm b * norm b)) with (N * N * 1) by (unfold N; ring). rewrite <- T. ring. }
  rewrite Hc in X. rewrite Hs in Y. rewrite dsepv_unf.
  set (x := ddot a b) in *. set (y := dnorm (dcross a b)) in *.
  assert (Y0 : 0 <= y) by (apply rd_nonneg, sqrt_pos).
  assert (D : (N * cosR t - x) * (N * cosR t - x) + (N * sinR t - y) * (N * sinR t - y) <= 7.7e-16 * N * (7.7e-16 * N)).
  { apply Rle_trans with ((3.02 * u53 * N) * (3.02 * u53 * N) + (6.2 * u53 * N) * (6.2 * u53 * N)).
    - assert (Q : forall u v, Rabs u <= v -> u * u <= v * v).
      { intros u v H. assert (K := Rabs_pos u). apply Rabs_le_inv in H. nra. }
      apply Rplus_le_compat; apply Q; rewrite Rabs_minus_sym; [|lra]. unfold u53 in *. lra.
    - unfold u53. assert (0 < N * N) by nra. lra. }
  assert (NZ : y <> 0 \/ x <> 0).
  { destruct (Req_dec y 0) as [Hy|Hy]; [right|now left]. intros Hx. rewrite Hx, Hy in D.
    assert (T := sin2_cos2 t). unfold Rsqr in T.
    assert (N * N * (sinR t * sinR t + cosR t * cosR t) <= 7.7e-16 * N * (7.7e-16 * N)) by lra. rewrite T in H. nra. }
  assert (EQ : (if negb (Reqb y 0) || negb (Reqb x 0) then l_atan2 L y x else 0) = l_atan2 L y x).
  { destruct (Reqb_spec y 0); [|easy]. destruct (Reqb_spec x 0); [|easy]. tauto. }
  rewrite EQ. assert (AL := HL y x (fmt_rd _) (fmt_rd _) NZ).
  set (th := atan2R y x) in *. destruct (atan2_polar y x) as [Ex Ey]. fold th in Ex, Ey.
  set (r' := R_sqrt.sqrt (x * x + y * y)) in *. assert (R0 : 0 <= r') by apply sqrt_pos.
  assert (TH : 0 <= th <= PI).
  { assert (G := atan2_range y x). fold th in G. split; [|lra]. destruct (Rle_or_lt 0 th) as [|C]; [easy|exfalso].
    assert (sinR th < 0) by (apply sin_lt_0_var; lra).
    assert (RP : 0 < r') by (apply sqrt_lt_R0; destruct NZ; nra). nra. }
  assert (K := polar_pert N t r' th (7.7e-16 * N) N0 R0 ltac:(apply Rabs_le; lra) ltac:(lra)).
  rewrite <- Ex, <- Ey in K. specialize (K D).
  replace (7.7e-16 * N / N) with 7.7e-16 in K by (field; lra).
  apply Rabs_le_inv in K, AL. apply Rabs_le. lra.
Qed.

(** ** Moving one of two vectors by d changes their separation by about d *)
Lemma sep_pert : forall a b b' t t', 0 < norm a -> 0 < norm b -> 0 <= t <= PI -> 0 <= t' <= PI ->
  dot a b = norm a * norm b * cosR t -> dot a b' = norm a * norm b' * cosR t' -> norm (vsub b b') <= 1e-6 * norm b ->
  Rabs (t' - t) <= 1.0000001 * (norm (vsub b b') / norm b).
Proof.
  intros a b b' t t' Pa Pb Ht Ht' H H' Hd. set (d := norm (vsub b b')) in *.
  assert (D0 : 0 <= d) by apply norm_pos. assert (Pb' := norm_pos b').
  assert (S : forall c u, 0 <= u <= PI -> dot a c = norm a * norm c * cosR u -> norm (cross a c) = norm a * norm c * sinR u).
  { intros c u Hu Hc. apply Rsqr_inj; [apply norm_pos|repeat apply Rmult_le_pos; try apply norm_pos; apply sin_ge_0; lra|].
    unfold Rsqr. rewrite norm_sq, lagrange, Hc, <- !norm_sq. assert (T := sin2_cos2 u). unfold Rsqr in T.
    replace (norm a * norm a * (norm c * norm c)) with (norm a * norm c * (norm a * norm c) * 1) by ring. rewrite <- T. ring. }
  replace (d / norm b) with ((norm a * d) / (norm a * norm b)) by (field; lra).
  apply (polar_pert (norm a * norm b) t (norm a * norm b') t'); [nra|nra|apply Rabs_le; lra|split; nra|].
  rewrite <- H, <- H', <- (S b t Ht H), <- (S b' t' Ht' H').
  assert (N := norm_diff (cross a b) (cross a b')).
  assert (E : norm (vsub (cross a b) (cross a b')) * norm (vsub (cross a b) (cross a b')) + (dot a b - dot a b') * (dot a b - dot a b') = norm a * d * (norm a * d)).
  { rewrite norm_sq. replace (norm a * d * (norm a * d)) with ((norm a * norm a) * (d * d)) by ring. unfold d. rewrite !norm_sq. vring. }
  rewrite <- E. apply Rabs_le_inv in N. assert (Q := norm_pos (vsub (cross a b) (cross a b'))). nra.
Qed.

(** C84: the separation computed in doubles is right to 8e-16 radians (plus the error of atan2) for every pair of vectors
    of length between 1e-65 and 1e65, however small or close to 180 degrees the angle. *)
Theorem C84_palDsepv : forall e a b t, atan2_acc L e ->
  / 10 ^ 65 <= norm a <= 10 ^ 65 -> / 10 ^ 65 <= norm b <= 10 ^ 65 ->
  0 <= t <= PI -> cosR t = dot a b / (norm a * norm b) -> Rabs (dsepv a b - t) <= 8e-16 + e.
Proof.
  intros e a b t HL Ha Hb Ht Hc. apply dsepv_bound; try easy. rewrite Hc.
  assert (0 < / 10 ^ 65) by (apply Rinv_0_lt_compat; lra). field. lra.
Qed.
(** exactly symmetric, and exactly zero for a vector and itself *)
Theorem C84_exact : forall a b, dsepv a b = dsepv b a /\
  ((forall x, 0 < x -> l_atan2 L 0 x = 0) -> / 10 ^ 65 <= norm a -> dsepv a a = 0).
Proof.
  intros a b. split.
  - rewrite !dsepv_unf.
    assert (E1 : ddot a b = ddot b a) by (unfold ddot; now rewrite (Rmult_comm (vx a)), (Rmult_comm (vy a)), (Rmult_comm (vz a))).
    assert (E2 : dnorm (dcross a b) = dnorm (dcross b a)).
    { unfold dnorm, dcross. cbn [vx vy vz].
      assert (Q : forall p q, rd (rd p - rd q) * rd (rd p - rd q) = rd (rd q - rd p) * rd (rd q - rd p)).
      { intros p q. replace (rd p - rd q) with (- (rd q - rd p)) by ring. rewrite rd_opp. ring. }
      rewrite (Q (vy a * vz b)), (Q (vz a * vx b)), (Q (vx a * vy b)).
      now rewrite !(Rmult_comm (vx a)), !(Rmult_comm (vy a)), !(Rmult_comm (vz a)). }
    now rewrite E1, E2.
  - intros HL Ha. rewrite dsepv_unf.
    assert (E2 : dnorm (dcross a a) = 0).
    { unfold dnorm, dcross. cbn [vx vy vz]. rewrite (Rmult_comm (vz a) (vy a)), (Rmult_comm (vz a) (vx a)), (Rmult_comm (vy a) (vx a)).
      unfold Rminus. rewrite !Rplus_opp_r. repeat first [rewrite rd_0|rewrite Rmult_0_l|rewrite Rplus_0_r|rewrite sqrt_0]. reflexivity. }
    rewrite E2. assert (X := ddot_err a a). assert (E0 := eta_small).
    assert (Pa : 0 < / 10 ^ 65) by (apply Rinv_0_lt_compat; lra).
    assert (P2 : / 10 ^ 130 <= norm a * norm a).
    { replace (/ 10 ^ 130) with (/ 10 ^ 65 * / 10 ^ 65) by (rewrite <- Rinv_mult; f_equal; lra). apply Rmult_le_compat; lra. }
    rewrite <- norm_sq in X. apply Rabs_le_inv in X. unfold u53 in X.
    assert (0 < ddot a a) by (assert (eta <= 1e-19 * / 10 ^ 130) by lra; lra).
    destruct (Reqb 0 0); cbn [negb orb]; [|now apply HL]. destruct (Reqb_spec (ddot a a) 0); cbn [negb]; [lra|now apply HL].
Qed.

(** ** palDsep *)
Definition ddir (a b : R) : vec R := V (rd (l_cos L a * l_cos L b)) (rd (l_sin L a * l_cos L b)) (l_sin L b).
Lemma dsep_unf : forall a1 b1 a2 b2, dsep a1 b1 a2 b2 = dsepv (ddir a1 b1) (ddir a2 b2).
Proof. reflexivity. Qed.
Lemma prod_err : forall x y x' y', Rabs x <= 1 -> Rabs y <= 1 -> Rabs (x' - x) <= u53 -> Rabs (y' - y) <= u53 ->
  Rabs (rd (x' * y') - x * y) <= 3.01 * u53.
Proof.
  intros x y x' y' Hx Hy H1 H2. assert (E1 := eta_small). assert (E2 := eta_pos).
  assert (P : Rabs (x' * y' - x * y) <= 2.001 * u53).
  { replace (x' * y' - x * y) with ((x' - x) * (y' - y) + (x' - x) * y + x * (y' - y)) by ring.
    eapply Rle_trans; [apply Rabs_triang|]. eapply Rle_trans; [apply Rplus_le_compat_r, Rabs_triang|].
    rewrite !Rabs_mult. assert (A := Rabs_pos (x' - x)). assert (B := Rabs_pos (y' - y)). assert (C := Rabs_pos x). assert (D := Rabs_pos y).
    unfold u53 in *. nra. }
  assert (Q : Rabs (x * y) <= 1) by (rewrite Rabs_mult; assert (C := Rabs_pos x); assert (D := Rabs_pos y); nra).
  assert (W : Rabs (x' * y') <= 1.000001).
  { apply Rabs_le_inv in P, Q. apply Rabs_le. unfold u53 in *. lra. }
  assert (K := rde _ _ W). apply Rabs_le_inv in K, P. apply Rabs_le. unfold u53 in *. lra.
Qed.
Lemma ddir_err : trig_acc L u53 -> forall a b, fmt a -> fmt b -> norm (vsub (dir a b) (ddir a b)) <= 4.4 * u53.
Proof.
  intros HT a b Fa Fb. destruct (HT a Fa) as [Sa Ca]. destruct (HT b Fb) as [Sb Cb].
  assert (B : forall x, Rabs (sinR x) <= 1 /\ Rabs (cosR x) <= 1).
  { intros x. split; apply Rabs_le; [apply SIN_bound|apply COS_bound]. }
  assert (X := prod_err (cosR a) (cosR b) _ _ (proj2 (B a)) (proj2 (B b)) Ca Cb).
  assert (Y := prod_err (sinR a) (cosR b) _ _ (proj1 (B a)) (proj2 (B b)) Sa Cb).
  apply Rsqr_incr_0_var; [|unfold u53; lra]. unfold Rsqr. rewrite norm_sq. unfold dot, vsub, dir, ddir; cbn [vx vy vz].
  apply Rabs_le_inv in X, Y, Sb.
  assert (Q : forall u v, - v <= u <= v -> u * u <= v * v) by (intros; nra).
  assert (Q1 := Q _ _ X). assert (Q2 := Q _ _ Y). assert (Q3 := Q _ _ Sb). unfold u53 in *. lra.
Qed.
Theorem C84_palDsep : forall e a1 b1 a2 b2 t, atan2_acc L e -> trig_acc L u53 ->
  is_double a1 -> is_double b1 -> is_double a2 -> is_double b2 ->
  0 <= t <= PI -> cosR t = dot (dir a1 b1) (dir a2 b2) -> Rabs (dsep a1 b1 a2 b2 - t) <= 1.8e-15 + e.
Proof.
  intros e a1 b1 a2 b2 t HA HT A1 B1 A2 B2 Ht Hc. apply double_fmt in A1, B1, A2, B2.
  assert (E1 := ddir_err HT a1 b1 A1 B1). assert (E2 := ddir_err HT a2 b2 A2 B2).
  set (u := dir a1 b1) in *. set (v := dir a2 b2) in *. set (u' := ddir a1 b1) in *. set (v' := ddir a2 b2) in *.
  assert (Nu : norm u = 1) by apply norm_unit, dir_unit. assert (Nv : norm v = 1) by apply norm_unit, dir_unit.
  assert (Du := norm_diff u u'). assert (Dv := norm_diff v v'). rewrite Nu in Du. rewrite Nv in Dv. apply Rabs_le_inv in Du, Dv.
  unfold u53 in E1, E2.
  (* the intermediate separations *)
  destruct (eraSepp_polar u v') as [P1 _]. assert (R1 := eraSepp_range u v'). set (t1 := @eraSepp R _ u v') in *.
  destruct (eraSepp_polar u' v') as [P2 _]. assert (R2 := eraSepp_range u' v'). set (t2 := @eraSepp R _ u' v') in *.
  assert (K1 := sep_pert u v v' t t1 ltac:(lra) ltac:(lra) Ht R1 ltac:(rewrite Nu, Nv, Hc; ring) P1 ltac:(lra)).
  assert (K2 := sep_pert v' u u' t1 t2 ltac:(lra) ltac:(lra) R1 R2 ltac:(rewrite dot_comm, P1; ring) ltac:(rewrite dot_comm, P2; ring) ltac:(lra)).
  rewrite Nv in K1. rewrite Nu in K2.
  rewrite dsep_unf. fold u' v'.
  assert (T : / 10 ^ 65 <= 0.5) by lra.
  assert (K3 := dsepv_bound u' v' e t2 HA R2 ltac:(lra) ltac:(lra) P2).
  apply Rabs_le_inv in K1, K2, K3. apply Rabs_le. lra.
Qed.
End D.

(** Non-vacuity: a correctly rounded libm meets the accuracy hypotheses *)
Definition Lcr : Libm := MkLibm (fun x => rd (sinR x)) (fun x => rd (cosR x)) (fun x => rd (Rtrigo1.tan x)) (fun x => rd (Ratan.asin x))
  (fun x => rd (Ratan.atan x)) (fun y x => rd (atan2R y x)) (fun x => rd (Rtrigo_def.exp x)) (fun x => rd (ln x)) (fun x => rd (Rtrigo_def.sinh x))
  (fun x y => rd (Rpower x y)).
Lemma Lcr_atan2 : atan2_acc Lcr 2.3e-16.
Proof.
  intros y x _ _ _. change (l_atan2 Lcr y x) with (rd (atan2R y x)). assert (P := PI_4). assert (R0 := atan2_range y x).
  eapply Rle_trans; [apply (rd_abs_err _ 2); [lia|]; change (bpow radix2 2) with 4; apply Rabs_le; lra|].
  change (bpow radix2 (2 - 54)) with (/ 4503599627370496). lra.
Qed.
Lemma Lcr_trig : trig_acc Lcr u53.
Proof.
  intros x _. change (l_sin Lcr x) with (rd (sinR x)). change (l_cos Lcr x) with (rd (cosR x)). change u53 with (bpow radix2 (-53)).
  assert (K : forall z, -1 <= z <= 1 -> Rabs (rd z - z) <= bpow radix2 (-53)).
  { intros z Hz. eapply Rle_trans; [apply (rd_abs_err _ 0); [lia|]; change (bpow radix2 0) with 1; apply Rabs_le; lra|].
    apply bpow_le. lia. }
  split; apply K; [apply SIN_bound|apply COS_bound].
Qed.
(** two directions a milliarcsecond (4.8e-9 rad) apart on the equator: the computed separation has seven correct digits *)
Example C84_eg : forall x, is_double x -> 4.8e-9 <= x <= 4.9e-9 -> Rabs (dsep Lcr 0 0 x 0 - x) <= 2.1e-15.
Proof.
  intros x Dx Hx. assert (Z0 : is_double 0) by (split; [apply FLT_format_generic; [now unfold Prec_gt_0|apply fmt0]|rewrite Rabs_R0; apply bpow_gt_0]).
  eapply Rle_trans; [apply (C84_palDsep Lcr 2.3e-16); try easy; [exact Lcr_atan2|exact Lcr_trig|split; [lra|]; assert (P := PI2_3_2); lra|]|lra].
  unfold dot, dir; cbn [vx vy vz]. rewrite cos_0, sin_0. ring.
Qed.
