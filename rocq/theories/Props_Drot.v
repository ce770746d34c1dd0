(** * C100: rotation vectors and rotation matrices in double precision *)
From Coq Require Import Reals ZArith Lra Lia Psatz Bool List.
From Flocq Require Import Core IEEE754.BinarySingleNaN.
From Interval Require Import Tactic.
From Verif Require Import Num NumR NumD NumDE NumF Geom Erfa M_Sphere P_Sphere Props_Sphere Props_Dangle Props_Dsep Props_Dsph Props_Dtan Props_Dvec Props_Deul Props_Dgal Props_Ieee Props_Ieee2.
Local Open Scope R_scope.

(** The rotation of axes by the angle t about the unit vector u (Rodrigues) *)
Definition rodrigues (u : vec R) (t : R) : mat R :=
  let f := 1 - cosR t in let s := sinR t in let c := cosR t in let x := vx u in let y := vy u in let z := vz u in
  M (V (x * x * f + c) (x * y * f + z * s) (x * z * f - y * s))
    (V (y * x * f - z * s) (y * y * f + c) (y * z * f + x * s))
    (V (z * x * f + y * s) (z * y * f - x * s) (z * z * f + c)).
Lemma mul_e : forall a b a0 b0 da db A B, Rabs (a - a0) <= da -> Rabs (b - b0) <= db -> Rabs a0 <= A -> Rabs b0 <= B ->
  Rabs (rd (a * b) - a0 * b0) <= A * db + B * da + da * db + u53 * ((A + da) * (B + db)) + eta.
Proof.
  intros a b a0 b0 da db A B Ha Hb HA HB.
  assert (Pa := Rabs_pos (a - a0)). assert (Pb := Rabs_pos (b - b0)). assert (PA := Rabs_pos a0). assert (PB := Rabs_pos b0).
  assert (Xa : Rabs a <= A + da) by (replace a with (a0 + (a - a0)) by ring; eapply Rle_trans; [apply Rabs_triang|lra]).
  assert (Xb : Rabs b <= B + db) by (replace b with (b0 + (b - b0)) by ring; eapply Rle_trans; [apply Rabs_triang|lra]).
  assert (K : Rabs (a * b) <= (A + da) * (B + db)) by (rewrite Rabs_mult; apply Rmult_le_compat; try apply Rabs_pos; lra).
  assert (W := rde _ _ K).
  assert (D : Rabs (a * b - a0 * b0) <= A * db + B * da + da * db).
  { replace (a * b - a0 * b0) with (a0 * (b - b0) + b0 * (a - a0) + (a - a0) * (b - b0)) by ring.
    eapply Rle_trans; [apply Rabs_triang|]. eapply Rle_trans; [apply Rplus_le_compat_r, Rabs_triang|]. rewrite !Rabs_mult.
    assert (Rabs a0 * Rabs (b - b0) <= A * db) by (apply Rmult_le_compat; lra). assert (Rabs b0 * Rabs (a - a0) <= B * da) by (apply Rmult_le_compat; lra).
    assert (Rabs (a - a0) * Rabs (b - b0) <= da * db) by (apply Rmult_le_compat; lra). lra. }
  replace (rd (a * b) - a0 * b0) with ((rd (a * b) - a * b) + (a * b - a0 * b0)) by ring. eapply Rle_trans; [apply Rabs_triang|]. lra.
Qed.
Lemma add_e : forall a b a0 b0 da db X, Rabs (a - a0) <= da -> Rabs (b - b0) <= db -> Rabs (a0 + b0) <= X ->
  Rabs (rd (a + b) - (a0 + b0)) <= da + db + u53 * (X + da + db) + eta.
Proof.
  intros a b a0 b0 da db X Ha Hb HX.
  assert (D : Rabs ((a + b) - (a0 + b0)) <= da + db) by (replace ((a + b) - (a0 + b0)) with ((a - a0) + (b - b0)) by ring; eapply Rle_trans; [apply Rabs_triang|lra]).
  assert (K : Rabs (a + b) <= X + da + db) by (replace (a + b) with ((a0 + b0) + ((a + b) - (a0 + b0))) by ring; eapply Rle_trans; [apply Rabs_triang|lra]).
  assert (W := rde _ _ K). replace (rd (a + b) - (a0 + b0)) with ((rd (a + b) - (a + b)) + ((a + b) - (a0 + b0))) by ring. eapply Rle_trans; [apply Rabs_triang|]. lra.
Qed.
Lemma sub_e : forall a b a0 b0 da db X, Rabs (a - a0) <= da -> Rabs (b - b0) <= db -> Rabs (a0 - b0) <= X ->
  Rabs (rd (a - b) - (a0 - b0)) <= da + db + u53 * (X + da + db) + eta.
Proof.
  intros a b a0 b0 da db X Ha Hb HX. assert (Hb' : Rabs (- b - - b0) <= db) by (replace (- b - - b0) with (- (b - b0)) by ring; now rewrite Rabs_Ropp).
  exact (add_e a (- b) a0 (- b0) da db X Ha Hb' HX).
Qed.
Lemma sq_abs_le : forall a b, 0 <= b -> a * a <= b * b -> Rabs a <= b.
Proof. intros a b Hb H. apply Rabs_le. nra. Qed.
Lemma near_sq : forall x c k, Rabs (x - 2 * c) <= k -> -1 <= c <= 1 -> 0 <= k <= 1e-6 -> x * x >= 4 * (c * c) - 1e-5.
Proof.
  intros x c k H Hc Hk. set (y := x - 2 * c) in *. replace x with (2 * c + y) by (unfold y; ring). apply Rabs_le_inv in H. assert (Q : Rabs (c * y) <= 1e-6).
  { rewrite Rabs_mult. replace 1e-6 with (1 * 1e-6) by ring. apply Rmult_le_compat; try apply Rabs_pos; apply Rabs_le; lra. }
  apply Rabs_le_inv in Q. assert (0 <= y * y) by apply Rle_0_sqr. lra.
Qed.
Lemma conv_b : forall b c, Rabs b <= 1 -> -1 <= c <= 1 -> 0 <= b * b * (1 - c) <= 1 - c.
Proof.
  intros b c Hb Hc. apply Rabs_le_inv in Hb. assert (b * b <= 1) by nra. assert (0 <= b * b) by apply Rle_0_sqr. split; [apply Rmult_le_pos; lra|].
  rewrite <- (Rmult_1_l (1 - c)) at 2. apply Rmult_le_compat_r; lra.
Qed.
(** the off-diagonal entries of a rotation *)
Lemma off_b : forall x y z a b s, x * x + y * y + z * z = 1 -> a * a + b * b = 1 -> s = 1 \/ s = -1 -> Rabs (x * y * (1 - b) + s * (z * a)) <= 1.5.
Proof.
  intros x y z a b s H1 H2 Hs. assert (Hb : -1 <= b <= 1) by (assert (q := Rle_0_sqr a); unfold Rsqr in q; split; nra).
  assert (p1 := Rle_0_sqr (x - y)). assert (p2 := Rle_0_sqr (x + y)). assert (p3 := Rle_0_sqr (z - a)). assert (p4 := Rle_0_sqr (z + a)).
  assert (p5 := Rle_0_sqr x). assert (p6 := Rle_0_sqr y). assert (p7 := Rle_0_sqr b). assert (p8 := Rle_0_sqr z). unfold Rsqr in *.
  assert (XY : Rabs (x * y) <= (1 - z * z) / 2) by (apply Rabs_le; lra).
  assert (A : Rabs (x * y * (1 - b)) <= (1 - z * z) / 2 * (1 - b)) by (rewrite Rabs_mult, (Rabs_pos_eq (1 - b)) by lra; apply Rmult_le_compat_r; lra).
  assert (B : Rabs (s * (z * a)) <= (z * z + a * a) / 2) by (apply Rabs_le; destruct Hs as [-> | ->]; lra).
  assert (0 <= (1 - z * z) * (1 + b)) by (apply Rmult_le_pos; lra).
  eapply Rle_trans; [apply Rabs_triang|]. lra.
Qed.
Lemma norm_scale_ab : forall k a, norm (scale k a) = Rabs k * norm a.
Proof.
  intros k a. apply Rsqr_inj; [apply norm_pos|apply Rmult_le_pos; [apply Rabs_pos|apply norm_pos]|]. unfold Rsqr. rewrite norm_sq.
  replace (Rabs k * norm a * (Rabs k * norm a)) with (Rabs k * Rabs k * (norm a * norm a)) by ring. rewrite <- Rabs_mult, (Rabs_pos_eq (_ * _)) by apply Rle_0_sqr. rewrite norm_sq. unfold scale, dot; cbn [vx vy vz]. ring.
Qed.
Section D.
Variable L : Libm.
Hypothesis HT : trig_acc L u53.
(** palDav2m and palDm2av run in double arithmetic *)
Definition dav2m (w : vec R) : mat R := @palDav2m R (DA L) w.
Definition dm2av (m : mat R) : vec R := @palDm2av R (DA L) m.

(** the ingredients: the modulus, the unit vector, the sine and cosine *)
Lemma av_parts : forall u t, unitv u -> / 10 ^ 100 <= t <= 6.3 -> let w := scale t u in let p := dnorm w in
  0 < p /\ Rabs (p - t) <= 2.6001 * u53 * t /\ (forall a b, Rabs b <= 1 -> a = t * b -> Rabs (rd (a / p) - b) <= 3.61 * u53) /\
  Rabs (l_sin L p - sinR t) <= 17.4 * u53 /\ Rabs (l_cos L p - cosR t) <= 17.4 * u53.
Proof.
  intros u t Hu Ht w p. assert (T0 : 0 < / 10 ^ 100) by (apply Rinv_0_lt_compat; lra).
  assert (Nw : norm w = t).
  { unfold norm, w. unfold unitv in Hu. unfold scale, dot in *; cbn [vx vy vz]. replace (_ + _) with (t * t * (vx u * vx u + vy u * vy u + vz u * vz u)) by ring. rewrite Hu, Rmult_1_r. apply sqrt_square. lra. }
  assert (W := dnorm_err w). rewrite Nw in W. fold p in W.
  assert (T2 : / 10 ^ 149 <= 1e-20 * t).
  { apply Rle_trans with (1e-20 * / 10 ^ 100); [|apply Rmult_le_compat_l; lra]. replace 1e-20 with (/ 10 ^ 20) by lra. rewrite <- Rinv_mult, <- pow_add. apply Rinv_le_contravar; [apply pow_lt; lra|apply Rle_pow; [lra|cbn; lia]]. }
  assert (W' : Rabs (p - t) <= 2.6001 * u53 * t) by (unfold u53 in *; lra). clear W T2. assert (Wi := Rabs_le_inv _ _ W').
  assert (Pp : 0 < p) by (unfold u53 in Wi; lra). split; [exact Pp|]. split; [exact W'|].
  assert (Fp : fmt p) by apply fmt_rd. destruct (HT p Fp) as [S C]. destruct (sin_lip p t) as [S1 C1].
  assert (E1 := eta_small). assert (E0 := eta_pos). split; [|split].
  - intros a b Hb ->. assert (K : Rabs (t * b / p - b) <= 2.6002 * u53).
    { replace (t * b / p - b) with (b * ((t - p) / p)) by (field; lra). rewrite Rabs_mult. rewrite <- (Rmult_1_l (2.6002 * u53)). apply Rmult_le_compat; try apply Rabs_pos; [easy|].
      unfold Rdiv. rewrite Rabs_mult, Rabs_inv, (Rabs_pos_eq p) by lra. apply Rmult_le_reg_r with p; [easy|]. rewrite Rmult_assoc, Rinv_l, Rmult_1_r by lra.
      rewrite Rabs_minus_sym. unfold u53 in *. lra. }
    assert (K2 : Rabs (t * b / p) <= 1.0001) by (replace (t * b / p) with (b + (t * b / p - b)) by ring; eapply Rle_trans; [apply Rabs_triang|]; unfold u53 in K; lra).
    assert (R1 := rde _ _ K2). replace (rd (t * b / p) - b) with ((rd (t * b / p) - t * b / p) + (t * b / p - b)) by ring. eapply Rle_trans; [apply Rabs_triang|]. unfold u53 in *. lra.
  - replace (l_sin L p - sinR t) with ((l_sin L p - sinR p) + (sinR p - sinR t)) by ring. eapply Rle_trans; [apply Rabs_triang|]. unfold u53 in *. lra.
  - replace (l_cos L p - cosR t) with ((l_cos L p - cosR p) + (cosR p - cosR t)) by ring. eapply Rle_trans; [apply Rabs_triang|]. unfold u53 in *. lra.
Qed.
Lemma term_err : forall x y f s z x0 y0 f0 s0 z0, Rabs x0 <= 1 -> Rabs y0 <= 1 -> Rabs z0 <= 1 -> Rabs f0 <= 2 -> Rabs s0 <= 1 ->
  Rabs (x - x0) <= 3.61 * u53 -> Rabs (y - y0) <= 3.61 * u53 -> Rabs (z - z0) <= 3.61 * u53 -> Rabs (f - f0) <= 19.5 * u53 -> Rabs (s - s0) <= 17.4 * u53 ->
  Rabs (rd (rd (rd (x * y) * f) + rd (z * s)) - (x0 * y0 * f0 + z0 * s0)) <= 7.1e-15 /\
  Rabs (rd (rd (rd (x * y) * f) - rd (z * s)) - (x0 * y0 * f0 - z0 * s0)) <= 7.1e-15 /\
  Rabs (rd (rd (rd (x * y) * f) + s) - (x0 * y0 * f0 + s0)) <= 7.1e-15.
Proof.
  intros x y f s z x0 y0 f0 s0 z0 X Y Z0 F0 S0 Hx Hy Hz Hf Hs. assert (E1 := eta_small). assert (E0 := eta_pos).
  assert (A1 := mul_e _ _ _ _ _ _ _ _ Hx Hy X Y).
  assert (A1' : Rabs (rd (x * y) - x0 * y0) <= 8.23 * u53) by (unfold u53 in *; lra).
  assert (XY : Rabs (x0 * y0) <= 1) by (rewrite Rabs_mult; rewrite <- (Rmult_1_l 1); apply Rmult_le_compat; try apply Rabs_pos; easy).
  assert (A2 := mul_e _ _ _ _ _ _ _ _ A1' Hf XY F0).
  assert (A2' : Rabs (rd (rd (x * y) * f) - x0 * y0 * f0) <= 38 * u53) by (unfold u53 in *; lra).
  assert (A3 := mul_e _ _ _ _ _ _ _ _ Hz Hs Z0 S0).
  assert (A3' : Rabs (rd (z * s) - z0 * s0) <= 22.1 * u53) by (unfold u53 in *; lra).
  assert (XF : Rabs (x0 * y0 * f0) <= 2) by (rewrite Rabs_mult; replace 2 with (1 * 2) by ring; apply Rmult_le_compat; try apply Rabs_pos; easy).
  assert (ZS : Rabs (z0 * s0) <= 1) by (rewrite Rabs_mult; rewrite <- (Rmult_1_l 1); apply Rmult_le_compat; try apply Rabs_pos; easy).
  assert (B1 : Rabs (x0 * y0 * f0 + z0 * s0) <= 3) by (eapply Rle_trans; [apply Rabs_triang|lra]).
  assert (B2 : Rabs (x0 * y0 * f0 - z0 * s0) <= 3) by (unfold Rminus; eapply Rle_trans; [apply Rabs_triang|rewrite Rabs_Ropp; lra]).
  assert (B3 : Rabs (x0 * y0 * f0 + s0) <= 3) by (eapply Rle_trans; [apply Rabs_triang|lra]).
  assert (C1 := add_e _ _ _ _ _ _ _ A2' A3' B1). assert (C2 := sub_e _ _ _ _ _ _ _ A2' A3' B2). assert (C3 := add_e _ _ _ _ _ _ _ A2' Hs B3).
  unfold u53 in *. split; [|split]; lra.
Qed.
(** C100: for every axis and every angle up to 6.3 rad (more than a turn), the matrix is within 7.1e-15 of the rotation *)
Theorem C100_palDav2m : forall u t, unitv u -> / 10 ^ 100 <= t <= 6.3 -> entries_within 7.1e-15 (dav2m (scale t u)) (rodrigues u t).
Proof.
  intros u t Hu Ht. destruct (av_parts u t Hu Ht) as (Pp & _ & Q & S & C). set (w := scale t u) in *. set (p := dnorm w) in *.
  assert (E : dav2m w = let s := l_sin L p in let c := l_cos L p in let f := rd (1 - c) in
    let x := rd (vx w / p) in let y := rd (vy w / p) in let z := rd (vz w / p) in
    M (V (rd (rd (rd (x * x) * f) + c)) (rd (rd (rd (x * y) * f) + rd (z * s))) (rd (rd (rd (x * z) * f) - rd (y * s))))
      (V (rd (rd (rd (y * x) * f) - rd (z * s))) (rd (rd (rd (y * y) * f) + c)) (rd (rd (rd (y * z) * f) + rd (x * s))))
      (V (rd (rd (rd (z * x) * f) + rd (y * s))) (rd (rd (rd (z * y) * f) - rd (x * s))) (rd (rd (rd (z * z) * f) + c)))).
  { unfold dav2m, palDav2m, eraRv2m. dn. rewrite !(rdZ 0), !(rdZ 1) by (cbn; lia). fold (dnorm w). fold p. destruct (Rltb_spec 0 p) as [_|N]; [|lra]. reflexivity. }
  rewrite E. cbv zeta. clear E. unfold unitv, dot in Hu.
  assert (X0 : Rabs (vx u) <= 1) by (apply Rabs_le; nra). assert (Y0 : Rabs (vy u) <= 1) by (apply Rabs_le; nra). assert (Z0 : Rabs (vz u) <= 1) by (apply Rabs_le; nra).
  assert (X := Q (vx w) (vx u) X0 eq_refl). assert (Y := Q (vy w) (vy u) Y0 eq_refl). assert (W := Q (vz w) (vz u) Z0 eq_refl).
  assert (S0 : Rabs (sinR t) <= 1) by (apply Rabs_le, SIN_bound). assert (C0 : Rabs (cosR t) <= 1) by (apply Rabs_le, COS_bound).
  assert (E1 := eta_small). assert (E0 := eta_pos).
  assert (F0 : Rabs (1 - cosR t) <= 2) by (apply Rabs_le_inv in C0; apply Rabs_le; lra).
  assert (Ff : Rabs (rd (1 - l_cos L p) - (1 - cosR t)) <= 19.5 * u53).
  { assert (K := sub_e 1 (l_cos L p) 1 (cosR t) 0 _ _ ltac:(rewrite Rminus_diag_eq, Rabs_R0; lra) C F0). unfold u53 in *. lra. }
  set (f := rd (1 - l_cos L p)) in *. set (s := l_sin L p) in *. set (c := l_cos L p) in *.
  set (x := rd (vx w / p)) in *. set (y := rd (vy w / p)) in *. set (z := rd (vz w / p)) in *. clearbody f s c x y z. clear Q.
  assert (G := fun a b d a0 b0 d0 HA HB HD Ka Kb Kd => term_err a b f s d a0 b0 (1 - cosR t) (sinR t) d0 HA HB HD F0 S0 Ka Kb Kd Ff S).
  assert (G' := fun a b d a0 b0 d0 HA HB HD Ka Kb Kd => term_err a b f c d a0 b0 (1 - cosR t) (cosR t) d0 HA HB HD F0 C0 Ka Kb Kd Ff C).
  unfold entries_within, rodrigues. cbv zeta. cbn [m0 m1 m2 vx vy vz].
  repeat split.
  - apply (G' x x x _ _ _ X0 X0 X0 X X X). - apply (G x y z _ _ _ X0 Y0 Z0 X Y W). - apply (G x z y _ _ _ X0 Z0 Y0 X W Y).
  - apply (G y x z _ _ _ Y0 X0 Z0 Y X W). - apply (G' y y y _ _ _ Y0 Y0 Y0 Y Y Y). - apply (G y z x _ _ _ Y0 Z0 X0 Y W X).
  - apply (G z x y _ _ _ Z0 X0 Y0 W X Y). - apply (G z y x _ _ _ Z0 Y0 X0 W Y X). - apply (G' z z z _ _ _ Z0 Z0 Z0 W W W).
Qed.

(** ** From the matrix to the vector *)
Definition mrot (m : mat R) : vec R := V (vz (m1 m) - vy (m2 m)) (vx (m2 m) - vz (m0 m)) (vy (m0 m) - vx (m1 m)).
Definition mtrc (m : mat R) : R := vx (m0 m) + vy (m1 m) + vz (m2 m) - 1.
(** the axis times the angle: X/|X| atan2 (|X|, trace - 1), X the antisymmetric part *)
Definition rotvec (m : mat R) : vec R := scale (atan2R (norm (mrot m)) (mtrc m) / norm (mrot m)) (mrot m).
Lemma norm_dom : forall d c, Rabs (vx d) <= Rabs (vx c) -> Rabs (vy d) <= Rabs (vy c) -> Rabs (vz d) <= Rabs (vz c) -> norm d <= norm c.
Proof.
  intros d c X Y W. unfold norm. apply sqrt_le_1_alt. unfold dot. apply Rsqr_le_abs_1 in X, Y, W. unfold Rsqr in *. lra.
Qed.
Lemma norm_tri2 : forall a b, norm (vadd a b) <= norm a + norm b.
Proof.
  intros a b. assert (K := vsub_tri a vzero (scale (-1) b)). assert (E1 : vsub a (scale (-1) b) = vadd a b) by (unfold vsub, scale, vadd; cbn; f_equal; ring).
  assert (E2 : vsub a vzero = a) by vring. assert (E3 : norm (vsub vzero (scale (-1) b)) = norm b) by (f_equal; vring). rewrite E1, E2, E3 in K. exact K.
Qed.
Lemma norm_k : forall d X k h, 0 <= k -> 0 <= h -> Rabs (vx d) <= k * Rabs (vx X) + h -> Rabs (vy d) <= k * Rabs (vy X) + h -> Rabs (vz d) <= k * Rabs (vz X) + h ->
  norm d <= k * norm X + 2 * h.
Proof.
  intros d X k h Pk Ph H1 H2 H3.
  set (a := V (k * Rabs (vx X)) (k * Rabs (vy X)) (k * Rabs (vz X))). set (b := V h h h).
  assert (P : forall x, 0 <= k * Rabs x) by (intros; apply Rmult_le_pos; [easy|apply Rabs_pos]).
  assert (D : norm d <= norm (vadd a b)).
  { assert (Q1 := P (vx X)). assert (Q2 := P (vy X)). assert (Q3 := P (vz X)). apply norm_dom; unfold vadd, a, b; cbn [vx vy vz]; rewrite (Rabs_pos_eq (_ + h)) by lra; easy. }
  assert (T := norm_tri2 a b).
  assert (Na : norm a = k * norm X).
  { apply Rsqr_inj; [apply norm_pos|apply Rmult_le_pos; [easy|apply norm_pos]|]. unfold Rsqr. rewrite norm_sq. replace (k * norm X * (k * norm X)) with (k * k * (norm X * norm X)) by ring. rewrite norm_sq.
    unfold a, dot; cbn [vx vy vz]. assert (Q : forall x, Rabs x * Rabs x = x * x) by (intros x; rewrite <- Rabs_mult; apply Rabs_pos_eq, Rle_0_sqr).
    replace (k * Rabs (vx X) * (k * Rabs (vx X)) + k * Rabs (vy X) * (k * Rabs (vy X)) + k * Rabs (vz X) * (k * Rabs (vz X))) with (k * k * (Rabs (vx X) * Rabs (vx X) + Rabs (vy X) * Rabs (vy X) + Rabs (vz X) * Rabs (vz X))) by ring. now rewrite !Q. }
  assert (Nb : norm b <= 2 * h).
  { apply Rsqr_incr_0_var; [|lra]. unfold Rsqr. rewrite norm_sq. unfold b, dot; cbn [vx vy vz]. nra. }
  lra.
Qed.
(** one component of the quotient *)
Lemma comp_err : forall X x S s P f, / 10 ^ 100 <= S <= 2.2 -> Rabs X <= S -> Rabs (x - X) <= u53 * Rabs X + eta -> Rabs (s - S) <= 3.6002 * u53 * S -> Rabs P <= 3.3 ->
  Rabs (f - P / s) <= u53 * Rabs (P / s) + eta -> Rabs (rd (x * f) - P / S * X) <= 22.1 * u53 * Rabs (X / S) + / 10 ^ 90.
Proof.
  intros X x S s P f HS HX Hx Hs HP Hf. assert (T0 : 0 < / 10 ^ 100) by (apply Rinv_0_lt_compat; lra). assert (E1 := eta_small). assert (E0 := eta_pos).
  assert (Hs' := Rabs_le_inv _ _ Hs). assert (Ps : 0.999 * S <= s) by (unfold u53 in Hs'; lra). assert (P0 : 0 < s) by lra. assert (P1 : 0 < S) by lra.
  set (A := Rabs (X / S)). assert (PA : 0 <= A) by apply Rabs_pos.
  assert (EA : Rabs X = A * S) by (unfold A, Rdiv; rewrite Rabs_mult, Rabs_inv, (Rabs_pos_eq S) by lra; field; lra).
  assert (A1 : A <= 1) by (apply Rmult_le_reg_r with S; [easy|]; rewrite <- EA; lra).
  assert (IS : / s <= 1.1 * 10 ^ 100).
  { apply Rle_trans with (/ (0.999 * / 10 ^ 100)); [apply Rinv_le_contravar; lra|]. rewrite Rinv_mult, Rinv_inv. apply Rmult_le_compat_r; [left; apply pow_lt; lra|lra]. }
  assert (PI0 : 0 < / s) by now apply Rinv_0_lt_compat.
  assert (Eh : eta * / s <= / 10 ^ 180).
  { apply Rle_trans with (/ 10 ^ 300 * (1.1 * 10 ^ 100)); [apply Rmult_le_compat; lra|].
    apply Rle_trans with (/ 10 ^ 300 * 10 ^ 120); [apply Rmult_le_compat_l; [left; apply Rinv_0_lt_compat, pow_lt; lra|]; replace (10 ^ 120) with (10 ^ 20 * 10 ^ 100) by (rewrite <- pow_add; reflexivity); apply Rmult_le_compat_r; [left; apply pow_lt; lra|lra]|].
    replace (10 ^ 300) with (10 ^ 180 * 10 ^ 120) by (rewrite <- pow_add; reflexivity). rewrite Rinv_mult, Rmult_assoc, Rinv_l by (apply pow_nonzero; lra). lra. }
  assert (T180 : 0 < / 10 ^ 180) by (apply Rinv_0_lt_compat, pow_lt; lra). assert (T180b : / 10 ^ 180 <= 1e-80 * / 10 ^ 90).
  { replace 1e-80 with (/ 10 ^ 80) by lra. rewrite <- Rinv_mult, <- pow_add. apply Rinv_le_contravar; [apply pow_lt; lra|apply Rle_pow; [lra|cbn; lia]]. }
  assert (T90 : 0 < / 10 ^ 90) by (apply Rinv_0_lt_compat, pow_lt; lra). assert (E2 : eta <= 1e-80 * / 10 ^ 90).
  { eapply Rle_trans; [exact E1|]. replace 1e-80 with (/ 10 ^ 80) by lra. rewrite <- Rinv_mult, <- pow_add. apply Rinv_le_contravar; [apply pow_lt; lra|apply Rle_pow; [lra|cbn; lia]]. }
  clear IS E1 T0.
  (* x/s against X/S *)
  assert (Q1 : Rabs (x / s - X / S) <= 4.62 * u53 * A + / 10 ^ 180).
  { replace (x / s - X / S) with ((x - X) * / s + X / S * ((S - s) * / s)) by (field; lra). eapply Rle_trans; [apply Rabs_triang|]. rewrite !Rabs_mult. fold A. rewrite (Rabs_pos_eq (/ s)) by lra.
    assert (B1 : Rabs (x - X) * / s <= 1.0011 * u53 * A + / 10 ^ 180).
    { apply Rle_trans with ((u53 * (A * S) + eta) * / s); [apply Rmult_le_compat_r; [lra|rewrite <- EA; exact Hx]|].
      assert (SS : S * / s <= 1.00101) by (apply Rmult_le_reg_r with s; [easy|]; rewrite Rmult_assoc, Rinv_l, Rmult_1_r by lra; unfold u53 in Hs'; lra).
      replace ((u53 * (A * S) + eta) * / s) with (u53 * A * (S * / s) + eta * / s) by ring.
      assert (u53 * A * (S * / s) <= u53 * A * 1.00101) by (apply Rmult_le_compat_l; [apply Rmult_le_pos; [unfold u53; lra|easy]|easy]). unfold u53 in *. lra. }
    assert (B2 : Rabs (S - s) * / s <= 3.604 * u53).
    { apply Rmult_le_reg_r with s; [easy|]. rewrite Rmult_assoc, Rinv_l, Rmult_1_r by lra. rewrite Rabs_minus_sym. unfold u53 in *. lra. }
    assert (B3 : A * (Rabs (S - s) * / s) <= A * (3.604 * u53)) by now apply Rmult_le_compat_l. unfold u53 in *. lra. }
  assert (Q2 : Rabs (x / s) <= 1.0001 * A + / 10 ^ 180).
  { replace (x / s) with (X / S + (x / s - X / S)) by ring. eapply Rle_trans; [apply Rabs_triang|]. fold A. unfold u53 in *. lra. }
  assert (Bx : Rabs x <= 3) by (replace x with (X + (x - X)) by ring; eapply Rle_trans; [apply Rabs_triang|]; unfold u53 in *; lra).
  (* x f against X P / S *)
  assert (Q3 : Rabs (x * f - P / S * X) <= 18.7 * u53 * A + 5 * / 10 ^ 180 + 3 * eta).
  { replace (x * f - P / S * X) with (P * (x / s - X / S) + x * (f - P / s)) by (field; lra). eapply Rle_trans; [apply Rabs_triang|]. rewrite !Rabs_mult.
    assert (B1 : Rabs P * Rabs (x / s - X / S) <= 3.3 * (4.62 * u53 * A + / 10 ^ 180)) by (apply Rmult_le_compat; try apply Rabs_pos; easy).
    assert (B2 : Rabs x * Rabs (f - P / s) <= u53 * (Rabs P * Rabs (x / s)) + 3 * eta).
    { apply Rle_trans with (Rabs x * (u53 * Rabs (P / s) + eta)); [apply Rmult_le_compat_l; [apply Rabs_pos|easy]|]. unfold Rdiv. rewrite !Rabs_mult. assert (Rabs x * eta <= 3 * eta) by (apply Rmult_le_compat_r; lra). lra. }
    assert (B3 : Rabs P * Rabs (x / s) <= 3.3 * (1.0001 * A + / 10 ^ 180)) by (apply Rmult_le_compat; try apply Rabs_pos; easy).
    unfold u53 in *. lra. }
  assert (Q4 : Rabs (P / S * X) <= 3.3 * A).
  { replace (P / S * X) with (P * (X / S)) by (field; lra). rewrite Rabs_mult. apply Rmult_le_compat; try apply Rabs_pos; [easy|apply Rle_refl]. }
  assert (Q5 : Rabs (x * f) <= 3.3001 * A + 5 * / 10 ^ 180 + 3 * eta).
  { replace (x * f) with (P / S * X + (x * f - P / S * X)) by ring. eapply Rle_trans; [apply Rabs_triang|]. unfold u53 in *. lra. }
  assert (R1 := rde _ _ Q5). replace (rd (x * f) - P / S * X) with ((rd (x * f) - x * f) + (x * f - P / S * X)) by ring. eapply Rle_trans; [apply Rabs_triang|].
  fold A. unfold u53 in *. lra.
Qed.
(** moving a point of the upper half plane by d turns it by about d/r *)
Lemma ang_pert : forall S C s c d r, 0 < S -> 0 < s -> 0 < r -> r * r <= C * C + S * S -> 0 <= d <= 1e-6 * r -> (C - c) * (C - c) + (S - s) * (S - s) <= d * d ->
  Rabs (atan2R s c - atan2R S C) <= 1.0000001 * (d / r).
Proof.
  intros S C s c d r PS Ps Pr Hr Hd H. assert (P := PI_RGT_0).
  assert (U : forall y x, 0 < y -> 0 <= atan2R y x <= PI).
  { intros y x Py. destruct (atan2_polar y x) as [Ex Ey]. assert (G := atan2_range y x). split; [|lra]. destruct (Rle_or_lt 0 (atan2R y x)) as [|K]; [easy|exfalso].
    assert (Q : sinR (atan2R y x) < 0) by (apply sin_lt_0_var; lra). assert (R0 := sqrt_pos (x * x + y * y)). rewrite Ey in Py. nra. }
  destruct (atan2_polar S C) as [EC ES]. destruct (atan2_polar s c) as [Ec Es].
  set (r0 := R_sqrt.sqrt (C * C + S * S)) in *. assert (R0 : r <= r0).
  { unfold r0. rewrite <- (sqrt_square r) by lra. now apply sqrt_le_1_alt. }
  set (r1 := R_sqrt.sqrt (c * c + s * s)) in *. assert (R1 : 0 <= r1) by apply sqrt_pos.
  assert (U1 := U S C PS). assert (U2 := U s c Ps).
  assert (K := polar_pert r0 (atan2R S C) r1 (atan2R s c) d ltac:(lra) R1 ltac:(apply Rabs_le; lra) ltac:(lra)).
  rewrite <- EC, <- ES, <- Ec, <- Es in K. specialize (K H). eapply Rle_trans; [exact K|]. apply Rmult_le_compat_l; [lra|].
  unfold Rdiv. apply Rmult_le_compat_l; [lra|]. apply Rinv_le_contravar; lra.
Qed.
Lemma dm2_s : forall X, / 10 ^ 100 <= norm X -> Rabs (dnorm (V (rd (vx X)) (rd (vy X)) (rd (vz X))) - norm X) <= 3.6002 * u53 * norm X.
Proof.
  intros X HS. set (S := norm X) in *. assert (E1 := eta_small). assert (E0 := eta_pos). assert (T0 : 0 < / 10 ^ 100) by (apply Rinv_0_lt_compat; lra).
  set (x := V (rd (vx X)) (rd (vy X)) (rd (vz X))). set (s := dnorm x).
  assert (T2 : / 10 ^ 149 <= 1e-20 * S).
  { apply Rle_trans with (1e-20 * / 10 ^ 100); [|apply Rmult_le_compat_l; lra]. replace 1e-20 with (/ 10 ^ 20) by lra. rewrite <- Rinv_mult, <- pow_add. apply Rinv_le_contravar; [apply pow_lt; lra|apply Rle_pow; [lra|cbn; lia]]. }
  assert (T3 : eta <= 1e-20 * S).
  { eapply Rle_trans; [exact E1|]. apply Rle_trans with (/ 10 ^ 149); [|exact T2]. apply Rinv_le_contravar; [apply pow_lt; lra|apply Rle_pow; [lra|cbn; lia]]. }
  assert (Dx : norm (vsub x X) <= u53 * S + 2 * eta).
  { apply norm_k; [unfold u53; lra|lra|..]; unfold vsub, x; cbn [vx vy vz]; apply rde, Rle_refl. }
  assert (Nx := norm_diff x X). assert (Ws := dnorm_err x). fold s in Ws. fold S in Nx.
  assert (Hs : Rabs (s - S) <= 3.6002 * u53 * S).
  { assert (Ni := Rabs_le_inv _ _ (Rle_trans _ _ _ Nx Dx)). apply Rabs_le_inv in Ws. apply Rabs_le. unfold u53 in *. lra. }
  exact Hs.
Qed.
(** the double result against the same formula in exact arithmetic on the same matrix *)
Lemma dm2av_err : forall e m, atan2_acc L e -> 0 <= e <= 1e-3 ->
  Rabs (vx (m0 m)) <= 1.01 -> Rabs (vy (m1 m)) <= 1.01 -> Rabs (vz (m2 m)) <= 1.01 -> / 10 ^ 100 <= norm (mrot m) <= 2.1 ->
  1.9 * 1.9 <= mtrc m * mtrc m + norm (mrot m) * norm (mrot m) -> Rabs (mtrc m) <= 2.1 ->
  norm (vsub (dm2av m) (rotvec m)) <= 3.1e-15 + e.
Proof.
  intros e m HA He A0 A1 A2 HS HR HC. set (S := norm (mrot m)) in *. set (C := mtrc m) in *.
  assert (E1 := eta_small). assert (E0 := eta_pos). assert (T0 : 0 < / 10 ^ 100) by (apply Rinv_0_lt_compat; lra).
  set (X := mrot m) in *. set (x := V (rd (vx X)) (rd (vy X)) (rd (vz X))). set (s := dnorm x).
  set (c := rd (rd (rd (vx (m0 m) + vy (m1 m)) + vz (m2 m)) - 1)).
  (* sizes *)
  assert (Hs : Rabs (s - S) <= 3.6002 * u53 * S) by (apply dm2_s; exact (proj1 HS)).
  assert (Hs' := Rabs_le_inv _ _ Hs). assert (Ps : 0 < s) by (unfold u53 in Hs'; lra).
  assert (Hc : Rabs (c - C) <= 7.3 * u53).
  { assert (B1 : Rabs (vx (m0 m) + vy (m1 m)) <= 2.02) by (eapply Rle_trans; [apply Rabs_triang|lra]).
    assert (Z : forall a, Rabs (a - a) <= 0) by (intros; rewrite Rminus_diag_eq, Rabs_R0; lra).
    assert (K1 := add_e _ _ _ _ _ _ _ (Z (vx (m0 m))) (Z (vy (m1 m))) B1).
    assert (B2 : Rabs (vx (m0 m) + vy (m1 m) + vz (m2 m)) <= 3.03) by (eapply Rle_trans; [apply Rabs_triang|lra]).
    assert (K1' : Rabs (rd (vx (m0 m) + vy (m1 m)) - (vx (m0 m) + vy (m1 m))) <= 2.021 * u53) by (unfold u53 in *; lra).
    assert (K2 := add_e _ _ _ _ _ _ _ K1' (Z (vz (m2 m))) B2).
    assert (K2' : Rabs (rd (rd (vx (m0 m) + vy (m1 m)) + vz (m2 m)) - (vx (m0 m) + vy (m1 m) + vz (m2 m))) <= 5.06 * u53) by (unfold u53 in *; lra).
    assert (K3 := sub_e _ _ _ _ _ _ _ K2' (Z 1) HC). unfold c, C, mtrc, u53 in *. lra. }
  assert (Sp : 0 < S) by lra.
  assert (HD : (C - c) * (C - c) + (S - s) * (S - s) <= 10.6 * u53 * (10.6 * u53)).
  { assert (Q : forall u v, Rabs u <= v -> u * u <= v * v) by (intros u v H; assert (K := Rabs_pos u); apply Rabs_le_inv in H; nra).
    assert (q1 := Q (C - c) (7.3 * u53) ltac:(rewrite Rabs_minus_sym; exact Hc)).
    assert (q2 := Q (S - s) (7.561 * u53) ltac:(rewrite Rabs_minus_sym; eapply Rle_trans; [exact Hs|unfold u53; lra])). unfold u53 in *. lra. }
  assert (AP := ang_pert S C s c (10.6 * u53) 1.9 Sp Ps ltac:(lra) HR ltac:(unfold u53; lra) HD).
  assert (AL := HA s c (fmt_rd _) (fmt_rd _) ltac:(left; lra)).
  set (T := atan2R S C) in *. set (P := l_atan2 L s c) in *. assert (DP : Rabs (P - T) <= 5.6 * u53 + e).
  { replace (P - T) with ((P - atan2R s c) + (atan2R s c - T)) by ring. eapply Rle_trans; [apply Rabs_triang|]. replace (1.0000001 * (10.6 * u53 / 1.9)) with (1.0000001 / 1.9 * 10.6 * u53) in AP by (unfold u53; lra). unfold u53 in *. lra. }
  assert (BP : Rabs P <= 3.3).
  { assert (G := atan2_range S C). fold T in G. assert (PI < 3.15) by interval. assert (BT : Rabs T <= 3.15) by (apply Rabs_le; lra). replace P with (T + (P - T)) by ring. eapply Rle_trans; [apply Rabs_triang|]. unfold u53 in DP. lra. }
  assert (E : dm2av m = let f := rd (P / s) in V (rd (vx x * f)) (rd (vy x * f)) (rd (vz x * f))).
  { unfold dm2av, palDm2av, eraRm2v. dn. rewrite !(rdZ 0), !(rdZ 1) by (cbn; lia).
    change (rd (R_sqrt.sqrt _)) with s at 1. destruct (Rltb_spec 0 s) as [_|N]; [|lra]. reflexivity. }
  rewrite E. cbv zeta. clear E. set (f := rd (P / s)).
  assert (Hf : Rabs (f - P / s) <= u53 * Rabs (P / s) + eta) by (apply rde, Rle_refl).
  assert (CE : forall a, Rabs a <= S -> Rabs (rd (rd a * f) - P / S * a) <= 22.1 * u53 * Rabs (a / S) + / 10 ^ 90).
  { intros a Ha. apply (comp_err a (rd a) S s P f); try easy; [lra|]. apply rde, Rle_refl. }
  assert (BX : Rabs (vx X) <= S /\ Rabs (vy X) <= S /\ Rabs (vz X) <= S).
  { assert (N := norm_sq X). fold S in N. unfold dot in N. assert (q1 := Rle_0_sqr (vx X)). assert (q2 := Rle_0_sqr (vy X)). assert (q3 := Rle_0_sqr (vz X)). unfold Rsqr in *. repeat split; apply sq_abs_le; lra. }
  destruct BX as (bx & by_ & bz). set (V1 := V (rd (vx x * f)) (rd (vy x * f)) (rd (vz x * f))).
  set (V2 := scale (P / S) X). assert (T90 : 0 < / 10 ^ 90) by (apply Rinv_0_lt_compat, pow_lt; lra).
  assert (N1 : norm (vsub V1 V2) <= 22.1 * u53 * 1 + 2 * / 10 ^ 90).
  { assert (NS : norm (scale (/ S) X) = 1) by (rewrite norm_scale by (left; now apply Rinv_0_lt_compat); fold S; field; lra). rewrite <- NS.
    apply norm_k; [unfold u53; lra|lra|..]; unfold vsub, V1, V2, scale, x; cbn [vx vy vz]; rewrite (Rmult_comm (/ S)); apply CE; easy. }
  assert (N2 : norm (vsub V2 (rotvec m)) = Rabs (P - T)).
  { assert (EV : vsub V2 (rotvec m) = scale ((P - T) / S) X).
    { unfold V2, rotvec. fold X. fold S. fold C. fold T. unfold vsub, scale. cbn [vx vy vz]. f_equal; field; lra. }
    rewrite EV, norm_scale_ab. fold S. unfold Rdiv. rewrite Rabs_mult, Rabs_inv, (Rabs_pos_eq S) by lra. field. lra. }
  assert (TT := vsub_tri V1 V2 (rotvec m)). rewrite N2 in TT.
  assert (T91 : / 10 ^ 90 <= 1e-30). { replace 1e-30 with (/ 10 ^ 30) by lra. apply Rinv_le_contravar; [apply pow_lt; lra|apply Rle_pow; [lra|cbn; lia]]. }
  unfold u53 in *. lra.
Qed.
Lemma rod_X : forall m u t d, 0 <= d -> entries_within d m (rodrigues u t) -> norm (vsub (mrot m) (scale (2 * sinR t) u)) <= 3.47 * d.
Proof.
  intros m u t d Hd Hm. set (st := sinR t) in *. unfold entries_within, rodrigues in Hm. cbv zeta in Hm. cbn [m0 m1 m2 vx vy vz] in Hm. fold st in Hm. set (ct := cosR t) in *.
  destruct Hm as (H00 & H01 & H02 & H10 & H11 & H12 & H20 & H21 & H22).
  set (X := mrot m). set (X0 := scale (2 * st) u).
  assert (DX : norm (vsub X X0) <= 3.47 * d).
  { assert (B : forall a b a0 b0 z, Rabs (a - a0) <= d -> Rabs (b - b0) <= d -> a0 - b0 = z -> Rabs (a - b - z) <= 2 * d).
    { intros a b a0 b0 z Ha Hb <-. replace (a - b - (a0 - b0)) with ((a - a0) + - (b - b0)) by ring. eapply Rle_trans; [apply Rabs_triang|]. rewrite Rabs_Ropp. lra. }
    assert (b1 := B _ _ _ _ (2 * st * vx u) H12 H21 ltac:(ring)). assert (b2 := B _ _ _ _ (2 * st * vy u) H20 H02 ltac:(ring)). assert (b3 := B _ _ _ _ (2 * st * vz u) H01 H10 ltac:(ring)).
    apply Rsqr_incr_0_var; [|lra]. unfold Rsqr. rewrite norm_sq. unfold vsub, X, X0, mrot, scale, dot; cbn [vx vy vz].
    assert (Q : forall y v, Rabs y <= v -> y * y <= v * v) by (intros y v H; assert (K := Rabs_pos y); apply Rabs_le_inv in H; nra).
    apply Q in b1, b2, b3. assert (0 <= d * d) by apply Rle_0_sqr. lra. }
  exact DX.
Qed.
(** C100: for every matrix within d of the rotation by t about u, palDm2av returns t u; the direction is lost only as sin t
    goes to zero, in proportion. *)
Theorem C100_palDm2av : forall e m u t d, atan2_acc L e -> 0 <= e <= 1e-3 -> unitv u -> 0 < t < PI -> / 10 ^ 90 <= sinR t ->
  0 <= d <= 1e-7 * sinR t -> entries_within d m (rodrigues u t) ->
  norm (vsub (dm2av m) (scale t u)) <= 3.1e-15 + e + 2.4 * d + 3.5 * d * (t / sinR t).
Proof.
  intros e m u t d HA He Hu Ht Hst Hd Hm. assert (S1 := SIN_bound t). assert (C1 := COS_bound t). assert (SC := sin2_cos2 t). unfold Rsqr in SC.
  set (st := sinR t) in *. set (ct := cosR t) in *. assert (T90 : 0 < / 10 ^ 90) by (apply Rinv_0_lt_compat, pow_lt; lra).
  assert (Hu1 : norm u = 1) by now apply norm_unit.
  assert (BX : Rabs (vx u) <= 1 /\ Rabs (vy u) <= 1 /\ Rabs (vz u) <= 1) by (assert (q1 := Rle_0_sqr (vx u)); assert (q2 := Rle_0_sqr (vy u)); assert (q3 := Rle_0_sqr (vz u)); unfold Rsqr in *; unfold unitv, dot in Hu; repeat split; apply sq_abs_le; lra).
  destruct BX as (bx & by_ & bz).
  assert (Hm0 := Hm). unfold entries_within, rodrigues in Hm. cbv zeta in Hm. cbn [m0 m1 m2 vx vy vz] in Hm. fold st ct in Hm.
  destruct Hm as (H00 & H01 & H02 & H10 & H11 & H12 & H20 & H21 & H22).
  set (X := mrot m). set (X0 := scale (2 * st) u). set (S := norm X). set (C := mtrc m).
  assert (DX : norm (vsub X X0) <= 3.47 * d) by (apply rod_X; [lra|exact Hm0]).
  assert (NX0 : norm X0 = 2 * st) by (unfold X0; rewrite norm_scale, Hu1 by lra; ring).
  assert (DS := norm_diff X X0). rewrite NX0 in DS. fold S in DS. assert (DS' := Rle_trans _ _ _ DS DX). assert (DSi := Rabs_le_inv _ _ DS'). clear DS.
  assert (Hq : vx u * vx u + vy u * vy u + vz u * vz u = 1) by exact Hu.
  assert (DC : Rabs (C - 2 * ct) <= 3 * d).
  { apply Rabs_le_inv in H00, H11, H22. unfold C, mtrc. assert (E : 2 * ct = (vx u * vx u * (1 - ct) + ct) + (vy u * vy u * (1 - ct) + ct) + (vz u * vz u * (1 - ct) + ct) - 1).
    { replace (vx u * vx u * (1 - ct) + ct + (vy u * vy u * (1 - ct) + ct) + (vz u * vz u * (1 - ct) + ct) - 1) with ((vx u * vx u + vy u * vy u + vz u * vz u) * (1 - ct) + 3 * ct - 1) by ring. rewrite Hq. ring. }
    rewrite E. apply Rabs_le. lra. }
  assert (DCi := Rabs_le_inv _ _ DC).
  assert (D7 : d <= 1e-7) by lra.
  assert (BD : forall a b, Rabs (a - (b * b * (1 - ct) + ct)) <= d -> Rabs b <= 1 -> Rabs a <= 1.01).
  { intros a b Ha Hb. assert (K := conv_b b ct Hb C1). apply Rabs_le_inv in Ha. apply Rabs_le. lra. }
  assert (Sp : 0 < S) by lra.
  assert (W : norm (vsub (dm2av m) (rotvec m)) <= 3.1e-15 + e).
  { apply dm2av_err; [exact HA|exact He|apply (BD _ _ H00 bx)|apply (BD _ _ H11 by_)|apply (BD _ _ H22 bz)|..]; fold X; fold S; fold C.
    - split; [|lra]. assert (G : / 10 ^ 100 <= / 10 ^ 90) by (apply Rinv_le_contravar; [apply pow_lt; lra|apply Rle_pow; [lra|cbn; lia]]). lra.
    - assert (c1 := near_sq C ct _ DC C1 ltac:(lra)). assert (c2 := near_sq S st _ DS' S1 ltac:(lra)). lra.
    - apply Rabs_le. lra. }
  assert (ET : atan2R (2 * st) (2 * ct) = t).
  { unfold st, ct. apply atan2_unique; lra. }
  set (T := atan2R S C).
  assert (DT : Rabs (T - t) <= 2.31 * d).
  { assert (AP := ang_pert (2 * st) (2 * ct) S C (4.6 * d) 2 ltac:(lra) Sp ltac:(lra) ltac:(lra) ltac:(lra)). rewrite ET in AP. fold T in AP.
    eapply Rle_trans; [apply AP|lra].
    assert (Q : forall y v, Rabs y <= v -> y * y <= v * v) by (intros y v H; assert (K := Rabs_pos y); apply Rabs_le_inv in H; nra).
    apply Q in DC, DS'. assert (0 <= d * d) by apply Rle_0_sqr. lra. }
  assert (N2 : norm (vsub (rotvec m) (scale t u)) <= 2.31 * d + 3.5 * d * (t / st)).
  { assert (EV : vsub (rotvec m) (scale t u) = vadd (scale ((T - t) / S) X) (scale (t / S) (vadd (vsub X X0) (scale (2 * st - S) u)))).
    { unfold rotvec. fold X. fold S. fold C. fold T. unfold X0, vsub, vadd, scale. cbn [vx vy vz]. f_equal; field; lra. }
    rewrite EV. clear EV. eapply Rle_trans; [apply norm_tri2|].
    assert (W1 : norm (scale ((T - t) / S) X) = Rabs (T - t)).
    { rewrite norm_scale_ab. fold S. unfold Rdiv. rewrite Rabs_mult, Rabs_inv, (Rabs_pos_eq S) by lra. field. lra. }
    rewrite W1. assert (W2 : norm (scale (t / S) (vadd (vsub X X0) (scale (2 * st - S) u))) <= t / S * (6.94 * d)).
    { assert (0 <= t / S) by (apply Rlt_le, Rdiv_lt_0_compat; lra). rewrite norm_scale by easy. apply Rmult_le_compat_l; [easy|]. eapply Rle_trans; [apply norm_tri2|].
      rewrite norm_scale_ab, Hu1. rewrite (Rabs_minus_sym (2 * st)). lra. }
    assert (W3 : t / S * (6.94 * d) <= 3.5 * d * (t / st)).
    { replace (3.5 * d * (t / st)) with (t * (3.5 * d * / st)) by (unfold Rdiv; ring). replace (t / S * (6.94 * d)) with (t * (3.5 * d * (6.94 / 3.5 * / S))) by (unfold Rdiv; lra).
      apply Rmult_le_compat_l; [lra|]. apply Rmult_le_compat_l; [lra|]. apply Rmult_le_reg_r with (S * st); [apply Rmult_lt_0_compat; lra|]. replace (6.94 / 3.5 * / S * (S * st)) with (6.94 / 3.5 * st) by (field; lra). replace (/ st * (S * st)) with S by (field; lra). lra. }
    lra. }
  assert (TT := vsub_tri (dm2av m) (rotvec m) (scale t u)). lra.
Qed.
(** C100: there and back: the rotation vector, made into a matrix and recovered *)
Theorem C100_roundtrip : forall e u t, atan2_acc L e -> 0 <= e <= 1e-3 -> unitv u -> 0 < t < PI -> 1e-7 <= sinR t ->
  norm (vsub (dm2av (dav2m (scale t u))) (scale t u)) <= 2.1e-14 + e + 2.5e-14 * (t / sinR t).
Proof.
  intros e u t HA He Hu Ht Hs. assert (P4 : PI < 4) by interval.
  assert (T1 : 1e-7 <= t) by (assert (K := sin_lt_x t (proj1 Ht)); lra).
  assert (TH : / 10 ^ 100 <= 1e-7) by (replace 1e-7 with (/ 10 ^ 7) by lra; apply Rinv_le_contravar; [apply pow_lt; lra|apply Rle_pow; [lra|cbn; lia]]).
  assert (TI : / 10 ^ 90 <= 1e-7) by (replace 1e-7 with (/ 10 ^ 7) by lra; apply Rinv_le_contravar; [apply pow_lt; lra|apply Rle_pow; [lra|cbn; lia]]).
  assert (K := C100_palDm2av e _ u t 7.1e-15 HA He Hu Ht ltac:(lra) ltac:(lra) (C100_palDav2m u t Hu ltac:(lra))).
  assert (Q : 0 < t / sinR t) by (apply Rdiv_lt_0_compat; lra). lra.
Qed.
End D.

(** ** On binary64 itself *)
Section F.
Variables (F : FLibm) (e : R).
Hypothesis OK : libm_ok F e.
Hypothesis He : 2.3e-16 <= e <= 1e-3.
Let HeW : 2.3e-16 <= e <= 0.1.
Proof. lra. Qed.
Let L := libm_of F.
Ltac fb := lazymatch goal with
  | H : repb ?a _ _ |- repb ?a _ _ => exact H
  | |- repb (Bplus _ _ _) _ _ => eapply rb_add; [fb|fb|fz]
  | |- repb (Bminus _ _ _) _ _ => eapply rb_sub; [fb|fb|fz]
  | |- repb (Bmult _ _ _) _ _ => eapply rb_mul; [fb|fb|fz]
  | |- repb (f_sin _ _) _ _ => eapply (ag_sin F e OK); fr
  | |- repb (f_cos _ _) _ _ => eapply (ag_sin F e OK); fr
  | |- repb (flit ?d) _ _ => apply (rb_lit d 60); [rlit; apply Rabs_le; cbn; lra|lia]
  end
  with fr := lazymatch goal with
  | H : rep ?a _ |- rep ?a _ => exact H
  | H : repb ?a _ _ |- rep ?a _ => exact (proj1 H)
  | |- rep _ _ => eapply rb_rep; fb
  end
  with fz := first [split; [vm_compute; discriminate|vm_compute; reflexivity]|lia].
Ltac fops := cbn [add sub mul div opp ltb leb eqb fabs sqrt sin cos tan asin atan atan2
       exp log sinh pow fmod floor ceil ofZ toZ lit pi DA FA].
Ltac fp := lazymatch goal with
  | |- posb (Bmult _ ?a ?a) _ _ => eapply ps_sq; [fb|fz]
  | |- posb (Bplus _ _ _) _ _ => eapply ps_add; [fp|fp|fz]
  | |- posb (Bsqrt _ _) _ _ => eapply ps_sqrt; fp
  end.
Lemma m100 : bpow radix2 (-340) <= 0.9 * / 10 ^ 100.
Proof.
  change (bpow radix2 (-340)) with (/ IZR (2 ^ 340)). rewrite pow_IZR. replace (0.9 * / IZR (10 ^ Z.of_nat 100)) with (/ (IZR (10 * 10 ^ Z.of_nat 100) / 9)).
  - apply Rinv_le_contravar; [apply Rdiv_lt_0_compat; [apply IZR_lt; reflexivity|lra]|]. apply Rmult_le_reg_r with 9; [lra|]. unfold Rdiv. rewrite Rmult_assoc, Rinv_l, Rmult_1_r by lra.
    rewrite <- mult_IZR. apply IZR_le. vm_compute. discriminate.
  - rewrite mult_IZR. assert (0 < IZR (10 ^ Z.of_nat 100)) by (apply IZR_lt; reflexivity). set (q := IZR (10 ^ _)) in *. clearbody q. apply Rmult_eq_reg_r with q; [|lra]. replace (0.9 * / q * q) with 0.9 by (field; lra). replace (/ (10 * q / 9) * q) with (9 / 10) by (field; lra). lra.
Qed.
Lemma f_dav2m : forall w u t, vfin w -> unitv u -> / 10 ^ 100 <= t <= 6.3 -> fvec w = scale t u -> rmatb (@palDav2m f64 (FA F) w) (dav2m L (fvec w)) 1000.
Proof.
  intros w u t Hw Hu Ht E. destruct (av_parts L (ag_trig_acc F e OK) u t Hu Ht) as (Pp & Wp & _). rewrite <- E in Pp, Wp.
  assert (Nw : norm (fvec w) = t).
  { rewrite E. rewrite norm_scale, (norm_unit u Hu) by (assert (0 < / 10 ^ 100) by (apply Rinv_0_lt_compat, pow_lt; lra); lra). ring. }
  destruct (comp_norm (fvec w)) as (N1 & N2 & N3). rewrite Nw in N1, N2, N3.
  assert (R3 : rvecb w (fvec w) 3). { destruct Hw as (A & B & C). repeat split; try assumption; unfold fvec in *; cbn [vx vy vz] in *; change (bpow radix2 3) with 8; lra. }
  destruct R3 as (R1 & R2 & R3).
  unfold dav2m, palDav2m, eraRv2m. fops. cbv zeta. cbn [vx vy vz].
  set (pf := Bsqrt _ _). change (rd (sqrtR _)) with (dnorm (fvec w)). set (pd := dnorm (fvec w)) in *.
  assert (Hp : exists p, posb pf pd p) by (eexists; unfold pf, pd, dnorm; fp). destruct Hp as (p & Hp & Pw & _). clearbody pf.
  assert (Rp := proj1 Hp). rewrite (rep_ltb (flit 0) pf (rd 0) pd fz0 Rp). change (litR 0) with 0. rewrite !rd_0. destruct (Rltb_spec 0 pd) as [_|N]; [|lra].
  assert (Lw : bpow radix2 (-340) <= Rabs pd).
  { rewrite Rabs_pos_eq by lra. assert (Q := m100). apply Rabs_le_inv in Wp. unfold u53 in Wp. lra. }
  destruct (ag_sin F e OK pf pd Rp) as [Sn Cs]. fold L in Sn, Cs.
  assert (D : forall a x, repb a x 3 -> repb (Bdiv mode_NE a pf) (rd (x / pd)) (3 - -340)) by (intros a x Ha; apply rb_div; [exact Ha|exact Rp|exact Lw|lia]).
  assert (Dx := D _ _ R1). assert (Dy := D _ _ R2). assert (Dz := D _ _ R3). cbn [vx vy vz fvec] in Dx, Dy, Dz.
  unfold rmatb, rvecb. cbn [m0 m1 m2 vx vy vz].
  repeat (match goal with |- _ /\ _ => split end); (eapply rb_weak; [fb|lia]).
Qed.
(** for every finite vector of length 1e-100 to 6.3 the matrix is finite and within 7.1e-15 of the rotation it stands for *)
Theorem C100_palDav2m_f64 : forall w u t, vfin w -> unitv u -> / 10 ^ 100 <= t <= 6.3 -> fvec w = scale t u ->
  let r := @palDav2m f64 (FA F) w in mfin r /\ entries_within 7.1e-15 (fmat r) (rodrigues u t).
Proof.
  intros w u t Hw Hu Ht E r. destruct (rmatb_fin e HeW _ _ _ (f_dav2m w u t Hw Hu Ht E)) as [K1 K2]. split; [exact K1|]. fold r in K2. rewrite K2, E.
  apply C100_palDav2m; [exact (ag_trig_acc F e OK)|easy..].
Qed.
Lemma f_dm2av : forall m, mfin m -> (forall x, In x (vx (m0 m) :: vy (m0 m) :: vz (m0 m) :: vx (m1 m) :: vy (m1 m) :: vz (m1 m) :: vx (m2 m) :: vy (m2 m) :: vz (m2 m) :: nil) -> Rabs (fval x) <= 2) ->
  / 10 ^ 100 <= norm (mrot (fmat m)) -> rvec (@palDm2av f64 (FA F) m) (dm2av L (fmat m)).
Proof.
  intros m ((A1 & A2 & A3) & (B1 & B2 & B3) & (C1 & C2 & C3)) Hb HS. assert (Z : forall x, ffin x = true -> Rabs (fval x) <= 2 -> repb x (fval x) 1) by (intros x H1 H2; repeat split; assumption).
  cbn [In] in Hb. assert (a1 := Z _ A1 ltac:(apply Hb; tauto)). assert (a2 := Z _ A2 ltac:(apply Hb; tauto)). assert (a3 := Z _ A3 ltac:(apply Hb; tauto)).
  assert (b1 := Z _ B1 ltac:(apply Hb; tauto)). assert (b2 := Z _ B2 ltac:(apply Hb; tauto)). assert (b3 := Z _ B3 ltac:(apply Hb; tauto)).
  assert (c1 := Z _ C1 ltac:(apply Hb; tauto)). assert (c2 := Z _ C2 ltac:(apply Hb; tauto)). assert (c3 := Z _ C3 ltac:(apply Hb; tauto)). clear Hb Z.
  assert (Hs := dm2_s (mrot (fmat m)) HS).
  unfold dm2av, palDm2av, eraRm2v, rvec. fops. cbv zeta. cbn [vx vy vz].
  set (sf := Bsqrt _ _). change (rd (sqrtR _)) with (dnorm (V (rd (vx (mrot (fmat m)))) (rd (vy (mrot (fmat m)))) (rd (vz (mrot (fmat m)))))). set (sd := dnorm _) in *.
  assert (Hp : exists p, posb sf sd p) by (eexists; unfold sf, sd, dnorm, mrot, fmat, fvec; cbn [vx vy vz m0 m1 m2]; fp). destruct Hp as (p & Hp & Pw & _). clearbody sf.
  assert (Rp := proj1 Hp). rewrite (rep_ltb (flit 0) sf (rd 0) sd fz0 Rp). change (litR 0) with 0. rewrite !rd_0.
  assert (T0 : 0 < / 10 ^ 100) by (apply Rinv_0_lt_compat, pow_lt; lra). assert (Lw : bpow radix2 (-340) <= sd).
  { assert (Q := m100). apply Rabs_le_inv in Hs. unfold u53 in Hs. lra. }
  assert (Ps : 0 < sd) by (assert (Q := bpow_gt_0 radix2 (-340)); lra). destruct (Rltb_spec 0 sd) as [_|N]; [|lra]. cbn [vx vy vz].
  set (cf := Bminus mode_NE (Bplus _ _ _) (flit 1)). match goal with |- context [l_atan2 L sd ?c] => set (cd := c) end.
  assert (Hc : rep cf cd) by (unfold cf, cd; eapply rb_rep; cbn [fmat m0 m1 m2 fvec vx vy vz]; fb). clearbody cf cd.
  assert (Ha := ag_atan2_std F e OK sf cf sd cd Rp Hc ltac:(left; lra) ltac:(intros; lra)). fold L in Ha.
  assert (Hb : repb (f_atan2 F sf cf) (l_atan2 L sd cd) 2).
  { split; [exact Ha|]. assert (G := atan2_range sd cd). assert (K := ag_atan2_acc F e OK HeW sd cd (rep_fmt _ _ Rp) (rep_fmt _ _ Hc) ltac:(left; lra)). fold L in K. apply Rabs_le_inv in K. assert (PI < 3.15) by interval. change (bpow radix2 2) with 4. apply Rabs_le. lra. }
  assert (Hf : repb (Bdiv mode_NE (f_atan2 F sf cf) sf) (rd (l_atan2 L sd cd / sd)) (2 - -340)) by (apply rb_div; [exact Hb|exact Rp|rewrite Rabs_pos_eq; lra|lia]).
  cbn [fmat m0 m1 m2 fvec vx vy vz] in *.
  split; [|split]; eapply rb_rep; fb.
Qed.
(** for every finite matrix within d of the rotation by t about u *)
Theorem C100_palDm2av_f64 : forall m u t d, mfin m -> unitv u -> 0 < t < PI -> / 10 ^ 90 <= sinR t -> 0 <= d <= 1e-7 * sinR t -> entries_within d (fmat m) (rodrigues u t) ->
  let w := @palDm2av f64 (FA F) m in vfin w /\ norm (vsub (fvec w) (scale t u)) <= 3.1e-15 + e + 2.4 * d + 3.5 * d * (t / sinR t).
Proof.
  intros m u t d Hm Hu Ht Hs Hd HE w. assert (SB := SIN_bound t). assert (CB := COS_bound t). assert (SC := sin2_cos2 t). unfold Rsqr in SC.
  assert (T90 : 0 < / 10 ^ 90) by (apply Rinv_0_lt_compat, pow_lt; lra).
  assert (K : rvec w (dm2av L (fmat m))).
  { apply f_dm2av; [exact Hm| |].
    - assert (G : forall x y, Rabs (x - y) <= d -> Rabs y <= 1.5 -> Rabs x <= 2) by (intros x y H1 H2; replace x with (y + (x - y)) by ring; eapply Rle_trans; [apply Rabs_triang|lra]).
      assert (Hq : vx u * vx u + vy u * vy u + vz u * vz u = 1) by exact Hu.
      assert (D : forall b, Rabs b <= 1 -> Rabs (b * b * (1 - cosR t) + cosR t) <= 1.5) by (intros b Hb; assert (Q := conv_b b (cosR t) Hb CB); apply Rabs_le; lra).
      assert (O : forall x y z s, x * x + y * y + z * z = 1 -> s = 1 \/ s = -1 -> Rabs (x * y * (1 - cosR t) + s * (z * sinR t)) <= 1.5) by (intros; apply off_b; [easy|lra|easy]).
      assert (BX : Rabs (vx u) <= 1 /\ Rabs (vy u) <= 1 /\ Rabs (vz u) <= 1) by (assert (q1 := Rle_0_sqr (vx u)); assert (q2 := Rle_0_sqr (vy u)); assert (q3 := Rle_0_sqr (vz u)); unfold Rsqr in *; repeat split; apply sq_abs_le; lra).
      destruct BX as (bx & by_ & bz). unfold entries_within, rodrigues in HE. cbv zeta in HE. cbn [m0 m1 m2 vx vy vz fmat fvec] in HE.
      destruct HE as (H00 & H01 & H02 & H10 & H11 & H12 & H20 & H21 & H22).
      intros x Hx. cbn [In] in Hx. decompose [or] Hx; subst; try contradiction.
      + apply (G _ _ H00), D, bx.
      + apply (G _ _ H01). assert (Q := O (vx u) (vy u) (vz u) 1 Hq ltac:(lra)). now rewrite Rmult_1_l in Q.
      + apply (G _ _ H02). assert (Q := O (vx u) (vz u) (vy u) (-1) ltac:(lra) ltac:(lra)). replace (vx u * vz u * (1 - cosR t) - vy u * sinR t) with (vx u * vz u * (1 - cosR t) + -1 * (vy u * sinR t)) by ring. exact Q.
      + apply (G _ _ H10). assert (Q := O (vy u) (vx u) (vz u) (-1) ltac:(lra) ltac:(lra)). replace (vy u * vx u * (1 - cosR t) - vz u * sinR t) with (vy u * vx u * (1 - cosR t) + -1 * (vz u * sinR t)) by ring. exact Q.
      + apply (G _ _ H11), D, by_.
      + apply (G _ _ H12). assert (Q := O (vy u) (vz u) (vx u) 1 ltac:(lra) ltac:(lra)). now rewrite Rmult_1_l in Q.
      + apply (G _ _ H20). assert (Q := O (vz u) (vx u) (vy u) 1 ltac:(lra) ltac:(lra)). now rewrite Rmult_1_l in Q.
      + apply (G _ _ H21). assert (Q := O (vz u) (vy u) (vx u) (-1) ltac:(lra) ltac:(lra)). replace (vz u * vy u * (1 - cosR t) - vx u * sinR t) with (vz u * vy u * (1 - cosR t) + -1 * (vx u * sinR t)) by ring. exact Q.
      + apply (G _ _ H22), D, bz.
    - assert (DX := rod_X (fmat m) u t d ltac:(lra) HE). assert (N := norm_diff (mrot (fmat m)) (scale (2 * sinR t) u)). rewrite (norm_scale (2 * sinR t) u), (norm_unit u Hu) in N by lra.
      apply Rabs_le_inv in N. assert (G : / 10 ^ 100 <= / 10 ^ 90) by (apply Rinv_le_contravar; [apply pow_lt; lra|apply Rle_pow; [lra|cbn; lia]]). lra. }
  destruct (rvec_fin _ _ K) as [K1 K2]. split; [exact K1|]. rewrite K2. apply C100_palDm2av; try easy; [exact (ag_atan2_acc F e OK HeW)|lra].
Qed.
(** there and back on binary64 *)
Theorem C100_roundtrip_f64 : forall w u t, vfin w -> unitv u -> 0 < t < PI -> 1e-7 <= sinR t -> fvec w = scale t u ->
  let r := @palDm2av f64 (FA F) (@palDav2m f64 (FA F) w) in vfin r /\ norm (vsub (fvec r) (fvec w)) <= 2.1e-14 + e + 2.5e-14 * (t / sinR t).
Proof.
  intros w u t Hw Hu Ht Hs E r. assert (P4 : PI < 4) by interval.
  assert (T1 : 1e-7 <= t) by (assert (K := sin_lt_x t (proj1 Ht)); lra).
  assert (TH : / 10 ^ 100 <= 1e-7) by (replace 1e-7 with (/ 10 ^ 7) by lra; apply Rinv_le_contravar; [apply pow_lt; lra|apply Rle_pow; [lra|cbn; lia]]).
  assert (TI : / 10 ^ 90 <= 1e-7) by (replace 1e-7 with (/ 10 ^ 7) by lra; apply Rinv_le_contravar; [apply pow_lt; lra|apply Rle_pow; [lra|cbn; lia]]).
  destruct (C100_palDav2m_f64 w u t Hw Hu ltac:(lra) E) as [M1 M2].
  destruct (C100_palDm2av_f64 _ u t 7.1e-15 M1 Hu Ht ltac:(lra) ltac:(lra) M2) as [K1 K2]. fold r in K1, K2. split; [exact K1|]. rewrite E.
  assert (Q : 0 < t / sinR t) by (apply Rdiv_lt_0_compat; lra). lra.
Qed.
End F.
(** the hypotheses are met: one radian about the z axis, with a correctly rounded libm *)
Example C100_eg : let w := V (flit 0) (flit 0) (flit 1) in let m := @palDav2m f64 (FA Fcr) w in
  mfin m /\ Rabs (fval (vx (m0 m)) - cosR 1) <= 7.1e-15 /\ Rabs (fval (vy (m0 m)) - sinR 1) <= 7.1e-15 /\
  norm (vsub (fvec (@palDm2av f64 (FA Fcr) m)) (V 0 0 1)) <= 6e-14.
Proof.
  intros w m. assert (VL : forall n : Z, (0 <= n <= 4000)%Z -> fval (flit (MkDec n 0)) = IZR n).
  { intros n Hn. assert (N : 0 <= IZR n <= 4000) by (split; apply IZR_le; lia). assert (E : litR (MkDec n 0) = IZR n) by (unfold litR; cbn; now rewrite Z.mul_1_r).
    destruct (rb_lit (MkDec n 0) 60) as [[_ K] _]; [rewrite E; apply Rabs_le; cbn; lra|lia|]. rewrite K, E. apply rdZ. lia. }
  assert (Ew : fvec w = V 0 0 1).
  { unfold fvec, w; cbn [vx vy vz]. assert (Z0 := VL 0%Z ltac:(lia)). assert (Z1 := VL 1%Z ltac:(lia)). change (fval (flit 0) = 0) in Z0. change (fval (flit 1) = 1) in Z1. rewrite Z0, Z1. reflexivity. }
  assert (Es : fvec w = scale 1 (V 0 0 1)) by (rewrite Ew; unfold scale; cbn [vx vy vz]; f_equal; ring).
  assert (Fw : vfin w) by (repeat split; reflexivity). assert (Hu : unitv (V 0 0 1)) by (unfold unitv, dot; cbn [vx vy vz]; ring).
  assert (P3 : 3 < PI) by interval. assert (S1 : 0.8 <= sinR 1) by interval.
  assert (T : / 10 ^ 100 <= 1 <= 6.3) by (apply conj; [rewrite <- Rinv_1; apply Rinv_le_contravar; [lra|apply pow_R1_Rle; lra]|lra]).
  destruct (C100_palDav2m_f64 Fcr 2.3e-16 Fcr_ok ltac:(lra) w (V 0 0 1) 1 Fw Hu T Es) as [K1 K2]. fold m in K1, K2.
  split; [exact K1|]. unfold entries_within, rodrigues in K2. cbv zeta in K2. cbn [m0 m1 m2 vx vy vz fmat fvec] in K2. destruct K2 as (K00 & K01 & _).
  apply conj; [replace (cosR 1) with (0 * 0 * (1 - cosR 1) + cosR 1) by ring; exact K00|]. apply conj; [replace (sinR 1) with (0 * 0 * (1 - cosR 1) + 1 * sinR 1) by ring; exact K01|].
  destruct (C100_roundtrip_f64 Fcr 2.3e-16 Fcr_ok ltac:(lra) w (V 0 0 1) 1 Fw Hu ltac:(lra) ltac:(lra) Es) as [_ Q]. fold m in Q. rewrite Ew in Q.
  assert (1 / sinR 1 <= 1.25) by (apply Rmult_le_reg_r with (sinR 1); [lra|]; unfold Rdiv; rewrite Rmult_assoc, Rinv_l, Rmult_1_r by lra; lra). lra.
Qed.
