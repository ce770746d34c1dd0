(** * Universal functions and two-body motion: a specification independent of the C code. *)
From Coq Require Import Reals Lra Lia Psatz.
From Coquelicot Require Import Coquelicot.
From Verif Require Import Num NumR Geom.
Local Open Scope R_scope.
Notation sqrtR := R_sqrt.sqrt. Notation sinR := Rtrigo_def.sin. Notation cosR := Rtrigo_def.cos.

(** The universal functions of energy parameter [al] (negative: ellipse, positive: hyperbola) at [s]. *)
Definition U0 (al s : R) : R :=
  if Rlt_dec al 0 then cosR (sqrtR (- al) * s) else if Rlt_dec 0 al then Rtrigo_def.cosh (sqrtR al * s) else 1.
Definition U1 (al s : R) : R :=
  if Rlt_dec al 0 then sinR (sqrtR (- al) * s) / sqrtR (- al)
  else if Rlt_dec 0 al then Rtrigo_def.sinh (sqrtR al * s) / sqrtR al else s.
Definition U2 (al s : R) : R := if Req_EM_T al 0 then s * s / 2 else (U0 al s - 1) / al.
Definition U3 (al s : R) : R := if Req_EM_T al 0 then s * s * s / 6 else (U1 al s - s) / al.

Lemma U0_U2 : forall al s, U0 al s = 1 + al * U2 al s.
Proof.
  intros al s. unfold U2. destruct (Req_EM_T al 0) as [->|H]; [|field; easy].
  unfold U0. destruct (Rlt_dec 0 0); [lra|]. destruct (Rlt_dec 0 0); lra.
Qed.
Lemma U1_U3 : forall al s, U1 al s = s + al * U3 al s.
Proof.
  intros al s. unfold U3. destruct (Req_EM_T al 0) as [->|H]; [|field; easy].
  unfold U1. destruct (Rlt_dec 0 0); [lra|]. destruct (Rlt_dec 0 0); lra.
Qed.
Lemma cosh_sinh : forall x, Rtrigo_def.cosh x * Rtrigo_def.cosh x - Rtrigo_def.sinh x * Rtrigo_def.sinh x = 1.
Proof.
  intros x. unfold Rtrigo_def.cosh, Rtrigo_def.sinh. assert (E : Rtrigo_def.exp x * Rtrigo_def.exp (- x) = 1) by (rewrite <- exp_plus; replace (x + - x) with 0 by ring; apply exp_0).
  set (a := Rtrigo_def.exp x) in *. set (b := Rtrigo_def.exp (- x)) in *. transitivity (a * b); [field|exact E].
Qed.
Lemma U_pyth : forall al s, U0 al s * U0 al s - al * (U1 al s * U1 al s) = 1.
Proof.
  intros al s. unfold U0, U1. destruct (Rlt_dec al 0); [|destruct (Rlt_dec 0 al)].
  - assert (S : sqrtR (- al) <> 0) by (apply Rgt_not_eq, sqrt_lt_R0; lra).
    assert (E : al = - (sqrtR (- al) * sqrtR (- al))) by (rewrite sqrt_sqrt; lra).
    set (a := sqrtR (- al)) in *. rewrite E at 1. generalize (sc2 (a * s)).
    set (x := sinR (a * s)). set (c := cosR (a * s)). intros K.
    replace (c * c - - (a * a) * (x / a * (x / a))) with (x * x + c * c) by (field; easy). easy.
  - assert (S : sqrtR al <> 0) by (apply Rgt_not_eq, sqrt_lt_R0; lra).
    assert (E : al = sqrtR al * sqrtR al) by (rewrite sqrt_sqrt; lra).
    set (a := sqrtR al) in *. rewrite E at 1. generalize (cosh_sinh (a * s)).
    set (x := Rtrigo_def.sinh (a * s)). set (c := Rtrigo_def.cosh (a * s)). intros K.
    replace (c * c - a * a * (x / a * (x / a))) with (c * c - x * x) by (field; easy). easy.
  - assert (al = 0) by lra. subst. ring.
Qed.
(** U1^2 = U2 (1 + U0) *)
Lemma U1_sq : forall al s, U1 al s * U1 al s = U2 al s * (1 + U0 al s).
Proof.
  intros al s. unfold U2. destruct (Req_EM_T al 0) as [->|H].
  - unfold U1, U0. destruct (Rlt_dec 0 0); [lra|]. field.
  - generalize (U_pyth al s). intros P.
    replace ((U0 al s - 1) / al * (1 + U0 al s)) with ((U0 al s * U0 al s - 1) / al) by (field; easy).
    replace (U0 al s * U0 al s - 1) with (al * (U1 al s * U1 al s)) by lra. field. easy.
Qed.
Lemma cosh_2 : forall x, Rtrigo_def.cosh (2 * x) = 2 * (Rtrigo_def.cosh x * Rtrigo_def.cosh x) - 1.
Proof.
  intros x. unfold Rtrigo_def.cosh. replace (2 * x) with (x + x) by ring. rewrite Ropp_plus_distr, !exp_plus.
  assert (E : Rtrigo_def.exp x * Rtrigo_def.exp (- x) = 1) by (rewrite <- exp_plus; replace (x + - x) with 0 by ring; apply exp_0).
  set (a := Rtrigo_def.exp x) in *. set (b := Rtrigo_def.exp (- x)) in *. rewrite <- E. field.
Qed.
Lemma sinh_2 : forall x, Rtrigo_def.sinh (2 * x) = 2 * (Rtrigo_def.sinh x * Rtrigo_def.cosh x).
Proof.
  intros x. unfold Rtrigo_def.cosh, Rtrigo_def.sinh. replace (2 * x) with (x + x) by ring. rewrite Ropp_plus_distr, !exp_plus.
  set (a := Rtrigo_def.exp x) in *. set (b := Rtrigo_def.exp (- x)) in *. field.
Qed.
Lemma U0_double : forall al s, U0 al (2 * s) = 2 * U0 al s * U0 al s - 1.
Proof.
  intros al s. unfold U0. destruct (Rlt_dec al 0); [|destruct (Rlt_dec 0 al); [|ring]].
  - replace (sqrtR (- al) * (2 * s)) with (2 * (sqrtR (- al) * s)) by ring. rewrite cos_2a_cos. ring.
  - replace (sqrtR al * (2 * s)) with (2 * (sqrtR al * s)) by ring. rewrite cosh_2. ring.
Qed.
Lemma U1_double : forall al s, U1 al (2 * s) = 2 * U0 al s * U1 al s.
Proof.
  intros al s. unfold U0, U1. destruct (Rlt_dec al 0); [|destruct (Rlt_dec 0 al); [|ring]].
  - assert (S : sqrtR (- al) <> 0) by (apply Rgt_not_eq, sqrt_lt_R0; lra).
    replace (sqrtR (- al) * (2 * s)) with (2 * (sqrtR (- al) * s)) by ring. rewrite sin_2a. field. easy.
  - assert (S : sqrtR al <> 0) by (apply Rgt_not_eq, sqrt_lt_R0; lra).
    replace (sqrtR al * (2 * s)) with (2 * (sqrtR al * s)) by ring. rewrite sinh_2. field. easy.
Qed.
Lemma U2_double : forall al s, U2 al (2 * s) = 2 * U1 al s * U1 al s.
Proof.
  intros al s. rewrite Rmult_assoc, U1_sq. unfold U2. destruct (Req_EM_T al 0) as [->|H].
  - rewrite U0_U2. field.
  - rewrite U0_double. field. easy.
Qed.
Lemma U3_double : forall al s, U3 al (2 * s) = 2 * (U0 al s * U3 al s + s * U2 al s).
Proof.
  intros al s. unfold U3, U2. destruct (Req_EM_T al 0) as [->|H].
  - rewrite (U0_U2 0). field.
  - rewrite U1_double. field. easy.
Qed.

(** Derivatives *)
Lemma is_derive_U0 : forall al s : R, is_derive (U0 al) s (al * U1 al s).
Proof.
  intros al s. unfold U0, U1. destruct (Rlt_dec al 0); [|destruct (Rlt_dec 0 al)].
  - assert (S : sqrtR (- al) <> 0) by (apply Rgt_not_eq, sqrt_lt_R0; lra).
    assert (E : al = - (sqrtR (- al) * sqrtR (- al))) by (rewrite sqrt_sqrt; lra).
    set (a := sqrtR (- al)) in *. rewrite E. auto_derive; [exact I|]. field. easy.
  - assert (S : sqrtR al <> 0) by (apply Rgt_not_eq, sqrt_lt_R0; lra).
    assert (E : al = sqrtR al * sqrtR al) by (rewrite sqrt_sqrt; lra).
    set (a := sqrtR al) in *. rewrite E. unfold Rtrigo_def.cosh, Rtrigo_def.sinh. auto_derive; [exact I|]. field. easy.
  - assert (al = 0) by lra. subst. auto_derive; [exact I|]. ring.
Qed.
Lemma is_derive_U1 : forall al s : R, is_derive (U1 al) s (U0 al s).
Proof.
  intros al s. unfold U0, U1. destruct (Rlt_dec al 0); [|destruct (Rlt_dec 0 al)].
  - assert (S : sqrtR (- al) <> 0) by (apply Rgt_not_eq, sqrt_lt_R0; lra).
    set (a := sqrtR (- al)) in *. auto_derive; [exact I|]. field. easy.
  - assert (S : sqrtR al <> 0) by (apply Rgt_not_eq, sqrt_lt_R0; lra).
    set (a := sqrtR al) in *. unfold Rtrigo_def.cosh, Rtrigo_def.sinh. auto_derive; [exact I|]. field. easy.
  - auto_derive; [exact I|]. ring.
Qed.
Ltac req := match goal with |- @eq _ ?a ?b => change (@eq R a b) end.
Lemma is_derive_cong : forall (f g : R -> R) (x l l' : R), (forall t, f t = g t) -> l = l' -> is_derive f x l -> is_derive g x l'.
Proof. intros f g x l l' H -> D. eapply is_derive_ext; eauto. Qed.
Lemma is_derive_U2 : forall al s : R, is_derive (U2 al) s (U1 al s).
Proof.
  intros al s. destruct (Req_EM_T al 0) as [->|H].
  - apply is_derive_cong with (fun s => s * s / 2) (s).
    + intros t. unfold U2. destruct (Req_EM_T 0 0); lra.
    + rewrite U1_U3. req. ring.
    + auto_derive; [exact I|]. field.
  - assert (D := is_derive_U0 al s).
    apply is_derive_cong with (fun t => / al * (U0 al t + (-1))) (/ al * (al * U1 al s + 0)).
    + intros t. unfold U2. destruct (Req_EM_T al 0); [easy|]. field. easy.
    + req. field. easy.
    + apply (is_derive_scal (fun t => U0 al t + -1)). apply (is_derive_plus (U0 al) (fun _ => -1)); [easy|]. auto_derive; [exact I|reflexivity].
Qed.
Lemma is_derive_U3 : forall al s : R, is_derive (U3 al) s (U2 al s).
Proof.
  intros al s. destruct (Req_EM_T al 0) as [->|H].
  - apply is_derive_cong with (fun s => s * s * s / 6) (s * s / 2).
    + intros t. unfold U3. destruct (Req_EM_T 0 0); lra.
    + unfold U2. destruct (Req_EM_T 0 0); lra.
    + auto_derive; [exact I|]. field.
  - assert (D := is_derive_U1 al s).
    apply is_derive_cong with (fun t => / al * (U1 al t + - t)) (/ al * (U0 al s + - 1)).
    + intros t. unfold U3. destruct (Req_EM_T al 0); [easy|]. field. easy.
    + unfold U2. destruct (Req_EM_T al 0); [easy|]. req. field. easy.
    + apply (is_derive_scal (fun t => U1 al t + - t)). apply (is_derive_plus (U1 al) (fun t => - t)); [easy|].
      auto_derive; [exact I|ring].
Qed.
Lemma U_at_0 : forall al, U0 al 0 = 1 /\ U1 al 0 = 0 /\ U2 al 0 = 0 /\ U3 al 0 = 0.
Proof.
  intros al. assert (A : U0 al 0 = 1 /\ U1 al 0 = 0).
  { unfold U0, U1. rewrite !Rmult_0_r, cos_0, sin_0. unfold Rtrigo_def.cosh, Rtrigo_def.sinh. rewrite Ropp_0, exp_0.
    destruct (Rlt_dec al 0); [|destruct (Rlt_dec 0 al)]; split; lra || (unfold Rdiv; ring). }
  destruct A as [A B]. repeat split; auto.
  - unfold U2. rewrite A. destruct (Req_EM_T al 0); unfold Rdiv; ring.
  - unfold U3. rewrite B. destruct (Req_EM_T al 0); unfold Rdiv; ring.
Qed.

(** ** Two-body motion in universal variables *)
Section TwoBody.
  Variables (mu : R) (P W : vec R).      (* gravitational parameter, position and velocity at time 0 *)
  Definition tb_r0 : R := norm P.
  Definition tb_sg : R := dot P W.
  Definition tb_al : R := dot W W - 2 * mu / tb_r0.
  Definition tb_r (s : R) : R := tb_r0 * U0 tb_al s + tb_sg * U1 tb_al s + mu * U2 tb_al s.
  Definition tb_t (s : R) : R := tb_r0 * U1 tb_al s + tb_sg * U2 tb_al s + mu * U3 tb_al s.
  Definition tb_pos (s : R) : vec R :=
    vadd (scale (1 - mu * U2 tb_al s / tb_r0) P) (scale (tb_r0 * U1 tb_al s + tb_sg * U2 tb_al s) W).
  Definition tb_vel (s : R) : vec R :=
    vadd (scale (- mu * U1 tb_al s / (tb_r0 * tb_r s)) P) (scale (1 - mu * U2 tb_al s / tb_r s) W).
  Hypothesis P_nz : 0 < tb_r0.

  Lemma r0_sq : dot P P = tb_r0 * tb_r0.
  Proof. unfold tb_r0, norm. rewrite sqrt_sqrt; [easy|]. unfold dot. generalize (Rle_0_sqr (vx P)) (Rle_0_sqr (vy P)) (Rle_0_sqr (vz P)). unfold Rsqr. lra. Qed.
  Lemma ww : dot W W = tb_al + 2 * mu / tb_r0. Proof. unfold tb_al. ring. Qed.
  Lemma dot_comb : forall a b c d, dot (vadd (scale a P) (scale b W)) (vadd (scale c P) (scale d W)) =
    a * c * (tb_r0 * tb_r0) + (a * d + b * c) * tb_sg + b * d * (tb_al + 2 * mu / tb_r0).
  Proof. intros. rewrite <- r0_sq, <- ww. unfold tb_sg, dot, vadd, scale; cbn [vx vy vz]. ring. Qed.
  Lemma cross_comb : forall a b c d, cross (vadd (scale a P) (scale b W)) (vadd (scale c P) (scale d W)) = scale (a * d - b * c) (cross P W).
  Proof. intros. unfold cross, vadd, scale; cbn [vx vy vz]. f_equal; ring. Qed.

  Lemma tb_pos_sq : forall s, dot (tb_pos s) (tb_pos s) = tb_r s * tb_r s.
  Proof.
    intros s. unfold tb_pos. rewrite dot_comb. unfold tb_r. assert (E1 := U1_sq tb_al s). assert (E0 := U0_U2 tb_al s).
    generalize dependent (U1 tb_al s). generalize dependent (U0 tb_al s). generalize (U2 tb_al s). intros u2 u0 E0 u1 E1.
    subst u0. set (al := tb_al) in *. set (r0 := tb_r0) in *. set (sg := tb_sg) in *. clearbody al r0 sg.
    match goal with |- ?a = ?b => cut (a - b = (r0 * r0 * al + 2 * mu * r0 - sg * sg) * (u1 * u1 - u2 * (1 + (1 + al * u2)))) end;
      [intros K; first [apply Rminus_diag_uniq; rewrite K, E1; ring | symmetry; apply Rminus_diag_uniq; rewrite K, E1; ring]|field; lra].
  Qed.
  Lemma tb_cross : forall s, tb_r s <> 0 -> cross (tb_pos s) (tb_vel s) = cross P W.
  Proof.
    intros s Hr. unfold tb_pos, tb_vel. rewrite cross_comb.
    match goal with |- scale ?k _ = _ => replace k with 1 end.
    { unfold scale, cross; cbn [vx vy vz]. f_equal; ring. }
    unfold tb_r in *. assert (E1 := U1_sq tb_al s). assert (E0 := U0_U2 tb_al s).
    generalize dependent (U1 tb_al s). generalize dependent (U0 tb_al s). generalize (U2 tb_al s). intros u2 u0 E0 u1 Hr E1.
    set (al := tb_al) in *. set (r0 := tb_r0) in *. set (sg := tb_sg) in *. clearbody al r0 sg.
    match goal with |- ?a = ?b => cut (b - a = mu / (r0 * u0 + sg * u1 + mu * u2) * (u1 * u1 - u2 * (1 + u0))) end;
      [intros K; first [apply Rminus_diag_uniq; rewrite K, E1; ring | symmetry; apply Rminus_diag_uniq; rewrite K, E1; ring]|field; lra].
  Qed.
  Lemma tb_energy : forall s, tb_r s <> 0 -> dot (tb_vel s) (tb_vel s) = tb_al + 2 * mu / tb_r s.
  Proof.
    intros s Hr. unfold tb_vel. rewrite dot_comb. unfold tb_r in *. assert (E1 := U1_sq tb_al s). assert (E0 := U0_U2 tb_al s).
    generalize dependent (U1 tb_al s). generalize dependent (U0 tb_al s). generalize (U2 tb_al s). intros u2 u0 E0 u1 Hr E1.
    subst u0. set (al := tb_al) in *. set (r0 := tb_r0) in *. set (sg := tb_sg) in *. clearbody al r0 sg.
    set (r := r0 * (1 + al * u2) + sg * u1 + mu * u2) in *.
    match goal with |- ?a = ?b => cut (a - b = mu * mu / (r * r) * (u1 * u1 - u2 * (1 + (1 + al * u2)))) end;
      [intros K; first [apply Rminus_diag_uniq; rewrite K, E1; ring | symmetry; apply Rminus_diag_uniq; rewrite K, E1; ring]|]. unfold r in *. field. lra.
  Qed.

  (** derivatives with respect to the universal anomaly *)
  Definition tb_sgs (s : R) : R := tb_al * tb_r0 * U1 tb_al s + tb_sg * U0 tb_al s + mu * U1 tb_al s.
  Lemma is_derive_tb_r : forall s : R, is_derive tb_r s (tb_sgs s).
  Proof.
    intros s. unfold tb_r, tb_sgs.
    assert (D0 := is_derive_U0 tb_al s). assert (D1 := is_derive_U1 tb_al s). assert (D2 := is_derive_U2 tb_al s).
    apply is_derive_cong with (fun s => tb_r0 * U0 tb_al s + tb_sg * U1 tb_al s + mu * U2 tb_al s)
      (tb_r0 * (tb_al * U1 tb_al s) + tb_sg * U0 tb_al s + mu * U1 tb_al s); [easy|ring|].
    apply (is_derive_plus (fun s => tb_r0 * U0 tb_al s + tb_sg * U1 tb_al s)).
    - apply (is_derive_plus (fun s => tb_r0 * U0 tb_al s)); apply (is_derive_scal (_ tb_al)); easy.
    - apply (is_derive_scal (U2 tb_al)); easy.
  Qed.
  Lemma is_derive_tb_t : forall s : R, is_derive tb_t s (tb_r s).
  Proof.
    intros s. unfold tb_t, tb_r.
    assert (D3 := is_derive_U3 tb_al s). assert (D1 := is_derive_U1 tb_al s). assert (D2 := is_derive_U2 tb_al s).
    apply (is_derive_plus (fun s => tb_r0 * U1 tb_al s + tb_sg * U2 tb_al s)).
    - apply (is_derive_plus (fun s => tb_r0 * U1 tb_al s)); apply (is_derive_scal (_ tb_al)); easy.
    - apply (is_derive_scal (U3 tb_al)); easy.
  Qed.
  (** component-wise derivative of a vector function *)
  Definition vderiv (f : R -> vec R) (t : R) (d : vec R) : Prop :=
    is_derive (fun t => vx (f t)) t (vx d) /\ is_derive (fun t => vy (f t)) t (vy d) /\ is_derive (fun t => vz (f t)) t (vz d).
  Lemma vderiv_comb : forall (f g : R -> R) (t f' g' : R), is_derive f t f' -> is_derive g t g' ->
    vderiv (fun t => vadd (scale (f t) P) (scale (g t) W)) t (vadd (scale f' P) (scale g' W)).
  Proof.
    intros f g t f' g' Df Dg. unfold vderiv, vadd, scale; cbn [vx vy vz].
    assert (L : forall a b, is_derive (fun t => f t * a + g t * b) t (f' * a + g' * b)).
    { intros a b. apply is_derive_cong with (fun t => a * f t + b * g t) (a * f' + b * g'); [intros; ring|ring|].
      apply (is_derive_plus (fun t => a * f t) (fun t => b * g t)); apply (is_derive_scal _ t); easy. }
    split; [|split]; apply L.
  Qed.
  Lemma is_derive_tb_pos : forall s : R, tb_r s <> 0 -> vderiv tb_pos s (scale (tb_r s) (tb_vel s)).
  Proof.
    intros s Hr.
    assert (D1 := is_derive_U1 tb_al s). assert (D2 := is_derive_U2 tb_al s).
    assert (Df : is_derive (fun s => 1 - mu * U2 tb_al s / tb_r0) s (- mu * U1 tb_al s / tb_r0)).
    { apply is_derive_cong with (fun s => 1 + (- mu / tb_r0) * U2 tb_al s) (0 + (- mu / tb_r0) * U1 tb_al s);
        [intros; field; lra|field; lra|].
      apply (is_derive_plus (fun _ => 1)); [auto_derive; [exact I|reflexivity]|]. apply (is_derive_scal (U2 tb_al)); easy. }
    assert (Dg : is_derive (fun s => tb_r0 * U1 tb_al s + tb_sg * U2 tb_al s) s (tb_r0 * U0 tb_al s + tb_sg * U1 tb_al s)).
    { apply (is_derive_plus (fun s => tb_r0 * U1 tb_al s)); apply (is_derive_scal (_ tb_al)); easy. }
    generalize (vderiv_comb _ _ _ _ _ Df Dg). fold tb_pos.
    match goal with |- vderiv _ _ ?a -> vderiv _ _ ?b => replace a with b; [easy|] end.
    unfold tb_vel, vadd, scale; cbn [vx vy vz].
    assert (K : tb_r0 * U0 tb_al s + tb_sg * U1 tb_al s = tb_r s - mu * U2 tb_al s) by (unfold tb_r; ring).
    rewrite K. f_equal; field; lra.
  Qed.
  Lemma is_derive_div' : forall (f g : R -> R) (x f' g' : R), g x <> 0 -> is_derive f x f' -> is_derive g x g' ->
    is_derive (fun x => f x / g x) x ((f' * g x - f x * g') / (g x * g x)).
  Proof.
    intros f g x f' g' H Df Dg. apply is_derive_cong with (fun x => f x / g x) ((f' * g x - f x * g') / g x ^ 2);
      [easy|unfold Rdiv; f_equal; f_equal; ring|]. apply is_derive_div; easy.
  Qed.
  Lemma is_derive_tb_vel : forall s : R, tb_r s <> 0 ->
    vderiv tb_vel s (scale (tb_r s) (scale (- mu / (tb_r s * tb_r s * tb_r s)) (tb_pos s))).
  Proof.
    intros s Hr.
    assert (D1 := is_derive_U1 tb_al s). assert (D2 := is_derive_U2 tb_al s). assert (Dr := is_derive_tb_r s).
    assert (Df : is_derive (fun s => - mu * U1 tb_al s / (tb_r0 * tb_r s)) s
       ((- mu / tb_r0) * ((U0 tb_al s * tb_r s - U1 tb_al s * tb_sgs s) / (tb_r s * tb_r s)))).
    { apply is_derive_ext_loc with (fun s => (- mu / tb_r0) * (U1 tb_al s / tb_r s)).
      - assert (C : locally s (fun t => tb_r t <> 0)).
        { assert (C : continuous tb_r s) by (apply (ex_derive_continuous (V := R_NormedModule) tb_r); eexists; exact Dr).
          apply (C (fun y => y <> 0)). exists (mkposreal (Rabs (tb_r s)) (Rabs_pos_lt _ Hr)). intros y Hy ->.
          revert Hy. unfold ball; cbn. unfold AbsRing_ball, abs, minus, plus, opp; cbn. rewrite Rplus_0_l, Rabs_Ropp. lra. }
        apply (filter_imp (fun t => tb_r t <> 0)); [|exact C]. intros t Ht. req. field. lra.
      - apply (is_derive_scal (fun s => U1 tb_al s / tb_r s)). apply is_derive_div'; easy. }
    assert (Dg : is_derive (fun s => 1 - mu * U2 tb_al s / tb_r s) s
       (0 + (- mu) * ((U1 tb_al s * tb_r s - U2 tb_al s * tb_sgs s) / (tb_r s * tb_r s)))).
    { apply is_derive_ext_loc with (fun s => 1 + (- mu) * (U2 tb_al s / tb_r s)).
      - apply filter_forall. intros t. req. unfold Rdiv. ring.
      - apply (is_derive_plus (fun _ => 1)); [auto_derive; [exact I|reflexivity]|].
        apply (is_derive_scal (fun s => U2 tb_al s / tb_r s)). apply is_derive_div'; easy. }
    generalize (vderiv_comb _ _ _ _ _ Df Dg). fold tb_vel.
    match goal with |- vderiv _ _ ?a -> vderiv _ _ ?b => replace a with b; [easy|] end.
    assert (E1 := U1_sq tb_al s). assert (Pt := U_pyth tb_al s). assert (E0 := U0_U2 tb_al s).
    assert (K1 : U0 tb_al s * tb_r s - U1 tb_al s * tb_sgs s = tb_r0 * (1 - mu * U2 tb_al s / tb_r0)).
    { unfold tb_sgs, tb_r. replace (tb_r0 * (1 - mu * U2 tb_al s / tb_r0)) with (tb_r0 * 1 - mu * U2 tb_al s) by (field; lra).
      rewrite <- Pt. apply Rminus_diag_uniq.
      match goal with |- ?a = 0 => transitivity (mu * (U2 tb_al s * (1 + U0 tb_al s) - U1 tb_al s * U1 tb_al s)); [ring|rewrite E1; ring] end. }
    assert (K2 : U1 tb_al s * tb_r s - U2 tb_al s * tb_sgs s = tb_r0 * U1 tb_al s + tb_sg * U2 tb_al s).
    { unfold tb_sgs, tb_r. apply Rminus_diag_uniq.
      match goal with |- ?a = 0 => transitivity (tb_r0 * U1 tb_al s * (U0 tb_al s - (1 + tb_al * U2 tb_al s)) + tb_sg * (U1 tb_al s * U1 tb_al s - U2 tb_al s * (1 + U0 tb_al s))); [ring|rewrite E1, <- E0; ring] end. }
    rewrite K1, K2. unfold tb_pos, vadd, scale; cbn [vx vy vz].
    clear - P_nz Hr. f_equal; field; lra.
  Qed.

  (** ** The distance never vanishes unless the motion is rectilinear *)
  Definition tb_h2 : R := dot (cross P W) (cross P W).
  Lemma tb_h2_val : tb_h2 = tb_al * (tb_r0 * tb_r0) + 2 * mu * tb_r0 - tb_sg * tb_sg.
  Proof.
    transitivity (dot P P * dot W W - tb_sg * tb_sg).
    - unfold tb_h2, tb_sg, dot, cross; cbn [vx vy vz]. ring.
    - rewrite r0_sq, ww. field. lra.
  Qed.
  Lemma tb_area : forall s, tb_al * (tb_r s * tb_r s) + 2 * mu * tb_r s - tb_sgs s * tb_sgs s = tb_h2.
  Proof.
    intros s. rewrite tb_h2_val. unfold tb_r, tb_sgs. assert (E1 := U1_sq tb_al s). assert (E0 := U0_U2 tb_al s).
    generalize dependent (U1 tb_al s). generalize dependent (U0 tb_al s). generalize (U2 tb_al s). intros u2 u0 E0 u1 E1. subst u0.
    apply Rminus_diag_uniq.
    transitivity ((tb_al * (tb_sg * tb_sg) - (tb_al * tb_r0 + mu) * (tb_al * tb_r0 + mu)) * (u1 * u1 - u2 * (1 + (1 + tb_al * u2)))).
    - ring.
    - rewrite E1. ring.
  Qed.
  Hypothesis mu_pos : 0 < mu.
  Hypothesis h_nz : 0 < tb_h2.
  Definition tb_q : R := Rmin 1 (tb_h2 / (Rabs tb_al + 2 * mu)).
  Lemma tb_q_pos : 0 < tb_q.
  Proof.
    unfold tb_q. apply Rmin_pos; [lra|]. apply Rdiv_lt_0_compat; [easy|]. generalize (Rabs_pos tb_al). lra.
  Qed.
  Lemma tb_r_abs : forall s, tb_q <= Rabs (tb_r s).
  Proof.
    intros s. destruct (Rle_lt_dec tb_q (Rabs (tb_r s))) as [H|H]; [easy|exfalso].
    assert (A := tb_area s). assert (S := Rle_0_sqr (tb_sgs s)). unfold Rsqr in S.
    assert (Q1 : Rabs (tb_r s) < 1) by (eapply Rlt_le_trans; [exact H|apply Rmin_l]).
    assert (Q2 : Rabs (tb_r s) < tb_h2 / (Rabs tb_al + 2 * mu)) by (eapply Rlt_le_trans; [exact H|apply Rmin_r]).
    assert (D : 0 < Rabs tb_al + 2 * mu) by (generalize (Rabs_pos tb_al); lra).
    assert (Q3 : Rabs (tb_r s) * (Rabs tb_al + 2 * mu) < tb_h2).
    { replace tb_h2 with (tb_h2 / (Rabs tb_al + 2 * mu) * (Rabs tb_al + 2 * mu)) by (field; lra). apply Rmult_lt_compat_r; easy. }
    assert (B1 : tb_al * (tb_r s * tb_r s) <= Rabs tb_al * Rabs (tb_r s)).
    { apply Rle_trans with (Rabs (tb_al * (tb_r s * tb_r s))); [apply Rle_abs|].
      rewrite !Rabs_mult. apply Rmult_le_compat_l; [apply Rabs_pos|]. generalize (Rabs_pos (tb_r s)). nra. }
    assert (B2 : tb_r s <= Rabs (tb_r s)) by apply Rle_abs.
    nra.
  Qed.
  Lemma tb_r_cont : Ranalysis1.continuity tb_r.
  Proof.
    intros s. apply continuity_pt_filterlim. apply (ex_derive_continuous (V := R_NormedModule) tb_r). eexists. apply is_derive_tb_r.
  Qed.
  Lemma tb_r_0 : tb_r 0 = tb_r0.
  Proof. unfold tb_r. destruct (U_at_0 tb_al) as (-> & -> & -> & _). ring. Qed.
  Lemma tb_r_lower : forall s, tb_q <= tb_r s.
  Proof.
    intros s. assert (Q := tb_q_pos). destruct (Rle_lt_dec 0 (tb_r s)) as [H|H].
    - generalize (tb_r_abs s). rewrite Rabs_pos_eq; easy.
    - exfalso. destruct (IVT_gen tb_r 0 s 0 tb_r_cont) as (c & _ & E).
      { rewrite tb_r_0. split; [rewrite Rmin_right; lra|rewrite Rmax_left; lra]. }
      generalize (tb_r_abs c). rewrite E, Rabs_R0. lra.
  Qed.
  Lemma tb_t_0 : tb_t 0 = 0.
  Proof. unfold tb_t. destruct (U_at_0 tb_al) as (_ & -> & -> & ->). ring. Qed.
  Lemma tb_t_mvt : forall a b, a <= b -> tb_q * (b - a) <= tb_t b - tb_t a.
  Proof.
    intros a b H. destruct (MVT_gen tb_t a b tb_r) as (c & _ & E).
    - intros x _. apply is_derive_tb_t.
    - intros x _. apply continuity_pt_filterlim. apply (ex_derive_continuous (V := R_NormedModule) tb_t). eexists. apply is_derive_tb_t.
    - rewrite E. apply Rmult_le_compat_r; [lra|apply tb_r_lower].
  Qed.
  Lemma tb_t_inj : forall a b, tb_t a = tb_t b -> a = b.
  Proof.
    intros a b E. assert (Q := tb_q_pos). destruct (Rtotal_order a b) as [L|[L|L]]; [|easy|].
    - generalize (tb_t_mvt a b ltac:(lra)). rewrite E. assert (0 < tb_q * (b - a)) by (apply Rmult_lt_0_compat; lra). lra.
    - generalize (tb_t_mvt b a ltac:(lra)). rewrite E. assert (0 < tb_q * (a - b)) by (apply Rmult_lt_0_compat; lra). lra.
  Qed.
  Lemma tb_t_surj : forall t, { s : R | tb_t s = t }.
  Proof.
    intros t. assert (Q := tb_q_pos).
    destruct (IVT_gen tb_t (- (Rabs t / tb_q)) (Rabs t / tb_q) t) as (c & _ & E).
    - intros x. apply continuity_pt_filterlim. apply (ex_derive_continuous (V := R_NormedModule) tb_t). eexists. apply is_derive_tb_t.
    - assert (B : 0 <= Rabs t / tb_q) by (apply Rdiv_le_0_compat; [apply Rabs_pos|easy]).
      assert (K : tb_q * (Rabs t / tb_q) = Rabs t) by (field; lra).
      assert (B1 := tb_t_mvt 0 (Rabs t / tb_q) B). assert (B2 := tb_t_mvt (- (Rabs t / tb_q)) 0 ltac:(lra)).
      rewrite tb_t_0 in *. assert (A1 := Rle_abs t). assert (A2 := Rle_abs (- t)). rewrite Rabs_Ropp in A2.
      split; [rewrite Rmin_left; lra|rewrite Rmax_right; lra].
    - now exists c.
  Qed.
  (** universal anomaly as a function of time *)
  Definition tb_s (t : R) : R := proj1_sig (tb_t_surj t).
  Lemma tb_t_s : forall t, tb_t (tb_s t) = t.
  Proof. intros t. unfold tb_s. destruct (tb_t_surj t); easy. Qed.
  Lemma tb_s_t : forall s, tb_s (tb_t s) = s.
  Proof. intros s. apply tb_t_inj, tb_t_s. Qed.
  Lemma is_derive_tb_s : forall t : R, is_derive tb_s t (/ tb_r (tb_s t)).
  Proof.
    intros t. assert (Q := tb_q_pos). apply is_derive_Reals. intros eps Heps.
    assert (D := is_derive_tb_t (tb_s t)). apply is_derive_Reals in D.
    assert (Hq2 : 0 < tb_q * tb_q) by (apply Rmult_lt_0_compat; easy).
    destruct (D (eps * (tb_q * tb_q)) (Rmult_lt_0_compat _ _ Heps Hq2)) as [d Hd].
    assert (Hdq : 0 < d * tb_q) by (apply Rmult_lt_0_compat; [apply cond_pos|easy]).
    exists (mkposreal _ Hdq). intros h Hh Hhd. cbn in Hhd.
    set (y := tb_s t) in *. set (k := tb_s (t + h) - y).
    assert (Ek : tb_t (y + k) - tb_t y = h).
    { unfold k. replace (y + (tb_s (t + h) - y)) with (tb_s (t + h)) by ring. rewrite tb_t_s. unfold y. rewrite tb_t_s. ring. }
    assert (Hk : k <> 0). { intros F. rewrite F, Rplus_0_r, Rminus_diag_eq in Ek by easy. lra. }
    assert (Hs : tb_q <= h / k).
    { destruct (Rlt_le_dec 0 k) as [L|L].
      - generalize (tb_t_mvt y (y + k) ltac:(lra)). rewrite Ek. intros G. apply Rmult_le_reg_r with k; [easy|].
        replace (h / k * k) with h by (field; easy). replace (tb_q * k) with (tb_q * (y + k - y)) by ring. easy.
      - generalize (tb_t_mvt (y + k) y ltac:(lra)). intros G. apply Rmult_le_reg_r with (- k); [lra|].
        replace (h / k * - k) with (- h) by (field; easy). replace (tb_q * - k) with (tb_q * (y - (y + k))) by ring. lra. }
    assert (Hr := tb_r_lower y). 
    assert (Hkd : Rabs k < d).
    { apply Rmult_lt_reg_r with tb_q; [easy|]. eapply Rle_lt_trans; [|exact Hhd].
      replace h with (k * (h / k)) by (field; easy). rewrite Rabs_mult. apply Rmult_le_compat_l; [apply Rabs_pos|].
      rewrite Rabs_pos_eq; lra. }
    specialize (Hd k Hk Hkd). rewrite Ek in Hd.
    fold k. replace (k / h - / tb_r y) with ((tb_r y - h / k) * / (h / k * tb_r y)) by (field; repeat split; lra).
    rewrite Rabs_mult, Rabs_minus_sym. 
    assert (Hp : tb_q * tb_q <= h / k * tb_r y) by (apply Rmult_le_compat; lra).
    rewrite (Rabs_pos_eq (/ _)) by (left; apply Rinv_0_lt_compat; lra).
    apply Rmult_lt_reg_r with (h / k * tb_r y); [lra|]. rewrite Rmult_assoc, Rinv_l, Rmult_1_r by lra.
    eapply Rlt_le_trans; [exact Hd|]. apply Rmult_le_compat_l; lra.
  Qed.
  (** ** The motion *)
  Lemma vderiv_comp : forall (f : R -> vec R) (g : R -> R) (t g' : R) d, is_derive g t g' -> vderiv f (g t) d ->
    vderiv (fun t => f (g t)) t (scale g' d).
  Proof.
    intros f g t g' d Dg (D1 & D2 & D3). unfold vderiv, scale; cbn [vx vy vz].
    split; [|split].
    - apply (is_derive_comp (fun s => vx (f s)) g); easy.
    - apply (is_derive_comp (fun s => vy (f s)) g); easy.
    - apply (is_derive_comp (fun s => vz (f s)) g); easy.
  Qed.
  Lemma tb_norm : forall s, norm (tb_pos s) = tb_r s.
  Proof.
    intros s. unfold norm. rewrite tb_pos_sq. apply sqrt_square. generalize (tb_r_lower s) tb_q_pos. lra.
  Qed.
  Lemma scale_assoc' : forall a b (v : vec R), scale a (scale b v) = scale (a * b) v.
  Proof. intros a b [x y z]. unfold scale; cbn. f_equal; ring. Qed.
  Lemma tb_motion : forall t, vderiv (fun t => tb_pos (tb_s t)) t (tb_vel (tb_s t)) /\
    vderiv (fun t => tb_vel (tb_s t)) t (scale (- mu / (norm (tb_pos (tb_s t)) * norm (tb_pos (tb_s t)) * norm (tb_pos (tb_s t)))) (tb_pos (tb_s t))).
  Proof.
    intros t. assert (Hr := tb_r_lower (tb_s t)). assert (Q := tb_q_pos). split.
    - replace (tb_vel (tb_s t)) with (scale (/ tb_r (tb_s t)) (scale (tb_r (tb_s t)) (tb_vel (tb_s t)))).
      + apply vderiv_comp; [apply is_derive_tb_s|apply is_derive_tb_pos; lra].
      + rewrite scale_assoc', Rinv_l by lra. unfold scale. destruct (tb_vel (tb_s t)); cbn. f_equal; ring.
    - rewrite tb_norm.
      match goal with |- vderiv _ _ ?d => replace d with (scale (/ tb_r (tb_s t)) (scale (tb_r (tb_s t)) d)) end.
      + apply vderiv_comp; [apply is_derive_tb_s|apply is_derive_tb_vel; lra].
      + rewrite scale_assoc', Rinv_l by lra. unfold scale. destruct (tb_pos (tb_s t)); cbn. f_equal; ring.
  Qed.
  Lemma tb_start : tb_pos (tb_s 0) = P /\ tb_vel (tb_s 0) = W.
  Proof.
    assert (E : tb_s 0 = 0) by (apply tb_t_inj; rewrite tb_t_s; symmetry; apply tb_t_0). rewrite E.
    unfold tb_pos, tb_vel. rewrite tb_r_0. destruct (U_at_0 tb_al) as (_ & -> & -> & _).
    unfold vadd, scale. destruct P, W; cbn. split; f_equal; field; lra.
  Qed.
End TwoBody.

(** [motion mu X W]: X, W are position and velocity of a body attracted by a fixed centre of strength mu. *)
Definition motion (mu : R) (X W : R -> vec R) : Prop := forall t, 0 < norm (X t) /\ vderiv X t (W t) /\
  vderiv W t (scale (- mu / (norm (X t) * norm (X t) * norm (X t))) (X t)).
Theorem two_body_exists : forall mu P W, 0 < mu -> cross P W <> vzero -> exists X V,
  motion mu X V /\ X 0 = P /\ V 0 = W /\
  forall s, X (tb_t mu P W s) = tb_pos mu P W s /\ V (tb_t mu P W s) = tb_vel mu P W s.
Proof.
  intros mu P W Hm Hc.
  assert (Hh : 0 < tb_h2 P W).
  { unfold tb_h2. destruct (cross P W) as [x y z]. unfold dot; cbn.
    destruct (Req_dec x 0) as [->|]; [|nra]. destruct (Req_dec y 0) as [->|]; [|nra]. destruct (Req_dec z 0) as [->|]; [|nra].
    now contradict Hc. }
  assert (Hp : 0 < tb_r0 P).
  { unfold tb_r0, norm. apply sqrt_lt_R0. destruct P as [x y z]. unfold dot; cbn.
    destruct (Req_dec x 0) as [->|]; [|nra]. destruct (Req_dec y 0) as [->|]; [|nra]. destruct (Req_dec z 0) as [->|]; [|nra].
    exfalso. apply Hc. unfold cross, vzero; cbn. f_equal; ring. }
  exists (fun t => tb_pos mu P W (tb_s mu P W Hp Hm Hh t)), (fun t => tb_vel mu P W (tb_s mu P W Hp Hm Hh t)).
  split; [|split; [|split]].
  - intros t. split; [|apply tb_motion]. rewrite tb_norm by easy.
    generalize (tb_r_lower mu P W Hp Hm Hh (tb_s mu P W Hp Hm Hh t)) (tb_q_pos mu P W Hm Hh). lra.
  - apply tb_start.
  - apply tb_start.
  - intros s. rewrite tb_s_t. easy.
Qed.
