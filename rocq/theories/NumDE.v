(** * Rounding errors of vector arithmetic in double precision: helpers for C84-C86 *)
From Coq Require Import Reals ZArith Lra Lia Psatz Bool.
From Flocq Require Import Core.
From Interval Require Import Tactic.
From Verif Require Import Num NumR NumD Geom.
Local Open Scope R_scope.

Definition eta : R := bpow radix2 (-1075).
Lemma eta_pos : 0 < eta. Proof. apply bpow_gt_0. Qed.
Lemma eta_small : eta <= / 10 ^ 300.
Proof. assert (A := tiny_1000). assert (B : eta <= bpow radix2 (-1022)) by (apply bpow_le; lia). lra. Qed.
Lemma rde : forall x X, Rabs x <= X -> Rabs (rd x - x) <= u53 * X + eta.
Proof.
  intros x X H. assert (A := rd_err x). fold eta in A. assert (u53 * Rabs x <= u53 * X); [|lra].
  apply Rmult_le_compat_l; [unfold u53; lra|easy].
Qed.
(** the same as an interval *)
Lemma rdi : forall x X, - X <= x <= X -> - (u53 * X + eta) <= rd x - x <= u53 * X + eta.
Proof. intros x X H. apply Rabs_le_inv, rde, Rabs_le. lra. Qed.
Lemma rd_nonneg : forall x, 0 <= x -> 0 <= rd x.
Proof. intros. apply rd_ge; [apply fmt0|easy]. Qed.

(** ** dot product *)
Definition ddot (a b : vec R) : R := rd (rd (rd (vx a * vx b) + rd (vy a * vy b)) + rd (vz a * vz b)).
Lemma cauchy_terms : forall a b, Rabs (vx a * vx b) + Rabs (vy a * vy b) + Rabs (vz a * vz b) <= norm a * norm b.
Proof.
  intros a b. set (a' := V (Rabs (vx a)) (Rabs (vy a)) (Rabs (vz a))). set (b' := V (Rabs (vx b)) (Rabs (vy b)) (Rabs (vz b))).
  assert (Q : forall x, Rabs x * Rabs x = x * x) by (intros x; rewrite <- Rabs_mult; apply Rabs_pos_eq; nra).
  assert (Ea : norm a' = norm a) by (unfold norm, dot, a'; cbn [vx vy vz]; now rewrite !Q).
  assert (Eb : norm b' = norm b) by (unfold norm, dot, b'; cbn [vx vy vz]; now rewrite !Q).
  rewrite <- Ea, <- Eb. rewrite !Rabs_mult. eapply Rle_trans; [|apply cauchy_abs].
  unfold dot, a', b'; cbn [vx vy vz]. apply Rle_abs.
Qed.
Lemma sum3_err : forall p q r P Q W, Rabs p <= P -> Rabs q <= Q -> Rabs r <= W ->
  Rabs (rd (rd (rd p + rd q) + rd r) - (p + q + r)) <= 3.01 * u53 * (P + Q + W) + 6 * eta.
Proof.
  intros p q r P Q W HP HQ HR. apply Rabs_le_inv in HP, HQ, HR. assert (E := eta_pos).
  assert (A := rdi p P HP). assert (B := rdi q Q HQ). assert (C := rdi r W HR). unfold u53 in *.
  assert (D := rdi (rd p + rd q) (1.000000001 * (P + Q) + 3 * eta) ltac:(lra)). unfold u53 in *.
  assert (F := rdi (rd (rd p + rd q) + rd r) (1.00000001 * (P + Q + W) + 5 * eta) ltac:(lra)). unfold u53 in *.
  apply Rabs_le. lra.
Qed.
Lemma ddot_err : forall a b, Rabs (ddot a b - dot a b) <= 3.01 * u53 * (norm a * norm b) + 6 * eta.
Proof.
  intros a b. eapply Rle_trans; [apply sum3_err; apply Rle_refl|]. assert (K := cauchy_terms a b).
  unfold u53. lra.
Qed.

(** ** cross product *)
Definition dcross (a b : vec R) : vec R :=
  V (rd (rd (vy a * vz b) - rd (vz a * vy b))) (rd (rd (vz a * vx b) - rd (vx a * vz b))) (rd (rd (vx a * vy b) - rd (vy a * vx b))).
Lemma sub2_err : forall p q P Q, Rabs p <= P -> Rabs q <= Q ->
  Rabs (rd (rd p - rd q) - (p - q)) <= 2.01 * u53 * (P + Q) + 4 * eta.
Proof.
  intros p q P Q HP HQ. apply Rabs_le_inv in HP, HQ. assert (E := eta_pos).
  assert (A := rdi p P HP). assert (B := rdi q Q HQ). unfold u53 in *.
  assert (D := rdi (rd p - rd q) (1.000000001 * (P + Q) + 3 * eta) ltac:(lra)). unfold u53 in *.
  apply Rabs_le. lra.
Qed.
Lemma two_terms : forall p q r s X Y, p * p + q * q <= X * X -> r * r + s * s <= Y * Y -> 0 <= X -> 0 <= Y ->
  Rabs (p * s) + Rabs (q * r) <= X * Y.
Proof.
  intros p q r s X Y H1 H2 HX HY.
  assert (Q : forall x, Rabs x * Rabs x = x * x) by (intros x; rewrite <- Rabs_mult; apply Rabs_pos_eq; nra).
  rewrite !Rabs_mult. rewrite <- (Q p), <- (Q q) in H1. rewrite <- (Q r), <- (Q s) in H2.
  assert (A := Rabs_pos p). assert (B := Rabs_pos q). assert (C := Rabs_pos r). assert (D := Rabs_pos s).
  set (p' := Rabs p) in *. set (q' := Rabs q) in *. set (r' := Rabs r) in *. set (s' := Rabs s) in *. clearbody p' q' r' s'.
  apply Rsqr_incr_0_var; [|nra]. unfold Rsqr.
  assert ((p' * s' + q' * r') * (p' * s' + q' * r') <= (p' * p' + q' * q') * (r' * r' + s' * s')).
  { assert (0 <= (p' * r' - q' * s') * (p' * r' - q' * s')) by (apply Rle_0_sqr). lra. }
  assert ((p' * p' + q' * q') * (r' * r' + s' * s') <= (X * X) * (Y * Y)) by (apply Rmult_le_compat; nra).
  replace (X * Y * (X * Y)) with (X * X * (Y * Y)) by ring. lra.
Qed.
Lemma norm_comp2 : forall a, vx a * vx a + vy a * vy a <= norm a * norm a /\ vy a * vy a + vz a * vz a <= norm a * norm a /\
  vz a * vz a + vx a * vx a <= norm a * norm a.
Proof. intros a. rewrite norm_sq. unfold dot. repeat split; nra. Qed.
Lemma norm_le_comps : forall a e, Rabs (vx a) <= e -> Rabs (vy a) <= e -> Rabs (vz a) <= e -> norm a <= 1.75 * e.
Proof.
  intros a e H1 H2 H3. assert (E : 0 <= e) by (assert (K := Rabs_pos (vx a)); lra).
  apply Rsqr_incr_0_var; [|lra]. unfold Rsqr. rewrite norm_sq. unfold dot.
  apply Rabs_le_inv in H1, H2, H3. nra.
Qed.
Lemma dcross_err : forall a b, norm (vsub (dcross a b) (cross a b)) <= 3.52 * u53 * (norm a * norm b) + 7 * eta.
Proof.
  intros a b. destruct (norm_comp2 a) as (A1 & A2 & A3). destruct (norm_comp2 b) as (B1 & B2 & B3).
  assert (Pa := norm_pos a). assert (Pb := norm_pos b).
  assert (S1 := two_terms _ _ _ _ _ _ A1 B1 Pa Pb). assert (S2 := two_terms _ _ _ _ _ _ A2 B2 Pa Pb).
  assert (S3 := two_terms _ _ _ _ _ _ A3 B3 Pa Pb). assert (PN : 0 <= norm a * norm b) by nra.
  set (N := norm a * norm b) in *.
  eapply Rle_trans; [apply (norm_le_comps _ (2.01 * u53 * N + 4 * eta))|unfold u53; lra];
    unfold vsub, dcross, cross; cbn [vx vy vz];
    (eapply Rle_trans; [apply sub2_err; apply Rle_refl|unfold u53; lra]).
Qed.

(** ** modulus *)
Definition dnorm (a : vec R) : R := rd (R_sqrt.sqrt (rd (rd (rd (vx a * vx a) + rd (vy a * vy a)) + rd (vz a * vz a)))).
Lemma dnorm_err : forall a, Rabs (dnorm a - norm a) <= 2.6 * u53 * norm a + / 10 ^ 149.
Proof.
  intros a. unfold dnorm. set (S := rd (rd (rd (vx a * vx a) + rd (vy a * vy a)) + rd (vz a * vz a))).
  assert (E := eta_pos). assert (E1 := eta_small). assert (Pa := norm_pos a).
  assert (H : Rabs (S - norm a * norm a) <= 3.01 * u53 * (norm a * norm a) + 6 * eta).
  { rewrite norm_sq. change (Rabs (ddot a a - dot a a) <= 3.01 * u53 * (dot a a) + 6 * eta). rewrite <- (norm_sq a) at 2. apply ddot_err. }
  assert (PS : 0 <= S) by (unfold S; repeat (apply rd_nonneg || apply Rplus_le_le_0_compat); nra).
  set (n := norm a) in *. set (s := R_sqrt.sqrt S).
  assert (Ps : 0 <= s) by apply sqrt_pos. assert (Es : s * s = S) by (apply sqrt_sqrt; easy).
  rewrite <- Es in H. apply Rabs_le_inv in H. unfold u53 in *.
  set (t := / 10 ^ 150). assert (T : 0 < t) by (apply Rinv_0_lt_compat; lra).
  assert (T1 : t <= 1) by (unfold t; lra).
  assert (T2 : 6 * eta <= 6 * (t * t)).
  { replace (t * t) with (/ 10 ^ 300); [lra|]. unfold t. rewrite <- Rinv_mult. f_equal. lra. }
  assert (T3 : / 10 ^ 149 = 10 * t) by (unfold t; lra). rewrite T3. clearbody t s n. clear E1 T3.
  assert (K : - (1.5051 * / 9007199254740992 * n + 3 * t) <= s - n <= 1.5051 * / 9007199254740992 * n + 3 * t).
  { set (k := / 9007199254740992) in *. assert (Kk : 0 < k < 1e-15) by (unfold k; lra). clearbody k.
    set (d := 1.5051 * k * n + 3 * t). assert (D : 0 < d) by (unfold d; nra).
    assert (D1 : 3.0102 * k * (n * n) <= 2 * n * d) by (unfold d; nra).
    assert (D2 : 6 * (t * t) <= 2 / 3 * (d * d)).
    { assert (9 * (t * t) <= d * d) by (unfold d; assert (0 <= k * n) by nra; nra). lra. }
    assert (D3 : 2 * n * d = 3.0102 * k * (n * n) + 6 * (n * t)) by (unfold d; lra).
    split.
    - destruct (Rle_or_lt (- d) (s - n)) as [|C]; [easy|exfalso].
      assert (D4 : d <= n) by lra. assert (3 * t <= d) by (unfold d; nra).
      assert (s * s < (n - d) * (n - d)) by nra.
      assert (D5 : d * d = 2.26532601 * (k * (k * (n * n))) + 9.0306 * (k * (n * t)) + 9 * (t * t)) by (unfold d; lra).
      assert (0 <= k * (n * n)) by nra. assert (k * (k * (n * n)) <= 1e-15 * (k * (n * n))) by nra.
      assert (k * (n * t) <= 1e-15 * (n * t)) by nra. assert (3 * (t * t) <= n * t) by nra. nra.
    - destruct (Rle_or_lt (s - n) d) as [|C]; [easy|exfalso].
      assert ((n + d) * (n + d) < s * s) by nra. nra. }
  assert (D := rdi s (1.00001 * n + 3 * t) ltac:(lra)). unfold u53 in D. apply Rabs_le.
  assert (eta <= t) by nra. lra.
Qed.
