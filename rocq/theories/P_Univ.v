(** * The universal functions as computed by palUe2pv: truncation error of the series, propagation through doubling. *)
From Coq Require Import Reals ZArith Lra Lia Psatz Bool.
From Coquelicot Require Import Coquelicot.
From Interval Require Import Tactic.
From Verif Require Import Num NumR Geom Univ M_Orbit P_Orbit.
Local Open Scope R_scope.

(** ** Taylor expansions *)
Lemma Derive_n_U : forall al k,
  (forall s, Derive_n (U0 al) (2 * k) s = al ^ k * U0 al s /\ ex_derive (Derive_n (U0 al) (2 * k)) s) /\
  (forall s, Derive_n (U0 al) (S (2 * k)) s = al ^ S k * U1 al s /\ ex_derive (Derive_n (U0 al) (S (2 * k))) s) /\
  (forall s, Derive_n (U1 al) (2 * k) s = al ^ k * U1 al s /\ ex_derive (Derive_n (U1 al) (2 * k)) s) /\
  (forall s, Derive_n (U1 al) (S (2 * k)) s = al ^ k * U0 al s /\ ex_derive (Derive_n (U1 al) (S (2 * k))) s).
Proof.
  intros al.
  assert (D0 : forall c s, is_derive (fun s => c * U0 al s) s (c * (al * U1 al s))) by (intros; apply (is_derive_scal (U0 al)), is_derive_U0).
  assert (D1 : forall c s, is_derive (fun s => c * U1 al s) s (c * U0 al s)) by (intros; apply (is_derive_scal (U1 al)), is_derive_U1).
  assert (step : forall f n c c' (g g' : R -> R), (forall s, is_derive (fun s => c * g s) s (c' * g' s)) ->
    (forall s, Derive_n f n s = c * g s) -> forall s, Derive_n f (S n) s = c' * g' s).
  { intros f n c c' g g' D E s. cbn [Derive_n]. rewrite (Derive_ext _ _ s E). apply is_derive_unique, D. }
  assert (exd : forall f n c (g : R -> R) d, (forall s, is_derive (fun s => c * g s) s (d s)) ->
    (forall s, Derive_n f n s = c * g s) -> forall s, ex_derive (Derive_n f n) s).
  { intros f n c g d D E s. apply ex_derive_ext with (fun s => c * g s); [intros; now rewrite E|]. eexists; apply D. }
  assert (A : forall k, (forall s, Derive_n (U0 al) (2 * k) s = al ^ k * U0 al s) /\ (forall s, Derive_n (U1 al) (2 * k) s = al ^ k * U1 al s)).
  { induction k as [|k [I0 I1]].
    - cbn. split; intros; ring.
    - replace (2 * S k)%nat with (S (S (2 * k))) by lia. split.
      + apply (step _ _ (al ^ S k) (al ^ S k) (U1 al)); [apply D1|].
        apply (step _ _ (al ^ k) (al ^ S k) (U0 al)); [|apply I0].
        intros s. replace (al ^ S k * U1 al s) with (al ^ k * (al * U1 al s)) by (cbn; ring). apply D0.
      + apply (step _ _ (al ^ k) (al ^ S k) (U0 al)).
        * intros s. replace (al ^ S k * U1 al s) with (al ^ k * (al * U1 al s)) by (cbn; ring). apply D0.
        * apply (step _ _ (al ^ k) (al ^ k) (U1 al)); [apply D1|apply I1]. }
  intros k. destruct (A k) as [I0 I1].
  assert (J0 : forall s, Derive_n (U0 al) (S (2 * k)) s = al ^ S k * U1 al s).
  { apply (step _ _ (al ^ k) (al ^ S k) (U0 al)); [|apply I0].
    intros s. replace (al ^ S k * U1 al s) with (al ^ k * (al * U1 al s)) by (cbn; ring). apply D0. }
  assert (J1 : forall s, Derive_n (U1 al) (S (2 * k)) s = al ^ k * U0 al s).
  { apply (step _ _ (al ^ k) (al ^ k) (U1 al)); [apply D1|apply I1]. }
  split; [|split; [|split]]; intros s; (split; [auto|]).
  - apply (exd _ _ (al ^ k) (U0 al) _ (D0 _) I0).
  - apply (exd _ _ (al ^ S k) (U1 al) _ (D1 _) J0).
  - apply (exd _ _ (al ^ k) (U1 al) _ (D1 _) I1).
  - apply (exd _ _ (al ^ k) (U0 al) _ (D0 _) J1).
Qed.
Lemma ex_derive_n_U : forall al n s, ex_derive_n (U0 al) n s /\ ex_derive_n (U1 al) n s.
Proof.
  intros al n s. destruct n; [split; exact I|]. cbn [ex_derive_n].
  destruct (Nat.Even_or_Odd n) as [[k ->]|[k ->]]; destruct (Derive_n_U al k) as (A & B & C & D).
  - split; [apply A|apply C].
  - replace (2 * k + 1)%nat with (S (2 * k)) by lia. split; [apply B|apply D].
Qed.
Lemma fact_S : forall n, INR (fact (S n)) = INR (S n) * INR (fact n).
Proof. intros n. now rewrite fact_simpl, mult_INR. Qed.
Ltac facts := repeat rewrite fact_S; change (INR (fact 0)) with 1; cbn [INR].
Lemma fact_vals : INR (fact 2) = 2 /\ INR (fact 3) = 6 /\ INR (fact 4) = 24 /\ INR (fact 5) = 120 /\ INR (fact 6) = 720 /\
  INR (fact 7) = 5040 /\ INR (fact 8) = 40320 /\ INR (fact 9) = 362880 /\ INR (fact 10) = 3628800 /\ INR (fact 11) = 39916800 /\
  INR (fact 12) = 479001600 /\ INR (fact 13) = 6227020800 /\ INR (fact 14) = 87178291200 /\ INR (fact 15) = 1307674368000 /\
  INR (fact 16) = 20922789888000 /\ INR (fact 17) = 355687428096000.
Proof. repeat split; facts; lra. Qed.

(** the polynomials summed by the nested series *)
Definition T0 (b : R) : R := 1 + b/2 + b^2/24 + b^3/720 + b^4/40320 + b^5/3628800 + b^6/479001600 + b^7/87178291200.
Definition T1 (b : R) : R := 1 + b/6 + b^2/120 + b^3/5040 + b^4/362880 + b^5/39916800 + b^6/6227020800 + b^7/1307674368000.
Lemma U0_taylor : forall al s, 0 < s -> exists z, 0 < z < s /\
  U0 al s = T0 (al * (s * s)) + (al * (s * s)) ^ 8 / 20922789888000 * U0 al z.
Proof.
  intros al s Hs. destruct (Taylor_Lagrange (U0 al) 15 0 s Hs) as (z & Hz & E).
  { intros t _ k _. exact (proj1 (ex_derive_n_U al k t)). }
  exists z. split; [easy|]. rewrite E. clear E.
  destruct fact_vals as (F2 & F3 & F4 & F5 & F6 & F7 & F8 & F9 & F10 & F11 & F12 & F13 & F14 & F15 & F16 & F17).
  assert (Z := U_at_0 al). destruct Z as (Z0 & Z1 & _).
  assert (D : forall k, Derive_n (U0 al) (2 * k) 0 = al ^ k /\ Derive_n (U0 al) (S (2 * k)) 0 = 0).
  { intros k. destruct (Derive_n_U al k) as (A & B & _). rewrite (proj1 (A 0)), (proj1 (B 0)), Z0, Z1. split; ring. }
  assert (D16 : Derive_n (U0 al) 16 z = al ^ 8 * U0 al z) by exact (proj1 (proj1 (Derive_n_U al 8) z)).
  destruct (D 0%nat) as [d0 d1]. destruct (D 1%nat) as [d2 d3]. destruct (D 2%nat) as [d4 d5]. destruct (D 3%nat) as [d6 d7].
  destruct (D 4%nat) as [d8 d9]. destruct (D 5%nat) as [d10 d11]. destruct (D 6%nat) as [d12 d13]. destruct (D 7%nat) as [d14 d15].
  cbn [Nat.mul Nat.add] in *. cbn [sum_f_R0].
  rewrite D16, d0, d1, d2, d3, d4, d5, d6, d7, d8, d9, d10, d11, d12, d13, d14, d15.
  rewrite F2, F3, F4, F5, F6, F7, F8, F9, F10, F11, F12, F13, F14, F15, F16.
  change (INR (fact 0)) with 1. change (INR (fact 1)) with 1. unfold T0. rewrite Rminus_0_r. field.
Qed.
Lemma U1_taylor : forall al s, 0 < s -> exists z, 0 < z < s /\
  U1 al s = s * T1 (al * (s * s)) + s * (al * (s * s)) ^ 8 / 355687428096000 * U0 al z.
Proof.
  intros al s Hs. destruct (Taylor_Lagrange (U1 al) 16 0 s Hs) as (z & Hz & E).
  { intros t _ k _. exact (proj2 (ex_derive_n_U al k t)). }
  exists z. split; [easy|]. rewrite E. clear E.
  destruct fact_vals as (F2 & F3 & F4 & F5 & F6 & F7 & F8 & F9 & F10 & F11 & F12 & F13 & F14 & F15 & F16 & F17).
  assert (Z := U_at_0 al). destruct Z as (Z0 & Z1 & _).
  assert (D : forall k, Derive_n (U1 al) (2 * k) 0 = 0 /\ Derive_n (U1 al) (S (2 * k)) 0 = al ^ k).
  { intros k. destruct (Derive_n_U al k) as (_ & _ & A & B). rewrite (proj1 (A 0)), (proj1 (B 0)), Z0, Z1. split; ring. }
  assert (D16 : Derive_n (U1 al) 17 z = al ^ 8 * U0 al z) by exact (proj1 (proj2 (proj2 (proj2 (Derive_n_U al 8))) z)).
  destruct (D 0%nat) as [d0 d1]. destruct (D 1%nat) as [d2 d3]. destruct (D 2%nat) as [d4 d5]. destruct (D 3%nat) as [d6 d7].
  destruct (D 4%nat) as [d8 d9]. destruct (D 5%nat) as [d10 d11]. destruct (D 6%nat) as [d12 d13]. destruct (D 7%nat) as [d14 d15].
  destruct (D 8%nat) as [d16 _].
  cbn [Nat.mul Nat.add] in *. cbn [sum_f_R0].
  rewrite D16, d0, d1, d2, d3, d4, d5, d6, d7, d8, d9, d10, d11, d12, d13, d14, d15, d16.
  rewrite F2, F3, F4, F5, F6, F7, F8, F9, F10, F11, F12, F13, F14, F15, F16, F17.
  change (INR (fact 0)) with 1. change (INR (fact 1)) with 1. unfold T1. rewrite Rminus_0_r. field.
Qed.

(** ** Size of the universal functions *)
(** [amp al s]: 1 for a bound or parabolic orbit, cosh (sqrt al * s) for a hyperbolic one *)
Definition amp (al s : R) : R := if Rle_dec al 0 then 1 else Rtrigo_def.cosh (R_sqrt.sqrt al * s).
Lemma cosh_ge_1 : forall x, 1 <= Rtrigo_def.cosh x.
Proof.
  intros x. assert (E := cosh_sinh x). assert (P : 0 < Rtrigo_def.cosh x) by (unfold Rtrigo_def.cosh; generalize (exp_pos x) (exp_pos (- x)); lra).
  assert (0 <= Rtrigo_def.sinh x * Rtrigo_def.sinh x) by (apply Rle_0_sqr). nra.
Qed.
Lemma cosh_even : forall x, Rtrigo_def.cosh (- x) = Rtrigo_def.cosh x.
Proof. intros x. unfold Rtrigo_def.cosh. rewrite Ropp_involutive. lra. Qed.
Lemma cosh_abs : forall x, Rtrigo_def.cosh (Rabs x) = Rtrigo_def.cosh x.
Proof. intros x. unfold Rabs. destruct (Rcase_abs x); [apply cosh_even|easy]. Qed.
Lemma cosh_mono : forall x y, 0 <= x <= y -> Rtrigo_def.cosh x <= Rtrigo_def.cosh y.
Proof.
  intros x y H. unfold Rtrigo_def.cosh. rewrite !exp_Ropp. set (a := Rtrigo_def.exp x). set (b := Rtrigo_def.exp y).
  assert (A : 1 <= a) by (unfold a; rewrite <- exp_0; destruct (Req_dec x 0) as [E|E]; [rewrite E; lra|]; left; apply exp_increasing; lra).
  assert (B : a <= b) by (unfold a, b; destruct (Req_dec x y) as [E|E]; [rewrite E; lra|]; left; apply exp_increasing; lra).
  assert (K : b + / b - (a + / a) = (b - a) * (1 - / (a * b))) by (field; lra).
  assert (0 < / (a * b) <= 1) by (split; [apply Rinv_0_lt_compat; nra|rewrite <- Rinv_1; apply Rinv_le_contravar; nra]). nra.
Qed.
Lemma amp_ge_1 : forall al s, 1 <= amp al s.
Proof. intros. unfold amp. destruct (Rle_dec al 0); [lra|apply cosh_ge_1]. Qed.
Lemma amp_mono : forall al z s, Rabs z <= Rabs s -> amp al z <= amp al s.
Proof.
  intros al z s H. unfold amp. destruct (Rle_dec al 0); [lra|]. rewrite <- (cosh_abs (_ * z)), <- (cosh_abs (_ * s)), !Rabs_mult.
  apply cosh_mono. split; [apply Rmult_le_pos; apply Rabs_pos|]. apply Rmult_le_compat_l; [apply Rabs_pos|easy].
Qed.
Lemma amp_double : forall al s, amp al s * amp al s <= amp al (2 * s).
Proof.
  intros. unfold amp. destruct (Rle_dec al 0); [lra|]. replace (R_sqrt.sqrt al * (2 * s)) with (2 * (R_sqrt.sqrt al * s)) by ring.
  rewrite cosh_2. generalize (cosh_ge_1 (R_sqrt.sqrt al * s)). nra.
Qed.
Lemma U0_amp : forall al z s, Rabs z <= Rabs s -> Rabs (U0 al z) <= amp al s.
Proof.
  intros al z s H. eapply Rle_trans; [|apply (amp_mono al z s H)].
  unfold U0, amp. destruct (Rlt_dec al 0) as [Hn|Hn]; [|destruct (Rlt_dec 0 al) as [Hp|Hp]]; destruct (Rle_dec al 0) as [Hl|Hl]; try (exfalso; lra).
  - apply Rabs_le. generalize (COS_bound (R_sqrt.sqrt (- al) * z)). lra.
  - rewrite Rabs_pos_eq; [apply Rle_refl|]. generalize (cosh_ge_1 (R_sqrt.sqrt al * z)). lra.
  - rewrite Rabs_R1. apply Rle_refl.
Qed.
Lemma bounded_derive : forall (f df : R -> R) K s, (forall z : R, is_derive f z (df z)) -> f 0 = 0 ->
  (forall z, Rabs z <= Rabs s -> Rabs (df z) <= K) -> Rabs (f s) <= K * Rabs s.
Proof.
  intros f df K s D F0 B. destruct (MVT_gen f 0 s df) as (c & Hc & E).
  - intros; apply D.
  - intros x _. apply derivable_continuous_pt. exists (df x). apply is_derive_Reals, D.
  - rewrite F0, !Rminus_0_r in E. rewrite E, Rabs_mult. apply Rmult_le_compat_r; [apply Rabs_pos|]. apply B.
    revert Hc. unfold Rmin, Rmax, Rabs. destruct (Rle_dec 0 s), (Rcase_abs c), (Rcase_abs s); lra.
Qed.
Lemma U_amp : forall al z s, Rabs z <= Rabs s ->
  Rabs (U1 al z) <= amp al s * Rabs z /\ Rabs (U2 al z) <= amp al s * Rabs z * Rabs z /\ Rabs (U3 al z) <= amp al s * Rabs z * Rabs z * Rabs z.
Proof.
  intros al z s H. destruct (U_at_0 al) as (_ & Z1 & Z2 & Z3).
  assert (A := amp_ge_1 al s).
  assert (B1 : forall y, Rabs y <= Rabs s -> Rabs (U1 al y) <= amp al s * Rabs y).
  { intros y Hy. apply (bounded_derive _ (U0 al)); [apply is_derive_U1|easy|]. intros x Hx. apply U0_amp. lra. }
  assert (B2 : forall y, Rabs y <= Rabs s -> Rabs (U2 al y) <= amp al s * Rabs y * Rabs y).
  { intros y Hy. apply (bounded_derive _ (U1 al)); [apply is_derive_U2|easy|]. intros x Hx. eapply Rle_trans; [apply B1; lra|].
    apply Rmult_le_compat_l; lra. }
  split; [apply B1, H|]. split; [apply B2, H|].
  apply (bounded_derive _ (U2 al)); [apply is_derive_U3|easy|]. intros x Hx. eapply Rle_trans; [apply B2; lra|].
  assert (X := Rabs_pos x). assert (amp al s * Rabs x <= amp al s * Rabs z) by (apply Rmult_le_compat_l; lra).
  assert (0 <= amp al s * Rabs x) by (apply Rmult_le_pos; lra). apply Rmult_le_compat; lra.
Qed.

(** ** Truncation error of the nested series *)
Definition near_U (al x eta : R) (s : ufun R) : Prop := let K := eta * amp al x in
  Rabs (uf0 s - U0 al x) <= K /\ Rabs (uf1 s - U1 al x) <= K * Rabs x /\
  Rabs (uf2 s - U2 al x) <= K * Rabs x * Rabs x /\ Rabs (uf3 s - U3 al x) <= K * Rabs x * Rabs x * Rabs x.

Lemma U0_even : forall al s, U0 al (- s) = U0 al s.
Proof.
  intros. unfold U0. destruct (Rlt_dec al 0); [|destruct (Rlt_dec 0 al)]; try reflexivity.
  - replace (R_sqrt.sqrt (- al) * - s) with (- (R_sqrt.sqrt (- al) * s)) by ring. apply cos_neg.
  - replace (R_sqrt.sqrt al * - s) with (- (R_sqrt.sqrt al * s)) by ring. apply cosh_even.
Qed.
Lemma U1_odd : forall al s, U1 al (- s) = - U1 al s.
Proof.
  intros. unfold U1. destruct (Rlt_dec al 0); [|destruct (Rlt_dec 0 al)]; try reflexivity.
  - replace (R_sqrt.sqrt (- al) * - s) with (- (R_sqrt.sqrt (- al) * s)) by ring. rewrite sin_neg. unfold Rdiv. ring.
  - replace (R_sqrt.sqrt al * - s) with (- (R_sqrt.sqrt al * s)) by ring. unfold Rtrigo_def.sinh. rewrite Ropp_involutive. unfold Rdiv. ring.
Qed.
(** both signs of [s] *)
Lemma U0_taylor' : forall al s, exists z, Rabs z <= Rabs s /\ U0 al s = T0 (al * (s * s)) + (al * (s * s)) ^ 8 / 20922789888000 * U0 al z.
Proof.
  intros al s. destruct (Rtotal_order s 0) as [H|[->|H]].
  - destruct (U0_taylor al (- s)) as (z & Hz & E); [lra|]. exists z. split; [rewrite (Rabs_left s), Rabs_pos_eq; lra|].
    rewrite U0_even in E. rewrite E. now replace (- s * - s) with (s * s) by ring.
  - exists 0. split; [lra|]. destruct (U_at_0 al) as (-> & _). unfold T0. field.
  - destruct (U0_taylor al s H) as (z & Hz & E). exists z. split; [rewrite !Rabs_pos_eq; lra|easy].
Qed.
Lemma U1_taylor' : forall al s, exists z, Rabs z <= Rabs s /\ U1 al s = s * T1 (al * (s * s)) + s * (al * (s * s)) ^ 8 / 355687428096000 * U0 al z.
Proof.
  intros al s. destruct (Rtotal_order s 0) as [H|[->|H]].
  - destruct (U1_taylor al (- s)) as (z & Hz & E); [lra|]. exists z. split; [rewrite (Rabs_left s), Rabs_pos_eq; lra|].
    rewrite U1_odd in E. replace (- s * - s) with (s * s) in E by ring. apply Ropp_eq_compat in E. rewrite Ropp_involutive in E.
    rewrite E. field.
  - exists 0. split; [lra|]. destruct (U_at_0 al) as (_ & -> & _). unfold T1. field.
  - destruct (U1_taylor al s H) as (z & Hz & E). exists z. split; [rewrite !Rabs_pos_eq; lra|easy].
Qed.
Definition T2 (b : R) : R := 1/2 + b/24 + b^2/720 + b^3/40320 + b^4/3628800 + b^5/479001600 + b^6/87178291200.
Definition T3 (b : R) : R := 1/6 + b/120 + b^2/5040 + b^3/362880 + b^4/39916800 + b^5/6227020800 + b^6/1307674368000.
Lemma series_val : forall al b x x2, ue_series (T := R) al b x x2 =
  UF (1 + al * (x2 * T2 b)) (x + al * (x * x2 * T3 b)) (x2 * T2 b) (x * x2 * T3 b).
Proof.
  intros. unfold ue_series. rops.
  replace (litR 1.0) with 1 by (rlit; lra). replace (litR 6.0) with 6 by (rlit; lra). replace (litR 2.0) with 2 by (rlit; lra).
  replace (litR 210.0) with 210 by (rlit; lra). replace (litR 156.0) with 156 by (rlit; lra). replace (litR 110.0) with 110 by (rlit; lra).
  replace (litR 72.0) with 72 by (rlit; lra). replace (litR 42.0) with 42 by (rlit; lra). replace (litR 20.0) with 20 by (rlit; lra).
  replace (litR 182.0) with 182 by (rlit; lra). replace (litR 132.0) with 132 by (rlit; lra). replace (litR 90.0) with 90 by (rlit; lra).
  replace (litR 56.0) with 56 by (rlit; lra). replace (litR 30.0) with 30 by (rlit; lra). replace (litR 12.0) with 12 by (rlit; lra).
  unfold T2, T3. f_equal; field.
Qed.
Lemma series_near : forall al x, Rabs (al * (x * x)) <= 0.7 -> near_U al x 4e-15 (ue_series (T := R) al (al * (x * x)) x (x * x)).
Proof.
  intros al x Hb. rewrite series_val. unfold near_U. cbn [uf0 uf1 uf2 uf3].
  destruct (U0_taylor' al x) as (z0 & Hz0 & E0). destruct (U1_taylor' al x) as (z1 & Hz1 & E1).
  assert (B0 := U0_amp al z0 x Hz0). assert (B1 := U0_amp al z1 x Hz1). assert (A := amp_ge_1 al x).
  set (b := al * (x * x)) in *.
  assert (Hb7 : Rabs (b ^ 7) <= 0.0824).
  { rewrite <- RPow_abs. eapply Rle_trans; [apply pow_incr; split; [apply Rabs_pos|exact Hb]|]. lra. }
  assert (Hb8 : Rabs (b ^ 8) <= 0.0577).
  { rewrite <- RPow_abs. eapply Rle_trans; [apply pow_incr; split; [apply Rabs_pos|exact Hb]|]. lra. }
  assert (X := Rabs_pos x).
  (* the four differences *)
  assert (D0 : 1 + al * (x * x * T2 b) - U0 al x = - (b ^ 8 / 20922789888000 * U0 al z0)).
  { rewrite E0. unfold T2, T0. replace (al * (x * x * (1/2 + b/24 + b^2/720 + b^3/40320 + b^4/3628800 + b^5/479001600 + b^6/87178291200)))
      with (b * (1/2 + b/24 + b^2/720 + b^3/40320 + b^4/3628800 + b^5/479001600 + b^6/87178291200)) by (unfold b; ring). field. }
  assert (D1 : x + al * (x * (x * x) * T3 b) - U1 al x = - (x * b ^ 8 / 355687428096000 * U0 al z1)).
  { rewrite E1. unfold T3, T1. match goal with |- x + al * (x * (x * x) * ?t) - _ = _ =>
      replace (al * (x * (x * x) * t)) with (x * (b * t)) by (unfold b; ring) end. field. }
  assert (D2 : x * x * T2 b - U2 al x = - (x * x * (b ^ 7 / 20922789888000 * U0 al z0))).
  { unfold U2. destruct (Req_EM_T al 0) as [Ha|Ha].
    - unfold T2, b. rewrite Ha. field.
    - apply Rmult_eq_reg_l with al; [|easy].
      replace (al * (x * x * T2 b - (U0 al x - 1) / al)) with (1 + al * (x * x * T2 b) - U0 al x) by (field; easy).
      rewrite D0. unfold b. field. }
  assert (D3 : x * (x * x) * T3 b - U3 al x = - (x * x * x * (b ^ 7 / 355687428096000 * U0 al z1))).
  { unfold U3. destruct (Req_EM_T al 0) as [Ha|Ha].
    - unfold T3, b. rewrite Ha. field.
    - apply Rmult_eq_reg_l with al; [|easy].
      replace (al * (x * (x * x) * T3 b - (U1 al x - x) / al)) with (x + al * (x * (x * x) * T3 b) - U1 al x) by (field; easy).
      rewrite D1. unfold b. field. }
  rewrite D0, D1, D2, D3.
  assert (P8 : Rabs (b ^ 8 / 20922789888000 * U0 al z0) <= 4e-15 * amp al x).
  { rewrite Rabs_mult. apply Rmult_le_compat; try apply Rabs_pos; [|easy]. unfold Rdiv. rewrite Rabs_mult, (Rabs_pos_eq (/ _)) by lra. lra. }
  assert (P8' : Rabs (b ^ 8 / 355687428096000 * U0 al z1) <= 4e-15 * amp al x).
  { rewrite Rabs_mult. apply Rmult_le_compat; try apply Rabs_pos; [|easy]. unfold Rdiv. rewrite Rabs_mult, (Rabs_pos_eq (/ _)) by lra. lra. }
  assert (P7 : Rabs (b ^ 7 / 20922789888000 * U0 al z0) <= 4e-15 * amp al x).
  { rewrite Rabs_mult. apply Rmult_le_compat; try apply Rabs_pos; [|easy]. unfold Rdiv. rewrite Rabs_mult, (Rabs_pos_eq (/ _)) by lra. lra. }
  assert (P7' : Rabs (b ^ 7 / 355687428096000 * U0 al z1) <= 4e-15 * amp al x).
  { rewrite Rabs_mult. apply Rmult_le_compat; try apply Rabs_pos; [|easy]. unfold Rdiv. rewrite Rabs_mult, (Rabs_pos_eq (/ _)) by lra. lra. }
  split; [|split; [|split]]; rewrite Rabs_Ropp.
  - easy.
  - replace (x * b ^ 8 / 355687428096000 * U0 al z1) with (b ^ 8 / 355687428096000 * U0 al z1 * x) by field.
    rewrite Rabs_mult. apply Rmult_le_compat_r; easy.
  - replace (x * x * (b ^ 7 / 20922789888000 * U0 al z0)) with (b ^ 7 / 20922789888000 * U0 al z0 * x * x) by field.
    rewrite !(Rabs_mult _ x). repeat (apply Rmult_le_compat_r; [easy|]). easy.
  - replace (x * x * x * (b ^ 7 / 355687428096000 * U0 al z1)) with (b ^ 7 / 355687428096000 * U0 al z1 * x * x * x) by field.
    rewrite !(Rabs_mult _ x). repeat (apply Rmult_le_compat_r; [easy|]). easy.
Qed.

(** ** Propagation through the doubling *)
Lemma Rabs_2 : forall x, Rabs (2 * x) = 2 * Rabs x. Proof. intros. rewrite Rabs_mult, (Rabs_pos_eq 2); lra. Qed.
Lemma double_near : forall al x eta s, 0 <= eta <= 0.05 -> near_U al x eta s ->
  near_U al (2 * x) (4.1 * eta) (UF (2 * uf0 s * uf0 s - 1) (2 * uf0 s * uf1 s) (2 * uf1 s * uf1 s) (2 * (uf0 s * uf3 s + x * uf2 s))).
Proof.
  intros al x eta s He (N0 & N1 & N2 & N3). unfold near_U. cbn [uf0 uf1 uf2 uf3]. rewrite !Rabs_2.
  rewrite U0_double, U1_double, U2_double, U3_double.
  assert (A1 := amp_ge_1 al x). assert (AA := amp_double al x). assert (X := Rabs_pos x).
  assert (B0 := U0_amp al x x (Rle_refl _)). destruct (U_amp al x x (Rle_refl _)) as (B1 & B2 & B3).
  set (a := amp al x) in *. set (a' := amp al (2 * x)) in *. set (y := Rabs x) in *.
  set (e0 := uf0 s - U0 al x) in *. set (e1 := uf1 s - U1 al x) in *. set (e2 := uf2 s - U2 al x) in *. set (e3 := uf3 s - U3 al x) in *.
  replace (uf0 s) with (U0 al x + e0) by (unfold e0; ring). replace (uf1 s) with (U1 al x + e1) by (unfold e1; ring).
  replace (uf2 s) with (U2 al x + e2) by (unfold e2; ring). replace (uf3 s) with (U3 al x + e3) by (unfold e3; ring).
  clearbody e0 e1 e2 e3. set (u0 := U0 al x) in *. set (u1 := U1 al x) in *. set (u2 := U2 al x) in *. set (u3 := U3 al x) in *. clearbody u0 u1 u2 u3.
  assert (M : forall p q P Q, Rabs p <= P -> Rabs q <= Q -> Rabs (p * q) <= P * Q).
  { intros p q P Q Hp Hq. rewrite Rabs_mult. apply Rmult_le_compat; auto using Rabs_pos. }
  assert (S2 : forall p q P Q, Rabs p <= P -> Rabs q <= Q -> Rabs (p + q) <= P + Q).
  { intros p q P Q Hp Hq. eapply Rle_trans; [apply Rabs_triang|]. lra. }
  assert (Hx : Rabs x <= y) by (unfold y; lra). clearbody y a a'.
  assert (Y2 : 0 <= y * y) by nra. assert (Y3 : 0 <= y * y * y) by (apply Rmult_le_pos; lra).
  assert (E2 : eta * eta <= 0.05 * eta) by nra. assert (Aa : 0 <= a * a) by nra.
  assert (EA : 0 <= eta * (a * a)) by (apply Rmult_le_pos; lra).
  assert (EEA : eta * eta * (a * a) <= 0.05 * (eta * (a * a))) by (replace (0.05 * (eta * (a * a))) with (0.05 * eta * (a * a)) by ring; apply Rmult_le_compat_r; lra).
  assert (Ea : eta * a <= eta * (a * a)) by (apply Rmult_le_compat_l; [lra|]; nra).
  assert (EA' : eta * (a * a) <= eta * a') by (apply Rmult_le_compat_l; lra).
  split; [|split; [|split]].
  - replace (2 * (u0 + e0) * (u0 + e0) - 1 - (2 * u0 * u0 - 1)) with (2 * (e0 * (u0 + (u0 + e0)))) by ring. rewrite Rabs_2.
    eapply Rle_trans; [apply Rmult_le_compat_l; [lra|]; apply M; [exact N0|]; apply S2; [exact B0|]; apply S2; [exact B0|exact N0]|]. nra.
  - replace (2 * (u0 + e0) * (u1 + e1) - 2 * u0 * u1) with (2 * (e0 * u1 + (u0 + e0) * e1)) by ring. rewrite Rabs_2.
    eapply Rle_trans; [apply Rmult_le_compat_l; [lra|]; apply S2; [apply M; [exact N0|exact B1]|apply M; [apply S2; [exact B0|exact N0]|exact N1]]|].
    apply Rle_trans with (2 * y * (2 * (eta * (a * a)) + eta * eta * (a * a))); [right; ring|].
    rewrite (Rmult_comm _ (2 * y)). apply Rmult_le_compat_l; lra.
  - replace (2 * (u1 + e1) * (u1 + e1) - 2 * u1 * u1) with (2 * (e1 * (u1 + (u1 + e1)))) by ring. rewrite Rabs_2.
    eapply Rle_trans; [apply Rmult_le_compat_l; [lra|]; apply M; [exact N1|]; apply S2; [exact B1|]; apply S2; [exact B1|exact N1]|].
    apply Rle_trans with (y * y * (4 * (eta * (a * a)) + 2 * (eta * eta * (a * a)))); [right; ring|].
    apply Rle_trans with (y * y * (4 * (4.1 * (eta * a')))); [|right; ring]. apply Rmult_le_compat_l; lra.
  - replace (2 * ((u0 + e0) * (u3 + e3) + x * (u2 + e2)) - 2 * (u0 * u3 + x * u2)) with (2 * (e0 * u3 + (u0 + e0) * e3 + x * e2)) by ring. rewrite Rabs_2.
    eapply Rle_trans; [apply Rmult_le_compat_l; [lra|]; apply S2; [apply S2; [apply M; [exact N0|exact B3]|apply M; [apply S2; [exact B0|exact N0]|exact N3]]|apply M; [exact Hx|exact N2]]|].
    apply Rle_trans with (y * y * y * (4 * (eta * (a * a)) + 2 * (eta * eta * (a * a)) + 2 * (eta * a))); [right; ring|].
    apply Rle_trans with (y * y * y * (8 * (4.1 * (eta * a')))); [|right; ring]. apply Rmult_le_compat_l; lra.
Qed.
Lemma ue_double_near : forall n al x eta s tol s' tol', 0 <= eta -> 4.1 ^ n * eta <= 0.2 -> near_U al x eta s ->
  ue_double (T := R) n s x tol = (s', tol') -> near_U al (2 ^ n * x) (4.1 ^ n * eta) s' /\ tol' = 2 ^ n * tol.
Proof.
  induction n; intros al x eta s tol s' tol' H0 He N E; cbn [ue_double] in E.
  - injection E as <- <-. cbn [Rpow_def.pow]. rewrite !Rmult_1_l. easy.
  - rops. replace (litR 2.0) with 2 in E by (rlit; lra). replace (litR 1.0) with 1 in E by (rlit; lra).
    assert (P : 1 <= 4.1 ^ n) by (apply pow_R1_Rle; lra). cbn [Rpow_def.pow] in He.
    replace (x + x) with (2 * x) in E by ring. replace (tol + tol) with (2 * tol) in E by ring.
    apply IHn with (al := al) (eta := 4.1 * eta) in E; [| lra | | ].
    + destruct E as [E1 E2]. split.
      * cbn [Rpow_def.pow]. replace (2 * 2 ^ n * x) with (2 ^ n * (2 * x)) by ring. replace (4.1 * 4.1 ^ n * eta) with (4.1 ^ n * (4.1 * eta)) by ring. exact E1.
      * rewrite E2. cbn [Rpow_def.pow]. ring.
    + replace (4.1 ^ n * (4.1 * eta)) with (4.1 * 4.1 ^ n * eta) by ring. lra.
    + apply double_near; [|easy]. split; [easy|]. nra.
Qed.
Lemma ue_halve_val : forall hf n b x x2 n' b' x' x2', ue_halve (T := R) hf n b x x2 = Some (n', b', x', x2') ->
  exists k, (k <= hf)%nat /\ n' = (n + k)%nat /\ b = 4 ^ k * b' /\ x = 2 ^ k * x' /\ x2 = 4 ^ k * x2' /\ Rabs b' <= 0.7 /\ (k <> 0%nat -> 0.7 < 4 * Rabs b').
Proof.
  induction hf; intros n b x x2 n' b' x' x2' H; cbn [ue_halve] in H; rops.
  - destruct (Rltb_spec (litR 0.7) (Rabs b)) as [|L]; [discriminate H|]. injection H as <- <- <- <-.
    exists 0%nat. cbn [Rpow_def.pow]. rewrite !Rmult_1_l. split; [lia|]. split; [lia|]. do 3 (split; [easy|]). split; [revert L; rlit; lra|easy].
  - destruct (Rltb_spec (litR 0.7) (Rabs b)) as [L|L].
    + destruct (IHhf _ _ _ _ _ _ _ _ H) as (k & K1 & K2 & K3 & K4 & K5 & K6 & K7). exists (S k).
      replace (litR 4.0) with 4 in * by (rlit; lra). replace (litR 2.0) with 2 in * by (rlit; lra). cbn [Rpow_def.pow].
      split; [lia|]. split; [lia|]. split; [lra|]. split; [lra|]. split; [lra|]. split; [easy|]. intros _.
      destruct k; [|apply K7; easy]. cbn [Rpow_def.pow] in K3. rewrite Rmult_1_l in K3. rewrite <- K3. unfold Rdiv. rewrite Rabs_mult, (Rabs_pos_eq (/ 4)) by lra.
      revert L. rlit. lra.
    + injection H as <- <- <- <-. exists 0%nat. cbn [Rpow_def.pow]. rewrite !Rmult_1_l. split; [lia|]. split; [lia|]. do 3 (split; [easy|]). split; [revert L; rlit; lra|easy].
Qed.
(** The universal functions computed by palUe2pv, and its tolerance. *)
Lemma ue_sfun_near : forall hf al psi s tol, (hf <= 20)%nat -> ue_sfun (T := R) hf al psi = Some (s, tol) ->
  exists n, (n <= hf)%nat /\ Rabs (al * (psi * psi)) <= 0.7 * 4 ^ n /\ tol = 2 ^ n * 1e-13 /\ near_U al psi (4.1 ^ n * 4e-15) s.
Proof.
  intros hf al psi s tol H20 H. unfold ue_sfun in H. rops.
  destruct (ue_halve hf 0 (al * (psi * psi)) psi (psi * psi)) as [[[[n b] x] x2]|] eqn:E; [|discriminate H].
  destruct (ue_halve_val _ _ _ _ _ _ _ _ _ E) as (k & K1 & K2 & K3 & K4 & K5 & K6 & _). cbn [Nat.add] in K2. subst n.
  exists k. split; [easy|].
  assert (Q : 0 < 4 ^ k) by (apply pow_lt; lra).
  assert (Q4 : 4 ^ k = 2 ^ k * 2 ^ k) by (rewrite <- Rpow_mult_distr; f_equal; lra).
  assert (X2 : x2 = x * x) by (apply Rmult_eq_reg_l with (4 ^ k); [|lra]; rewrite <- K5, K4, Q4; ring).
  assert (B : b = al * (x * x)) by (apply Rmult_eq_reg_l with (4 ^ k); [|lra]; rewrite <- K3, K4, Q4; ring).
  split; [rewrite K3, Rabs_mult, (Rabs_pos_eq (4 ^ k)) by lra; rewrite Rmult_comm; apply Rmult_le_compat_r; lra|].
  replace (litR 1e-13) with 1e-13 in H by (rlit; lra).
  assert (P20 : 4.1 ^ k <= 4.1 ^ 20) by (apply Rle_pow; [lra|lia]).
  assert (4.1 ^ 20 * 4e-15 <= 0.2) by lra.
  injection H as H. apply ue_double_near with (al := al) (eta := 4e-15) in H; [|lra|nra|].
  - rewrite <- K4 in H. easy.
  - subst b x2. apply series_near, K6.
Qed.
