(** * Theorems: bearings and parallactic angles in double precision (C92) *)
From Coq Require Import Reals ZArith Lra Lia Psatz Bool.
From Flocq Require Import Core.
From Interval Require Import Tactic.
From Verif Require Import Num NumR NumD NumDE Geom Erfa M_Sphere P_Sphere P_Tangent Props_Dangle Props_Dsep Props_Dsph Props_Dhor Props_Dtan.
Local Open Scope R_scope.

(** polar angle of a perturbed point of the plane *)
Lemma plane_near : forall S t x y k, 0 < S -> 0 <= k -> 1.4143 * k <= 1e-6 * S -> Rabs (x - S * cosR t) <= k -> Rabs (y - S * sinR t) <= k ->
  (y <> 0 \/ x <> 0) /\ exists j : Z, Rabs (atan2R y x - (t + IZR j * (2 * PI))) <= 1.0000001 * (1.4143 * k / S).
Proof.
  intros S t x y k PS Hk HS Hx Hy.
  assert (Q : forall a b, Rabs (a - b) <= k -> (b - a) * (b - a) <= k * k).
  { intros a b H. replace ((b - a) * (b - a)) with (Rabs (a - b) * Rabs (a - b)); [apply Rmult_le_compat; try apply Rabs_pos; easy|].
    rewrite <- Rabs_mult, Rabs_pos_eq by apply Rle_0_sqr. ring. }
  apply Q in Hx, Hy. clear Q.
  assert (NZ : y <> 0 \/ x <> 0).
  { destruct (Req_dec y 0) as [Ey|]; [|now left]. right. intros Ex. rewrite Ex in Hx. rewrite Ey in Hy. assert (T := sin2_cos2 t). unfold Rsqr in T.
    assert (S * S <= 2 * (k * k)).
    { replace (S * S) with (S * S * (sinR t * sinR t + cosR t * cosR t)) by (rewrite T; ring). lra. }
    assert (KS : k <= 1e-6 * S) by lra. assert (k * k <= 1e-6 * S * (1e-6 * S)) by (apply Rmult_le_compat; lra). nra. }
  split; [exact NZ|]. destruct (atan2_polar y x) as [E1 E2]. set (th := atan2R y x) in *. set (r := sqrtR (x * x + y * y)) in *.
  assert (Pr : 0 <= r) by apply sqrt_pos.
  destruct (nearest_turn t th) as (j & Hj). exists j.
  apply (polar_pert S (t + IZR j * (2 * PI)) r th (1.4143 * k) PS Pr Hj); [lra|].
  assert (0 <= k * k) by (apply Rle_0_sqr). rewrite cos_period_Z, sin_period_Z, <- E1, <- E2. lra.
Qed.
(** [t] is the bearing (position angle, measured from north through east) of the direction (a2,b2) seen from (a1,b1), and [S] the sine of
    their separation *)
Definition bearing (a1 b1 a2 b2 S t : R) : Prop :=
  dot (dir a2 b2) (east a1) = S * sinR t /\ dot (dir a2 b2) (north a1 b1) = S * cosR t.

Section D.
Variable L : Libm.
(** palDbear and palPa run in double arithmetic *)
Definition dbear (a1 b1 a2 b2 : R) : R := @palDbear R (DA L) a1 b1 a2 b2.
Definition dpa (ha dec phi : R) : R := @palPa R (DA L) ha dec phi.
Lemma dbear_unf : forall a1 b1 a2 b2, dbear a1 b1 a2 b2 =
  let '(y, x, _) := s2tp_num L a2 b2 a1 b1 in if negb (Reqb x 0) || negb (Reqb y 0) then l_atan2 L y x else 0.
Proof.
  intros. unfold dbear, palDbear, eraPas, s2tp_num. cbv zeta. dn. rewrite !(rdZ 0) by (cbn; lia).
  rewrite (Rmult_comm (l_sin L (rd (a2 - a1)))). reflexivity.
Qed.
Lemma dpa_unf : forall ha dec phi, fmt ha -> dpa ha dec phi =
  let '(y, x, _) := s2tp_num L ha phi 0 dec in l_atan2 L y (if Reqb y 0 && Reqb x 0 then 1 else x).
Proof.
  intros ha dec phi F. unfold dpa, palPa, s2tp_num. cbv zeta. rewrite Rminus_0_r, (rd_id ha) by easy. dn. rewrite !(rdZ 0), !(rdZ 1) by (cbn; lia). reflexivity.
Qed.
Lemma num_fmt : forall ra dec raz decz, let '(a, b, _) := s2tp_num L ra dec raz decz in fmt a /\ fmt b.
Proof. intros. unfold s2tp_num. cbv zeta. split; apply fmt_rd. Qed.
Lemma bear_core : forall e a1 b1 a2 b2 S t, atan2_acc L e -> trig_acc L u53 ->
  fmt a1 -> fmt b1 -> fmt a2 -> fmt b2 -> Rabs (a2 - a1) <= 7 -> 1e-8 <= S -> bearing a1 b1 a2 b2 S t ->
  let '(y, x, _) := s2tp_num L a2 b2 a1 b1 in (y <> 0 \/ x <> 0) /\
  exists k : Z, Rabs (l_atan2 L y x - (t + IZR k * (2 * PI))) <= (1.42e-15 + 1.58e-16 * Rabs (a2 - a1)) / S + e.
Proof.
  intros e a1 b1 a2 b2 S t HA HT F1 F2 F3 F4 Hr HS [B1 B2].
  assert (K := s2tp_num_err L HT a2 b2 a1 b1 F3 F4 F1 F2 Hr). assert (N := num_fmt a2 b2 a1 b1).
  destruct (s2tp_num L a2 b2 a1 b1) as [[y x] d]. cbv zeta in K. destruct K as (Ky & Kx & _). destruct N as [Ny Nx].
  rewrite B1 in Ky. rewrite B2 in Kx. set (r := Rabs (a2 - a1)) in *. assert (Pr : 0 <= r) by apply Rabs_pos.
  set (k := (r + 9.02) * u53) in *. assert (Hk : 0 <= k <= 2e-15) by (unfold k, u53; lra).
  destruct (plane_near S t x y k ltac:(lra) ltac:(lra) ltac:(lra) Kx Ky) as (NZ & j & Hj). split; [exact NZ|]. exists j.
  assert (AL := HA y x Ny Nx NZ). apply Rabs_le_inv in AL, Hj. assert (Pi : 0 < / S) by (apply Rinv_0_lt_compat; lra).
  assert (M : 1.0000001 * (1.4143 * k / S) <= (1.42e-15 + 1.58e-16 * r) / S).
  { unfold Rdiv. replace (1.0000001 * (1.4143 * k * / S)) with (1.0000001 * (1.4143 * k) * / S) by ring. apply Rmult_le_compat_r; [lra|]. unfold k, u53. lra. }
  apply Rabs_le. lra.
Qed.
(** C92: bearings are accurate to 1.42e-15 (more for large differences of longitude) divided by the sine of the separation *)
Theorem C92_palDbear : forall e a1 b1 a2 b2 S t, atan2_acc L e -> trig_acc L u53 ->
  is_double a1 -> is_double b1 -> is_double a2 -> is_double b2 -> Rabs (a2 - a1) <= 7 -> 1e-8 <= S -> bearing a1 b1 a2 b2 S t ->
  exists k : Z, Rabs (dbear a1 b1 a2 b2 - (t + IZR k * (2 * PI))) <= (1.42e-15 + 1.58e-16 * Rabs (a2 - a1)) / S + e.
Proof.
  intros e a1 b1 a2 b2 S t HA HT F1 F2 F3 F4 Hr HS HB. apply double_fmt in F1, F2, F3, F4.
  assert (K := bear_core e a1 b1 a2 b2 S t HA HT F1 F2 F3 F4 Hr HS HB). rewrite dbear_unf.
  destruct (s2tp_num L a2 b2 a1 b1) as [[y x] d]. destruct K as (NZ & K).
  destruct (Reqb_spec x 0) as [Ex|Ex]; [destruct (Reqb_spec y 0) as [Ey|Ey]; [tauto|]|]; cbn [negb orb]; exact K.
Qed.
(** C92: the parallactic angle: the bearing of the zenith from the star *)
Theorem C92_palPa : forall e ha dec phi S t, atan2_acc L e -> trig_acc L u53 ->
  is_double ha -> is_double dec -> is_double phi -> Rabs ha <= 7 -> 1e-8 <= S -> bearing (- ha) dec 0 phi S t ->
  exists k : Z, Rabs (dpa ha dec phi - (t + IZR k * (2 * PI))) <= (1.42e-15 + 1.58e-16 * Rabs ha) / S + e.
Proof.
  intros e ha dec phi S t HA HT F1 F2 F3 Hr HS [B1 B2]. apply double_fmt in F1, F2, F3.
  assert (HB : bearing 0 dec ha phi S t).
  { unfold bearing, dot, dir, east, north in *. cbn [vx vy vz] in *. rewrite sin_neg, cos_neg, sin_0, cos_0 in *. split; [rewrite <- B1|rewrite <- B2]; ring. }
  assert (K := bear_core e 0 dec ha phi S t HA HT fmt0 F2 F1 F3 ltac:(now rewrite Rminus_0_r) HS HB). rewrite dpa_unf by easy. rewrite Rminus_0_r in K.
  destruct (s2tp_num L ha phi 0 dec) as [[y x] d]. destruct K as (NZ & K).
  destruct (Reqb_spec y 0) as [Ey|Ey]; [destruct (Reqb_spec x 0) as [Ex|Ex]; [tauto|]|]; cbn [andb]; exact K.
Qed.
End D.
(** Non-vacuity: the bearing of (2,1) from (1,1), whose separation has a sine of about a half *)
Example C92_eg : exists S t, bearing 1 1 2 1 S t /\ 0.4 <= S /\ exists k : Z, Rabs (dbear Lcr 1 1 2 1 - (t + IZR k * (2 * PI))) <= 4.3e-15.
Proof.
  destruct (eraPas_polar 1 1 2 1) as (S & PS & E1 & E2). exists S, (eraPas 1 1 2 1).
  assert (HN : 0.45 <= dot (dir 2 1) (east 1)) by (unfold dot, dir, east; cbn [vx vy vz]; interval).
  assert (HS : 0.45 <= S).
  { rewrite E1 in HN. assert (C := SIN_bound (eraPas 1 1 2 1)). assert (S * sinR (eraPas 1 1 2 1) <= S * 1) by (apply Rmult_le_compat_l; lra). lra. }
  split; [split; easy|]. split; [lra|].
  assert (A1 : Rabs (2 - 1) = 1) by (rewrite Rabs_pos_eq; lra).
  destruct (C92_palDbear Lcr 2.3e-16 1 1 2 1 S (eraPas 1 1 2 1) Lcr_atan2 Lcr_trig (small_double 1 ltac:(lia)) (small_double 1 ltac:(lia)) (small_double 2 ltac:(lia)) (small_double 1 ltac:(lia))
    ltac:(rewrite A1; lra) ltac:(lra) (conj E1 E2)) as (k & K). exists k. rewrite A1 in K.
  assert (IS : / S <= 2.3) by (apply (Rmult_le_reg_r S); [lra|]; rewrite Rinv_l; lra). unfold Rdiv in K. lra.
Qed.
