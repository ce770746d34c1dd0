(** * Theorems: spherical to Cartesian and back in double precision (C85) *)
From Coq Require Import Reals ZArith Lra Lia Psatz Bool.
From Flocq Require Import Core.
From Interval Require Import Tactic.
From Verif Require Import Num NumR NumD NumDE Geom Erfa M_Sphere P_Sphere Props_Dsep.
Local Open Scope R_scope.

Lemma nearest_turn : forall a t, exists k : Z, Rabs (t - (a + IZR k * (2 * PI))) <= PI.
Proof.
  intros a t. assert (P := PI_RGT_0). exists (Zfloor ((t - a + PI) / (2 * PI))).
  assert (A := Zfloor_lb ((t - a + PI) / (2 * PI))). assert (B := Zfloor_ub ((t - a + PI) / (2 * PI))).
  set (k := IZR (Zfloor _)) in *. clearbody k.
  apply Rmult_le_compat_r with (r := 2 * PI) in A; [|lra]. apply Rmult_lt_compat_r with (r := 2 * PI) in B; [|lra].
  replace ((t - a + PI) / (2 * PI) * (2 * PI)) with (t - a + PI) in A, B by (field; lra). apply Rabs_le. lra.
Qed.
Lemma atan2_right : forall y x, 0 <= x -> (y <> 0 \/ x <> 0) -> - (PI / 2) <= atan2R y x <= PI / 2.
Proof.
  intros y x Hx NZ. destruct (atan2_polar y x) as [E _]. assert (G := atan2_range y x). assert (P := PI_RGT_0).
  set (th := atan2R y x) in *. set (r := R_sqrt.sqrt (x * x + y * y)) in *.
  assert (RP : 0 < r) by (apply sqrt_lt_R0; destruct NZ; nra).
  assert (C : 0 <= cosR th) by nra. split.
  - destruct (Rle_or_lt (- (PI / 2)) th) as [|K]; [easy|exfalso].
    assert (cosR (- th) < 0) by (apply cos_lt_0; lra). rewrite cos_neg in H. lra.
  - destruct (Rle_or_lt th (PI / 2)) as [|K]; [easy|exfalso]. assert (cosR th < 0) by (apply cos_lt_0; lra). lra.
Qed.

Section D.
Variable L : Libm.
(** palDcs2c and palDcc2s run in double arithmetic *)
Definition dcs2c (a b : R) : vec R := @palDcs2c R (DA L) a b.
Definition dcc2s (v : vec R) : R * R := @palDcc2s R (DA L) v.
Definition fmtv (v : vec R) : Prop := fmt (vx v) /\ fmt (vy v) /\ fmt (vz v).

Definition dhyp (x y : R) : R := rd (R_sqrt.sqrt (rd (rd (x * x) + rd (y * y)))).
Lemma dhyp_err : forall x y, Rabs (dhyp x y - R_sqrt.sqrt (x * x + y * y)) <= 2.6 * u53 * R_sqrt.sqrt (x * x + y * y) + / 10 ^ 149.
Proof.
  intros x y. assert (K := dnorm_err (V x y 0)). unfold dnorm, norm, dot in K. cbn [vx vy vz] in K.
  rewrite !Rmult_0_l, rd_0, !Rplus_0_r in K. rewrite (rd_id (rd (rd (x * x) + rd (y * y)))) in K by apply fmt_rd. exact K.
Qed.
Lemma dcc2s_unf : forall v, dcc2s v =
  (if Reqb (rd (rd (vx v * vx v) + rd (vy v * vy v))) 0 then 0 else l_atan2 L (vy v) (vx v),
   if Reqb (vz v) 0 then 0 else l_atan2 L (vz v) (dhyp (vx v) (vy v))).
Proof.
  intros v. unfold dcc2s, palDcc2s, eraC2s. cbv zeta. dn. rewrite (rdZ 0) by (cbn; lia). reflexivity.
Qed.

(** a vector near the direction (a,b), of any length: its angles, with the rounding of the hypotenuse *)
Lemma near_core : forall v N a b d, / 10 ^ 65 <= N -> - (PI / 2) <= b <= PI / 2 ->
  norm (vsub (scale N (dir a b)) v) <= d * N -> d <= 9e-7 ->
  let h := dhyp (vx v) (vy v) in
  (vz v <> 0 \/ h <> 0) /\ 0 <= h /\ Rabs (atan2R (vz v) h - b) <= 1.0000001 * (d + 3.2e-16) /\
  (d <= 1e-6 * cosR b -> / 10 ^ 30 <= cosR b ->
   (vy v <> 0 \/ vx v <> 0) /\ rd (rd (vx v * vx v) + rd (vy v * vy v)) <> 0 /\ h <> 0 /\
   exists k : Z, Rabs (atan2R (vy v) (vx v) - (a + IZR k * (2 * PI))) <= 1.0000001 * (d / cosR b)).
Proof.
  intros v N a b d HN Hb H Hd h'.
  assert (P := PI_RGT_0). assert (N0 : 0 < N) by (assert (0 < / 10 ^ 65) by (apply Rinv_0_lt_compat; lra); lra).
  assert (Cb : 0 <= cosR b) by (apply cos_ge_0; lra).
  set (x := vx v) in *. set (y := vy v) in *. set (z := vz v) in *.
  set (h := R_sqrt.sqrt (x * x + y * y)).
  assert (h0 : 0 <= h) by apply sqrt_pos. assert (hh : h * h = x * x + y * y) by (apply sqrt_sqrt; nra).
  assert (d0 : 0 <= d) by (assert (K := norm_pos (vsub (scale N (dir a b)) v)); nra).
  set (X := N * (cosR a * cosR b) - x). set (Y := N * (sinR a * cosR b) - y). set (W := N * sinR b - z).
  assert (H2 : X * X + Y * Y + W * W <= d * N * (d * N)).
  { apply Rle_trans with (norm (vsub (scale N (dir a b)) v) * norm (vsub (scale N (dir a b)) v)).
    - rewrite norm_sq. right. unfold X, Y, W, dot, vsub, scale, dir. cbn [vx vy vz]. reflexivity.
    - assert (K := norm_pos (vsub (scale N (dir a b)) v)). apply Rmult_le_compat; easy. }
  assert (Ta := sin2_cos2 a). unfold Rsqr in Ta.
  (* the distance in the meridian plane *)
  assert (M : (N * cosR b - h) * (N * cosR b - h) <= X * X + Y * Y).
  { assert (E : X * X + Y * Y = N * cosR b * (N * cosR b) + h * h - 2 * (N * cosR b) * (cosR a * x + sinR a * y)).
    { rewrite hh. unfold X, Y. replace (N * cosR b * (N * cosR b)) with (N * cosR b * (N * cosR b) * (sinR a * sinR a + cosR a * cosR a)) by (rewrite Ta; ring). ring. }
    assert (G : cosR a * x + sinR a * y <= h).
    { apply Rsqr_incr_0_var; [|easy]. unfold Rsqr. rewrite hh.
      assert (0 <= (sinR a * x - cosR a * y) * (sinR a * x - cosR a * y)) by apply Rle_0_sqr.
      replace (x * x + y * y) with ((x * x + y * y) * (sinR a * sinR a + cosR a * cosR a)) by (rewrite Ta; ring). lra. }
    assert (0 <= N * cosR b) by nra. nra. }
  assert (hN : h <= 1.1 * N).
  { assert (B := COS_bound b). assert (N * cosR b <= N) by nra.
    assert (Rabs (N * cosR b - h) <= d * N).
    { rewrite <- (Rabs_pos_eq (d * N)) by nra. apply Rsqr_le_abs_0. unfold Rsqr. nra. }
    apply Rabs_le_inv in H1. nra. }
  assert (Eh := dhyp_err x y). fold h in Eh.
  fold x y in h'. fold h' in Eh. assert (h0' : 0 <= h') by (apply rd_nonneg, sqrt_pos).
  set (D := (d + 3.2e-16) * N).
    assert (M2 : (N * cosR b - h') * (N * cosR b - h') + (N * sinR b - z) * (N * sinR b - z) <= D * D).
    { set (q := 3.2e-16 * N). assert (Q : Rabs (h' - h) <= q).
      { assert (T : / 10 ^ 149 <= 1e-19 * / 10 ^ 65) by lra. unfold q, u53 in *. lra. }
      replace (N * cosR b - h') with (N * cosR b - h - (h' - h)) by ring. apply Rabs_le_inv in Q.
      assert (Q0 : 0 <= q) by (unfold q; lra).
      assert (DE : D = d * N + q) by (unfold D, q; ring). rewrite DE. fold W.
      set (A := N * cosR b - h) in *. set (B := h' - h) in *.
      assert (A1 : - (d * N) <= A <= d * N).
      { apply Rabs_le_inv. rewrite <- (Rabs_pos_eq (d * N)) by nra. apply Rsqr_le_abs_0. unfold Rsqr. nra. }
      assert (B * B <= q * q) by nra. assert (- (2 * A * B) <= 2 * (d * N) * q) by nra. nra. }
    assert (HD : 0 <= D <= 1e-6 * N) by (unfold D; split; nra).
    assert (NZ : z <> 0 \/ h' <> 0).
    { destruct (Req_dec z 0) as [->|]; [right|now left]. intros E0. rewrite E0 in M2. assert (T := sin2_cos2 b). unfold Rsqr in T.
      assert (K : N * N * (sinR b * sinR b + cosR b * cosR b) <= D * D) by lra. rewrite T in K. nra. }
    split; [exact NZ|]. split; [easy|]. split.
    { assert (G := atan2_right z h' h0' NZ). destruct (atan2_polar z h') as [Px Py].
    set (th := atan2R z h') in *. set (r' := R_sqrt.sqrt (h' * h' + z * z)) in *.
    assert (K := polar_pert N b r' th D N0 (sqrt_pos _) ltac:(apply Rabs_le; lra) HD).
    rewrite <- Px, <- Py in K. specialize (K M2). replace (D / N) with (d + 3.2e-16) in K by (unfold D; field; lra).
    exact K. }
    clear NZ. intros Hc Hc0. set (r := N * cosR b). assert (r0 : 0 < r) by (unfold r; apply Rmult_lt_0_compat; [easy|]; assert (0 < / 10 ^ 30) by (apply Rinv_0_lt_compat; lra); lra).
    assert (hp : 0.9 * r <= h).
    { assert (Rabs (N * cosR b - h) <= d * N).
      { rewrite <- (Rabs_pos_eq (d * N)) by nra. apply Rsqr_le_abs_0. unfold Rsqr. nra. }
      fold r in H0. apply Rabs_le_inv in H0. assert (d * N <= 1e-6 * r) by (unfold r; nra). lra. }
    assert (rb : / 10 ^ 95 <= r).
    { replace (/ 10 ^ 95) with (/ 10 ^ 65 * / 10 ^ 30) by (rewrite <- Rinv_mult; f_equal; lra).
      apply Rmult_le_compat; try easy; apply Rlt_le, Rinv_0_lt_compat; lra. }
    assert (NZ : y <> 0 \/ x <> 0).
    { destruct (Req_dec y 0) as [E0|]; [right|now left]. intros E1. rewrite E0, E1 in hh. nra. }
    assert (E0 : Reqb (rd (rd (x * x) + rd (y * y))) 0 = false).
    { destruct (Reqb_spec (rd (rd (x * x) + rd (y * y))) 0) as [E0|]; [exfalso|easy].
      unfold h', dhyp in Eh. rewrite E0, sqrt_0, rd_0 in Eh. rewrite Rminus_0_l, Rabs_Ropp, Rabs_pos_eq in Eh by easy.
      unfold u53 in Eh. assert (/ 10 ^ 149 <= 1e-3 * / 10 ^ 95) by lra. lra. }
    split; [exact NZ|]. split; [destruct (Reqb_spec (rd (rd (x * x) + rd (y * y))) 0); easy|].
    split. { intros Eh0. rewrite Eh0, Rminus_0_l, Rabs_Ropp, Rabs_pos_eq in Eh by easy.
      unfold u53 in Eh. assert (/ 10 ^ 149 <= 1e-3 * / 10 ^ 95) by lra. lra. }
    destruct (atan2_polar y x) as [Px Py]. set (th := atan2R y x) in *. fold h in Px, Py.
    destruct (nearest_turn a th) as [k Hk]. exists k. set (a0 := a + IZR k * (2 * PI)) in *.
    assert (CG : cong a0 a) by (exists k; reflexivity).
    assert (K := polar_pert r a0 h th (d * N) r0 h0 Hk ltac:(split; [nra|unfold r; nra])).
    rewrite <- Px, <- Py, (cong_cos _ _ CG), (cong_sin _ _ CG) in K.
    assert (K' : Rabs (th - a0) <= 1.0000001 * (d * N / r)).
    { apply K. unfold r. replace (N * cosR b * cosR a - x) with X by (unfold X; ring). replace (N * cosR b * sinR a - y) with Y by (unfold Y; ring).
      assert (0 <= W * W) by apply Rle_0_sqr. lra. }
    replace (d * N / r) with (d / cosR b) in K' by (unfold r; field; split; [assert (0 < / 10 ^ 30) by (apply Rinv_0_lt_compat; lra)|]; lra).
    exact K'.
Qed.

(** a double vector near the direction (a,b), of any length, gives back nearly (a,b) *)
Lemma dcc2s_near : forall e v N a b d, atan2_acc L e -> 0 <= e -> fmtv v -> / 10 ^ 65 <= N -> - (PI / 2) <= b <= PI / 2 ->
  norm (vsub (scale N (dir a b)) v) <= d * N -> d <= 9e-7 ->
  Rabs (snd (dcc2s v) - b) <= 1.0000001 * (d + 3.2e-16) + e /\
  (d <= 1e-6 * cosR b -> / 10 ^ 30 <= cosR b ->
   exists k : Z, Rabs (fst (dcc2s v) - (a + IZR k * (2 * PI))) <= 1.0000001 * (d / cosR b) + e).
Proof.
  intros e v N a b d HA He (Fx & Fy & Fz) HN Hb H Hd.
  destruct (near_core v N a b d HN Hb H Hd) as (NZ & h0' & K & M). rewrite dcc2s_unf. cbn [fst snd].
  set (h' := dhyp (vx v) (vy v)) in *. split.
  - assert (E1 : Rabs ((if Reqb (vz v) 0 then 0 else l_atan2 L (vz v) h') - atan2R (vz v) h') <= e).
    { destruct (Reqb_spec (vz v) 0) as [E0|E0].
      - assert (hp : 0 < h') by (destruct NZ; [tauto|lra]).
        assert (E1 : atan2R (vz v) h' = 0).
        { rewrite E0. unfold atan2R. destruct (Rlt_dec 0 h'); [|lra]. unfold Rdiv. rewrite Rmult_0_l. apply atan_0. }
        rewrite E1, Rminus_0_r, Rabs_R0. lra.
      - apply HA; [easy|apply fmt_rd|easy]. }
    apply Rabs_le_inv in K, E1. apply Rabs_le. lra.
  - intros Hc Hc0. destruct (M Hc Hc0) as (NZ' & D2 & _ & k & Hk). exists k.
    destruct (Reqb_spec (rd (rd (vx v * vx v) + rd (vy v * vy v))) 0) as [E0|_]; [tauto|].
    assert (AL := HA (vy v) (vx v) Fy Fx NZ'). apply Rabs_le_inv in Hk, AL. apply Rabs_le. lra.
Qed.

Definition trig_dbl : Prop := forall x, fmt x -> fmt (l_sin L x) /\ fmt (l_cos L x).

(** C85: the direction cosines are within 5e-16 of the exact ones *)
Theorem C85_palDcs2c : forall a b, trig_acc L u53 -> is_double a -> is_double b ->
  norm (vsub (dir a b) (dcs2c a b)) <= 5e-16.
Proof.
  intros a b HT Ha Hb. apply double_fmt in Ha, Hb. assert (K := ddir_err L HT a b Ha Hb).
  change (dcs2c a b) with (ddir L a b). unfold u53 in K. lra.
Qed.
(** From a vector of doubles of any length between 1e-65 and 1e65, the longitude is as good as atan2, and the latitude
    loses another 3.3e-16 *)
Theorem C85_palDcc2s : forall e v a b, atan2_acc L e -> 0 <= e -> fmtv v -> / 10 ^ 65 <= norm v <= 10 ^ 65 ->
  - (PI / 2) <= b <= PI / 2 -> v = scale (norm v) (dir a b) ->
  Rabs (snd (dcc2s v) - b) <= 3.3e-16 + e /\
  (/ 10 ^ 30 <= cosR b -> exists k : Z, Rabs (fst (dcc2s v) - (a + IZR k * (2 * PI))) <= e).
Proof.
  intros e v a b HA He HF HN Hb Hv.
  destruct (dcc2s_near e v (norm v) a b 0 HA He HF (proj1 HN) Hb) as [A B]; [|lra|].
  - rewrite <- Hv. replace (vsub v v) with vzero by vring. unfold norm, dot, vzero. cbn [vx vy vz].
    replace (0 * 0 + 0 * 0 + 0 * 0) with 0 by ring. rewrite sqrt_0. lra.
  - split; [lra|]. intros Hc. destruct B as [k Hk]; [|easy|].
    + assert (0 < / 10 ^ 30) by (apply Rinv_0_lt_compat; lra). lra.
    + exists k. unfold Rdiv in Hk. rewrite Rmult_0_l in Hk. lra.
Qed.
(** There and back: the latitude returns to 9e-16, the longitude to 5e-16 of arc on the sky *)
Theorem C85_roundtrip : forall e a b, atan2_acc L e -> 0 <= e -> trig_acc L u53 -> trig_dbl -> is_double a -> is_double b ->
  - (PI / 2) <= b <= PI / 2 ->
  Rabs (snd (dcc2s (dcs2c a b)) - b) <= 9e-16 + e /\
  (1e-9 <= cosR b -> exists k : Z, Rabs (fst (dcc2s (dcs2c a b)) - (a + IZR k * (2 * PI))) <= 5e-16 / cosR b + e).
Proof.
  intros e a b HA He HT HD Ha Hb HB. assert (Fa := double_fmt a Ha). assert (Fb := double_fmt b Hb).
  assert (K := ddir_err L HT a b Fa Fb). change (ddir L a b) with (dcs2c a b) in K. unfold u53 in K.
  destruct (dcc2s_near e (dcs2c a b) 1 a b 4.9e-16 HA He) as [A B]; [|lra|easy| |lra|].
  - repeat split; [apply fmt_rd|apply fmt_rd|]. now apply HD.
  - rewrite scale_1. lra.
  - split; [lra|]. intros Hc. destruct B as [k Hk]; [lra|lra|]. exists k.
    assert (1.0000001 * (4.9e-16 / cosR b) <= 5e-16 / cosR b); [|lra].
    unfold Rdiv. assert (0 < / cosR b) by (apply Rinv_0_lt_compat; lra). nra.
Qed.
End D.
Lemma Lcr_dbl : trig_dbl Lcr.
Proof. intros x _. split; apply fmt_rd. Qed.
(** Non-vacuity: with a correctly rounded libm the declination 1 radian comes back to a quarter of a nanoarcsecond *)
Example C85_eg : Rabs (snd (dcc2s Lcr (dcs2c Lcr 3 1)) - 1) <= 1.2e-15.
Proof.
  assert (D : forall n, (Z.abs n <= 4)%Z -> is_double (IZR n)).
  { intros n H. split; [apply FLT_format_generic; [now unfold Prec_gt_0|apply fmtZ; lia]|].
    apply Rlt_le_trans with (bpow radix2 3); [|apply bpow_le; lia]. rewrite <- abs_IZR. apply IZR_lt. cbn. lia. }
  assert (P := PI2_3_2).
  destruct (C85_roundtrip Lcr 2.3e-16 3 1 Lcr_atan2 ltac:(lra) Lcr_trig Lcr_dbl (D 3%Z ltac:(lia)) (D 1%Z ltac:(lia)) ltac:(lra)) as [A _]. lra.
Qed.
