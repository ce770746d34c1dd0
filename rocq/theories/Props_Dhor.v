(** * Theorems: hour angle/declination and azimuth/elevation in double precision (C86) *)
From Coq Require Import Reals ZArith Lra Lia Psatz Bool.
From Flocq Require Import Core.
From Interval Require Import Tactic.
From Verif Require Import Num NumR NumD NumDE Geom Erfa M_Sphere P_Sphere P_Horizon Props_Dangle Props_Dsep Props_Dsph.
Local Open Scope R_scope.

Lemma prod_e : forall p q x y x' y', 0 <= p <= 100 -> 0 <= q <= 100 -> Rabs x <= 1 -> Rabs y <= 1 ->
  Rabs (x' - x) <= p * u53 -> Rabs (y' - y) <= q * u53 -> Rabs (rd (x' * y') - x * y) <= (p + q + 1.001) * u53.
Proof.
  intros p q x y x' y' Hp Hq Hx Hy H1 H2. assert (E1 := eta_small). assert (E2 := eta_pos).
  assert (P : Rabs (x' * y' - x * y) <= (p + q + 1e-6) * u53).
  { replace (x' * y' - x * y) with ((x' - x) * (y' - y) + (x' - x) * y + x * (y' - y)) by ring.
    eapply Rle_trans; [apply Rabs_triang|]. eapply Rle_trans; [apply Rplus_le_compat_r, Rabs_triang|].
    rewrite !Rabs_mult. assert (A := Rabs_pos (x' - x)). assert (B := Rabs_pos (y' - y)). assert (C := Rabs_pos x). assert (D := Rabs_pos y).
    assert (M1 : Rabs (x' - x) * Rabs (y' - y) <= (100 * u53) * (100 * u53)).
    { apply Rmult_le_compat; try easy; unfold u53 in *; lra. }
    assert (M2 : Rabs (x' - x) * Rabs y <= p * u53 * 1) by (apply Rmult_le_compat; easy).
    assert (M3 : Rabs x * Rabs (y' - y) <= 1 * (q * u53)) by (apply Rmult_le_compat; easy).
    unfold u53 in *. lra. }
  assert (Q : Rabs (x * y) <= 1) by (rewrite Rabs_mult; assert (C := Rabs_pos x); assert (D := Rabs_pos y); nra).
  assert (W : Rabs (x' * y') <= 1.000001).
  { apply Rabs_le_inv in P, Q. apply Rabs_le. unfold u53 in *. lra. }
  assert (K := rde _ _ W). apply Rabs_le_inv in K, P. apply Rabs_le. unfold u53 in *. lra.
Qed.
Lemma sum_e : forall p q x y x' y', 0 <= p <= 100 -> 0 <= q <= 100 -> Rabs (x + y) <= 1 ->
  Rabs (x' - x) <= p * u53 -> Rabs (y' - y) <= q * u53 -> Rabs (rd (x' + y') - (x + y)) <= (p + q + 1.001) * u53.
Proof.
  intros p q x y x' y' Hp Hq Hx H1 H2. assert (E1 := eta_small). assert (E2 := eta_pos).
  apply Rabs_le_inv in Hx, H1, H2.
  assert (W : Rabs (x' + y') <= 1.000001) by (apply Rabs_le; unfold u53 in *; lra).
  assert (K := rde _ _ W). apply Rabs_le_inv in K. apply Rabs_le. unfold u53 in *. lra.
Qed.

(** components along north, east and up of a direction with hour angle ha and declination dec (or, equally, along the
    meridian, west and the pole of a direction of azimuth ha and elevation dec: the transformation is its own inverse) *)
Definition hvec (ha dec phi : R) : vec R :=
  let s := dir (- ha) dec in V (dot s (north 0 phi)) (dot s (east 0)) (dot s (dir 0 phi)).
Lemma hvec_val : forall ha dec phi, hvec ha dec phi =
  V (- cosR ha * cosR dec * sinR phi + sinR dec * cosR phi) (- sinR ha * cosR dec) (cosR ha * cosR dec * cosR phi + sinR dec * sinR phi).
Proof.
  intros. unfold hvec, dir, dot, north, east; cbn [vx vy vz]. rewrite sin_neg, cos_neg, sin_0, cos_0. f_equal; ring.
Qed.

Section D.
Variable L : Libm.
(** palDe2h and palDh2e run in double arithmetic *)
Definition de2h (ha dec phi : R) : R * R := @palDe2h R (DA L) ha dec phi.
Definition dh2e (az el phi : R) : R * R := @palDh2e R (DA L) az el phi.

Definition dhv (ha dec phi : R) : vec R :=
  let sh := l_sin L ha in let ch := l_cos L ha in let sd := l_sin L dec in let cd := l_cos L dec in
  let sp := l_sin L phi in let cp := l_cos L phi in
  V (rd (rd (rd (- ch * cd) * sp) + rd (sd * cp))) (rd (- sh * cd)) (rd (rd (rd (ch * cd) * cp) + rd (sd * sp))).
Lemma dh2e_unf : forall az el phi, dh2e az el phi =
  let v := dhv az el phi in let r := dhyp (vx v) (vy v) in
  (if Reqb r 0 then 0 else l_atan2 L (vy v) (vx v), l_atan2 L (vz v) r).
Proof. intros. unfold dh2e, palDh2e. cbv zeta. dn. rewrite (rdZ 0) by (cbn; lia). reflexivity. Qed.
Lemma de2h_unf : forall ha dec phi, de2h ha dec phi =
  let '(a, e) := dh2e ha dec phi in (if Rltb a 0 then rd (a + 2 * PI64) else a, e).
Proof. intros. rewrite dh2e_unf. unfold de2h, palDe2h. rewrite D2PI_D. cbv zeta. dn. rewrite !(rdZ 0) by (cbn; lia). reflexivity. Qed.

Lemma dhv_err : trig_acc L u53 -> forall ha dec phi, fmt ha -> fmt dec -> fmt phi ->
  norm (vsub (hvec ha dec phi) (dhv ha dec phi)) <= 1.46e-15.
Proof.
  intros HT ha dec phi F1 F2 F3. rewrite hvec_val.
  assert (B : forall x, Rabs (sinR x) <= 1 /\ Rabs (cosR x) <= 1).
  { intros x. split; apply Rabs_le; [apply SIN_bound|apply COS_bound]. }
  assert (T : forall x, fmt x -> Rabs (l_sin L x - sinR x) <= 1 * u53 /\ Rabs (l_cos L x - cosR x) <= 1 * u53).
  { intros x Fx. rewrite Rmult_1_l. now apply HT. }
  destruct (T ha F1) as [Sh Ch]. destruct (T dec F2) as [Sd Cd]. destruct (T phi F3) as [Sp Cp].
  destruct (B ha) as [bsh bch]. destruct (B dec) as [bsd bcd]. destruct (B phi) as [bsp bcp].
  assert (N : forall x x', Rabs (x' - x) <= 1 * u53 -> Rabs (- x' - - x) <= 1 * u53).
  { intros x x' H. replace (- x' - - x) with (- (x' - x)) by ring. now rewrite Rabs_Ropp. }
  assert (NB : forall x, Rabs x <= 1 -> Rabs (- x) <= 1) by (intros; now rewrite Rabs_Ropp).
  assert (PB : forall x y, Rabs x <= 1 -> Rabs y <= 1 -> Rabs (x * y) <= 1).
  { intros x y H1 H2. rewrite Rabs_mult. assert (U := Rabs_pos x). assert (V := Rabs_pos y). nra. }
  assert (Tp := sin2_cos2 phi). assert (Td := sin2_cos2 dec). assert (Th := sin2_cos2 ha). unfold Rsqr in *.
  assert (SB : forall p q c s, Rabs p <= 1 -> p * p + q * q <= 1 -> s * s + c * c = 1 -> Rabs (p * s + q * c) <= 1).
  { intros p q c s _ H1 H2. rewrite <- (Rabs_R1). apply Rsqr_le_abs_0. unfold Rsqr.
    assert (0 <= (p * c - q * s) * (p * c - q * s)) by apply Rle_0_sqr.
    assert ((p * s + q * c) * (p * s + q * c) + (p * c - q * s) * (p * c - q * s) = (p * p + q * q) * (s * s + c * c)) by ring.
    rewrite H2 in H0. lra. }
  assert (Q : cosR ha * cosR dec * (cosR ha * cosR dec) + sinR dec * sinR dec <= 1).
  { assert (0 <= cosR dec * cosR dec) by apply Rle_0_sqr. assert (cosR ha * cosR ha <= 1) by nra. nra. }
  (* x *)
  assert (X1 := prod_e 1 1 _ _ _ _ ltac:(lra) ltac:(lra) (NB _ bch) bcd (N _ _ Ch) Cd).
  assert (X2 := prod_e (1 + 1 + 1.001) 1 _ _ _ _ ltac:(lra) ltac:(lra) (PB _ _ (NB _ bch) bcd) bsp X1 Sp).
  assert (X3 := prod_e 1 1 _ _ _ _ ltac:(lra) ltac:(lra) bsd bcp Sd Cp).
  assert (X4 := sum_e (1 + 1 + 1.001 + 1 + 1.001) (1 + 1 + 1.001) _ _ _ _ ltac:(lra) ltac:(lra)
     (SB (- cosR ha * cosR dec) (sinR dec) (cosR phi) (sinR phi) (PB _ _ (NB _ bch) bcd) ltac:(lra) Tp) X2 X3).
  (* y *)
  assert (Y1 := prod_e 1 1 _ _ _ _ ltac:(lra) ltac:(lra) (NB _ bsh) bcd (N _ _ Sh) Cd).
  (* z *)
  assert (Z1 := prod_e 1 1 _ _ _ _ ltac:(lra) ltac:(lra) bch bcd Ch Cd).
  assert (Z2 := prod_e (1 + 1 + 1.001) 1 _ _ _ _ ltac:(lra) ltac:(lra) (PB _ _ bch bcd) bcp Z1 Cp).
  assert (Z3 := prod_e 1 1 _ _ _ _ ltac:(lra) ltac:(lra) bsd bsp Sd Sp).
  assert (Z4 := sum_e (1 + 1 + 1.001 + 1 + 1.001) (1 + 1 + 1.001) _ _ _ _ ltac:(lra) ltac:(lra)
     (SB (cosR ha * cosR dec) (sinR dec) (sinR phi) (cosR phi) (PB _ _ bch bcd) ltac:(lra) ltac:(lra)) Z2 Z3).
  apply Rsqr_incr_0_var; [|lra]. unfold Rsqr. rewrite norm_sq. unfold dot, vsub, dhv; cbn [vx vy vz].
  apply Rabs_le_inv in X4, Y1, Z4.
  assert (QQ : forall u v, - v <= u <= v -> u * u <= v * v) by (intros; nra).
  assert (Q1 := QQ _ _ X4). assert (Q2 := QQ _ _ Y1). assert (Q3 := QQ _ _ Z4). unfold u53 in *. lra.
Qed.

(** C86: for all double arguments, palDh2e is right to 2e-15 in declination and, on the sky, 1.5e-15 in hour angle, and palDe2h
    likewise in elevation and azimuth, the azimuth being in [0,2pi) *)
Lemma dh2e_near : forall e az el phi d H D, atan2_acc L e -> 0 <= e -> 0 <= d -> d <= 1e-7 ->
  norm (vsub (dir H D) (dhv az el phi)) <= d -> - (PI / 2) <= D <= PI / 2 ->
  Rabs (snd (dh2e az el phi) - D) <= 1.0000001 * (d + 3.2e-16) + e /\
  (d <= 1e-6 * cosR D -> / 10 ^ 30 <= cosR D ->
    exists k : Z, Rabs (fst (dh2e az el phi) - (H + IZR k * (2 * PI))) <= 1.0000001 * (d / cosR D) + e).
Proof.
  intros e az el phi d H D HA He Hd Hd2 HN HD. rewrite dh2e_unf. cbv zeta. cbn [fst snd].
  destruct (near_core (dhv az el phi) 1 H D d) as (NZ & h0 & K & M); [lra|easy|rewrite scale_1; lra|lra|].
  assert (F1 : fmt (vx (dhv az el phi))) by apply fmt_rd. assert (F2 : fmt (vy (dhv az el phi))) by apply fmt_rd.
  assert (F3 : fmt (vz (dhv az el phi))) by apply fmt_rd.
  set (v := dhv az el phi) in *. set (h := dhyp (vx v) (vy v)) in *. split.
  - assert (A := HA (vz v) h F3 (fmt_rd _) NZ). apply Rabs_le_inv in A, K. apply Rabs_le. lra.
  - intros C1 C2. destruct (M C1 C2) as (NZ' & _ & Hh & k & Hk). exists k.
    destruct (Reqb_spec h 0) as [E|_]; [tauto|].
    assert (A := HA (vy v) (vx v) F2 F1 NZ'). apply Rabs_le_inv in A, Hk. apply Rabs_le. lra.
Qed.
Theorem C86_palDh2e : forall e az el phi H D, atan2_acc L e -> 0 <= e -> trig_acc L u53 ->
  is_double az -> is_double el -> is_double phi ->
  - (PI / 2) <= D <= PI / 2 -> dir H D = hvec az el phi ->
  Rabs (snd (dh2e az el phi) - D) <= 1.8e-15 + e /\
  (1e-8 <= cosR D -> exists k : Z, Rabs (fst (dh2e az el phi) - (H + IZR k * (2 * PI))) <= 1.5e-15 / cosR D + e).
Proof.
  intros e az el phi H D HA He HT F1 F2 F3 HD HV. apply double_fmt in F1, F2, F3.
  assert (K := dhv_err HT az el phi F1 F2 F3). rewrite <- HV in K.
  destruct (dh2e_near e az el phi 1.46e-15 H D HA He ltac:(lra) ltac:(lra) K HD) as [A B]. split; [lra|].
  intros C. destruct B as [k Hk]; [lra|lra|]. exists k.
  assert (1.0000001 * (1.46e-15 / cosR D) <= 1.5e-15 / cosR D); [|lra].
  unfold Rdiv. assert (0 < / cosR D) by (apply Rinv_0_lt_compat; lra). nra.
Qed.
(** adding the double 2 pi to a negative angle *)
Lemma wrap : forall a, - 4 <= a -> a <= 4 -> fmt a -> let a' := if Rltb a 0 then rd (a + 2 * PI64) else a in
  0 <= a' < 2 * PI /\ fmt a' /\ exists k : Z, Rabs (a' - (a + IZR k * (2 * PI))) <= 7e-16.
Proof.
  intros a H1 H2 F a'. unfold a'. assert (P := PI64_close). assert (Q := PI64_pos).
  destruct (Rltb_spec a 0) as [N|N].
  - split; [|split; [apply fmt_rd|]].
    + assert (0 <= rd (a + 2 * PI64)) by (apply rd_nonneg; lra).
      assert (rd (a + 2 * PI64) <= 2 * PI64) by (apply rd_le; [apply D2PI64_fmt|lra]). lra.
    + exists 1%Z. assert (K := rd_abs_err (a + 2 * PI64) 3 ltac:(lia)).
      change (bpow radix2 (3 - 54)) with (/ 2251799813685248) in K. change (bpow radix2 3) with 8 in K.
      assert (K2 : Rabs (rd (a + 2 * PI64) - (a + 2 * PI64)) <= / 2251799813685248) by (apply K; apply Rabs_le; lra).
      apply Rabs_le_inv in K2. apply Rabs_le. lra.
  - split; [lra|split; [easy|]]. exists 0%Z. replace (a - (a + 0 * (2 * PI))) with 0 by ring. rewrite Rabs_R0. lra.
Qed.
Definition atan2_dbl : Prop := forall y x, fmt y -> fmt x -> fmt (l_atan2 L y x).
Theorem C86_palDe2h : forall e ha dec phi A E, atan2_acc L e -> 0 <= e <= 0.5 -> atan2_dbl -> trig_acc L u53 ->
  is_double ha -> is_double dec -> is_double phi ->
  - (PI / 2) <= E <= PI / 2 -> dir A E = hvec ha dec phi ->
  0 <= fst (de2h ha dec phi) < 2 * PI /\ Rabs (snd (de2h ha dec phi) - E) <= 1.8e-15 + e /\
  (1e-8 <= cosR E -> exists k : Z, Rabs (fst (de2h ha dec phi) - (A + IZR k * (2 * PI))) <= 1.5e-15 / cosR E + 7e-16 + e).
Proof.
  intros e ha dec phi A E HA He HF HT F1 F2 F3 HE HV.
  destruct (C86_palDh2e e ha dec phi A E HA ltac:(lra) HT F1 F2 F3 HE HV) as [K1 K2]. rewrite de2h_unf.
  assert (G : fmt (fst (dh2e ha dec phi)) /\ -4 <= fst (dh2e ha dec phi) <= 4).
  { rewrite dh2e_unf. cbv zeta. cbn [fst]. set (v := dhv ha dec phi).
    assert (X1 : fmt (vx v)) by apply fmt_rd. assert (X2 : fmt (vy v)) by apply fmt_rd.
    destruct (Reqb_spec (dhyp (vx v) (vy v)) 0) as [|N]; [split; [apply fmt0|lra]|].
    split; [now apply HF|].
    assert (NZ : vy v <> 0 \/ vx v <> 0).
    { destruct (Req_dec (vy v) 0) as [Y0|]; [right|now left]. intros X0. apply N. rewrite X0, Y0.
      unfold dhyp. rewrite !Rmult_0_l, rd_0, Rplus_0_r, rd_0, sqrt_0. apply rd_0. }
    assert (K := HA _ _ X2 X1 NZ). assert (R0 := atan2_range (vy v) (vx v)). apply Rabs_le_inv in K.
    assert (P : 3 < PI < 3.2) by (split; interval). lra. }
  destruct (dh2e ha dec phi) as [a el]. cbn [fst snd] in *.
  destruct (wrap a (proj1 (proj2 G)) (proj2 (proj2 G)) (proj1 G)) as (R0 & _ & k & Hk).
  set (a' := if Rltb a 0 then rd (a + 2 * PI64) else a) in *.
  split; [exact R0|]. split; [exact K1|]. intros C. destruct (K2 C) as [j Hj]. exists (k + j)%Z. rewrite plus_IZR.
  apply Rabs_le_inv in Hk, Hj. apply Rabs_le. lra.
Qed.

(** ** There and back *)
Lemma half_chord : forall x, 2 - 2 * cosR x <= x * x.
Proof.
  intros x. replace x with (2 * (x / 2)) at 1 by field. rewrite cos_2a_sin.
  assert (K : Rabs (sinR (x / 2)) <= Rabs (x / 2)).
  { destruct (Rle_or_lt 0 (x / 2)) as [H|H].
    - rewrite (Rabs_pos_eq (x / 2)) by easy. apply Rabs_le. assert (C := SIN_bound (x / 2)).
      destruct (Rle_or_lt (x / 2) 1) as [H1|H1]; [|lra].
      split; [|destruct H as [H|H]; [apply Rlt_le, sin_lt_x; easy|rewrite <- H, sin_0; lra]].
      assert (0 <= sinR (x / 2)) by (apply sin_ge_0; [easy|assert (P := PI2_3_2); lra]). lra.
    - set (y := - (x / 2)). assert (Y : 0 < y) by (unfold y; lra). replace (x / 2) with (- y) by (unfold y; ring).
      rewrite sin_neg, !Rabs_Ropp, (Rabs_pos_eq y) by lra. apply Rabs_le. assert (C := SIN_bound y). assert (S := sin_lt_x y Y).
      destruct (Rle_or_lt y 1) as [H1|H1]; [|lra].
      assert (0 <= sinR y) by (apply sin_ge_0; [lra|assert (P := PI2_3_2); lra]). lra. }
  assert (Q : sinR (x / 2) * sinR (x / 2) <= x / 2 * (x / 2)) by (apply Rsqr_le_abs_1 in K; exact K). lra.
Qed.
Lemma dir_chord : forall a b a' b', 0 <= cosR b -> 0 <= cosR b' ->
  norm (vsub (dir a b) (dir a' b')) * norm (vsub (dir a b) (dir a' b')) <= (b' - b) * (b' - b) + cosR b * cosR b' * ((a' - a) * (a' - a)).
Proof.
  intros a b a' b' H H'. rewrite norm_sq.
  assert (E : dot (vsub (dir a b) (dir a' b')) (vsub (dir a b) (dir a' b')) = 2 - 2 * cosR (b' - b) + cosR b * cosR b' * (2 - 2 * cosR (a' - a))).
  { rewrite !cos_minus. assert (A := dir_unit a b). assert (B := dir_unit a' b'). unfold unitv in *.
    transitivity (dot (dir a b) (dir a b) + dot (dir a' b') (dir a' b') - 2 * dot (dir a b) (dir a' b')); [vring|].
    rewrite A, B. unfold dot, dir. cbn [vx vy vz]. ring. }
  rewrite E. apply Rplus_le_compat; [apply half_chord|]. apply Rmult_le_compat_l; [nra|apply half_chord].
Qed.
Lemma hvec_hmat : forall ha dec phi, hvec ha dec phi = mapp (hmat phi) (dir ha dec).
Proof. intros. rewrite hvec_val. unfold hmat, mapp, dir, dot. cbn [vx vy vz m0 m1 m2]. f_equal; ring. Qed.
Theorem C86_roundtrip : forall e ha dec phi A E, atan2_acc L e -> 0 <= e <= 1e-15 -> atan2_dbl -> trig_acc L u53 ->
  is_double ha -> is_double dec -> is_double phi -> - (PI / 2) <= dec <= PI / 2 ->
  - (PI / 2) <= E <= PI / 2 -> dir A E = hvec ha dec phi -> 1e-8 <= cosR E ->
  let o := de2h ha dec phi in let i := dh2e (fst o) (snd o) phi in
  Rabs (snd i - dec) <= 7.2e-15 /\
  (1e-8 <= cosR dec -> exists k : Z, Rabs (fst i - (ha + IZR k * (2 * PI))) <= 5.8e-15 / cosR dec + e).
Proof.
  intros e ha dec phi A E HA He HF HT F1 F2 F3 Hdec HE HV CE o i.
  destruct (C86_palDe2h e ha dec phi A E HA ltac:(lra) HF HT F1 F2 F3 HE HV) as (R0 & K1 & K2). destruct (K2 CE) as [k Hk]. clear K2.
  fold o in R0, K1, Hk.
  assert (Fo : fmt (fst o) /\ fmt (snd o)).
  { unfold o. rewrite de2h_unf, dh2e_unf. cbv zeta. cbn [fst snd]. split; [|apply HF; apply fmt_rd].
    destruct (Reqb (dhyp (vx (dhv ha dec phi)) (vy (dhv ha dec phi))) 0).
    - destruct Rltb; [apply fmt_rd|apply fmt0].
    - destruct Rltb; [apply fmt_rd|apply HF; apply fmt_rd]. }
  set (a' := fst o) in *. set (e' := snd o) in *. set (A0 := A + IZR k * (2 * PI)) in *.
  assert (CA : dir A0 E = dir A E) by (apply dir_cong; [exists k; reflexivity|apply cong_refl]).
  (* how far the computed horizon direction is from the exact one *)
  assert (P : 3 < PI < 3.2) by (split; interval).
  apply Rabs_le_inv in K1, Hk.
  assert (cc : cosR e' <= cosR E + 3e-15 /\ cosR E - 3e-15 <= cosR e').
  { assert (H := half_chord (e' - E)). assert (G : Rabs (cosR e' - cosR E) <= Rabs (e' - E)).
    { apply Rsqr_le_abs_0. unfold Rsqr. rewrite cos_minus in H. assert (T1 := sin2_cos2 e'). assert (T2 := sin2_cos2 E). unfold Rsqr in T1, T2.
      assert (0 <= (sinR e' - sinR E) * (sinR e' - sinR E)) by apply Rle_0_sqr. lra. }
    assert (G2 : Rabs (e' - E) <= 3e-15) by (apply Rabs_le; lra). assert (G3 : Rabs (cosR e' - cosR E) <= 3e-15) by lra. apply Rabs_le_inv in G3. lra. }
  assert (C := dir_chord A0 E a' e' ltac:(lra) ltac:(lra)). rewrite CA in C.
  assert (N : norm (vsub (dir A E) (dir a' e')) <= 4.3e-15).
  { apply Rsqr_incr_0_var; [|lra]. unfold Rsqr. eapply Rle_trans; [exact C|].
    assert (B : - 3.2e-15 <= cosR E * (a' - A0) <= 3.2e-15).
    { assert (CB := COS_bound E). assert (Q : 1.5e-15 / cosR E * cosR E = 1.5e-15) by (field; lra).
      assert (M1 := Rmult_le_compat_l (cosR E) _ _ ltac:(lra) (proj1 Hk)). assert (M2 := Rmult_le_compat_l (cosR E) _ _ ltac:(lra) (proj2 Hk)).
      assert (M3 : cosR E * e <= 1e-15) by (apply Rle_trans with (1 * e); [apply Rmult_le_compat_r; lra|lra]).
      split; lra. }
    assert (B2 : cosR E * cosR E * ((a' - A0) * (a' - A0)) <= 3.2e-15 * 3.2e-15).
    { replace (cosR E * cosR E * ((a' - A0) * (a' - A0))) with ((cosR E * (a' - A0)) * (cosR E * (a' - A0))) by ring. nra. }
    assert (B3 : cosR E * cosR e' * ((a' - A0) * (a' - A0)) <= 1.000001 * (cosR E * cosR E * ((a' - A0) * (a' - A0)))).
    { replace (1.000001 * (cosR E * cosR E * ((a' - A0) * (a' - A0)))) with (cosR E * (1.000001 * cosR E) * ((a' - A0) * (a' - A0))) by ring.
      apply Rmult_le_compat_r; [apply Rle_0_sqr|]. apply Rmult_le_compat_l; lra. }
    assert (B4 : (e' - E) * (e' - E) <= 2.8e-15 * 2.8e-15).
    { assert (QQ : forall u v, - v <= u <= v -> u * u <= v * v) by (intros; nra). apply QQ. lra. }
    lra. }
  (* back *)
  assert (HB : hvec A E phi = dir ha dec) by (rewrite hvec_hmat, HV, hvec_hmat; apply hmat_inv).
  assert (D2 := dhv_err HT a' e' phi (proj1 Fo) (proj2 Fo) (double_fmt _ F3)).
  assert (D1 : norm (vsub (dir ha dec) (hvec a' e' phi)) <= 4.3e-15).
  { rewrite <- HB, !hvec_hmat.
    assert (EQ : vsub (mapp (hmat phi) (dir A E)) (mapp (hmat phi) (dir a' e')) = mapp (hmat phi) (vsub (dir A E) (dir a' e'))) by vring.
    rewrite EQ. unfold norm at 1. rewrite rot_dot by apply hmat_rot. exact N. }
  assert (D := vsub_tri (dir ha dec) (hvec a' e' phi) (dhv a' e' phi)).
  destruct (dh2e_near e a' e' phi 5.76e-15 ha dec HA ltac:(lra) ltac:(lra) ltac:(lra) ltac:(lra) Hdec) as [X Y]. fold i in X, Y.
  split; [lra|]. intros CD. destruct Y as [j Hj]; [lra|lra|]. exists j.
  assert (1.0000001 * (5.76e-15 / cosR dec) <= 5.8e-15 / cosR dec); [|lra].
  unfold Rdiv. assert (0 < / cosR dec) by (apply Rinv_0_lt_compat; lra). nra.
Qed.
End D.
Lemma Lcr_atan2_dbl : atan2_dbl Lcr. Proof. intros y x _ _. apply fmt_rd. Qed.
(** Non-vacuity: a star of declination 1 radian at latitude 1, two hours west or so, with a correctly rounded libm *)
Example C86_eg : exists A E, - (PI / 2) <= E <= PI / 2 /\ dir A E = hvec 1 1 1 /\ 1e-8 <= cosR E /\
  Rabs (snd (de2h Lcr 1 1 1) - E) <= 2.1e-15 /\
  Rabs (snd (dh2e Lcr (fst (de2h Lcr 1 1 1)) (snd (de2h Lcr 1 1 1)) 1) - 1) <= 7.2e-15.
Proof.
  assert (D : is_double 1).
  { split; [apply FLT_format_generic; [now unfold Prec_gt_0|apply (fmtZ 1); cbn; lia]|].
    rewrite Rabs_R1. change 1 with (bpow radix2 0). apply bpow_lt. lia. }
  exists (fst (palDe2h 1 1 1)), (snd (palDe2h 1 1 1)).
  assert (HV : dir (fst (palDe2h 1 1 1)) (snd (palDe2h 1 1 1)) = hvec 1 1 1) by (rewrite hvec_hmat; apply palDe2h_dir).
  assert (HE := proj2 (palDe2h_range 1 1 1)).
  assert (CE : 1e-8 <= cosR (snd (palDe2h 1 1 1))).
  { assert (Z1 : sinR (snd (palDe2h 1 1 1)) = vz (hvec 1 1 1)) by (rewrite <- HV; reflexivity).
    assert (C0 : 0 <= cosR (snd (palDe2h 1 1 1))) by (apply cos_ge_0; lra).
    assert (T := sin2_cos2 (snd (palDe2h 1 1 1))). unfold Rsqr in T. rewrite Z1 in T. rewrite hvec_val in T. cbn [vz] in T.
    assert (U : cosR 1 * cosR 1 * cosR 1 + sinR 1 * sinR 1 <= 0.9) by interval.
    assert (U2 : 0 <= cosR 1 * cosR 1 * cosR 1 + sinR 1 * sinR 1) by interval.
    set (w := cosR 1 * cosR 1 * cosR 1 + sinR 1 * sinR 1) in *. set (c := cosR (snd (palDe2h 1 1 1))) in *. clearbody w c. nra. }
  assert (P := PI2_3_2).
  split; [exact HE|]. split; [exact HV|]. split; [exact CE|]. split.
  - destruct (C86_palDe2h Lcr 2.3e-16 1 1 1 _ _ Lcr_atan2 ltac:(lra) Lcr_atan2_dbl Lcr_trig D D D HE HV) as (_ & K & _). lra.
  - destruct (C86_roundtrip Lcr 2.3e-16 1 1 1 _ _ Lcr_atan2 ltac:(lra) Lcr_atan2_dbl Lcr_trig D D D ltac:(lra) HE HV CE) as [K _]. exact K.
Qed.
