(** * Theorems: vector and matrix operations in double precision (C90) *)
From Coq Require Import Reals ZArith Lra Lia Psatz Bool List String Ascii.
From Flocq Require Import Core.
From Verif Require Import Num NumR NumD NumDE Geom Erfa M_Sphere P_Sphere P_Frames P_Tangent Props_Dsep Props_Dsph Props_Dgal Props_Deul.
Local Open Scope R_scope.

(** a magnitude at which neither the squares nor the products overflow or underflow *)
Definition moderate (x : R) : Prop := / 10 ^ 125 <= x <= 10 ^ 125.
Lemma mod_eta : forall a b, moderate a -> moderate b -> eta <= / 10 ^ 40 * (a * b).
Proof.
  intros a b [A _] [B _]. assert (E := eta_small). assert (T : 0 < / 10 ^ 125) by (apply Rinv_0_lt_compat; lra).
  assert (K : / 10 ^ 125 * / 10 ^ 125 <= a * b) by (apply Rmult_le_compat; lra).
  assert (K2 : / 10 ^ 300 <= / 10 ^ 40 * (/ 10 ^ 125 * / 10 ^ 125)) by lra.
  assert (/ 10 ^ 40 * (/ 10 ^ 125 * / 10 ^ 125) <= / 10 ^ 40 * (a * b)) by (apply Rmult_le_compat_l; lra). lra.
Qed.
Lemma norm_comp_le : forall a b : vec R, Rabs (vx a) <= Rabs (vx b) -> Rabs (vy a) <= Rabs (vy b) -> Rabs (vz a) <= Rabs (vz b) -> norm a <= norm b.
Proof.
  intros a b H1 H2 H3. apply Rsqr_incr_0_var; [|apply norm_pos]. unfold Rsqr. rewrite !norm_sq. unfold dot.
  assert (Q : forall x y, Rabs x <= Rabs y -> x * x <= y * y) by (intros x y H; apply Rsqr_le_abs_1 in H; exact H).
  apply Q in H1, H2, H3. lra.
Qed.
Lemma norm_rel : forall (a b : vec R) k e, 0 <= k -> 0 <= e -> Rabs (vx a) <= k * Rabs (vx b) + e -> Rabs (vy a) <= k * Rabs (vy b) + e ->
  Rabs (vz a) <= k * Rabs (vz b) + e -> norm a <= k * norm b + 1.75 * e.
Proof.
  intros a b k e Hk He H1 H2 H3. set (B := V (k * Rabs (vx b)) (k * Rabs (vy b)) (k * Rabs (vz b))). set (E := V (- e) (- e) (- e)).
  assert (P : forall x, 0 <= k * Rabs x) by (intros; apply Rmult_le_pos; [easy|apply Rabs_pos]).
  assert (K1 : norm a <= norm (vsub B E)).
  { apply norm_comp_le; unfold vsub, B, E; cbn [vx vy vz].
    - rewrite (Rabs_pos_eq (k * Rabs (vx b) - - e)) by (specialize (P (vx b)); lra). lra.
    - rewrite (Rabs_pos_eq (k * Rabs (vy b) - - e)) by (specialize (P (vy b)); lra). lra.
    - rewrite (Rabs_pos_eq (k * Rabs (vz b) - - e)) by (specialize (P (vz b)); lra). lra. }
  assert (K2 := vsub_tri B vzero E).
  replace (vsub B vzero) with B in K2 by (unfold B, vzero; vring).
  assert (K3 : norm B = k * norm b).
  { replace (norm B) with (norm (V (k * vx b) (k * vy b) (k * vz b))).
    - unfold norm. replace (dot (V (k * vx b) (k * vy b) (k * vz b)) (V (k * vx b) (k * vy b) (k * vz b))) with (k * k * dot b b) by (unfold dot; cbn [vx vy vz]; ring).
      rewrite sqrt_mult_alt by nra. now rewrite sqrt_square.
    - unfold norm, B, dot; cbn [vx vy vz]. f_equal.
      assert (Q : forall x, k * Rabs x * (k * Rabs x) = k * x * (k * x)).
      { intros x. replace (k * Rabs x * (k * Rabs x)) with (k * k * (Rabs x * Rabs x)) by ring.
        rewrite <- Rabs_mult, (Rabs_pos_eq (x * x)) by (apply Rle_0_sqr). ring. }
      now rewrite !Q. }
  assert (K4 : norm (vsub vzero E) <= 1.75 * e).
  { apply norm_le_comps; unfold vsub, E, vzero; cbn [vx vy vz]; rewrite Rabs_pos_eq; lra. }
  lra.
Qed.

Section D.
Variable L : Libm.
(** the PAL functions run in double arithmetic *)
Definition dvdv (a b : vec R) : R := @palDvdv R (DA L) a b.
Definition dvxv (a b : vec R) : vec R := @palDvxv R (DA L) a b.
Definition dvn (v : vec R) : vec R * R := @palDvn R (DA L) v.
Definition dmxv (m : mat R) (v : vec R) : vec R := @palDmxv R (DA L) m v.
Definition dimxv (m : mat R) (v : vec R) : vec R := @palDimxv R (DA L) m v.
Definition dmxm (a b : mat R) : mat R := @palDmxm R (DA L) a b.

Lemma dmxv_unf : forall m v, dmxv m v = dapp m v.
Proof. intros. unfold dmxv, palDmxv, eraRxp, row_dot, dapp, drow. dn. now rewrite !(rdZ 0) by (cbn; lia). Qed.
Lemma dimxv_unf : forall m v, dimxv m v = dapp (mtr m) v.
Proof. intros. unfold dimxv, palDimxv, eraTrxp. change (@eraTr R m) with (mtr m). exact (dmxv_unf (mtr m) v). Qed.

(** C90: scalar product, vector product *)
Theorem C90_palDvdv : forall a b, moderate (norm a) -> moderate (norm b) -> Rabs (dvdv a b - dot a b) <= 3.4e-16 * (norm a * norm b).
Proof.
  intros a b Ma Mb. assert (K := ddot_err a b). assert (E := mod_eta _ _ Ma Mb). assert (P := Rmult_le_pos _ _ (norm_pos a) (norm_pos b)).
  change (dvdv a b) with (ddot a b). unfold u53 in *. lra.
Qed.
Theorem C90_palDvxv : forall a b, moderate (norm a) -> moderate (norm b) -> norm (vsub (dvxv a b) (cross a b)) <= 4e-16 * (norm a * norm b).
Proof.
  intros a b Ma Mb. assert (K := dcross_err a b). assert (E := mod_eta _ _ Ma Mb). assert (P := Rmult_le_pos _ _ (norm_pos a) (norm_pos b)).
  change (dvxv a b) with (dcross a b). unfold u53 in *. lra.
Qed.
(** antisymmetry, and the product of a vector with itself, are exact *)
Theorem C90_palDvxv_exact : forall a b, dvxv b a = scale (-1) (dvxv a b) /\ dvxv a a = vzero.
Proof.
  intros a b. split.
  - change (dcross b a = scale (-1) (dcross a b)). unfold dcross, scale; cbn [vx vy vz].
    assert (Q : forall p q r s, rd (rd (p * q) - rd (r * s)) = -1 * rd (rd (s * r) - rd (q * p))).
    { intros p q r s. rewrite (Rmult_comm p q), (Rmult_comm r s). replace (rd (q * p) - rd (s * r)) with (- (rd (s * r) - rd (q * p))) by ring.
      rewrite rd_opp. ring. }
    f_equal; apply Q.
  - change (dcross a a = vzero). unfold dcross, vzero; cbn [vx vy vz].
    assert (Q : forall p q, rd (rd (p * q) - rd (q * p)) = 0) by (intros p q; rewrite (Rmult_comm p q); replace (rd (q * p) - rd (q * p)) with 0 by ring; apply rd_id, fmt0).
    now rewrite !Q.
Qed.
(** C90: modulus and unit vector *)
Theorem C90_palDvn : forall v, moderate (norm v) -> let '(uv, vm) := dvn v in
  Rabs (vm - norm v) <= 2.9e-16 * norm v /\ norm (vsub uv (scale (/ norm v) v)) <= 5.2e-16.
Proof.
  intros v Mv. unfold dvn, palDvn, eraPn. change (@eraPm R (DA L) v) with (dnorm v). cbv zeta.
  assert (W := dnorm_err v). assert (E1 := mod_eta _ _ Mv Mv). destruct Mv as [Mv Mv']. assert (T : 0 < / 10 ^ 125) by (apply Rinv_0_lt_compat; lra).
  set (n := norm v) in *. assert (T2 : / 10 ^ 149 <= / 10 ^ 20 * n) by lra.
  assert (W2 : Rabs (dnorm v - n) <= 2.6001 * u53 * n) by (unfold u53 in *; lra).
  assert (Pn : 0 < n) by lra. apply Rabs_le_inv in W2. set (w := dnorm v) in *.
  assert (Pw : 0 < w) by (unfold u53 in *; lra).
  dn. unfold Reqb. destruct (Req_EM_T w (rd 0)) as [C|_]; [exfalso; rewrite (rdZ 0) in C by (cbn; lia); lra|].
  cbn [fst snd]. split; [unfold u53 in *; apply Rabs_le; lra|].
  unfold eraSxp. dn. rewrite (rdZ 1) by (cbn; lia).
  replace (1 / w) with (/ w) by (unfold Rdiv; ring). set (q := rd (/ w)).
  (* q is 1/n to 3.61 u *)
  assert (Hq : Rabs (q - / n) <= 3.6003 * u53 * / n).
  { assert (Wi : Rabs (/ w - / n) <= 2.6002 * u53 * / n).
    { replace (/ w - / n) with ((n - w) * / w * / n) by (field; lra). rewrite Rabs_mult, (Rabs_pos_eq (/ n)) by (left; now apply Rinv_0_lt_compat).
      apply Rmult_le_compat_r; [left; now apply Rinv_0_lt_compat|]. rewrite Rabs_mult, (Rabs_pos_eq (/ w)) by (left; now apply Rinv_0_lt_compat).
      apply (Rmult_le_reg_r w); [easy|]. replace (Rabs (n - w) * / w * w) with (Rabs (n - w)) by (field; lra). apply Rabs_le. unfold u53 in *. lra. }
    apply Rabs_le_inv in Wi. assert (Pi : 0 < / n) by now apply Rinv_0_lt_compat. assert (U : 0 < u53 < 1.2e-16) by (unfold u53; lra).
    assert (En : / 10 ^ 125 <= / n).
    { apply Rinv_le_contravar; lra. }
    assert (E2 : eta <= 1e-20 * u53 * / n) by (assert (E0 := eta_small); unfold u53; lra).
    assert (R1 := rdi (/ w) (1.000000001 * / n) ltac:(unfold u53 in *; lra)). fold q in R1. clear W E1 T2 T. clearbody q w n. apply Rabs_le. unfold u53 in *. lra. }
  set (i := / n) in *. assert (Pi : 0 < i) by (unfold i; now apply Rinv_0_lt_compat). apply Rabs_le_inv in Hq.
  assert (C : forall x, Rabs (rd (q * x) - i * x) <= 4.6005 * u53 * Rabs (i * x) + eta).
  { intros x. assert (R1 := rd_err (q * x)). fold eta in R1. assert (Ax := Rabs_pos x).
    assert (D : Rabs (q * x - i * x) <= 3.6003 * u53 * i * Rabs x).
    { replace (q * x - i * x) with ((q - i) * x) by ring. rewrite Rabs_mult. apply Rmult_le_compat_r; [easy|]. now apply Rabs_le. }
    assert (QX : Rabs (q * x) <= 1.0001 * (i * Rabs x)).
    { rewrite Rabs_mult. replace (1.0001 * (i * Rabs x)) with (1.0001 * i * Rabs x) by ring. apply Rmult_le_compat_r; [easy|]. apply Rabs_le. unfold u53 in *. lra. }
    rewrite Rabs_mult, (Rabs_pos_eq i) by lra. assert (Yp : 0 <= i * Rabs x) by (apply Rmult_le_pos; lra). set (y := i * Rabs x) in *.
    replace (rd (q * x) - i * x) with (rd (q * x) - q * x + (q * x - i * x)) by ring. eapply Rle_trans; [apply Rabs_triang|].
    replace (3.6003 * u53 * i * Rabs x) with (3.6003 * u53 * y) in D by (unfold y; ring). unfold u53 in *. lra. }
  assert (E0 := eta_pos). assert (E3 := eta_small).
  eapply Rle_trans.
  - apply (norm_rel _ (scale i v) (4.6005 * u53) eta); [unfold u53; lra|lra| | |]; unfold vsub, scale; cbn [vx vy vz]; apply C.
  - replace (norm (scale i v)) with 1; [unfold u53; lra|]. unfold norm.
    replace (dot (scale i v) (scale i v)) with ((i * n) * (i * n)).
    + rewrite sqrt_square by (unfold i; rewrite Rinv_l; lra). unfold i. now rewrite Rinv_l by lra.
    + replace (dot (scale i v) (scale i v)) with (i * i * dot v v) by (unfold dot, scale; cbn [vx vy vz]; ring). rewrite <- norm_sq. fold n. ring.
Qed.
(** the zero vector gives zeros *)
Theorem C90_palDvn_zero : dvn vzero = (vzero, 0).
Proof.
  unfold dvn, palDvn, eraPn, eraPm, vzero, eraZp. dn. cbn [vx vy vz].
  replace (0 * 0) with 0 by ring. rewrite !(rdZ 0) by (cbn; lia). replace (0 + 0) with 0 by ring. rewrite !(rdZ 0) by (cbn; lia).
  replace (0 + 0) with 0 by ring. rewrite !(rdZ 0) by (cbn; lia). rewrite sqrt_0. rewrite !(rdZ 0) by (cbn; lia).
  unfold Reqb. destruct (Req_EM_T 0 0); [reflexivity|easy].
Qed.
(** C90: matrix times vector, and transpose times vector, whatever the matrix (rows, respectively columns, of length up to k) *)
Lemma dapp_moderate : forall m v k, 1 <= k <= 1000 -> norm (m0 m) <= k -> norm (m1 m) <= k -> norm (m2 m) <= k -> moderate (norm v) ->
  norm (vsub (dapp m v) (mapp m v)) <= 5.9e-16 * k * norm v.
Proof.
  intros m v k Hk H0 H1 H2 Mv. assert (M1 : moderate 1) by (unfold moderate; split; [|lra]; apply (Rle_trans _ (/ 1)); [apply Rinv_le_contravar; lra|lra]).
  assert (E := mod_eta _ _ M1 Mv). rewrite Rmult_1_l in E.
  assert (Pv := norm_pos v).
  assert (KN : norm v <= k * norm v) by (rewrite <- (Rmult_1_l (norm v)) at 1; apply Rmult_le_compat_r; lra).
  assert (G : forall r, norm r <= k -> Rabs (drow r v - dot r v) <= 3.011 * u53 * (k * norm v)).
  { intros r Hr. rewrite drow_ddot. assert (D := ddot_err r v). assert (norm r * norm v <= k * norm v) by (apply Rmult_le_compat_r; easy). unfold u53 in *. lra. }
  eapply Rle_trans; [apply (norm_le_comps _ (3.011 * u53 * (k * norm v))); unfold vsub, dapp, mapp; cbn [vx vy vz]; now apply G|].
  unfold u53. lra.
Qed.
Theorem C90_palDmxv : forall m v k, 1 <= k <= 1000 -> norm (m0 m) <= k -> norm (m1 m) <= k -> norm (m2 m) <= k -> moderate (norm v) ->
  norm (vsub (dmxv m v) (mapp m v)) <= 5.9e-16 * k * norm v.
Proof. intros. rewrite dmxv_unf. now apply dapp_moderate. Qed.
Theorem C90_palDimxv : forall m v k, 1 <= k <= 1000 -> norm (m0 (mtr m)) <= k -> norm (m1 (mtr m)) <= k -> norm (m2 (mtr m)) <= k -> moderate (norm v) ->
  norm (vsub (dimxv m v) (mapp (mtr m) v)) <= 5.9e-16 * k * norm v.
Proof. intros. rewrite dimxv_unf. now apply dapp_moderate. Qed.
(** C90: matrix product, entry by entry *)
Theorem C90_palDmxm : forall a b k, 1 <= k <= 1000 -> norm (m0 a) <= k -> norm (m1 a) <= k -> norm (m2 a) <= k ->
  norm (m0 (mtr b)) <= k -> norm (m1 (mtr b)) <= k -> norm (m2 (mtr b)) <= k ->
  entries_within (3.4e-16 * (k * k)) (dmxm a b) (mmul a b).
Proof.
  intros a b k Hk A0 A1 A2 B0 B1 B2.
  assert (E : dmxm a b = M (V (drow (m0 a) (m0 (mtr b))) (drow (m0 a) (m1 (mtr b))) (drow (m0 a) (m2 (mtr b))))
     (V (drow (m1 a) (m0 (mtr b))) (drow (m1 a) (m1 (mtr b))) (drow (m1 a) (m2 (mtr b))))
     (V (drow (m2 a) (m0 (mtr b))) (drow (m2 a) (m1 (mtr b))) (drow (m2 a) (m2 (mtr b))))).
  { unfold dmxm, palDmxm, eraRxr, row_mul, drow, mtr. dn. cbn [vx vy vz m0 m1 m2]. now rewrite !(rdZ 0) by (cbn; lia). }
  assert (G : forall r c, norm r <= k -> norm c <= k -> Rabs (drow r c - dot r c) <= 3.4e-16 * (k * k)).
  { intros r c Hr Hc. rewrite drow_ddot. assert (D := ddot_err r c). assert (E1 := eta_small).
    assert (norm r * norm c <= k * k) by (apply Rmult_le_compat; try apply norm_pos; easy). assert (1 <= k * k) by nra. unfold u53 in *. lra. }
  assert (EM : mmul a b = M (V (dot (m0 a) (m0 (mtr b))) (dot (m0 a) (m1 (mtr b))) (dot (m0 a) (m2 (mtr b))))
     (V (dot (m1 a) (m0 (mtr b))) (dot (m1 a) (m1 (mtr b))) (dot (m1 a) (m2 (mtr b))))
     (V (dot (m2 a) (m0 (mtr b))) (dot (m2 a) (m1 (mtr b))) (dot (m2 a) (m2 (mtr b))))) by reflexivity.
  rewrite E, EM. unfold entries_within. cbn [vx vy vz m0 m1 m2].
  split; [now apply G|]. split; [now apply G|]. split; [now apply G|]. split; [now apply G|]. split; [now apply G|].
  split; [now apply G|]. split; [now apply G|]. split; now apply G.
Qed.
(** the sum of the squares of the entries bounds the stretching *)
Definition frob2 (m : mat R) : R := dot (m0 m) (m0 m) + dot (m1 m) (m1 m) + dot (m2 m) (m2 m).
Lemma frob_app : forall m v F, 0 <= F -> frob2 m <= F * F -> norm (mapp m v) <= F * norm v.
Proof.
  intros m v F HF H. assert (Pv := norm_pos v). apply Rsqr_incr_0_var; [|now apply Rmult_le_pos]. unfold Rsqr. rewrite norm_sq.
  assert (C0 := cauchy (m0 m) v). assert (C1 := cauchy (m1 m) v). assert (C2 := cauchy (m2 m) v). rewrite <- (norm_sq v) in *.
  unfold frob2 in H. unfold mapp, dot at 1; cbn [vx vy vz].
  assert (K := Rmult_le_compat_r (norm v * norm v) _ _ ltac:(nra) H). lra.
Qed.
Lemma frob_tr : forall m, frob2 (mtr m) = frob2 m.
Proof. intros. unfold frob2, mtr, dot; cbn [vx vy vz m0 m1 m2]. ring. Qed.
Definition msub (a b : mat R) : mat R := M (vsub (m0 a) (m0 b)) (vsub (m1 a) (m1 b)) (vsub (m2 a) (m2 b)).
(** C90: a vector rotated by a matrix of palDeuler with palDmxv and back with palDimxv returns to 7.4e-15 of its length *)
Theorem C90_roundtrip : trig_acc L u53 -> forall order phi theta psi v, is_double phi -> is_double theta -> is_double psi -> / 10 ^ 124 <= norm v <= 10 ^ 124 ->
  norm (vsub (dimxv (deuler L order phi theta psi) (dmxv (deuler L order phi theta psi) v)) v) <= 7.4e-15 * norm v.
Proof.
  intros HT order phi theta psi v F1 F2 F3 Mv.
  assert (RE := palDeuler_rot order phi theta psi). destruct (deuler_close L HT order phi theta psi F1 F2 F3) as ([A _] & [B _] & [C _]).
  generalize dependent (deuler L order phi theta psi). generalize dependent (palDeuler order phi theta psi : mat R). intros e RE d A B C.
  assert (T0 : 0 < / 10 ^ 124) by (apply Rinv_0_lt_compat; lra).
  assert (Mo : moderate (norm v)) by (unfold moderate; lra). assert (Pv := norm_pos v).
  assert (FR : frob2 (msub d e) <= 2.945e-15 * 2.945e-15).
  { rewrite <- frob_tr. unfold frob2. change (m0 (mtr (msub d e))) with (vsub (m0 (mtr d)) (m0 (mtr e))).
    change (m1 (mtr (msub d e))) with (vsub (m1 (mtr d)) (m1 (mtr e))). change (m2 (mtr (msub d e))) with (vsub (m2 (mtr d)) (m2 (mtr e))).
    rewrite <- !norm_sq. assert (Q : forall x, 0 <= x -> x <= 1.7e-15 -> x * x <= 1.7e-15 * 1.7e-15) by (intros; apply Rmult_le_compat; lra).
    apply Q in A, B, C; try apply norm_pos. lra. }
  assert (FT : frob2 (msub (mtr d) (mtr e)) <= 2.945e-15 * 2.945e-15).
  { rewrite <- frob_tr. replace (mtr (msub (mtr d) (mtr e))) with (msub d e) by (unfold mtr, msub, vsub; cbn [vx vy vz m0 m1 m2]; now destruct d as [[] [] []], e as [[] [] []]). easy. }
  assert (LIN : forall a b u, vsub (mapp a u) (mapp b u) = mapp (msub a b) u) by (intros; unfold msub; vring).
  assert (ROW : forall m r, (r = m0 m \/ r = m1 m \/ r = m2 m) -> dot r r <= frob2 m).
  { intros m r H. unfold frob2. assert (K0 := norm_pos (m0 m)). assert (K1 := norm_pos (m1 m)). assert (K2 := norm_pos (m2 m)). rewrite <- !norm_sq.
    destruct H as [->|[->| ->]]; nra. }
  assert (SMALL : forall m r, frob2 m <= 2.945e-15 * 2.945e-15 -> (r = m0 m \/ r = m1 m \/ r = m2 m) -> norm r <= 2.945e-15).
  { intros m r H Hr. apply ROW in Hr. apply Rsqr_incr_0_var; [|lra]. unfold Rsqr. rewrite norm_sq. lra. }
  assert (UE : norm (m0 e) = 1 /\ norm (m1 e) = 1 /\ norm (m2 e) = 1).
  { destruct RE as [H _]. unfold mmul, mtr, mid in H. cbn [vx vy vz m0 m1 m2] in H. injection H as r1 _ _ _ r2 _ _ _ r3. repeat split; apply norm_unit; unfold unitv, dot; easy. }
  assert (UC : norm (m0 (mtr e)) = 1 /\ norm (m1 (mtr e)) = 1 /\ norm (m2 (mtr e)) = 1).
  { assert (H := rotation_tr e RE). unfold mmul, mtr, mid in H. cbn [vx vy vz m0 m1 m2] in H. injection H as r1 _ _ _ r2 _ _ _ r3. unfold mtr; cbn [m0 m1 m2]. repeat split; apply norm_unit; unfold unitv, dot; cbn [vx vy vz]; easy. }
  destruct UE as (U0 & U1 & U2). destruct UC as (V0 & V1 & V2).
  assert (ND : forall x y, norm y = 1 -> norm (vsub x y) <= 2.945e-15 -> norm x <= 1.000001).
  { intros x y Hy H. assert (N := norm_diff x y). apply Rabs_le_inv in N. lra. }
  set (w := dmxv d v).
  assert (W1 : norm (vsub w (mapp d v)) <= 5.9e-16 * 1.000001 * norm v).
  { apply C90_palDmxv; [lra| | | |easy].
    - apply (ND _ (m0 e) U0). apply (SMALL (msub d e)); [easy|]. now left.
    - apply (ND _ (m1 e) U1). apply (SMALL (msub d e)); [easy|]. now (right; left).
    - apply (ND _ (m2 e) U2). apply (SMALL (msub d e)); [easy|]. now (right; right). }
  assert (W2 := frob_app (msub d e) v 2.945e-15 ltac:(lra) FR). rewrite <- LIN in W2.
  assert (W3 : norm (vsub w (mapp e v)) <= 3.54e-15 * norm v).
  { assert (K := vsub_tri w (mapp d v) (mapp e v)). lra. }
  assert (W4 : norm (mapp e v) = norm v) by (unfold norm; now rewrite rot_dot).
  assert (Nw := norm_diff w (mapp e v)). rewrite W4 in Nw. apply Rabs_le_inv in Nw.
  assert (Mw : moderate (norm w)).
  { unfold moderate. split; [apply (Rle_trans _ (0.9 * / 10 ^ 124)); lra|]. lra. }
  assert (Z1 : norm (vsub (dimxv d w) (mapp (mtr d) w)) <= 5.9e-16 * 1.000001 * norm w).
  { apply C90_palDimxv; [lra| | | |easy].
    - apply (ND _ (m0 (mtr e)) V0). apply (SMALL (msub (mtr d) (mtr e))); [easy|]. now left.
    - apply (ND _ (m1 (mtr e)) V1). apply (SMALL (msub (mtr d) (mtr e))); [easy|]. now (right; left).
    - apply (ND _ (m2 (mtr e)) V2). apply (SMALL (msub (mtr d) (mtr e))); [easy|]. now (right; right). }
  assert (Z2 := frob_app (msub (mtr d) (mtr e)) w 2.945e-15 ltac:(lra) FT). rewrite <- LIN in Z2.
  assert (Z3 : norm (vsub (mapp (mtr e) w) v) <= 3.54e-15 * norm v).
  { replace v with (mapp (mtr e) (mapp e v)) at 1 by (rewrite <- mapp_mmul, rotation_tr, mapp_mid by easy; reflexivity).
    replace (vsub (mapp (mtr e) w) (mapp (mtr e) (mapp e v))) with (mapp (mtr e) (vsub w (mapp e v))) by (generalize (mapp e v); intros; vring).
    unfold norm at 1. rewrite rot_dot by now apply rotation_mtr. easy. }
  assert (K1 := vsub_tri (dimxv d w) (mapp (mtr d) w) v). assert (K2 := vsub_tri (mapp (mtr d) w) (mapp (mtr e) w) v). lra.
Qed.
End D.
(** Non-vacuity *)
Example C90_eg : moderate (norm (V 3 4 0)) /\ Rabs (snd (dvn Lcr (V 3 4 0)) - 5) <= 1.5e-15.
Proof.
  assert (E : norm (V 3 4 0) = 5) by (unfold norm, dot; cbn [vx vy vz]; replace (3 * 3 + 4 * 4 + 0 * 0) with (5 * 5) by ring; apply sqrt_square; lra).
  assert (M5 : moderate (norm (V 3 4 0))) by (rewrite E; unfold moderate; split; [apply (Rle_trans _ (/ 1)); [apply Rinv_le_contravar; lra|lra]|lra]).
  split; [easy|]. assert (K := C90_palDvn Lcr (V 3 4 0) M5). destruct (dvn Lcr (V 3 4 0)) as [u m]. destruct K as [K _]. rewrite E in K. cbn [snd]. lra.
Qed.
