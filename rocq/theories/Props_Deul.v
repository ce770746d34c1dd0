(** * Theorems: rotation matrices from Euler angles in double precision (C89) *)
From Coq Require Import Reals ZArith Lra Lia Psatz Bool List String Ascii.
From Flocq Require Import Core.
From Interval Require Import Tactic.
From Verif Require Import Num NumR NumD NumDE Geom Erfa M_Sphere P_Sphere P_Frames P_Tangent Props_Dsep Props_Dsph.
Local Open Scope R_scope.

(** c' p + s' q in doubles against c p + s q *)
Lemma turn_err : forall c s c' s' p q, c * c + s * s = 1 -> Rabs (c' - c) <= u53 -> Rabs (s' - s) <= u53 -> p * p + q * q <= 1.001 ->
  Rabs (rd (rd (c' * p) + rd (s' * q)) - (c * p + s * q)) <= 3.5 * u53.
Proof.
  intros c s c' s' p q T Hc Hs N. assert (E1 := eta_small). assert (E0 := eta_pos).
  assert (Rp : Rabs p <= 1.001) by (apply Rabs_le; split; nra).
  assert (Rq : Rabs q <= 1.001) by (apply Rabs_le; split; nra).
  assert (PQ : Rabs p + Rabs q <= 1.4151).
  { assert (A := Rabs_pos p). assert (B := Rabs_pos q).
    assert (A2 : Rabs p * Rabs p = p * p) by (rewrite <- Rabs_mult; apply Rabs_pos_eq, Rle_0_sqr).
    assert (B2 : Rabs q * Rabs q = q * q) by (rewrite <- Rabs_mult; apply Rabs_pos_eq, Rle_0_sqr).
    set (x := Rabs p) in *. set (y := Rabs q) in *. clearbody x y. assert (0 <= (x - y) * (x - y)) by apply Rle_0_sqr. nra. }
  assert (CS : Rabs (c * p) + Rabs (s * q) <= 1.0006).
  { eapply Rle_trans; [apply (two_terms c s q p 1 1.0005); lra|lra]. }
  (* products *)
  assert (D1 : Rabs ((c' - c) * p) <= u53 * Rabs p) by (rewrite Rabs_mult; apply Rmult_le_compat_r; [apply Rabs_pos|easy]).
  assert (D2 : Rabs ((s' - s) * q) <= u53 * Rabs q) by (rewrite Rabs_mult; apply Rmult_le_compat_r; [apply Rabs_pos|easy]).
  assert (P1 : Rabs (c' * p - c * p) <= u53 * Rabs p) by (replace (c' * p - c * p) with ((c' - c) * p) by ring; easy).
  assert (P2 : Rabs (s' * q - s * q) <= u53 * Rabs q) by (replace (s' * q - s * q) with ((s' - s) * q) by ring; easy).
  clear D1 D2.
  assert (A1 : Rabs (c' * p) <= Rabs (c * p) + u53 * Rabs p).
  { replace (c' * p) with (c * p + (c' * p - c * p)) by ring. eapply Rle_trans; [apply Rabs_triang|]. lra. }
  assert (A2 : Rabs (s' * q) <= Rabs (s * q) + u53 * Rabs q).
  { replace (s' * q) with (s * q + (s' * q - s * q)) by ring. eapply Rle_trans; [apply Rabs_triang|]. lra. }
  assert (K1 := rde _ _ A1). assert (K2 := rde _ _ A2).
  assert (Ap := Rabs_pos p). assert (Aq := Rabs_pos q). assert (Acp := Rabs_pos (c * p)). assert (Asq := Rabs_pos (s * q)).
  assert (S0 : Rabs (c * p + s * q) <= 1.0006) by (eapply Rle_trans; [apply Rabs_triang|lra]).
  apply Rabs_le_inv in K1, K2, P1, P2, S0. unfold u53 in *.
  assert (K3 := rde (rd (c' * p) + rd (s' * q)) 1.0007 ltac:(apply Rabs_le; unfold u53 in *; lra)).
  apply Rabs_le_inv in K3. unfold u53 in *. apply Rabs_le. lra.
Qed.
(** the j-th columns of a matrix are the rows of the transpose *)
Definition cols (P : vec R -> vec R -> Prop) (a b : mat R) : Prop :=
  P (m0 (mtr a)) (m0 (mtr b)) /\ P (m1 (mtr a)) (m1 (mtr b)) /\ P (m2 (mtr a)) (m2 (mtr b)).
(** the computed matrix a is within k of the exact rotation b, column by column *)
Definition close (k : R) (a b : mat R) : Prop := cols (fun u v => norm (vsub u v) <= k /\ norm v = 1) a b.

Section D.
Variable L : Libm.
Hypothesis HT : trig_acc L u53.
(** palDeuler run in double arithmetic *)
Definition deuler (order : string) (phi theta psi : R) : mat R := @palDeuler R (DA L) order phi theta psi.

Definition turn (a : axis) (t : R) (v : vec R) : vec R := mapp (match a with AX => rotx t | AY => roty t | AZ => rotz t end) v.
Definition dturn (a : axis) (t : R) (v : vec R) : vec R :=
  let s := l_sin L t in let c := l_cos L t in let x := vx v in let y := vy v in let z := vz v in
  match a with
  | AX => V x (rd (rd (c * y) + rd (s * z))) (rd (rd (- s * y) + rd (c * z)))
  | AY => V (rd (rd (c * x) - rd (s * z))) y (rd (rd (s * x) + rd (c * z)))
  | AZ => V (rd (rd (c * x) + rd (s * y))) (rd (rd (- s * x) + rd (c * y))) z
  end.
Lemma col_D : forall a t m, let m' := @era_rot R (DA L) a t m in
  m0 (mtr m') = dturn a t (m0 (mtr m)) /\ m1 (mtr m') = dturn a t (m1 (mtr m)) /\ m2 (mtr m') = dturn a t (m2 (mtr m)).
Proof. intros [] t m; repeat split; reflexivity. Qed.
Lemma col_R : forall a t m, let m' := @era_rot R RA a t m in
  m0 (mtr m') = turn a t (m0 (mtr m)) /\ m1 (mtr m') = turn a t (m1 (mtr m)) /\ m2 (mtr m') = turn a t (m2 (mtr m)).
Proof. intros a t [[a1 a2 a3] [b1 b2 b3] [c1 c2 c3]]; destruct a; unfold era_rot, turn; rewrite ?eraRx_mmul, ?eraRy_mmul, ?eraRz_mmul; unfold mmul, mtr, mapp, rotx, roty, rotz, dot; cbn [vx vy vz m0 m1 m2]; repeat split; f_equal; ring. Qed.
Lemma turn_rot : forall a t, rotation (match a with AX => rotx t | AY => roty t | AZ => rotz t end).
Proof. intros [] t; [apply rotx_rot|apply roty_rot|apply rotz_rot]. Qed.
Lemma turn_norm : forall a t v, norm (turn a t v) = norm v.
Proof. intros. unfold norm, turn. now rewrite rot_dot by apply turn_rot. Qed.
Lemma turn_sub : forall a t u v, vsub (turn a t u) (turn a t v) = turn a t (vsub u v).
Proof. intros. unfold turn. generalize (match a with AX => rotx t | AY => roty t | AZ => rotz t end). intros. vring. Qed.

Lemma pair_norm : forall v e, 0 <= e -> (vx v = 0 /\ Rabs (vy v) <= e /\ Rabs (vz v) <= e \/ vy v = 0 /\ Rabs (vx v) <= e /\ Rabs (vz v) <= e \/
  vz v = 0 /\ Rabs (vx v) <= e /\ Rabs (vy v) <= e) -> norm v <= 1.4143 * e.
Proof.
  intros v e He H. apply Rsqr_incr_0_var; [|lra]. unfold Rsqr. rewrite norm_sq. unfold dot.
  assert (Q : forall x, Rabs x <= e -> x * x <= e * e) by (intros x Hx; apply Rabs_le_inv in Hx; nra).
  assert (E2 : 0 <= e * e) by nra.
  destruct H as [(E & A & B)|[(E & A & B)|(E & A & B)]]; apply Q in A, B; rewrite E; lra.
Qed.
Lemma dturn_err : forall a t v, fmt t -> norm v <= 1.0001 -> norm (vsub (dturn a t v) (turn a t v)) <= 4.96 * u53.
Proof.
  intros a t v Ft Hv. destruct (HT t Ft) as [Hs Hc]. assert (T := sin2_cos2 t). unfold Rsqr in T.
  assert (S : dot v v <= 1.001) by (rewrite <- norm_sq; assert (P := norm_pos v); nra). unfold dot in S.
  assert (Hs' : Rabs (- l_sin L t - - sinR t) <= u53) by (replace (- l_sin L t - - sinR t) with (- (l_sin L t - sinR t)) by ring; now rewrite Rabs_Ropp).
  set (s' := l_sin L t) in *. set (c' := l_cos L t) in *. set (x := vx v) in *. set (y := vy v) in *. set (z := vz v) in *.
  eapply Rle_trans; [apply (pair_norm _ (3.5 * u53)); [unfold u53; lra|]|unfold u53; lra].
  assert (X2 : 0 <= x * x) by apply Rle_0_sqr. assert (Y2 : 0 <= y * y) by apply Rle_0_sqr. assert (Z2 : 0 <= z * z) by apply Rle_0_sqr.
  destruct a; unfold vsub, dturn, turn, mapp, rotx, roty, rotz, dot; cbn [vx vy vz m0 m1 m2]; fold s' c' x y z.
  - left. split; [ring|]. split.
    + replace (0 * x + cosR t * y + sinR t * z) with (cosR t * y + sinR t * z) by ring. apply turn_err; lra.
    + replace (0 * x + - sinR t * y + cosR t * z) with (- sinR t * y + cosR t * z) by ring. apply turn_err; lra.
  - right; left. split; [ring|]. split.
    + replace (cosR t * x + 0 * y + - sinR t * z) with (cosR t * x + - sinR t * z) by ring.
      replace (rd (c' * x) - rd (s' * z)) with (rd (c' * x) + rd (- s' * z)) by (rewrite Ropp_mult_distr_l_reverse, rd_opp; ring). apply turn_err; lra.
    + replace (sinR t * x + 0 * y + cosR t * z) with (sinR t * x + cosR t * z) by ring. apply turn_err; lra.
  - right; right. split; [ring|]. split.
    + replace (cosR t * x + sinR t * y + 0 * z) with (cosR t * x + sinR t * y) by ring. apply turn_err; lra.
    + replace (- sinR t * x + cosR t * y + 0 * z) with (- sinR t * x + cosR t * y) by ring. apply turn_err; lra.
Qed.
Lemma step_close : forall k a t m m', 0 <= k <= 1e-5 -> fmt t -> close k m m' -> close (k + 4.96 * u53) (@era_rot R (DA L) a t m) (@era_rot R RA a t m').
Proof.
  intros k a t m m' Hk Ft (C0 & C1 & C2). destruct (col_D a t m) as (D0 & D1 & D2). destruct (col_R a t m') as (E0 & E1 & E2).
  unfold close, cols. rewrite D0, D1, D2, E0, E1, E2.
  assert (G : forall u v, norm (vsub u v) <= k /\ norm v = 1 -> norm (vsub (dturn a t u) (turn a t v)) <= k + 4.96 * u53 /\ norm (turn a t v) = 1).
  { intros u v [H1 H2]. rewrite turn_norm. split; [|easy].
    assert (N := norm_diff u v). apply Rabs_le_inv in N.
    assert (K := dturn_err a t u Ft ltac:(lra)). assert (W := vsub_tri (dturn a t u) (turn a t u) (turn a t v)).
    rewrite (turn_sub a t u v), turn_norm in W. lra. }
  split; [now apply G|split; now apply G].
Qed.
Lemma loop_close : forall rot order k m m', 0 <= k -> k + 5 * u53 * INR (List.length rot) <= 1e-5 -> Forall fmt rot -> close k m m' ->
  close (k + 5 * u53 * INR (List.length rot)) (@deuler_loop R (DA L) order rot m) (@deuler_loop R RA order rot m').
Proof.
  assert (W : forall k k' m m', k <= k' -> close k m m' -> close k' m m').
  { intros k k' m m' H ([A A'] & [B B'] & [C C']). repeat split; try easy; lra. }
  assert (U : 0 < u53) by (unfold u53; lra).
  induction rot as [|t rot IH]; intros order k m m' Hk Hb HF HC.
  - destruct order; cbn; apply (W k); try easy; lra.
  - assert (Lb := pos_INR (List.length rot)). change (List.length (t :: rot)) with (S (List.length rot)) in *. rewrite S_INR in *.
    assert (0 <= 5 * u53 * INR (List.length rot)) by (apply Rmult_le_pos; lra).
    destruct order as [|c order]; [cbn; apply (W k); [lra|easy]|]. cbn [deuler_loop].
    destruct (axis_of c) as [a|]; [|apply (W k); [lra|easy]].
    apply (W (k + 5 * u53 + 5 * u53 * INR (List.length rot))); [lra|]. inversion HF; subst. apply IH; [lra|lra|easy|].
    apply (W (k + 4.96 * u53)); [lra|]. apply step_close; [lra|easy|easy].
Qed.
Lemma deuler_close : forall order phi theta psi, is_double phi -> is_double theta -> is_double psi ->
  close 1.7e-15 (deuler order phi theta psi) (palDeuler order phi theta psi).
Proof.
  intros order phi theta psi F1 F2 F3. apply double_fmt in F1, F2, F3.
  assert (K := loop_close (phi :: theta :: psi :: nil) order 0 (@eraIr R (DA L)) (@eraIr R RA)). cbn [List.length INR] in K.
  assert (E : @eraIr R (DA L) = @eraIr R RA).
  { unfold eraIr. dn. rops. rlit. now rewrite (rdZ 0), (rdZ 1) by (cbn; lia). }
  assert (C := K ltac:(lra) ltac:(unfold u53; lra) ltac:(repeat constructor; easy)).
  assert (C' : close (0 + 5 * u53 * (1 + 1 + 1)) (deuler order phi theta psi) (palDeuler order phi theta psi)).
  { apply C. rewrite E, eraIr_mid. unfold close, cols, mid, mtr. cbn [vx vy vz m0 m1 m2].
    assert (Z0 : forall u, norm (vsub u u) <= 0).
    { intros u. replace (vsub u u) with vzero by vring. unfold norm, dot, vzero. cbn [vx vy vz].
      replace (0 * 0 + 0 * 0 + 0 * 0) with 0 by ring. rewrite sqrt_0. lra. }
    repeat split; try apply Z0; apply norm_unit; unfold unitv, dot; cbn [vx vy vz]; ring. }
  destruct C' as ([A A'] & [B B'] & [D D']). unfold u53 in *. repeat split; try easy; lra.
Qed.
Lemma comp_le_norm : forall v : vec R, Rabs (vx v) <= norm v /\ Rabs (vy v) <= norm v /\ Rabs (vz v) <= norm v.
Proof.
  intros v. assert (P := norm_pos v). assert (S := norm_sq v). unfold dot in S.
  assert (X := Rle_0_sqr (vx v)). assert (Y := Rle_0_sqr (vy v)). assert (W := Rle_0_sqr (vz v)). unfold Rsqr in *.
  assert (G : forall a, a * a <= norm v * norm v -> Rabs a <= norm v).
  { intros a H. apply Rsqr_incr_0_var; [|easy]. rewrite <- Rsqr_abs. easy. }
  split; [apply G; lra|split; apply G; lra].
Qed.
(** the largest discrepancy between corresponding entries of two matrices is at most k *)
Definition entries_within (k : R) (a b : mat R) : Prop :=
  Rabs (vx (m0 a) - vx (m0 b)) <= k /\ Rabs (vy (m0 a) - vy (m0 b)) <= k /\ Rabs (vz (m0 a) - vz (m0 b)) <= k /\
  Rabs (vx (m1 a) - vx (m1 b)) <= k /\ Rabs (vy (m1 a) - vy (m1 b)) <= k /\ Rabs (vz (m1 a) - vz (m1 b)) <= k /\
  Rabs (vx (m2 a) - vx (m2 b)) <= k /\ Rabs (vy (m2 a) - vy (m2 b)) <= k /\ Rabs (vz (m2 a) - vz (m2 b)) <= k.
(** C89: for every axis string and all finite doubles the matrix is, entry by entry, within 1.7e-15 of the exact product of the
    elementary rotations the axis string names *)
Theorem C89_palDeuler : forall order phi theta psi, is_double phi -> is_double theta -> is_double psi ->
  entries_within 1.7e-15 (deuler order phi theta psi) (euler_product (combine (euler_axes 3 order) (phi :: theta :: psi :: nil))).
Proof.
  intros order phi theta psi F1 F2 F3. rewrite <- palDeuler_product.
  destruct (deuler_close order phi theta psi F1 F2 F3) as ([A _] & [B _] & [C _]).
  generalize dependent (deuler order phi theta psi). intros [[a1 a2 a3] [b1 b2 b3] [c1 c2 c3]]. generalize (palDeuler order phi theta psi : mat R).
  intros [[x1 x2 x3] [y1 y2 y3] [z1 z2 z3]]. unfold mtr, vsub, entries_within. cbn [vx vy vz m0 m1 m2]. intros A B C.
  assert (P : forall u v w, norm (V u v w) <= 1.7e-15 -> Rabs u <= 1.7e-15 /\ Rabs v <= 1.7e-15 /\ Rabs w <= 1.7e-15).
  { intros u v w H. destruct (comp_le_norm (V u v w)) as (X & Y & Z'). cbn [vx vy vz] in *. lra. }
  apply P in A, B, C. tauto.
Qed.
(** ... and it is orthogonal to 3.5e-15: its transpose times itself is the unit matrix to that accuracy *)
Theorem C89_orthogonal : forall order phi theta psi, is_double phi -> is_double theta -> is_double psi ->
  entries_within 3.5e-15 (mmul (mtr (deuler order phi theta psi)) (deuler order phi theta psi)) mid.
Proof.
  intros order phi theta psi F1 F2 F3. assert (RT := rotation_tr _ (palDeuler_rot order phi theta psi)).
  destruct (deuler_close order phi theta psi F1 F2 F3) as ([A A'] & [B B'] & [C C']).
  generalize dependent (deuler order phi theta psi). generalize dependent (palDeuler order phi theta psi : mat R). intros e RT A' B' C' d A B C.
  assert (G : forall u v p q, norm p = 1 -> norm q = 1 -> norm (vsub u p) <= 1.7e-15 -> norm (vsub v q) <= 1.7e-15 ->
    Rabs (dot u v - dot p q) <= 3.5e-15).
  { intros u v p q Np Nq H1 H2.
    replace (dot u v - dot p q) with (dot (vsub u p) (vsub v q) + dot (vsub u p) q + dot p (vsub v q)) by (unfold dot, vsub; cbn [vx vy vz]; ring).
    assert (K1 := cauchy_abs (vsub u p) (vsub v q)). assert (K2 := cauchy_abs (vsub u p) q). assert (K3 := cauchy_abs p (vsub v q)).
    rewrite Np in K3. rewrite Nq in K2. assert (N1 := norm_pos (vsub u p)). assert (N2 := norm_pos (vsub v q)).
    assert (K4 : norm (vsub u p) * norm (vsub v q) <= 1.7e-15 * 1.7e-15) by (apply Rmult_le_compat; lra).
    eapply Rle_trans; [apply Rabs_triang|]. eapply Rle_trans; [apply Rplus_le_compat_r, Rabs_triang|]. lra. }
  assert (EM : forall m n : mat R, mmul (mtr m) n = M
     (V (dot (m0 (mtr m)) (m0 (mtr n))) (dot (m0 (mtr m)) (m1 (mtr n))) (dot (m0 (mtr m)) (m2 (mtr n))))
     (V (dot (m1 (mtr m)) (m0 (mtr n))) (dot (m1 (mtr m)) (m1 (mtr n))) (dot (m1 (mtr m)) (m2 (mtr n))))
     (V (dot (m2 (mtr m)) (m0 (mtr n))) (dot (m2 (mtr m)) (m1 (mtr n))) (dot (m2 (mtr m)) (m2 (mtr n))))).
  { intros m n. reflexivity. }
  rewrite EM in RT. rewrite EM, <- RT. unfold entries_within. cbn [vx vy vz m0 m1 m2].
  split; [now apply G|]. split; [now apply G|]. split; [now apply G|]. split; [now apply G|]. split; [now apply G|].
  split; [now apply G|]. split; [now apply G|]. split; now apply G.
Qed.
End D.
(** Non-vacuity: with a correctly rounded libm, the matrix of the axis string "ZYZ" *)
Example C89_eg : entries_within 1.7e-15 (deuler Lcr "ZYZ" 1 2 3) (mmul (rotz 3) (mmul (roty 2) (rotz 1))).
Proof.
  assert (D : forall n, (Z.abs n <= 4)%Z -> is_double (IZR n)).
  { intros n H. split; [apply FLT_format_generic; [now unfold Prec_gt_0|apply fmtZ; lia]|].
    apply Rlt_le_trans with (bpow radix2 3); [|apply bpow_le; lia]. rewrite <- abs_IZR. apply IZR_lt. cbn. lia. }
  assert (K := C89_palDeuler Lcr Lcr_trig "ZYZ" 1 2 3 (D 1%Z ltac:(lia)) (D 2%Z ltac:(lia)) (D 3%Z ltac:(lia))).
  replace (mmul (rotz 3) (mmul (roty 2) (rotz 1))) with (euler_product (combine (euler_axes 3 "ZYZ") (1 :: 2 :: 3 :: nil))); [exact K|].
  cbn [euler_axes axis_of Ascii.eqb Bool.eqb orb combine]. unfold euler_product. cbn [fold_left fst snd axis_rot]. now rewrite mmul_mid_r.
Qed.
