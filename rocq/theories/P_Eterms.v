(** * E-terms of aberration and FK4/FK5: supporting proofs *)
From Coq Require Import Reals ZArith Lra Lia Psatz Bool.
From Flocq Require Import Core.Raux.
From Verif Require Import Num NumR Erfa Erfa2 Geom M_Sphere P_Sphere M_Time M_Frames P_Frames.
From Interval Require Import Tactic.
Local Open Scope R_scope.

Lemma norm_le : forall a k, 0 <= k -> dot a a <= k * k -> norm a <= k.
Proof.
  intros a k Hk H. apply Rsqr_incr_0_var; [|easy]. unfold Rsqr. rewrite norm_sq. easy.
Qed.
Lemma norm_ge : forall a k, 0 <= k -> k * k <= dot a a -> k <= norm a.
Proof.
  intros a k Hk H. apply Rsqr_incr_0_var; [|apply norm_pos]. unfold Rsqr. rewrite norm_sq. easy.
Qed.
Lemma cauchy_up : forall a b, dot a b <= norm a * norm b.
Proof. intros. eapply Rle_trans; [apply Rle_abs|apply cauchy_abs]. Qed.
Lemma cauchy_lo : forall a b, - (norm a * norm b) <= dot a b.
Proof. intros. generalize (cauchy_abs a b). intros H. apply Rabs_le_inv in H. lra. Qed.

(** the size of the E-terms: the square of the vector is (e k)^2 *)
Definition ecc (ep : R) : R :=
  let t := (ep - 1950) * 0.0100002135903 in 0.01673011 - (t * 1.26e-7 + 4.193e-5) * t.
Lemma etrms_dot : forall ep, dot (palEtrms ep) (palEtrms ep) =
  (ecc ep * 20.49552 * (PI / 648000)) * (ecc ep * 20.49552 * (PI / 648000)).
Proof.
  intros ep. unfold palEtrms, DAS2R; rn. unfold dot; cbn [vx vy vz].
  match goal with |- context [sinR ?p] => set (P := p) end.
  match goal with |- context [cosR (?x - _ * _)] => idtac | _ => idtac end.
  match goal with |- context [?k * cosR P * cosR ?x] => set (E0 := x); set (K := k) end.
  match goal with |- context [?k * sinR P] => set (K' := k) end.
  assert (Q1 := sc2 P). assert (Q2 := sc2 E0).
  assert (HK : K = - K') by (unfold K, K'; reflexivity).
  assert (HK' : K' = ecc ep * 20.49552 * (PI / 648000)).
  { unfold K', ecc. assert (PI <> 0) by (generalize PI_RGT_0; lra).
    apply f_equal2; [|field]. apply f_equal2; [|lra].
    apply f_equal2; [lra|]. apply f_equal2; [|lra]. lra. }
  rewrite HK. rewrite <- HK'. clearbody K K' P E0.
  transitivity (K' * K' * (sinR P * sinR P + cosR P * cosR P * (sinR E0 * sinR E0 + cosR E0 * cosR E0))).
  - ring.
  - rewrite Q2, Rmult_1_r, Q1. ring.
Qed.
Lemma etrms_small : forall ep, 1800 <= ep <= 2200 -> norm (palEtrms ep) <= 18 / 10000000.
Proof.
  intros ep H. apply norm_le; [lra|]. rewrite etrms_dot.
  apply Rsqr_le_abs_1. rewrite (Rabs_right (18/10000000)) by lra. unfold ecc. interval.
Qed.

Lemma palAddet_val : forall r d eq, palAddet r d eq =
  let w := vadd (dir r d) (palEtrms eq) in (eraAnp (fst (eraC2s w)), snd (eraC2s w)).
Proof.
  intros. unfold palAddet. rewrite eraS2c_dir. rops. cbv zeta.
  change (V _ _ _) with (vadd (dir r d) (palEtrms eq)).
  rewrite (surjective_pairing (eraC2s _)). reflexivity.
Qed.
Definition sub_e (v a : vec R) : vec R := vsub (scale (1 + dot v a) v) a.
Lemma palSubet_val : forall r d eq, palSubet r d eq =
  let w := sub_e (dir r d) (palEtrms eq) in (eraAnp (fst (eraC2s w)), snd (eraC2s w)).
Proof.
  intros. unfold palSubet. rewrite eraS2c_dir, eraPdp_dot.
  replace (lit (MkDec 10 (-1))) with 1 by (rn; lra). rops. cbv zeta.
  change (V _ _ _) with (sub_e (dir r d) (palEtrms eq)).
  rewrite (surjective_pairing (eraC2s _)). reflexivity.
Qed.

Lemma div_ub : forall a b n, 0 < n -> a <= b * n -> a / n <= b.
Proof. intros a b n Hn H. apply Rmult_le_reg_r with n; [easy|]. replace (a / n * n) with a by (field; lra). easy. Qed.
Lemma div_lb : forall a b n, 0 < n -> b * n <= a -> b <= a / n.
Proof. intros a b n Hn H. apply Rmult_le_reg_r with n; [easy|]. replace (a / n * n) with a by (field; lra). easy. Qed.
Lemma div_pos : forall a n, 0 < n -> 0 <= a -> 0 <= a / n.
Proof. intros a n Hn H. apply div_lb; lra. Qed.
(** geometry of adding and removing a small vector *)
Lemma norm_pos_nz : forall w, 0 < norm w -> w <> vzero.
Proof.
  intros w H E. subst w. unfold norm in H. replace (dot vzero vzero) with 0 in H by (vnorm; ring).
  rewrite sqrt_0 in H. lra.
Qed.
Lemma add_norm : forall s a, unitv s -> norm a <= 1/10 -> 9/10 <= norm (vadd s a) <= 11/10.
Proof.
  intros s a Hs Ha. assert (N := norm_unit s Hs).
  assert (T1 := norm_triangle s a).
  assert (T2 := norm_triangle_sub s (vsub vzero a)). rewrite norm_opp in T2.
  replace (vsub s (vsub vzero a)) with (vadd s a) in T2 by vring. lra.
Qed.
Lemma cross_scale_r : forall k a b, cross a (scale k b) = scale k (cross a b). Proof. intros; vring. Qed.
Lemma norm_cross_le : forall a b, norm (cross a b) <= norm a * norm b.
Proof.
  intros a b. apply norm_le; [apply Rmult_le_pos; apply norm_pos|].
  rewrite lagrange. replace (norm a * norm b * (norm a * norm b)) with ((norm a * norm a) * (norm b * norm b)) by ring.
  rewrite !norm_sq. assert (0 <= dot a b * dot a b) by apply Rle_0_sqr. lra.
Qed.
Lemma norm_scale_abs : forall k a, norm (scale k a) = Rabs k * norm a.
Proof.
  intros k a. unfold norm. rewrite dot_scale_l, dot_scale_r, <- Rmult_assoc, sqrt_mult_alt by apply Rle_0_sqr.
  fold (Rsqr k). rewrite sqrt_Rsqr_abs. easy.
Qed.

(** [sub_e] after adding the E-terms and normalising *)
Lemma sub_add : forall s a, unitv s -> norm a <= 1/10 ->
  let u := unit_of (vadd s a) in let r := sub_e u a in
  0 < norm r /\ norm (cross s (unit_of r)) <= norm a ^ 3 /\ 0 < dot s (unit_of r).
Proof.
  intros s a Hs Ha u r.
  assert (Hs' : dot s s = 1) by exact Hs.
  assert (Hn := add_norm s a Hs Ha). assert (Na := norm_pos a).
  assert (N1 := norm_unit s Hs).
  set (n := norm (vadd s a)) in *. set (al := norm a) in *. set (q := dot s a).
  assert (Hq : - al <= q <= al).
  { generalize (cauchy_up s a) (cauchy_lo s a). rewrite N1. fold al q. lra. }
  assert (Hn2 : n * n = 1 + 2 * q + al * al).
  { unfold n, al. rewrite !norm_sq. rewrite <- Hs' at 1. unfold q. vring. }
  set (de := (n - 1 - q) / n).
  assert (D0 : (n - 1 - q) * (n + 1 + q) = al * al - q * q) by nra.
  assert (D1 : 0 <= n - 1 - q <= al * al / (18/10)).
  { split.
    - assert (0 <= al * al - q * q) by nra. nra.
    - apply div_lb; [lra|]. assert (0 <= al * al - q * q) by nra. assert (0 <= n - 1 - q) by nra. nra. }
  assert (D2 : 0 <= de <= al * al / (162/100)).
  { unfold de. split.
    - apply div_pos; lra.
    - apply div_ub; nra. }
  assert (Hu : unitv u).
  { unfold u, unit_of, unitv. fold n. rewrite dot_scale_l, dot_scale_r, <- norm_sq. fold n. field. lra. }
  assert (Er : r = vadd s (scale de u)).
  { assert (Ha' : a = vsub (scale n u) s).
    { unfold u, unit_of. fold n. rewrite scale_scale. replace (n * (1 / n)) with 1 by (field; lra).
      rewrite scale_1. vring. }
    assert (Hua : dot u a = (q + al * al) / n).
    { unfold u, unit_of. fold n. rewrite dot_scale_l.
      replace (dot (vadd s a) a) with (dot s a + dot a a) by vring. rewrite <- (norm_sq a). fold al q. field. lra. }
    unfold r, sub_e. rewrite Hua. rewrite Ha' at 1.
    replace (vsub (scale (1 + (q + al * al) / n) u) (vsub (scale n u) s))
      with (vadd s (scale (1 + (q + al * al) / n - n) u)) by vring.
    f_equal. f_equal. unfold de. apply Rmult_eq_reg_r with n; [|lra]. field_simplify; [|lra|lra]. nra. }
  assert (Lr : 98/100 <= norm r).
  { rewrite Er. assert (T := norm_triangle_sub s (scale (- de) u)).
    replace (vsub s (scale (- de) u)) with (vadd s (scale de u)) in T by vring.
    rewrite norm_scale_abs, Rabs_Ropp, Rabs_right, (norm_unit u Hu), N1 in T by lra. nra. }
  assert (Cr : cross s r = scale (de / n) (cross s a)).
  { rewrite Er. unfold u, unit_of. fold n. unfold de. vcases. vnorm. vsplit; field; lra. }
  split; [lra|]. split.
  - unfold unit_of. rewrite cross_scale_r, Cr, scale_scale, norm_scale_abs.
    assert (K : norm (cross s a) <= al) by (generalize (norm_cross_le s a); rewrite N1; fold al; lra).
    assert (Z : 0 <= 1 / norm r * (de / n) <= al * al).
    { assert (I1 : 0 < 1 / norm r <= 100/98).
      { split; [apply Rdiv_lt_0_compat; lra|]. apply div_ub; lra. }
      assert (I2 : 0 <= de / n <= al * al * (100/145)).
      { split; [apply div_pos; lra|apply div_ub; nra]. }
      assert (0 <= al * al) by nra.
      split; [nra|]. nra. }
    rewrite Rabs_right by lra. simpl. rewrite Rmult_1_r.
    assert (0 <= norm (cross s a)) by apply norm_pos. nra.
  - unfold unit_of. rewrite dot_scale_r. apply Rmult_lt_0_compat; [apply Rdiv_lt_0_compat; lra|].
    rewrite Er. replace (dot s (vadd s (scale de u))) with (dot s s + de * dot s u) by vring.
    rewrite Hs'. generalize (cauchy_lo s u). rewrite N1, (norm_unit u Hu). nra.
Qed.

(** adding the E-terms after removing them and normalising *)
Lemma add_sub : forall v a, unitv v -> norm a <= 1/10 ->
  let u := unit_of (sub_e v a) in let w := vadd u a in
  sub_e v a <> vzero /\ 0 < norm w /\ norm (cross v (unit_of w)) <= norm a ^ 3 /\ 0 < dot v (unit_of w).
Proof.
  intros v a Hv Ha u w.
  assert (Hv' : dot v v = 1) by exact Hv.
  assert (Na := norm_pos a). assert (N1 := norm_unit v Hv).
  set (al := norm a) in *. set (q := dot v a).
  assert (Hq : - al <= q <= al).
  { generalize (cauchy_up v a) (cauchy_lo v a). rewrite N1. fold al q. lra. }
  set (m := norm (sub_e v a)).
  assert (Hm2 : m * m = 1 - q * q + al * al).
  { unfold m, al. rewrite !norm_sq. unfold sub_e. fold q.
    replace (dot (vsub (scale (1 + q) v) a) (vsub (scale (1 + q) v) a))
      with ((1+q)*(1+q) * dot v v - 2 * (1+q) * dot v a + dot a a) by vring.
    rewrite Hv'. fold q. ring. }
  assert (Hm0 : 0 <= m) by apply norm_pos.
  assert (Hm : 1 <= m <= 1 + al * al / 2).
  { assert (0 <= al * al - q * q) by nra. split; [nra|].
    assert ((m - 1) * (m + 1) = al * al - q * q) by nra. assert (1 <= m) by nra. nra. }
  assert (Hnz : sub_e v a <> vzero) by (apply norm_pos_nz; fold m; lra).
  assert (Hu : unitv u).
  { unfold u, unit_of, unitv. fold m. rewrite dot_scale_l, dot_scale_r, <- norm_sq. fold m. field. lra. }
  assert (Hw := add_norm u a Hu Ha). fold w in Hw.
  assert (Cw : cross v w = scale (1 - 1 / m) (cross v a)).
  { unfold w, u, unit_of. fold m. unfold sub_e. fold q. vcases. vnorm. vsplit; ring. }
  split; [exact Hnz|]. split; [lra|]. split.
  - unfold unit_of. rewrite cross_scale_r, Cw, scale_scale, norm_scale_abs.
    assert (K : norm (cross v a) <= al) by (generalize (norm_cross_le v a); rewrite N1; fold al; lra).
    assert (I0 : 0 <= 1 - 1 / m <= al * al / 2).
    { replace (1 - 1 / m) with ((m - 1) / m) by (field; lra). split.
      - apply div_pos; lra.
      - apply div_ub; nra. }
    assert (I1 : 0 < 1 / norm w <= 10/9).
    { split; [apply Rdiv_lt_0_compat; lra|]. apply div_ub; lra. }
    assert (Z : 0 <= 1 / norm w * (1 - 1 / m) <= al * al).
    { assert (0 <= al * al) by nra. split; nra. }
    rewrite Rabs_right by lra. simpl. rewrite Rmult_1_r.
    assert (0 <= norm (cross v a)) by apply norm_pos. nra.
  - unfold unit_of. rewrite dot_scale_r. apply Rmult_lt_0_compat; [apply Rdiv_lt_0_compat; lra|].
    unfold w. replace (dot v (vadd u a)) with (dot v u + q) by (unfold q; vring).
    unfold u, unit_of. fold m. rewrite dot_scale_r.
    replace (dot v (sub_e v a)) with ((1 + q) * dot v v - q) by (unfold q, sub_e; vring).
    rewrite Hv'. replace ((1 + q) * 1 - q) with 1 by ring. rewrite Rmult_1_r.
    assert (9/10 <= 1 / m); [|lra].
    apply div_lb; nra.
Qed.
