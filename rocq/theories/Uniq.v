(** * Uniqueness of the two-body motion with given initial position and velocity *)
From Coq Require Import Reals ZArith Lra Lia Psatz Bool.
From Coquelicot Require Import Coquelicot.
From Verif Require Import Num NumR Erfa Geom P_Frames P_Eterms Univ.
Local Open Scope R_scope.

Lemma const_of_derive0 : forall (f : R -> R) , (forall t : R, is_derive f t 0) -> forall t, f t = f 0.
Proof.
  intros f D t. destruct (MVT_gen f 0 t (fun _ => 0)) as (c & _ & E).
  - intros; apply D.
  - intros y _. apply derivable_continuous_pt. exists 0. apply is_derive_Reals, D.
  - lra.
Qed.
Lemma is_derive_times : forall (f g : R -> R) (t f' g' : R), is_derive f t f' -> is_derive g t g' -> is_derive (fun t => f t * g t) t (f' * g t + f t * g').
Proof. intros f g t f' g' Df Dg. apply (is_derive_mult f g t f' g' Df Dg). intros; apply Rmult_comm. Qed.
Lemma vderiv_dot : forall F G (t : R) f g, vderiv F t f -> vderiv G t g -> is_derive (fun t => dot (F t) (G t)) t (dot f (G t) + dot (F t) g).
Proof.
  intros F G t f g (F1 & F2 & F3) (G1 & G2 & G3). unfold dot.
  apply is_derive_cong with (fun t => vx (F t) * vx (G t) + vy (F t) * vy (G t) + vz (F t) * vz (G t))
    ((vx f * vx (G t) + vx (F t) * vx g) + (vy f * vy (G t) + vy (F t) * vy g) + (vz f * vz (G t) + vz (F t) * vz g)); [easy|ring|].
  apply (is_derive_plus (fun t => vx (F t) * vx (G t) + vy (F t) * vy (G t))); [apply (is_derive_plus (fun t => vx (F t) * vx (G t)))|].
  - apply (is_derive_times (fun t => vx (F t)) (fun t => vx (G t))); easy.
  - apply (is_derive_times (fun t => vy (F t)) (fun t => vy (G t))); easy.
  - apply (is_derive_times (fun t => vz (F t)) (fun t => vz (G t))); easy.
Qed.
Lemma vderiv_minus : forall F G (t : R) f g, vderiv F t f -> vderiv G t g -> vderiv (fun t => vsub (F t) (G t)) t (vsub f g).
Proof.
  intros F G t f g (F1 & F2 & F3) (G1 & G2 & G3). unfold vderiv, vsub; cbn [vx vy vz].
  split; [|split]; [apply (is_derive_minus (fun t => vx (F t)) (fun t => vx (G t)))|apply (is_derive_minus (fun t => vy (F t)) (fun t => vy (G t)))|
    apply (is_derive_minus (fun t => vz (F t)) (fun t => vz (G t)))]; easy.
Qed.
Lemma vderiv_cross : forall F G (t : R) f g, vderiv F t f -> vderiv G t g -> vderiv (fun t => cross (F t) (G t)) t (vadd (cross f (G t)) (cross (F t) g)).
Proof.
  intros F G t f g (F1 & F2 & F3) (G1 & G2 & G3). unfold vderiv, cross, vadd; cbn [vx vy vz].
  assert (Q : forall (a b c d : R -> R) (a' b' c' d' : R), is_derive a t a' -> is_derive b t b' -> is_derive c t c' -> is_derive d t d' ->
    is_derive (fun t => a t * b t - c t * d t) t ((a' * b t - c' * d t) + (a t * b' - c t * d'))).
  { intros. eapply is_derive_cong; [reflexivity| |apply (is_derive_minus (fun t => a t * b t) (fun t => c t * d t)); apply is_derive_times; eassumption].
    unfold minus, plus, opp; cbn. ring. }
  split; [|split]; apply Q; easy.
Qed.

Section Motion.
  Variables (mu : R) (X V : R -> vec R).
  Hypothesis M : motion mu X V.
  Lemma mo_norm_derive : forall t : R, is_derive (fun t => norm (X t)) t (dot (X t) (V t) / norm (X t)).
  Proof.
    intros t. destruct (M t) as (N & D & _). unfold norm in *.
    assert (Dd := vderiv_dot X X t _ _ D D).
    assert (S : 0 < dot (X t) (X t)). { apply sqrt_lt_0_alt. now rewrite sqrt_0. }
    assert (Ds : is_derive R_sqrt.sqrt (dot (X t) (X t)) (/ (2 * R_sqrt.sqrt (dot (X t) (X t))))) by (apply is_derive_Reals, derivable_pt_lim_sqrt; exact S).
    assert (Dc := is_derive_comp R_sqrt.sqrt (fun t => dot (X t) (X t)) t _ _ Ds Dd).
    refine (is_derive_cong _ _ t _ _ (fun _ => eq_refl) _ Dc).
    unfold scal; cbn. unfold mult; cbn. assert (dot (V t) (X t) = dot (X t) (V t)) by (unfold dot; ring). rewrite H. field. lra.
  Qed.
  Lemma mo_angmom : forall t, cross (X t) (V t) = cross (X 0) (V 0).
  Proof.
    assert (D : forall t : R, vderiv (fun t => cross (X t) (V t)) t vzero).
    { intros t. destruct (M t) as (N & D1 & D2). assert (Q := vderiv_cross X V t _ _ D1 D2).
      replace vzero with (vadd (cross (V t) (V t)) (cross (X t) (scale (- mu / (norm (X t) * norm (X t) * norm (X t))) (X t)))); [exact Q|].
      unfold vadd, cross, scale, vzero; cbn. f_equal; ring. }
    intros t. assert (A : forall a b : vec R, vx a = vx b -> vy a = vy b -> vz a = vz b -> a = b) by (intros [] []; cbn; congruence).
    apply A.
    - apply (const_of_derive0 (fun t => vx (cross (X t) (V t)))). intros y. apply (D y).
    - apply (const_of_derive0 (fun t => vy (cross (X t) (V t)))). intros y. apply (D y).
    - apply (const_of_derive0 (fun t => vz (cross (X t) (V t)))). intros y. apply (D y).
  Qed.
  Lemma mo_energy : forall t, dot (V t) (V t) - 2 * mu / norm (X t) = dot (V 0) (V 0) - 2 * mu / norm (X 0).
  Proof.
    apply (const_of_derive0 (fun t => dot (V t) (V t) - 2 * mu / norm (X t))). intros t. destruct (M t) as (N & D1 & D2).
    assert (DV := vderiv_dot V V t _ _ D2 D2). assert (DN := mo_norm_derive t). set (n := norm (X t)) in *.
    eapply is_derive_cong; [reflexivity| |apply (is_derive_minus (fun t => dot (V t) (V t)) (fun t => 2 * mu / norm (X t))); [exact DV|]].
    2:{ apply is_derive_cong with (fun t => (2 * mu) * / norm (X t)) ((2 * mu) * (- (dot (X t) (V t) / n) / n ^ 2)); [easy|reflexivity|].
        apply (is_derive_scal (fun t => / norm (X t))). apply (is_derive_inv (fun t => norm (X t))); [exact DN|]. fold n. lra. }
    unfold minus, plus, opp; cbn. assert (K : forall k, dot (scale k (X t)) (V t) + dot (V t) (scale k (X t)) = 2 * k * dot (X t) (V t)) by (intros; unfold dot, scale; cbn; ring).
    rewrite K. field. lra.
  Qed.
  Hypothesis mu_pos : 0 < mu.
  Hypothesis h_nz : cross (X 0) (V 0) <> vzero.
  Definition mo_h2 : R := dot (cross (X 0) (V 0)) (cross (X 0) (V 0)).
  Definition mo_al : R := dot (V 0) (V 0) - 2 * mu / norm (X 0).
  Definition mo_q : R := Rmin 1 (mo_h2 / (Rabs mo_al + 2 * mu)).
  Lemma mo_h2_pos : 0 < mo_h2.
  Proof. unfold mo_h2. rewrite <- norm_sq. assert (N := norm_gt0 _ h_nz). apply Rmult_lt_0_compat; exact N. Qed.
  Lemma mo_q_pos : 0 < mo_q.
  Proof.
    unfold mo_q. apply Rmin_pos; [lra|]. apply Rdiv_lt_0_compat; [apply mo_h2_pos|]. generalize (Rabs_pos mo_al). lra.
  Qed.
  Lemma mo_lower : forall t, mo_q <= norm (X t).
  Proof.
    intros t. destruct (Rle_lt_dec mo_q (norm (X t))) as [H|H]; [exact H|exfalso].
    assert (N := proj1 (M t)). set (r := norm (X t)) in *.
    assert (Q1 : r < 1) by (eapply Rlt_le_trans; [exact H|apply Rmin_l]).
    assert (Q2 : r < mo_h2 / (Rabs mo_al + 2 * mu)) by (eapply Rlt_le_trans; [exact H|apply Rmin_r]).
    assert (D : 0 < Rabs mo_al + 2 * mu) by (generalize (Rabs_pos mo_al); lra).
    assert (Q3 : r * (Rabs mo_al + 2 * mu) < mo_h2).
    { replace mo_h2 with (mo_h2 / (Rabs mo_al + 2 * mu) * (Rabs mo_al + 2 * mu)) by (field; lra). apply Rmult_lt_compat_r; easy. }
    assert (E : dot (V t) (V t) = mo_al + 2 * mu / r) by (unfold mo_al, r; generalize (mo_energy t); lra).
    assert (Hh : mo_h2 <= r * r * dot (V t) (V t)).
    { unfold mo_h2. rewrite <- (mo_angmom t). unfold r. rewrite norm_sq.
      assert (I : dot (cross (X t) (V t)) (cross (X t) (V t)) = dot (X t) (X t) * dot (V t) (V t) - dot (X t) (V t) * dot (X t) (V t)) by (unfold dot, cross; cbn; ring).
      rewrite I. generalize (Rle_0_sqr (dot (X t) (V t))). unfold Rsqr. lra. }
    rewrite E in Hh. replace (r * r * (mo_al + 2 * mu / r)) with (mo_al * (r * r) + 2 * mu * r) in Hh by (field; lra).
    assert (mo_al * (r * r) <= Rabs mo_al * r).
    { apply Rle_trans with (Rabs mo_al * (r * r)); [apply Rmult_le_compat_r; [nra|apply Rle_abs]|]. apply Rmult_le_compat_l; [apply Rabs_pos|nra]. }
    lra.
  Qed.
End Motion.

(** the attraction is Lipschitz away from the centre *)
Lemma attraction_lip : forall q x y, 0 < q -> q <= norm x -> q <= norm y ->
  norm (vsub (scale (/ (norm x * norm x * norm x)) x) (scale (/ (norm y * norm y * norm y)) y)) <= 4 / (q * q * q) * norm (vsub x y).
Proof.
  intros q x y Hq Hx Hy. set (a := norm x) in *. set (b := norm y) in *.
  assert (Hd : Rabs (b - a) <= norm (vsub x y)).
  { apply Rabs_le. assert (T1 := norm_triangle_sub x y). assert (T2 := norm_triangle_sub y x). rewrite norm_sub_sym in T2. fold a b in T1, T2. lra. }
  set (d := norm (vsub x y)) in *.
  match goal with |- norm ?v <= _ => replace v with (vadd (scale (/ (a * a * a)) (vsub x y)) (scale (/ (a * a * a) - / (b * b * b)) y)) end.
  2:{ unfold vadd, vsub, scale; cbn. f_equal; field; lra. }
  eapply Rle_trans; [apply norm_triangle|]. rewrite !norm_scale_abs. fold b d.
  replace (/ (a * a * a) - / (b * b * b)) with ((b - a) * ((a * a + a * b + b * b) / (a * a * a * (b * b * b)))) by (field; lra).
  rewrite Rabs_mult, (Rabs_pos_eq (/ (a * a * a))) by (left; apply Rinv_0_lt_compat; repeat apply Rmult_lt_0_compat; lra).
  rewrite (Rabs_pos_eq (_ / _)).
  2:{ left. apply Rdiv_lt_0_compat; [|repeat apply Rmult_lt_0_compat; lra]. assert (0 < a * a) by (apply Rmult_lt_0_compat; lra).
      assert (0 < a * b) by (apply Rmult_lt_0_compat; lra). assert (0 < b * b) by (apply Rmult_lt_0_compat; lra). lra. }
  assert (Ia : 0 < / a <= / q) by (split; [apply Rinv_0_lt_compat; lra|apply Rinv_le_contravar; lra]).
  assert (Ib : 0 < / b <= / q) by (split; [apply Rinv_0_lt_compat; lra|apply Rinv_le_contravar; lra]).
  set (i := / a) in *. set (j := / b) in *. set (k := / q) in *.
  replace (/ (a * a * a)) with (i * i * i) by (unfold i; field; lra).
  replace (Rabs (b - a) * ((a * a + a * b + b * b) / (a * a * a * (b * b * b))) * b) with (Rabs (b - a) * (i * j * j + i * i * j + i * i * i)) by (unfold i, j; field; lra).
  replace (4 / (q * q * q)) with (k * k * k + 3 * (k * k * k)) by (unfold k; field; lra). clearbody i j k.
  assert (T3 : forall p r s, 0 < p <= k -> 0 < r <= k -> 0 < s <= k -> 0 <= p * r * s <= k * k * k).
  { intros p r s Hp Hr Hs. assert (0 <= p * r <= k * k) by (split; [apply Rmult_le_pos; lra|apply Rmult_le_compat; lra]).
    split; [apply Rmult_le_pos; lra|apply Rmult_le_compat; lra]. }
  assert (A1 := T3 i i i Ia Ia Ia). assert (A2 := T3 i j j Ia Ib Ib). assert (A3 := T3 i i j Ia Ia Ib).
  rewrite Rmult_plus_distr_r. apply Rplus_le_compat.
  - apply Rmult_le_compat_r; [apply norm_pos|lra].
  - rewrite (Rmult_comm _ d). apply Rmult_le_compat; [apply Rabs_pos|lra|exact Hd|lra].
Qed.

Lemma gronwall0 : forall (D D' : R -> R) L, (forall t : R, is_derive D t (D' t)) -> (forall t, Rabs (D' t) <= L * D t) -> D 0 = 0 ->
  forall t, D t <= 0.
Proof.
  intros D D' L HD HB H0 t.
  assert (G : forall e t, is_derive (fun t => D t * Rtrigo_def.exp (e * t)) t (D' t * Rtrigo_def.exp (e * t) + D t * (e * Rtrigo_def.exp (e * t)))).
  { intros e s. apply (is_derive_times D (fun t => Rtrigo_def.exp (e * t))); [apply HD|].
    apply is_derive_cong with (fun t => Rtrigo_def.exp (e * t)) (e * Rtrigo_def.exp (e * s)); [easy|reflexivity|]. auto_derive; [easy|]. req. ring. }
  assert (P := exp_pos).
  destruct (Rle_lt_dec 0 t) as [Ht|Ht].
  - assert (C : D t * Rtrigo_def.exp (- L * t) <= D 0 * Rtrigo_def.exp (- L * 0)).
    { destruct (MVT_gen (fun t => D t * Rtrigo_def.exp (- L * t)) 0 t _ (fun s _ => G (- L) s)) as (c & Hc & E).
      - intros y _. apply derivable_continuous_pt. eexists. apply is_derive_Reals, G.
      - cbv beta in E. assert (B := HB c). apply Rabs_le_between in B.
        assert (Q : (D' c * Rtrigo_def.exp (- L * c) + D c * (- L * Rtrigo_def.exp (- L * c))) * (t - 0) <= 0).
        { replace (D' c * Rtrigo_def.exp (- L * c) + D c * (- L * Rtrigo_def.exp (- L * c))) with (- ((L * D c - D' c) * Rtrigo_def.exp (- L * c))) by ring.
          assert (0 <= (L * D c - D' c) * Rtrigo_def.exp (- L * c)) by (apply Rmult_le_pos; [lra|left; apply P]).
          assert (0 <= (L * D c - D' c) * Rtrigo_def.exp (- L * c) * (t - 0)) by (apply Rmult_le_pos; lra). lra. }
        lra. }
    rewrite H0, Rmult_0_l in C. assert (Pt := P (- L * t)). nra.
  - assert (C : D t * Rtrigo_def.exp (L * t) <= D 0 * Rtrigo_def.exp (L * 0)).
    { destruct (MVT_gen (fun t => D t * Rtrigo_def.exp (L * t)) 0 t _ (fun s _ => G L s)) as (c & Hc & E).
      - intros y _. apply derivable_continuous_pt. eexists. apply is_derive_Reals, G.
      - cbv beta in E. assert (B := HB c). apply Rabs_le_between in B.
        assert (Q : (D' c * Rtrigo_def.exp (L * c) + D c * (L * Rtrigo_def.exp (L * c))) * (t - 0) <= 0).
        { replace (D' c * Rtrigo_def.exp (L * c) + D c * (L * Rtrigo_def.exp (L * c))) with ((L * D c + D' c) * Rtrigo_def.exp (L * c)) by ring.
          assert (0 <= (L * D c + D' c) * Rtrigo_def.exp (L * c)) by (apply Rmult_le_pos; [lra|left; apply P]).
          assert (0 <= (L * D c + D' c) * Rtrigo_def.exp (L * c) * (0 - t)) by (apply Rmult_le_pos; lra). lra. }
        lra. }
    rewrite H0, Rmult_0_l in C. assert (Pt := P (L * t)). nra.
Qed.

Theorem motion_unique : forall mu X V Y W, 0 < mu -> cross (X 0) (V 0) <> vzero -> motion mu X V -> motion mu Y W ->
  X 0 = Y 0 -> V 0 = W 0 -> forall t, X t = Y t /\ V t = W t.
Proof.
  intros mu X V Y W Hmu Hh MX MY E0 E0' t.
  set (q := Rmin (mo_q mu X V) (mo_q mu Y W)).
  assert (Hh' : cross (Y 0) (W 0) <> vzero) by (rewrite <- E0, <- E0'; exact Hh).
  assert (Hq : 0 < q) by (apply Rmin_pos; apply mo_q_pos; assumption).
  assert (LX : forall t, q <= norm (X t)) by (intros; eapply Rle_trans; [apply Rmin_l|apply mo_lower; assumption]).
  assert (LY : forall t, q <= norm (Y t)) by (intros; eapply Rle_trans; [apply Rmin_r|apply mo_lower; assumption]).
  set (D := fun t => dot (vsub (X t) (Y t)) (vsub (X t) (Y t)) + dot (vsub (V t) (W t)) (vsub (V t) (W t))).
  set (L := 1 + mu * (4 / (q * q * q))).
  assert (Z : D t <= 0).
  { set (aX := fun t => scale (- mu / (norm (X t) * norm (X t) * norm (X t))) (X t)).
    set (aY := fun t => scale (- mu / (norm (Y t) * norm (Y t) * norm (Y t))) (Y t)).
    apply (gronwall0 D (fun t => 2 * dot (vsub (X t) (Y t)) (vsub (V t) (W t)) + 2 * dot (vsub (V t) (W t)) (vsub (aX t) (aY t))) L).
    - intros s. destruct (MX s) as (_ & D1 & D2). destruct (MY s) as (_ & D3 & D4).
      assert (A1 := vderiv_minus _ _ _ _ _ D1 D3). assert (A2 := vderiv_minus _ _ _ _ _ D2 D4).
      assert (Dp := is_derive_plus (fun t => dot (vsub (X t) (Y t)) (vsub (X t) (Y t))) (fun t => dot (vsub (V t) (W t)) (vsub (V t) (W t))) s _ _
        (vderiv_dot _ _ _ _ _ A1 A1) (vderiv_dot _ _ _ _ _ A2 A2)).
      refine (is_derive_cong _ _ s _ _ (fun _ => eq_refl) _ Dp).
      fold (aX s) (aY s). unfold plus; cbn. unfold dot, vsub; cbn. ring.
    - intros s. set (d := vsub (X s) (Y s)). set (e := vsub (V s) (W s)).
      assert (Lip := attraction_lip q (X s) (Y s) Hq (LX s) (LY s)).
      assert (A : norm (vsub (aX s) (aY s)) <= mu * (4 / (q * q * q)) * norm d).
      { replace (vsub (aX s) (aY s)) with (scale (- mu) (vsub (scale (/ (norm (X s) * norm (X s) * norm (X s))) (X s)) (scale (/ (norm (Y s) * norm (Y s) * norm (Y s))) (Y s)))).
        - rewrite norm_scale_abs, Rabs_Ropp, (Rabs_pos_eq mu) by lra. rewrite (Rmult_assoc mu). apply Rmult_le_compat_l; [lra|exact Lip].
        - unfold aX, aY, vsub, scale; cbn. assert (PX := LX s). assert (PY := LY s). f_equal; field; lra. }
      unfold D. fold d e. rewrite <- !norm_sq. assert (Nd := norm_pos d). assert (Ne := norm_pos e).
      assert (C1 := cauchy_abs d e). assert (C2 := cauchy_abs e (vsub (aX s) (aY s))).
      set (k := mu * (4 / (q * q * q))) in *. assert (Hk : 0 <= k).
      { unfold k. apply Rmult_le_pos; [lra|]. left. apply Rdiv_lt_0_compat; [lra|]. repeat apply Rmult_lt_0_compat; exact Hq. }
      assert (C3 : norm e * norm (vsub (aX s) (aY s)) <= norm e * (k * norm d)) by (apply Rmult_le_compat_l; [exact Ne|exact A]).
      unfold L. fold k. eapply Rle_trans; [apply Rabs_triang|]. rewrite !Rabs_mult, (Rabs_pos_eq 2) by lra.
      set (nd := norm d) in *. set (ne := norm e) in *. clearbody nd ne k.
      assert (S2 : 2 * (nd * ne) <= nd * nd + ne * ne) by (generalize (Rle_0_sqr (nd - ne)); unfold Rsqr; lra).
      assert (S3 : k * (2 * (nd * ne)) <= k * (nd * nd + ne * ne)) by (apply Rmult_le_compat_l; lra). lra.
    - unfold D. rewrite E0, E0'. unfold dot, vsub; cbn. ring. }
  assert (S : forall a b : vec R, dot (vsub a b) (vsub a b) <= 0 -> a = b).
  { intros [a1 a2 a3] [b1 b2 b3]. unfold dot, vsub; cbn. intros S.
    assert (S1 := Rle_0_sqr (a1 - b1)). assert (S2 := Rle_0_sqr (a2 - b2)). assert (S3 := Rle_0_sqr (a3 - b3)). unfold Rsqr in *.
    f_equal; apply Rminus_diag_uniq, Rsqr_0_uniq; unfold Rsqr; lra. }
  unfold D in Z. assert (Q : forall a : vec R, 0 <= dot a a) by (intros; rewrite <- norm_sq; apply Rmult_le_pos; apply norm_pos).
  assert (Q1 := Q (vsub (X t) (Y t))). assert (Q2 := Q (vsub (V t) (W t))). split; apply S; lra.
Qed.
