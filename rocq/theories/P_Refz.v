(** * The A tanR z + B tan^3 z model, Newton steps, palRefz and palRefv. *)
From Coq Require Import Reals ZArith Lra Lia Psatz Bool.
From Verif Require Import Num NumR Geom M_Sphere P_Sphere M_Refr P_Refr.
From Interval Require Import Tactic.
Local Open Scope R_scope.
Local Notation tanR := Rtrigo1.tan.

(** ** Taylor's inequality of second order *)
Lemma taylor2_up : forall lo hi f f1 f2 M x x0,
  (forall t, lo <= t <= hi -> derivable_pt_lim f t (f1 t)) ->
  (forall t, lo <= t <= hi -> derivable_pt_lim f1 t (f2 t)) ->
  (forall t, lo <= t <= hi -> f2 t <= M) ->
  lo <= x <= hi -> lo <= x0 <= hi ->
  f x - f x0 - f1 x0 * (x - x0) <= M / 2 * (x - x0) ^ 2.
Proof.
  intros lo hi f f1 f2 M x x0 D1 D2 HM Hx Hx0.
  set (h := fun t => f t - f1 x0 * t - M / 2 * (t - x0) ^ 2).
  assert (Dh : forall t, lo <= t <= hi -> derivable_pt_lim h t (f1 t - f1 x0 - M * (t - x0))).
  { intros t Ht. unfold h.
    replace (f1 t - f1 x0 - M * (t - x0)) with ((f1 t - f1 x0 * 1) - M / 2 * (2 * (t - x0) * (1 - 0))) by lra.
    apply derivable_pt_lim_minus; [apply derivable_pt_lim_minus; [now apply D1|]|].
    - apply (derivable_pt_lim_scal (fun t => t)), derivable_pt_lim_id.
    - apply (derivable_pt_lim_scal (fun t => (t - x0) ^ 2)).
      apply (derivable_pt_lim_comp (fun t => t - x0) (fun u => u ^ 2) t).
      + apply derivable_pt_lim_minus; [apply derivable_pt_lim_id|apply derivable_pt_lim_const].
      + replace (2 * (t - x0)) with (INR 2 * (t - x0) ^ (pred 2)) by (cbn; lra). apply derivable_pt_lim_pow. }
  assert (K : forall u, lo <= u <= hi -> (x0 <= u -> f1 u - f1 x0 - M * (u - x0) <= 0) /\ (u <= x0 -> 0 <= f1 u - f1 x0 - M * (u - x0))).
  { intros u Hu. destruct (Rtotal_order x0 u) as [L|[->|L]].
    - destruct (MVT_cor2 f1 f2 x0 u L) as (c & E & Hc); [intros; apply D2; lra|].
      assert (f2 c <= M) by (apply HM; lra). split; [intros _; nra|lra].
    - split; intros; lra.
    - destruct (MVT_cor2 f1 f2 u x0 L) as (c & E & Hc); [intros; apply D2; lra|].
      assert (f2 c <= M) by (apply HM; lra). split; [lra|intros _; nra]. }
  assert (h x <= h x0).
  { destruct (Rtotal_order x0 x) as [L|[->|L]]; [|lra|].
    - destruct (MVT_cor2 h _ x0 x L (fun c Hc => Dh c ltac:(lra))) as (c & E & Hc).
      destruct (K c ltac:(lra)) as [K1 _]. specialize (K1 ltac:(lra)). nra.
    - destruct (MVT_cor2 h _ x x0 L (fun c Hc => Dh c ltac:(lra))) as (c & E & Hc).
      destruct (K c ltac:(lra)) as [_ K1]. specialize (K1 ltac:(lra)). nra. }
  unfold h in H. nra.
Qed.
Lemma taylor2 : forall lo hi f f1 f2 M x x0,
  (forall t, lo <= t <= hi -> derivable_pt_lim f t (f1 t)) ->
  (forall t, lo <= t <= hi -> derivable_pt_lim f1 t (f2 t)) ->
  (forall t, lo <= t <= hi -> Rabs (f2 t) <= M) ->
  lo <= x <= hi -> lo <= x0 <= hi ->
  Rabs (f x - f x0 - f1 x0 * (x - x0)) <= M / 2 * (x - x0) ^ 2.
Proof.
  intros lo hi f f1 f2 M x x0 D1 D2 HM Hx Hx0. apply Rabs_le. split.
  - assert (K : (- f)%F x - (- f)%F x0 - (- f1)%F x0 * (x - x0) <= M / 2 * (x - x0) ^ 2).
    { apply (taylor2_up lo hi _ _ (- f2)%F); try easy.
      - intros t Ht. apply derivable_pt_lim_opp, D1, Ht.
      - intros t Ht. apply derivable_pt_lim_opp, D2, Ht.
      - intros t Ht. generalize (HM t Ht). unfold opp_fct, Rabs. destruct (Rcase_abs _); lra. }
    unfold opp_fct in K. lra.
  - apply (taylor2_up lo hi _ _ f2); try easy. intros t Ht. generalize (HM t Ht). unfold Rabs. destruct (Rcase_abs _); lra.
Qed.

(** ** The model and its derivatives *)
Definition modelF (a b z : R) : R := z + a * tanR z + b * tanR z ^ 3.
Definition modelF1 (a b z : R) : R := 1 + (a + 3 * b * tanR z ^ 2) * (1 + tanR z ^ 2).
Definition modelF2 (a b z : R) : R := tanR z * (1 + tanR z ^ 2) * (2 * a + 6 * b * (1 + 2 * tanR z ^ 2)).
Lemma tan_deriv : forall z, cosR z <> 0 -> derivable_pt_lim tanR z (1 + tanR z ^ 2).
Proof.
  intros z H. replace (1 + tanR z ^ 2) with ((cosR z * cosR z - - sinR z * sinR z) / Rsqr (cosR z)).
  2: { unfold tanR, Rsqr. assert (Q := sc2 z). field; easy. }
  apply (derivable_pt_lim_div sinR cosR); [apply derivable_pt_lim_sin|apply derivable_pt_lim_cos|easy].
Qed.
Lemma tan_pow_deriv : forall n z, cosR z <> 0 ->
  derivable_pt_lim (fun z => tanR z ^ n) z (INR n * tanR z ^ pred n * (1 + tanR z ^ 2)).
Proof.
  intros n z H. apply (derivable_pt_lim_comp tanR (fun u => u ^ n)); [now apply tan_deriv|apply derivable_pt_lim_pow].
Qed.
Lemma modelF_deriv : forall a b z, cosR z <> 0 -> derivable_pt_lim (modelF a b) z (modelF1 a b z).
Proof.
  intros a b z H. unfold modelF, modelF1.
  replace (1 + (a + 3 * b * tanR z ^ 2) * (1 + tanR z ^ 2)) with
    ((1 + a * (1 + tanR z ^ 2)) + b * (INR 3 * tanR z ^ pred 3 * (1 + tanR z ^ 2))) by (cbn; ring).
  apply derivable_pt_lim_plus; [apply derivable_pt_lim_plus; [apply derivable_pt_lim_id|]|].
  - apply (derivable_pt_lim_scal tanR), tan_deriv, H.
  - apply (derivable_pt_lim_scal (fun z => tanR z ^ 3)), tan_pow_deriv, H.
Qed.
Lemma modelF1_deriv : forall a b z, cosR z <> 0 -> derivable_pt_lim (modelF1 a b) z (modelF2 a b z).
Proof.
  intros a b z H.
  assert (E : forall t, modelF1 a b t = (1 + a) + (a + 3 * b) * tanR t ^ 2 + 3 * b * tanR t ^ 4) by (intros; unfold modelF1; ring).
  assert (K : derivable_pt_lim (fun t => (1 + a) + (a + 3 * b) * tanR t ^ 2 + 3 * b * tanR t ^ 4) z
    (0 + (a + 3 * b) * (INR 2 * tanR z ^ pred 2 * (1 + tanR z ^ 2)) + 3 * b * (INR 4 * tanR z ^ pred 4 * (1 + tanR z ^ 2)))).
  { apply derivable_pt_lim_plus; [apply derivable_pt_lim_plus; [apply derivable_pt_lim_const|]|].
    - apply (derivable_pt_lim_scal (fun z => tanR z ^ 2)), tan_pow_deriv, H.
    - apply (derivable_pt_lim_scal (fun z => tanR z ^ 4)), tan_pow_deriv, H. }
  replace (modelF2 a b z) with (0 + (a + 3 * b) * (INR 2 * tanR z ^ pred 2 * (1 + tanR z ^ 2)) + 3 * b * (INR 4 * tanR z ^ pred 4 * (1 + tanR z ^ 2)))
    by (unfold modelF2; cbn; ring).
  intros eps He. destruct (K eps He) as (d & Hd). exists d. intros h H0 H1. rewrite !E. apply Hd; easy.
Qed.

Lemma newton_step : forall lo hi a b y z M m,
  (forall t, lo <= t <= hi -> cosR t <> 0) ->
  (forall t, lo <= t <= hi -> Rabs (modelF2 a b t) <= M) -> 0 <= M ->
  lo <= z <= hi -> 0 < m <= modelF1 a b z ->
  let z' := z - (modelF a b z - y) / modelF1 a b z in lo <= z' <= hi ->
  Rabs (z' - z) <= Rabs (modelF a b z - y) / m /\
  Rabs (modelF a b z' - y) <= M / 2 * (Rabs (modelF a b z - y) / m) ^ 2.
Proof.
  intros lo hi a b y z M m Hc HM M0 Hz Hm z' Hz'.
  assert (T := taylor2 lo hi (modelF a b) (modelF1 a b) (modelF2 a b) M z' z
    (fun t Ht => modelF_deriv a b t (Hc t Ht)) (fun t Ht => modelF1_deriv a b t (Hc t Ht)) HM Hz' Hz).
  assert (E : modelF1 a b z * (z' - z) = - (modelF a b z - y)) by (unfold z'; field; lra).
  rewrite E in T. replace (modelF a b z' - modelF a b z - - (modelF a b z - y)) with (modelF a b z' - y) in T by ring.
  assert (D : Rabs (z' - z) <= Rabs (modelF a b z - y) / m).
  { replace (z' - z) with (- ((modelF a b z - y) / modelF1 a b z)) by (unfold z'; ring).
    rewrite Rabs_Ropp. unfold Rdiv. rewrite Rabs_mult. apply Rmult_le_compat_l; [apply Rabs_pos|].
    rewrite Rabs_pos_eq by (left; apply Rinv_0_lt_compat; lra). apply Rinv_le_contravar; lra. }
  split; [exact D|]. eapply Rle_trans; [exact T|]. apply Rmult_le_compat_l; [lra|].
  rewrite <- (pow2_abs (z' - z)).
  apply pow_incr. split; [apply Rabs_pos|exact D].
Qed.
Lemma tan_val : forall z, sinR z / cosR z = tanR z. Proof. reflexivity. Qed.
Lemma sec2 : forall z x, cosR z <> 0 -> x / (cosR z * cosR z) = x * (1 + tanR z ^ 2).
Proof.
  intros z x H. unfold tanR. assert (Q := sc2 z).
  replace (1 + (sinR z / cosR z) ^ 2) with ((sinR z * sinR z + cosR z * cosR z) / (cosR z * cosR z)) by (field; easy).
  rewrite Q. field. easy.
Qed.
Lemma rz_first_val : forall z a b, cosR z <> 0 ->
  rz_first z a b = z - (modelF a b z - z) / modelF1 a b z.
Proof.
  intros z a b H. unfold rz_first, modelF, modelF1. cbv zeta. rops.
  replace (litR 1.0) with 1 by (rlit; lra). replace (litR 3.0) with 3 by (rlit; lra).
  rewrite tan_val, sec2 by easy. f_equal. f_equal; [ring|]. f_equal. ring.
Qed.
Lemma rz_ref_val : forall z a b, let z1 := rz_first z a b in cosR z1 <> 0 ->
  z - rz_ref z a b = z1 - (modelF a b z1 - z) / modelF1 a b z1.
Proof.
  intros z a b z1 H. unfold rz_ref. cbv zeta. fold z1. unfold modelF, modelF1. rops.
  replace (litR 1.0) with 1 by (rlit; lra). replace (litR 3.0) with 3 by (rlit; lra).
  rewrite tan_val, sec2 by easy.
  replace (z1 - z + a * tanR z1 + b * (tanR z1 * (tanR z1 * tanR z1))) with (z1 + a * tanR z1 + b * tanR z1 ^ 3 - z) by ring.
  replace ((a + 3 * b * (tanR z1 * tanR z1)) * (1 + tanR z1 ^ 2)) with ((a + 3 * b * tanR z1 ^ 2) * (1 + tanR z1 ^ 2)) by ring.
  unfold Rdiv. ring.
Qed.
Lemma palRefz_low : forall zu a b, zu <= 83 * (PI / 180) -> palRefz zu a b = zu - rz_ref zu a b.
Proof.
  intros zu a b H. unfold palRefz. cbv zeta.
  assert (E : DMIN zu rzZ83 = zu).
  { rewrite DMIN_R. unfold rzZ83, DD2R. rn. apply Rmin_left. lra. }
  rewrite E. rops. rewrite (Rltb_false zu zu) by lra. reflexivity.
Qed.

(** bounds for the tangent on |z| <= zmax *)
Lemma tan_bound : forall zmax tmax z, 0 <= zmax < PI / 2 -> tanR zmax <= tmax -> Rabs z <= zmax -> Rabs (tanR z) <= tmax.
Proof.
  intros zmax tmax z Hm Ht Hz.
  assert (K : forall x, 0 <= x <= zmax -> 0 <= tanR x <= tmax).
  { intros x Hx. split.
    - destruct (Req_dec x 0) as [->|]; [rewrite tan_0; lra|]. left. apply tan_gt_0; lra.
    - destruct (Req_dec x zmax) as [->|]; [easy|]. left. apply Rlt_le_trans with (tanR zmax); [apply tan_increasing; assert (P := PI_RGT_0); lra|easy]. }
  destruct (Rle_dec 0 z) as [P|P].
  - rewrite Rabs_pos_eq in Hz by lra. rewrite Rabs_pos_eq; apply K; lra.
  - replace z with (- - z) by ring. rewrite tan_neg, Rabs_Ropp. rewrite Rabs_left in Hz by lra.
    rewrite Rabs_pos_eq; apply K; lra.
Qed.
Section Bounds.
  Variables (a b am T : R).
  Hypotheses (Ham : 2 / 10000 <= am) (Ha : 0 <= a <= am) (Hb : - (4 / 10000000) <= b <= 0) (HT : 0 <= T <= 9).
  Lemma F2_bound : forall z, Rabs (tanR z) <= T -> Rabs (modelF2 a b z) <= T * (1 + T ^ 2) * (2 * am).
  Proof.
    intros z H. unfold modelF2. rewrite !Rabs_mult.
    assert (S : tanR z ^ 2 <= T ^ 2) by (rewrite <- (pow2_abs (tanR z)); apply pow_incr; split; [apply Rabs_pos|easy]).
    assert (S0 : 0 <= tanR z ^ 2) by nra. set (q := tanR z ^ 2) in *.
    assert (T2 : T ^ 2 <= 81) by nra.
    apply Rmult_le_compat; [apply Rmult_le_pos; apply Rabs_pos|apply Rabs_pos|apply Rmult_le_compat; try apply Rabs_pos; [easy|]|].
    - rewrite Rabs_pos_eq by lra. lra.
    - apply Rabs_le. split; nra.
  Qed.
  Lemma F0_bound : forall z, Rabs (tanR z) <= T -> Rabs (modelF a b z - z) <= T * am.
  Proof.
    intros z H. unfold modelF.
    replace (z + a * tanR z + b * tanR z ^ 3 - z) with (tanR z * (a + b * tanR z ^ 2)) by ring. rewrite Rabs_mult.
    assert (S : tanR z ^ 2 <= T ^ 2) by (rewrite <- (pow2_abs (tanR z)); apply pow_incr; split; [apply Rabs_pos|easy]).
    assert (S0 : 0 <= tanR z ^ 2) by nra. set (q := tanR z ^ 2) in *.
    assert (T2 : T ^ 2 <= 81) by nra.
    apply Rmult_le_compat; try apply Rabs_pos; [easy|]. apply Rabs_le. split; nra.
  Qed.
  Lemma F1_bound : forall z, Rabs (tanR z) <= T -> 1 - 3 * (4 / 10000000) * T ^ 2 * (1 + T ^ 2) <= modelF1 a b z.
  Proof.
    intros z H. unfold modelF1.
    assert (S : tanR z ^ 2 <= T ^ 2) by (rewrite <- (pow2_abs (tanR z)); apply pow_incr; split; [apply Rabs_pos|easy]).
    assert (S0 : 0 <= tanR z ^ 2) by nra. set (q := tanR z ^ 2) in *.
    assert (q * (1 + q) <= T ^ 2 * (1 + T ^ 2)) by (apply Rmult_le_compat; lra).
    assert (- (4 / 10000000) * (T ^ 2 * (1 + T ^ 2)) <= b * (q * (1 + q))).
    { replace (b * (q * (1 + q))) with (- ((- b) * (q * (1 + q)))) by ring.
      replace (- (4 / 10000000) * (T ^ 2 * (1 + T ^ 2))) with (- ((4 / 10000000) * (T ^ 2 * (1 + T ^ 2)))) by ring.
      apply Ropp_le_contravar. apply Rmult_le_compat; nra. }
    assert (0 <= a * (1 + q)) by nra. nra.
  Qed.
End Bounds.

Lemma cos_nz : forall z, Rabs z < PI / 2 -> cosR z <> 0.
Proof. intros z H. apply Rabs_def2 in H. assert (0 < cosR z) by (apply cos_gt_0; lra). lra. Qed.
Lemma refz_resid : forall a b zu Zm T, 0 <= a <= 3 / 10000 -> - (4 / 10000000) <= b <= 0 ->
  0 <= T <= 86/10 -> 0 <= Zm < PI / 2 -> tanR Zm <= T -> Rabs zu + 3 / 1000 <= Zm ->
  let e1 := T * (1 + T ^ 2) * (3 / 10000) * (T * (3 / 10000) * (100 / 99)) ^ 2 in
  let e2 := T * (1 + T ^ 2) * (3 / 10000) * (e1 * (100 / 99)) ^ 2 in
  let z := zu - rz_ref zu a b in
  Rabs (z - zu) <= 3 / 1000 /\ Rabs (modelF a b z - zu) <= e2.
Proof.
  intros a b zu Zm T Ha Hb HT HZ Ht Hu e1 e2 z.
  assert (H9 : 0 <= T <= 9) by lra.
  assert (TB : forall t, - Zm <= t <= Zm -> Rabs (tanR t) <= T).
  { intros t Hx. apply (tan_bound Zm); [lra|easy|]. apply Rabs_le. lra. }
  assert (CN : forall t, - Zm <= t <= Zm -> cosR t <> 0).
  { intros t Hx. apply cos_nz. apply Rle_lt_trans with Zm; [apply Rabs_le|]; lra. }
  set (M := T * (1 + T ^ 2) * (2 * (3 / 10000))).
  assert (HM : forall t, - Zm <= t <= Zm -> Rabs (modelF2 a b t) <= M).
  { intros t Hx. apply (F2_bound a b (3/10000)); auto; lra. }
  assert (M0 : 0 <= M <= 387 / 1000) by (unfold M; split; [nra|interval]).
  assert (m1 : 0 < 99 / 100 <= 1 - 3 * (4 / 10000000) * T ^ 2 * (1 + T ^ 2)).
  { split; [lra|]. assert (T ^ 2 <= 7396/100) by nra. assert (0 <= T ^ 2) by nra. nra. }
  assert (LB : forall t, - Zm <= t <= Zm -> 0 < 99/100 <= modelF1 a b t).
  { intros t Hx. split; [lra|]. eapply Rle_trans; [apply m1|]. apply (F1_bound a b (3/10000)); auto; lra. }
  assert (Zu : - Zm <= zu <= Zm) by (unfold Rabs in Hu; destruct (Rcase_abs zu); lra).
  assert (E0 := F0_bound a b (3/10000) T ltac:(lra) Ha Hb H9 zu (TB _ Zu)).
  assert (R1 : rz_first zu a b = zu - (modelF a b zu - zu) / modelF1 a b zu) by (apply rz_first_val; auto).
  set (z1 := rz_first zu a b) in *.
  assert (D1' : Rabs (z1 - zu) <= Rabs (modelF a b zu - zu) / (99/100)).
  { rewrite R1. replace (zu - (modelF a b zu - zu) / modelF1 a b zu - zu) with (- ((modelF a b zu - zu) / modelF1 a b zu)) by ring.
    rewrite Rabs_Ropp. unfold Rdiv at 1. rewrite Rabs_mult. unfold Rdiv. apply Rmult_le_compat_l; [apply Rabs_pos|].
    destruct (LB zu Zu). rewrite Rabs_pos_eq by (left; apply Rinv_0_lt_compat; lra). apply Rinv_le_contravar; lra. }
  assert (D1 : Rabs (z1 - zu) <= 262 / 100000) by lra.
  assert (Z1 : - Zm <= z1 <= Zm).
  { unfold Rabs in Hu, D1. destruct (Rcase_abs zu), (Rcase_abs (z1 - zu)); lra. }
  destruct (newton_step (- Zm) Zm a b zu zu M (99/100) CN HM ltac:(lra) Zu (LB _ Zu)) as [_ N1]; [rewrite <- R1; exact Z1|].
  rewrite <- R1 in N1.
  assert (R2 : z = z1 - (modelF a b z1 - zu) / modelF1 a b z1) by (apply rz_ref_val; apply CN, Z1).
  assert (E1 : Rabs (modelF a b z1 - zu) <= e1).
  { eapply Rle_trans; [exact N1|]. unfold M, e1.
    replace (T * (1 + T ^ 2) * (2 * (3 / 10000)) / 2) with (T * (1 + T ^ 2) * (3 / 10000)) by lra.
    apply Rmult_le_compat_l; [nra|]. apply pow_incr. split; [|lra].
    unfold Rdiv. apply Rmult_le_pos; [apply Rabs_pos|lra]. }
  assert (E1b : 0 <= e1 <= 14 / 10000000) by (unfold e1; split; [nra|interval]).
  assert (D2 : Rabs (z - z1) <= 15 / 10000000).
  { rewrite R2. replace (z1 - (modelF a b z1 - zu) / modelF1 a b z1 - z1) with (- ((modelF a b z1 - zu) / modelF1 a b z1)) by ring.
    rewrite Rabs_Ropp. unfold Rdiv at 1. rewrite Rabs_mult. destruct (LB z1 Z1) as [_ L].
    rewrite (Rabs_pos_eq (/ _)) by (left; apply Rinv_0_lt_compat; lra).
    assert (/ modelF1 a b z1 <= / (99/100)) by (apply Rinv_le_contravar; lra).
    assert (0 < / modelF1 a b z1) by (apply Rinv_0_lt_compat; lra).
    assert (Rabs (modelF a b z1 - zu) * / modelF1 a b z1 <= 14/10000000 * / (99/100)).
    { apply Rmult_le_compat; [apply Rabs_pos|lra|lra|lra]. } lra. }
  assert (D3 : Rabs (z - zu) <= 3 / 1000).
  { replace (z - zu) with ((z - z1) + (z1 - zu)) by ring. eapply Rle_trans; [apply Rabs_triang|]. lra. }
  split; [exact D3|].
  assert (Z2 : - Zm <= z <= Zm).
  { unfold Rabs in Hu, D3. destruct (Rcase_abs zu), (Rcase_abs (z - zu)); lra. }
  destruct (newton_step (- Zm) Zm a b zu z1 M (99/100) CN HM ltac:(lra) Z1 (LB _ Z1)) as [_ N2]; [rewrite <- R2; exact Z2|].
  rewrite <- R2 in N2. eapply Rle_trans; [exact N2|]. unfold M, e2.
  replace (T * (1 + T ^ 2) * (2 * (3 / 10000)) / 2) with (T * (1 + T ^ 2) * (3 / 10000)) by lra.
  apply Rmult_le_compat_l; [nra|]. apply pow_incr. split; [|lra].
  unfold Rdiv. apply Rmult_le_pos; [apply Rabs_pos|lra].
Qed.
Lemma refz_80 : forall zu a b, 0 <= a <= 3 / 10000 -> - (4 / 10000000) <= b <= 0 -> Rabs zu <= 80 * (PI / 180) ->
  Rabs (modelF a b (palRefz zu a b) - zu) <= 3 / 10 ^ 15.
Proof.
  intros zu a b Ha Hb Hz.
  assert (Q : zu <= 83 * (PI / 180)) by (generalize (Rle_abs zu); assert (P := PI_RGT_0); lra).
  rewrite palRefz_low by easy.
  destruct (refz_resid a b zu (80 * (PI / 180) + 3/1000) (578/100) Ha Hb ltac:(lra)) as [_ K].
  - split; interval.
  - interval.
  - lra.
  - eapply Rle_trans; [exact K|]. cbn [pow]. lra.
Qed.
Lemma refz_83 : forall zu a b, 0 <= a <= 3 / 10000 -> - (4 / 10000000) <= b <= 0 -> Rabs zu <= 83 * (PI / 180) ->
  Rabs (modelF a b (palRefz zu a b) - zu) <= 3 / 10 ^ 13.
Proof.
  intros zu a b Ha Hb Hz.
  assert (Q : zu <= 83 * (PI / 180)) by (generalize (Rle_abs zu); lra).
  rewrite palRefz_low by easy.
  destruct (refz_resid a b zu (83 * (PI / 180) + 3/1000) (84/10) Ha Hb ltac:(lra)) as [_ K].
  - split; interval.
  - interval.
  - lra.
  - eapply Rle_trans; [exact K|]. cbn [pow]. lra.
Qed.
