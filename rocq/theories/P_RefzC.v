(** * palRefz beyond 83 degrees; continuity. *)
From Coq Require Import Reals ZArith Lra Lia Psatz Bool.
From Coquelicot Require Import Coquelicot.
From Verif Require Import Num NumR Geom M_Sphere P_Sphere M_Refr P_Refr P_Refz.
From Interval Require Import Tactic.
Local Open Scope R_scope.
Local Notation tanR := Rtrigo1.tan.

(** the empirical high zenith distance formula, argument in degrees of elevation *)
Definition hizd (e : R) : R := (55445/100000 - 1133/100000 * e + 202/100000 * e ^ 2) / (1 + 28385/100000 * e + 2390/100000 * e ^ 2).
Definition Z83 : R := 83 * (PI / 180).
Lemma hizd_den : forall e, -3 <= e <= 7 -> 0 < 1 + 28385/100000 * e + 2390/100000 * e ^ 2.
Proof. intros e H. interval with (i_bisect e). Qed.
Lemma hizd_num : forall e, -3 <= e <= 7 -> 0 < 55445/100000 - 1133/100000 * e + 202/100000 * e ^ 2.
Proof. intros e H. interval with (i_bisect e). Qed.
Lemma hizd_pos : forall e, -3 <= e <= 7 -> 0 < hizd e.
Proof. intros e H. apply Rdiv_lt_0_compat; [now apply hizd_num|now apply hizd_den]. Qed.
Definition elev (zu : R) : R := 90 - Rmin 93 (Rmax 83 (zu * (180 / PI))).
Lemma elev_range : forall zu, -3 <= elev zu <= 7.
Proof. intros. unfold elev, Rmin, Rmax. repeat destruct (Rle_dec _ _); lra. Qed.
Lemma palRefz_all : forall zu a b,
  palRefz zu a b = zu - rz_ref (Rmin zu Z83) a b * (hizd (elev zu) / hizd 7).
Proof.
  intros zu a b. assert (P := PI_RGT_0). unfold palRefz. cbv zeta. rewrite !DMIN_R.
  assert (EZ : (rzZ83 : R) = Z83) by (unfold rzZ83, Z83, DD2R; rn; lra). rewrite EZ.
  assert (N7 := hizd_pos 7 ltac:(lra)).
  change (@ltb R RA) with Rltb. destruct (Rltb_spec (Rmin zu Z83) zu) as [L|L].
  - assert (Hz : Z83 < zu) by (unfold Rmin in L; destruct (Rle_dec zu Z83); lra).
    assert (HD : 83 < zu * (180 / PI)).
    { unfold Z83 in Hz. apply Rmult_lt_compat_r with (r := 180 / PI) in Hz; [|apply Rdiv_lt_0_compat; lra].
      replace (83 * (PI / 180) * (180 / PI)) with 83 in Hz by (field; lra). exact Hz. }
    assert (EE : sub #90.0%num (Rmin #93.0%num (mul zu DR2D)) = elev zu).
    { unfold elev, DR2D. rewrite (Rmax_right 83) by lra. rn. f_equal; [lra|]. f_equal; lra. }
    rewrite EE. assert (ER := elev_range zu). set (e := elev zu) in *.
    assert (D1 := hizd_den e ER). assert (D2 := hizd_den 7 ltac:(lra)). assert (N2 := hizd_num 7 ltac:(lra)).
    unfold rzREF83, rzC1, rzC2, rzC3, rzC4, rzC5, hizd. rn. f_equal.
    set (q := rz_ref _ a b). field. repeat split; try lra.
  - assert (Hz : zu <= Z83) by (unfold Rmin in L; destruct (Rle_dec zu Z83); lra).
    assert (HD : zu * (180 / PI) <= 83).
    { unfold Z83 in Hz. apply Rmult_le_compat_r with (r := 180 / PI) in Hz; [|left; apply Rdiv_lt_0_compat; lra].
      replace (83 * (PI / 180) * (180 / PI)) with 83 in Hz by (field; lra). exact Hz. }
    replace (elev zu) with 7; [rops; field; lra|].
    unfold elev. rewrite (Rmax_left 83) by lra. rewrite Rmin_right by lra. lra.
Qed.

(** ** Continuity *)
Lemma cont_Rmin : forall (f : R -> R) c x, continuous f x -> continuous (fun t => Rmin (f t) c) x.
Proof.
  intros f c x H. apply continuous_ext with (fun t => (f t + c - Rabs (f t - c)) / 2).
  { intros t. unfold Rmin, Rabs. destruct (Rle_dec _ _), (Rcase_abs _); lra. }
  apply (continuous_scal_l (K := R_AbsRing) (V := R_NormedModule) (fun t => (f t + c - Rabs (f t - c)))). 
  apply (continuous_minus (V := R_NormedModule)).
  - apply (continuous_plus (V := R_NormedModule)); [exact H|apply continuous_const].
  - apply (continuous_comp (fun t => f t - c) Rabs); [|apply continuous_Rabs].
    apply (continuous_minus (V := R_NormedModule)); [exact H|apply continuous_const].
Qed.
Lemma cont_Rmax : forall (f : R -> R) c x, continuous f x -> continuous (fun t => Rmax c (f t)) x.
Proof.
  intros f c x H. apply continuous_ext with (fun t => - Rmin (- f t) (- c)).
  { intros t. unfold Rmin, Rmax. destruct (Rle_dec _ _), (Rle_dec _ _); lra. }
  apply (continuous_opp (V := R_NormedModule)). apply cont_Rmin. apply (continuous_opp (V := R_NormedModule)), H.
Qed.
Lemma cont_hizd : forall e, -3 <= e <= 7 -> continuous hizd e.
Proof.
  intros e H. apply (ex_derive_continuous (V := R_NormedModule)). unfold hizd. auto_derive.
  assert (D := hizd_den e H). lra.
Qed.
Lemma cont_elev : forall zu, continuous elev zu.
Proof.
  intros zu. unfold elev. apply (continuous_minus (V := R_NormedModule)); [apply continuous_const|].
  apply continuous_ext with (fun t => Rmin (Rmax 83 (t * (180 / PI))) 93).
  { intros t. apply Rmin_comm. }
  apply cont_Rmin, cont_Rmax. apply (ex_derive_continuous (V := R_NormedModule)). auto_derive. easy.
Qed.
Lemma refz_regular : forall a b zu, 0 <= a <= 3 / 10000 -> - (4 / 10000000) <= b <= 0 -> Rabs zu <= Z83 ->
  let z1 := rz_first zu a b in cosR zu <> 0 /\ modelF1 a b zu <> 0 /\ cosR z1 <> 0 /\ modelF1 a b z1 <> 0.
Proof.
  intros a b zu Ha Hb Hu z1. unfold Z83 in Hu.
  set (Zm := 83 * (PI / 180) + 3 / 1000). set (T := 84/10).
  assert (HZ : 0 <= Zm < PI / 2) by (unfold Zm; split; interval).
  assert (Ht : tanR Zm <= T) by (unfold Zm, T; interval).
  assert (H9 : 0 <= T <= 9) by (unfold T; lra).
  assert (TB : forall t, Rabs t <= Zm -> Rabs (tanR t) <= T) by (intros t Hx; apply (tan_bound Zm); [lra|easy|easy]).
  assert (CN : forall t, Rabs t <= Zm -> cosR t <> 0) by (intros t Hx; apply cos_nz; lra).
  assert (LB : forall t, Rabs t <= Zm -> 99/100 <= modelF1 a b t).
  { intros t Hx. eapply Rle_trans; [|apply (F1_bound a b (3/10000) T); auto; lra]. unfold T; lra. }
  assert (Zu : Rabs zu <= Zm) by (unfold Zm; lra).
  assert (E0 := F0_bound a b (3/10000) T ltac:(lra) Ha Hb H9 zu (TB _ Zu)).
  assert (R1 : z1 = zu - (modelF a b zu - zu) / modelF1 a b zu) by (apply rz_first_val; auto).
  assert (D1' : Rabs (z1 - zu) <= Rabs (modelF a b zu - zu) / (99/100)).
  { rewrite R1. replace (zu - (modelF a b zu - zu) / modelF1 a b zu - zu) with (- ((modelF a b zu - zu) / modelF1 a b zu)) by ring.
    rewrite Rabs_Ropp. unfold Rdiv at 1. rewrite Rabs_mult. unfold Rdiv. apply Rmult_le_compat_l; [apply Rabs_pos|].
    specialize (LB zu Zu). rewrite Rabs_pos_eq by (left; apply Rinv_0_lt_compat; lra). apply Rinv_le_contravar; lra. }
  assert (Z1 : Rabs z1 <= Zm).
  { replace z1 with (zu + (z1 - zu)) by ring. eapply Rle_trans; [apply Rabs_triang|]. unfold Zm, T in *. lra. }
  assert (L1 := LB zu Zu). assert (L2 := LB z1 Z1).
  repeat split; [now apply CN|lra|now apply CN|lra].
Qed.
Lemma rz_den : forall a b z, cosR z <> 0 ->
  1 + (a + 3 * b * (sinR z / cosR z * (sinR z / cosR z))) / (cosR z * cosR z) = modelF1 a b z.
Proof. intros a b z H. rewrite sec2 by easy. rewrite tan_val. unfold modelF1. ring. Qed.
Lemma rz_first_deriv : forall a b z, cosR z <> 0 -> modelF1 a b z <> 0 -> ex_derive (fun z => rz_first z a b) z.
Proof.
  intros a b z H1 H2.
  apply ex_derive_ext with (fun z => z - (a * (sinR z / cosR z) + b * (sinR z / cosR z * (sinR z / cosR z * (sinR z / cosR z)))) /
    (1 + (a + 3 * b * (sinR z / cosR z * (sinR z / cosR z))) / (cosR z * cosR z))).
  { intros t. unfold rz_first. cbv zeta. rops. replace (litR 1.0) with 1 by (rlit; lra). replace (litR 3.0) with 3 by (rlit; lra). reflexivity. }
  auto_derive. fold (cosR z). repeat split; try easy.
  - now apply Rmult_integral_contrapositive_currified.
  - rewrite <- (rz_den a b z H1) in H2. exact H2.
Qed.
Lemma rz_ref_deriv : forall a b z, cosR z <> 0 -> modelF1 a b z <> 0 ->
  cosR (rz_first z a b) <> 0 -> modelF1 a b (rz_first z a b) <> 0 -> ex_derive (fun z => rz_ref z a b) z.
Proof.
  intros a b z H1 H2 H3 H4. assert (D := rz_first_deriv a b z H1 H2).
  apply ex_derive_ext with (fun z => z - rz_first z a b + (rz_first z a b - z + a * (sinR (rz_first z a b) / cosR (rz_first z a b)) +
    b * (sinR (rz_first z a b) / cosR (rz_first z a b) * (sinR (rz_first z a b) / cosR (rz_first z a b) * (sinR (rz_first z a b) / cosR (rz_first z a b))))) /
    (1 + (a + 3 * b * (sinR (rz_first z a b) / cosR (rz_first z a b) * (sinR (rz_first z a b) / cosR (rz_first z a b)))) /
     (cosR (rz_first z a b) * cosR (rz_first z a b)))).
  { intros t. unfold rz_ref. cbv zeta. rops. replace (litR 1.0) with 1 by (rlit; lra). replace (litR 3.0) with 3 by (rlit; lra). reflexivity. }
  revert D H3 H4. set (f := fun z => rz_first z a b). intros D H3 H4.
  change (rz_first z a b) with (f z) in *. change (ex_derive f z) in D.
  apply ex_derive_ext with (fun z => z - f z + (f z - z + a * (sinR (f z) / cosR (f z)) +
    b * (sinR (f z) / cosR (f z) * (sinR (f z) / cosR (f z) * (sinR (f z) / cosR (f z))))) /
    (1 + (a + 3 * b * (sinR (f z) / cosR (f z) * (sinR (f z) / cosR (f z)))) / (cosR (f z) * cosR (f z)))); [reflexivity|].
  clearbody f. auto_derive. repeat split; try easy.
  - now apply Rmult_integral_contrapositive_currified.
  - rewrite <- (rz_den a b (f z) H3) in H4. exact H4.
Qed.
Lemma palRefz_cont : forall a b zu, 0 <= a <= 3 / 10000 -> - (4 / 10000000) <= b <= 0 -> - Z83 <= zu ->
  continuous (fun z => palRefz z a b) zu.
Proof.
  intros a b zu Ha Hb Hz.
  apply continuous_ext with (fun z => z - rz_ref (Rmin z Z83) a b * (hizd (elev z) / hizd 7)).
  { intros t. now rewrite palRefz_all. }
  apply (continuous_minus (V := R_NormedModule)); [apply continuous_id|].
  apply (continuous_mult (K := R_AbsRing)).
  - apply (continuous_comp (fun z => Rmin z Z83) (fun z => rz_ref z a b)).
    + apply cont_Rmin, continuous_id.
    + apply (ex_derive_continuous (V := R_NormedModule)).
      assert (0 < Z83) by (unfold Z83; interval).
      assert (A : Rabs (Rmin zu Z83) <= Z83) by (apply Rabs_le; unfold Rmin; destruct (Rle_dec _ _); lra).
      destruct (refz_regular a b _ Ha Hb A) as (C1 & C2 & C3 & C4). now apply rz_ref_deriv.
  - apply (continuous_scal_l (K := R_AbsRing) (V := R_NormedModule) (fun z => hizd (elev z)) (/ hizd 7)).
    apply (continuous_comp elev hizd); [apply cont_elev|apply cont_hizd, elev_range].
Qed.
