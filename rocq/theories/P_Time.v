(** * Proofs about the calendar/sexagesimal routines at the reals. *)
From Coq Require Import Reals ZArith Lra Lia Psatz Bool.
From Flocq Require Import Core.Raux.
From Verif Require Import Num NumR Erfa M_Time P_Cal.
Local Open Scope R_scope.

Lemma Zfloor_uniq : forall x n, IZR n <= x < IZR n + 1 -> Zfloor x = n.
Proof. intros x n H. apply Zfloor_imp. rewrite plus_IZR. exact H. Qed.
Lemma fmod1 : forall x, fmodR x 1 = x - IZR (Ztrunc x).
Proof. intros. unfold fmodR. replace (x / 1) with x by field. ring. Qed.
Lemma trunc_frac : forall x, -1 < x - IZR (Ztrunc x) < 1.
Proof.
  intros x. unfold Ztrunc. case Rlt_bool_spec; intros H.
  - assert (A := Zceil_ub x). assert (B := Zceil_lb x). lra.
  - assert (A := Zfloor_lb x). assert (B := Zfloor_ub x). lra.
Qed.
(** the day/fraction split, whichever argument is the larger *)
Lemma jd2cal_R : forall dj1 dj2, - (685695 / 10) <= dj1 + dj2 <= 1000000000 ->
  let z := dj1 + dj2 - 1 / 2 in
  eraJd2cal dj1 dj2 = (0%Z, Some (jd2cal_z (Zfloor z + 1), z - IZR (Zfloor z))).
Proof.
  intros dj1 dj2 [H1 H2] z. unfold eraJd2cal. rn.
  rewrite Rltb_false by lra. rewrite Rltb_false by lra. cbn [orb].
  assert (K : forall d1 d2, d1 + d2 = dj1 + dj2 ->
    (let d0 := d2 - 5 / 10 in let f1 := fmodR d1 1 in let f2 := fmodR d0 1 in
     let f := fmodR (f1 + f2) 1 in let f0 := if Rltb f 0 then f + 1 else f in
     let d := IZR (Zfloor (d1 - f1)) + IZR (Zfloor (d0 - f2)) + IZR (Zfloor (f1 + f2 - f0)) in
     (0%Z, Some (jd2cal_z (Ztrunc (IZR (Zfloor d)) + 1), f0))) =
    (0%Z, Some (jd2cal_z (Zfloor z + 1), z - IZR (Zfloor z)))).
  { intros d1 d2 E. cbv zeta. rewrite !fmod1.
    set (a := Ztrunc d1). set (b := Ztrunc (d2 - 5 / 10)).
    replace (d1 - (d1 - IZR a)) with (IZR a) by ring.
    replace (d2 - 5 / 10 - (d2 - 5 / 10 - IZR b)) with (IZR b) by ring.
    set (g := d1 - IZR a + (d2 - 5 / 10 - IZR b)).
    assert (G := trunc_frac g). set (c := Ztrunc g) in *.
    rewrite !Zfloor_IZR.
    assert (W : exists k : Z, (if Rltb (g - IZR c) 0 then g - IZR c + 1 else g - IZR c) = g - IZR k /\ 0 <= g - IZR k < 1).
    { destruct (Rltb_spec (g - IZR c) 0).
      - exists (c - 1)%Z. rewrite minus_IZR. split; lra.
      - exists c. split; lra. }
    destruct W as (k & -> & Hk).
    replace (g - (g - IZR k)) with (IZR k) by ring. rewrite !Zfloor_IZR.
    rewrite <- !plus_IZR, Zfloor_IZR, Ztrunc_IZR.
    assert (Ez : z = IZR (a + b + k) + (g - IZR k)).
    { rewrite !plus_IZR. unfold z, g. lra. }
    assert (F : Zfloor z = (a + b + k)%Z) by (apply Zfloor_uniq; lra).
    rewrite F. do 2 f_equal. f_equal. lra. }
  destruct (Rleb_spec dj2 dj1); apply K; ring.
Qed.

Definition mjd_ok (djm : R) : Prop := - (685695 / 10) <= 24000005 / 10 + djm <= 1000000000.
Lemma djcl_R : forall djm, mjd_ok djm ->
  palDjcl djm = (0%Z, Some (cald (Zfloor djm + 2400001), djm - IZR (Zfloor djm))).
Proof.
  intros djm H. unfold palDjcl, MJD0. rn. unfold mjd_ok in H. rewrite jd2cal_R by exact H.
  assert (E : Zfloor (24000005 / 10 + djm - 1 / 2) = (Zfloor djm + 2400000)%Z).
  { apply Zfloor_uniq. rewrite plus_IZR. assert (A := Zfloor_lb djm). assert (B := Zfloor_ub djm). lra. }
  rewrite E. replace (Zfloor djm + 2400000 + 1)%Z with (Zfloor djm + 2400001)%Z by ring.
  rewrite jd2cal_z_cald.
  - do 3 f_equal. rewrite plus_IZR. lra.
  - assert (A : (-2468571 < Zfloor djm)%Z); [|lia].
    apply lt_IZR. assert (B := Zfloor_ub djm). lra.
Qed.
Lemma djcl_R_bad : forall djm, ~ mjd_ok djm -> palDjcl djm = ((-1)%Z, None).
Proof.
  intros djm H. unfold palDjcl, MJD0, eraJd2cal, mjd_ok in *. rn.
  destruct (Rltb_spec (24000005 / 10 + djm) (- (685695 / 10))); [easy|].
  rewrite Rltb_true by lra. easy.
Qed.

(** ** Rounding and splitting *)
Lemma DNINT_nonneg : forall x : R, 0 <= x -> DNINT x = IZR (Zfloor (x + 1 / 2)).
Proof. intros x H. unfold DNINT. rn. rewrite Rltb_false by lra. do 2 f_equal. lra. Qed.
Lemma DINT_div : forall n k : Z, (0 <= n)%Z -> (0 < k)%Z -> DINT (IZR n / IZR k) = IZR (n / k).
Proof.
  intros n k Hn Hk. unfold DINT. rn.
  assert (K : 0 < IZR k) by now apply IZR_lt.
  rewrite Rltb_false. 2:{ apply Rle_not_lt. apply Rmult_le_pos; [now apply IZR_le|left; now apply Rinv_0_lt_compat]. }
  f_equal. apply Zfloor_uniq.
  assert (A := Z.div_mod n k ltac:(lia)). assert (B := Z.mod_pos_bound n k Hk).
  apply (f_equal IZR) in A. rewrite plus_IZR, mult_IZR in A.
  assert (B1 : 0 <= IZR (n mod k)) by (apply IZR_le; lia).
  assert (B2 : IZR (n mod k) < IZR k) by (apply IZR_lt; lia).
  split.
  - apply Rmult_le_reg_r with (IZR k); [easy|]. field_simplify; lra.
  - apply Rmult_lt_reg_r with (IZR k); [easy|]. field_simplify; lra.
Qed.

(** nearest integer, halves upwards *)
Definition nearest (x : R) (n : Z) : Prop := IZR n - 1 / 2 <= x < IZR n + 1 / 2.
Lemma nearest_floor : forall x, nearest x (Zfloor (x + 1 / 2)).
Proof. intros x. assert (A := Zfloor_lb (x + 1 / 2)). assert (B := Zfloor_ub (x + 1 / 2)). unfold nearest. lra. Qed.
Lemma nearest_nonneg : forall x n, 0 <= x -> nearest x n -> (0 <= n)%Z.
Proof. intros x n H [A B]. assert (C : (-1 < n)%Z); [|lia]. apply lt_IZR. lra. Qed.

(** the split of a count of ticks *)
Lemma split_ticks : forall (N rs : Z), (0 <= N)%Z -> (0 < rs)%Z ->
  let rm := IZR rs * 60 in let rh := rm * 60 in
  let a := IZR N in
  let ah := DINT (a / rh) in let a := a - ah * rh in
  let am := DINT (a / rm) in let a := a - am * rm in
  let as_ := DINT (a / IZR rs) in let af := a - as_ * IZR rs in
  let h := Ztrunc ah in let m := Ztrunc am in let s := Ztrunc as_ in let f := Ztrunc af in
  N = (((h * 60 + m) * 60 + s) * rs + f)%Z /\ (0 <= h /\ 0 <= m < 60 /\ 0 <= s < 60 /\ 0 <= f < rs)%Z.
Proof.
  intros N rs HN Hrs rm rh a.
  assert (Erm : rm = IZR (rs * 60)) by (unfold rm; now rewrite mult_IZR).
  assert (Erh : rh = IZR (rs * 60 * 60)) by (unfold rh; rewrite Erm; now rewrite !mult_IZR).
  clearbody rm rh. subst rm rh. unfold a.
  rewrite DINT_div by lia. cbv zeta.
  rewrite <- mult_IZR, <- minus_IZR.
  replace (N - N / (rs * 60 * 60) * (rs * 60 * 60))%Z with (N mod (rs * 60 * 60))%Z
    by (rewrite Z.mod_eq by lia; ring).
  assert (B1 := Z.mod_pos_bound N (rs * 60 * 60) ltac:(lia)).
  set (N1 := (N mod (rs * 60 * 60))%Z) in *.
  rewrite DINT_div by lia. rewrite <- mult_IZR, <- minus_IZR.
  replace (N1 - N1 / (rs * 60) * (rs * 60))%Z with (N1 mod (rs * 60))%Z by (rewrite Z.mod_eq by lia; ring).
  assert (B2 := Z.mod_pos_bound N1 (rs * 60) ltac:(lia)).
  set (N2 := (N1 mod (rs * 60))%Z) in *.
  rewrite DINT_div by lia. rewrite <- mult_IZR, <- minus_IZR.
  replace (N2 - N2 / rs * rs)%Z with (N2 mod rs)%Z by (rewrite Z.mod_eq by lia; ring).
  assert (B3 := Z.mod_pos_bound N2 rs ltac:(lia)).
  rewrite !Ztrunc_IZR.
  assert (A1 := Z.div_mod N (rs * 60 * 60) ltac:(lia)). fold N1 in A1.
  assert (A2 := Z.div_mod N1 (rs * 60) ltac:(lia)). fold N2 in A2.
  assert (A3 := Z.div_mod N2 rs ltac:(lia)).
  assert (Q1 : (0 <= N / (rs * 60 * 60))%Z) by (apply Z.div_pos; lia).
  assert (Q2 : (0 <= N1 / (rs * 60) < 60)%Z).
  { split; [apply Z.div_pos; lia|]. apply Z.div_lt_upper_bound; lia. }
  assert (Q3 : (0 <= N2 / rs < 60)%Z).
  { split; [apply Z.div_pos; lia|]. apply Z.div_lt_upper_bound; lia. }
  split; [|lia]. nia.
Qed.

(** resolution in seconds for a negative number of decimals *)
Lemma coarse_pos : forall n, (0 < d2tf_coarse n)%Z.
Proof. induction n; cbn [d2tf_coarse]; [lia|]. destruct (_ || _)%bool; lia. Qed.
Lemma ten_pow_pos : forall n, (0 < 10 ^ Z.max 0 n)%Z.
Proof. intros. apply Z.pow_pos_nonneg; lia. Qed.

Lemma d2tf_R : forall ndp days,
  exists h m s f : Z, eraD2tf ndp days = (Rleb 0 days, (h, m, s, f)) /\
  (0 <= h /\ 0 <= m < 60 /\ 0 <= s < 60 /\ 0 <= f < 10 ^ Z.max 0 ndp)%Z /\
  ((0 <= ndp)%Z -> nearest (86400 * IZR (10 ^ ndp) * Rabs days) (((h * 60 + m) * 60 + s) * 10 ^ ndp + f)) /\
  ((ndp < 0)%Z -> f = 0%Z /\ exists k : Z, ((h * 60 + m) * 60 + s = d2tf_coarse (Z.to_nat (- ndp)) * k)%Z /\
     nearest (86400 * Rabs days / IZR (d2tf_coarse (Z.to_nat (- ndp)))) k).
Proof.
  intros ndp days. unfold eraD2tf. rn.
  assert (Hd := Rabs_pos days). set (x := 86400 * Rabs days).
  assert (Hx : 0 <= x) by (unfold x; lra).
  destruct (Z.ltb_spec ndp 0) as [Hn|Hn].
  - set (q := d2tf_coarse (Z.to_nat (- ndp))). assert (Hq : (0 < q)%Z) by apply coarse_pos.
    assert (Hq' : 0 < IZR q) by now apply IZR_lt.
    assert (Hxq : 0 <= x / IZR q) by (apply Rmult_le_pos; [easy|left; now apply Rinv_0_lt_compat]).
    rewrite (DNINT_nonneg (x / IZR q)) by easy.
    set (k := Zfloor (x / IZR q + 1 / 2)).
    assert (Nk : nearest (x / IZR q) k) by apply nearest_floor.
    assert (Hk : (0 <= k)%Z) by (eapply nearest_nonneg; eauto).
    replace (10 ^ Z.max 0 ndp)%Z with 1%Z by (rewrite Z.max_l by lia; reflexivity).
    rewrite <- mult_IZR, Rmult_1_l. rewrite DNINT_nonneg by (apply IZR_le; nia).
    assert (EF : Zfloor (IZR (q * k) + 1 / 2) = (q * k)%Z) by (apply Zfloor_uniq; lra).
    rewrite EF. assert (S := split_ticks (q * k) 1 ltac:(nia) ltac:(lia)). cbv zeta in S.
    rewrite !Rmult_1_l in S. rewrite !Rmult_1_l.
    eexists _, _, _, _. split; [reflexivity|]. destruct S as [S1 S2]. split; [exact S2|]. split; [lia|].
    intros _. split; [lia|]. exists k. split; [lia|exact Nk].
  - rewrite Z.max_r by lia. assert (Hp : (0 < 10 ^ ndp)%Z) by (apply Z.pow_pos_nonneg; lia).
    set (rs := (10 ^ ndp)%Z) in *. assert (Hrs : 0 < IZR rs) by now apply IZR_lt.
    assert (Hy : 0 <= IZR rs * x) by nra.
    rewrite (DNINT_nonneg (IZR rs * x)) by easy. set (N := Zfloor (IZR rs * x + 1 / 2)).
    assert (NN : nearest (IZR rs * x) N) by apply nearest_floor.
    assert (HN : (0 <= N)%Z) by (eapply nearest_nonneg; eauto).
    assert (S := split_ticks N rs HN Hp). cbv zeta in S.
    eexists _, _, _, _. split; [reflexivity|]. destruct S as [S1 S2]. split; [exact S2|]. split; [|lia].
    intros _. rewrite <- S1. unfold x in NN. replace (86400 * IZR rs * Rabs days) with (IZR rs * (86400 * Rabs days)) by ring. exact NN.
Qed.
