(** * Lemmas: checked integer arithmetic (C104) *)
From Coq Require Import ZArith Bool List Lia.
From Verif Require Import Num Erfa M_Time M_Int.
Import ListNotations.
Local Open Scope Z_scope.

Lemma ck_ok : forall w z, - 2 ^ (w - 1) <= z < 2 ^ (w - 1) -> ck w z = Some z.
Proof. intros w z [H1 H2]. unfold ck, fits. apply Z.leb_le in H1. apply Z.ltb_lt in H2. now rewrite H1, H2. Qed.
Lemma ck_some : forall w z v, ck w z = Some v -> v = z /\ - 2 ^ (w - 1) <= z < 2 ^ (w - 1).
Proof.
  intros w z v. unfold ck, fits. destruct (Z.leb_spec (- 2 ^ (w - 1)) z); [|easy]. destruct (Z.ltb_spec z (2 ^ (w - 1))); [|easy].
  cbn [andb]. intros E. injection E as <-. lia.
Qed.
Lemma ck_none : forall w z, 2 ^ (w - 1) <= z \/ z < - 2 ^ (w - 1) -> ck w z = None.
Proof.
  intros w z H. unfold ck, fits. destruct (Z.leb_spec (- 2 ^ (w - 1)) z); [|easy]. destruct (Z.ltb_spec z (2 ^ (w - 1))); [lia|easy].
Qed.
Lemma ck32 : forall z, -2147483648 <= z < 2147483648 -> ck 32 z = Some z. Proof. intros. now apply ck_ok. Qed.
Lemma ck64 : forall z, -9223372036854775808 <= z < 9223372036854775808 -> ck 64 z = Some z. Proof. intros. now apply ck_ok. Qed.
Lemma quot_b : forall a b, 0 < b -> a - b < b * Z.quot a b < a + b.
Proof.
  intros a b H. assert (E := Z.quot_rem' a b). assert (B := Z.rem_bound_abs a b ltac:(lia)). lia.
Qed.
Lemma quot_n : forall a b, 0 < b -> 0 <= a -> 0 <= Z.quot a b /\ a - b < b * Z.quot a b <= a.
Proof.
  intros a b H Ha. rewrite Z.quot_div_nonneg by lia. assert (E := Z_div_mod_eq_full a b). assert (B := Z.mod_pos_bound a b H).
  assert (0 <= a / b) by (apply Z.div_pos; lia). lia.
Qed.

Ltac st := match goal with |- context [ck 32 ?z] => rewrite (ck32 z) by lia | |- context [ck 64 ?z] => rewrite (ck64 z) by lia end; cbn [obind].
Ltac qb := match goal with |- context [Z.quot ?a ?b] => lazymatch goal with H : a - b < b * Z.quot a b < a + b |- _ => fail | _ => assert (a - b < b * Z.quot a b < a + b) by (apply quot_b; reflexivity) end end.

Lemma mtab_at : forall im, 1 <= im <= 12 -> at_index mtab_list (im - 1) = Some (mtab im) /\ 28 <= mtab im <= 31.
Proof.
  intros im H. assert (C : im = 1 \/ im = 2 \/ im = 3 \/ im = 4 \/ im = 5 \/ im = 6 \/ im = 7 \/ im = 8 \/ im = 9 \/ im = 10 \/ im = 11 \/ im = 12) by lia.
  repeat destruct C as [->|C]; try (subst im); (split; [reflexivity|cbv; split; discriminate]).
Qed.
Lemma my_val : forall im, 1 <= im <= 12 -> Z.quot (im - 14) 12 = (if im <=? 2 then -1 else 0).
Proof.
  intros im H. assert (C : im = 1 \/ im = 2 \/ im = 3 \/ im = 4 \/ im = 5 \/ im = 6 \/ im = 7 \/ im = 8 \/ im = 9 \/ im = 10 \/ im = 11 \/ im = 12) by lia.
  repeat destruct C as [->|C]; try (subst im); reflexivity.
Qed.

(** no overflow in eraCal2jd for any [int] arguments, with a 64-bit [long] *)
Lemma cal2jd_64 : forall iy im id, -2147483648 <= iy < 2147483648 -> -2147483648 <= id < 2147483648 ->
  eraCal2jd_c 64 iy im id = Some (eraCal2jd iy im id).
Proof.
  intros iy im id Hy Hd. unfold eraCal2jd_c, eraCal2jd. destruct (Z.ltb_spec iy (-4799)); [reflexivity|].
  destruct (Z.ltb_spec im 1); [reflexivity|]. destruct (Z.ltb_spec 12 im); [reflexivity|]. cbn [orb].
  set (ly := if (im =? 2) && is_leap_c iy then 1 else 0). assert (Bl : 0 <= ly <= 1) by (unfold ly; destruct ((im =? 2) && is_leap_c iy); lia). clearbody ly.
  st. destruct (mtab_at im ltac:(lia)) as [-> Bm]. cbn [obind]. st. st.
  assert (M := my_val im ltac:(lia)). set (my := Z.quot (im - 14) 12) in *. assert (Bmy : -1 <= my <= 0) by (destruct (im <=? 2); lia).
  clearbody my. clear M. st. st. st. st. st. st. st. st.
  qb. st. qb. qb. st. qb. st. st. st. reflexivity.
Qed.
Lemma cal2jd_exact : forall iy im id j n, -2147483648 <= iy < 2147483648 -> -2147483648 <= id < 2147483648 ->
  eraCal2jd iy im id = (j, Some n) -> Z.abs n < 2 ^ 53.
Proof.
  intros iy im id j n Hy Hd. unfold eraCal2jd. destruct (Z.ltb_spec iy (-4799)); [easy|].
  destruct (Z.ltb_spec im 1); [easy|]. destruct (Z.ltb_spec 12 im); [easy|]. cbn [orb].
  assert (M := my_val im ltac:(lia)). set (my := Z.quot (im - 14) 12) in *. assert (Bmy : -1 <= my <= 0) by (destruct (im <=? 2); lia).
  clearbody my. clear M. intros E. assert (E2 : Z.quot (1461 * (iy + my + 4800)) 4 + Z.quot (367 * (im - 2 - 12 * my)) 12
    - Z.quot (3 * Z.quot (iy + my + 4900) 100) 4 + id - 2432076 = n) by congruence. clear E. rewrite <- E2. repeat qb. lia.
Qed.
(** with a 32-bit [long] the year is limited *)
Lemma cal2jd_32 : forall iy im id, -4799 <= iy < 2147483648 -> 1 <= im <= 12 -> 1 <= id <= 31 ->
  (iy + (if im <=? 2 then -1 else 0) <= 1465072 -> eraCal2jd_c 32 iy im id = Some (eraCal2jd iy im id)) /\
  (1465072 < iy + (if im <=? 2 then -1 else 0) -> eraCal2jd_c 32 iy im id = None).
Proof.
  intros iy im id Hy Hm Hd. unfold eraCal2jd_c, eraCal2jd. destruct (Z.ltb_spec iy (-4799)); [lia|].
  destruct (Z.ltb_spec im 1); [lia|]. destruct (Z.ltb_spec 12 im); [lia|]. cbn [orb].
  set (ly := if (im =? 2) && is_leap_c iy then 1 else 0). assert (Bl : 0 <= ly <= 1) by (unfold ly; destruct ((im =? 2) && is_leap_c iy); lia). clearbody ly.
  st. destruct (mtab_at im ltac:(lia)) as [-> Bm]. cbn [obind]. st. st.
  assert (M := my_val im ltac:(lia)). set (my := Z.quot (im - 14) 12) in *. rewrite <- M. assert (Bmy : -1 <= my <= 0) by (destruct (im <=? 2); lia).
  clearbody my. clear M. st. split; intros Hl.
  - st. st. st. st. st. st. st. qb. st. qb. qb. st. qb. st. st. st. reflexivity.
  - unfold ck at 1. destruct (fits 32 (iy + my + 4800)); [cbn [obind]|reflexivity]. rewrite (ck_none 32 (1461 * _)); [reflexivity|].
    left. change (2 ^ (32 - 1)) with 2147483648. lia.
Qed.

(** no overflow in jd2cal for any day number below 2^39, with a 64-bit [long] *)
Lemma jd2cal_64 : forall jd, -549755813888 <= jd <= 549755813888 -> jd2cal_c 64 jd = Some (jd2cal_z jd).
Proof.
  intros jd H. unfold jd2cal_c, jd2cal_z. st. st.
  assert (Q := quot_b (4 * (jd + 68569)) 146097 eq_refl). set (n := Z.quot (4 * (jd + 68569)) 146097) in *. clearbody n.
  st. st. assert (Q2 := quot_b (146097 * n + 3) 4 eq_refl). set (e := Z.quot (146097 * n + 3) 4) in *. clearbody e.
  st. set (l := jd + 68569 - e) in *. assert (Bl : -40000 <= l <= 40000) by (unfold l; lia). clearbody l. clear Q2 e.
  st. st. assert (Q3 := quot_b (4000 * (l + 1)) 1461001 eq_refl). set (i := Z.quot (4000 * (l + 1)) 1461001) in *. clearbody i.
  st. assert (Q4 := quot_b (1461 * i) 4 eq_refl). set (h := Z.quot (1461 * i) 4) in *. clearbody h. st.
  st. set (l2 := l - (h - 31)) in *. assert (Bl2 : -500 <= l2 <= 500) by (unfold l2; lia). clearbody l2. clear Q4 h.
  st. assert (Q5 := quot_b (80 * l2) 2447 eq_refl). set (k := Z.quot (80 * l2) 2447) in *. clearbody k.
  st. assert (Q6 := quot_b (2447 * k) 80 eq_refl). set (q := Z.quot (2447 * k) 80) in *. clearbody q. st. st.
  assert (Q7 := quot_b k 11 eq_refl). set (l3 := Z.quot k 11) in *. clearbody l3.
  st. st. st. st. st. st. st. st. st. reflexivity.
Qed.
(** with a 32-bit [long]: exactly the days up to 2^29 - 68570 (JD 536802342, AD 1465003) *)
Lemma jd2cal_32 : forall jd, -70000 <= jd ->
  (jd <= 536802342 -> jd2cal_c 32 jd = Some (jd2cal_z jd)) /\ (536802342 < jd -> jd2cal_c 32 jd = None).
Proof.
  intros jd H. unfold jd2cal_c, jd2cal_z. split; intros Hl.
  - st. st.
    assert (Q := quot_b (4 * (jd + 68569)) 146097 eq_refl).
    assert (Qn : 0 <= jd + 68569 -> 146097 * Z.quot (4 * (jd + 68569)) 146097 <= 4 * (jd + 68569)) by (intros; apply (quot_n (4 * (jd + 68569)) 146097); lia).
    set (n := Z.quot (4 * (jd + 68569)) 146097) in *. clearbody n.
    st. st. assert (Q2 := quot_b (146097 * n + 3) 4 eq_refl). set (e := Z.quot (146097 * n + 3) 4) in *. clearbody e.
    st. set (l := jd + 68569 - e) in *. assert (Bl : -40000 <= l <= 40000) by (unfold l; lia). clearbody l. clear Q2 e.
    st. st. assert (Q3 := quot_b (4000 * (l + 1)) 1461001 eq_refl). set (i := Z.quot (4000 * (l + 1)) 1461001) in *. clearbody i.
    st. assert (Q4 := quot_b (1461 * i) 4 eq_refl). set (h := Z.quot (1461 * i) 4) in *. clearbody h. st.
    st. set (l2 := l - (h - 31)) in *. assert (Bl2 : -500 <= l2 <= 500) by (unfold l2; lia). clearbody l2. clear Q4 h.
    st. assert (Q5 := quot_b (80 * l2) 2447 eq_refl). set (k := Z.quot (80 * l2) 2447) in *. clearbody k.
    st. assert (Q6 := quot_b (2447 * k) 80 eq_refl). set (q := Z.quot (2447 * k) 80) in *. clearbody q. st. st.
    assert (Q7 := quot_b k 11 eq_refl). set (l3 := Z.quot k 11) in *. clearbody l3.
    st. st. st. st. st. st. st. st. st. reflexivity.
  - unfold ck at 1. destruct (fits 32 (jd + 68569)); [cbn [obind]|reflexivity]. rewrite (ck_none 32 (4 * _)); [reflexivity|].
    left. change (2 ^ (32 - 1)) with 2147483648. lia.
Qed.

(** the powers of ten and the coarse resolutions *)
Lemma fine_val : forall n, (n <= 9)%nat -> nrs_fine n = Some (10 ^ Z.of_nat n).
Proof. intros n H. do 10 (destruct n as [|n]; [reflexivity|]). lia. Qed.
Lemma fine_none : forall n, (10 <= n)%nat -> nrs_fine n = None.
Proof.
  intros n H. replace n with ((n - 10) + 10)%nat by lia. induction (n - 10)%nat as [|m IH]; [reflexivity|]. cbn [Nat.add nrs_fine]. now rewrite IH.
Qed.
Lemma coarse_val : forall n, (n <= 9)%nat -> nrs_coarse n = Some (d2tf_coarse n) /\ 1 <= d2tf_coarse n <= 360000000.
Proof. intros n H. do 10 (destruct n as [|n]; [split; [reflexivity|cbv; split; discriminate]|]). lia. Qed.
Lemma coarse_none : forall n, (10 <= n)%nat -> nrs_coarse n = None.
Proof.
  intros n H. replace n with ((n - 10) + 10)%nat by lia. induction (n - 10)%nat as [|m IH]; [reflexivity|].
  change (nrs_coarse (S m + 10)) with (let* r := nrs_coarse (m + 10) in ck 32 (r * (if (Nat.eqb (S m + 10) 2 || Nat.eqb (S m + 10) 4) then 6 else 10))).
  now rewrite IH.
Qed.
