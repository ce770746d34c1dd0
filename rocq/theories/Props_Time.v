(** * Headline theorems: calendar, sexagesimal fields, epochs, Delta-T. *)
From Coq Require Import Reals ZArith Lra Lia Psatz Bool Ascii.
From Flocq Require Import Core.Raux.
From Interval Require Import Tactic.
From Verif Require Import Num NumR Erfa M_Time P_Cal P_Time.
Local Open Scope R_scope.

(** ** C33  palCaldj
    Specification: two-digit years denote 1950-2049. *)
Definition full_year (iy : Z) : Z :=
  if (0 <=? iy)%Z && (iy <? 50)%Z then iy + 2000
  else if (50 <=? iy)%Z && (iy <? 100)%Z then iy + 1900 else iy.
Theorem C33_palCaldj : forall iy im id,
  palCaldj iy im id = palCldj (full_year iy) im id /\
  (0 <= iy < 100 -> 1950 <= full_year iy <= 2049 /\ (full_year iy - iy) mod 100 = 0)%Z /\
  (iy < 0 \/ 100 <= iy -> palCaldj iy im id = palCldj iy im id)%Z.
Proof.
  intros iy im id. unfold palCaldj, palCldj, full_year.
  destruct (Z.leb_spec 0 iy), (Z.leb_spec iy 49), (Z.leb_spec 50 iy), (Z.leb_spec iy 99), (Z.ltb_spec iy 50), (Z.ltb_spec iy 100);
    cbn [andb]; try lia; rewrite ?Z.add_0_r; repeat split; intros; try lia;
    try (replace (iy + 2000 - iy)%Z with 2000%Z by lia); try (replace (iy + 1900 - iy)%Z with 1900%Z by lia); reflexivity.
Qed.
Example C33_windows : palCaldj 49 12 31 = palCldj 2049 12 31 /\ palCaldj 50 1 1 = palCldj 1950 1 1 /\
  palCaldj 100 1 1 = palCldj 100 1 1 /\ palCldj 2049 12 31 <> palCldj 49 12 31.
Proof. vm_compute. repeat split; discriminate. Qed.

(** ** C34  the day count.  [valid], [next_day], [leap], [mlen] (P_Cal.v) are the
    Gregorian calendar rules. *)
Theorem C34_day_count :
  palCldj 1858 11 17 = (0%Z, Some 0%Z) /\
  forall y m d, (-4799 <= y)%Z -> valid (y, m, d) ->
    exists n, palCldj y m d = (0%Z, Some n) /\
      let '(y', m', d') := next_day (y, m, d) in palCldj y' m' d' = (0%Z, Some (n + 1)%Z).
Proof.
  split; [reflexivity|]. intros y m d Hy V. exists (dnum y m d).
  assert (C : forall y m d, (-4799 <= y)%Z -> valid (y, m, d) -> palCldj y m d = (0%Z, Some (dnum y m d))).
  { clear. intros y m d Hy [Hm Hd]. unfold palCldj. rewrite cal2jd_spec.
    destruct (Z.ltb_spec y (-4799)); [lia|]. destruct (Z.ltb_spec m 1); [lia|]. destruct (Z.ltb_spec 12 m); [lia|].
    destruct (Z.ltb_spec d 1); [lia|]. destruct (Z.ltb_spec (mlen y m) d); [lia|]. reflexivity. }
  split; [now apply C|]. assert (N := cycle_next y m d V). assert (W := next_valid _ V).
  destruct (next_day (y, m, d)) as [[y' m'] d'] eqn:E.
  rewrite C; [now rewrite N| |easy].
  unfold next_day in E. destruct (d <? mlen y m)%Z, (m <? 12)%Z; inversion E; lia.
Qed.
(** months and leap years as everybody knows them *)
Example C34_calendar : next_day (2000, 2, 28)%Z = (2000, 2, 29)%Z /\ next_day (1900, 2, 28)%Z = (1900, 3, 1)%Z /\
  next_day (1999, 12, 31)%Z = (2000, 1, 1)%Z /\ palCldj 2000 1 1 = (0%Z, Some 51544%Z) /\ valid (2000, 2, 29)%Z.
Proof. vm_compute. repeat split; discriminate. Qed.

(** palDjcl inverts it, whatever the time of day *)
Theorem C34_palDjcl_inverts_palCldj : forall y m d n fd,
  palCldj y m d = (0%Z, Some n) -> 0 <= fd < 1 -> mjd_ok (IZR n + fd) ->
  palDjcl (IZR n + fd) = (0%Z, Some ((y, m, d), fd)).
Proof.
  intros y m d n fd H Hf Hr. unfold palCldj in H. rewrite cal2jd_spec in H.
  destruct (Z.ltb_spec y (-4799)); [easy|]. destruct (Z.ltb_spec m 1); [easy|]. destruct (Z.ltb_spec 12 m); [easy|].
  destruct (Z.ltb_spec d 1); [easy|]. destruct (Z.ltb_spec (mlen y m) d); [easy|]. cbn [orb] in H.
  assert (E : dnum y m d = n) by congruence. clear H.
  assert (EZ : Zfloor (IZR n + fd) = n) by (apply Zfloor_uniq; lra).
  rewrite djcl_R by easy. rewrite EZ, <- E, cycle_inv by (cbn; lia). do 3 f_equal. ring.
Qed.
(** ... and palCldj inverts palDjcl: every MJD in range denotes a calendar date *)
Theorem C34_palCldj_inverts_palDjcl : forall djm, mjd_ok djm ->
  exists y m d fd, palDjcl djm = (0%Z, Some ((y, m, d), fd)) /\ valid (y, m, d) /\ 0 <= fd < 1 /\
    ((-4799 <= y)%Z -> exists n, palCldj y m d = (0%Z, Some n) /\ djm = IZR n + fd).
Proof.
  intros djm H. rewrite djcl_R by easy. destruct (cald_valid (Zfloor djm)) as [V N].
  destruct (cald (Zfloor djm + 2400001)) as [[y m] d]. exists y, m, d, (djm - IZR (Zfloor djm)).
  assert (A := Zfloor_lb djm). assert (B := Zfloor_ub djm).
  split; [easy|]. split; [easy|]. split; [lra|]. intros Hy. exists (Zfloor djm). split; [|lra].
  unfold palCldj. rewrite cal2jd_spec. destruct V as [V1 V2].
  destruct (Z.ltb_spec y (-4799)); [lia|]. destruct (Z.ltb_spec m 1); [lia|]. destruct (Z.ltb_spec 12 m); [lia|].
  destruct (Z.ltb_spec d 1); [lia|]. destruct (Z.ltb_spec (mlen y m) d); [lia|]. now rewrite N.
Qed.
Theorem C34_palDjcl_rejects : forall djm, ~ mjd_ok djm -> palDjcl djm = ((-1)%Z, None).
Proof. exact djcl_R_bad. Qed.
Example C34_range : mjd_ok 0 /\ mjd_ok 51544.5 /\ ~ mjd_ok (-3000000) /\
  palDjcl (IZR 51544 + 1 / 2) = (0%Z, Some ((2000, 1, 1)%Z, 1 / 2)).
Proof.
  unfold mjd_ok. repeat split; try lra.
  apply C34_palDjcl_inverts_palCldj; [reflexivity|lra|unfold mjd_ok; lra].
Qed.

(** ** C35  status codes *)
Theorem C35_palCldj_status : forall iy im id,
  (iy < -4799 -> palCldj iy im id = (-1, None))%Z /\
  (-4799 <= iy -> ~ 1 <= im <= 12 -> palCldj iy im id = (-2, None))%Z /\
  (-4799 <= iy -> 1 <= im <= 12 -> ~ 1 <= id <= mlen iy im ->
     exists n, palCldj iy im id = (-3, Some n) /\
       (* the MJD is still computed, by counting on from the first of the month *)
       palCldj iy im 1 = (0, Some (n - (id - 1))))%Z /\
  (-4799 <= iy -> valid (iy, im, id) -> fst (palCldj iy im id) = 0)%Z.
Proof.
  intros iy im id. unfold palCldj. rewrite !cal2jd_spec.
  destruct (Z.ltb_spec iy (-4799)).
  { repeat split; try easy; lia. }
  destruct (Z.ltb_spec im 1); [cbn [orb]; repeat split; try easy; cbn; lia|].
  destruct (Z.ltb_spec 12 im); [cbn [orb]; repeat split; try easy; cbn; lia|]. cbn [orb].
  split; [lia|]. split; [lia|]. split.
  - intros _ _ Hd. exists (dnum iy im id). split.
    + destruct (Z.ltb_spec id 1); [easy|]. destruct (Z.ltb_spec (mlen iy im) id); [easy|]. lia.
    + assert (ML := mlen_le iy im). destruct (Z.ltb_spec (mlen iy im) 1); [lia|]. cbn [orb].
      do 2 f_equal. assert (E := dnum_day iy im 1 (id - 1)). replace (1 + (id - 1))%Z with id in E by ring. lia.
  - intros _ [_ Hd]. destruct (Z.ltb_spec id 1); [lia|]. destruct (Z.ltb_spec (mlen iy im) id); [lia|]. easy.
Qed.
(** The documentation (palOne2One.c:139-141, palCaldj.c) promises the positive
    codes 1, 2, 3.  They are never returned. *)
Theorem C35_documented_codes_refuted : forall iy im id,
  (~ 0 < fst (palCldj iy im id))%Z /\ (~ 0 < fst (palCaldj iy im id))%Z.
Proof.
  intros iy im id. unfold palCldj, palCaldj. set (Y := (iy + _)%Z).
  assert (K : forall y, (~ 0 < fst (eraCal2jd y im id))%Z).
  { intros y. rewrite cal2jd_spec. destruct (y <? -4799)%Z; [easy|].
    destruct ((im <? 1) || (12 <? im))%Z; [easy|]. now destruct ((id <? 1) || (mlen y im <? id))%Z. }
  split; apply K.
Qed.
Example C35_cases : palCldj (-5000) 1 1 = ((-1)%Z, None) /\ palCldj 2001 13 1 = ((-2)%Z, None) /\
  palCldj 2001 2 29 = ((-3)%Z, snd (palCldj 2001 3 1)).
Proof. vm_compute. repeat split. Qed.

(** ** C36  palDjcal *)
Lemma powR10 : forall n : Z, (0 <= n)%Z -> powR 10 (IZR n) = IZR (10 ^ n).
Proof.
  intros n Hn. unfold powR. destruct (Rlt_dec 0 10); [|lra].
  rewrite <- (Z2Nat.id n Hn) at 1. rewrite <- INR_IZR_INZ, Rpower_pow by lra.
  rewrite pow_IZR. now rewrite Z2Nat.id.
Qed.
Theorem C36_palDjcal : forall ndp djm ymd0, (0 <= ndp)%Z -> mjd_ok djm ->
  exists ymd fd r, palDjcl djm = (0%Z, Some (ymd, fd)) /\
    palDjcal ndp djm ymd0 = (0%Z, (ymd, r)) /\
    nearest (fd * IZR (10 ^ ndp)) r /\ (0 <= r <= 10 ^ ndp)%Z.
Proof.
  intros ndp djm ymd0 Hn H. unfold palDjcal. fold (palDjcl djm). rewrite djcl_R by easy.
  assert (A := Zfloor_lb djm). assert (B := Zfloor_ub djm).
  set (fd := djm - IZR (Zfloor djm)). assert (Hf : 0 <= fd < 1) by (unfold fd; lra).
  exists (cald (Zfloor djm + 2400001)), fd. rn. rewrite powR10 by easy.
  assert (P : (0 < 10 ^ ndp)%Z) by (apply Z.pow_pos_nonneg; lia).
  assert (P' : 0 < IZR (10 ^ ndp)) by now apply IZR_lt.
  assert (X : 0 <= fd * IZR (10 ^ ndp)) by nra.
  rewrite DNINT_nonneg by easy. rewrite Ztrunc_IZR.
  eexists. split; [reflexivity|]. split; [reflexivity|]. assert (N := nearest_floor (fd * IZR (10 ^ ndp))).
  split; [exact N|]. split; [eapply nearest_nonneg; eauto|].
  destruct N as [N1 _]. assert (E : (Zfloor (fd * IZR (10 ^ ndp) + 1 / 2) < 10 ^ ndp + 1)%Z); [|lia].
  apply lt_IZR. rewrite plus_IZR. nra.
Qed.
Theorem C36_rejects : forall ndp djm ymd0, ~ mjd_ok djm -> palDjcal ndp djm ymd0 = ((-1)%Z, (ymd0, 0%Z)).
Proof.
  intros ndp djm ymd0 H. unfold palDjcal. fold (palDjcl djm). rewrite djcl_R_bad by easy.
  rn. rewrite Rmult_0_l. rewrite DNINT_nonneg by lra.
  replace (Zfloor (0 + 1 / 2)) with 0%Z by (symmetry; apply Zfloor_uniq; lra). now rewrite Ztrunc_IZR.
Qed.
(** "rounded to a specified precision": rounding up at the end of the day must
    carry into the date (fraction < 10^ndp); it does not. *)
Theorem C36_no_carry_refuted : forall ymd0,
  palDjcal 2 (51544 + 997 / 1000) ymd0 = (0%Z, ((2000, 1, 1)%Z, 100%Z)).
Proof.
  intros ymd0. destruct (C36_palDjcal 2 (51544 + 997 / 1000) ymd0) as (ymd & fd & r & H1 & H2 & H3 & H4);
    [lia|unfold mjd_ok; lra|].
  rewrite H2. rewrite (C34_palDjcl_inverts_palCldj 2000 1 1 51544 (997 / 1000)) in H1;
    [|reflexivity|lra|unfold mjd_ok; lra].
  injection H1 as <- <-. do 2 f_equal. change (10 ^ 2)%Z with 100%Z in *. unfold nearest in H3.
  assert (A : (99 < r)%Z) by (apply lt_IZR; lra). lia.
Qed.

(** ** C37  sexagesimal *)
Definition tf_status (top : Z) (a b : Z) (s : R) (j : Z) : Prop :=
  (~ 0 <= a <= top -> j = 1)%Z /\
  (0 <= a <= top -> ~ 0 <= b <= 59 -> j = 2)%Z /\
  ((0 <= a <= top)%Z -> (0 <= b <= 59)%Z -> ~ 0 <= s < 60 -> j = 3%Z) /\
  ((0 <= a <= top)%Z -> (0 <= b <= 59)%Z -> 0 <= s < 60 -> j = 0%Z).
Lemma tf_status_ok : forall top a b s,
  tf_status top a b s (if ((a <? 0) || (top <? a))%Z then 1%Z
     else if ((b <? 0) || (59 <? b))%Z then 2%Z
     else if (Rltb s 0 || Rleb 60 s) then 3%Z else 0%Z).
Proof.
  intros. unfold tf_status.
  destruct (Z.ltb_spec a 0), (Z.ltb_spec top a), (Z.ltb_spec b 0), (Z.ltb_spec 59 b), (Rltb_spec s 0), (Rleb_spec 60 s);
    cbn [orb]; repeat split; intros; try lia; try easy; try (exfalso; lra); exfalso; apply H; lra.
Qed.
Theorem C37_palDtf2d : forall h m s,
  tf_status 23 h m s (snd (palDtf2d h m s)) /\
  ((0 <= h)%Z -> (0 <= m)%Z -> 0 <= s -> fst (palDtf2d h m s) = (IZR h + IZR m / 60 + s / 3600) / 24) /\
  fst (palDtf2d h m s) = fst (palDtf2d (Z.abs h) (Z.abs m) (Rabs s)).
Proof.
  intros h m s. unfold palDtf2d, eraTf2d. cbn [fst snd sgnmul]. rn. split; [apply tf_status_ok|]. split.
  - intros. rewrite !Z.abs_eq by easy. rewrite Rabs_pos_eq by easy. field.
  - rewrite !Z.abs_involutive, Rabs_Rabsolu. reflexivity.
Qed.
Theorem C37_palDtf2r : forall h m s,
  tf_status 23 h m s (snd (palDtf2r h m s)) /\
  ((0 <= h)%Z -> (0 <= m)%Z -> 0 <= s -> fst (palDtf2r h m s) = (IZR h + IZR m / 60 + s / 3600) / 24 * (2 * PI)).
Proof.
  intros h m s. unfold palDtf2r, eraTf2a, DS2R. cbn [fst snd sgnmul]. rn. split; [apply tf_status_ok|].
  intros. rewrite !Z.abs_eq by easy. rewrite Rabs_pos_eq by easy. field.
Qed.
Theorem C37_palDaf2r : forall d m s,
  tf_status 359 d m s (snd (palDaf2r d m s)) /\
  ((0 <= d)%Z -> (0 <= m)%Z -> 0 <= s -> fst (palDaf2r d m s) = (IZR d + IZR m / 60 + s / 3600) / 360 * (2 * PI)).
Proof.
  intros h m s. unfold palDaf2r, eraAf2a, DAS2R. cbn [fst snd sgnmul]. rn. split; [apply tf_status_ok|].
  intros. rewrite !Z.abs_eq by easy. rewrite Rabs_pos_eq by easy. field.
Qed.

(** Fields of an interval [x] measured in seconds (or arcseconds): in range, and
    recomposing to the nearest multiple of 10^-ndp seconds. *)
Definition fields_of (x : R) (ndp : Z) (h m s f : Z) : Prop :=
  (0 <= h /\ 0 <= m < 60 /\ 0 <= s < 60 /\ 0 <= f < 10 ^ ndp)%Z /\
  nearest (x * IZR (10 ^ ndp)) (((h * 60 + m) * 60 + s) * 10 ^ ndp + f).
Lemma fields_of_d2tf : forall ndp days, (0 <= ndp)%Z ->
  let '(pos, (h, m, s, f)) := eraD2tf ndp days in
  (pos = true <-> 0 <= days) /\ fields_of (86400 * Rabs days) ndp h m s f.
Proof.
  intros ndp days Hn. destruct (d2tf_R ndp days) as (h & m & s & f & -> & B & N & _).
  split; [destruct (Rleb_spec 0 days); split; easy|]. rewrite Z.max_r in B by easy. split; [easy|].
  specialize (N Hn). replace (86400 * Rabs days * IZR (10 ^ ndp)) with (86400 * IZR (10 ^ ndp) * Rabs days) by ring. exact N.
Qed.
Theorem C37_palDd2tf : forall ndp days, (0 <= ndp)%Z ->
  let '(pos, (h, m, s, f)) := palDd2tf ndp days in
  (pos = true <-> 0 <= days) /\ fields_of (86400 * Rabs days) ndp h m s f.
Proof. exact fields_of_d2tf. Qed.
Lemma Rabs_scale : forall a k, 0 < k -> Rabs (a * k) = Rabs a * k.
Proof. intros. rewrite Rabs_mult, (Rabs_pos_eq k); lra. Qed.
Lemma mul_nonneg_iff : forall a k, 0 < k -> 0 <= a * k <-> 0 <= a.
Proof.
  intros a k Hk. split; intros; [|nra]. apply Rmult_le_reg_r with k; [easy|lra].
Qed.
Theorem C37_palDr2tf : forall ndp angle, (0 <= ndp)%Z ->
  let '(pos, (h, m, s, f)) := palDr2tf ndp angle in
  (pos = true <-> 0 <= angle) /\ fields_of (Rabs angle * (12 * 3600 / PI)) ndp h m s f.
Proof.
  intros ndp angle Hn. assert (Hpi := PI_RGT_0). unfold palDr2tf, eraA2tf, D2PI. rn.
  assert (E := fields_of_d2tf ndp (angle / (2 * PI)) Hn).
  destruct (eraD2tf ndp (angle / (2 * PI))) as [pos [[[h m] s] f]].
  replace (angle / (2 * PI)) with (angle * / (2 * PI)) in E by reflexivity.
  assert (K : 0 < / (2 * PI)) by (apply Rinv_0_lt_compat; lra).
  rewrite (Rabs_scale _ _ K), (mul_nonneg_iff _ _ K) in E.
  replace (Rabs angle * (12 * 3600 / PI)) with (86400 * (Rabs angle * / (2 * PI))) by (field; lra). exact E.
Qed.
Theorem C37_palDr2af : forall ndp angle, (0 <= ndp)%Z ->
  let '(pos, (d, m, s, f)) := palDr2af ndp angle in
  (pos = true <-> 0 <= angle) /\ fields_of (Rabs angle * (180 * 3600 / PI)) ndp d m s f.
Proof.
  intros ndp angle Hn. assert (Hpi := PI_RGT_0). unfold palDr2af, eraA2af, D2PI. rn.
  assert (E := fields_of_d2tf ndp (angle * (15 / (2 * PI))) Hn).
  destruct (eraD2tf ndp (angle * (15 / (2 * PI)))) as [pos [[[h m] s] f]].
  assert (K : 0 < 15 / (2 * PI)) by (apply Rdiv_lt_0_compat; lra).
  rewrite (Rabs_scale _ _ K), (mul_nonneg_iff _ _ K) in E.
  replace (Rabs angle * (180 * 3600 / PI)) with (86400 * (Rabs angle * (15 / (2 * PI)))) by (field; lra). exact E.
Qed.
(** negative ndp: 10s, 1m, 10m, 1h, 10h, 100h ... *)
Definition coarse (n : Z) : Z :=
  if (n =? 1)%Z then 10 else if (n =? 2)%Z then 60 else if (n =? 3)%Z then 600 else 3600 * 10 ^ (n - 4).
Lemma coarse_ok : forall n : nat, (0 < n)%nat -> d2tf_coarse n = coarse (Z.of_nat n).
Proof.
  assert (K : forall k : nat, d2tf_coarse (k + 4) = (3600 * 10 ^ Z.of_nat k)%Z).
  { induction k as [|k IH]; [reflexivity|]. cbn [Nat.add d2tf_coarse]. rewrite IH.
    replace (Nat.eqb (S (k + 4)) 2) with false by (symmetry; apply Nat.eqb_neq; lia).
    replace (Nat.eqb (S (k + 4)) 4) with false by (symmetry; apply Nat.eqb_neq; lia). cbn [orb].
    rewrite Nat2Z.inj_succ, Z.pow_succ_r by lia. ring. }
  intros n Hn. destruct n as [|[|[|[|n]]]]; try reflexivity; [lia|].
  replace (S (S (S (S n)))) with (n + 4)%nat by lia. rewrite K. unfold coarse.
  destruct (Z.eqb_spec (Z.of_nat (n + 4)) 1); [lia|]. destruct (Z.eqb_spec (Z.of_nat (n + 4)) 2); [lia|].
  destruct (Z.eqb_spec (Z.of_nat (n + 4)) 3); [lia|]. do 2 f_equal. lia.
Qed.
Theorem C37_coarse : forall ndp days, (ndp < 0)%Z ->
  let '(pos, (h, m, s, f)) := palDd2tf ndp days in
  (pos = true <-> 0 <= days) /\ (0 <= h /\ 0 <= m < 60 /\ 0 <= s < 60 /\ f = 0)%Z /\
  exists k, ((h * 60 + m) * 60 + s = coarse (- ndp) * k)%Z /\ nearest (86400 * Rabs days / IZR (coarse (- ndp))) k.
Proof.
  intros ndp days Hn. unfold palDd2tf. destruct (d2tf_R ndp days) as (h & m & s & f & -> & B & _ & N).
  split; [destruct (Rleb_spec 0 days); split; easy|]. destruct (N Hn) as (F & k & E & R).
  rewrite coarse_ok in E, R by lia. rewrite Z2Nat.id in E, R by lia. split; [lia|]. now exists k.
Qed.
(** decomposing and recomposing is the identity up to half a unit *)
Theorem C37_roundtrip : forall ndp days, (0 <= ndp)%Z ->
  let '(pos, (h, m, s, f)) := palDd2tf ndp days in
  let '(v, j) := palDtf2d h m (IZR s + IZR f / IZR (10 ^ ndp)) in
  Rabs (v - Rabs days) * (86400 * IZR (10 ^ ndp)) <= 1 / 2 /\ ((h < 24)%Z -> j = 0%Z).
Proof.
  intros ndp days Hn. assert (D := C37_palDd2tf ndp days Hn).
  destruct (palDd2tf ndp days) as [pos [[[h m] s] f]]. destruct D as [_ [(Hh & Hm & Hs & Hf) N]].
  assert (P : (0 < 10 ^ ndp)%Z) by (apply Z.pow_pos_nonneg; lia).
  set (q := (10 ^ ndp)%Z) in *. assert (P' : 0 < IZR q) by now apply IZR_lt.
  assert (F1 : 0 <= IZR f) by (apply IZR_le; lia). assert (F2 : IZR f < IZR q) by (apply IZR_lt; lia).
  assert (F3 : 0 <= IZR f / IZR q < 1).
  { split; [apply Rmult_le_pos; [easy|left; now apply Rinv_0_lt_compat]|].
    apply Rmult_lt_reg_r with (IZR q); [easy|]. field_simplify; lra. }
  assert (S1 : 0 <= IZR s) by (apply IZR_le; lia). assert (S2 : IZR s <= 59) by (apply IZR_le; lia).
  destruct (C37_palDtf2d h m (IZR s + IZR f / IZR q)) as [ST [V _]].
  destruct (palDtf2d h m (IZR s + IZR f / IZR q)) as [v j]. cbn [fst snd] in *.
  split.
  - rewrite V by (lia || lra).
    rewrite <- Rabs_scale by lra.
    destruct N as [N1 N2]. rewrite plus_IZR, mult_IZR, plus_IZR, mult_IZR, plus_IZR, mult_IZR in N1, N2.
    apply Rabs_le.
    replace (((IZR h + IZR m / 60 + (IZR s + IZR f / IZR q) / 3600) / 24 - Rabs days) * (86400 * IZR q))
      with (((IZR h * 60 + IZR m) * 60 + IZR s) * IZR q + IZR f - 86400 * Rabs days * IZR q) by (field; lra).
    lra.
  - intros H24. apply ST; [lia|lia|lra].
Qed.
Example C37_carry : palDd2tf 1 (1 - 1 / 10000000) = (true, (24, 0, 0, 0)%Z) /\ (0 <= 1)%Z.
Proof.
  split; [|lia]. assert (D := C37_palDd2tf 1 (1 - 1 / 10000000) ltac:(lia)).
  destruct (palDd2tf 1 (1 - 1 / 10000000)) as [pos [[[h m] s] f]]. destruct D as [D [B [N1 N2]]].
  change (10 ^ 1)%Z with 10%Z in *. rewrite Rabs_pos_eq in N1, N2 by lra.
  assert (P : pos = true) by (apply D; lra). subst pos.
  set (N := (((h * 60 + m) * 60 + s) * 10 + f)%Z) in *.
  assert (EN : N = 864000%Z).
  { assert (863999 < N < 864001)%Z; [|lia]. split; apply lt_IZR; lra. }
  unfold N in EN. assert (h = 24%Z) by lia. assert (m = 0%Z) by lia. assert (s = 0%Z) by lia. assert (f = 0%Z) by lia.
  now subst.
Qed.

(** ** C38  epochs *)
Theorem C38_inverse : forall x : R,
  palEpj (palEpj2d x) = x /\ palEpj2d (palEpj x) = x /\ palEpb (palEpb2d x) = x /\ palEpb2d (palEpb x) = x.
Proof.
  intros x. unfold palEpj, palEpj2d, palEpb, palEpb2d, eraEpj, eraEpj2jd, eraEpb, eraEpb2jd, MJD0, DJ00, DJY, DTY.
  cbn [snd]. rn. repeat split; field.
Qed.
(** reference points: J2000.0 is MJD 51544.5, B1950.0 is MJD 33281.9234, and a
    Julian (Besselian) year is 365.25 (365.242198781) days *)
Theorem C38_reference : palEpj2d 2000 = 51544.5 /\ Rabs (palEpb2d 1950 - 33281.9234) < 1 / 10000 /\
  (forall x, palEpj2d (x + 1) - palEpj2d x = 365.25) /\ (forall x, palEpb2d (x + 1) - palEpb2d x = 365.242198781).
Proof.
  unfold palEpj2d, palEpb2d, eraEpj2jd, eraEpb2jd, DJY, DTY. cbn [snd]. rn.
  repeat split; intros; try lra. interval.
Qed.
Definition isB (c : ascii) : Prop := c = "B"%char \/ c = "b"%char.
Definition isJ (c : ascii) : Prop := c = "J"%char \/ c = "j"%char.
Theorem C38_palEpco : forall k0 k (e : R),
  (isB k0 -> isB k -> palEpco k0 k e = e) /\ (isJ k0 -> isJ k -> palEpco k0 k e = e) /\
  (isB k0 -> isJ k -> palEpco k0 k e = palEpb (palEpj2d e)) /\
  (isJ k0 -> isB k -> palEpco k0 k e = palEpj (palEpb2d e)) /\
  (* and each undoes the other *)
  (isJ k0 -> isB k -> palEpco k k0 (palEpco k0 k e) = e /\ palEpco k0 k (palEpco k k0 e) = e).
Proof.
  assert (BJ : forall b j e, isB b -> isJ j -> palEpco b j e = palEpb (palEpj2d e)).
  { intros b j e [->| ->] [->| ->]; reflexivity. }
  assert (JB : forall b j e, isB b -> isJ j -> palEpco j b e = palEpj (palEpb2d e)).
  { intros b j e [->| ->] [->| ->]; reflexivity. }
  intros k0 k e. split; [|split; [|split; [|split]]].
  - intros [->| ->] [->| ->]; reflexivity.
  - intros [->| ->] [->| ->]; reflexivity.
  - intros; now apply BJ.
  - intros; now apply JB.
  - intros HJ HB. rewrite !(JB k k0) by easy. rewrite !(BJ k k0) by easy.
    destruct (C38_inverse (palEpb2d e)) as (_ & -> & _). destruct (C38_inverse e) as (A & B & C & D).
    split; [exact C|]. destruct (C38_inverse (palEpj2d e)) as (_ & _ & _ & ->). exact A.
Qed.
(** any arithmetic (hence IEEE doubles), any characters: equal kinds leave the epoch alone *)
Theorem C38_same_kind : forall T (A : Arith T) k (e : T), palEpco k k e = e.
Proof. intros. unfold palEpco. now rewrite Ascii.eqb_refl. Qed.

(** ** C39 *)
Theorem C39_palDtt : forall dat junk (utc : R), palDtt dat junk utc - palDat dat junk utc = 32.184.
Proof. intros. unfold palDtt. rn. lra. Qed.
(** palDat looks the table up at the calendar date and day fraction of the UTC *)
Theorem C39_palDat : forall dat junk y m d n fd,
  palCldj y m d = (0%Z, Some n) -> 0 <= fd < 1 -> mjd_ok (IZR n + fd) ->
  palDat dat junk (IZR n + fd) = dat y m d fd.
Proof.
  intros dat junk y m d n fd H Hf Hr. unfold palDat. fold (palDjcl (IZR n + fd)).
  now rewrite (C34_palDjcl_inverts_palCldj y m d n fd).
Qed.
(** the three documented pieces of Delta-T *)
Definition dt_recent (e : R) := 5.156 + 13.3066 * ((e - 1800) / 100 - 0.19) ^ 2.
Definition dt_middle (e : R) := 25.5 * ((e - 1800) / 100) ^ 2.
Definition dt_old (e : R) := 1360 + 320 * ((e - 1800) / 100) + 44.3 * ((e - 1800) / 100) ^ 2.
Lemma pow2_mult : forall x : R, x ^ 2 = x * x.
Proof. intros. ring. Qed.
Theorem C39_palDt : forall e,
  (1708.185161980887 <= e -> palDt e = dt_recent e) /\
  (979.0258204760233 <= e < 1708.185161980887 -> palDt e = dt_middle e) /\
  (e < 979.0258204760233 -> palDt e = dt_old e) /\
  5.156 <= palDt e.
Proof.
  intros e. unfold palDt, dt_recent, dt_middle, dt_old. rn.
  replace ((e - 18000 / 10) / (1000 / 10)) with ((e - 1800) / 100) by field.
  assert (D1 : 5.156 = 5156 / 1000) by lra. assert (D2 : 13.3066 = 133066 / 10000) by lra.
  assert (D3 : 0.19 = 19 / 100) by lra. assert (D4 : 25.5 = 255 / 10) by lra. assert (D5 : 44.3 = 443 / 10) by lra.
  split; [|split; [|split]].
  - intros. rewrite Rleb_true by lra. set (t := (e - 1800) / 100). clearbody t. rewrite pow2_mult, ?D1, ?D2, ?D3, ?D4, ?D5. field.
  - intros. rewrite Rleb_false by lra. rewrite Rleb_true by lra. set (t := (e - 1800) / 100). clearbody t. rewrite pow2_mult, ?D1, ?D2, ?D3, ?D4, ?D5. field.
  - intros. rewrite Rleb_false by lra. rewrite Rleb_false by lra. set (t := (e - 1800) / 100). clearbody t. rewrite pow2_mult, ?D1, ?D2, ?D3, ?D4, ?D5. field.
  - set (t := (e - 1800) / 100). assert (Et : e = 1800 + 100 * t) by (unfold t; field). clearbody t. subst e.
    destruct (Rleb_spec (1708185161980887 / 1000000000000) (1800 + 100 * t)).
    + assert (0 <= (t - 19 / 100) * (t - 19 / 100)) by apply Rle_0_sqr. lra.
    + destruct (Rleb_spec (9790258204760233 / 10000000000000) (1800 + 100 * t)); [nra|].
      assert (0 <= (t + 320 / (2 * 44.3)) * (t + 320 / (2 * 44.3))) by apply Rle_0_sqr. nra.
Qed.
(** the model is continuous to better than 1e-9 s where the pieces meet *)
Theorem C39_palDt_joins :
  Rabs (dt_recent 1708.185161980887 - dt_middle 1708.185161980887) <= 1e-9 /\
  Rabs (dt_middle 979.0258204760233 - dt_old 979.0258204760233) <= 1e-9.
Proof. unfold dt_recent, dt_middle, dt_old. split; interval with (i_prec 120). Qed.
Print Assumptions C34_palCldj_inverts_palDjcl.
Print Assumptions C37_roundtrip.
Print Assumptions C39_palDt_joins.
