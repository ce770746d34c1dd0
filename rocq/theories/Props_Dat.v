(** * C106: leap seconds: palDat and palDtt with the real table *)
From Coq Require Import Reals ZArith Lra Lia Psatz Bool List.
From Flocq Require Import Core.Raux.
From Verif Require Import Num NumR Erfa M_Time M_Dat P_Cal P_Time.
Import ListNotations.
Local Open Scope R_scope.

(** ** Specification: the table of TAI-UTC of the US Naval Observatory (tai-utc.dat), by MJD.  From each date on, TAI-UTC is
    [a + (MJD - t0) b] seconds. *)
Record row := Row { since : Z; a : R; t0 : R; b : R }.
Definition step (n : Z) (s : R) : row := Row n s 0 0.
Definition tai_utc_table : list row :=
  [ Row 36934 1.4178180 37300 0.001296; Row 37300 1.4228180 37300 0.001296; Row 37512 1.3728180 37300 0.001296;
    Row 37665 1.8458580 37665 0.0011232; Row 38334 1.9458580 37665 0.0011232;
    Row 38395 3.2401300 38761 0.001296; Row 38486 3.3401300 38761 0.001296; Row 38639 3.4401300 38761 0.001296; Row 38761 3.5401300 38761 0.001296;
    Row 38820 3.6401300 38761 0.001296; Row 38942 3.7401300 38761 0.001296; Row 39004 3.8401300 38761 0.001296;
    Row 39126 4.3131700 39126 0.002592; Row 39887 4.2131700 39126 0.002592;
    step 41317 10; step 41499 11; step 41683 12; step 42048 13; step 42413 14; step 42778 15; step 43144 16; step 43509 17; step 43874 18; step 44239 19;
    step 44786 20; step 45151 21; step 45516 22; step 46247 23; step 47161 24; step 47892 25; step 48257 26; step 48804 27; step 49169 28; step 49534 29;
    step 50083 30; step 50630 31; step 51179 32; step 53736 33; step 54832 34; step 56109 35; step 57204 36; step 57754 37 ].
Definition value (r : row) (t : R) : R := a r + (t - t0 r) * b r.
(** the row in force at [t]: it has begun, and no later row has *)
Definition in_force (r : row) (t : R) : Prop :=
  In r tai_utc_table /\ IZR (since r) <= t /\ forall r', In r' tai_utc_table -> IZR (since r') <= t -> (since r' <= since r)%Z.

(** ** Months are counted as the code does *)
Definition mstart (k : Z) : Z := dnum ((k - 1) / 12) ((k - 1) mod 12 + 1) 1.
Lemma mstart_ym : forall y m, (1 <= m <= 12)%Z -> mstart (12 * y + m) = dnum y m 1.
Proof.
  intros y m H. unfold mstart. replace (12 * y + m - 1)%Z with ((m - 1) + y * 12)%Z by ring. rewrite Z.div_add, Z.mod_add by lia.
  rewrite Z.div_small, Z.mod_small by lia. f_equal; lia.
Qed.
Lemma month_step : forall y m, (1 <= m <= 12)%Z -> mstart (12 * y + m + 1) = (dnum y m 1 + mlen y m)%Z.
Proof.
  intros y m H. assert (L := mlen_le y m). assert (N := cycle_next y m (mlen y m) ltac:(cbn; lia)). unfold next_day in N. rewrite Z.ltb_irrefl in N.
  assert (D := dnum_day y m 1 (mlen y m - 1)). replace (1 + (mlen y m - 1))%Z with (mlen y m) in D by lia.
  destruct (Z.ltb_spec m 12) as [C|C]; cbv beta iota zeta in N.
  - replace (12 * y + m + 1)%Z with (12 * y + (m + 1))%Z by ring. rewrite mstart_ym by lia. lia.
  - replace (12 * y + m + 1)%Z with (12 * (y + 1) + 1)%Z by lia. rewrite mstart_ym by lia. lia.
Qed.
Lemma mstart_next : forall k, (mstart k + 28 <= mstart (k + 1))%Z.
Proof.
  intros k. assert (E : k = (12 * ((k - 1) / 12) + ((k - 1) mod 12 + 1))%Z) by (assert (X := Z_div_mod_eq_full (k - 1) 12); lia).
  assert (B0 := Z.mod_pos_bound (k - 1) 12 ltac:(lia)). assert (B : (1 <= (k - 1) mod 12 + 1 <= 12)%Z) by lia. clear B0. set (y := ((k - 1) / 12)%Z) in *. set (m := ((k - 1) mod 12 + 1)%Z) in *. clearbody y m. subst k.
  rewrite month_step, mstart_ym by lia. assert (L := mlen_le y m). lia.
Qed.
Lemma mstart_mono : forall k j, (0 <= j)%Z -> (mstart k <= mstart (k + j))%Z.
Proof.
  intros k j H. pattern j. apply natlike_ind; [now rewrite Z.add_0_r| |exact H]. intros i Hi IH. assert (X := mstart_next (k + i)). unfold Z.succ. rewrite Z.add_assoc. lia.
Qed.
(** a date lies in or after a month exactly if its month number is not smaller *)
Lemma month_order : forall y m d k, valid (y, m, d) -> (k <= 12 * y + m <-> mstart k <= dnum y m d)%Z.
Proof.
  intros y m d k [Hm Hd]. assert (D := dnum_day y m 1 (d - 1)). replace (1 + (d - 1))%Z with d in D by lia. split; intros H.
  - assert (M := mstart_mono k (12 * y + m - k) ltac:(lia)). replace (k + (12 * y + m - k))%Z with (12 * y + m)%Z in M by ring. rewrite mstart_ym in M by easy. lia.
  - destruct (Z.le_gt_cases k (12 * y + m)) as [C|C]; [easy|exfalso].
    assert (M := mstart_mono (12 * y + m + 1) (k - (12 * y + m + 1)) ltac:(lia)). replace (12 * y + m + 1 + _)%Z with k in M by ring. rewrite month_step in M by easy. lia.
Qed.

(** ** The two tables *)
Definition knum (i : nat) : Z := let '(y, m) := nth i dat_dates (0, 0)%Z in (12 * y + m)%Z.
Definition row0 : row := Row 0 0 0 0.
Definition starts : list Z := [36934;37300;37512;37665;38334;38395;38486;38639;38761;38820;38942;39004;39126;39887;41317;41499;41683;42048;42413;42778;43144;43509;43874;44239;
  44786;45151;45516;46247;47161;47892;48257;48804;49169;49534;50083;50630;51179;53736;54832;56109;57204;57754]%Z.
Lemma starts_ok : map since tai_utc_table = starts. Proof. reflexivity. Qed.
Lemma mstart_rows : forall i, (i < 42)%nat -> mstart (knum i) = nth i starts 0%Z.
Proof. intros i H. do 42 (destruct i as [|i]; [vm_compute; reflexivity|]). lia. Qed.
Lemma starts_sorted : forall i j, (i < j)%nat -> (j < 42)%nat -> (nth i starts 0 < nth j starts 0)%Z.
Proof.
  assert (S1 : forall i, (S i < 42)%nat -> (nth i starts 0 < nth (S i) starts 0)%Z) by (intros i H; do 41 (destruct i as [|i]; [reflexivity|]); lia).
  intros i j H Hj. induction j as [|j IH]; [lia|]. specialize (S1 j Hj). destruct (Nat.eq_dec i j) as [->|N]; [exact S1|]. specialize (IH ltac:(lia) ltac:(lia)). lia.
Qed.
Lemma dat_row_S : forall n m, dat_row (S n) m = if (knum n <=? m)%Z then Some n else dat_row n m.
Proof. intros n m. cbn [dat_row]. unfold knum. destruct (nth n dat_dates _). reflexivity. Qed.
Lemma dat_row_some : forall n i m, (i < n)%nat -> (knum i <= m)%Z -> (forall j, (i < j < n)%nat -> (m < knum j)%Z) -> dat_row n m = Some i.
Proof.
  induction n as [|n IH]; intros i m Hi Hk Hj; [lia|]. rewrite dat_row_S. destruct (Nat.eq_dec i n) as [->|N].
  - destruct (Z.leb_spec (knum n) m); [reflexivity|lia].
  - destruct (Z.leb_spec (knum n) m) as [C|C]; [specialize (Hj n ltac:(lia)); lia|]. apply IH; [lia|easy|]. intros j Hj2. apply Hj. lia.
Qed.

Lemma palDat_date : forall junk dju, mjd_ok dju -> exists y m d, valid (y, m, d) /\ dnum y m d = Zfloor dju /\
  palDat_e junk dju = eraDat y m d (dju - IZR (Zfloor dju)) /\ 0 <= dju - IZR (Zfloor dju) < 1.
Proof.
  intros junk dju H. unfold palDat_e, palDat. fold (palDjcl dju). rewrite djcl_R by easy. destruct (cald_valid (Zfloor dju)) as [V N].
  destruct (cald (Zfloor dju + 2400001)) as [[y m] d]. exists y, m, d. split; [easy|]. split; [easy|]. split; [reflexivity|].
  assert (A1 := Zfloor_lb dju). assert (A2 := Zfloor_ub dju). lra.
Qed.
Lemma eraDat_R : forall y m d fd, valid (y, m, d) -> (1960 <= y)%Z -> 0 <= fd <= 1 ->
  eraDat y m d fd = match dat_row 42 (12 * y + m) with None => 0 | Some i =>
    let da := nth i dat_delat 0 in if (i <? 14)%nat then let '(t0, r) := nth i dat_drift (0, 0) in da + (IZR (dnum y m d) + fd - t0) * r else da end.
Proof.
  intros y m d fd [Hm Hd] Hy Hf. unfold eraDat. rn. rewrite Rltb_false, Rltb_false by lra. cbn [orb]. rewrite cal2jd_spec.
  destruct (Z.ltb_spec y (-4799)); [lia|]. destruct (Z.ltb_spec m 1); [lia|]. destruct (Z.ltb_spec 12 m); [lia|]. cbn [orb].
  destruct (Z.ltb_spec d 1); [lia|]. destruct (Z.ltb_spec (mlen y m) d); [lia|]. cbn [orb]. change (0 <? 0)%Z with false. cbn iota. destruct (Z.ltb_spec y 1960); [lia|].
  reflexivity.
Qed.
Lemma value_ok : forall i n f, (i < 42)%nat ->
  (let da := nth i dat_delat 0 in if (i <? 14)%nat then let '(t0, r) := nth i dat_drift (0, 0) in da + (n + f - t0) * r else da) = value (nth i tai_utc_table row0) (n + f).
Proof.
  intros i n f H. unfold value. do 42 (destruct i as [|i]; [cbn [nth dat_delat dat_drift Nat.ltb Nat.leb tai_utc_table a t0 b step]; rn; lra|]). lia.
Qed.
Lemma year_from : forall y m d, valid (y, m, d) -> (36934 <= dnum y m d <-> 1960 <= y)%Z.
Proof.
  intros y m d V. assert (K := month_order y m d 23521 V). change (mstart 23521) with 36934%Z in K. destruct V as [Hm _]. lia.
Qed.

(** C106: palDat and palDtt return the published table: for every UTC from 1960 to the end of the calendar the value in force
    then, whatever the uninitialised variables of palDat held *)
Theorem C106_palDat : forall junk dju r, mjd_ok dju -> in_force r dju -> palDat_e junk dju = value r dju /\ palDtt_e junk dju = 32.184 + value r dju.
Proof.
  intros junk dju r Hr (Hin & Hs & Hl).
  assert (E : palDat_e junk dju = value r dju).
  { destruct (palDat_date junk dju Hr) as (y & m & d & V & N & -> & F).
    apply (In_nth _ _ row0) in Hin. destruct Hin as (i & Hi & Er). change (length tai_utc_table) with 42%nat in Hi.
    assert (Ns : forall j, since (nth j tai_utc_table row0) = nth j starts 0%Z) by (intros j; rewrite <- starts_ok; change 0%Z with (since row0); symmetry; apply map_nth).
    assert (Lo : (nth i starts 0 <= dnum y m d)%Z) by (rewrite N, <- Ns, Er; now apply Zfloor_lub).
    assert (Hi2 : forall j, (i < j < 42)%nat -> (dnum y m d < nth j starts 0)%Z).
    { intros j Hj. destruct (Z.lt_ge_cases (dnum y m d) (nth j starts 0%Z)) as [C|C]; [easy|exfalso].
      assert (Lj : In (nth j tai_utc_table row0) tai_utc_table) by (apply nth_In; change (length tai_utc_table) with 42%nat; lia).
      assert (Q := Hl (nth j tai_utc_table row0) Lj). rewrite Ns in Q.
      assert (X : IZR (nth j starts 0%Z) <= dju) by (apply Rle_trans with (IZR (Zfloor dju)); [apply IZR_le; lia|apply Zfloor_lb]). specialize (Q X).
      rewrite <- Er, Ns in Q. assert (O := starts_sorted i j ltac:(lia) ltac:(lia)). lia. }
    assert (Y : (1960 <= y)%Z).
    { apply (year_from y m d V). destruct (Nat.eq_dec i 0) as [->|Ni]; [exact Lo|]. assert (O := starts_sorted 0 i ltac:(lia) Hi). change (nth 0 starts 0%Z) with 36934%Z in O. lia. }
    rewrite eraDat_R by (try easy; lra).
    rewrite (dat_row_some 42 i).
    - rewrite value_ok by easy. rewrite Er. f_equal. rewrite N. lra.
    - easy.
    - apply (month_order y m d); [easy|]. rewrite mstart_rows by easy. exact Lo.
    - intros j Hj. destruct (Z.lt_ge_cases (12 * y + m) (knum j)) as [C|C]; [easy|exfalso].
      apply (month_order y m d _ V) in C. rewrite mstart_rows in C by lia. specialize (Hi2 j Hj). lia. }
  split; [exact E|]. unfold palDtt_e, palDtt. fold (palDat_e junk dju). rewrite E. rn. lra.
Qed.
(** before 1960 January 1 it returns zero (with a status that palDat ignores) *)
Theorem C106_before_1960 : forall junk dju, mjd_ok dju -> dju < 36934 -> palDat_e junk dju = 0.
Proof.
  intros junk dju Hr H. destruct (palDat_date junk dju Hr) as (y & m & d & V & N & -> & F).
  assert (Y : (y < 1960)%Z).
  { destruct (Z.lt_ge_cases y 1960) as [C|C]; [easy|exfalso]. apply (year_from y m d V) in C. rewrite N in C. apply IZR_le in C. assert (A1 := Zfloor_lb dju). lra. }
  unfold eraDat. rn. rewrite Rltb_false, Rltb_false by lra. cbn [orb]. rewrite cal2jd_spec. destruct V as [Hm Hd].
  destruct (Z.ltb_spec y (-4799)); [reflexivity|]. destruct (Z.ltb_spec m 1); [lia|]. destruct (Z.ltb_spec 12 m); [lia|]. cbn [orb].
  destruct (Z.ltb_spec d 1); [lia|]. destruct (Z.ltb_spec (mlen y m) d); [lia|]. cbn [orb]. change (0 <? 0)%Z with false. cbn iota.
  destruct (Z.ltb_spec y 1960); [reflexivity|lia].
Qed.
(** some row is in force from 1960 on, so that the two theorems cover every accepted date *)
Theorem C106_covered : forall dju, 36934 <= dju -> exists r, in_force r dju.
Proof.
  intros dju H. set (ok := fun r => (since r <=? Zfloor dju)%Z).
  assert (G : forall l : list row, Forall (fun r => (36934 <= since r)%Z) l -> (exists r, In r l /\ IZR (since r) <= dju) ->
    exists r, In r l /\ IZR (since r) <= dju /\ forall r', In r' l -> IZR (since r') <= dju -> (since r' <= since r)%Z).
  { clear. induction l as [|x l IH]; intros F (r & Hi & Hr); [easy|]. inversion F; subst.
    destruct (Rle_or_lt (IZR (since x)) dju) as [Cx|Cx].
    - assert (Dec : (exists r, In r l /\ IZR (since r) <= dju) \/ ~ exists r, In r l /\ IZR (since r) <= dju).
      { clear. induction l as [|y l IH]; [right; intros (r & [] & _)|]. destruct (Rle_or_lt (IZR (since y)) dju) as [C|C]; [left; exists y; split; [now left|easy]|].
        destruct IH as [(r & I & J)|N]; [left; exists r; split; [now right|easy]|]. right. intros (r & [<-|I] & J); [lra|]. apply N. now exists r. }
      destruct Dec as [Dy|Dn].
      + destruct (IH H2 Dy) as (r1 & I1 & J1 & K1). destruct (Z.le_ge_cases (since x) (since r1)) as [C|C].
        * exists r1. split; [now right|]. split; [easy|]. intros r' [<-|I'] J'; [easy|now apply K1].
        * exists x. split; [now left|]. split; [easy|]. intros r' [<-|I'] J'; [lia|]. specialize (K1 r' I' J'). lia.
      + exists x. split; [now left|]. split; [easy|]. intros r' [<-|I'] J'; [lia|]. exfalso. apply Dn. now exists r'.
    - destruct Hi as [<-|Hi]; [lra|]. destruct (IH H2 ltac:(now exists r)) as (r1 & I1 & J1 & K1). exists r1. split; [now right|]. split; [easy|].
      intros r' [<-|I'] J'; [lra|now apply K1]. }
  apply G.
  - unfold tai_utc_table. repeat constructor; cbn; lia.
  - eexists. split; [left; reflexivity|exact H].
Qed.
(** since 1972 UTC has been an integral number of seconds behind TAI: the value does not depend on the time of day, and at
    every later date of the table it grows by exactly one second *)
Theorem C106_integral : forall junk dju, mjd_ok dju -> 41317 <= dju -> exists s : Z, (10 <= s <= 37)%Z /\ palDat_e junk dju = IZR s.
Proof.
  intros junk dju Hr H. destruct (C106_covered dju ltac:(lra)) as (r & F). destruct (C106_palDat junk dju r Hr F) as [-> _]. destruct F as (I & J & K).
  assert (L : (41317 <= since r)%Z).
  { apply (K (step 41317 10)); [|exact H]. unfold tai_utc_table. do 14 right. now left. }
  unfold tai_utc_table in I. cbn [In] in I.
  repeat match type of I with
  | Row _ _ _ _ = _ \/ _ => destruct I as [I|I]; [subst r; cbn [since] in L; lia|]
  | step _ ?v = _ \/ _ => destruct I as [I|I]; [subst r; unfold value, step; cbn [a t0 b];
      match v with IZR ?z => exists z; split; [lia|lra] end|]
  end. destruct I.
Qed.
Theorem C106_leap_seconds : forall junk i eps, (14 < i < 42)%nat -> 0 < eps <= 180 ->
  let t := IZR (since (nth i tai_utc_table row0)) in palDat_e junk t - palDat_e junk (t - eps) = 1.
Proof.
  intros junk i eps Hi He t.
  assert (Ns : forall j, since (nth j tai_utc_table row0) = nth j starts 0%Z) by (intros j; rewrite <- starts_ok; change 0%Z with (since row0); symmetry; apply map_nth).
  assert (Gap : forall j, (14 < j < 42)%nat -> (41317 <= nth (j - 1) starts 0 /\ nth (j - 1) starts 0 + 180 <= nth j starts 0 <= 57754)%Z).
  { intros j Hj. do 42 (destruct j as [|j]; [first [lia|cbn; lia]|]). lia. }
  assert (F : forall j u, (j < 42)%nat -> IZR (nth j starts 0%Z) <= u -> ((S j < 42)%nat -> u < IZR (nth (S j) starts 0%Z)) -> in_force (nth j tai_utc_table row0) u).
  { intros j u Hj H1 H2. split; [apply nth_In; exact Hj|]. rewrite Ns. split; [exact H1|]. intros r' I J. apply (In_nth _ _ row0) in I. destruct I as (k & Hk & <-).
    change (length tai_utc_table) with 42%nat in Hk. rewrite Ns in *. destruct (Nat.lt_trichotomy k j) as [C|[->|C]]; [assert (O := starts_sorted k j C Hj); lia|lia|].
    exfalso. specialize (H2 ltac:(lia)). destruct (Nat.eq_dec k (S j)) as [->|N]; [lra|]. assert (O := starts_sorted (S j) k ltac:(lia) Hk). apply IZR_lt in O. lra. }
  destruct (Gap i Hi) as (G1 & G2 & G3). apply IZR_le in G1, G2, G3. rewrite plus_IZR in G2. unfold t. rewrite Ns.
  destruct (C106_palDat junk (IZR (nth i starts 0%Z)) (nth i tai_utc_table row0)) as [-> _]; [unfold mjd_ok; lra| |].
  { apply F; [lia|lra|]. intros Q. apply IZR_lt. apply starts_sorted; lia. }
  destruct (C106_palDat junk (IZR (nth i starts 0%Z) - eps) (nth (i - 1) tai_utc_table row0)) as [-> _]; [unfold mjd_ok; lra| |].
  { apply F; [lia|lra|]. intros _. replace (S (i - 1)) with i by lia. lra. }
  clear - Hi. generalize (IZR (nth i starts 0%Z)) as u. intros u. do 42 (destruct i as [|i]; [first [lia|unfold value; cbn [nth Nat.sub tai_utc_table step a t0 b]; lra]|]). lia.
Qed.
(** Where palDjcl rejects the date, palDat looks up uninitialised variables: the result is anything the stack held *)
Theorem C106_junk_refuted : forall dju, ~ mjd_ok dju -> palDat_e ((2000, 1, 1)%Z, 0) dju = 32 /\ palDat_e ((1980, 1, 1)%Z, 0) dju = 19.
Proof.
  intros dju H. unfold palDat_e, palDat. fold (palDjcl dju). rewrite (djcl_R_bad dju H). cbn [snd].
  assert (E : forall y m d i, valid (y, m, d) -> (1960 <= y)%Z -> dat_row 42 (12 * y + m) = Some i -> (i < 42)%nat -> eraDat y m d 0 = value (nth i tai_utc_table row0) (IZR (dnum y m d) + 0)).
  { intros y m d i V Y Hd Hi. rewrite eraDat_R by (try easy; lra). rewrite Hd. now apply value_ok. }
  split.
  - rewrite (E 2000 1 1 36%nat)%Z; [unfold value; cbn [nth tai_utc_table step a t0 b]; lra|cbn; lia|lia|vm_compute; reflexivity|lia].
  - rewrite (E 1980 1 1 23%nat)%Z; [unfold value; cbn [nth tai_utc_table step a t0 b]; lra|cbn; lia|lia|vm_compute; reflexivity|lia].
Qed.
(** the values of the package's own test program *)
Example C106_eg : (forall junk, palDat_e junk 43900 = 18 /\ palDtt_e junk 40404 = 39.709746) /\ ~ mjd_ok (-3000000) /\ in_force (step 57754 37) 60000.
Proof.
  assert (F : forall i u, (i < 42)%nat -> IZR (nth i starts 0%Z) <= u -> ((S i < 42)%nat -> u < IZR (nth (S i) starts 0%Z)) -> in_force (nth i tai_utc_table row0) u).
  { assert (Ns : forall j, since (nth j tai_utc_table row0) = nth j starts 0%Z) by (intros j; rewrite <- starts_ok; change 0%Z with (since row0); symmetry; apply map_nth).
    intros j u Hj H1 H2. split; [apply nth_In; exact Hj|]. rewrite Ns. split; [exact H1|]. intros r' I J. apply (In_nth _ _ row0) in I. destruct I as (k & Hk & <-).
    change (length tai_utc_table) with 42%nat in Hk. rewrite Ns in *. destruct (Nat.lt_trichotomy k j) as [C|[->|C]]; [assert (O := starts_sorted k j C Hj); lia|lia|].
    exfalso. specialize (H2 ltac:(lia)). destruct (Nat.eq_dec k (S j)) as [->|N]; [lra|]. assert (O := starts_sorted (S j) k ltac:(lia) Hk). apply IZR_lt in O. lra. }
  split; [|split; [unfold mjd_ok; lra|]].
  - intros junk. split.
    + destruct (C106_palDat junk 43900 (nth 22 tai_utc_table row0)) as [-> _]; [unfold mjd_ok; lra|apply F; [lia|cbn [nth starts]; lra|intros _; cbn [nth starts]; lra]|].
      unfold value; cbn [nth tai_utc_table step a t0 b]; lra.
    + destruct (C106_palDat junk 40404 (nth 13 tai_utc_table row0)) as [_ ->]; [unfold mjd_ok; lra|apply F; [lia|cbn [nth starts]; lra|intros _; cbn [nth starts]; lra]|].
      unfold value; cbn [nth tai_utc_table step a t0 b]; lra.
  - change (step 57754 37) with (nth 41 tai_utc_table row0). apply F; [lia|cbn [nth starts]; lra|lia].
Qed.
