(** * C104: machine integers and conversions to integer *)
From Coq Require Import Reals ZArith Lra Lia Psatz Bool List.
From Flocq Require Import Core IEEE754.BinarySingleNaN.
From Verif Require Import Num NumR NumD NumF Erfa M_Time M_Int P_Int P_Cal P_Time Props_Dcal Props_Dsexa Props_Ieee Props_Dsep Props_Dangle.
Import ListNotations.
Local Open Scope R_scope.

(** ** The checked programs, when they succeed, compute what the models on mathematical integers compute *)
Lemma ob_ck : forall B w z (f : Z -> option B) r, obind (ck w z) f = Some r -> f z = Some r.
Proof. intros B w z f r. unfold ck. destruct (fits w z); [easy|discriminate]. Qed.
Ltac ckd H := repeat (apply ob_ck in H; cbv beta in H).
Lemma jd2cal_ref : forall w jd r, jd2cal_c w jd = Some r -> r = jd2cal_z jd.
Proof. intros w jd r H. unfold jd2cal_c in H. ckd H. injection H as <-. reflexivity. Qed.
Lemma at_mtab : forall im m, at_index mtab_list (im - 1) = Some m -> m = mtab im.
Proof.
  intros im m. unfold at_index, mtab. destruct (Z.ltb_spec (im - 1) 0); [easy|]. intros E. apply nth_error_nth with (d := 0%Z) in E. now rewrite <- E.
Qed.
Lemma cal2jd_ref : forall w y m d r, eraCal2jd_c w y m d = Some r -> r = eraCal2jd y m d.
Proof.
  intros w y m d r H. unfold eraCal2jd_c in H. unfold eraCal2jd. destruct (y <? -4799)%Z; [now injection H|].
  destruct ((m <? 1) || (12 <? m))%Z; [now injection H|]. ckd H. destruct (at_index mtab_list (m - 1)) as [ml|] eqn:E; [|discriminate].
  apply at_mtab in E. subst ml. cbn [obind] in H. ckd H. now injection H.
Qed.
Lemma fine_ref : forall n r, nrs_fine n = Some r -> r = (10 ^ Z.of_nat n)%Z.
Proof.
  intros n r H. destruct (le_lt_dec n 9) as [C|C]; [rewrite fine_val in H by easy; now injection H|]. rewrite fine_none in H by lia. discriminate.
Qed.
Lemma coarse_ref : forall n r, nrs_coarse n = Some r -> r = d2tf_coarse n.
Proof.
  intros n r H. destruct (le_lt_dec n 9) as [C|C]; [destruct (coarse_val n C) as [E _]; rewrite E in H; now injection H|]. rewrite coarse_none in H by lia. discriminate.
Qed.

Section Generic.
Context {T : Type} {A : Arith T}.
Lemma cast_ref : forall w x z, cast w x = Some z -> z = toZ x.
Proof. intros w x z. unfold cast. destruct (_ && _)%bool; intros H; [now injection H|discriminate]. Qed.
Ltac cst H := match type of H with obind (cast ?w ?x) _ = Some _ => let E := fresh "E" in destruct (cast w x) eqn:E; cbn [obind] in H; [apply cast_ref in E|discriminate H] end.
Lemma eraJd2cal_ref : forall w a b r, eraJd2cal_c w a b = Some r -> r = eraJd2cal a b.
Proof.
  intros w a b r H. unfold eraJd2cal_c in H. unfold eraJd2cal. destruct (_ || _)%bool; [now injection H|].
  destruct (b <=? a)%num; cbv zeta in H |- *; cst H; subst; ckd H.
  all: match type of H with obind (jd2cal_c ?w ?z) _ = _ => destruct (jd2cal_c w z) eqn:E2; cbn [obind] in H; [apply jd2cal_ref in E2|discriminate H] end.
  all: subst; now injection H as <-.
Qed.
Lemma eraD2tf_ref : forall n a r, eraD2tf_c n a = Some r -> r = eraD2tf n a.
Proof.
  intros n a r H. unfold eraD2tf_c in H. unfold eraD2tf. destruct (Z.ltb_spec n 0) as [C|C].
  - unfold ck in H at 1. destruct (fits 32 (- n)); cbn [obind] in H; [|discriminate]. destruct (nrs_coarse (Z.to_nat (- n))) as [q|] eqn:E; cbn [obind] in H; [|discriminate].
    apply coarse_ref in E. subst q. destruct (nrs_fine (Z.to_nat (Z.max 0 n))) as [q|] eqn:E; cbn [obind] in H; [|discriminate].
    apply fine_ref in E. rewrite Z2Nat.id in E by lia. subst q. cbv zeta in H |- *. do 4 (cst H; subst). now injection H as <-.
  - cbn [obind] in H. destruct (nrs_fine (Z.to_nat (Z.max 0 n))) as [q|] eqn:E; cbn [obind] in H; [|discriminate].
    apply fine_ref in E. rewrite Z2Nat.id in E by lia. subst q. cbv zeta in H |- *. do 4 (cst H; subst). now injection H as <-.
Qed.
(** C104: for every arithmetic, every size of [long] and all arguments: a run of the checked program that meets no overflow, no
    out-of-range conversion and no index out of bounds gives the result of the model used by the other theorems *)
Theorem C104_refines : forall wl : Z,
  (forall iy im id r, palCldj_c wl iy im id = Some r -> r = palCldj iy im id) /\
  (forall iy im id r, palCaldj_c wl iy im id = Some r -> r = palCaldj iy im id) /\
  (forall djm r, palDjcl_c wl djm = Some r -> r = palDjcl djm) /\
  (forall ndp djm y0 r, palDjcal_c wl ndp djm y0 = Some r -> r = palDjcal ndp djm y0) /\
  (forall ndp x r, palDd2tf_c ndp x = Some r -> r = palDd2tf ndp x) /\
  (forall ndp x r, palDr2tf_c ndp x = Some r -> r = palDr2tf ndp x) /\
  (forall ndp x r, palDr2af_c ndp x = Some r -> r = palDr2af ndp x).
Proof.
  intros wl. split; [|split; [|split; [|split; [|split; [|split]]]]].
  - intros iy im id r H. now apply (cal2jd_ref wl).
  - intros iy im id r H. unfold palCaldj_c in H. unfold palCaldj. cbv zeta in *. unfold ck in H at 1. destruct (fits _ _) in H; [|discriminate]. now apply (cal2jd_ref wl).
  - intros djm r H. now apply (eraJd2cal_ref wl).
  - intros ndp djm y0 r H. unfold palDjcal_c in H. unfold palDjcal. destruct (eraJd2cal_c wl MJD0 djm) as [q|] eqn:E; cbn [obind] in H; [|discriminate].
    apply eraJd2cal_ref in E. subst q. destruct (eraJd2cal MJD0 djm) as [j [[ymd f]|]]; cbv zeta in *; cst H; subst; now injection H as <-.
  - intros ndp x r H. now apply eraD2tf_ref.
  - intros ndp x r H. now apply eraD2tf_ref.
  - intros ndp x r H. now apply eraD2tf_ref.
Qed.
(** C104: ten or more decimals (or a resolution of 10^6 hours or more) overflow the [int] that holds the power of ten, whatever the interval *)
Theorem C104_decimals : forall ndp x, (10 <= ndp \/ ndp <= -10)%Z ->
  palDd2tf_c ndp x = None /\ palDr2tf_c ndp x = None /\ palDr2af_c ndp x = None.
Proof.
  assert (G : forall ndp x, (10 <= ndp \/ ndp <= -10)%Z -> eraD2tf_c ndp x = None).
  { intros ndp x H. unfold eraD2tf_c. destruct (Z.ltb_spec ndp 0) as [C|C].
    - unfold ck at 1. destruct (fits 32 (- ndp)); cbn [obind]; [|reflexivity]. rewrite coarse_none by lia. reflexivity.
    - cbn [obind]. rewrite fine_none by lia. reflexivity. }
  intros ndp x H. unfold palDd2tf_c, palDr2tf_c, palDr2af_c. rewrite !G by easy. repeat split.
Qed.
(** C104: the conversions to days and radians take the absolute value of the integer fields, undefined for the least integer only *)
Theorem C104_fields : forall h m s, (- 2 ^ 31 <= h < 2 ^ 31 -> - 2 ^ 31 <= m < 2 ^ 31 ->
  (h <> - 2 ^ 31 -> m <> - 2 ^ 31 -> palDtf2d_c h m s = Some (palDtf2d h m s) /\ palDtf2r_c h m s = Some (palDtf2r h m s) /\ palDaf2r_c h m s = Some (palDaf2r h m s)) /\
  (h = - 2 ^ 31 \/ m = - 2 ^ 31 -> palDtf2d_c h m s = None /\ palDtf2r_c h m s = None /\ palDaf2r_c h m s = None))%Z.
Proof.
  intros h m s Hh Hm. unfold palDtf2d_c, palDtf2r_c, palDaf2r_c. split.
  - intros N1 N2. rewrite !ck32 by lia. repeat split.
  - intros C. unfold ck. assert (X : fits 32 (Z.abs h) = false \/ fits 32 (Z.abs m) = false) by (destruct C as [->| ->]; [now left|now right]).
    destruct X as [-> | X]; [repeat split|]. rewrite X. destruct (fits 32 (Z.abs h)); repeat split.
Qed.
End Generic.

(** C104: calendar to MJD.  For every year, month and day that an [int] can hold nothing overflows with a 64-bit [long], and
    the day number is small enough to be exact in a double. *)
Theorem C104_palCldj : forall iy im id, (- 2 ^ 31 <= iy < 2 ^ 31)%Z -> (- 2 ^ 31 <= im < 2 ^ 31)%Z -> (- 2 ^ 31 <= id < 2 ^ 31)%Z ->
  palCldj_c 64 iy im id = Some (palCldj iy im id) /\ palCaldj_c 64 iy im id = Some (palCaldj iy im id) /\
  (forall j n, palCldj iy im id = (j, Some n) -> (Z.abs n < 2 ^ 53)%Z).
Proof.
  intros iy im id Hy Hm Hd. split; [|split].
  - apply cal2jd_64; lia.
  - unfold palCaldj_c, palCaldj. cbv zeta.
    set (adj := if ((0 <=? iy) && (iy <=? 49))%Z then 2000%Z else if ((50 <=? iy) && (iy <=? 99))%Z then 1900%Z else 0%Z).
    assert (B : (-2147483648 <= iy + adj < 2147483648)%Z).
    { unfold adj. destruct (Z.leb_spec 0 iy), (Z.leb_spec iy 49), (Z.leb_spec 50 iy), (Z.leb_spec iy 99); cbn [andb]; lia. }
    rewrite ck32 by exact B. cbn [obind]. apply cal2jd_64; lia.
  - intros j n E. apply (cal2jd_exact iy im id j n); [lia|lia|exact E].
Qed.
(** With a 32-bit [long] dates from March 1465073 on overflow, and only those *)
Theorem C104_palCldj_long32 : forall iy im id, (-4799 <= iy < 2 ^ 31)%Z -> (1 <= im <= 12)%Z -> (1 <= id <= 31)%Z ->
  (iy < 1465073 \/ iy = 1465073 /\ im <= 2 -> palCldj_c 32 iy im id = Some (palCldj iy im id))%Z /\
  (1465073 < iy \/ iy = 1465073 /\ 2 < im -> palCldj_c 32 iy im id = None)%Z.
Proof.
  intros iy im id Hy Hm Hd. destruct (cal2jd_32 iy im id ltac:(lia) Hm Hd) as [K1 K2]. unfold palCldj_c, palCldj.
  destruct (Z.leb_spec im 2); split; intros C; [apply K1|apply K2|apply K1|apply K2]; lia.
Qed.
Theorem C104_palCldj_example : palCldj_c 32 1465073 2 28 = Some (0%Z, Some 534428043%Z) /\ palCldj_c 32 1465073 3 1 = None /\
  palCldj_c 64 2147483647 2147483647 5 = Some ((-2)%Z, None) /\ palCaldj_c 64 24 2 29 = Some (0%Z, Some 60369%Z).
Proof. vm_compute. repeat split. Qed.

(** ** Conversions of binary64 numbers *)
Lemma rd32 : rd (IZR (- 2 ^ (32 - 1) - 1)) = -2147483649 /\ rd (IZR (2 ^ (32 - 1))) = 2147483648.
Proof. change (- 2 ^ (32 - 1) - 1)%Z with (-2147483649)%Z. change (2 ^ (32 - 1))%Z with 2147483648%Z. split; apply rdZ; cbn; lia. Qed.
Lemma rep_ofZb : forall n p, Rabs (IZR n) <= bpow radix2 p -> (-1074 <= p < 1024)%Z -> repb (fofZ n) (rd (IZR n)) p.
Proof.
  intros n p H Hp. assert (K : Rabs (rd (IZR n)) <= bpow radix2 p) by (apply rd_le_bpow; [lia|easy]). split; [|exact K].
  apply rep_ofZ. eapply bp_lt; [|exact K]. lia.
Qed.
Lemma trunc_bounds : forall x a b, (a <= Ztrunc x <= b)%Z -> (a <= 0 <= b)%Z -> IZR a - 1 < x < IZR b + 1.
Proof.
  intros x a b [H1 H2] [Ha Hb]. apply IZR_le in H1, H2, Ha, Hb. destruct (Rle_or_lt 0 x) as [C|C].
  - rewrite Ztrunc_floor in H1, H2 by easy. assert (B := Zfloor_ub x). lra.
  - rewrite Ztrunc_ceil in H1, H2 by lra. assert (B := Zceil_lb x). lra.
Qed.

Section F.
Variable F : FLibm.
Notation FX := (FA F).
Ltac fz := first [split; [vm_compute; discriminate|vm_compute; reflexivity]|lia].
Ltac fb := lazymatch goal with
  | H : repb ?a _ _ |- repb ?a _ _ => exact H
  | |- repb (Bplus _ _ _) _ _ => eapply rb_add; [fb|fb|fz]
  | |- repb (Bminus _ _ _) _ _ => eapply rb_sub; [fb|fb|fz]
  | |- repb (Bmult _ _ _) _ _ => eapply rb_mul; [fb|fb|fz]
  | |- repb (Bopp _) _ _ => eapply rb_opp; fb
  | |- repb (Babs _) _ _ => eapply rb_abs; fb
  | |- repb (flit ?d) _ _ => apply (rb_lit d 60); [rlit; apply Rabs_le; cbn; lra|lia]
  | |- repb fpi _ _ => apply rb_pi
  | H : rep ?a _ |- repb ?a _ _ => apply rb_any; exact H
  end
  with fr := lazymatch goal with
  | H : rep ?a _ |- rep ?a _ => exact H
  | H : repb ?a _ _ |- rep ?a _ => exact (proj1 H)
  | |- rep _ _ => eapply rb_rep; fb
  end.
Ltac fops := cbn [add sub mul div opp ltb leb eqb fabs sqrt sin cos tan asin atan atan2
       exp log sinh pow fmod floor ceil ofZ toZ lit pi DA FA].

Lemma cast32 : forall a x, rep a x -> -2147483649 < x < 2147483648 -> @cast f64 FX 32 a = Some (Ztrunc x).
Proof.
  intros a x R0 [H1 H2]. unfold cast. fops. destruct rd32 as [E1 E2].
  assert (K1 := rep_ofZb (- 2 ^ (32 - 1) - 1) 40). assert (K2 := rep_ofZb (2 ^ (32 - 1)) 40). rewrite E1 in K1. rewrite E2 in K2.
  destruct K1 as [K1 _]; [change (bpow radix2 40) with 1099511627776; cbn; apply Rabs_le; lra|lia|].
  destruct K2 as [K2 _]; [change (bpow radix2 40) with 1099511627776; cbn; apply Rabs_le; lra|lia|].
  rewrite (rep_ltb _ _ _ _ K1 R0), (rep_ltb _ _ _ _ R0 K2). rewrite !Rltb_true by easy. cbn [andb]. now rewrite (rep_toZ a x R0).
Qed.
Lemma cast32_none : forall a x, rep a x -> 2147483648 <= x \/ x <= -2147483649 -> @cast f64 FX 32 a = None.
Proof.
  intros a x R0 H. unfold cast. fops. destruct rd32 as [E1 E2].
  assert (K1 := rep_ofZb (- 2 ^ (32 - 1) - 1) 40). assert (K2 := rep_ofZb (2 ^ (32 - 1)) 40). rewrite E1 in K1. rewrite E2 in K2.
  destruct K1 as [K1 _]; [change (bpow radix2 40) with 1099511627776; cbn; apply Rabs_le; lra|lia|].
  destruct K2 as [K2 _]; [change (bpow radix2 40) with 1099511627776; cbn; apply Rabs_le; lra|lia|].
  rewrite (rep_ltb _ _ _ _ K1 R0), (rep_ltb _ _ _ _ R0 K2). destruct H as [H|H].
  - rewrite (Rltb_false x) by lra. now rewrite andb_false_r.
  - rewrite (Rltb_false _ x) by lra. reflexivity.
Qed.
Lemma cast64 : forall a x, repb a x 61 -> @cast f64 FX 64 a = Some (Ztrunc x).
Proof.
  intros a x [R0 H]. unfold cast. fops. apply Rabs_le_inv in H. change (bpow radix2 61) with 2305843009213693952 in H.
  assert (K1 := rep_ofZb (- 2 ^ (64 - 1) - 1) 70). assert (K2 := rep_ofZb (2 ^ (64 - 1)) 70).
  change (- 2 ^ (64 - 1) - 1)%Z with (-9223372036854775809)%Z in *. change (2 ^ (64 - 1))%Z with 9223372036854775808%Z in *.
  change (bpow radix2 70) with 1180591620717411303424 in *.
  destruct K1 as [K1 _]; [apply Rabs_le; lra|lia|]. destruct K2 as [K2 _]; [apply Rabs_le; lra|lia|].
  rewrite (rep_ltb _ _ _ _ K1 R0), (rep_ltb _ _ _ _ R0 K2).
  assert (B1 : rd (IZR (-9223372036854775809)) <= - bpow radix2 62).
  { apply rd_le; [apply fmt_opp, generic_format_bpow; unfold d64, FLT_exp; lia|]. change (bpow radix2 62) with 4611686018427387904. lra. }
  assert (B2 : bpow radix2 62 <= rd (IZR 9223372036854775808)).
  { apply rd_ge; [apply generic_format_bpow; unfold d64, FLT_exp; lia|]. change (bpow radix2 62) with 4611686018427387904. lra. }
  change (bpow radix2 62) with 4611686018427387904 in *. rewrite !Rltb_true by lra. cbn [andb]. now rewrite (rep_toZ a x R0).
Qed.

(** ** palDjcl *)
(** jd2cal.c: the day number and fraction, from the two parts of the date *)
Definition jcore {T} {A : Arith T} (d1 d2 : T) : T * T :=
  (let d2 := d2 - #0.5 in
   let f1 := fmod d1 #1 in
   let f2 := fmod d2 #1 in
   let f := fmod (f1 + f2) #1 in
   let f := if f <? #0 then f + #1 else f in
   let d := floor (d1 - f1) + floor (d2 - f2) + floor (f1 + f2 - f) in (floor d, f))%num.
Lemma eraJd2cal_alt : forall T (A : Arith T) (a b : T), eraJd2cal a b =
  (if (a + b <? - #68569.5) || (a + b >? #1e9) then ((-1)%Z, None)
   else let '(d1, d2) := if a >=? b then (a, b) else (b, a) in let '(n, f) := jcore d1 d2 in (0%Z, Some (jd2cal_z (toZ n + 1), f)))%num.
Proof. intros. unfold eraJd2cal, jcore. destruct (_ || _)%bool; [reflexivity|]. destruct (_ >=? _)%num; reflexivity. Qed.
Lemma eraJd2cal_c_alt : forall T (A : Arith T) w (a b : T), eraJd2cal_c w a b =
  (if (a + b <? - #68569.5) || (a + b >? #1e9) then Some ((-1)%Z, None)
   else let '(d1, d2) := if a >=? b then (a, b) else (b, a) in let '(n, f) := jcore d1 d2 in
     let* n := cast w n in let* jd := ck w (n + 1) in let* ymd := jd2cal_c w jd in Some (0%Z, Some (ymd, f)))%num.
Proof. intros. unfold eraJd2cal_c, jcore. destruct (_ || _)%bool; [reflexivity|]. destruct (_ >=? _)%num; reflexivity. Qed.

Lemma rb_floor : forall a x p, repb a x p -> (0 <= p)%Z -> repb (Bnearbyint mode_DN a) (IZR (Zfloor x)) (p + 1).
Proof.
  intros a x p [R0 H] Hp. split; [now apply rep_floor|]. assert (A := Zfloor_lb x). assert (B := Zfloor_ub x). apply Rabs_le_inv in H.
  assert (P : 1 <= bpow radix2 p) by (change 1 with (bpow radix2 0); apply bpow_le; lia). rewrite bpow_plus. change (bpow radix2 1) with 2. apply Rabs_le. lra.
Qed.
Lemma f_one : repb (flit 1) (rd (litR 1)) 0 /\ rd (litR 1) = 1.
Proof.
  assert (E : rd (litR 1) = 1) by (replace (litR 1) with (IZR 1) by (rlit; reflexivity); rewrite rdZ by (cbn; lia); reflexivity).
  split; [|exact E]. apply rb_lit; [|lia]. replace (litR 1) with 1 by (rlit; lra). change (bpow radix2 0) with 1. rewrite Rabs_R1. lra.
Qed.
Lemma rb_fmod1 : forall a x, rep a x -> repb (ffmod a (flit 1)) (fmodR x (rd (litR 1))) 0.
Proof.
  intros a x R0. destruct f_one as [[K _] E]. split; [apply rep_fmod; [easy|easy|rewrite E; lra]|]. rewrite E.
  assert (B := fmodR_bound x 1 ltac:(lra)). change (bpow radix2 0) with 1. lra.
Qed.
Lemma f_jcore : forall L a b x y, repb a x 32 -> repb b y 32 ->
  repb (fst (@jcore f64 FX a b)) (fst (@jcore R (DA L) x y)) 38 /\ repb (snd (@jcore f64 FX a b)) (snd (@jcore R (DA L) x y)) 0 /\
  0 <= snd (@jcore R (DA L) x y).
Proof.
  intros L a b x y Ha Hb. unfold jcore. fops. cbv zeta. cbn [fst snd].
  assert (H2 : repb (Bminus mode_NE b (flit 0.5)) (rd (y - rd (litR 0.5))) 33).
  { assert (K : repb (flit 0.5) (rd (litR 0.5)) 1) by (apply rb_lit; [replace (litR 0.5) with (1 / 2) by (rlit; lra); change (bpow radix2 1) with 2; apply Rabs_le; lra|lia]).
    exact (rb_sub _ _ _ _ _ _ Hb K ltac:(lia)). }
  set (b2 := Bminus mode_NE b (flit 0.5)) in *. set (y2 := rd (y - rd (litR 0.5))) in *. clearbody b2 y2.
  assert (F1 := rb_fmod1 a x (proj1 Ha)). assert (F2 := rb_fmod1 b2 y2 (proj1 H2)).
  set (f1 := ffmod a (flit 1)) in *. set (g1 := fmodR x (rd (litR 1))) in *. set (f2 := ffmod b2 (flit 1)) in *. set (g2 := fmodR y2 (rd (litR 1))) in *.
  clearbody f1 g1 f2 g2.
  assert (S := rb_add _ _ _ _ _ _ F1 F2 ltac:(lia)). change (Z.max 0 0 + 1)%Z with 1%Z in S. set (sf := Bplus mode_NE f1 f2) in *. set (sg := rd (g1 + g2)) in *. clearbody sf sg.
  assert (FF := rb_fmod1 sf sg (proj1 S)). assert (Bd := fmodR_bound sg 1 ltac:(lra)). destruct f_one as [_ E1]. rewrite <- E1 in Bd at 1.
  set (f := ffmod sf (flit 1)) in *. set (g := fmodR sg (rd (litR 1))) in *. clearbody f g. apply Rabs_def2 in Bd.
  assert (E0 : rd (litR 0) = 0) by (replace (litR 0) with 0 by (rlit; lra); apply rd_0).
  assert (FG : repb (if Bltb f (flit 0) then Bplus mode_NE f (flit 1) else f) (if Rltb g (rd (litR 0)) then rd (g + rd (litR 1)) else g) 0 /\
               0 <= (if Rltb g (rd (litR 0)) then rd (g + rd (litR 1)) else g)).
  { assert (Z0 : rep (flit 0) (rd (litR 0))) by fr.
    rewrite (rep_ltb _ _ _ _ (proj1 FF) Z0). rewrite E0. destruct (Rltb_spec g 0) as [C|C]; [|split; [exact FF|lra]].
    assert (B1 : 0 <= rd (g + rd (litR 1)) <= 1).
    { rewrite E1. split; [apply rd_ge; [apply fmt0|lra]|apply rd_le; [apply (fmtZ 1); lia|lra]]. }
    split; [|lra]. split; [|change (bpow radix2 0) with 1; rewrite Rabs_pos_eq by lra; lra]. apply rep_add; [exact (proj1 FF)|exact (proj1 (proj1 f_one))|].
    rewrite Rabs_pos_eq by lra. apply Rle_lt_trans with 1; [lra|]. change 1 with (bpow radix2 0). apply bpow_lt. lia. }
  set (h := if Bltb f (flit 0) then Bplus mode_NE f (flit 1) else f) in *. set (k := if Rltb g (rd (litR 0)) then rd (g + rd (litR 1)) else g) in *. clearbody h k.
  destruct FG as [FG P]. split; [|split; [exact FG|exact P]].
  assert (A1 := rb_sub _ _ _ _ _ _ Ha F1 ltac:(lia)). assert (A2 := rb_sub _ _ _ _ _ _ H2 F2 ltac:(lia)). assert (A3 := rb_sub _ _ _ _ _ _ S FG ltac:(lia)).
  apply rb_floor in A1; [|lia]. apply rb_floor in A2; [|lia]. apply rb_floor in A3; [|lia].
  assert (A4 := rb_add _ _ _ _ _ _ (rb_add _ _ _ _ _ _ A1 A2 ltac:(lia)) A3 ltac:(lia)). apply rb_floor in A4; [|lia].
  eapply rb_weak; [exact A4|lia].
Qed.
Lemma f_MJD0 : repb (@MJD0 f64 FX) 2400000.5 32.
Proof.
  unfold MJD0. fops. assert (K := rb_lit 2400000.5 32). replace (litR 2400000.5) with (IZR 4800001 / 2) in K by (rlit; lra).
  rewrite rd_id in K by (apply half_fmt; lia). replace 2400000.5 with (IZR 4800001 / 2) by lra. apply K; [change (bpow radix2 32) with 4294967296; apply Rabs_le; lra|lia].
Qed.
(** An argument that passes the range test is an ordinary number or NaN *)
Lemma accepted : forall a : f64, is_nan a = false ->
  (Bltb (Bplus mode_NE (@MJD0 f64 FX) a) (Bopp (flit 68569.5)) || Bltb (flit 1e9) (Bplus mode_NE (@MJD0 f64 FX) a))%bool = false ->
  repb a (fval a) 32.
Proof.
  intros a N H. apply orb_false_elim in H. destruct H as [H1 H2]. destruct f_MJD0 as [[M1 M2] _].
  destruct (ffin a) eqn:Fa.
  2:{ exfalso. assert (L1 : rep (Bopp (flit 68569.5)) (- rd (litR 68569.5))) by fr. assert (L2 : rep (flit 1e9) (rd (litR 1e9))) by fr.
    destruct L1 as [L1 _]. destruct L2 as [L2 _]. unfold ffin in *. revert H1 H2. generalize dependent (@MJD0 f64 FX). intros mj M1 _.
    set (u := Bopp _) in *. set (v := flit 1e9) in *. clearbody u v.
    destruct a as [s|s| |s m f h]; try discriminate. destruct mj as [s1|s1| |s1 m1 f1 h1]; try discriminate; destruct u as [s2|s2| |s2 m2 f2 h2]; try discriminate;
      destruct v as [s3|s3| |s3 m3 f3 h3]; try discriminate; destruct s; try discriminate. }
  assert (C := Bplus_correct 53 1024 p53 lt_emax mode_NE (@MJD0 f64 FX) a M1 Fa).
  change (round radix2 (SpecFloat.fexp 53 1024) (round_mode mode_NE) (B2R (@MJD0 f64 FX) + B2R a)) with (rd (fval (@MJD0 f64 FX) + fval a)) in C.
  rewrite M2 in C. set (q := Bplus mode_NE (@MJD0 f64 FX) a) in *. clearbody q.
  destruct (Rlt_bool (Rabs (rd (2400000.5 + fval a))) (bpow radix2 1024)).
  - destruct C as (C1 & C2 & _). assert (Q : rep q (rd (2400000.5 + fval a))) by (split; [exact C2|exact C1]). clear C1 C2.
    assert (L1 : rep (Bopp (flit 68569.5)) (- rd (litR 68569.5))) by fr. assert (L2 : rep (flit 1e9) (rd (litR 1e9))) by fr.
    rewrite (rep_ltb _ _ _ _ Q L1) in H1. rewrite (rep_ltb _ _ _ _ L2 Q) in H2.
    replace (litR 1e9) with (IZR 1000000000) in H2 by (rlit; lra). rewrite rdZ in H2 by (cbn; lia).
    replace (litR 68569.5) with (IZR 137139 / 2) in H1 by (rlit; lra). rewrite (rd_id (IZR 137139 / 2)) in H1 by (apply half_fmt; lia).
    split; [now apply rep_self|]. set (x := fval a) in *. clearbody x. change (bpow radix2 32) with 4294967296.
    destruct (Rltb_spec (rd (2400000.5 + x)) (- (IZR 137139 / 2))) as [|G1]; [discriminate|]. destruct (Rltb_spec (IZR 1000000000) (rd (2400000.5 + x))) as [|G2]; [discriminate|].
    apply Rabs_le. split; apply Rnot_lt_le; intros W.
    + assert (rd (2400000.5 + x) <= IZR (-4000000000)) by (apply rd_le; [apply fmtZ; lia|lra]). lra.
    + assert (IZR 4000000000 <= rd (2400000.5 + x)) by (apply rd_ge; [apply fmtZ; lia|lra]). lra.
  - exfalso. destruct C as [C _]. assert (E : q = Inf false).
    { apply B2SF_inj. rewrite C. vm_compute. reflexivity. }
    rewrite E in H2. vm_compute in H2. discriminate.
Qed.
Lemma djcl_ok : forall L a, is_nan a = false ->
  (@palDjcl f64 FX a = ((-1)%Z, None) /\ @palDjcl_c f64 FX 64 a = Some ((-1)%Z, None)) \/
  (exists n f g, ffin a = true /\ @palDjcl f64 FX a = (0%Z, Some (jd2cal_z n, f)) /\ @palDjcl_c f64 FX 64 a = Some (0%Z, Some (jd2cal_z n, f)) /\
    repb f g 0 /\ 0 <= g /\ @palDjcl R (DA L) (fval a) = (0%Z, Some (jd2cal_z n, g))).
Proof.
  intros L a N. unfold palDjcl_c, palDjcl. rewrite !eraJd2cal_alt, eraJd2cal_c_alt.
  set (c := ((MJD0 + a)%num <? _)%num || _). assert (Ec : c = (Bltb (Bplus mode_NE (@MJD0 f64 FX) a) (Bopp (flit 68569.5)) || Bltb (flit 1e9) (Bplus mode_NE (@MJD0 f64 FX) a))%bool) by reflexivity.
  clearbody c. destruct c; [left; split; reflexivity|right]. assert (K := accepted a N (eq_sym Ec)). assert (M := f_MJD0).
  assert (EM : @MJD0 R (DA L) = 2400000.5).
  { unfold MJD0. fops. replace (litR 2400000.5) with (IZR 4800001 / 2) by (rlit; lra). rewrite rd_id by (apply half_fmt; lia). lra. }
  rewrite EM. 
  assert (Cd : (Rltb (rd (2400000.5 + fval a)) (- rd (litR 68569.5)) || Rltb (rd (litR 1e9)) (rd (2400000.5 + fval a)))%bool = false).
  { rewrite Ec. fops. f_equal.
    - symmetry. apply rep_ltb; [|fr]. eapply rb_rep. apply rb_add; [exact M|exact K|lia].
    - symmetry. apply rep_ltb; [fr|]. eapply rb_rep. apply rb_add; [exact M|exact K|lia]. }
  match goal with |- context [if ?b then ((-1)%Z, None) else _] => replace b with false by (symmetry; exact Cd) end.
  set (cc := (MJD0 >=? a)%num). set (cd := @leb R (DA L) (fval a) 2400000.5). assert (Ecc : cc = cd) by (unfold cc, cd; fops; apply rep_leb; [apply K|apply M]).
  clearbody cc cd. subst cc.
  assert (G : forall d1 d2 x1 x2, repb d1 x1 32 -> repb d2 x2 32 ->
     exists n f g, (let '(n, f) := @jcore f64 FX d1 d2 in (0%Z, Some (jd2cal_z (@toZ f64 FX n + 1), f))) = (0%Z, Some (jd2cal_z n, f)) /\
       (let '(n, f) := @jcore f64 FX d1 d2 in let* n := @cast f64 FX 64 n in let* jd := ck 64 (n + 1) in let* ymd := jd2cal_c 64 jd in Some (0%Z, Some (ymd, f))) = Some (0%Z, Some (jd2cal_z n, f)) /\
       repb f g 0 /\ 0 <= g /\
       (let '(n, f) := @jcore R (DA L) x1 x2 in (0%Z, Some (jd2cal_z (@toZ R (DA L) n + 1), f))) = (0%Z, Some (jd2cal_z n, g))).
  { intros d1 d2 x1 x2 R1 R2. destruct (f_jcore L d1 d2 x1 x2 R1 R2) as (J1 & J2 & J3). destruct (@jcore f64 FX d1 d2) as [n f]. destruct (@jcore R (DA L) x1 x2) as [z g].
    cbn [fst snd] in *. exists (Ztrunc z + 1)%Z, f, g. fops. rewrite (rep_toZ n z (proj1 J1)). split; [reflexivity|].
    rewrite (cast64 n z) by (eapply rb_weak; [exact J1|lia]). cbn [obind].
    assert (B : (-274877906944 <= Ztrunc z <= 274877906944)%Z).
    { destruct J1 as [_ J1]. change (bpow radix2 38) with 274877906944 in J1. apply Rabs_le_inv in J1.
      split; [rewrite <- (Ztrunc_IZR (-274877906944))|rewrite <- (Ztrunc_IZR 274877906944)]; apply Ztrunc_le; lra. }
    rewrite ck64 by lia. cbn [obind]. rewrite jd2cal_64 by lia. cbn [obind]. split; [reflexivity|]. split; [exact J2|]. split; [exact J3|]. reflexivity. }
  destruct cd.
  - destruct (G (@MJD0 f64 FX) a 2400000.5 (fval a) M K) as (n & f & g & G1 & G2 & G3 & G4 & G5). exists n, f, g. split; [apply K|]. repeat (split; [assumption|]). assumption.
  - destruct (G a (@MJD0 f64 FX) (fval a) 2400000.5 K M) as (n & f & g & G1 & G2 & G3 & G4 & G5). exists n, f, g. split; [apply K|]. repeat (split; [assumption|]). assumption.
Qed.

(** C104: MJD to calendar, on binary64.  Whatever the argument - infinities included - as long as it is not NaN: no conversion
    and no integer operation is out of range with a 64-bit [long].  A NaN reaches the conversion to [long]. *)
Theorem C104_palDjcl : forall a : f64,
  (is_nan a = false -> @palDjcl_c f64 FX 64 a = Some (@palDjcl f64 FX a)) /\ (is_nan a = true -> @palDjcl_c f64 FX 64 a = None).
Proof.
  intros a. split; intros N.
  - destruct (djcl_ok Lcr a N) as [[E1 E2]|(n & f & g & _ & E1 & E2 & _)]; rewrite E1, E2; reflexivity.
  - destruct a; try discriminate. vm_compute. reflexivity.
Qed.
(** ... and the value is that of C83, on binary64 itself: a valid date and a fraction that together are the argument *)
Theorem C104_palDjcl_value : forall a : f64, ffin a = true -> mjd_ok (fval a) ->
  exists y m d fd n, @palDjcl f64 FX a = (0%Z, Some ((y, m, d), fd)) /\ ffin fd = true /\ valid (y, m, d) /\ 0 <= fval fd < 1 /\
    ((-4799 <= y)%Z -> palCldj y m d = (0%Z, Some n)) /\ Rabs (IZR n + fval fd - fval a) <= u53 * (Rabs (fval a) + 3) /\
    (1 <= fval a \/ (exists k, fval a = IZR k) -> n = Zfloor (fval a) /\ fval fd = fval a - IZR n).
Proof.
  intros a Fa Hr. assert (N : is_nan a = false) by now apply fin_not_nan.
  destruct (C83_palDjcl Lcr (fval a) (rep_double a _ (rep_self a Fa)) Hr) as (y & m & d & fd & n & E & V & B & C & X & Y). unfold ddjcl in E.
  destruct (djcl_ok Lcr a N) as [[E1 _]|(k & f & g & _ & E1 & _ & [Rf _] & _ & E2)].
  - exfalso. clear - E E1 Hr Fa. revert E1. unfold palDjcl. rewrite eraJd2cal_alt.
    set (c := ((MJD0 + a)%num <? _)%num || _). assert (Ec : c = (Bltb (Bplus mode_NE (@MJD0 f64 FX) a) (Bopp (flit 68569.5)) || Bltb (flit 1e9) (Bplus mode_NE (@MJD0 f64 FX) a))%bool) by reflexivity.
    clearbody c. destruct c; [|destruct (if (_ >=? _)%num then _ else _) as [d1 d2]; destruct (jcore d1 d2); discriminate]. intros _.
    assert (K : repb a (fval a) 32).
    { split; [now apply rep_self|]. unfold mjd_ok in Hr. change (bpow radix2 32) with 4294967296. apply Rabs_le. lra. }
    assert (S := rb_add _ _ _ _ _ _ f_MJD0 K ltac:(lia)). destruct S as [S _]. unfold mjd_ok in Hr. 
    assert (L1 : rep (Bopp (flit 68569.5)) (- rd (litR 68569.5))) by fr. assert (L2 : rep (flit 1e9) (rd (litR 1e9))) by fr.
    rewrite (rep_ltb _ _ _ _ S L1), (rep_ltb _ _ _ _ L2 S) in Ec.
    replace (litR 1e9) with (IZR 1000000000) in Ec by (rlit; lra). rewrite (rdZ 1000000000) in Ec by (cbn; lia).
    replace (litR 68569.5) with (IZR 137139 / 2) in Ec by (rlit; lra). rewrite (rd_id (IZR 137139 / 2)) in Ec by (apply half_fmt; lia).
    rewrite !Rltb_false in Ec; [discriminate| |].
    + apply Rle_not_lt. apply rd_le; [apply fmtZ; lia|]. lra.
    + apply Rle_not_lt. apply rd_ge; [apply fmt_opp, half_fmt; lia|]. lra.
  - rewrite E in E2. assert (E3 : (y, m, d) = jd2cal_z k /\ fd = g) by (split; congruence). destruct E3 as [E3 E4]. subst fd. rewrite <- E3 in E1.
    destruct Rf as [R1 R2]. exists y, m, d, f, n. rewrite R2. repeat (split; [assumption|]). assumption.
Qed.
(** With a 32-bit [long] the date of AD 1465003 and later overflow although ERFA accepts them *)
Theorem C104_palDjcl_long32 : exists a : f64, ffin a = true /\ fval a = 600000000 /\ @palDjcl_c f64 FX 32 a = None /\
  exists r, @palDjcl f64 FX a = (0%Z, Some r).
Proof.
  exists (fofZ 600000000). destruct (rep_ofZb 600000000 40) as [[K1 K2] _]; [change (bpow radix2 40) with 1099511627776; apply Rabs_le; lra|lia|].
  rewrite rdZ in K2 by (cbn; lia). split; [easy|]. split; [exact K2|]. split; [vm_compute; reflexivity|]. eexists. vm_compute. reflexivity.
Qed.

(** ** palDjcal *)
Lemma f_DNINT : forall L a x p, repb a x p -> (1 <= p < 1000)%Z -> repb (@DNINT f64 FX a) (@DNINT R (DA L) x) (p + 2).
Proof.
  intros L a x p H Hp. unfold DNINT. fops. assert (Z0 : rep (flit 0) (rd (litR 0))) by fr. rewrite (rep_ltb _ _ _ _ (proj1 H) Z0).
  assert (K : repb (flit 0.5) (rd (litR 0.5)) 1) by (apply rb_lit; [replace (litR 0.5) with (1 / 2) by (rlit; lra); change (bpow radix2 1) with 2; apply Rabs_le; lra|lia]).
  destruct (Rltb x (rd (litR 0))).
  - assert (S := rb_sub _ _ _ _ _ _ H K ltac:(lia)). destruct S as [S1 S2]. split; [now apply rep_ceil|].
    set (z := rd (x - rd (litR 0.5))) in *. assert (A := Zceil_lb z). assert (B := Zceil_ub z). apply Rabs_le_inv in S2. replace (Z.max p 1) with p in S2 by lia.
    assert (P : 1 <= bpow radix2 (p + 1)) by (change 1 with (bpow radix2 0); apply bpow_le; lia). replace (p + 2)%Z with (p + 1 + 1)%Z by ring.
    rewrite (bpow_plus _ (p + 1)). change (bpow radix2 1) with 2. apply Rabs_le. lra.
  - assert (S := rb_add _ _ _ _ _ _ H K ltac:(lia)). apply rb_floor in S; [|lia]. eapply rb_weak; [exact S|lia].
Qed.
Lemma f_DINT : forall L a x p, repb a x p -> (0 <= p < 1000)%Z -> repb (@DINT f64 FX a) (@DINT R (DA L) x) (p + 1).
Proof.
  intros L a x p H Hp. unfold DINT. fops. assert (Z0 : rep (flit 0) (rd (litR 0))) by fr. rewrite (rep_ltb _ _ _ _ (proj1 H) Z0).
  destruct (Rltb x (rd (litR 0))); [|now apply rb_floor; [|lia]].
  destruct H as [S1 S2]. split; [now apply rep_ceil|]. assert (A := Zceil_lb x). assert (B := Zceil_ub x). apply Rabs_le_inv in S2.
  assert (P : 1 <= bpow radix2 p) by (change 1 with (bpow radix2 0); apply bpow_le; lia). rewrite bpow_plus. change (bpow radix2 1) with 2. apply Rabs_le. lra.
Qed.
(** C104: palDjcal on binary64: as long as libm's 10^ndp is a number from 0 to 2^31-2 (that is, up to 9 decimals) the fraction
    fits the [int] it is returned in, for every argument that is not NaN. *)
Theorem C104_palDjcal : forall ndp (a : f64) ymd0, is_nan a = false ->
  let p := f_pow F (flit 10) (fofZ ndp) in ffin p = true -> 0 <= fval p <= 2147483646 ->
  @palDjcal_c f64 FX 64 ndp a ymd0 = Some (@palDjcal f64 FX ndp a ymd0).
Proof.
  intros ndp a ymd0 N p Fp Hp. unfold palDjcal_c, palDjcal.
  assert (G : forall f g, rep f g -> 0 <= g <= 1 -> @cast f64 FX 32 (@DNINT f64 FX (Bmult mode_NE f p)) = Some (Btrunc (@DNINT f64 FX (Bmult mode_NE f p)))).
  { intros f g Rf Hg.
    assert (B : 0 <= rd (g * fval p) <= fval p).
    { split; [apply rd_ge; [apply fmt0|nra]|]. apply rd_le; [apply generic_format_B2R|]. assert (0 <= fval p * (1 - g)) by (apply Rmult_le_pos; lra). lra. }
    assert (M : repb (Bmult mode_NE f p) (rd (g * fval p)) 32).
    { assert (X : Rabs (rd (g * fval p)) <= bpow radix2 32) by (change (bpow radix2 32) with 4294967296; apply Rabs_le; lra).
      split; [|exact X]. apply rep_mul; [exact Rf|now apply rep_self|]. eapply bp_lt; [|exact X]. lia. }
    set (z := rd (g * fval p)) in *. assert (D := f_DNINT Lcr _ _ _ M ltac:(lia)). destruct D as [D _].
    assert (V : 0 <= @DNINT R (DA Lcr) z <= 2147483646).
    { unfold DNINT. fops. replace (litR 0) with 0 by (rlit; lra). rewrite rd_0. rewrite Rltb_false by lra.
      replace (litR 0.5) with (5 / 10) by (rlit; lra). rewrite h5.
      assert (B1 : 0 <= rd (z + 1 / 2)) by (apply rd_ge; [apply fmt0|lra]).
      assert (B2 : rd (z + 1 / 2) <= IZR 4294967293 / 2) by (apply rd_le; [apply half_fmt; lia|lra]).
      split; [apply (IZR_le 0); apply Zfloor_lub; exact B1|]. apply IZR_le. apply Zlt_succ_le, lt_IZR. assert (C := Zfloor_lb (rd (z + 1 / 2))). unfold Z.succ. rewrite plus_IZR. lra. }
    rewrite (cast32 _ _ D) by lra. now rewrite (rep_toZ _ _ D). }
  destruct (djcl_ok Lcr a N) as [[E1 E2]|(n & f & g & _ & E1 & E2 & Rf & P & _)]; unfold palDjcl, palDjcl_c in E1, E2; rewrite E1, E2; cbn [obind].
  - fops. fold p. assert (Z0 : rep (flit 0) 0).
    { assert (K : rep (flit 0) (rd (litR 0))) by fr. replace (litR 0) with 0 in K by (rlit; lra). now rewrite rd_0 in K. }
    rewrite (G _ _ Z0) by lra. reflexivity.
  - fops. fold p. destruct Rf as [Rf B]. change (bpow radix2 0) with 1 in B. apply Rabs_le_inv in B. rewrite (G _ _ Rf) by lra. reflexivity.
Qed.
(** Ten decimals do not fit: whenever 10^ndp is at least 10^10 and a quarter of the day has passed, the conversion overflows *)
Theorem C104_palDjcal_ten : forall ndp (a : f64) ymd0, ffin a = true -> mjd_ok (fval a) -> 1 <= fval a -> 1 / 4 <= fval a - IZR (Zfloor (fval a)) ->
  let p := f_pow F (flit 10) (fofZ ndp) in ffin p = true -> 10000000000 <= fval p <= bpow radix2 900 ->
  @palDjcal_c f64 FX 64 ndp a ymd0 = None.
Proof.
  intros ndp a ymd0 Fa Hr H1 Hq p Fp Hp. destruct (C104_palDjcl_value a Fa Hr) as (y & m & d & f & n & E & Ff & _ & B & _ & _ & X).
  destruct (X ltac:(now left)) as [-> V]. destruct (C104_palDjcl a) as [K _]. specialize (K (fin_not_nan a Fa)). rewrite E in K.
  unfold palDjcal_c. unfold palDjcl_c in K. rewrite K. cbn [obind]. fops. fold p.
  rewrite <- V in Hq. set (g := fval f) in *. assert (Rf : rep f g) by now apply rep_self. clearbody g. clear V X K E.
  assert (P9 : 0 < bpow radix2 900) by apply bpow_gt_0.
  assert (L1 : 2500000000 <= rd (g * fval p)).
  { apply rd_ge; [apply (fmtZ 2500000000); lia|]. assert (0 <= (g - 1 / 4) * (fval p - 10000000000)) by (apply Rmult_le_pos; lra). lra. }
  assert (M : repb (Bmult mode_NE f p) (rd (g * fval p)) 900).
  { assert (Xb : Rabs (rd (g * fval p)) <= bpow radix2 900).
    { apply rd_le_bpow; [lia|]. assert (0 <= fval p * (1 - g)) by (apply Rmult_le_pos; lra). assert (0 <= g * fval p) by (apply Rmult_le_pos; lra). apply Rabs_le. lra. }
    split; [|exact Xb]. apply rep_mul; [exact Rf|now apply rep_self|]. eapply bp_lt; [|exact Xb]. lia. }
  set (z := rd (g * fval p)) in *. destruct (f_DNINT Lcr _ _ _ M ltac:(lia)) as [D _]. rewrite (cast32_none _ _ D); [reflexivity|]. left.
  unfold DNINT. fops. replace (litR 0) with 0 by (rlit; lra). rewrite rd_0. rewrite Rltb_false by lra.
  replace (litR 0.5) with (5 / 10) by (rlit; lra). rewrite h5. apply (IZR_le 2147483648). apply Zfloor_lub.
  apply rd_ge; [apply (fmtZ 2147483648); lia|lra].
Qed.

(** ** palDd2tf, palDr2tf, palDr2af *)
(** d2tf.c: the fields, from the scaled and rounded interval *)
Definition draw {T} {A : Arith T} (rs a1 : T) : T * T * T * T :=
  (let rm := rs * #60 in
   let rh := rm * #60 in
   let a := DNINT (rs * a1) in
   let ah := DINT (a / rh) in
   let a := a - ah * rh in
   let am := DINT (a / rm) in
   let a := a - am * rm in
   let as_ := DINT (a / rs) in
   let af := a - as_ * rs in (ah, am, as_, af))%num.
Definition dcoarse {T} {A : Arith T} (ndp : Z) (days : T) : T :=
  (let a0 := #86400 * fabs days in if (ndp <? 0)%Z then let rs := ofZ (d2tf_coarse (Z.to_nat (- ndp))) in rs * DNINT (a0 / rs) else a0)%num.
Lemma eraD2tf_alt : forall T (A : Arith T) ndp (x : T), eraD2tf ndp x =
  let '(ah, am, as_, af) := draw (ofZ (10 ^ Z.max 0 ndp)%Z) (dcoarse ndp x) in ((x >=? #0)%num, (toZ ah, toZ am, toZ as_, toZ af)).
Proof. reflexivity. Qed.
Lemma eraD2tf_c_alt : forall T (A : Arith T) ndp (x : T), (-9 <= ndp <= 9)%Z -> eraD2tf_c ndp x =
  let '(ah, am, as_, af) := draw (ofZ (10 ^ Z.max 0 ndp)%Z) (dcoarse ndp x) in
  let* h := cast 32 ah in let* m := cast 32 am in let* s := cast 32 as_ in let* f := cast 32 af in Some ((x >=? #0)%num, (h, m, s, f)).
Proof.
  intros T A ndp x H. unfold eraD2tf_c, dcoarse. destruct (Z.ltb_spec ndp 0) as [C|C].
  - rewrite ck32 by lia. cbn [obind]. destruct (coarse_val (Z.to_nat (- ndp)) ltac:(lia)) as [-> _]. cbn [obind].
    rewrite fine_val by lia. cbn [obind]. rewrite Z2Nat.id by lia. reflexivity.
  - cbn [obind]. rewrite fine_val by lia. cbn [obind]. rewrite Z2Nat.id by lia. reflexivity.
Qed.
Lemma rb_int : forall n, (1 <= n <= 2 ^ 30)%Z -> repb (fofZ n) (IZR n) 30.
Proof.
  intros n H. assert (K := rep_ofZb n 30). rewrite rdZ in K by (cbn in *; lia). apply K; [|lia]. rewrite Rabs_pos_eq by (apply IZR_le; lia).
  change (bpow radix2 30) with (IZR (2 ^ 30)). apply IZR_le; lia.
Qed.
Lemma f_sixty : repb (flit 60) 60 6 /\ rd (litR 60) = 60.
Proof.
  assert (E : rd (litR 60) = 60) by (replace (litR 60) with (IZR 60) by (rlit; lra); rewrite rdZ by (cbn; lia); reflexivity).
  split; [|exact E]. assert (K := rb_lit 60 6). rewrite E in K. apply K; [|lia]. replace (litR 60) with 60 by (rlit; lra). change (bpow radix2 6) with 64. rewrite Rabs_pos_eq; lra.
Qed.
Lemma f_coarse : forall L ndp a x, (-9 <= ndp <= 9)%Z -> repb a x 27 -> repb (@dcoarse f64 FX ndp a) (@dcoarse R (DA L) ndp x) 76.
Proof.
  intros L ndp a x Hn Ha. unfold dcoarse. fops.
  assert (E : rd (litR 86400) = 86400) by (replace (litR 86400) with (IZR 86400) by (rlit; lra); rewrite rdZ by (cbn; lia); reflexivity).
  assert (K : repb (flit 86400) (rd (litR 86400)) 17).
  { apply rb_lit; [|lia]. replace (litR 86400) with 86400 by (rlit; lra). change (bpow radix2 17) with 131072. rewrite Rabs_pos_eq; lra. }
  assert (A0 := rb_mul _ _ _ _ _ _ K (rb_abs _ _ _ Ha) ltac:(lia)). destruct (Z.ltb_spec ndp 0) as [C|C]; [|eapply rb_weak; [exact A0|lia]].
  destruct (coarse_val (Z.to_nat (- ndp)) ltac:(lia)) as [_ B]. set (q := d2tf_coarse (Z.to_nat (- ndp))) in *. clearbody q.
  assert (Q := rb_int q ltac:(cbn; lia)). rewrite rdZ by lia.
  assert (D := rb_div _ _ _ _ _ 0 A0 (proj1 Q)). assert (D' := D ltac:(change (bpow radix2 0) with 1; rewrite Rabs_pos_eq by (apply IZR_le; lia); apply (IZR_le 1); lia) ltac:(lia)). clear D.
  assert (N := f_DNINT L _ _ _ D' ltac:(lia)). assert (P := rb_mul _ _ _ _ _ _ Q N ltac:(lia)). eapply rb_weak; [exact P|lia].
Qed.
Lemma f_draw : forall L t a x, (1 <= t <= 2 ^ 30)%Z -> repb a x 76 ->
  let '(h, m, s, f) := @draw f64 FX (fofZ t) a in let '(h', m', s', f') := @draw R (DA L) (IZR t) x in rep h h' /\ rep m m' /\ rep s s' /\ rep f f'.
Proof.
  intros L t a x Ht Ha. unfold draw. fops. cbv zeta. destruct f_sixty as [S6 E6]. rewrite E6.
  assert (Rs := rb_int t Ht). assert (T1 : 1 <= IZR t) by (apply (IZR_le 1); lia). assert (T2 : IZR t <= 1073741824) by (apply IZR_le; change (2 ^ 30)%Z with 1073741824%Z in Ht; lia).
  assert (Rm := rb_mul _ _ _ _ _ _ Rs S6 ltac:(lia)). assert (Rh := rb_mul _ _ _ _ _ _ Rm S6 ltac:(lia)).
  assert (P30 : (2 ^ 30 = 1073741824)%Z) by reflexivity.
  assert (Em : rd (IZR t * 60) = IZR (t * 60)) by (rewrite <- mult_IZR; apply rdZ; lia).
  assert (Eh : rd (IZR (t * 60) * 60) = IZR (t * 60 * 60)) by (rewrite <- mult_IZR; apply rdZ; lia).
  rewrite Em in Rm, Rh. rewrite Eh in Rh. rewrite Em, Eh. clear Em Eh.
  assert (Gm : bpow radix2 0 <= Rabs (IZR (t * 60))) by (change (bpow radix2 0) with 1; rewrite Rabs_pos_eq by (apply IZR_le; lia); apply (IZR_le 1); lia).
  assert (Gh : bpow radix2 0 <= Rabs (IZR (t * 60 * 60))) by (change (bpow radix2 0) with 1; rewrite Rabs_pos_eq by (apply IZR_le; lia); apply (IZR_le 1); lia).
  assert (Gs : bpow radix2 0 <= Rabs (IZR t)) by (change (bpow radix2 0) with 1; rewrite Rabs_pos_eq by lra; lra).
  set (rs := fofZ t) in *. set (rm := Bmult mode_NE rs (flit 60)) in *. set (rh := Bmult mode_NE rm (flit 60)) in *.
  set (vs := IZR t) in *. set (vm := IZR (t * 60)) in *. set (vh := IZR (t * 60 * 60)) in *. clearbody rs rm rh vs vm vh. clear T1 T2 E6 P30.
  assert (A := f_DNINT L _ _ _ (rb_mul _ _ _ _ _ _ Rs Ha ltac:(lia)) ltac:(lia)).
  set (a1 := @DNINT f64 FX _) in *. set (x1 := @DNINT R (DA L) _) in *. clearbody a1 x1. clear Ha.
  assert (H := f_DINT L _ _ _ (rb_div _ _ _ _ _ 0 A (proj1 Rh) Gh ltac:(lia)) ltac:(lia)).
  set (ah := @DINT f64 FX _) in *. set (xh := @DINT R (DA L) _) in *. clearbody ah xh.
  assert (A2 := rb_sub _ _ _ _ _ _ A (rb_mul _ _ _ _ _ _ H Rh ltac:(lia)) ltac:(lia)). set (a2 := Bminus _ a1 _) in *. set (x2 := rd (x1 - _)) in *. clearbody a2 x2.
  assert (M := f_DINT L _ _ _ (rb_div _ _ _ _ _ 0 A2 (proj1 Rm) Gm ltac:(lia)) ltac:(lia)).
  set (am := @DINT f64 FX _) in *. set (xm := @DINT R (DA L) _) in *. clearbody am xm.
  assert (A3 := rb_sub _ _ _ _ _ _ A2 (rb_mul _ _ _ _ _ _ M Rm ltac:(lia)) ltac:(lia)). set (a3 := Bminus _ a2 _) in *. set (x3 := rd (x2 - _)) in *. clearbody a3 x3.
  assert (S := f_DINT L _ _ _ (rb_div _ _ _ _ _ 0 A3 (proj1 Rs) Gs ltac:(lia)) ltac:(lia)).
  set (as_ := @DINT f64 FX _) in *. set (xs := @DINT R (DA L) _) in *. clearbody as_ xs.
  assert (A4 := rb_sub _ _ _ _ _ _ A3 (rb_mul _ _ _ _ _ _ S Rs ltac:(lia)) ltac:(lia)).
  split; [exact (proj1 H)|]. split; [exact (proj1 M)|]. split; [exact (proj1 S)|exact (proj1 A4)].
Qed.
(** if the fields of the rounding model fit an [int], those of binary64 are the same and nothing overflows *)
Lemma d2tf_ok : forall L ndp a x h m s f, (-9 <= ndp <= 9)%Z -> repb a x 27 -> @eraD2tf R (DA L) ndp x = (Rleb 0 x, (h, m, s, f)) ->
  (- 2 ^ 31 <= h < 2 ^ 31)%Z -> (- 2 ^ 31 <= m < 2 ^ 31)%Z -> (- 2 ^ 31 <= s < 2 ^ 31)%Z -> (- 2 ^ 31 <= f < 2 ^ 31)%Z ->
  @eraD2tf_c f64 FX ndp a = Some (Rleb 0 x, (h, m, s, f)) /\ @eraD2tf f64 FX ndp a = (Rleb 0 x, (h, m, s, f)).
Proof.
  intros L ndp a x h m s f Hn Ha E Bh Bm Bs Bf. rewrite eraD2tf_c_alt by easy. rewrite eraD2tf_alt in E |- *.
  assert (C := f_coarse L ndp a x Hn Ha). set (c := @dcoarse f64 FX ndp a) in *. set (y := @dcoarse R (DA L) ndp x) in *. clearbody c y.
  assert (T : (1 <= 10 ^ Z.max 0 ndp <= 2 ^ 30)%Z) by (destruct (pow10_bounds (Z.max 0 ndp) ltac:(lia)); split; [lia|cbn; lia]).
  revert E. fops. set (t := (10 ^ Z.max 0 ndp)%Z) in *. clearbody t. rewrite (rdZ t) by (cbn in *; lia).
  assert (W := f_draw L t c y T C). destruct (@draw f64 FX (fofZ t) c) as [[[fh fm] fs] ff]. destruct (@draw R (DA L) (IZR t) y) as [[[gh gm] gs] gf].
  destruct W as (Wh & Wm & Ws & Wf).
  assert (Z0 : rep (flit 0) (rd (litR 0))) by fr. rewrite (rep_leb _ _ _ _ Z0 (proj1 Ha)).
  intros E. injection E as E0 E1 E2 E3 E4.
  assert (G : forall u v n, rep u v -> Ztrunc v = n -> (- 2 ^ 31 <= n < 2 ^ 31)%Z -> @cast f64 FX 32 u = Some n /\ Btrunc u = n).
  { intros u v n Ru Ev Bn. rewrite (rep_toZ _ _ Ru), Ev. split; [|reflexivity]. rewrite <- Ev. apply cast32; [exact Ru|].
    assert (TB := trunc_bounds v (-2147483648) 2147483647 ltac:(cbn in *; lia) ltac:(lia)). lra. }
  destruct (G _ _ _ Wh E1 Bh) as [-> ->]. destruct (G _ _ _ Wm E2 Bm) as [-> ->]. destruct (G _ _ _ Ws E3 Bs) as [-> ->]. destruct (G _ _ _ Wf E4 Bf) as [-> ->].
  cbn [obind]. rewrite E0. now split.
Qed.
(** C104: days to hours, minutes, seconds on binary64.  For 0 to 9 decimals and every interval up to 8.9e7 days (that fits the
    8e15 units of C82) the run is defined, the fields are legal, and they are the interval to half a unit of the last decimal. *)
Theorem C104_palDd2tf : forall ndp (a : f64), (0 <= ndp <= 9)%Z -> ffin a = true ->
  Rabs (fval a) <= 8.9e7 -> 86400 * Rabs (fval a) * IZR (10 ^ ndp) <= 8e15 ->
  exists pos h m s f, @palDd2tf_c f64 FX ndp a = Some (pos, (h, m, s, f)) /\ @palDd2tf f64 FX ndp a = (pos, (h, m, s, f)) /\
    (pos = true <-> 0 <= fval a) /\ (0 <= h < 2 ^ 31 /\ 0 <= m < 60 /\ 0 <= s < 60 /\ 0 <= f < 10 ^ ndp)%Z /\
    let x := 86400 * Rabs (fval a) * IZR (10 ^ ndp) in
    Rabs (IZR (((h * 60 + m) * 60 + s) * 10 ^ ndp + f) - x) <= 1 / 2 + 3.4e-16 * x + 1.2e-16.
Proof.
  intros ndp a Hn Fa H8 HX. assert (D := rep_double a _ (rep_self a Fa)).
  assert (K := C82_palDd2tf Lcr ndp (fval a) Hn D HX). unfold dd2tf, palDd2tf in K. 
  destruct (d2tf_D Lcr ndp (fval a) Hn HX) as (n & Nb & Ne & E). rewrite E in K. unfold tfields in K, E. cbv zeta in K.
  set (h := (n / (3600 * 10 ^ ndp))%Z) in *. set (m := (n mod (3600 * 10 ^ ndp) / (60 * 10 ^ ndp))%Z) in *.
  set (s := (n mod (60 * 10 ^ ndp) / 10 ^ ndp)%Z) in *. set (f := (n mod 10 ^ ndp)%Z) in *.
  destruct K as (K1 & (K2 & K3 & K4 & K5) & K6). assert (T := pow10_bounds ndp Hn).
  assert (Bh : (h < 2 ^ 31)%Z).
  { apply Z.div_lt_upper_bound; [lia|]. apply lt_IZR. rewrite !mult_IZR. apply Rabs_le_inv in Ne. set (t := IZR (10 ^ ndp)) in *.
    assert (T1 : 1 <= t) by (apply (IZR_le 1); lia). assert (A0 := Rabs_pos (fval a)). set (d := Rabs (fval a)) in *.
    assert (G : 0 <= (8.9e7 - d) * t) by (apply Rmult_le_pos; lra). change (IZR (2 ^ 31)) with 2147483648. clear - Ne T1 G A0 H8. nra. }
  clearbody h m s f.
  destruct (d2tf_ok Lcr ndp a (fval a) h m s f ltac:(lia)) as [E1 E2].
  - split; [now apply rep_self|]. change (bpow radix2 27) with 134217728. lra.
  - exact E.
  - lia. - lia. - lia. - cbn. lia.
  - exists (Rleb 0 (fval a)), h, m, s, f. split; [exact E1|]. split; [exact E2|]. split; [exact K1|]. split; [lia|exact K6].
Qed.

(** the two angles: the interval is the angle divided by 2 pi, or by 2 pi / 15 *)
Lemma rd_abs_bnd : forall y, Rabs y - u53 * Rabs y - 1e-300 <= Rabs (rd y) <= Rabs y + u53 * Rabs y + 1e-300.
Proof. intros y. rewrite <- rd_abs. apply rd_bnd. apply Rabs_pos. Qed.
Lemma days_tf : forall (a : f64) p, repb a (fval a) p -> (0 <= p <= 100)%Z ->
  rep (Bdiv mode_NE a (@D2PI f64 FX)) (rd (fval a / (2 * PI64))) /\
  Rabs (Rabs (rd (fval a / (2 * PI64))) - Rabs (fval a) / (2 * PI)) <= 1.6e-16 * (Rabs (fval a) / (2 * PI)) + 1e-300.
Proof.
  intros a p Ra Hp. assert (E2 : rep (@D2PI f64 FX) (2 * PI64)).
  { assert (K : rep (@D2PI f64 FX) (@D2PI R (DA Lcr))) by (unfold D2PI; fops; fr). now rewrite (D2PI_D Lcr) in K. }
  assert (Q := PI64_pos). split.
  - eapply rb_rep. apply (rb_div _ _ _ _ p 0 Ra E2); [|lia]. change (bpow radix2 0) with 1. rewrite Rabs_pos_eq; lra.
  - set (x := fval a). assert (B := rd_abs_bnd (x / (2 * PI64))). assert (C := PI64_close). assert (U : u53 <= 1.111e-16) by (unfold u53; lra).
    assert (U0 : 0 < u53) by (unfold u53; lra).
    replace (Rabs (x / (2 * PI64))) with (Rabs x / (2 * PI64)) in B by (unfold Rdiv; rewrite Rabs_mult, (Rabs_pos_eq (/ (2 * PI64))); [reflexivity|left; apply Rinv_0_lt_compat; lra]).
    set (z := Rabs x / (2 * PI)). assert (Z0 : 0 <= z) by (apply Rmult_le_pos; [apply Rabs_pos|left; apply Rinv_0_lt_compat; lra]).
    assert (Ez : Rabs x / (2 * PI64) = z + z * ((PI - PI64) / PI64)) by (unfold z; field; split; lra).
    assert (Er : 0 <= (PI - PI64) / PI64 <= 4e-17).
    { split; [apply Rmult_le_pos; [lra|left; apply Rinv_0_lt_compat; lra]|]. apply Rmult_le_reg_r with PI64; [lra|]. unfold Rdiv. rewrite Rmult_assoc, Rinv_l, Rmult_1_r by lra.
      replace (123 / 10 ^ 18) with 1.23e-16 in C by lra. lra. }
    rewrite Ez in B. set (r := (PI - PI64) / PI64) in *. clearbody r z. clear Ez C.
    assert (W1 : 0 <= z * r <= z * 4e-17) by (split; [apply Rmult_le_pos; lra|apply Rmult_le_compat_l; lra]).
    assert (W2 : u53 * (z + z * r) <= 1.112e-16 * z) by (apply Rle_trans with (1.111e-16 * (z + z * r)); [apply Rmult_le_compat_r; lra|lra]). assert (W3 : 0 <= u53 * (z + z * r)) by (apply Rmult_le_pos; lra).
    apply Rabs_le. lra.
Qed.
Lemma days_af : forall (a : f64) p, repb a (fval a) p -> (0 <= p <= 100)%Z ->
  rep (Bmult mode_NE a (Bdiv mode_NE (flit 15) (@D2PI f64 FX))) (rd (fval a * rd (15 / (2 * PI64)))) /\
  Rabs (Rabs (rd (fval a * rd (15 / (2 * PI64)))) - Rabs (fval a) * 15 / (2 * PI)) <= 2.8e-16 * (Rabs (fval a) * 15 / (2 * PI)) + 1e-290 * (Rabs (fval a) + 1).
Proof.
  intros a p Ra Hp. assert (E2 : rep (@D2PI f64 FX) (2 * PI64)).
  { assert (K : rep (@D2PI f64 FX) (@D2PI R (DA Lcr))) by (unfold D2PI; fops; fr). now rewrite (D2PI_D Lcr) in K. }
  assert (Q := PI64_pos).
  assert (E15 : rd (litR 15) = 15) by (replace (litR 15) with (IZR 15) by (rlit; lra); rewrite rdZ by (cbn; lia); reflexivity).
  assert (K15 : repb (flit 15) 15 4).
  { assert (K := rb_lit 15 4). rewrite E15 in K. apply K; [|lia]. replace (litR 15) with 15 by (rlit; lra). change (bpow radix2 4) with 16. rewrite Rabs_pos_eq; lra. }
  assert (KD : repb (Bdiv mode_NE (flit 15) (@D2PI f64 FX)) (rd (15 / (2 * PI64))) (4 - 0)).
  { apply (rb_div _ _ _ _ 4 0 K15 E2); [|lia]. change (bpow radix2 0) with 1. rewrite Rabs_pos_eq; lra. }
  split; [eapply rb_rep; apply (rb_mul _ _ _ _ _ _ Ra KD); lia|].
  set (x := fval a). assert (B := rd_abs_bnd (x * rd (15 / (2 * PI64)))). assert (C := PI64_close). assert (U : u53 <= 1.111e-16) by (unfold u53; lra).
  assert (U0 : 0 < u53) by (unfold u53; lra).
  assert (P0 : 0 < 15 / (2 * PI64)) by (apply Rdiv_lt_0_compat; lra). destruct (rd_bnd (15 / (2 * PI64)) ltac:(lra)) as [D0 D1].
  rewrite Rabs_mult, (Rabs_pos_eq (rd (15 / (2 * PI64)))) in B by easy.
  assert (Ez : 15 / (2 * PI64) = 15 / (2 * PI) + 15 / (2 * PI) * ((PI - PI64) / PI64)) by (field; split; lra).
  assert (Er : 0 <= (PI - PI64) / PI64 <= 4e-17).
  { split; [apply Rmult_le_pos; [lra|left; apply Rinv_0_lt_compat; lra]|]. apply Rmult_le_reg_r with PI64; [lra|]. unfold Rdiv. rewrite Rmult_assoc, Rinv_l, Rmult_1_r by lra.
    replace (123 / 10 ^ 18) with 1.23e-16 in C by lra. lra. }
  assert (Bk : 0 < 15 / (2 * PI) < 2.5).
  { split; [apply Rdiv_lt_0_compat; lra|]. apply Rmult_lt_reg_r with (2 * PI); [lra|]. unfold Rdiv. rewrite Rmult_assoc, Rinv_l, Rmult_1_r by lra. lra. }
  replace (Rabs x * 15 / (2 * PI)) with (Rabs x * (15 / (2 * PI))) by (field; lra).
  set (q := rd (15 / (2 * PI64))) in *. clearbody q. set (k := 15 / (2 * PI)) in *. set (r := (PI - PI64) / PI64) in *. rewrite Ez in D1.
  assert (A0 := Rabs_pos x). set (y := Rabs x) in *. clearbody k r y. clear Ez P0 C Q K15 KD E15 Ra.
  assert (W1 : 0 <= k * r <= k * 4e-17) by (split; [apply Rmult_le_pos; lra|apply Rmult_le_compat_l; lra]).
  assert (W2 : u53 * (k + k * r) <= 1.112e-16 * k) by (apply Rle_trans with (1.111e-16 * (k + k * r)); [apply Rmult_le_compat_r; lra|lra]). assert (W3 : 0 <= u53 * (k + k * r)) by (apply Rmult_le_pos; lra).
  assert (Qb : k - 1.112e-16 * k - 1e-300 <= q <= k + 1.52e-16 * k + 1e-300) by lra.
  assert (V1 : 0 <= y * (q - (k - 1.112e-16 * k - 1e-300))) by (apply Rmult_le_pos; lra).
  assert (V2 : 0 <= y * (k + 1.52e-16 * k + 1e-300 - q)) by (apply Rmult_le_pos; lra).
  assert (V3 : 0 <= y * k) by (apply Rmult_le_pos; lra). assert (V4 : 0 <= y * q) by (apply Rmult_le_pos; lra).
  assert (V5 : u53 * (y * q) <= 1.111e-16 * (y * q)) by (apply Rmult_le_compat_r; lra). assert (V6 : 0 <= u53 * (y * q)) by (apply Rmult_le_pos; lra).
  clear W1 W2 W3 D0 D1 Er U U0 Qb Bk. set (yk := y * k) in *. set (yq := y * q) in *.
  assert (V1' : yk - 1.112e-16 * yk - 1e-300 * y <= yq) by (unfold yk, yq; lra). assert (V2' : yq <= yk + 1.52e-16 * yk + 1e-300 * y) by (unfold yk, yq; lra).
  clearbody yk yq. clear V1 V2. apply Rabs_le. lra.
Qed.
(** C104: radians to hours, minutes, seconds *)
Theorem C104_palDr2tf : forall ndp (a : f64), (0 <= ndp <= 9)%Z -> ffin a = true ->
  Rabs (fval a) <= 5e8 -> Rabs (fval a) * IZR (10 ^ ndp) <= 5e11 ->
  exists pos h m s f, @palDr2tf_c f64 FX ndp a = Some (pos, (h, m, s, f)) /\ @palDr2tf f64 FX ndp a = (pos, (h, m, s, f)) /\
    (0 <= h < 2 ^ 31 /\ 0 <= m < 60 /\ 0 <= s < 60 /\ 0 <= f < 10 ^ ndp)%Z /\
    let x := 3600 * (12 / PI * Rabs (fval a)) * IZR (10 ^ ndp) in
    Rabs (IZR (((h * 60 + m) * 60 + s) * 10 ^ ndp + f) - x) <= 1 / 2 + 5.1e-16 * x + 1.3e-16.
Proof.
  intros ndp a Hn Fa H8 HX.
  assert (Ra : repb a (fval a) 30) by (split; [now apply rep_self|]; change (bpow radix2 30) with 1073741824; lra).
  destruct (days_tf a 30 Ra ltac:(lia)) as [[D1 D2] D3]. set (b := Bdiv mode_NE a (@D2PI f64 FX)) in *. rewrite <- D2 in D3.
  assert (P := PI_RGT_0). assert (P3 : 3.14 < PI < 3.15) by (assert (C := PI64_close); unfold PI64 in C; replace (123 / 10 ^ 18) with 1.23e-16 in C by lra; lra).
  assert (Iv : / (2 * PI) <= 0.16). { apply Rmult_le_reg_r with (2 * PI); [lra|]. rewrite Rinv_l; lra. }
  assert (I0 : 0 < / (2 * PI)) by (apply Rinv_0_lt_compat; lra).
  assert (T1 : 1 <= IZR (10 ^ ndp)) by (apply (IZR_le 1); destruct (pow10_bounds ndp Hn); lia).
  assert (T2 : IZR (10 ^ ndp) <= 1000000000) by (apply IZR_le; destruct (pow10_bounds ndp Hn); lia).
  assert (A0 := Rabs_pos (fval a)). assert (Ex : 3600 * (12 / PI * Rabs (fval a)) * IZR (10 ^ ndp) = 86400 * (Rabs (fval a) / (2 * PI)) * IZR (10 ^ ndp)) by (field; lra).
  assert (Y1 : Rabs (fval a) / (2 * PI) <= 8e7) by (unfold Rdiv; nra).
  assert (Y2 : Rabs (fval a) / (2 * PI) * IZR (10 ^ ndp) <= 8e10).
  { unfold Rdiv. replace (Rabs (fval a) * / (2 * PI) * IZR (10 ^ ndp)) with (Rabs (fval a) * IZR (10 ^ ndp) * / (2 * PI)) by ring. assert (0 <= Rabs (fval a) * IZR (10 ^ ndp)) by (apply Rmult_le_pos; lra). nra. }
  assert (Y0 : 0 <= Rabs (fval a) / (2 * PI)) by (apply Rmult_le_pos; lra).
  cbv zeta. rewrite Ex. clear Ex. set (y := Rabs (fval a) / (2 * PI)) in *. set (t := IZR (10 ^ ndp)) in *. apply Rabs_le_inv in D3.
  assert (G1 : Rabs (fval b) <= 8.9e7) by lra.
  assert (Y3 : 0 <= y * t) by (apply Rmult_le_pos; lra).
  assert (G2l : y * t - 1.6e-16 * (y * t) - 1e-300 * t <= Rabs (fval b) * t) by (apply Rle_trans with ((y - 1.6e-16 * y - 1e-300) * t); [lra|apply Rmult_le_compat_r; lra]).
  assert (G2h : Rabs (fval b) * t <= y * t + 1.6e-16 * (y * t) + 1e-300 * t) by (apply Rle_trans with ((y + 1.6e-16 * y + 1e-300) * t); [apply Rmult_le_compat_r; lra|lra]).
  assert (G3 : 86400 * Rabs (fval b) * t <= 8e15) by lra.
  destruct (C104_palDd2tf ndp b Hn D1 G1 G3) as (pos & h & m & s & f & E1 & E2 & _ & E4 & E5). cbv zeta in E5.
  exists pos, h, m, s, f. split; [exact E1|]. split; [exact E2|]. split; [exact E4|]. apply Rabs_le_inv in E5. fold t in E5.
  set (w := IZR _) in *. clearbody w. set (yt := y * t) in *. set (bt := Rabs (fval b) * t) in *.
  replace (86400 * Rabs (fval b) * t) with (86400 * bt) in * by (unfold bt; ring). replace (86400 * y * t) with (86400 * yt) by (unfold yt; ring).
  clearbody yt bt. clear - E5 G2l G2h T1 T2 Y3 G3. apply Rabs_le. lra.
Qed.
(** C104: radians to degrees, arcminutes, arcseconds *)
Theorem C104_palDr2af : forall ndp (a : f64), (0 <= ndp <= 9)%Z -> ffin a = true ->
  Rabs (fval a) <= 3e7 -> Rabs (fval a) * IZR (10 ^ ndp) <= 3e10 ->
  exists pos d m s f, @palDr2af_c f64 FX ndp a = Some (pos, (d, m, s, f)) /\ @palDr2af f64 FX ndp a = (pos, (d, m, s, f)) /\
    (0 <= d < 2 ^ 31 /\ 0 <= m < 60 /\ 0 <= s < 60 /\ 0 <= f < 10 ^ ndp)%Z /\
    let x := 3600 * (180 / PI * Rabs (fval a)) * IZR (10 ^ ndp) in
    Rabs (IZR (((d * 60 + m) * 60 + s) * 10 ^ ndp + f) - x) <= 1 / 2 + 6.3e-16 * x + 1.3e-16.
Proof.
  intros ndp a Hn Fa H8 HX.
  assert (Ra : repb a (fval a) 30) by (split; [now apply rep_self|]; change (bpow radix2 30) with 1073741824; lra).
  destruct (days_af a 30 Ra ltac:(lia)) as [[D1 D2] D3]. set (b := Bmult mode_NE a _) in *. rewrite <- D2 in D3.
  assert (P := PI_RGT_0). assert (P3 : 3.14 < PI < 3.15) by (assert (C := PI64_close); unfold PI64 in C; replace (123 / 10 ^ 18) with 1.23e-16 in C by lra; lra).
  assert (Iv : / (2 * PI) <= 0.16). { apply Rmult_le_reg_r with (2 * PI); [lra|]. rewrite Rinv_l; lra. }
  assert (I0 : 0 < / (2 * PI)) by (apply Rinv_0_lt_compat; lra).
  assert (T1 : 1 <= IZR (10 ^ ndp)) by (apply (IZR_le 1); destruct (pow10_bounds ndp Hn); lia).
  assert (T2 : IZR (10 ^ ndp) <= 1000000000) by (apply IZR_le; destruct (pow10_bounds ndp Hn); lia).
  assert (A0 := Rabs_pos (fval a)). assert (Ex : 3600 * (180 / PI * Rabs (fval a)) * IZR (10 ^ ndp) = 86400 * (Rabs (fval a) * 15 / (2 * PI)) * IZR (10 ^ ndp)) by (field; lra).
  assert (Y1 : Rabs (fval a) * 15 / (2 * PI) <= 7.2e7) by (unfold Rdiv; nra).
  assert (Y2 : Rabs (fval a) * 15 / (2 * PI) * IZR (10 ^ ndp) <= 7.2e10).
  { unfold Rdiv. replace (Rabs (fval a) * 15 * / (2 * PI) * IZR (10 ^ ndp)) with (15 * (Rabs (fval a) * IZR (10 ^ ndp)) * / (2 * PI)) by ring. assert (0 <= Rabs (fval a) * IZR (10 ^ ndp)) by (apply Rmult_le_pos; lra). nra. }
  assert (Y0 : 0 <= Rabs (fval a) * 15 / (2 * PI)) by (unfold Rdiv; apply Rmult_le_pos; lra).
  cbv zeta. rewrite Ex. clear Ex. set (y := Rabs (fval a) * 15 / (2 * PI)) in *. set (t := IZR (10 ^ ndp)) in *. apply Rabs_le_inv in D3.
  assert (D4 : y - 2.8e-16 * y - 1e-280 <= Rabs (fval b) <= y + 2.8e-16 * y + 1e-280) by lra. clear D3.
  assert (G1 : Rabs (fval b) <= 8.9e7) by lra.
  assert (Y3 : 0 <= y * t) by (apply Rmult_le_pos; lra).
  assert (G2l : y * t - 2.8e-16 * (y * t) - 1e-280 * t <= Rabs (fval b) * t) by (apply Rle_trans with ((y - 2.8e-16 * y - 1e-280) * t); [lra|apply Rmult_le_compat_r; lra]).
  assert (G2h : Rabs (fval b) * t <= y * t + 2.8e-16 * (y * t) + 1e-280 * t) by (apply Rle_trans with ((y + 2.8e-16 * y + 1e-280) * t); [apply Rmult_le_compat_r; lra|lra]).
  assert (G3 : 86400 * Rabs (fval b) * t <= 8e15) by lra.
  destruct (C104_palDd2tf ndp b Hn D1 G1 G3) as (pos & h & m & s & f & E1 & E2 & _ & E4 & E5). cbv zeta in E5.
  exists pos, h, m, s, f. split; [exact E1|]. split; [exact E2|]. split; [exact E4|]. apply Rabs_le_inv in E5. fold t in E5.
  set (w := IZR _) in *. clearbody w. set (yt := y * t) in *. set (bt := Rabs (fval b) * t) in *.
  replace (86400 * Rabs (fval b) * t) with (86400 * bt) in * by (unfold bt; ring). replace (86400 * y * t) with (86400 * yt) by (unfold yt; ring).
  clearbody yt bt. clear - E5 G2l G2h T1 T2 Y3 G3. apply Rabs_le. lra.
Qed.

(** C104: an interval of 8.95e7 days or more does not fit: its hours exceed an [int] *)
Theorem C104_palDd2tf_hours : forall ndp (a : f64), (0 <= ndp <= 9)%Z -> ffin a = true ->
  8.95e7 <= Rabs (fval a) <= 1.3e8 -> 86400 * Rabs (fval a) * IZR (10 ^ ndp) <= 8e15 -> @palDd2tf_c f64 FX ndp a = None.
Proof.
  intros ndp a Hn Fa H8 HX. destruct (d2tf_D Lcr ndp (fval a) Hn HX) as (n & Nb & Ne & E). unfold tfields in E.
  unfold palDd2tf_c. rewrite eraD2tf_c_alt by lia. rewrite eraD2tf_alt in E.
  assert (Ra : repb a (fval a) 27) by (split; [now apply rep_self|]; change (bpow radix2 27) with 134217728; lra).
  assert (C := f_coarse Lcr ndp a (fval a) ltac:(lia) Ra). set (c := @dcoarse f64 FX ndp a) in *. set (y := @dcoarse R (DA Lcr) ndp (fval a)) in *. clearbody c y.
  assert (T := pow10_bounds ndp Hn). rewrite Z.max_r in * by lia. revert E. fops. set (t := (10 ^ ndp)%Z) in *. clearbody t. rewrite (rdZ t) by lia.
  assert (W := f_draw Lcr t c y ltac:(change (2 ^ 30)%Z with 1073741824%Z; lia) C). destruct (@draw f64 FX (fofZ t) c) as [[[fh fm] fs] ff]. destruct (@draw R (DA Lcr) (IZR t) y) as [[[gh gm] gs] gf].
  destruct W as (Wh & _). intros E. assert (Eh : Ztrunc gh = (n / (3600 * t))%Z) by congruence.
  assert (Bh : (2147483648 <= n / (3600 * t))%Z).
  { apply Z.div_le_lower_bound; [lia|]. apply le_IZR. rewrite !mult_IZR. apply Rabs_le_inv in Ne. set (v := IZR t) in *.
    assert (T1 : 1 <= v) by (apply (IZR_le 1); lia). set (d := Rabs (fval a)) in *. assert (G : 0 <= (d - 8.95e7) * v) by (apply Rmult_le_pos; lra).
    set (dv := d * v) in *. replace ((d - 8.95e7) * v) with (dv - 8.95e7 * v) in G by (unfold dv; ring). replace (86400 * d * v) with (86400 * dv) in * by (unfold dv; ring).
    clearbody dv. clear - Ne T1 G HX. lra. }
  rewrite (cast32_none fh gh Wh); [reflexivity|]. left. rewrite <- Eh in Bh. apply IZR_le in Bh.
  destruct (Rle_or_lt 0 gh) as [P|P]; [|rewrite Ztrunc_ceil in Bh by lra; assert (Q := Zceil_ub gh); assert (Q2 : (Zceil gh <= 0)%Z) by (apply Zceil_glb; lra); apply IZR_le in Q2; lra].
  rewrite Ztrunc_floor in Bh by easy. assert (Q := Zfloor_lb gh). lra.
Qed.

(** ** Coarse resolutions: ndp = -1 ... -9 stand for 10 seconds, 1, 10 and 60 minutes, ... *)
Lemma DNINT_int : forall L n, (0 <= n <= 2 ^ 51)%Z -> @DNINT R (DA L) (IZR n) = IZR n.
Proof.
  intros L n H. unfold DNINT. fops. replace (litR 0) with 0 by (rlit; lra). rewrite rd_0. assert (N0 : 0 <= IZR n) by (apply (IZR_le 0); lia).
  rewrite Rltb_false by lra. replace (litR 0.5) with (5 / 10) by (rlit; lra). rewrite h5. replace (IZR n + 1 / 2) with (IZR (2 * n + 1) / 2) by (rewrite plus_IZR, mult_IZR; lra).
  rewrite rd_id by (apply half_fmt; lia). f_equal. apply Zfloor_imp. rewrite !plus_IZR, mult_IZR. lra.
Qed.
Lemma d2tf_coarse_D : forall L ndp d, (-9 <= ndp < 0)%Z -> Rabs d <= 8.9e7 ->
  let q := d2tf_coarse (Z.to_nat (- ndp)) in
  exists k : Z, (0 <= k)%Z /\ (k * q <= 2 ^ 51)%Z /\ Rabs (IZR (k * q) - 86400 * Rabs d) <= IZR q / 2 + 3.4e-16 * (86400 * Rabs d) + 1.2e-16 * IZR q /\
    @eraD2tf R (DA L) ndp d = (Rleb 0 d, tfields 1 (k * q)).
Proof.
  intros L ndp d Hn Hd q. destruct (coarse_val (Z.to_nat (- ndp)) ltac:(lia)) as [_ Bq]. fold q in Bq.
  rewrite eraD2tf_alt. unfold dcoarse. destruct (Z.ltb_spec ndp 0) as [_|C]; [|lia]. fold q. clearbody q. fops.
  assert (E : rd (litR 86400) = 86400) by (replace (litR 86400) with (IZR 86400) by (rlit; lra); rewrite rdZ by (cbn; lia); reflexivity). rewrite E. clear E.
  rewrite (rdZ q) by lia. assert (Q1 : 1 <= IZR q) by (apply (IZR_le 1); lia). assert (Q2 : IZR q <= 360000000) by (apply IZR_le; lia).
  assert (D0 := Rabs_pos d). set (X := 86400 * Rabs d). assert (X0 : 0 <= X <= 7.7e12) by (unfold X; lra).
  destruct (rd_bnd X ltac:(lra)) as [A0 A1]. set (a0 := rd X) in *. assert (U : 0 < u53 <= 1.1103e-16) by (unfold u53; lra).
  assert (I0 : 0 < / IZR q) by (apply Rinv_0_lt_compat; lra).
  assert (Y : 0 <= a0 / IZR q) by (apply Rmult_le_pos; lra). destruct (rd_bnd (a0 / IZR q) Y) as [B0 B1]. set (y := rd (a0 / IZR q)) in *.
  assert (Eq : a0 / IZR q * IZR q = a0) by (field; lra). set (z := a0 / IZR q) in *.
  assert (Zb : z <= a0) by (assert (0 <= z * (IZR q - 1)) by (apply Rmult_le_pos; lra); lra).
  assert (UX : u53 * X <= 1.1103e-16 * X) by (apply Rmult_le_compat_r; lra). assert (UX0 : 0 <= u53 * X) by (apply Rmult_le_pos; lra).
  assert (UZ : u53 * z <= 1.1103e-16 * z) by (apply Rmult_le_compat_r; lra). assert (UZ0 : 0 <= u53 * z) by (apply Rmult_le_pos; lra).
  assert (Yb : 0 <= y <= 8.1e15) by lra.
  destruct (DNINT_D L y (fmt_rd _) Yb) as (k & Ek & K0 & Kb). exists k. rewrite Ek.
  assert (UY : u53 * (y + 1) <= 1.1103e-16 * (y + 1)) by (apply Rmult_le_compat_r; lra).
  assert (Zq : 0 <= z * IZR q) by (apply Rmult_le_pos; lra).
  assert (Klo : z - 2.2207e-16 * z - 1 / 2 - 1.1104e-16 <= IZR k) by lra. assert (Khi : IZR k <= z + 2.2207e-16 * z + 1 / 2 + 1.1104e-16) by lra.
  assert (M1 : (z - 2.2207e-16 * z - 1 / 2 - 1.1104e-16) * IZR q <= IZR k * IZR q) by (apply Rmult_le_compat_r; lra).
  assert (M2 : IZR k * IZR q <= (z + 2.2207e-16 * z + 1 / 2 + 1.1104e-16) * IZR q) by (apply Rmult_le_compat_r; lra).
  assert (M1' : a0 - 2.2207e-16 * a0 - IZR q * (1 / 2 + 1.1104e-16) <= IZR k * IZR q) by lra.
  assert (M2' : IZR k * IZR q <= a0 + 2.2207e-16 * a0 + IZR q * (1 / 2 + 1.1104e-16)) by lra.
  assert (Kq : (0 <= k * q <= 2 ^ 51)%Z).
  { split; [apply Z.mul_nonneg_nonneg; lia|]. apply le_IZR. rewrite mult_IZR. change (IZR (2 ^ 51)) with 2251799813685248. lra. }
  split; [exact K0|]. split; [lia|]. split.
  { rewrite mult_IZR. fold X. apply Rabs_le. lra. }
  rewrite Z.max_l by lia. change (10 ^ 0)%Z with 1%Z. rewrite <- mult_IZR, (Z.mul_comm q k), (rdZ (k * q)) by lia.
  unfold draw. fops. rewrite (rdZ 1) by lia. rewrite Rmult_1_l. rewrite (rdZ (k * q)) by lia. rewrite DNINT_int by lia.
  replace (litR 0) with 0 by (rlit; lra). rewrite rd_0. f_equal.
  assert (FD := fields_D L 0 (k * q) ltac:(lia) ltac:(lia)). rewrite Z.max_l in FD by lia. change (10 ^ 0)%Z with 1%Z in FD. rewrite (rdZ 1) in FD by lia.
  cbv zeta in FD. destruct FD as (-> & -> & -> & ->). reflexivity.
Qed.
(** C104: for resolutions coarser than a second: the fields are those of the whole number of units nearest to the interval *)
Theorem C104_palDd2tf_coarse : forall ndp (a : f64), (-9 <= ndp < 0)%Z -> ffin a = true -> Rabs (fval a) <= 8.9e7 ->
  let unit := nth (Z.to_nat (- ndp) - 1) [10; 60; 600; 3600; 36000; 360000; 3600000; 36000000; 360000000]%Z 0%Z in
  exists pos h m s k, @palDd2tf_c f64 FX ndp a = Some (pos, (h, m, s, 0%Z)) /\ @palDd2tf f64 FX ndp a = (pos, (h, m, s, 0%Z)) /\
    (pos = true <-> 0 <= fval a) /\ (0 <= h < 2 ^ 31 /\ 0 <= m < 60 /\ 0 <= s < 60 /\ (h * 60 + m) * 60 + s = k * unit)%Z /\
    Rabs (IZR (k * unit) - 86400 * Rabs (fval a)) <= IZR unit / 2 + 3.4e-16 * (86400 * Rabs (fval a)) + 1.2e-16 * IZR unit.
Proof.
  intros ndp a Hn Fa H8 unit. destruct (d2tf_coarse_D Lcr ndp (fval a) Hn H8) as (k & K0 & Kq & Ke & E).
  assert (Eu : d2tf_coarse (Z.to_nat (- ndp)) = unit).
  { unfold unit. assert (N : (1 <= Z.to_nat (- ndp) <= 9)%nat) by lia. destruct (Z.to_nat (- ndp)) as [|n]; [lia|]. do 9 (destruct n as [|n]; [reflexivity|]). lia. }
  rewrite Eu in *. assert (Ub : (1 <= unit <= 360000000)%Z) by (rewrite <- Eu; apply coarse_val; lia). clearbody unit. clear Eu.
  unfold tfields in E. rewrite Z.mod_1_r in E. rewrite Z.div_1_r in E. change (3600 * 1)%Z with 3600%Z in E. change (60 * 1)%Z with 60%Z in E. set (n := (k * unit)%Z) in *.
  assert (N0 : (0 <= n)%Z) by (apply Z.mul_nonneg_nonneg; lia).
  assert (Lp : Rleb 0 (fval a) = true <-> 0 <= fval a) by (clear; destruct (Rleb_spec 0 (fval a)); split; easy).
  assert (Nh : (n < 2 ^ 31 * 3600)%Z).
  { apply lt_IZR. rewrite mult_IZR. change (IZR (2 ^ 31)) with 2147483648. apply Rabs_le_inv in Ke. assert (Q2 : IZR unit <= 360000000) by (apply IZR_le; lia). lra. }
  assert (E1 := Z_div_mod_eq_full n 3600). assert (M1 := Z.mod_pos_bound n 3600 ltac:(lia)).
  assert (E2 := Z_div_mod_eq_full (n mod 3600) 60). assert (M2 := Z.mod_pos_bound (n mod 3600) 60 ltac:(lia)).
  assert (E3 : ((n mod 3600) mod 60 = n mod 60)%Z) by (change 3600%Z with (60 * 60)%Z; apply Zaux.Zmod_mod_mult; lia).
  rewrite E3 in E2, M2. set (h := (n / 3600)%Z) in *. set (w := (n mod 3600)%Z) in *. set (m := (w / 60)%Z) in *. set (s := (n mod 60)%Z) in *.
  assert (Bh : (0 <= h < 2 ^ 31)%Z) by lia. assert (Bm : (0 <= m < 60)%Z) by lia.
  destruct (d2tf_ok Lcr ndp a (fval a) h m s 0%Z ltac:(lia)) as [F1 F2].
  - split; [now apply rep_self|]. change (bpow radix2 27) with 134217728. lra.
  - exact E.
  - lia. - lia. - lia. - lia.
  - exists (Rleb 0 (fval a)), h, m, s, k. split; [exact F1|]. split; [exact F2|]. clear F1 F2 E. split; [exact Lp|]. split; [clear - Bh Bm M2 E1 E2; lia|exact Ke].
Qed.
End F.
(** the hypotheses are met: 1 January 2000 to four decimals; one day, 24 hours; -1 day to 10 minutes; and limits that are not *)
Definition Fpow4 : FLibm := let i := fun x : f64 => x in
  MkFLibm i i i i i (fun y _ => y) i i i (fun _ _ => fofZ 10000).
Example C104_eg :
  (ffin (f_pow Fpow4 (flit 10) (fofZ 4)) = true /\ 0 <= fval (f_pow Fpow4 (flit 10) (fofZ 4)) <= 2147483646) /\
  @palDjcal_c f64 (FA Fpow4) 64 4 (fofZ 51544) (0, 0, 0)%Z = Some (0%Z, ((2000%Z, 1%Z, 1%Z), 0%Z)) /\
  @palDd2tf_c f64 (FA Fpow4) 3 (fofZ 1) = Some (true, (24%Z, 0%Z, 0%Z, 0%Z)) /\
  @palDd2tf_c f64 (FA Fpow4) (-3) (fofZ (-1)) = Some (false, (24%Z, 0%Z, 0%Z, 0%Z)) /\
  @palDd2tf_c f64 (FA Fpow4) 0 (fofZ 90000000) = None /\ @palDr2tf_c f64 (FA Fpow4) 2 (fofZ 0) = Some (true, (0%Z, 0%Z, 0%Z, 0%Z)).
Proof.
  split; [|vm_compute; repeat split]. cbn [f_pow Fpow4]. destruct (rep_ofZb 10000 40) as [[K1 K2] _]; [change (bpow radix2 40) with 1099511627776; apply Rabs_le; lra|lia|].
  rewrite rdZ in K2 by (cbn; lia). rewrite K2. split; [exact K1|lra].
Qed.
