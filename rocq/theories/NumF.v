(** * The same code in IEEE 754 binary64 arithmetic, with NaN, infinities, signed zeros and overflow.

    NumD.v rounds every operation but knows only finite numbers of unbounded exponent.  Here the type is the whole of
    binary64, as formalised by Flocq (BinarySingleNaN: one NaN, because nothing in PAL looks at NaN payloads), so that a
    theorem proved at this instance says what the compiled program does, exceptional values included.  [rep a x] says that
    the binary64 datum [a] is finite and has the value [x]; the lemmas below carry it through every operation whose result
    does not overflow, so that a theorem about NumD.v becomes one about binary64.  libm is again a parameter. *)
From Coq Require Import Reals ZArith Lra Lia Psatz Bool.
From Flocq Require Import Core IEEE754.BinarySingleNaN.
From Verif Require Import Num NumR NumD.
Local Open Scope R_scope.

Notation f64 := (binary_float 53 1024).
#[global] Instance lt_emax : Prec_lt_emax 53 1024. Proof. now unfold Prec_lt_emax. Qed.
Definition fval : f64 -> R := @B2R 53 1024.
Definition ffin : f64 -> bool := @is_finite 53 1024.
Definition NaN : f64 := B754_nan.
Definition Inf (neg : bool) : f64 := B754_infinity neg.
Definition Zero (neg : bool) : f64 := B754_zero neg.

(** correctly rounded integers, and quotients of integers: literals *)
Definition fofZ (n : Z) : f64 := binary_normalize 53 1024 p53 lt_emax mode_NE n 0 false.
Definition fquot (m : Z) (d : positive) : f64 :=
  match m with
  | Z0 => B754_zero false
  | Zpos p => SF2B _ (proj1 (Bdiv_correct_aux 53 1024 p53 lt_emax mode_NE false p 0 false d 0))
  | Zneg p => SF2B _ (proj1 (Bdiv_correct_aux 53 1024 p53 lt_emax mode_NE true p 0 false d 0))
  end.
Definition flit (d : Dec) : f64 :=
  if (0 <=? dexp d)%Z then fofZ (dmant d * 10 ^ dexp d) else fquot (dmant d) (Z.to_pos (10 ^ (- dexp d))).
(** the double nearest to pi *)
Definition fpi : f64 := binary_normalize 53 1024 p53 lt_emax mode_NE 7074237752028440 (-51) false.
(** C99 7.12.10.1: fmod is exact and has the sign of its first argument; fmod (inf, y), fmod (x, 0) are NaN, fmod (x, inf) is x *)
Definition ffmod (x y : f64) : f64 :=
  match x, y with
  | B754_nan, _ | _, B754_nan => B754_nan
  | B754_infinity _, _ => B754_nan
  | _, B754_zero _ => B754_nan
  | B754_zero s, _ => B754_zero s
  | _, B754_infinity _ => x
  | B754_finite sx mx ex _, B754_finite sy my ey _ =>
      let e := Z.min ex ey in
      binary_normalize 53 1024 p53 lt_emax mode_NE
        (Z.rem (cond_Zopp sx (Zpos mx) * 2 ^ (ex - e)) (cond_Zopp sy (Zpos my) * 2 ^ (ey - e))) e sx
  end.

Record FLibm := MkFLibm {
  f_sin : f64 -> f64; f_cos : f64 -> f64; f_tan : f64 -> f64; f_asin : f64 -> f64; f_atan : f64 -> f64;
  f_atan2 : f64 -> f64 -> f64; f_exp : f64 -> f64; f_log : f64 -> f64; f_sinh : f64 -> f64; f_pow : f64 -> f64 -> f64 }.

(** The cast [(int) x] is undefined in C for NaN, infinities and numbers out of range; Flocq's [Btrunc] gives 0 for the
    first two.  Theorems that use it say so. *)
Definition FA (L : FLibm) : Arith f64 := {|
  add := Bplus mode_NE; sub := Bminus mode_NE; mul := Bmult mode_NE; div := Bdiv mode_NE;
  opp := Bopp; ltb := Bltb; leb := Bleb; eqb := Beqb; fabs := Babs;
  sqrt := Bsqrt mode_NE;
  sin := f_sin L; cos := f_cos L; tan := f_tan L; asin := f_asin L; atan := f_atan L; atan2 := f_atan2 L;
  exp := f_exp L; log := f_log L; sinh := f_sinh L; pow := f_pow L;
  fmod := ffmod; floor := Bnearbyint mode_DN; ceil := Bnearbyint mode_UP;
  ofZ := fofZ; toZ := @Btrunc 53 1024; lit := flit; pi := fpi |}.

(** ** Finite data and their values *)
Definition rep (a : f64) (x : R) : Prop := ffin a = true /\ fval a = x.
Lemma rep_fmt : forall a x, rep a x -> fmt x.
Proof. intros a x [_ <-]. apply generic_format_B2R. Qed.
Lemma rep_double : forall a x, rep a x -> is_double x.
Proof.
  intros a x [_ <-]. split; [apply (FLT_format_B2R 53 1024 p53)|]. apply (abs_B2R_lt_emax 53 1024 a).
Qed.
Lemma rep_self : forall a, ffin a = true -> rep a (fval a). Proof. now split. Qed.

Lemma rlt_true : forall x y, x < y -> Rlt_bool x y = true. Proof. intros. now apply Rlt_bool_true. Qed.
Definition M64 : R := bpow radix2 1024.

Lemma rep_add : forall a b x y, rep a x -> rep b y -> Rabs (rd (x + y)) < M64 -> rep (Bplus mode_NE a b) (rd (x + y)).
Proof.
  intros a b x y [Fa <-] [Fb <-] H. assert (K := Bplus_correct 53 1024 p53 lt_emax mode_NE a b Fa Fb).
  change (round radix2 (SpecFloat.fexp 53 1024) (round_mode mode_NE) (B2R a + B2R b)) with (rd (fval a + fval b)) in K.
  rewrite rlt_true in K by exact H. destruct K as (K1 & K2 & _). now split.
Qed.
Lemma rep_sub : forall a b x y, rep a x -> rep b y -> Rabs (rd (x - y)) < M64 -> rep (Bminus mode_NE a b) (rd (x - y)).
Proof.
  intros a b x y [Fa <-] [Fb <-] H. assert (K := Bminus_correct 53 1024 p53 lt_emax mode_NE a b Fa Fb).
  change (round radix2 (SpecFloat.fexp 53 1024) (round_mode mode_NE) (B2R a - B2R b)) with (rd (fval a - fval b)) in K.
  rewrite rlt_true in K by exact H. destruct K as (K1 & K2 & _). now split.
Qed.
Lemma rep_mul : forall a b x y, rep a x -> rep b y -> Rabs (rd (x * y)) < M64 -> rep (Bmult mode_NE a b) (rd (x * y)).
Proof.
  intros a b x y [Fa <-] [Fb <-] H. assert (K := Bmult_correct 53 1024 p53 lt_emax mode_NE a b).
  change (round radix2 (SpecFloat.fexp 53 1024) (round_mode mode_NE) (B2R a * B2R b)) with (rd (fval a * fval b)) in K.
  rewrite rlt_true in K by exact H. destruct K as (K1 & K2 & _). split; [|exact K1]. unfold ffin in *. now rewrite K2, Fa, Fb.
Qed.
Lemma rep_div : forall a b x y, rep a x -> rep b y -> y <> 0 -> Rabs (rd (x / y)) < M64 -> rep (Bdiv mode_NE a b) (rd (x / y)).
Proof.
  intros a b x y [Fa <-] [Fb <-] N H. assert (K := Bdiv_correct 53 1024 p53 lt_emax mode_NE a b N).
  change (round radix2 (SpecFloat.fexp 53 1024) (round_mode mode_NE) (B2R a / B2R b)) with (rd (fval a / fval b)) in K.
  rewrite rlt_true in K by exact H. destruct K as (K1 & K2 & _). split; [|exact K1]. unfold ffin in *. now rewrite K2.
Qed.
Lemma rep_sqrt : forall a x, rep a x -> 0 <= x -> rep (Bsqrt mode_NE a) (rd (R_sqrt.sqrt x)).
Proof.
  intros a x [Fa <-] H. destruct (Bsqrt_correct 53 1024 p53 lt_emax mode_NE a) as (K1 & K2 & _). split; [|exact K1].
  unfold ffin. rewrite K2. destruct a as [s|s| |s m e h]; try easy. destruct s; [|easy].
  exfalso. unfold fval, B2R in H. assert (F2R (Float radix2 (cond_Zopp true (Zpos m)) e) < 0); [|lra]. apply F2R_lt_0. reflexivity.
Qed.
Lemma rep_opp : forall a x, rep a x -> rep (Bopp a) (- x).
Proof. intros a x [Fa <-]. split; [unfold ffin; now rewrite is_finite_Bopp|]. apply B2R_Bopp. Qed.
Lemma rep_abs : forall a x, rep a x -> rep (Babs a) (Rabs x).
Proof. intros a x [Fa <-]. split; [unfold ffin; now rewrite is_finite_Babs|]. apply B2R_Babs. Qed.
Lemma rep_ltb : forall a b x y, rep a x -> rep b y -> Bltb a b = Rltb x y.
Proof.
  intros a b x y [Fa <-] [Fb <-]. rewrite Bltb_correct by easy. unfold fval. destruct (Rltb_spec (B2R a) (B2R b)) as [H|H].
  - now apply Rlt_bool_true. - apply Rlt_bool_false. lra.
Qed.
Lemma rep_leb : forall a b x y, rep a x -> rep b y -> Bleb a b = Rleb x y.
Proof.
  intros a b x y [Fa <-] [Fb <-]. rewrite Bleb_correct by easy. unfold fval. destruct (Rleb_spec (B2R a) (B2R b)) as [H|H].
  - now apply Rle_bool_true. - apply Rle_bool_false. lra.
Qed.
Lemma rep_eqb : forall a b x y, rep a x -> rep b y -> Beqb a b = Reqb x y.
Proof.
  intros a b x y [Fa <-] [Fb <-]. rewrite Beqb_correct by easy. unfold fval. destruct (Reqb_spec (B2R a) (B2R b)) as [H|H].
  - now apply Req_bool_true. - now apply Req_bool_false.
Qed.
Lemma rep_norm : forall m e s, Rabs (rd (IZR m * bpow radix2 e)) < M64 ->
  rep (binary_normalize 53 1024 p53 lt_emax mode_NE m e s) (rd (IZR m * bpow radix2 e)).
Proof.
  intros m e s H. assert (K := binary_normalize_correct 53 1024 p53 lt_emax mode_NE m e s). cbv zeta in K.
  change (round radix2 (SpecFloat.fexp 53 1024) (round_mode mode_NE) (F2R {| Fnum := m; Fexp := e |})) with (rd (IZR m * bpow radix2 e)) in K.
  rewrite rlt_true in K by exact H. destruct K as (K1 & K2 & _). now split.
Qed.
Lemma rep_ofZ : forall n, Rabs (rd (IZR n)) < M64 -> rep (fofZ n) (rd (IZR n)).
Proof. intros n H. replace (IZR n) with (IZR n * bpow radix2 0) in * by (cbn; ring). now apply rep_norm. Qed.
Lemma rep_quot : forall m d, Rabs (rd (IZR m / IZR (Zpos d))) < M64 -> rep (fquot m d) (rd (IZR m / IZR (Zpos d))).
Proof.
  assert (G : forall s p d (H : Rabs (rd (F2R (Float radix2 (cond_Zopp s (Zpos p)) 0) / F2R (Float radix2 (cond_Zopp false (Zpos d)) 0))) < M64),
    rep (SF2B _ (proj1 (Bdiv_correct_aux 53 1024 p53 lt_emax mode_NE s p 0 false d 0)))
        (rd (F2R (Float radix2 (cond_Zopp s (Zpos p)) 0) / F2R (Float radix2 (cond_Zopp false (Zpos d)) 0)))).
  { intros s p d H. assert (K := Bdiv_correct_aux 53 1024 p53 lt_emax mode_NE s p 0 false d 0). cbv zeta in K. destruct K as [_ K].
    match type of K with if Rlt_bool (Rabs ?r) _ then _ else _ =>
      change r with (rd (F2R (Float radix2 (cond_Zopp s (Zpos p)) 0) / F2R (Float radix2 (cond_Zopp false (Zpos d)) 0))) in K end.
    rewrite rlt_true in K by exact H. destruct K as (K1 & K2 & _). split.
    - unfold ffin. rewrite is_finite_SF2B. exact K2.
    - unfold fval. rewrite B2R_SF2B. exact K1. }
  assert (E : forall z, F2R (Float radix2 z 0) = IZR z) by (intros z; unfold F2R; cbn; ring).
  intros m d H. destruct m as [|p|p].
  - unfold fquot. split; [easy|]. unfold Rdiv. rewrite Rmult_0_l, rd_0. reflexivity.
  - rewrite <- (E (Zpos p)), <- (E (Zpos d)) in H |- *. exact (G false p d H).
  - rewrite <- (E (Zneg p)), <- (E (Zpos d)) in H |- *. exact (G true p d H).
Qed.
(** literals *)
Lemma rep_lit : forall d, Rabs (rd (litR d)) < M64 -> rep (flit d) (rd (litR d)).
Proof.
  intros d. unfold flit, litR. destruct (0 <=? dexp d)%Z eqn:E; intros H; [now apply rep_ofZ|].
  apply Z.leb_gt in E. assert (P : (0 < 10 ^ (- dexp d))%Z) by (apply Z.pow_pos_nonneg; lia).
  rewrite <- (Z2Pos.id (10 ^ (- dexp d))) in H |- * by easy. rewrite Z2Pos.id at 1 by easy. now apply rep_quot.
Qed.
Lemma rep_pi : rep fpi (rd PI).
Proof.
  rewrite rd_PI. assert (K := rep_norm 7074237752028440 (-51) false).
  assert (E : rd (IZR 7074237752028440 * bpow radix2 (-51)) = PI64) by (rewrite <- PI64_alt; apply rd_id, PI64_fmt).
  rewrite E in K. apply K. rewrite Rabs_pos_eq by (unfold PI64; lra). apply Rlt_le_trans with (bpow radix2 2); [cbn; unfold PI64; lra|apply bpow_le; lia].
Qed.
(** ** fmod, floor, ceil, truncation *)
Lemma fin_bounds : forall m e, SpecFloat.bounded 53 1024 m e = true -> (Zpos m < 2 ^ 53)%Z /\ (-1074 <= e)%Z.
Proof.
  intros m e H. unfold SpecFloat.bounded in H. apply andb_prop in H. destruct H as [H _]. unfold SpecFloat.canonical_mantissa in H.
  apply Zeq_bool_eq in H. unfold SpecFloat.fexp, SpecFloat.emin in H. rewrite Digits.Zpos_digits2_pos in H.
  assert (K := Digits.Zdigits_correct radix2 (Zpos m)). split; [|lia].
  destruct K as [_ K]. cbn [Z.abs] in K. eapply Z.lt_le_trans; [exact K|]. change (radix_val radix2) with 2%Z. apply Z.pow_le_mono_r; lia.
Qed.
Lemma trunc_quot : forall p q : Z, q <> 0%Z -> Ztrunc (IZR p / IZR q) = Z.quot p q.
Proof.
  assert (P : forall p q : Z, (0 <= p)%Z -> (0 < q)%Z -> Ztrunc (IZR p / IZR q) = Z.quot p q).
  { intros p q Hp Hq. assert (IZR 0 <= IZR p) by now apply IZR_le. assert (IZR 0 < IZR q) by now apply IZR_lt.
    rewrite Ztrunc_floor by (apply Rmult_le_pos; [easy|left; now apply Rinv_0_lt_compat]). rewrite Zfloor_div by lia. rewrite Z.quot_div_nonneg; lia. }
  assert (P2 : forall p q : Z, (0 < q)%Z -> Ztrunc (IZR p / IZR q) = Z.quot p q).
  { intros p q Hq. destruct (Z.le_gt_cases 0 p) as [Hp|Hp]; [now apply P|].
    assert (K := P (- p)%Z q ltac:(lia) Hq). rewrite Z.quot_opp_l in K by lia. rewrite opp_IZR in K. unfold Rdiv in *.
    rewrite Ropp_mult_distr_l_reverse, Ztrunc_opp in K. lia. }
  intros p q Hq. destruct (Z.le_gt_cases 0 q) as [H|H]; [apply P2; lia|].
  assert (K := P2 p (- q)%Z ltac:(lia)). rewrite Z.quot_opp_r in K by lia. rewrite opp_IZR in K.
  replace (IZR p / - IZR q) with (- (IZR p / IZR q)) in K by (field; now apply not_0_IZR). rewrite Ztrunc_opp in K. lia.
Qed.
Lemma rep_fmod : forall a b x y, rep a x -> rep b y -> y <> 0 -> rep (ffmod a b) (fmodR x y).
Proof.
  intros a b x y [Fa Ea] [Fb Eb] N. destruct b as [sb|sb| |sb mb eb hb]; try discriminate; [exfalso; apply N; now rewrite <- Eb|].
  destruct a as [sa|sa| |sa ma ea ha]; try discriminate.
  - split; [easy|]. cbn in Ea |- *. subst x. unfold fmodR, Rdiv. rewrite Rmult_0_l, Ztrunc_IZR. ring.
  - unfold fval, B2R in Ea, Eb. unfold ffmod. cbv zeta. set (e := Z.min ea eb).
    set (p := cond_Zopp sa (Z.pos ma)) in *. set (q := cond_Zopp sb (Z.pos mb)) in *.
    destruct (fin_bounds _ _ ha) as [Ba Ba']. destruct (fin_bounds _ _ hb) as [Bb Bb'].
    assert (Pa : (Z.abs p < 2 ^ 53)%Z) by (unfold p; destruct sa; cbn [cond_Zopp]; lia).
    assert (Pb : (0 < Z.abs q < 2 ^ 53)%Z) by (unfold q; destruct sb; cbn [cond_Zopp]; lia).
    assert (S : forall z f, (e <= f)%Z -> F2R (Float radix2 z f) = IZR (z * 2 ^ (f - e)) * bpow radix2 e).
    { intros z f Hf. unfold F2R; cbn [Fnum Fexp]. rewrite mult_IZR. change 2%Z with (radix_val radix2) at 1.
      rewrite IZR_Zpower by lia. rewrite Rmult_assoc, <- bpow_plus. f_equal. f_equal. lia. }
    rewrite (S p ea) in Ea by (unfold e; lia). rewrite (S q eb) in Eb by (unfold e; lia).
    set (P := (p * 2 ^ (ea - e))%Z) in *. set (Q := (q * 2 ^ (eb - e))%Z) in *.
    assert (B0 := bpow_gt_0 radix2 e).
    assert (NQ : Q <> 0%Z) by (intros C; rewrite C in Eb; apply N; rewrite <- Eb; ring).
    assert (E : fmodR x y = IZR (Z.rem P Q) * bpow radix2 e).
    { unfold fmodR. rewrite <- Ea, <- Eb. replace (IZR P * bpow radix2 e / (IZR Q * bpow radix2 e)) with (IZR P / IZR Q).
      - rewrite trunc_quot by easy. assert (K := Z.quot_rem' P Q). replace (Z.rem P Q) with (P - Q * (P ÷ Q))%Z by lia.
        rewrite minus_IZR, mult_IZR. ring.
      - field. split; [lra|]. now apply not_0_IZR. }
    assert (F : fmt (IZR (Z.rem P Q) * bpow radix2 e)).
    { apply mk_fmt; [|unfold e; lia]. destruct (Z.le_gt_cases ea eb) as [C|C].
      - assert (K : (Z.abs (Z.rem P Q) <= Z.abs P)%Z).
        { rewrite <- Z.rem_abs by easy. apply Z.rem_le; lia. }
        unfold P in K at 2. replace (ea - e)%Z with 0%Z in K by (unfold e; lia). rewrite Z.mul_1_r in K. lia.
      - assert (K := Z.rem_bound_abs P Q NQ). unfold Q in K at 2. replace (eb - e)%Z with 0%Z in K by (unfold e; lia). rewrite Z.mul_1_r in K. lia. }
    rewrite E. rewrite <- (rd_id _ F). apply rep_norm. rewrite rd_id by easy. rewrite <- E.
    assert (K : Rabs (fmodR x y) < Rabs y).
    { unfold fmodR. set (t := x / y). replace (x - IZR (Ztrunc t) * y) with ((t - IZR (Ztrunc t)) * y) by (unfold t; field; easy).
      rewrite Rabs_mult. assert (0 < Rabs y) by now apply Rabs_pos_lt. assert (Rabs (t - IZR (Ztrunc t)) < 1); [|nra].
      unfold Ztrunc. case Rlt_bool_spec; intros.
      - assert (A := Zceil_ub t). assert (B := Zceil_lb t). apply Rabs_def1; lra.
      - assert (A := Zfloor_lb t). assert (B := Zfloor_ub t). apply Rabs_def1; lra. }
    eapply Rlt_trans; [exact K|]. rewrite <- Eb.
    assert (H := abs_B2R_lt_emax 53 1024 (B754_finite sb mb eb hb)). unfold B2R in H. fold q in H. rewrite (S q eb) in H by (unfold e; lia). exact H.
Qed.
Lemma rep_floor : forall a x, rep a x -> rep (Bnearbyint mode_DN a) (IZR (Zfloor x)).
Proof.
  intros a x [Fa <-]. destruct (Bnearbyint_correct 53 1024 lt_emax mode_DN a) as (K1 & K2 & _). split; [unfold ffin in *; now rewrite K2|].
  unfold fval. rewrite K1. unfold round, scaled_mantissa, cexp, FIX_exp, F2R. cbn [Fnum Fexp round_mode]. change (bpow radix2 (-0)) with 1. change (bpow radix2 0) with 1.
  now rewrite !Rmult_1_r.
Qed.
Lemma rep_ceil : forall a x, rep a x -> rep (Bnearbyint mode_UP a) (IZR (Zceil x)).
Proof.
  intros a x [Fa <-]. destruct (Bnearbyint_correct 53 1024 lt_emax mode_UP a) as (K1 & K2 & _). split; [unfold ffin in *; now rewrite K2|].
  unfold fval. rewrite K1. unfold round, scaled_mantissa, cexp, FIX_exp, F2R. cbn [Fnum Fexp round_mode]. change (bpow radix2 (-0)) with 1. change (bpow radix2 0) with 1.
  now rewrite !Rmult_1_r.
Qed.
Lemma rep_toZ : forall a x, rep a x -> Btrunc a = Ztrunc x.
Proof.
  intros a x [Fa <-]. assert (K := Btrunc_correct 53 1024 lt_emax a). unfold round, scaled_mantissa, cexp, FIX_exp, F2R in K. cbn [Fnum Fexp] in K.
  change (bpow radix2 (-0)) with 1 in K. change (bpow radix2 0) with 1 in K. rewrite !Rmult_1_r in K. now apply eq_IZR in K.
Qed.

(** ** Magnitudes as powers of two, which rounding preserves *)
Definition repb (a : f64) (x : R) (p : Z) : Prop := rep a x /\ Rabs x <= bpow radix2 p.
Lemma rd_le_bpow : forall x p, (-1074 <= p)%Z -> Rabs x <= bpow radix2 p -> Rabs (rd x) <= bpow radix2 p.
Proof. intros x p Hp H. rewrite <- rd_abs. apply rd_le; [|easy]. apply generic_format_bpow. unfold d64, FLT_exp. lia. Qed.
Lemma bp_lt : forall p x, (p < 1024)%Z -> Rabs x <= bpow radix2 p -> Rabs x < M64.
Proof. intros p x H K. eapply Rle_lt_trans; [exact K|]. now apply bpow_lt. Qed.
Lemma rb_add : forall a b x y p q, repb a x p -> repb b y q -> (-1075 <= Z.max p q < 1023)%Z -> repb (Bplus mode_NE a b) (rd (x + y)) (Z.max p q + 1).
Proof.
  intros a b x y p q [Ra Ha] [Rb Hb] H.
  assert (K : Rabs (rd (x + y)) <= bpow radix2 (Z.max p q + 1)).
  { apply rd_le_bpow; [lia|]. rewrite bpow_plus. change (bpow radix2 1) with 2. eapply Rle_trans; [apply Rabs_triang|].
    assert (bpow radix2 p <= bpow radix2 (Z.max p q)) by (apply bpow_le; lia). assert (bpow radix2 q <= bpow radix2 (Z.max p q)) by (apply bpow_le; lia). lra. }
  split; [|exact K]. apply rep_add; try easy. eapply bp_lt; [|exact K]. lia.
Qed.
Lemma rb_sub : forall a b x y p q, repb a x p -> repb b y q -> (-1075 <= Z.max p q < 1023)%Z -> repb (Bminus mode_NE a b) (rd (x - y)) (Z.max p q + 1).
Proof.
  intros a b x y p q [Ra Ha] [Rb Hb] H.
  assert (K : Rabs (rd (x - y)) <= bpow radix2 (Z.max p q + 1)).
  { apply rd_le_bpow; [lia|]. rewrite bpow_plus. change (bpow radix2 1) with 2. unfold Rminus. eapply Rle_trans; [apply Rabs_triang|]. rewrite Rabs_Ropp.
    assert (bpow radix2 p <= bpow radix2 (Z.max p q)) by (apply bpow_le; lia). assert (bpow radix2 q <= bpow radix2 (Z.max p q)) by (apply bpow_le; lia). lra. }
  split; [|exact K]. apply rep_sub; try easy. eapply bp_lt; [|exact K]. lia.
Qed.
Lemma rb_mul : forall a b x y p q, repb a x p -> repb b y q -> (-1074 <= p + q < 1024)%Z -> repb (Bmult mode_NE a b) (rd (x * y)) (p + q).
Proof.
  intros a b x y p q [Ra Ha] [Rb Hb] H.
  assert (K : Rabs (rd (x * y)) <= bpow radix2 (p + q)).
  { apply rd_le_bpow; [lia|]. rewrite bpow_plus, Rabs_mult. apply Rmult_le_compat; try apply Rabs_pos; easy. }
  split; [|exact K]. apply rep_mul; try easy. eapply bp_lt; [|exact K]. lia.
Qed.
(** division, by something not smaller than a power of two *)
Lemma rb_div : forall a b x y p q, repb a x p -> rep b y -> bpow radix2 q <= Rabs y -> (-1074 <= p - q < 1024)%Z -> repb (Bdiv mode_NE a b) (rd (x / y)) (p - q).
Proof.
  intros a b x y p q [Ra Ha] Rb Hb H. assert (Q := bpow_gt_0 radix2 q). assert (N : y <> 0) by (intros ->; rewrite Rabs_R0 in Hb; lra).
  assert (K : Rabs (rd (x / y)) <= bpow radix2 (p - q)).
  { apply rd_le_bpow; [lia|]. unfold Zminus. rewrite bpow_plus, bpow_opp. unfold Rdiv. rewrite Rabs_mult, Rabs_inv.
    apply Rmult_le_compat; try apply Rabs_pos; [left; apply Rinv_0_lt_compat; lra|easy|]. now apply Rinv_le. }
  split; [|exact K]. apply rep_div; try easy. eapply bp_lt; [|exact K]. lia.
Qed.
Lemma rb_sqrt : forall a x p, repb a x p -> 0 <= x -> (-1074 <= Z.max p 0)%Z -> repb (Bsqrt mode_NE a) (rd (R_sqrt.sqrt x)) (Z.max p 0).
Proof.
  intros a x p [Ra Ha] P H. split; [now apply rep_sqrt|]. apply rd_le_bpow; [lia|]. rewrite Rabs_pos_eq by apply sqrt_pos. rewrite Rabs_pos_eq in Ha by easy.
  assert (A : 1 <= bpow radix2 (Z.max p 0)) by (change 1 with (bpow radix2 0); apply bpow_le; lia).
  assert (B : x <= bpow radix2 (Z.max p 0)) by (eapply Rle_trans; [exact Ha|apply bpow_le; lia]).
  apply Rle_trans with (R_sqrt.sqrt (bpow radix2 (Z.max p 0) * bpow radix2 (Z.max p 0))); [apply sqrt_le_1_alt; nra|]. rewrite sqrt_square; lra.
Qed.
Lemma rb_opp : forall a x p, repb a x p -> repb (Bopp a) (- x) p.
Proof. intros a x p [Ra Ha]. split; [now apply rep_opp|]. now rewrite Rabs_Ropp. Qed.
Lemma rb_abs : forall a x p, repb a x p -> repb (Babs a) (Rabs x) p.
Proof. intros a x p [Ra Ha]. split; [now apply rep_abs|]. now rewrite Rabs_Rabsolu. Qed.
Lemma rb_weak : forall a x p q, repb a x p -> (p <= q)%Z -> repb a x q.
Proof. intros a x p q [Ra Ha] H. split; [easy|]. eapply Rle_trans; [exact Ha|now apply bpow_le]. Qed.
Lemma rb_lit : forall d p, Rabs (litR d) <= bpow radix2 p -> (-1074 <= p < 1024)%Z -> repb (flit d) (rd (litR d)) p.
Proof.
  intros d p H Hp. assert (K : Rabs (rd (litR d)) <= bpow radix2 p) by (apply rd_le_bpow; [lia|easy]). split; [|exact K].
  apply rep_lit. eapply bp_lt; [|exact K]. lia.
Qed.
Lemma rb_pi : repb fpi (rd PI) 2.
Proof. split; [apply rep_pi|]. rewrite rd_PI. rewrite Rabs_pos_eq by (unfold PI64; lra). change (bpow radix2 2) with 4. unfold PI64. lra. Qed.
Lemma rb_any : forall a x, rep a x -> repb a x 1024.
Proof. intros a x H. split; [easy|]. destruct H as [_ <-]. left. apply (abs_B2R_lt_emax 53 1024 a). Qed.
(** conditionals *)
Lemma if_rel : forall B C (P : B -> C -> Prop) (b1 b2 : bool) u v x y, b1 = b2 -> (b2 = true -> P u x) -> (b2 = false -> P v y) ->
  P (if b1 then u else v) (if b2 then x else y).
Proof. intros B C P b1 b2 u v x y -> H1 H2. destruct b2; auto. Qed.
(** ** Sums of squares are not negative zeros *)
Definition posb (a : f64) (x : R) (p : Z) : Prop := repb a x p /\ 0 <= x /\ Bsign a = false.
Lemma fin_not_nan : forall a : f64, ffin a = true -> is_nan a = false. Proof. now intros []. Qed.
Lemma rd_pos : forall x, 0 <= x -> 0 <= rd x. Proof. intros. apply rd_ge; [apply fmt0|easy]. Qed.
Lemma ps_sq : forall a x p, repb a x p -> (-1074 <= p + p < 1024)%Z -> posb (Bmult mode_NE a a) (rd (x * x)) (p + p).
Proof.
  intros a x p H Hp. assert (K := rb_mul a a x x p p H H Hp). split; [exact K|]. split; [apply rd_pos; assert (A := Rle_0_sqr x); unfold Rsqr in A; lra|].
  destruct K as [[K _] B]. destruct H as [[_ E] _]. assert (C := Bmult_correct 53 1024 p53 lt_emax mode_NE a a).
  change (round radix2 (SpecFloat.fexp 53 1024) (round_mode mode_NE) (B2R a * B2R a)) with (rd (fval a * fval a)) in C. rewrite E in C.
  rewrite rlt_true in C by (eapply bp_lt; [|exact B]; lia). destruct C as (_ & _ & C). rewrite C by now apply fin_not_nan. apply xorb_nilpotent.
Qed.
Lemma ps_add : forall a b x y p q, posb a x p -> posb b y q -> (-1075 <= Z.max p q < 1023)%Z -> posb (Bplus mode_NE a b) (rd (x + y)) (Z.max p q + 1).
Proof.
  intros a b x y p q (Ha & Pa & Sa) (Hb & Pb & Sb) H. assert (K := rb_add a b x y p q Ha Hb H). split; [exact K|]. split; [apply rd_pos; lra|].
  destruct K as [[K _] B]. destruct Ha as [[Fa Ea] _]. destruct Hb as [[Fb Eb] _]. assert (C := Bplus_correct 53 1024 p53 lt_emax mode_NE a b Fa Fb).
  change (round radix2 (SpecFloat.fexp 53 1024) (round_mode mode_NE) (B2R a + B2R b)) with (rd (fval a + fval b)) in C. rewrite Ea, Eb in C.
  rewrite rlt_true in C by (eapply bp_lt; [|exact B]; lia). destruct C as (_ & _ & C). rewrite C. change (B2R a + B2R b) with (fval a + fval b). rewrite Ea, Eb.
  destruct (Rcompare_spec (x + y) 0); [lra|now rewrite Sa|easy].
Qed.
Lemma ps_sqrt : forall a x p, posb a x p -> posb (Bsqrt mode_NE a) (rd (R_sqrt.sqrt x)) (Z.max p 0).
Proof.
  intros a x p (Ha & Pa & Sa). assert (K := rb_sqrt a x p Ha Pa ltac:(lia)). split; [exact K|]. split; [apply rd_pos, sqrt_pos|].
  destruct (Bsqrt_correct 53 1024 p53 lt_emax mode_NE a) as (_ & _ & C). rewrite C; [exact Sa|]. apply fin_not_nan. apply K.
Qed.
