(** * The same code in IEEE binary64 arithmetic.

    The models are polymorphic over [Arith] (Num.v).  Here is the instance in which the four operations, [sqrt], the
    conversion of integers and the conversion of literals are those of IEEE 754 double precision: the exact result rounded
    to nearest even, with 53 bits and gradual underflow (Flocq's FLT format).  [fmod], [floor], [ceil], [fabs], negation and
    the comparisons are exact in C.  The functions of libm that are not exact are a parameter: theorems quantify over them,
    with an explicit accuracy hypothesis where one is needed.  NaNs and infinities are not values here, so each theorem
    bounds its arguments such that no intermediate result can overflow. *)
From Coq Require Import Reals ZArith Lra Lia Psatz Bool.
From Flocq Require Import Core Sterbenz Relative Mult_error.
From Interval Require Import Tactic.
From Verif Require Import Num NumR.
Local Open Scope R_scope.

Definition d64 := FLT_exp (-1074) 53.
Definition rd (x : R) : R := round radix2 d64 ZnearestE x.
(** the finite doubles *)
Definition is_double (x : R) : Prop := FLT_format radix2 (-1074) 53 x /\ Rabs x < bpow radix2 1024.
Definition fmt (x : R) : Prop := generic_format radix2 d64 x.

Record Libm := MkLibm {
  l_sin : R -> R; l_cos : R -> R; l_tan : R -> R; l_asin : R -> R; l_atan : R -> R; l_atan2 : R -> R -> R;
  l_exp : R -> R; l_log : R -> R; l_sinh : R -> R; l_pow : R -> R -> R }.

Definition DA (L : Libm) : Arith R := {|
  add := fun x y => rd (x + y); sub := fun x y => rd (x - y); mul := fun x y => rd (x * y); div := fun x y => rd (x / y);
  opp := Ropp; ltb := Rltb; leb := Rleb; eqb := Reqb; fabs := Rabs;
  sqrt := fun x => rd (R_sqrt.sqrt x);
  sin := l_sin L; cos := l_cos L; tan := l_tan L; asin := l_asin L; atan := l_atan L; atan2 := l_atan2 L;
  exp := l_exp L; log := l_log L; sinh := l_sinh L; pow := l_pow L;
  fmod := fmodR; floor := fun x => IZR (Zfloor x); ceil := fun x => IZR (Zceil x);
  ofZ := fun n => rd (IZR n); toZ := Ztrunc; lit := fun d => rd (litR d); pi := rd PI |}.

Ltac dops :=
  cbn [add sub mul div opp ltb leb eqb fabs sqrt sin cos tan asin atan atan2
       exp log sinh pow fmod floor ceil ofZ toZ lit pi DA] in *.
Ltac dn := dops; rlit.

#[global] Instance p53 : Prec_gt_0 53. Proof. now unfold Prec_gt_0. Qed.
#[global] Instance v64 : Valid_exp d64. Proof. apply FLT_exp_valid. now unfold Prec_gt_0. Qed.
#[global] Instance m64 : Monotone_exp d64. Proof. apply FLT_exp_monotone. Qed.

(** ** Representable numbers *)
Lemma double_fmt : forall x, is_double x -> fmt x.
Proof. intros x [H _]. now apply generic_format_FLT. Qed.
Lemma mk_fmt : forall m e : Z, (Z.abs m <= 2 ^ 53)%Z -> (-1074 <= e)%Z -> fmt (IZR m * bpow radix2 e).
Proof.
  intros m e Hm He. destruct (Z.eq_dec (Z.abs m) (2 ^ 53)) as [E|E].
  - assert (K : IZR m * bpow radix2 e = IZR (Z.sgn m) * bpow radix2 (e + 53)).
    { replace m with (Z.sgn m * 2 ^ 53)%Z at 1 by lia. rewrite mult_IZR, bpow_plus, Rmult_assoc. f_equal.
      rewrite Rmult_comm. f_equal. }
    rewrite K. apply generic_format_FLT. exists (Float radix2 (Z.sgn m) (e + 53)); [reflexivity| |cbn; lia].
    cbn. destruct m; cbn; lia.
  - apply generic_format_FLT. exists (Float radix2 m e); [reflexivity| |exact He]. cbn. lia.
Qed.
Lemma fmtZ : forall n : Z, (Z.abs n <= 2 ^ 53)%Z -> fmt (IZR n).
Proof. intros n H. replace (IZR n) with (IZR n * bpow radix2 0) by (cbn; ring). apply mk_fmt; lia. Qed.
Lemma fmt0 : fmt 0. Proof. apply generic_format_0. Qed.
Lemma fmt_opp : forall x, fmt x -> fmt (- x). Proof. intros. now apply generic_format_opp. Qed.
Lemma fmt_abs : forall x, fmt x -> fmt (Rabs x). Proof. intros. now apply generic_format_abs. Qed.
Lemma fmt_rd : forall x, fmt (rd x). Proof. intros. apply generic_format_round; typeclasses eauto. Qed.

(** ** Rounding *)
Lemma rd_id : forall x, fmt x -> rd x = x.
Proof. intros. apply round_generic; [typeclasses eauto|easy]. Qed.
Lemma rdZ : forall n : Z, (Z.abs n <= 2 ^ 53)%Z -> rd (IZR n) = IZR n.
Proof. intros. now apply rd_id, fmtZ. Qed.
Lemma rd_0 : rd 0 = 0. Proof. apply rd_id, fmt0. Qed.
Lemma rd_opp : forall x, rd (- x) = - rd x.
Proof. intros. apply round_NE_opp. Qed.
Lemma rd_abs : forall x, rd (Rabs x) = Rabs (rd x).
Proof. intros. apply round_NE_abs. typeclasses eauto. Qed.
Lemma rd_mono : forall x y, x <= y -> rd x <= rd y.
Proof. intros. apply round_le; [typeclasses eauto|typeclasses eauto|easy]. Qed.
Lemma rd_ge : forall x a, fmt a -> a <= x -> a <= rd x.
Proof. intros. apply round_ge_generic; auto; typeclasses eauto. Qed.
Lemma rd_le : forall x a, fmt a -> x <= a -> rd x <= a.
Proof. intros. apply round_le_generic; auto; typeclasses eauto. Qed.
Definition u53 : R := / 9007199254740992.
Lemma u53_bpow : u53 = bpow radix2 (-53). Proof. reflexivity. Qed.
Lemma rd_rel : forall x, bpow radix2 (-1022) <= Rabs x -> Rabs (rd x - x) <= u53 * Rabs x.
Proof.
  intros x H. replace u53 with (/ 2 * bpow radix2 (- 53 + 1)).
  - apply (relative_error_N_FLT radix2 (-1074) 53); [now unfold Prec_gt_0|exact H].
  - change (bpow radix2 (-53 + 1)) with (/ 4503599627370496). unfold u53. lra.
Qed.
(** the same with a bound that needs no bpow *)
Lemma tiny_1000 : bpow radix2 (-1022) <= / 10 ^ 300.
Proof.
  replace (/ 10 ^ 300) with (/ IZR (10 ^ 300)).
  - change (bpow radix2 (-1022)) with (/ IZR (2 ^ 1022)). apply Rinv_le; [apply IZR_lt; reflexivity|]. apply IZR_le. vm_compute. discriminate.
  - f_equal. rewrite pow_IZR. reflexivity.
Qed.
Lemma rd_err : forall x, Rabs (rd x - x) <= u53 * Rabs x + bpow radix2 (-1075).
Proof.
  intros x. destruct (Rle_or_lt (bpow radix2 (-1022)) (Rabs x)) as [H|H].
  - assert (A := rd_rel x H). assert (B := bpow_ge_0 radix2 (-1075)). lra.
  - assert (A : Rabs (rd x - x) <= / 2 * ulp radix2 d64 x) by (apply error_le_half_ulp; typeclasses eauto).
    unfold d64 in A. rewrite (ulp_FLT_small radix2 (-1074) 53 x) in A.
    + replace (bpow radix2 (-1075)) with (/ 2 * bpow radix2 (-1074)).
      * assert (B := Rabs_pos x). assert (C : 0 <= u53) by (unfold u53; lra). nra.
      * replace (-1074)%Z with (-1075 + 1)%Z by lia. rewrite bpow_plus. change (bpow radix2 1) with 2. field.
    + eapply Rlt_le_trans; [exact H|]. apply bpow_le. lia.
Qed.
(** absolute error below a power of two *)
Lemma rd_abs_err : forall x e, (-1021 <= e)%Z -> Rabs x <= bpow radix2 e -> Rabs (rd x - x) <= bpow radix2 (e - 54).
Proof.
  intros x e He H. assert (A : Rabs (rd x - x) <= / 2 * ulp radix2 d64 x) by (apply error_le_half_ulp; typeclasses eauto).
  destruct (Req_dec (Rabs x) (bpow radix2 e)) as [E|E].
  - (* x = +-2^e is exact *)
    assert (F : fmt x).
    { assert (G : fmt (Rabs x)) by (rewrite E; apply generic_format_bpow; unfold d64, FLT_exp; lia).
      revert G. unfold Rabs. destruct (Rcase_abs x); intros G; [|easy]. replace x with (- - x) by ring. now apply fmt_opp. }
    rewrite rd_id by easy. replace (x - x) with 0 by ring. rewrite Rabs_R0. apply bpow_ge_0.
  - assert (L : Rabs x < bpow radix2 e) by lra.
    assert (B : ulp radix2 d64 x <= bpow radix2 (e - 53)).
    { destruct (Req_dec x 0) as [->|N].
      - unfold d64. rewrite (ulp_FLT_small radix2 (-1074) 53 0) by (rewrite Rabs_R0; apply bpow_gt_0). apply bpow_le. lia.
      - rewrite ulp_neq_0 by easy. unfold cexp, d64, FLT_exp. apply bpow_le.
        assert (K := mag_le_bpow radix2 x e N L). lia. }
    replace (bpow radix2 (e - 54)) with (/ 2 * bpow radix2 (e - 53)); [lra|].
    replace (e - 53)%Z with (e - 54 + 1)%Z by lia. rewrite bpow_plus. change (bpow radix2 1) with 2. field.
Qed.

(** evaluation of a rounding: [m * 2^e] with a 53-bit [m], less than half a unit away *)
Lemma rd_eval : forall x m e, (-1074 <= e)%Z -> bpow radix2 (e + 52) <= Rabs x < bpow radix2 (e + 53) ->
  Rabs (x * bpow radix2 (- e) - IZR m) < / 2 -> rd x = IZR m * bpow radix2 e.
Proof.
  intros x m e He B H. assert (C : cexp radix2 d64 x = e).
  { unfold cexp. rewrite (mag_unique radix2 x (e + 53)); [unfold d64, FLT_exp; lia|].
    replace (e + 53 - 1)%Z with (e + 52)%Z by lia. exact B. }
  unfold rd, round, F2R, scaled_mantissa. rewrite C. cbn [Fnum Fexp]. now rewrite (Znearest_imp _ _ m H).
Qed.

(** ** The constant pi *)
Definition PI64 : R := 7074237752028440 / 2251799813685248.
Lemma PI64_alt : PI64 = IZR 7074237752028440 * bpow radix2 (-51).
Proof. unfold PI64. change (bpow radix2 (-51)) with (/ 2251799813685248). reflexivity. Qed.
Lemma PI64_fmt : fmt PI64. Proof. rewrite PI64_alt. apply mk_fmt; [easy|lia]. Qed.
Lemma PI64_close : 0 < PI - PI64 < 123 / 10 ^ 18.
Proof. unfold PI64. split; interval with (i_prec 100). Qed.
Lemma rd_PI : rd PI = PI64.
Proof.
  rewrite PI64_alt. apply rd_eval; [lia| |].
  - change (bpow radix2 (-51 + 52)) with 2. change (bpow radix2 (-51 + 53)) with 4. rewrite Rabs_pos_eq; [split; interval|interval].
  - change (bpow radix2 (- (-51))) with 2251799813685248. interval with (i_prec 100).
Qed.
Lemma rd_double : forall x, fmt x -> rd (2 * x) = 2 * x.
Proof.
  intros x H. apply rd_id. rewrite Rmult_comm. change 2 with (bpow radix2 1). apply mult_bpow_pos_exact_FLT; [exact H|lia].
Qed.
Section L.
  Variable L : Libm.
  Lemma lit2 : rd (litR 2) = 2. Proof. rlit. apply (rdZ 2). cbn; lia. Qed.
  Lemma D2PI_D : @D2PI R (DA L) = 2 * PI64.
  Proof. unfold D2PI. dn. rewrite rd_PI. rewrite (rdZ 2) by (cbn; lia). apply rd_double, PI64_fmt. Qed.
  (** the other constants of palmac.h that the theorems below use: dividing the double pi gives the same double as the
      literal of the header file *)
  Definition DS2R64 : R := 5365940339316387 * bpow radix2 (-66).
  Lemma DS2R_D : @DS2R R (DA L) = DS2R64.
  Proof.
    unfold DS2R, DS2R64. dn. rewrite rd_PI, (rdZ 43200) by (cbn; lia). apply rd_eval; [lia| |].
    - change (bpow radix2 (-66 + 52)) with (/ 16384). change (bpow radix2 (-66 + 53)) with (/ 8192).
      unfold PI64. rewrite Rabs_pos_eq; lra.
    - change (bpow radix2 (- (-66))) with 73786976294838206464. unfold PI64. apply Rabs_def1; lra.
  Qed.
  Lemma DS2R_literal : rd 7.2722052166430399038487115353692196393452995355905e-5 = DS2R64.
  Proof.
    unfold DS2R64. apply rd_eval; [lia| |].
    - change (bpow radix2 (-66 + 52)) with (/ 16384). change (bpow radix2 (-66 + 53)) with (/ 8192). rewrite Rabs_pos_eq; lra.
    - change (bpow radix2 (- (-66))) with 73786976294838206464. apply Rabs_def1; lra.
  Qed.
  Definition DAS2R64 : R := 5723669695270813 * bpow radix2 (-70).
  Lemma DAS2R_D : @DAS2R R (DA L) = DAS2R64.
  Proof.
    unfold DAS2R, DAS2R64. dn. rewrite rd_PI, (rdZ 648000) by (cbn; lia). apply rd_eval; [lia| |].
    - change (bpow radix2 (-70 + 52)) with (/ 262144). change (bpow radix2 (-70 + 53)) with (/ 131072).
      unfold PI64. rewrite Rabs_pos_eq; lra.
    - change (bpow radix2 (- (-70))) with 1180591620717411303424. unfold PI64. apply Rabs_def1; lra.
  Qed.
  Lemma DAS2R_literal : rd 4.8481368110953599358991410235794797595635330237270e-6 = DAS2R64.
  Proof.
    unfold DAS2R64. apply rd_eval; [lia| |].
    - change (bpow radix2 (-70 + 52)) with (/ 262144). change (bpow radix2 (-70 + 53)) with (/ 131072). rewrite Rabs_pos_eq; lra.
    - change (bpow radix2 (- (-70))) with 1180591620717411303424. apply Rabs_def1; lra.
  Qed.
End L.

(** ** fmod is exact *)
Lemma fmodR_bound : forall x p, 0 < p -> Rabs (fmodR x p) < p.
Proof.
  intros x p HP. unfold fmodR. set (q := x / p).
  replace (x - IZR (Ztrunc q) * p) with ((q - IZR (Ztrunc q)) * p) by (unfold q; field; lra).
  assert (A : Rabs (q - IZR (Ztrunc q)) < 1).
  { unfold Ztrunc. case Rlt_bool_spec; intros.
    - assert (A := Zceil_ub q). assert (B := Zceil_lb q). apply Rabs_def1; lra.
    - assert (A := Zfloor_lb q). assert (B := Zfloor_ub q). apply Rabs_def1; lra. }
  rewrite Rabs_mult, (Rabs_pos_eq p) by lra. nra.
Qed.
Lemma fmodR_small : forall x p, 0 < p -> Rabs x < p -> fmodR x p = x.
Proof.
  intros x p HP H. unfold fmodR.
  assert (Q : Rabs (x / p) < 1).
  { unfold Rdiv. rewrite Rabs_mult, Rabs_inv, (Rabs_pos_eq p) by lra.
    apply Rmult_lt_reg_r with p; [easy|]. rewrite Rmult_assoc, Rinv_l by lra. lra. }
  replace (Ztrunc (x / p)) with 0%Z; [ring|]. symmetry. apply Rabs_def2 in Q.
  unfold Ztrunc. case Rlt_bool_spec; intros; [apply Zceil_imp|apply Zfloor_imp]; cbn; lra.
Qed.
Lemma fmodR_sign : forall x p, 0 < p -> (0 <= x -> 0 <= fmodR x p) /\ (x <= 0 -> fmodR x p <= 0).
Proof.
  intros x p HP. unfold fmodR. set (q := x / p). assert (E : x = q * p) by (unfold q; field; lra).
  assert (Q : (0 <= x -> 0 <= q) /\ (x <= 0 -> q <= 0)).
  { split; intros; [apply Rmult_le_reg_r with p|apply Rmult_le_reg_r with p]; lra. }
  rewrite E at 2 4. split; intros H.
  - rewrite Ztrunc_floor by tauto. assert (A := Zfloor_lb q). nra.
  - rewrite Ztrunc_ceil by tauto. assert (A := Zceil_ub q). nra.
Qed.
(** for a modulus [P * 2^e0] with a 53-bit [P >= 2^52] (any double, with the exponent in range) *)
Lemma fmodR_fmt : forall x P e0, fmt x -> (2 ^ 52 <= P < 2 ^ 53)%Z -> (-1073 <= e0)%Z ->
  fmt (fmodR x (IZR P * bpow radix2 e0)).
Proof.
  intros x P e0 Hx HP He0. set (p := IZR P * bpow radix2 e0).
  assert (Pp : 0 < p) by (apply Rmult_lt_0_compat; [apply IZR_lt; lia|apply bpow_gt_0]).
  apply FLT_format_generic in Hx; [|now unfold Prec_gt_0].
  destruct Hx as [[m e] -> Hm He]. cbn in Hm, He. unfold F2R. cbn [Fnum Fexp].
  destruct (Z_le_gt_dec e0 e) as [H|H].
  - set (x := IZR m * bpow radix2 e).
    assert (B := fmodR_bound x p Pp). unfold fmodR in *. set (k := Ztrunc (x / p)) in *. clearbody k.
    assert (E : x - IZR k * p = IZR (m * 2 ^ (e - e0) - k * P) * bpow radix2 e0).
    { rewrite minus_IZR, !mult_IZR. unfold x, p.
      replace e with (e - e0 + e0)%Z at 1 by lia. rewrite bpow_plus.
      change (2 ^ (e - e0))%Z with (radix_val radix2 ^ (e - e0))%Z. rewrite (IZR_Zpower radix2 (e - e0)) by lia. ring. }
    rewrite E in *. apply mk_fmt; [|lia].
    unfold p in B. rewrite Rabs_mult, (Rabs_pos_eq (bpow radix2 e0)) in B by apply bpow_ge_0.
    apply Rmult_lt_reg_r in B; [|apply bpow_gt_0]. rewrite <- abs_IZR in B. apply lt_IZR in B. lia.
  - rewrite fmodR_small; [apply mk_fmt; lia|easy|].
    rewrite Rabs_mult, <- abs_IZR, (Rabs_pos_eq (bpow radix2 e)) by apply bpow_ge_0.
    apply Rlt_le_trans with (IZR (2 ^ 53) * bpow radix2 (e0 - 1)).
    + apply Rle_lt_trans with (IZR (Z.abs m) * bpow radix2 (e0 - 1)).
      * apply Rmult_le_compat_l; [apply IZR_le; lia|]. apply bpow_le. lia.
      * apply Rmult_lt_compat_r; [apply bpow_gt_0|]. now apply IZR_lt.
    + unfold p. replace e0 with (e0 - 1 + 1)%Z at 2 by lia. rewrite bpow_plus. change (bpow radix2 1) with 2.
      assert (K := bpow_gt_0 radix2 (e0 - 1)). assert (K2 : IZR (2 ^ 52) <= IZR P) by (apply IZR_le; lia).
      change (IZR (2 ^ 53)) with (2 * IZR (2 ^ 52)). nra.
Qed.
