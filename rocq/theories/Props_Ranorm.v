(** * C04: palRanorm, in IEEE binary32/binary64 arithmetic (Flocq). *)
From Coq Require Import Reals ZArith Lra Lia Psatz Bool.
From Flocq Require Import Core.
From Interval Require Import Tactic.
From Verif Require Import Num NumR.
Local Open Scope R_scope.

(** binary32 / binary64 with gradual underflow; overflow cannot occur here *)
Definition f32 := FLT_exp (-149) 24.
Definition f64 := FLT_exp (-1074) 53.
Definition rnd32 (x : R) : R := round radix2 f32 ZnearestE x.
Definition rnd64 (x : R) : R := round radix2 f64 ZnearestE x.
Definition is_float (x : R) : Prop := FLT_format radix2 (-149) 24 x.

(** PAL__D2PI (palmac.h:66) as the compiler stores it in a double, and that value
    converted to float for the call of fmodf *)
Definition D2PI64 : R := 7074237752028440 / 1125899906842624.
Definition D2PI32 : R := 13176795 / 2097152.
(** palRanorm.c:66-71.  fmodf is exact in C; the conditional addition is done in
    double and converted to float by the assignment. *)
Definition palRanorm (angle : R) : R :=
  let reduced := fmodR angle D2PI32 in
  if Rltb reduced 0 then rnd32 (rnd64 (reduced + D2PI64)) else reduced.

#[local] Instance v32 : Valid_exp f32. Proof. apply FLT_exp_valid. now unfold Prec_gt_0. Qed.
#[local] Instance v64 : Valid_exp f64. Proof. apply FLT_exp_valid. now unfold Prec_gt_0. Qed.

Lemma mk_float : forall m e : Z, (Z.abs m < 2 ^ 24)%Z -> (-149 <= e)%Z -> is_float (IZR m * bpow radix2 e).
Proof. intros m e Hm He. exists (Float radix2 m e); [reflexivity|exact Hm|exact He]. Qed.
Lemma D2PI32_alt : D2PI32 = IZR 13176795 * bpow radix2 (-21).
Proof. unfold D2PI32. change (bpow radix2 (-21)) with (/ 2097152). reflexivity. Qed.
Lemma D2PI32_float : is_float D2PI32.
Proof. rewrite D2PI32_alt. apply mk_float; [reflexivity|lia]. Qed.

(** the constants are the correctly rounded ones *)
Lemma D2PI64_ok : generic_format radix2 f64 D2PI64 /\ Rabs (D2PI64 - 2 * PI) <= bpow radix2 (-51).
Proof.
  split.
  - apply generic_format_FLT. exists (Float radix2 7074237752028440 (-50)); [|reflexivity|now cbn; lia].
    unfold D2PI64, F2R. cbn [Fnum Fexp]. change (bpow radix2 (-50)) with (/ 1125899906842624). reflexivity.
  - change (bpow radix2 (-51)) with (/ 2251799813685248). unfold D2PI64. interval with (i_prec 100).
Qed.
Lemma D2PI32_ok : Rabs (D2PI32 - 2 * PI) <= bpow radix2 (-22).
Proof. change (bpow radix2 (-22)) with (/ 4194304). unfold D2PI32. interval with (i_prec 60). Qed.

(** [fmodf] is exact: its result is a float, smaller than the modulus *)
Lemma fmod_bound : forall x, Rabs (fmodR x D2PI32) < D2PI32.
Proof.
  intros x. unfold fmodR. set (q := x / D2PI32).
  assert (HP : 0 < D2PI32) by (unfold D2PI32; lra).
  replace (x - IZR (Ztrunc q) * D2PI32) with ((q - IZR (Ztrunc q)) * D2PI32) by (unfold q; field; lra).
  assert (A : Rabs (q - IZR (Ztrunc q)) < 1).
  { unfold Ztrunc. case Rlt_bool_spec; intros.
    - assert (A := Zceil_ub q). assert (B := Zceil_lb q). apply Rabs_def1; lra.
    - assert (A := Zfloor_lb q). assert (B := Zfloor_ub q). apply Rabs_def1; lra. }
  rewrite Rabs_mult, (Rabs_pos_eq D2PI32) by lra. nra.
Qed.
Lemma fmod_float : forall x, is_float x -> is_float (fmodR x D2PI32).
Proof.
  intros x [[m e] -> Hm He]. cbn in Hm, He. unfold F2R. cbn [Fnum Fexp].
  assert (HP : 0 < D2PI32) by (unfold D2PI32; lra).
  destruct (Z_le_gt_dec (-21) e) as [H|H].
  - (* a multiple of 2^-21 *)
    set (x := IZR m * bpow radix2 e).
    assert (B := fmod_bound x). unfold fmodR in *. set (k := Ztrunc (x / D2PI32)) in *. clearbody k.
    assert (E : x - IZR k * D2PI32 = IZR (m * 2 ^ (e + 21) - k * 13176795) * bpow radix2 (-21)).
    { rewrite minus_IZR, !mult_IZR, D2PI32_alt. unfold x.
      replace e with (e + 21 + -21)%Z at 1 by lia. rewrite bpow_plus.
      change (2 ^ (e + 21))%Z with (radix_val radix2 ^ (e + 21))%Z. rewrite (IZR_Zpower radix2 (e + 21)) by lia. ring. }
    rewrite E in *. apply mk_float; [|lia].
    rewrite D2PI32_alt, Rabs_mult, (Rabs_pos_eq (bpow radix2 (-21))) in B by apply bpow_ge_0.
    apply Rmult_lt_reg_r in B; [|apply bpow_gt_0]. rewrite <- abs_IZR in B. apply lt_IZR in B. lia.
  - (* smaller than the modulus *)
    assert (A : Rabs (IZR m * bpow radix2 e) < D2PI32).
    { rewrite Rabs_mult, <- abs_IZR, (Rabs_pos_eq (bpow radix2 e)) by apply bpow_ge_0.
      apply Rlt_trans with (IZR (2 ^ 24) * bpow radix2 (-22)).
      - apply Rle_lt_trans with (IZR (Z.abs m) * bpow radix2 (-22)).
        + apply Rmult_le_compat_l; [apply IZR_le; lia|]. apply bpow_le. lia.
        + apply Rmult_lt_compat_r; [apply bpow_gt_0|]. now apply IZR_lt.
      - change (bpow radix2 (-22)) with (/ 4194304). unfold D2PI32. lra. }
    replace (fmodR (IZR m * bpow radix2 e) D2PI32) with (IZR m * bpow radix2 e); [now apply mk_float|].
    unfold fmodR. set (x := IZR m * bpow radix2 e) in *.
    assert (Q : Rabs (x / D2PI32) < 1).
    { unfold Rdiv. rewrite Rabs_mult, Rabs_inv, (Rabs_pos_eq D2PI32) by lra.
      apply Rmult_lt_reg_r with D2PI32; [easy|]. rewrite Rmult_assoc, Rinv_l by lra. lra. }
    replace (Ztrunc (x / D2PI32)) with 0%Z; [ring|]. symmetry. apply Rabs_def2 in Q.
    unfold Ztrunc. case Rlt_bool_spec; intros; [apply Zceil_imp|apply Zfloor_imp]; cbn; lra.
Qed.
(** the float below (float)2pi *)
Definition P32 : R := 13176794 / 2097152.
Lemma below_D2PI32 : forall x, is_float x -> Rabs x < D2PI32 -> Rabs x <= P32.
Proof.
  intros x Hx H. assert (HF : generic_format radix2 f32 (Rabs x)) by (apply generic_format_abs; now apply generic_format_FLT).
  assert (GF : generic_format radix2 f32 D2PI32) by (apply generic_format_FLT, D2PI32_float).
  assert (A := succ_le_lt radix2 f32 (Rabs x) D2PI32 HF GF H).
  destruct (Rle_or_lt (Rabs x) P32) as [|C]; [easy|exfalso].
  assert (GP : generic_format radix2 f32 P32).
  { apply generic_format_FLT. replace P32 with (IZR 13176794 * bpow radix2 (-21)) by (change (bpow radix2 (-21)) with (/ 2097152); reflexivity).
    apply mk_float; [reflexivity|lia]. }
  assert (B := succ_le_lt radix2 f32 P32 (Rabs x) GP HF C).
  assert (S : succ radix2 f32 P32 = D2PI32).
  { rewrite succ_eq_pos by (unfold P32; lra).
    rewrite ulp_neq_0 by (unfold P32; lra). unfold cexp.
    rewrite (mag_unique radix2 P32 3).
    - unfold f32, FLT_exp. change (bpow radix2 (Z.max (3 - 24) (-149))) with (/ 2097152). unfold P32, D2PI32. lra.
    - rewrite Rabs_pos_eq by (unfold P32; lra). change (bpow radix2 (3 - 1)) with 4. change (bpow radix2 3) with 8. unfold P32; lra. }
  rewrite S in B. lra.
Qed.

Lemma rnd64_bound : forall x a b, generic_format radix2 f64 a -> generic_format radix2 f64 b ->
  a <= x <= b -> a <= rnd64 x <= b.
Proof.
  intros x a b Ha Hb [H1 H2]. unfold rnd64. split.
  - apply round_ge_generic; auto; typeclasses eauto.
  - apply round_le_generic; auto; typeclasses eauto.
Qed.

(** The documented range is [0,2pi).  What holds for every float: *)
Theorem C04_palRanorm : forall angle, is_float angle ->
  0 <= palRanorm angle <= D2PI32 /\ D2PI32 < 2 * PI + 2 / 10000000 /\ is_float (palRanorm angle) /\
  (0 <= angle -> palRanorm angle < 2 * PI).
Proof.
  intros angle Ha. unfold palRanorm.
  assert (Hr := fmod_float angle Ha). assert (Hb := fmod_bound angle). assert (Hp := below_D2PI32 _ Hr Hb).
  assert (Lp : P32 < 2 * PI) by (unfold P32; interval with (i_prec 60)).
  assert (Lq : D2PI32 < 2 * PI + 2 / 10000000) by (unfold D2PI32; interval with (i_prec 60)).
  set (r := fmodR angle D2PI32) in *.
  assert (Pos : 0 <= angle -> 0 <= r).
  { intros H. unfold r, fmodR. rewrite Ztrunc_floor.
    - assert (A := Zfloor_lb (angle / D2PI32)). assert (HP : 0 < D2PI32) by (unfold D2PI32; lra).
      replace angle with (angle / D2PI32 * D2PI32) at 1 by (field; lra). nra.
    - apply Rmult_le_pos; [easy|]. unfold D2PI32. lra. }
  destruct (Rltb_spec r 0) as [H|H].
  - split; [|split; [exact Lq|split]].
    + apply Rabs_le_inv in Hp.
      assert (A : 0 <= rnd64 (r + D2PI64) <= D2PI64).
      { apply rnd64_bound; [apply generic_format_0|apply D2PI64_ok|]. unfold P32, D2PI64 in *. lra. }
      unfold rnd32. split.
      * apply round_ge_generic; [typeclasses eauto|typeclasses eauto|apply generic_format_0|lra].
      * apply round_le_generic; [typeclasses eauto|typeclasses eauto|apply generic_format_FLT, D2PI32_float|].
        unfold D2PI32, D2PI64 in *. lra.
    + apply FLT_format_generic; [now unfold Prec_gt_0|]. apply generic_format_round; typeclasses eauto.
    + intros H0. specialize (Pos H0). lra.
  - rewrite Rabs_pos_eq in Hp by lra. split; [|split; [exact Lq|split; [exact Hr|]]].
    + split; [lra|]. unfold P32, D2PI32 in *. lra.
    + intros _. lra.
Qed.

(** ... and the documented range fails: for a small negative angle the result is
    (float)2pi, which exceeds 2pi. *)
Theorem C04_documented_range_refuted :
  exists angle, is_float angle /\ palRanorm angle = D2PI32 /\ 2 * PI < palRanorm angle.
Proof.
  assert (G : 2 * PI < D2PI32) by (unfold D2PI32; interval with (i_prec 60)).
  exists (- bpow radix2 (-30)).
  assert (Hf : is_float (- bpow radix2 (-30))).
  { replace (- bpow radix2 (-30)) with (IZR (-1) * bpow radix2 (-30)) by ring. apply mk_float; [reflexivity|lia]. }
  assert (E : palRanorm (- bpow radix2 (-30)) = D2PI32); [|rewrite E; auto].
  unfold palRanorm.
  replace (fmodR (- bpow radix2 (-30)) D2PI32) with (- bpow radix2 (-30)).
  2:{ unfold fmodR. replace (Ztrunc (- bpow radix2 (-30) / D2PI32)) with 0%Z; [ring|].
      symmetry. rewrite Ztrunc_ceil.
      - apply Zceil_imp. change (bpow radix2 (-30)) with (/ 1073741824). unfold D2PI32. cbn. split; lra.
      - change (bpow radix2 (-30)) with (/ 1073741824). unfold D2PI32. lra. }
  change (bpow radix2 (-30)) with (/ 1073741824). rewrite Rltb_true by lra.
  (* the double sum is exact *)
  assert (S : rnd64 (- / 1073741824 + D2PI64) = - / 1073741824 + D2PI64).
  { unfold rnd64. apply round_generic; [typeclasses eauto|]. apply generic_format_FLT.
    exists (Float radix2 (7074237752028440 - 1048576) (-50)); [|reflexivity|now cbn; lia].
    unfold D2PI64, F2R. cbn [Fnum Fexp]. change (bpow radix2 (-50)) with (/ 1125899906842624).
    rewrite minus_IZR. lra. }
  rewrite S. unfold rnd32, round, scaled_mantissa, cexp.
  rewrite (mag_unique radix2 (- / 1073741824 + D2PI64) 3).
  2:{ change (bpow radix2 (3 - 1)) with 4. change (bpow radix2 3) with 8. unfold D2PI64. rewrite Rabs_pos_eq; lra. }
  change (f32 3) with (-21)%Z. change (bpow radix2 (- -21)) with 2097152.
  replace (ZnearestE ((- / 1073741824 + D2PI64) * 2097152)) with 13176795%Z.
  - unfold F2R. cbn [Fnum Fexp]. now rewrite D2PI32_alt.
  - symmetry. apply Znearest_imp. unfold D2PI64. apply Rabs_def1; lra.
Qed.
(** applying it twice changes the answer there: (float)2pi reduces to 0 *)
Theorem C04_not_idempotent : palRanorm D2PI32 = 0.
Proof.
  unfold palRanorm, fmodR. replace (D2PI32 / D2PI32) with (IZR 1) by (unfold D2PI32; field).
  rewrite Ztrunc_IZR. rewrite Rltb_false; [|rewrite Rmult_1_l; lra]. ring.
Qed.
Print Assumptions C04_palRanorm.
