(** * Theorems: reduction of angles in double precision (C81) *)
From Coq Require Import Reals ZArith Lra Lia Psatz Bool.
From Flocq Require Import Core Sterbenz.
From Interval Require Import Tactic.
From Verif Require Import Num NumR NumD Erfa M_Sphere.
Local Open Scope R_scope.

Section D.
Variable L : Libm.
(** palDrange and palDranrm run in double arithmetic *)
Definition drange (x : R) : R := @palDrange R (DA L) x.
Definition dranrm (x : R) : R := @palDranrm R (DA L) x.

Lemma D2PI64_alt : 2 * PI64 = IZR 7074237752028440 * bpow radix2 (-50).
Proof. rewrite PI64_alt. change (-50)%Z with (-51 + 1)%Z. rewrite bpow_plus. change (bpow radix2 1) with 2. ring. Qed.
Lemma D2PI64_fmt : fmt (2 * PI64). Proof. rewrite D2PI64_alt. apply mk_fmt; [easy|lia]. Qed.
Lemma PI64_pos : 3.1 < PI64 < 4. Proof. unfold PI64. lra. Qed.
Lemma fmod_fmt : forall x, fmt x -> fmt (fmodR x (2 * PI64)).
Proof. intros. rewrite D2PI64_alt. apply fmodR_fmt; [easy|lia|lia]. Qed.
Lemma sterb : forall x y, fmt x -> fmt y -> y / 2 <= x <= 2 * y -> rd (x - y) = x - y.
Proof. intros. apply rd_id. apply sterbenz; try easy; typeclasses eauto. Qed.

Lemma drange_unfold : forall x, drange x =
  let r := fmodR x (2 * PI64) in
  if Rltb PI64 r then rd (r - 2 * PI64) else if Rltb r (- PI64) then rd (r + 2 * PI64) else r.
Proof. intros. unfold drange, palDrange. rewrite !D2PI_D. dops. now rewrite !rd_PI. Qed.
Lemma drange_exact : forall x, fmt x ->
  let r := fmodR x (2 * PI64) in
  drange x = if Rltb PI64 r then r - 2 * PI64 else if Rltb r (- PI64) then r + 2 * PI64 else r.
Proof.
  intros x Hx r. rewrite drange_unfold. cbv zeta. fold r.
  assert (F := fmod_fmt x Hx). assert (P := PI64_pos). fold r in F.
  assert (B := fmodR_bound x (2 * PI64) ltac:(lra)). fold r in B. apply Rabs_def2 in B.
  destruct (Rltb_spec PI64 r) as [H|H].
  - apply sterb; [easy|exact D2PI64_fmt|lra].
  - destruct (Rltb_spec r (- PI64)) as [H'|H']; [|easy].
    replace (r + 2 * PI64) with (- (- r - 2 * PI64)) by ring. rewrite rd_opp. f_equal.
    apply sterb; [now apply fmt_opp|exact D2PI64_fmt|lra].
Qed.
(** what fmod removes: a whole number of moduli, none if the argument is already small *)
Lemma fmodR_k : forall x p, 0 < p -> exists k : Z, fmodR x p = x - IZR k * p /\ IZR (Z.abs k) * p <= Rabs x.
Proof.
  intros x p Hp. exists (Ztrunc (x / p)). split; [reflexivity|].
  assert (A : IZR (Z.abs (Ztrunc (x / p))) <= Rabs (x / p)).
  { rewrite <- Ztrunc_abs. rewrite Ztrunc_floor by apply Rabs_pos. apply Zfloor_lb. }
  unfold Rdiv in A at 2. rewrite Rabs_mult, Rabs_inv, (Rabs_pos_eq p) in A by lra.
  apply Rmult_le_compat_r with (r := p) in A; [|lra]. replace (Rabs x * / p * p) with (Rabs x) in A by (field; lra). exact A.
Qed.

(** C81: for EVERY double, palDrange returns a double strictly inside (-pi,pi), which differs from the argument by exactly a
    multiple of the double closest to 2 pi - there is no rounding error at all - and hence by a multiple of 2 pi to
    8e-17 of the argument; an argument already in [-pi,pi] is returned unchanged. *)
Theorem C81_palDrange : forall x, is_double x ->
  fmt (drange x) /\ - PI < drange x < PI /\
  (exists k : Z, drange x = x - IZR k * (2 * PI64) /\ Rabs (drange x - (x - IZR k * (2 * PI))) <= 8e-17 * Rabs x) /\
  (Rabs x < PI -> drange x = x).
Proof.
  intros x HD. assert (Hx := double_fmt x HD). assert (E := drange_exact x Hx). cbv zeta in E.
  assert (F := fmod_fmt x Hx). assert (P := PI64_pos). assert (Q := PI64_close).
  assert (B := fmodR_bound x (2 * PI64) ltac:(lra)). apply Rabs_def2 in B.
  destruct (fmodR_k x (2 * PI64) ltac:(lra)) as (k & Ek & Bk).
  assert (S := fmodR_sign x (2 * PI64) ltac:(lra)).
  assert (ZZ : forall y, - PI64 <= y <= PI64 -> - PI < y < PI) by (intros; lra).
  assert (K : forall j : Z, IZR (Z.abs j) * (2 * PI64) <= 2 * Rabs x ->
     Rabs (x - IZR j * (2 * PI64) - (x - IZR j * (2 * PI))) <= 8e-17 * Rabs x).
  { intros j Hj. replace (x - IZR j * (2 * PI64) - (x - IZR j * (2 * PI))) with (IZR j * (2 * (PI - PI64))) by ring.
    rewrite Rabs_mult, (Rabs_pos_eq (2 * _)) by lra. rewrite <- abs_IZR.
    assert (J : 0 <= IZR (Z.abs j)) by (apply IZR_le; lia).
    assert (U : PI - PI64 <= 4e-17 * PI64) by lra.
    apply Rle_trans with (4e-17 * (IZR (Z.abs j) * (2 * PI64))); [|lra].
    replace (4e-17 * (IZR (Z.abs j) * (2 * PI64))) with (IZR (Z.abs j) * (2 * (4e-17 * PI64))) by ring. apply Rmult_le_compat_l; lra. }
  split; [|split; [|split]].
  (* *)
  - (* a double *) rewrite drange_unfold. cbv zeta. destruct Rltb; [apply fmt_rd|]. destruct Rltb; [apply fmt_rd|easy].
  - apply ZZ. rewrite E. destruct (Rltb_spec PI64 (fmodR x (2 * PI64))); [lra|].
    destruct (Rltb_spec (fmodR x (2 * PI64)) (- PI64)); lra.
  - destruct (Rltb_spec PI64 (fmodR x (2 * PI64))) as [H|H].
    + exists (k + 1)%Z. rewrite E, Ek, plus_IZR. split; [ring|].
      replace (x - IZR k * (2 * PI64) - 2 * PI64) with (x - IZR (k + 1) * (2 * PI64)) by (rewrite plus_IZR; ring).
      rewrite <- plus_IZR. apply K.
      assert (X : 0 <= x). { destruct (Rle_or_lt 0 x); [easy|]. assert (fmodR x (2 * PI64) <= 0) by (apply S; lra). lra. }
      rewrite Rabs_pos_eq in * by easy.
      assert (K0 : (0 <= k)%Z).
      { apply le_IZR. destruct (Z_le_gt_dec 0 k) as [|G]; [now apply IZR_le|].
        assert (J : IZR k <= -1) by (apply (IZR_le k (-1)); lia). exfalso. rewrite Ek in B. nra. }
      rewrite Z.abs_eq in * by lia. rewrite plus_IZR. rewrite Ek in H.
      assert (0 <= IZR k * (2 * PI64)) by (apply Rmult_le_pos; [now apply IZR_le|lra]). lra.
    + destruct (Rltb_spec (fmodR x (2 * PI64)) (- PI64)) as [H'|H'].
      * exists (k - 1)%Z. rewrite E, Ek, minus_IZR. split; [ring|].
        replace (x - IZR k * (2 * PI64) + 2 * PI64) with (x - IZR (k - 1) * (2 * PI64)) by (rewrite minus_IZR; ring).
        rewrite <- minus_IZR. apply K.
        assert (X : x <= 0). { destruct (Rle_or_lt x 0); [easy|]. assert (0 <= fmodR x (2 * PI64)) by (apply S; lra). lra. }
        rewrite Rabs_left1 in * by easy.
        assert (K0 : (k <= 0)%Z).
        { apply le_IZR. destruct (Z_le_gt_dec k 0) as [|G]; [now apply IZR_le|].
          assert (J : 1 <= IZR k) by (apply (IZR_le 1 k); lia). exfalso. rewrite Ek in B. nra. }
        rewrite (Z.abs_neq k) in Bk by lia. rewrite Z.abs_neq by lia. rewrite opp_IZR in *. rewrite minus_IZR. rewrite Ek in H'.
        assert (0 <= - IZR k * (2 * PI64)) by (apply Rmult_le_pos; [rewrite <- opp_IZR; apply IZR_le; lia|lra]). lra.
      * exists k. rewrite E. split; [exact Ek|]. rewrite Ek. apply K. assert (A := Rabs_pos x). lra.
  - intros H. assert (Hx' : Rabs x <= PI64).
    { destruct (Rle_or_lt (Rabs x) PI64) as [|C]; [easy|exfalso].
      assert (G := succ_le_lt radix2 d64 PI64 (Rabs x) PI64_fmt (fmt_abs x Hx) C).
      rewrite succ_eq_pos in G by lra. rewrite ulp_neq_0 in G by lra. unfold cexp in G.
      rewrite (mag_unique radix2 PI64 2) in G.
      - unfold d64, FLT_exp in G. change (bpow radix2 (Z.max (2 - 53) (-1074))) with (/ 2251799813685248) in G. lra.
      - rewrite Rabs_pos_eq by lra. change (bpow radix2 (2 - 1)) with 2. change (bpow radix2 2) with 4. lra. }
    rewrite E. rewrite fmodR_small by lra. apply Rabs_le_inv in Hx'.
    destruct (Rltb_spec PI64 x); [lra|]. destruct (Rltb_spec x (- PI64)); [lra|easy].
Qed.
(** idempotent *)
Theorem C81_palDrange_idempotent : forall x, is_double x -> drange (drange x) = drange x.
Proof.
  intros x H. destruct (C81_palDrange x H) as (F & B & _ & _).
  apply C81_palDrange.
  - split; [now apply FLT_format_generic|]. apply Rlt_trans with 4; [apply Rabs_def1; assert (A := PI_4); lra|].
    change 4 with (bpow radix2 2). apply bpow_lt. lia.
  - now apply Rabs_def1.
Qed.

(** palDranrm: the documented range [0,2pi) holds for every double (unlike the single precision palRanorm, C04), because
    the double closest to 2 pi is below 2 pi.  A nonnegative argument is reduced without rounding error, a negative one
    with a single rounding of at most 2^-51. *)
Theorem C81_palDranrm : forall x, is_double x ->
  fmt (dranrm x) /\ 0 <= dranrm x < 2 * PI /\
  (0 <= x < 2 * PI64 -> dranrm x = x) /\
  exists k : Z, Rabs (dranrm x - (x - IZR k * (2 * PI64))) <= bpow radix2 (-51) /\
    (0 <= x -> dranrm x = x - IZR k * (2 * PI64)) /\
    Rabs (dranrm x - (x - IZR k * (2 * PI))) <= 4e-17 * Rabs x + 7e-16.
Proof.
  intros x HD. assert (Hx := double_fmt x HD). assert (F := fmod_fmt x Hx). assert (P := PI64_pos). assert (Q := PI64_close).
  assert (B := fmodR_bound x (2 * PI64) ltac:(lra)). apply Rabs_def2 in B.
  destruct (fmodR_k x (2 * PI64) ltac:(lra)) as (k & Ek & Bk).
  assert (S := fmodR_sign x (2 * PI64) ltac:(lra)).
  assert (E : dranrm x = if Rltb (fmodR x (2 * PI64)) 0 then rd (fmodR x (2 * PI64) + 2 * PI64) else fmodR x (2 * PI64)).
  { unfold dranrm, palDranrm, eraAnp. rewrite !D2PI_D. dn. now rewrite (rdZ 0) by (cbn; lia). }
  assert (J : IZR (Z.abs k) * (2 * (PI - PI64)) <= 4e-17 * Rabs x).
  { assert (J : 0 <= IZR (Z.abs k)) by (apply IZR_le; lia). assert (U : PI - PI64 <= 4e-17 * PI64) by lra.
    apply Rle_trans with (4e-17 * (IZR (Z.abs k) * (2 * PI64))); [|lra].
    replace (4e-17 * (IZR (Z.abs k) * (2 * PI64))) with (IZR (Z.abs k) * (2 * (4e-17 * PI64))) by ring. apply Rmult_le_compat_l; lra. }
  assert (JJ : Rabs (IZR k * (2 * (PI - PI64))) <= 4e-17 * Rabs x).
  { rewrite Rabs_mult, (Rabs_pos_eq (2 * _)), <- abs_IZR by lra. exact J. }
  set (r := fmodR x (2 * PI64)) in *.
  split; [|split; [|split]].
  - rewrite E. destruct Rltb; [apply fmt_rd|easy].
  - rewrite E. destruct (Rltb_spec r 0) as [H|H]; [|lra].
    assert (0 <= rd (r + 2 * PI64) <= 2 * PI64) by (split; [apply rd_ge; [apply fmt0|lra]|apply rd_le; [apply D2PI64_fmt|lra]]). lra.
  - intros H. assert (Er : r = x) by (unfold r; apply fmodR_small; [lra|rewrite Rabs_pos_eq; lra]).
    rewrite E, Er. destruct (Rltb_spec x 0); lra.
  - destruct (Rltb_spec r 0) as [H|H].
    + exists (k - 1)%Z. rewrite minus_IZR. assert (A : Rabs (rd (r + 2 * PI64) - (r + 2 * PI64)) <= bpow radix2 (-51)).
      { change (-51)%Z with (3 - 54)%Z. apply rd_abs_err; [lia|]. change (bpow radix2 3) with 8. apply Rabs_le. lra. }
      split; [|split].
      * rewrite E, Ek in *. replace (x - (IZR k - 1) * (2 * PI64)) with (x - IZR k * (2 * PI64) + 2 * PI64) by ring. exact A.
      * intros X. exfalso. assert (0 <= r) by now apply S. lra.
      * rewrite E. replace (rd (r + 2 * PI64) - (x - (IZR k - 1) * (2 * PI))) with
          ((rd (r + 2 * PI64) - (r + 2 * PI64)) + IZR k * (2 * (PI - PI64)) - 2 * (PI - PI64)) by (rewrite Ek; ring).
        change (bpow radix2 (-51)) with (/ 2251799813685248) in A.
        revert A JJ. generalize (IZR k * (2 * (PI - PI64))) (rd (r + 2 * PI64) - (r + 2 * PI64)). intros a b A1 A2.
        assert (T := Rabs_triang b a). assert (T2 := Rabs_triang (b + a) (- (2 * (PI - PI64)))).
        rewrite Rabs_Ropp, (Rabs_pos_eq (2 * _)) in T2 by lra. unfold Rminus at 1. lra.
    + exists k. rewrite E, Ek. split; [|split].
      * replace (x - IZR k * (2 * PI64) - (x - IZR k * (2 * PI64))) with 0 by ring. rewrite Rabs_R0. apply bpow_ge_0.
      * easy.
      * replace (x - IZR k * (2 * PI64) - (x - IZR k * (2 * PI))) with (IZR k * (2 * (PI - PI64))) by ring. lra.
Qed.
(** Non-vacuity: 10^22 is a double, and it is reduced by more than 10^21 turns; and a tiny negative angle gives the double
    2 pi, so palDranrm applied twice gives 0 *)
Example C81_eg : is_double (IZR (10 ^ 22)) /\ Rabs (IZR (10 ^ 22) - drange (IZR (10 ^ 22))) > 1e21.
Proof.
  assert (H : is_double (IZR (10 ^ 22))).
  { split.
    - exists (Float radix2 2384185791015625 22); [|reflexivity|cbn; lia]. unfold F2R; cbn [Fnum Fexp].
      change (bpow radix2 22) with 4194304. rewrite <- mult_IZR. reflexivity.
    - rewrite Rabs_pos_eq by (apply IZR_le; lia). apply Rlt_trans with (bpow radix2 80); [|apply bpow_lt; lia].
      change (bpow radix2 80) with (IZR (2 ^ 80)). apply IZR_lt. reflexivity. }
  split; [exact H|]. destruct (C81_palDrange _ H) as (_ & B & _). assert (P := PI_4).
  change (IZR (10 ^ 22)) with 10000000000000000000000 in *. rewrite Rabs_pos_eq; lra.
Qed.
Example C81_not_idempotent : dranrm (- bpow radix2 (-60)) = 2 * PI64 /\ dranrm (2 * PI64) = 0.
Proof.
  assert (P := PI64_pos). assert (K : bpow radix2 (-60) = / 1152921504606846976) by reflexivity.
  unfold dranrm, palDranrm, eraAnp. rewrite !D2PI_D. dn. rewrite (rdZ 0) by (cbn; lia). split.
  - rewrite fmodR_small by (rewrite ?Rabs_Ropp, ?Rabs_pos_eq; rewrite ?K; lra).
    rewrite Rltb_true by (rewrite K; lra). rewrite D2PI64_alt at 2. apply rd_eval; [lia| |].
    + change (bpow radix2 (-50 + 52)) with 4. change (bpow radix2 (-50 + 53)) with 8. rewrite Rabs_pos_eq; rewrite K; lra.
    + rewrite D2PI64_alt, K. change (bpow radix2 (- (-50))) with 1125899906842624.
      change (bpow radix2 (-50)) with (/ 1125899906842624). apply Rabs_def1; lra.
  - replace (fmodR (2 * PI64) (2 * PI64)) with 0.
    + now rewrite Rltb_false by lra.
    + unfold fmodR. replace (2 * PI64 / (2 * PI64)) with (IZR 1) by (field; lra). rewrite Ztrunc_IZR. ring.
Qed.
End D.
