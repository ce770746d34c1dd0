(** * Theorems: Julian and Besselian epochs in double precision (C87) *)
From Coq Require Import Reals ZArith Lra Lia Psatz Bool Ascii.
From Flocq Require Import Core.
From Interval Require Import Tactic.
From Verif Require Import Num NumR NumD NumDE Erfa M_Time Props_Dcal.
Local Open Scope R_scope.

Section D.
Variable L : Libm.
(** palEpj, palEpj2d, palEpb, palEpb2d run in double arithmetic *)
Definition depj (d : R) : R := @palEpj R (DA L) d.
Definition depj2d (e : R) : R := @palEpj2d R (DA L) e.
Definition depb (d : R) : R := @palEpb R (DA L) d.
Definition depb2d (e : R) : R := @palEpb2d R (DA L) e.

Tactic Notation "err" constr(x) constr(e) ident(B) := let K := fresh "K" in assert (K := rd_abs_err x e ltac:(lia)); 
  let b := eval compute in (2 ^ e)%Z in let c := eval compute in (2 ^ (54 - e))%Z in
  change (bpow radix2 e) with (IZR b) in K; change (bpow radix2 (e - 54)) with (/ IZR c) in K;
  assert (B := K ltac:(apply Rabs_le; lra)); clear K; apply Rabs_le_inv in B.
Lemma c1 : rd (24000005 / 10) = 2400000.5.
Proof. replace (24000005 / 10) with (IZR 4800001 / 2) by lra. rewrite rd_id by (apply half_fmt; cbn; lia). lra. Qed.
Lemma c2 : rd (24515450 / 10) = 2451545.
Proof. replace (24515450 / 10) with 2451545 by lra. apply (rdZ 2451545). cbn; lia. Qed.
Lemma c3 : rd (2400000.5 - 2451545) = - 51544.5.
Proof. replace (2400000.5 - 2451545) with (IZR (-103089) / 2) by lra. rewrite rd_id by (apply half_fmt; cbn; lia). lra. Qed.
Lemma c4 : rd (36525 / 100) = 365.25.
Proof.
  replace (36525 / 100) with (IZR 1461 * bpow radix2 (-2)) by (change (bpow radix2 (-2)) with (/ 4); lra).
  rewrite rd_id by (apply mk_fmt; [cbn; lia|lia]). change (bpow radix2 (-2)) with (/ 4). lra.
Qed.
Lemma c5 : rd (515445 / 10) = 51544.5.
Proof. replace (515445 / 10) with (IZR 103089 / 2) by lra. rewrite rd_id by (apply half_fmt; cbn; lia). lra. Qed.
Lemma depj_unf : forall d, depj d = rd (2000 + rd (rd (- 51544.5 + d) / 365.25)).
Proof.
  intros d. unfold depj, palEpj, eraEpj, MJD0, DJ00, DJY. dn.
  rewrite c1, c2, c3, (rdZ 2000) by (cbn; lia). repeat f_equal. exact c4.
Qed.
Lemma depj2d_unf : forall e, depj2d e = rd (51544.5 + rd (rd (e - 2000) * 365.25)).
Proof.
  intros d. unfold depj2d, palEpj2d, eraEpj2jd, DJY. cbn [snd]. dn.
  rewrite c5, (rdZ 2000) by (cbn; lia). repeat f_equal. exact c4.
Qed.
Lemma depb_unf : forall d, depb d = rd (1900 + rd (rd (- 51544.5 + rd (d + rd (3652468648 / 100000))) / rd (365242198781 / 1000000000))).
Proof.
  intros d. unfold depb, palEpb, eraEpb, MJD0, DJ00, DTY. dn. rewrite c1, c2, c3, (rdZ 1900) by (cbn; lia). reflexivity.
Qed.
Lemma depb2d_unf : forall e, depb2d e = rd (rd (1501981352 / 100000) + rd (rd (e - 1900) * rd (365242198781 / 1000000000))).
Proof.
  intros d. unfold depb2d, palEpb2d, eraEpb2jd, DTY. cbn [snd]. dn. rewrite (rdZ 1900) by (cbn; lia). reflexivity.
Qed.
(** a rounded quotient by a number near 365 *)
Lemma div_bound : forall x q, 365 <= q -> - 200000 <= x <= 200000 -> - 548 <= x / q <= 548 /\ x = x / q * q.
Proof.
  intros x q Hq Hx. assert (E : x = x / q * q) by (field; lra). split; [|exact E]. set (y := x / q) in *. clearbody y. nra.
Qed.

(** C87: dates from 1600 to 2400.  The epochs are right to 3e-13 year (10 microseconds), the dates to 5e-11 day, and a date
    comes back from its epoch to 1.7e-10 day (15 microseconds: the resolution of an epoch stored in a double) *)
Theorem C87_julian : forall d, is_double d -> Rabs (d - 51544.5) <= 146100 ->
  Rabs (depj d - (2000 + (d - 51544.5) / 365.25)) <= 3e-13 /\
  Rabs (depj2d (depj d) - d) <= 1.7e-10.
Proof.
  intros d _ H. rewrite depj2d_unf, depj_unf. apply Rabs_le_inv in H.
  err (- 51544.5 + d) 18%Z E1. set (a := rd (- 51544.5 + d)) in *. clearbody a.
  err (a / 365.25) 9%Z E2. set (b := rd (a / 365.25)) in *. clearbody b.
  err (2000 + b) 12%Z E3. set (c := rd (2000 + b)) in *. clearbody c.
  split; [apply Rabs_le; lra|].
  err (c - 2000) 9%Z E4. set (f := rd (c - 2000)) in *. clearbody f.
  err (f * 365.25) 18%Z E5. set (g := rd (f * 365.25)) in *. clearbody g.
  err (51544.5 + g) 18%Z E6. set (h := rd (51544.5 + g)) in *. clearbody h. apply Rabs_le. lra.
Qed.
Theorem C87_julian_date : forall e, is_double e -> 1600 <= e <= 2400 ->
  Rabs (depj2d e - (51544.5 + (e - 2000) * 365.25)) <= 5e-11.
Proof.
  intros e _ H. rewrite depj2d_unf.
  err (e - 2000) 9%Z E4. set (f := rd (e - 2000)) in *. clearbody f.
  err (f * 365.25) 18%Z E5. set (g := rd (f * 365.25)) in *. clearbody g.
  err (51544.5 + g) 18%Z E6. set (h := rd (51544.5 + g)) in *. clearbody h. apply Rabs_le. lra.
Qed.
(** Whole years (up to ten thousand million of them) are exact both ways *)
Theorem C87_julian_years : forall n : Z, (Z.abs n <= 10 ^ 10)%Z ->
  depj2d (IZR n) = 51544.5 + (IZR n - 2000) * 365.25 /\ depj (depj2d (IZR n)) = IZR n.
Proof.
  intros n Hn. assert (Q : forall k : Z, (Z.abs k <= 2 ^ 53)%Z -> rd (IZR k / 4) = IZR k / 4).
  { intros k Hk. apply rd_id. replace (IZR k / 4) with (IZR k * bpow radix2 (-2)) by (change (bpow radix2 (-2)) with (/ 4); lra).
    apply mk_fmt; [easy|lia]. }
  assert (E : depj2d (IZR n) = 51544.5 + (IZR n - 2000) * 365.25).
  { rewrite depj2d_unf. rewrite <- minus_IZR, (rdZ (n - 2000)) by lia.
    replace (IZR (n - 2000) * 365.25) with (IZR ((n - 2000) * 1461) / 4) by (rewrite mult_IZR; lra).
    rewrite Q by lia. replace (51544.5 + IZR ((n - 2000) * 1461) / 4) with (IZR (206178 + (n - 2000) * 1461) / 4) by (rewrite plus_IZR; lra).
    apply Q. lia. }
  split; [exact E|]. rewrite E, depj_unf.
  replace (- 51544.5 + (51544.5 + (IZR n - 2000) * 365.25)) with (IZR ((n - 2000) * 1461) / 4) by (rewrite mult_IZR, minus_IZR; lra).
  rewrite Q by lia. replace (IZR ((n - 2000) * 1461) / 4 / 365.25) with (IZR (n - 2000)) by (rewrite mult_IZR; lra).
  rewrite rdZ by lia. rewrite <- plus_IZR. rewrite rdZ by lia. f_equal. lia.
Qed.
Theorem C87_besselian : forall d, is_double d -> Rabs (d - 51544.5) <= 146100 ->
  Rabs (depb d - (1900 + (d - 15019.81352) / 365.242198781)) <= 4.4e-13 /\
  Rabs (depb2d (depb d) - d) <= 2.3e-10.
Proof.
  intros d _ H. rewrite depb2d_unf, depb_unf. apply Rabs_le_inv in H.
  err (3652468648 / 100000) 16%Z A1. set (p := rd (3652468648 / 100000)) in *. clearbody p.
  err (365242198781 / 1000000000) 9%Z A2. set (q := rd (365242198781 / 1000000000)) in *. clearbody q.
  err (1501981352 / 100000) 14%Z A3. set (r := rd (1501981352 / 100000)) in *. clearbody r.
  err (d + p) 18%Z E0. set (o := rd (d + p)) in *. clearbody o.
  err (- 51544.5 + o) 18%Z E1. set (a := rd (- 51544.5 + o)) in *. clearbody a.
  destruct (div_bound a q ltac:(lra) ltac:(lra)) as [B1 B2]. set (y := a / q) in *. clearbody y.
  err y 10%Z E2. set (b := rd y) in *. clearbody b.
  err (1900 + b) 12%Z E3. set (c := rd (1900 + b)) in *. clearbody c.
  (* y against the exact quotient *)
  assert (Y : Rabs (y * (q - 365.242198781)) <= 1.6e-11).
  { assert (Q : Rabs (q - 365.242198781) <= 2.9e-14) by (apply Rabs_le; lra).
    rewrite Rabs_mult. apply Rle_trans with (548 * 2.9e-14); [|lra].
    apply Rmult_le_compat; try apply Rabs_pos; [apply Rabs_le; lra|easy]. }
  apply Rabs_le_inv in Y.
  split; [apply Rabs_le; lra|].
  err (c - 1900) 10%Z E4. set (f := rd (c - 1900)) in *. clearbody f.
  assert (F : Rabs ((f - y) * q) <= 1.3e-10).
  { rewrite Rabs_mult. apply Rle_trans with (3.5e-13 * 366); [|lra].
    apply Rmult_le_compat; try apply Rabs_pos; apply Rabs_le; lra. }
  apply Rabs_le_inv in F.
  err (f * q) 18%Z E5. set (g := rd (f * q)) in *. clearbody g.
  err (r + g) 18%Z E6. set (h := rd (r + g)) in *. clearbody h. apply Rabs_le. lra.
Qed.
End D.
(** Non-vacuity: today, 2024 October 31.5 *)
Example C87_eg : is_double 60614.5 /\ Rabs (60614.5 - 51544.5) <= 146100.
Proof.
  split; [split|].
  - apply FLT_format_generic; [now unfold Prec_gt_0|]. replace 60614.5 with (IZR 121229 / 2) by lra. apply half_fmt. cbn; lia.
  - apply Rlt_le_trans with (bpow radix2 16); [|apply bpow_le; lia]. change (bpow radix2 16) with 65536. rewrite Rabs_pos_eq; lra.
  - rewrite Rabs_pos_eq; lra.
Qed.
