(** * Theorems: sidereal time in double precision (C93) *)
From Coq Require Import Reals ZArith Lra Lia Psatz Bool.
From Flocq Require Import Core.
From Interval Require Import Tactic.
From Verif Require Import Num NumR NumD NumDE Geom Erfa Erfa2 M_Time M_Sphere M_Misc Props_Misc Props_Dcal Props_Dangle Props_Depo.
Local Open Scope R_scope.

Section D.
Variable L : Libm.
(** palGmst and palGmsta run in double arithmetic *)
Definition dgmst (ut1 : R) : R := @palGmst R (DA L) ut1.
Definition dgmsta (date ut : R) : R := @palGmsta R (DA L) date ut.

Definition poly_D (t : R) : R :=
  rd (rd (14506 / 1000000) + rd (rd (rd (4612156534 / 1000000) + rd (rd (rd (13915817 / 10000000) + rd (rd (- rd (44 / 100000000) + rd (rd (- rd (29956 / 1000000000) +
      rd (- rd (368 / 10000000000) * t)) * t)) * t)) * t)) * t)).
Definition das : R := rd (rd PI / rd 648000).
Definition turns_D (x g t : R) : R := rd (rd (rd (fmodR x 1 + g) + rd (7790572732640 / 10000000000000)) + rd (rd (273781191135448 / 100000000000000000) * t)).
Lemma core_unf : forall d x, 2000000 <= d -> x <= 1000000 -> @eraGmst06 R (DA L) d x d x =
  let th := dranrm L (rd (2 * PI64 * turns_D x (fmodR d 1) (rd (x + rd (d - 2451545))))) in
  dranrm L (rd (th + rd (poly_D (rd (rd (rd (d - 2451545) + x) / 36525)) * das))).
Proof.
  intros d x Hd Hx. unfold eraGmst06, eraEra00, jcent, dranrm, palDranrm, poly_D, turns_D, das, DAS2R, DJ00. cbv zeta. rewrite !D2PI_D. dn.
  replace (rd (10 / 10)) with 1 by (replace (10 / 10) with 1 by lra; now rewrite (rdZ 1) by (cbn; lia)).
  rewrite c2. replace (rd (365250 / 10)) with 36525 by (replace (365250 / 10) with 36525 by lra; now rewrite (rdZ 36525) by (cbn; lia)).
  destruct (Rltb_spec d x) as [C|C]; [exfalso; lra|]. reflexivity.
Qed.
(** the literals *)
Lemma das_err : Rabs (das - PI / 648000) <= 1.2e-21.
Proof.
  unfold das. rewrite (rdZ 648000) by (cbn; lia). assert (P : 3.14159 <= PI <= 3.1416) by (split; interval). assert (E1 := eta_small).
  assert (A := rdi PI 3.1416 ltac:(lra)). assert (B := rdi (rd PI / 648000) (4.8482e-6) ltac:(unfold u53 in A; lra)).
  apply Rabs_le. unfold u53 in *. lra.
Qed.
Definition poly (t : R) : R := 0.014506 + (4612.156534 + (1.3915817 + (- 0.00000044 + (- 0.000029956 + (- 0.0000000368) * t) * t) * t) * t) * t.
Lemma poly_prec : forall t, prec_ra t = poly t.
Proof. intros. unfold prec_ra, poly. cbn [Rpow_def.pow]. lra. Qed.
(** one step of Horner's scheme *)
Lemma horner : forall c v v' t t' C B e dt, Rabs c <= C -> Rabs v <= B -> Rabs (v' - v) <= e -> Rabs t <= 1.5 -> Rabs (t' - t) <= dt -> 0 <= e <= 1e-6 -> 0 <= dt <= 1e-6 -> 0 <= C -> 0 <= B ->
  Rabs (rd (rd c + rd (v' * t')) - (c + v * t)) <= 1.51 * e + (B + 1e-6) * dt + u53 * (2.01 * C + 3.1 * B + 1e-5).
Proof.
  intros c v v' t t' C B e dt Hc Hv Hv' Ht Ht' He Hd HC HB. assert (E1 := eta_small). assert (E0 := eta_pos).
  apply Rabs_le_inv in Hc, Hv', Ht, Ht'.
  assert (V' : Rabs v' <= B + 1e-6) by (apply Rabs_le_inv in Hv; apply Rabs_le; lra).
  assert (T' : Rabs t' <= 1.50001) by (apply Rabs_le; lra).
  assert (M : Rabs (v' * t' - v * t) <= 1.5 * e + (B + 1e-6) * dt).
  { replace (v' * t' - v * t) with ((v' - v) * t + v' * (t' - t)) by ring. eapply Rle_trans; [apply Rabs_triang|]. rewrite !Rabs_mult.
    assert (Rabs (v' - v) * Rabs t <= e * 1.5) by (apply Rmult_le_compat; try apply Rabs_pos; apply Rabs_le; lra).
    assert (Rabs v' * Rabs (t' - t) <= (B + 1e-6) * dt) by (apply Rmult_le_compat; try apply Rabs_pos; [easy|apply Rabs_le; lra]). lra. }
  assert (VT : Rabs (v' * t') <= 1.50001 * (B + 1e-6)).
  { rewrite Rabs_mult, Rmult_comm. apply Rmult_le_compat; try apply Rabs_pos; easy. }
  assert (R1 := rde _ _ VT). assert (R2 := rdi c C ltac:(lra)). apply Rabs_le_inv in R1, M, VT.
  assert (S := rdi (rd c + rd (v' * t')) (1.000001 * C + 1.500012 * (B + 1e-6) + 2 * eta) ltac:(unfold u53 in *; lra)).
  apply Rabs_le. unfold u53 in *. lra.
Qed.
Lemma poly_err : forall t t', Rabs t <= 1.5 -> Rabs (t' - t) <= 4e-16 -> Rabs (poly_D t' - poly t) <= 5.1e-12 /\ Rabs (poly t) <= 6930.
Proof.
  intros t t' Ht Hd. assert (E1 := eta_small).
  set (v5 := - 0.0000000368). set (v4 := - 0.000029956 + v5 * t). set (v3 := - 0.00000044 + v4 * t). set (v2 := 1.3915817 + v3 * t). set (v1 := 4612.156534 + v2 * t).
  assert (Ht' := Rabs_le_inv _ _ Ht).
  assert (M : forall c v C B, Rabs c <= C -> Rabs v <= B -> 0 <= B -> Rabs (c + v * t) <= C + 1.5 * B).
  { intros c v C B Hc Hv HB. eapply Rle_trans; [apply Rabs_triang|]. rewrite Rabs_mult. assert (Rabs v * Rabs t <= B * 1.5) by (apply Rmult_le_compat; try apply Rabs_pos; easy). lra. }
  assert (B5 : Rabs v5 <= 1e-7) by (unfold v5; rewrite Rabs_left; lra).
  assert (B4 : Rabs v4 <= 4e-5) by (eapply Rle_trans; [apply (M _ _ 3e-5 1e-7); [rewrite Rabs_left; lra|easy|lra]|lra]).
  assert (B3 : Rabs v3 <= 1e-4) by (eapply Rle_trans; [apply (M _ _ 1e-6 4e-5); [rewrite Rabs_left; lra|easy|lra]|lra]).
  assert (B2 : Rabs v2 <= 1.4) by (eapply Rle_trans; [apply (M _ _ 1.3916 1e-4); [rewrite Rabs_pos_eq; lra|easy|lra]|lra]).
  assert (B1 : Rabs v1 <= 4615) by (eapply Rle_trans; [apply (M _ _ 4612.2 1.4); [rewrite Rabs_pos_eq; lra|easy|lra]|lra]).
  assert (B0 : Rabs (poly t) <= 6930) by (eapply Rle_trans; [apply (M _ _ 0.02 4615); [rewrite Rabs_pos_eq; lra|easy|lra]|lra]).
  split; [|easy]. unfold poly_D.
  assert (L4 : - rd (29956 / 1000000000) = rd (- 0.000029956)) by (rewrite <- rd_opp; f_equal; lra).
  assert (L3 : - rd (44 / 100000000) = rd (- 0.00000044)) by (rewrite <- rd_opp; f_equal; lra).
  assert (L5 : - rd (368 / 10000000000) = rd v5) by (unfold v5; rewrite <- rd_opp; f_equal; lra).
  assert (L2 : rd (13915817 / 10000000) = rd 1.3915817) by (f_equal; lra).
  assert (L1 : rd (4612156534 / 1000000) = rd 4612.156534) by (f_equal; lra).
  assert (L0 : rd (14506 / 1000000) = rd 0.014506) by (f_equal; lra).
  rewrite L5, L4, L3, L2, L1, L0.
  assert (D5 := rde v5 _ B5). unfold u53 in D5.
  assert (D5' : Rabs (rd v5 - v5) <= 1.2e-23) by lra.
  assert (H4 := horner (- 0.000029956) v5 (rd v5) t t' 3e-5 1e-7 1.2e-23 4e-16 ltac:(rewrite Rabs_left; lra) B5 D5' Ht Hd ltac:(lra) ltac:(lra) ltac:(lra) ltac:(lra)).
  fold v4 in H4. set (w4 := rd (rd (- 0.000029956) + rd (rd v5 * t'))) in *.
  assert (H4' : Rabs (w4 - v4) <= 1e-20) by (unfold u53 in H4; lra).
  assert (H3 := horner (- 0.00000044) v4 w4 t t' 1e-6 4e-5 1e-20 4e-16 ltac:(rewrite Rabs_left; lra) B4 H4' Ht Hd ltac:(lra) ltac:(lra) ltac:(lra) ltac:(lra)).
  fold v3 in H3. set (w3 := rd (rd (- 0.00000044) + rd (w4 * t'))) in *.
  assert (H3' : Rabs (w3 - v3) <= 1e-19) by (unfold u53 in H3; lra).
  assert (H2 := horner 1.3915817 v3 w3 t t' 1.4 1e-4 1e-19 4e-16 ltac:(rewrite Rabs_pos_eq; lra) B3 H3' Ht Hd ltac:(lra) ltac:(lra) ltac:(lra) ltac:(lra)).
  fold v2 in H2. set (w2 := rd (rd 1.3915817 + rd (w3 * t'))) in *.
  assert (H2' : Rabs (w2 - v2) <= 3.2e-16) by (unfold u53 in H2; lra).
  assert (H1 := horner 4612.156534 v2 w2 t t' 4613 1.4 3.2e-16 4e-16 ltac:(rewrite Rabs_pos_eq; lra) B2 H2' Ht Hd ltac:(lra) ltac:(lra) ltac:(lra) ltac:(lra)).
  fold v1 in H1. set (w1 := rd (rd 4612.156534 + rd (w2 * t'))) in *.
  assert (H1' : Rabs (w1 - v1) <= 1.04e-12) by (unfold u53 in H1; lra).
  assert (H0 := horner 0.014506 v1 w1 t t' 0.02 4615 1.04e-12 4e-16 ltac:(rewrite Rabs_pos_eq; lra) B1 H1' Ht Hd ltac:(lra) ltac:(lra) ltac:(lra) ltac:(lra)).
  change (0.014506 + v1 * t) with (poly t) in H0. eapply Rle_trans; [exact H0|]. unfold u53. lra.
Qed.
(** turns: the Earth rotation angle before reduction *)
Definition turns (f t : R) : R := f + 0.7790572732640 + 0.00273781191135448 * t.
Lemma turns_err : forall x t t' g, 0 <= x -> 0 <= g <= 0.5 -> Rabs t <= 54787.5 -> Rabs (t' - t) <= 7.3e-12 ->
  Rabs (turns_D x g t' - turns (fmodR x 1 + g) t) <= 8.2e-14 /\ Rabs (turns (fmodR x 1 + g) t) <= 153.
Proof.
  intros x t t' g Hx Hg Ht Hd. assert (E1 := eta_small). assert (B := fmod_bound x 1 ltac:(lra)). assert (P := fmod_nonneg x 1 ltac:(lra) Hx).
  apply Rabs_def2 in B. unfold turns_D, turns. set (f := fmodR x 1) in *. clearbody f. apply Rabs_le_inv in Ht, Hd.
  replace (7790572732640 / 10000000000000) with 0.7790572732640 by lra. replace (273781191135448 / 100000000000000000) with 0.00273781191135448 by lra.
  assert (A1 := rdi (f + g) 1.5 ltac:(lra)). assert (A2 := rdi 0.7790572732640 0.78 ltac:(lra)). assert (A3 := rdi 0.00273781191135448 0.0027379 ltac:(lra)).
  unfold u53 in *. set (c := rd 0.00273781191135448) in *. assert (C1 : - 3.1e-19 <= c - 0.00273781191135448 <= 3.1e-19) by lra.
  assert (A4 := rdi (rd (f + g) + rd 0.7790572732640) 2.28 ltac:(lra)). unfold u53 in A4.
  assert (M : Rabs (c * t' - 0.00273781191135448 * t) <= 3.7e-14).
  { replace (c * t' - 0.00273781191135448 * t) with ((c - 0.00273781191135448) * t' + 0.00273781191135448 * (t' - t)) by ring.
    eapply Rle_trans; [apply Rabs_triang|]. rewrite !Rabs_mult.
    assert (Rabs (c - 0.00273781191135448) * Rabs t' <= 3.1e-19 * 54788) by (apply Rmult_le_compat; try apply Rabs_pos; apply Rabs_le; lra).
    assert (Rabs 0.00273781191135448 * Rabs (t' - t) <= 0.00274 * 7.3e-12) by (apply Rmult_le_compat; try apply Rabs_pos; apply Rabs_le; lra). lra. }
  apply Rabs_le_inv in M. assert (A5 := rdi (c * t') 150.01 ltac:(lra)). unfold u53 in A5.
  set (s := rd (rd (f + g) + rd 0.7790572732640)) in *. set (m := rd (c * t')) in *.
  assert (A6 := rdi (s + m) 152.4 ltac:(lra)). unfold u53 in A6.
  split; apply Rabs_le; lra.
Qed.
Lemma core_err : forall d x k, (0 <= k <= 10000000)%Z -> d = IZR k + 0.5 -> 2000000 <= d -> 0 <= x <= 1000000 -> fmt x -> Rabs (x + d - 2451545) <= 54787.5 ->
  let r := @eraGmst06 R (DA L) d x d x in
  0 <= r < 2 * PI /\ exists j : Z, Rabs (r - (earth_rotation (x + d - 2451545) + prec_ra ((x + d - 2451545) / 36525) * arcsec + IZR j * (2 * PI))) <= 7.2e-13.
Proof.
  intros d x k Hk Ek Hd Hx Fx Ht r. unfold r. clear r. rewrite core_unf by lra. cbv zeta.
  assert (E1 := eta_small). assert (E0 := eta_pos). assert (PB : 3.14159 <= PI <= 3.1416) by (split; interval). assert (Q := PI64_close).
  assert (X0 : rd (d - 2451545) = d - 2451545).
  { apply rd_id. replace (d - 2451545) with (IZR (2 * k - 4903089) / 2) by (rewrite minus_IZR, mult_IZR; lra). apply half_fmt. lia. }
  rewrite X0. rewrite (Rplus_comm (d - 2451545) x).
  set (t := x + d - 2451545) in *. replace (x + (d - 2451545)) with t by (unfold t; ring).
  assert (HT := rde t 54787.5 Ht). unfold u53 in HT. set (t' := rd t) in *.
  assert (HT' : Rabs (t' - t) <= 6.1e-12) by lra. assert (Ht' := Rabs_le_inv _ _ Ht).
  assert (HT2 := Rabs_le_inv _ _ HT').
  assert (G : fmodR d 1 = 0.5).
  { destruct (Props_Misc.fmod1 d) as [m Em]. assert (B := fmod_bound d 1 ltac:(lra)). assert (P := fmod_nonneg d 1 ltac:(lra) ltac:(lra)). apply Rabs_def2 in B.
    rewrite Em, Ek in *. assert (Z1 : - 1 < IZR (k + m) < 1) by (rewrite plus_IZR; lra). destruct Z1 as [Z1 Z2]. apply lt_IZR in Z1, Z2.
    assert (Z3 : (k + m = 0)%Z) by lia. apply (f_equal IZR) in Z3. rewrite plus_IZR in Z3. lra. }
  rewrite G. destruct (Props_Misc.fmod1 x) as [k1 Ek1].
  destruct (turns_err x t t' 0.5 ltac:(lra) ltac:(lra) Ht ltac:(lra)) as [K1 K2].
  set (T' := turns_D x 0.5 t') in *. set (T := turns (fmodR x 1 + 0.5) t) in *.
  apply Rabs_le_inv in K1, K2.
  (* the angle *)
  assert (W0 : Rabs (2 * PI64 * T' - 2 * PI * T) <= 5.6e-13).
  { replace (2 * PI64 * T' - 2 * PI * T) with (2 * PI64 * (T' - T) + 2 * (PI64 - PI) * T) by ring. eapply Rle_trans; [apply Rabs_triang|]. rewrite !Rabs_mult.
    assert (Rabs 2 * Rabs PI64 * Rabs (T' - T) <= 2 * 3.1416 * 8.2e-14) by (repeat apply Rmult_le_compat; try apply Rmult_le_pos; try apply Rabs_pos; apply Rabs_le; lra).
    assert (Rabs 2 * Rabs (PI64 - PI) * Rabs T <= 2 * 1.3e-16 * 153) by (repeat apply Rmult_le_compat; try apply Rmult_le_pos; try apply Rabs_pos; apply Rabs_le; lra). lra. }
  apply Rabs_le_inv in W0.
  assert (PT : Rabs (2 * PI * T) <= 961.4).
  { rewrite !Rabs_mult. replace 961.4 with (2 * 3.1416 * (961.4 / 6.2832)) by lra. repeat apply Rmult_le_compat; try apply Rmult_le_pos; try apply Rabs_pos; apply Rabs_le; lra. }
  apply Rabs_le_inv in PT.
  assert (W1 := rdi (2 * PI64 * T') 961.5 ltac:(lra)). unfold u53 in W1. set (w := rd (2 * PI64 * T')) in *.
  assert (Bw : Rabs w <= 962) by (apply Rabs_le; lra).
  assert (DB : forall z, fmt z -> Rabs z <= 1000 -> is_double z).
  { intros z Fz Hz. split; [apply FLT_format_generic; [now unfold Prec_gt_0|easy]|]. eapply Rle_lt_trans; [exact Hz|]. apply Rlt_le_trans with (bpow radix2 10); [cbn; lra|apply bpow_le; lia]. }
  destruct (C81_palDranrm L w (DB w ltac:(apply fmt_rd) ltac:(lra))) as (_ & R1 & _ & j1 & _ & _ & J1). apply Rabs_le_inv in J1.
  set (th := dranrm L w) in *.
  (* the polynomial *)
  assert (C0 : Rabs (t / 36525) <= 1.5) by (apply Rabs_le; lra).
  assert (C1 := rdi (t' / 36525) 1.50001 ltac:(lra)). unfold u53 in C1.
  destruct (poly_err (t / 36525) (rd (t' / 36525)) C0 ltac:(apply Rabs_le; lra)) as [P1 P2].
  set (p := poly_D (rd (t' / 36525))) in *. rewrite poly_prec. set (q := poly (t / 36525)) in *. apply Rabs_le_inv in P1, P2.
  assert (A := das_err). change (PI / 648000) with arcsec in A. assert (AB : 4.84e-6 <= arcsec <= 4.8482e-6) by (unfold arcsec; lra).
  apply Rabs_le_inv in A.
  assert (S0 : Rabs (p * das - q * arcsec) <= 1e-16).
  { replace (p * das - q * arcsec) with ((p - q) * das + q * (das - arcsec)) by ring. eapply Rle_trans; [apply Rabs_triang|]. rewrite !Rabs_mult.
    assert (Rabs (p - q) * Rabs das <= 5.1e-12 * 4.85e-6) by (apply Rmult_le_compat; try apply Rabs_pos; apply Rabs_le; lra).
    assert (Rabs q * Rabs (das - arcsec) <= 6930 * 1.2e-21) by (apply Rmult_le_compat; try apply Rabs_pos; apply Rabs_le; lra). lra. }
  apply Rabs_le_inv in S0.
  assert (QA : Rabs (q * arcsec) <= 0.0337).
  { rewrite Rabs_mult. replace 0.0337 with (6930 * (0.0337 / 6930)) by lra. apply Rmult_le_compat; try apply Rabs_pos; apply Rabs_le; lra. }
  apply Rabs_le_inv in QA.
  assert (S1 := rdi (p * das) 0.034 ltac:(lra)). unfold u53 in S1. set (pr := rd (p * das)) in *.
  assert (S2 := rdi (th + pr) 6.4 ltac:(lra)). unfold u53 in S2. set (y := rd (th + pr)) in *.
  assert (By : Rabs y <= 6.5) by (apply Rabs_le; lra).
  destruct (C81_palDranrm L y (DB y ltac:(apply fmt_rd) ltac:(lra))) as (_ & R2 & _ & j2 & _ & _ & J2). apply Rabs_le_inv in J2.
  split; [exact R2|]. exists (k1 - k + 2451545 - j1 - j2)%Z.
  set (r := dranrm L y) in *.
  assert (ER : earth_rotation t + IZR (k1 - k + 2451545 - j1 - j2) * (2 * PI) = 2 * PI * T - IZR j1 * (2 * PI) - IZR j2 * (2 * PI)).
  { rewrite !minus_IZR, plus_IZR, minus_IZR. unfold T, turns, earth_rotation, t. rewrite Ek1, Ek. lra. }
  replace (earth_rotation t + q * arcsec + IZR (k1 - k + 2451545 - j1 - j2) * (2 * PI)) with (2 * PI * T - IZR j1 * (2 * PI) - IZR j2 * (2 * PI) + q * arcsec) by lra.
  set (m1 := IZR j1 * (2 * PI)) in *. set (m2 := IZR j2 * (2 * PI)) in *. set (PT' := 2 * PI * T) in *. set (QA' := q * arcsec) in *.
  clearbody r m1 m2 PT' QA' y pr th w. clear - J1 J2 S2 S1 S0 W1 W0 By Bw E1 E0. apply Rabs_le. split; lra.
Qed.
(** C93: for every double UT1 date between MJD 0 and 106332 (1858 to 2150) the sidereal time is in [0,2pi) and within 7.2e-13
    radian (10 nanoseconds of time) of the exact value *)
Theorem C93_palGmst : forall ut1, is_double ut1 -> 0 <= ut1 <= 106332 ->
  0 <= dgmst ut1 < 2 * PI /\
  exists k : Z, Rabs (dgmst ut1 - (earth_rotation (ut1 - 51544.5) + prec_ra ((ut1 - 51544.5) / 36525) * arcsec + IZR k * (2 * PI))) <= 7.2e-13.
Proof.
  intros ut1 F H. apply double_fmt in F.
  assert (K := core_err 2400000.5 ut1 2400000 ltac:(lia) ltac:(lra) ltac:(lra) ltac:(lra) F ltac:(apply Rabs_le; lra)). cbv zeta in K.
  replace (ut1 + 2400000.5 - 2451545) with (ut1 - 51544.5) in K by lra.
  replace (dgmst ut1) with (@eraGmst06 R (DA L) 2400000.5 ut1 2400000.5 ut1); [exact K|].
  unfold dgmst, palGmst, MJD0. dn. now rewrite c1.
Qed.
(** C93: with the whole days and the fraction in two arguments *)
Theorem C93_palGmsta : forall n ut, (0 <= n <= 106331)%Z -> is_double ut -> 0 <= ut <= 1 ->
  0 <= dgmsta (IZR n) ut < 2 * PI /\
  exists k : Z, Rabs (dgmsta (IZR n) ut - (earth_rotation (IZR n + ut - 51544.5) + prec_ra ((IZR n + ut - 51544.5) / 36525) * arcsec + IZR k * (2 * PI))) <= 7.2e-13.
Proof.
  intros n ut Hn F H. apply double_fmt in F. assert (N : 0 <= IZR n <= 106331) by (split; [apply (IZR_le 0)|apply (IZR_le n 106331)]; lia).
  assert (K := core_err (IZR n + 2400000.5) ut (n + 2400000) ltac:(lia) ltac:(rewrite plus_IZR; lra) ltac:(lra) ltac:(lra) F ltac:(apply Rabs_le; lra)). cbv zeta in K.
  replace (ut + (IZR n + 2400000.5) - 2451545) with (IZR n + ut - 51544.5) in K by lra.
  replace (dgmsta (IZR n) ut) with (@eraGmst06 R (DA L) (IZR n + 2400000.5) ut (IZR n + 2400000.5) ut); [exact K|].
  unfold dgmsta, palGmsta, MJD0. dn. rewrite c1. 
  replace (rd (IZR n + 2400000.5)) with (IZR n + 2400000.5); [reflexivity|]. symmetry. apply rd_id.
  replace (IZR n + 2400000.5) with (IZR (2 * n + 4800001) / 2) by (rewrite plus_IZR, mult_IZR; lra). apply half_fmt. lia.
Qed.
(** C93: hence for a date given either way the answers agree to 1.5e-12 when the sum is exact, and with palGmst in exact arithmetic *)
Theorem C93_exact : forall ut1, is_double ut1 -> 0 <= ut1 <= 106332 -> exists k : Z, Rabs (dgmst ut1 - (palGmst ut1 + IZR k * (2 * PI))) <= 7.2e-13.
Proof.
  intros ut1 F H. destruct (C93_palGmst ut1 F H) as (_ & k & K). destruct (C73_palGmst ut1) as (_ & j & E). exists (k - j)%Z. rewrite E, minus_IZR.
  match goal with |- Rabs ?a <= _ => match type of K with Rabs ?b <= _ => replace a with b by ring end end. exact K.
Qed.
End D.
(** Non-vacuity *)
Example C93_eg : is_double 53736 /\ forall L, exists k : Z, Rabs (dgmst L 53736 - (palGmst 53736 + IZR k * (2 * PI))) <= 7.2e-13.
Proof.
  assert (D : is_double 53736).
  { split; [apply FLT_format_generic; [now unfold Prec_gt_0|apply (fmtZ 53736); cbn; lia]|]. rewrite Rabs_pos_eq by lra. apply Rlt_le_trans with (bpow radix2 16); [cbn; lra|apply bpow_le; lia]. }
  split; [exact D|]. intros L. apply C93_exact; [exact D|lra].
Qed.
