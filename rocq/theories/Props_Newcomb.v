(** * Theorem: palEtrms is Newcomb's E-term vector (C24, continued) *)
From Coq Require Import Reals ZArith Lra Lia Psatz Bool.
From Interval Require Import Tactic.
From Verif Require Import Num NumR Erfa Erfa2 Geom M_Sphere P_Sphere M_Time M_Frames P_Frames P_Eterms.
Local Open Scope R_scope.

(** ** Specification: Newcomb's elements of the Sun, [t] in tropical centuries of 36524.22 days from 1900.0
    (Explanatory Supplement to the Ephemeris, 1961, p. 98), angles in arcseconds *)
Definition newcomb_e (t : R) : R := 0.01675104 - 0.0000418 * t - 0.000000126 * t^2.
Definition newcomb_perigee (t : R) : R := (281 * 3600 + 13 * 60 + 15.0) + 6189.03 * t + 1.63 * t^2 + 0.012 * t^3.
Definition newcomb_obliquity (t : R) : R := (23 * 3600 + 27 * 60 + 8.26) - 46.845 * t - 0.0059 * t^2 + 0.00181 * t^3.
(** the E-terms: the constant of aberration (1976: 20.49552 arcsec) times the eccentricity, along the direction of the ecliptic
    90 degrees short of the Sun's perigee, in equatorial axes *)
Definition eterm_vec (ep : R) : vec R :=
  let t := (ep - 1900) / 100 in let s := PI / 648000 in
  let p := newcomb_perigee t * s in let eps := newcomb_obliquity t * s in
  let l := p - PI / 2 in
  scale (20.49552 * s * newcomb_e t) (V (cosR l) (sinR l * cosR eps) (sinR l * sinR eps)).

Lemma cos_l : forall p, cosR (p - PI / 2) = sinR p. Proof. intros. rewrite cos_minus, cos_PI2, sin_PI2. lra. Qed.
Lemma sin_l : forall p, sinR (p - PI / 2) = - cosR p. Proof. intros. rewrite sin_minus, cos_PI2, sin_PI2. lra. Qed.
Lemma norm_comp : forall v e, 0 <= e -> Rabs (vx v) <= e -> Rabs (vy v) <= e -> Rabs (vz v) <= e -> norm v <= 2 * e.
Proof.
  intros [x y z] e He; cbn [vx vy vz]; intros A B C. apply norm_le; [lra|]. unfold dot; cbn [vx vy vz].
  revert A B C. unfold Rabs. repeat destruct Rcase_abs; nra.
Qed.
Theorem C24_newcomb : forall ep, 1800 <= ep <= 2200 -> norm (vsub (palEtrms ep) (eterm_vec ep)) <= 6e-12.
Proof.
  intros ep H. replace 6e-12 with (2 * 3e-12) by lra. apply norm_comp; [lra| | |];
  unfold eterm_vec, palEtrms, newcomb_e, newcomb_perigee, newcomb_obliquity, DAS2R, vsub, scale; rn; cbn [vx vy vz]; rewrite ?cos_l, ?sin_l.
  - interval with (i_taylor ep, i_bisect ep, i_prec 90, i_degree 6).
  - interval with (i_taylor ep, i_bisect ep, i_prec 90, i_degree 6).
  - interval with (i_taylor ep, i_bisect ep, i_prec 90, i_degree 6).
Qed.
(** Non-vacuity: B1950.0 is in range, and the E-terms there are not small compared with the bound *)
Example C24_newcomb_eg : 1800 <= 1950 <= 2200 /\ 1e-7 <= Rabs (vx (eterm_vec 1950)).
Proof. split; [lra|]. unfold eterm_vec, newcomb_e, newcomb_perigee, scale; cbn [vx]. rewrite cos_l. interval. Qed.

(** ** The E-terms of the FK4/FK5 conversions (palFk45z, palFk524, palFk54z): the constants of the conversions, evaluated at
    Besselian epoch [be] as palFk45z does, are the same Newcomb E-terms, referred to the fixed equator of B1950 (palPrebn),
    to 3e-11 for 1900-2000 *)
From Verif Require Import P_PrecNum P_Fk.
Lemma prebn_val : forall a b, exists zeta z theta, palPrebn a b = mmul (rotz (- z)) (mmul (roty theta) (rotz (- zeta))) /\
  let bigt := (a - 1850) / 100 in let t := (b - a) / 100 in let s := t * (PI / 648000) in
  let w := 2303.5548 + (1.39720 + 0.000059 * bigt) * bigt in
  zeta = (w + (0.30242 - 0.000269 * bigt + 0.017996 * t) * t) * s /\
  z = (w + (1.09478 + 0.000387 * bigt + 0.018324 * t) * t) * s /\
  theta = (2005.1125 + (- 0.85294 - 0.000365 * bigt) * bigt + (- 0.42647 - 0.000365 * bigt - 0.041802 * t) * t) * s.
Proof.
  intros a b. unfold palPrebn.
  match goal with |- context [palDeuler _ (- ?a)%num ?b (- ?c)%num] => exists a, c, b end.
  split.
  - unfold palDeuler. cbn [deuler_loop axis_of Ascii.eqb Bool.eqb orb era_rot]. rewrite eraRz_mmul, eraRy_mmul, eraRz_mmul, eraIr_mid, mmul_mid_r. reflexivity.
  - cbv zeta. unfold DAS2R; rn. repeat split; lra.
Qed.
Theorem C55_eterms : forall be, 1900 <= be <= 2000 ->
  norm (vsub (vadd fk_a (scale ((be - 1950) / PMF) fk_ad)) (mapp (palPrebn be 1950) (eterm_vec be))) <= 3e-11.
Proof.
  intros be H. destruct (prebn_val be 1950) as (zeta & z & theta & -> & E1 & E2 & E3).
  replace 3e-11 with (2 * 1.5e-11) by lra. unfold rotz, roty. rewrite !mmul_val.
  rewrite E1, E2, E3. clear E1 E2 E3.
  apply norm_comp; [lra| | |];
    unfold mapp, eterm_vec, newcomb_e, newcomb_perigee, newcomb_obliquity, fk_a, fk_ad, PMF, D2PI, vsub, vadd, scale, dot; rn; cbn [vx vy vz m0 m1 m2]; rewrite ?cos_l, ?sin_l;
    interval with (i_taylor be, i_bisect be, i_prec 80, i_degree 9).
Qed.
(** Non-vacuity: the E-terms drift by more than 30 times the bound over 50 years *)
Example C55_eterms_eg : 9e-10 < norm (scale ((2000 - 1950) / PMF) fk_ad).
Proof.
  apply Rlt_le_trans with (Rabs (vx (scale ((2000 - 1950) / PMF) fk_ad))).
  - unfold scale, fk_ad, PMF, D2PI; rn; cbn [vx]. interval.
  - unfold norm. rewrite <- sqrt_Rsqr_abs. apply sqrt_le_1_alt. unfold Rsqr, dot. nra.
Qed.

(** ** palPrebn: the pre-IAU1976 precession.  Specification: Newcomb's angles as given by Andoyer (Explanatory Supplement to
    the Ephemeris, 1961, p. 30), [T0] and [T] in tropical centuries from 1900.0 to the first epoch and from there to the second.
    The code uses Kinoshita's polynomials counted from 1850. *)
Definition as_rad : R := PI / 648000.
Definition andoyer_zeta (T0 T : R) : R := ((2304.250 + 1.396 * T0) * T + 0.302 * T^2 + 0.018 * T^3) * as_rad.
Definition andoyer_z (T0 T : R) : R := andoyer_zeta T0 T + (0.791 * T^2 + 0.001 * T^3) * as_rad.
Definition andoyer_theta (T0 T : R) : R := ((2004.682 - 0.853 * T0) * T - 0.426 * T^2 - 0.042 * T^3) * as_rad.
Theorem C20_newcomb : forall b0 b1, 1850 <= b0 <= 2050 -> 1850 <= b1 <= 2050 ->
  exists zeta z theta, palPrebn b0 b1 = mmul (rotz (- z)) (mmul (roty theta) (rotz (- zeta))) /\
    let T0 := (b0 - 1900) / 100 in let T := (b1 - b0) / 100 in
    Rabs (zeta - andoyer_zeta T0 T) <= 0.03 * as_rad /\ Rabs (z - andoyer_z T0 T) <= 0.03 * as_rad /\
    Rabs (theta - andoyer_theta T0 T) <= 0.03 * as_rad.
Proof.
  intros b0 b1 H0 H1. destruct (prebn_val b0 b1) as (zeta & z & theta & E & E1 & E2 & E3). exists zeta, z, theta. split; [exact E|].
  cbv zeta in *. fold as_rad in *.
  set (T0 := (b0 - 1900) / 100) in *. set (T := (b1 - b0) / 100) in *.
  replace ((b0 - 1850) / 100) with (T0 + 0.5) in * by (unfold T0; lra).
  assert (B0 : -0.5 <= T0 <= 1.5) by (unfold T0; lra). assert (B1 : -2 <= T <= 2) by (unfold T; lra). clearbody T0 T.
  assert (A : 0 < as_rad) by (unfold as_rad; assert (P := PI_RGT_0); lra).
  assert (K : forall x y c, x = y * as_rad -> Rabs y <= c -> Rabs x <= c * as_rad).
  { intros x y c -> Hc. rewrite Rabs_mult, (Rabs_pos_eq as_rad) by lra. apply Rmult_le_compat_r; lra. }
  unfold andoyer_z, andoyer_zeta, andoyer_theta. rewrite E1, E2, E3.
  repeat split.
  - apply K with (T * (0.00341475 + 0.001259 * T0 + 0.000059 * T0^2 + (0.0002855 - 0.000269 * T0) * T - 0.000004 * T^2)).
    + simpl. lra.
    + interval with (i_prec 60).
  - apply K with (T * (0.00341475 + 0.001259 * T0 + 0.000059 * T0^2 + (0.0019735 + 0.000387 * T0) * T - 0.000676 * T^2)).
    + simpl. lra.
    + interval with (i_prec 60).
  - apply K with (T * (0.00393875 - 0.000305 * T0 - 0.000365 * T0^2 + (-0.0006525 - 0.000365 * T0) * T + 0.000198 * T^2)).
    + simpl. lra.
    + interval with (i_prec 60).
Qed.
