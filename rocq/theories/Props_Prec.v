(** * Theorems: the precession of palPrec against an independent parameterisation (C21, continued) *)
From Coq Require Import Reals ZArith Lra Lia Psatz Bool.
From Interval Require Import Tactic.
From Verif Require Import Num NumR Erfa Erfa2 Geom M_Sphere P_Sphere M_Time M_Frames P_Frames P_PrecNum.
Local Open Scope R_scope.

(** ** Specification: the equatorial precession angles of Capitaine, Wallace & Chapront (2003), the classical three rotations
    (the code uses the four Fukushima-Williams angles), and the frame bias of J2000.0; arcseconds, [t] in Julian centuries *)
Definition asec : R := PI / 648000.
Definition cap_zeta (t : R) : R := (2.650545 + 2306.083227 * t + 0.2988499 * t^2 + 0.01801828 * t^3 - 0.000005971 * t^4 - 0.0000003173 * t^5) * asec.
Definition cap_z (t : R) : R := (- 2.650545 + 2306.077181 * t + 1.0927348 * t^2 + 0.01826837 * t^3 - 0.000028596 * t^4 - 0.0000002904 * t^5) * asec.
Definition cap_theta (t : R) : R := (2004.191903 * t - 0.4294934 * t^2 - 0.04182264 * t^3 - 0.000007089 * t^4 - 0.0000001274 * t^5) * asec.
(** rotations of the coordinate axes about x, y, z *)
Definition R1 (a : R) : mat R := M (V 1 0 0) (V 0 (cosR a) (sinR a)) (V 0 (- sinR a) (cosR a)).
Definition R2 (a : R) : mat R := M (V (cosR a) 0 (- sinR a)) (V 0 1 0) (V (sinR a) 0 (cosR a)).
Definition R3 (a : R) : mat R := M (V (cosR a) (sinR a) 0) (V (- sinR a) (cosR a) 0) (V 0 0 1).
Definition frame_bias : mat R := mmul (R1 (0.0068192 * asec)) (mmul (R2 (- 0.016617 * asec)) (R3 (- 0.0146 * asec))).
Definition cap_prec (ep : R) : mat R :=
  let t := (ep - 2000) / 100 in
  mmul (R3 (- cap_z t)) (mmul (R2 (cap_theta t)) (mmul (R3 (- cap_zeta t)) frame_bias)).
Definition mclose (a b : mat R) (e : R) : Prop :=
  Rabs (vx (m0 a) - vx (m0 b)) <= e /\ Rabs (vy (m0 a) - vy (m0 b)) <= e /\ Rabs (vz (m0 a) - vz (m0 b)) <= e /\
  Rabs (vx (m1 a) - vx (m1 b)) <= e /\ Rabs (vy (m1 a) - vy (m1 b)) <= e /\ Rabs (vz (m1 a) - vz (m1 b)) <= e /\
  Rabs (vx (m2 a) - vx (m2 b)) <= e /\ Rabs (vy (m2 a) - vy (m2 b)) <= e /\ Rabs (vz (m2 a) - vz (m2 b)) <= e.

Theorem C21_capitaine : forall ep, 1800 <= ep <= 2200 -> mclose (palPrec 2000 ep) (cap_prec ep) 1e-11.
Proof.
  intros ep H. rewrite palPrec_2000. unfold eraPmat06, eraPfw06, eraObl06; rewrite jcent_val; rewrite fw2m_val; cbv zeta.
  unfold cap_prec, frame_bias, R1, R2, R3. rewrite !mmul_val. unfold mclose; cbn [vx vy vz m0 m1 m2].
  unfold cap_z, cap_theta, cap_zeta, asec, DAS2R; rn.
  repeat apply conj; interval with (i_taylor ep, i_bisect ep, i_prec 80, i_degree 9).
Qed.
(** Non-vacuity: over the century after J2000 the precession matrix moves the equinox by more than a degree *)
Example C21_capitaine_eg : Rabs (vy (m0 (palPrec 2000 2100))) > 0.02.
Proof.
  destruct (C21_capitaine 2100) as (_ & H & _); [lra|]. destruct prec_2100 as (_ & K & _).
  revert K. cbv zeta. unfold Rabs. repeat destruct Rcase_abs; lra.
Qed.

(** ** The obliquity of palEcmat: the IAU 1980 expression of Lieske et al. (1977), to 0.1 arcsec for 1800-2200 *)
Definition obliquity_1980 (t : R) : R := (84381.448 - 46.8150 * t - 0.00059 * t^2 + 0.001813 * t^3) * asec.
Theorem C20_obliquity : forall date, Rabs (date - 51544.5) <= 73050 ->
  exists eps, palEcmat date = R1 eps /\ Rabs (eps - obliquity_1980 ((date - 51544.5) / 36525)) <= 0.1 * asec.
Proof.
  intros date H. exists (eraObl06 MJD0 date). split; [rewrite palEcmat_val; reflexivity|].
  unfold eraObl06, jcent, MJD0, DJ00, DAS2R, obliquity_1980. rn. fold asec.
  set (t := (date - 51544.5) / 36525).
  replace ((24000005 / 10 - 24515450 / 10 + date) / (365250 / 10)) with t by (unfold t; lra).
  assert (T : -2 <= t <= 2).
  { assert (Hx : -73050 <= date - 51544.5 <= 73050) by (revert H; unfold Rabs; destruct Rcase_abs; lra).
    unfold t; lra. }
  clearbody t. assert (A : 0 < asec) by (unfold asec; assert (P := PI_RGT_0); lra).
  match goal with |- Rabs (?x * asec - ?y * asec) <= _ => replace (x * asec - y * asec) with ((x - y) * asec) by ring end.
  rewrite Rabs_mult, (Rabs_pos_eq asec) by lra. apply Rmult_le_compat_r; [lra|].
  interval with (i_taylor t, i_bisect t).
Qed.
Example C20_obliquity_eg : Rabs (15019.5 - 51544.5) <= 73050 /\ 0.409 < obliquity_1980 ((15019.5 - 51544.5) / 36525) < 0.41.
Proof. split; [rewrite Rabs_left; lra|]. unfold obliquity_1980, asec. split; interval. Qed.
