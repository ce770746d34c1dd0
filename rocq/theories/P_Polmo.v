(** * Polar motion, system names, documented frame definitions: supporting proofs *)
From Coq Require Import Reals ZArith Lra Lia Psatz Bool Ascii String List.
From Flocq Require Import Core.Raux.
From Verif Require Import Num NumR Erfa Erfa2 Geom M_Sphere P_Sphere M_Time M_Frames P_Frames P_Eterms P_Fk.
From Interval Require Import Tactic.
Local Open Scope R_scope.

(** ** palPolmo *)
Definition pol_mat (xp yp : R) : mat R := mmul (roty xp) (rotx yp).
Lemma pol_mat_rot : forall x y, rotation (pol_mat x y).
Proof. intros. apply rotation_mmul; [apply roty_rot|apply rotx_rot]. Qed.

Definition pol_out (s n : vec R) : R * R * R :=
  let h := sqrtR (rxysq s) in
  let xt := if Reqb h 0 then 1 else vx s in
  let sel := vy s / h in let cel := xt / h in
  let xnt := (vx n * cel + vy n * sel) * vz s - vz n * h in
  let ynt := - vx n * sel + vy n * cel in
  ((if (negb (Reqb xt 0) || negb (Reqb (vy s) 0))%bool then atan2R (vy s) xt else 0),
   atan2R (vz s) h,
   (if (negb (Reqb xnt 0) || negb (Reqb ynt 0))%bool then atan2R (- ynt) (- xnt) else 0)).
Lemma palPolmo_val : forall l f x y, palPolmo l f x y =
  pol_out (mapp (pol_mat x y) (dir l f)) (mapp (pol_mat x y) (V 0 0 1)).
Proof.
  intros. unfold palPolmo.
  replace (lit (MkDec 0 (-1))) with 0 by (rn; lra).
  replace (lit (MkDec 10 (-1))) with 1 by (rn; lra). rops. cbv zeta.
  assert (E1 : mapp (pol_mat x y) (dir l f) =
    V (cosR l * cosR f * cosR x - (- (sinR l * cosR f) * sinR y + sinR f * cosR y) * sinR x)
      (sinR l * cosR f * cosR y + sinR f * sinR y)
      (cosR l * cosR f * sinR x + (- (sinR l * cosR f) * sinR y + sinR f * cosR y) * cosR x)).
  { unfold pol_mat, roty, rotx, dir. rewrite mapp_mmul. unfold mapp, dot; cbn [vx vy vz m0 m1 m2]. f_equal; ring. }
  assert (E2 : mapp (pol_mat x y) (V 0 0 1) = V (- sinR x * cosR y) (sinR y) (cosR x * cosR y)).
  { unfold pol_mat, roty, rotx. rewrite mapp_mmul. unfold mapp, dot; cbn [vx vy vz m0 m1 m2]. f_equal; ring. }
  rewrite E1, E2. unfold pol_out, rxysq. cbn [vx vy vz]. reflexivity.
Qed.
(** the site vector is not on the axis *)
Lemma pol_out_spec : forall s n, 0 < rxysq s -> unitv s ->
  let '(l, f, z) := pol_out s n in
  - PI < l <= PI /\ - (PI/2) <= f <= PI/2 /\ dir l f = s /\
  exists rho, 0 <= rho /\ dot n (north l f) = rho * cosR z /\ dot n (east l f) = - (rho * sinR z).
Proof.
  intros [x y z] n H U. unfold pol_out. cbn [vx vy vz]. unfold rxysq in *. cbn [vx vy vz] in *.
  set (h := sqrtR (x * x + y * y)).
  assert (Hh : 0 < h) by (apply sqrt_lt_R0; easy).
  assert (Hh2 : h * h = x * x + y * y) by (apply sqrt_sqrt; lra).
  rewrite (Reqb_false h 0) by lra.
  assert (Hor : (negb (Reqb x 0) || negb (Reqb y 0))%bool = true).
  { destruct (Reqb_spec x 0), (Reqb_spec y 0); cbn; try easy. subst. lra. }
  rewrite Hor. destruct (atan2_polar y x) as [Px Py]. fold h in Px, Py.
  destruct (atan2_polar z h) as [Qx Qy].
  assert (R1 : sqrtR (h * h + z * z) = 1).
  { rewrite Hh2. unfold unitv, dot in U; cbn in U. rewrite U. apply sqrt_1. }
  rewrite R1 in Qx, Qy. rewrite Rmult_1_l in Qx, Qy.
  set (L := atan2R y x) in *. set (F := atan2R z h) in *.
  split; [apply atan2_range|]. split; [apply atan2_half; lra|]. split.
  - unfold dir. f_equal; [rewrite <- Qx; lra|rewrite <- Qx; lra|lra].
  - set (xnt := (vx n * (x / h) + vy n * (y / h)) * z - vz n * h).
    set (ynt := - vx n * (y / h) + vy n * (x / h)).
    assert (cx : cosR L = x / h) by (rewrite Px; field; lra).
    assert (sx : sinR L = y / h) by (rewrite Py; field; lra).
    assert (N1 : dot n (north L F) = - xnt).
    { unfold north, dot, xnt; cbn [vx vy vz]. rewrite cx, sx, <- Qx, <- Qy. ring. }
    assert (N2 : dot n (east L F) = ynt).
    { unfold east, dot, ynt; cbn [vx vy vz]. rewrite cx, sx. ring. }
    rewrite N1, N2. exists (sqrtR (- xnt * - xnt + - ynt * - ynt)). split; [apply sqrt_pos|].
    destruct (negb (Reqb xnt 0) || negb (Reqb ynt 0))%bool eqn:E.
    + destruct (atan2_polar (- ynt) (- xnt)). lra.
    + destruct (Reqb_spec xnt 0) as [e1|], (Reqb_spec ynt 0) as [e2|]; cbn in E; try easy.
      rewrite e1, e2. replace (- 0 * - 0 + - 0 * - 0) with 0 by ring. rewrite sqrt_0. lra.
Qed.

(** ** Documented definitions of the frames *)
(** B1950 galactic: P = 192.25, Q = 62.6, R = 33 degrees; Euler angles P, Q, 90-R about z, y, z *)
Definition deg (x : R) : R := x * (PI / 180).
Definition gal1950 : mat R := mmul (rotz (deg 57)) (mmul (roty (deg 62.6)) (rotz (deg 192.25))).
(** supergalactic: pole at L2 = 47.37, B2 = 6.32; origin of longitude at B2 = 0 (L2 = 137.37) *)
Definition supgal_def : mat R :=
  let z := dir (deg 47.37) (deg 6.32) in let x := dir (deg 137.37) 0 in M x (cross z x) z.

Lemma near_intro : forall e a1 a2 a3 a4 a5 a6 a7 a8 a9 b1 b2 b3 b4 b5 b6 b7 b8 b9,
  Rabs (a1-b1) <= e -> Rabs (a2-b2) <= e -> Rabs (a3-b3) <= e ->
  Rabs (a4-b4) <= e -> Rabs (a5-b5) <= e -> Rabs (a6-b6) <= e ->
  Rabs (a7-b7) <= e -> Rabs (a8-b8) <= e -> Rabs (a9-b9) <= e ->
  near e (M (V a1 a2 a3) (V a4 a5 a6) (V a7 a8 a9)) (M (V b1 b2 b3) (V b4 b5 b6) (V b7 b8 b9)).
Proof. intros. unfold near; cbn [vx vy vz m0 m1 m2]. tauto. Qed.
Lemma rotzyz : forall a b c, mmul (rotz c) (mmul (roty b) (rotz a)) =
  M (V (cosR c * cosR b * cosR a - sinR c * sinR a) (cosR c * cosR b * sinR a + sinR c * cosR a) (- (cosR c * sinR b)))
    (V (- (sinR c * cosR b * cosR a) - cosR c * sinR a) (- (sinR c * cosR b * sinR a) + cosR c * cosR a) (sinR c * sinR b))
    (V (sinR b * cosR a) (sinR b * sinR a) (cosR b)).
Proof.
  intros. unfold rotz, roty.
  generalize (sinR a) (cosR a) (sinR b) (cosR b) (sinR c) (cosR c). clear. intros. vnorm. vsplit; ring.
Qed.
Lemma ge50_near : near (1e-12) rmat_ge50 gal1950.
Proof.
  unfold gal1950. rewrite rotzyz. unfold rmat_ge50, deg. rn.
  apply near_intro; interval with (i_prec 100).
Qed.
Lemma galsup_def_near : near (1e-12) rmat_galsup supgal_def.
Proof.
  unfold supgal_def, dir, cross, rmat_galsup, deg. rn. cbn [vx vy vz]. cbv zeta. rewrite cos_0, sin_0.
  apply near_intro; interval with (i_prec 100).
Qed.
(** J2000 galactic: each axis of the B1950 matrix taken through the FK4 to FK5 transformation,
    no E-terms, zero proper motion in FK5 *)
Definition gal2000 : mat R :=
  let f g := unit_of (mapp (fk_K 1950) g) in M (f (m0 gal1950)) (f (m1 gal1950)) (f (m2 gal1950)).
Lemma unit_of_val : forall a b c, unit_of (V a b c) =
  let n := sqrtR (a * a + b * b + c * c) in V (1 / n * a) (1 / n * b) (1 / n * c).
Proof. reflexivity. Qed.
Lemma mapp_val : forall a1 a2 a3 a4 a5 a6 a7 a8 a9 x y z,
  mapp (M (V a1 a2 a3) (V a4 a5 a6) (V a7 a8 a9)) (V x y z) =
  V (a1 * x + a2 * y + a3 * z) (a4 * x + a5 * y + a6 * z) (a7 * x + a8 * y + a9 * z).
Proof. reflexivity. Qed.
Lemma eqgal_def_near : near (4e-11) rmat_eqgal gal2000.
Proof.
  unfold gal2000, gal1950. rewrite rotzyz. cbn [m0 m1 m2].
  unfold fk_K. rewrite fk_w_1950. unfold madd, fk_em_p, fk_em_v, rmat_eqgal, deg. rn.
  unfold vadd, scale; cbn [vx vy vz m0 m1 m2]. cbv zeta.
  rewrite !mapp_val, !unit_of_val. cbv zeta.
  apply near_intro; interval with (i_prec 100).
Qed.
