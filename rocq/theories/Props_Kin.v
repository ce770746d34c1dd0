(** * Theorems: motion of the observer and of the Sun (C56, C57) *)
From Coq Require Import Reals ZArith Lra Lia Psatz Bool List.
From Flocq Require Import Core.Raux.
From Coquelicot Require Import Coquelicot.
From Interval Require Import Tactic.
From Verif Require Import Num NumR Erfa Geom M_Sphere P_Sphere M_Frames P_Frames M_Place M_Kin Props_Const Props_Sphere Props_Frames.
Local Open Scope R_scope.

Ltac vv := unfold dot, vsub, vadd, scale; cbn [vx vy vz].
Lemma palGeoc_val : forall p h, exists r z, 
  fst (palGeoc p h) * AU_m = r /\ snd (palGeoc p h) * AU_m = z /\
  forall st, palPvobs p h st = PV (V (r / 149597870700 * cosR st) (r / 149597870700 * sinR st) (z / 149597870700))
    (V (- (7.2921150e-5 * (r / 149597870700)) * sinR st) (7.2921150e-5 * (r / 149597870700) * cosR st) 0).
Proof.
  intros p h. exists (vx (snd (eraGd2gc_wgs84 0 p h))), (vz (snd (eraGd2gc_wgs84 0 p h))).
  unfold palGeoc, palPvobs, ERFA_DAU, SR, AU_m. rn. rewrite cos_0.
  replace (0 / 10) with 0 by lra. set (g := snd (eraGd2gc_wgs84 _ p h)). cbn [fst snd].
  split; [field|]. split; [field|]. intros st. f_equal; f_equal; try field; lra.
Qed.

(** ** C56 *)
(** time derivative of a moving point *)
Definition vderive (f : R -> vec R) (t : R) (d : vec R) : Prop :=
  is_derive (fun t => vx (f t)) t (vx d) /\ is_derive (fun t => vy (f t)) t (vy d) /\
  is_derive (fun t => vz (f t)) t (vz d).
(** the Earth's sidereal rotation rate, radians per SI second *)
Definition sid_rate : R := 7.2921150e-5.
(** the observer of (geodetic) latitude p and height h, at sidereal time st0 + rate * t at time t seconds:
    the velocity is the derivative of the position *)
Theorem C56_velocity : forall p h st0 t,
  vderive (fun t => pvp (palPvobs p h (st0 + sid_rate * t))) t (pvv (palPvobs p h (st0 + sid_rate * t))).
Proof.
  intros p h st0 t. destruct (palGeoc_val p h) as (r & z & _ & _ & E).
  unfold vderive, sid_rate. rewrite E. cbn [pvv vx vy vz].
  split; [|split].
  - apply is_derive_ext with (fun t => r / 149597870700 * cosR (st0 + 7.2921150e-5 * t)).
    { intros s. now rewrite E. }
    auto_derive; [exact I|]. field.
  - apply is_derive_ext with (fun t => r / 149597870700 * sinR (st0 + 7.2921150e-5 * t)).
    { intros s. now rewrite E. }
    auto_derive; [exact I|]. field.
  - apply is_derive_ext with (fun t => z / 149597870700).
    { intros s. now rewrite E. }
    auto_derive; [exact I|]. field.
Qed.
(** the position is at hour angle zero of the given sidereal time, at height h above the WGS84 ellipsoid *)
Theorem C56_position : forall p h st, let q := pvp (palPvobs p h st) in
  exists r, vx q = r * cosR st /\ vy q = r * sinR st /\
    above_ellipsoid 6378137 (6378137 * (1 - 1 / (298257223563 / 1000000000))) p h
      (r * 149597870700) (vz q * 149597870700).
Proof.
  intros p h st q. destruct (palGeoc_val p h) as (r & z & Er & Ez & E). unfold q. rewrite E. cbn [pvp vx vy vz].
  exists (r / 149597870700). split; [easy|]. split; [easy|].
  replace (r / 149597870700 * 149597870700) with r by field.
  replace (z / 149597870700 * 149597870700) with z by field.
  rewrite <- Er, <- Ez. apply C64_palGeoc.
Qed.
(** the velocity is due East: no z component, perpendicular to the position, w x r *)
Theorem C56_direction : forall p h st, let q := pvp (palPvobs p h st) in let v := pvv (palPvobs p h st) in
  vz v = 0 /\ dot q v = 0 /\ v = cross (V 0 0 sid_rate) q /\
  norm v = sid_rate * sqrtR (vx q * vx q + vy q * vy q).
Proof.
  intros p h st q v. destruct (palGeoc_val p h) as (r & z & _ & _ & E). unfold q, v. rewrite E. cbn [pvp pvv vx vy vz].
  split; [easy|]. split; [vv; field|]. split.
  { unfold cross, sid_rate; cbn [vx vy vz]. f_equal; field. }
  unfold norm, sid_rate. vv.
  set (rr := r / 149597870700). set (s := sinR st). set (c := cosR st).
  replace (- (7.2921150e-5 * rr) * s * (- (7.2921150e-5 * rr) * s) + 7.2921150e-5 * rr * c * (7.2921150e-5 * rr * c) + 0 * 0)
    with (7.2921150e-5 * 7.2921150e-5 * (rr * c * (rr * c) + rr * s * (rr * s))) by field.
  rewrite sqrt_mult by nra. now rewrite sqrt_square by lra.
Qed.
(** consistency with palGeoc (which uses a slightly different astronomical unit: 149597870 km) *)
Theorem C56_palGeoc : forall p h st, let q := pvp (palPvobs p h st) in
  149597870700 * vx q = 149597870000 * fst (palGeoc p h) * cosR st /\
  149597870700 * vy q = 149597870000 * fst (palGeoc p h) * sinR st /\
  149597870700 * vz q = 149597870000 * snd (palGeoc p h).
Proof.
  intros p h st q. destruct (palGeoc_val p h) as (r & z & Er & Ez & E). unfold q. rewrite E. cbn [pvp vx vy vz].
  unfold AU_m in *. replace (149597870000 * fst (palGeoc p h)) with r by (rewrite <- Er; ring).
  replace (149597870000 * snd (palGeoc p h)) with z by (rewrite <- Ez; ring). repeat split; field.
Qed.
(** an observer on the equator at the meridian of sidereal time zero moves at 0.4651 km/s along +y *)
Example C56_witness : vx (pvv (palPvobs 0 0 0)) = 0 /\
  0.46510 <= vy (pvv (palPvobs 0 0 0)) * 149597870.7 <= 0.46511.
Proof.
  unfold palPvobs, eraGd2gc_wgs84, SR, ERFA_DAU. rn. replace (0/10) with 0 by lra. rewrite sin_0, cos_0.
  rewrite Rltb_true by lra. cbn [snd vx vy vz pvv].
  split; [ring|].
  replace (1 * 1 + (1 - 1 / (298257223563 / 1000000000)) * (1 - 1 / (298257223563 / 1000000000)) * 0 * 0) with 1 by ring.
  rewrite sqrt_1. lra.
Qed.

(** ** C57 *)
(** Specification: the component of a velocity along the direction (a, b) *)
Definition component (v : vec R) (a b : R) : R := dot v (dir a b).
Definition hms (h m s : R) : R := (h + m / 60 + s / 3600) * (PI / 12).
Definition dms (d m s : R) : R := (d + m / 60 + s / 3600) * (PI / 180).
Lemma rv_val : forall x y z a b, eraPdp (V x y z) (eraS2c a b) = component (V x y z) a b.
Proof. intros. rewrite eraS2c_dir. reflexivity. Qed.
Definition va_galc : vec R := V (-108.70408) 97.86251 (-164.33610).
Definition va_lg : vec R := V (-148.23284) 133.44888 (-224.09467).
Definition va_lsrd : vec R := V 0.63823 14.58542 (-7.80116).
Definition va_lsrk : vec R := V (-0.29) 17.31726 (-10.00141).
Lemma galc_val : forall r d, palRvgalc r d = component va_galc r d.
Proof. intros. unfold palRvgalc. rewrite rv_val. unfold va_galc. rn. do 2 f_equal; lra. Qed.
Lemma lg_val : forall r d, palRvlg r d = component va_lg r d.
Proof. intros. unfold palRvlg. rewrite rv_val. unfold va_lg. rn. do 2 f_equal; lra. Qed.
Lemma lsrd_val : forall r d, palRvlsrd r d = component va_lsrd r d.
Proof. intros. unfold palRvlsrd. rewrite rv_val. unfold va_lsrd. rn. do 2 f_equal; lra. Qed.
Lemma lsrk_val : forall r d, palRvlsrk r d = component va_lsrk r d.
Proof. intros. unfold palRvlsrk. rewrite rv_val. unfold va_lsrk. rn. do 2 f_equal; lra. Qed.
Lemma component_bound : forall v a b, Rabs (component v a b) <= norm v.
Proof.
  intros. unfold component. eapply Rle_trans; [apply cauchy_abs|]. rewrite (norm_unit (dir a b)) by apply dir_unit. lra.
Qed.
Lemma component_near : forall v s w a b e, 0 <= e ->
  dot (vadd v (scale s w)) (vadd v (scale s w)) <= e * e ->
  Rabs (component v a b + s * component w a b) <= e.
Proof.
  intros v s w a b e He H.
  replace (component v a b + s * component w a b) with (component (vadd v (scale s w)) a b)
    by (unfold component; generalize (dir a b); intros; vring).
  eapply Rle_trans; [apply component_bound|]. unfold norm.
  apply Rsqr_incr_0_var; [|lra]. rewrite Rsqr_sqrt by apply dot_pos. exact H.
Qed.
Lemma component_dsep : forall a b ra da, component (dir ra da) a b = cosR (palDsep a b ra da).
Proof.
  intros. unfold component. destruct C06_separation as (_ & _ & _ & _ & _ & H).
  rewrite H. apply dot_comm.
Qed.
(** Positive when receding: each is minus the documented speed times the cosine of the angle from
    the documented apex, to the precision of the printed coefficients. *)
Theorem C57_apex : forall r d,
  Rabs (palRvgalc r d + 220 * cosR (palDsep r d (hms 21 12 1.1) (dms 48 19 47))) <= 6e-4 /\
  Rabs (palRvlg r d + 300 * cosR (palDsep r d (hms 21 12 1.1) (dms 48 19 47))) <= 8e-4 /\
  Rabs (palRvlsrd r d + sqrtR (9*9 + 12*12 + 7*7) * cosR (palDsep r d (hms 17 49 58.7) (dms 28 7 4))) <= 4e-5.
Proof.
  intros r d. rewrite <- !component_dsep, galc_val, lg_val, lsrd_val.
  unfold va_galc, va_lg, va_lsrd, hms, dms.
  split; [|split]; (apply component_near; [lra|]); unfold dir, dot, vadd, scale; cbn [vx vy vz]; interval with (i_prec 80).
Qed.
(** The same in galactic terms: the LSR moves towards l = 90 deg, b = 0 at 220 km/s; the Sun with respect to
    the dynamical LSR with galactic components (+9,+12,+7) km/s. *)
Theorem C57_galactic : forall r d, let '(l, b) := palEqgal r d in
  Rabs (palRvgalc r d + component (V 0 220 0) l b) <= 1e-5 /\
  Rabs (palRvlg r d + component (V 0 300 0) l b) <= 1e-5 /\
  Rabs (palRvlsrd r d + component (V 9 12 7) l b) <= 1e-5.
Proof.
  intros r d. rewrite galc_val, lg_val, lsrd_val. rewrite palEqgal_val. cbv beta iota zeta.
  destruct (near_round (5e-11) rmat_eqgal (mtr rmat_galeq) (dir r d) ltac:(lra) eqgal_near (dir_unit _ _)) as (N1 & _ & _).
  assert (K := near_unit (5e-11) rmat_eqgal (dir r d) ltac:(lra) eqgal_near (dir_unit _ _)).
  unfold component. rewrite (C2s_anp_dir _ N1). fold (unit_of (mapp rmat_eqgal (dir r d))).
  set (w := mapp rmat_eqgal (dir r d)) in *. set (u := unit_of w) in *.
  assert (G : forall va g e, norm g <= 301 ->
    dot (vadd va (mapp (mtr rmat_eqgal) g)) (vadd va (mapp (mtr rmat_eqgal) g)) <= e * e -> 0 <= e ->
    Rabs (dot va (dir r d) + dot g u) <= e + 1e-7).
  { intros va g e Hg H He.
    replace (dot va (dir r d) + dot g u) with ((dot va (dir r d) + dot g w) + dot g (vsub u w))
      by (generalize u w (dir r d); intros; vring).
    eapply Rle_trans; [apply Rabs_triang|]. apply Rplus_le_compat.
    - unfold w. rewrite (dot_comm g), dot_mapp.
      replace (dot va (dir r d) + dot (dir r d) (mapp (mtr rmat_eqgal) g))
        with (dot (vadd va (mapp (mtr rmat_eqgal) g)) (dir r d)) by (generalize (mapp (mtr rmat_eqgal) g) (dir r d); intros; vring).
      fold (component (vadd va (mapp (mtr rmat_eqgal) g)) r d).
      eapply Rle_trans; [apply component_bound|]. unfold norm.
      apply Rsqr_incr_0_var; [|lra]. rewrite Rsqr_sqrt by apply dot_pos. exact H.
    - eapply Rle_trans; [apply cauchy_abs|]. assert (P := norm_pos g). assert (P' := norm_pos (vsub u w)). nra. }
  split; [|split]; (eapply Rle_trans; [apply (G _ _ 9.5e-6)|]); try lra.
  1,3,5: unfold norm, dot; cbn [vx vy vz]; interval.
  all: unfold rmat_eqgal, va_galc, va_lg, va_lsrd; rn; rewrite mtr_val; unfold mapp, dot, vadd; cbn [m0 m1 m2 vx vy vz]; interval with (i_prec 80).
Qed.
(** The kinematic LSR: 20 km/s towards RA 18h, Dec +30 deg (1900), carried to equinox 2000 by palPrebn *)
Lemma mapp_rotz : forall t x y z, mapp (rotz t) (V x y z) = V (cosR t * x + sinR t * y) (cosR t * y - sinR t * x) z.
Proof. intros. unfold rotz, mapp, dot; cbn [m0 m1 m2 vx vy vz]; f_equal; ring. Qed.
Lemma mapp_roty : forall t x y z, mapp (roty t) (V x y z) = V (cosR t * x - sinR t * z) y (sinR t * x + cosR t * z).
Proof. intros. unfold roty, mapp, dot; cbn [m0 m1 m2 vx vy vz]; f_equal; ring. Qed.
Theorem C57_lsrk : forall r d,
  Rabs (palRvlsrk r d + 20 * component (mapp (palPrebn 1900 2000) (dir (hms 18 0 0) (dms 30 0 0))) r d) <= 1e-4.
Proof.
  intros r d. rewrite lsrk_val. apply component_near; [lra|].
  unfold palPrebn, palDeuler. cbn [deuler_loop axis_of Ascii.eqb Bool.eqb orb era_rot].
  rewrite !eraRz_mmul, eraRy_mmul, eraIr_mid, mmul_mid_r, !mapp_mmul.
  match goal with |- context [rotz (opp ?x)] => set (z := opp x) end.
  match goal with |- context [roty ?x] => set (th := x) end.
  match goal with |- context [rotz (opp ?x)] => set (ze := opp x) end.
  assert (Hz : -0.01117673323 <= z <= -0.01117673321) by (unfold z, DAS2R; rn; interval with (i_prec 60)).
  assert (Hth : 0.00971672056 <= th <= 0.00971672057) by (unfold th, DAS2R; rn; interval with (i_prec 60)).
  assert (Hze : -0.01117288858 <= ze <= -0.01117288856) by (unfold ze, DAS2R; rn; interval with (i_prec 60)).
  clearbody z th ze.
  unfold dir, hms, dms. rewrite mapp_rotz, mapp_roty, mapp_rotz.
  unfold va_lsrk, dot, vadd, scale; cbn [vx vy vz].
  interval with (i_prec 80).
Qed.
(** each is odd under antipodes, bounded by its speed, and periodic: properties of any projection *)
Definition antipodal (r d r' d' : R) : Prop := dir r' d' = scale (-1) (dir r d).
Theorem C57_projection :
  (forall r d r' d', antipodal r d r' d' ->
     palRvgalc r' d' = - palRvgalc r d /\ palRvlg r' d' = - palRvlg r d /\
     palRvlsrd r' d' = - palRvlsrd r d /\ palRvlsrk r' d' = - palRvlsrk r d) /\
  (forall r d, Rabs (palRvgalc r d) <= 220.00001 /\ Rabs (palRvlg r d) <= 300 /\
     Rabs (palRvlsrd r d) <= 16.553 /\ Rabs (palRvlsrk r d) <= 20).
Proof.
  split.
  - intros r d r' d' H. rewrite !galc_val, !lg_val, !lsrd_val, !lsrk_val. unfold component. rewrite H.
    generalize (dir r d). intros w. repeat split; vring.
  - intros r d. rewrite galc_val, lg_val, lsrd_val, lsrk_val.
    split; [|split; [|split]]; (eapply Rle_trans; [apply component_bound|]);
      unfold norm, dot, va_galc, va_lg, va_lsrd, va_lsrk; cbn [vx vy vz]; interval with (i_prec 60).
Qed.
Example C57_antipode : forall r d, antipodal r d (r + PI) (- d).
Proof.
  intros. unfold antipodal, dir, scale; cbn [vx vy vz]. rewrite neg_cos, neg_sin, cos_neg, sin_neg. f_equal; ring.
Qed.
(** Earth rotation: palRverot is minus the component, along the star's direction, of the velocity of an observer at
    latitude phi on a sphere whose equator moves at 0.4655 km/s (receding is positive). *)
Theorem C57_palRverot : forall phi ra da st,
  palRverot phi ra da st = - component (scale (0.4655 * cosR phi) (V (- sinR st) (cosR st) 0)) ra da /\
  Rabs (palRverot phi ra da st) <= 0.4655 * Rabs (cosR phi) /\
  palRverot phi (ra + PI) (- da) st = - palRverot phi ra da st /\
  (ra = st -> palRverot phi ra da st = 0).
Proof.
  intros. unfold palRverot, component, dir, dot, scale; rn; cbn [vx vy vz].
  split. { rewrite sin_minus. replace 0.4655 with (4655 / 10000) by lra. field. }
  split; [|split].
  - rewrite !Rabs_mult. rewrite (Rabs_pos_eq (4655 / 10000)) by lra.
    assert (Rabs (sinR (st - ra)) <= 1) by (apply Rabs_le, sin_bounds).
    assert (Rabs (cosR da) <= 1) by (apply Rabs_le, cos_bounds).
    assert (P1 := Rabs_pos (sinR (st - ra))). assert (P2 := Rabs_pos (cosR da)). assert (P3 := Rabs_pos (cosR phi)).
    assert (Rabs (sinR (st - ra)) * Rabs (cosR da) <= 1) by nra.
    replace (4655 / 10000 * Rabs (cosR phi) * Rabs (sinR (st - ra)) * Rabs (cosR da))
      with (4655 / 10000 * Rabs (cosR phi) * (Rabs (sinR (st - ra)) * Rabs (cosR da))) by ring. nra.
  - rewrite cos_neg. replace (st - (ra + PI)) with (- (PI - (st - ra))) by ring.
    rewrite sin_neg, sin_PI_x. ring.
  - intros ->. replace (st - st) with 0 by ring. rewrite sin_0. ring.
Qed.
(** and agrees with (minus) the component of palPvobs's velocity to the documented 0.0005 km/s, at every
    latitude and for every height up to 2.5 km *)
Theorem C57_palRverot_palPvobs : forall phi h ra da st, - (PI/2) <= phi <= PI/2 -> 0 <= h <= 2500 ->
  Rabs (palRverot phi ra da st + 149597870.7 * component (pvv (palPvobs phi h st)) ra da) <= 0.0005.
Proof.
  intros phi h ra da st Hp Hh. destruct (C57_palRverot phi ra da st) as (-> & _).
  assert (Hc : 0 <= cosR phi <= 1) by (split; [apply cos_ge_0; lra|apply cos_bounds]).
  unfold palPvobs, eraGd2gc_wgs84, SR, ERFA_DAU. rn. replace (0 / 10) with 0 by lra. rewrite cos_0, sin_0.
  assert (S := sc2 phi). set (c := cosR phi) in *. 
  set (w := (1 - 1 / (298257223563 / 1000000000)) * (1 - 1 / (298257223563 / 1000000000))).
  replace (w * sinR phi * sinR phi) with (w * (1 - c * c)) by (replace (1 - c * c) with (sinR phi * sinR phi) by lra; ring).
  assert (Hw : 0.99 <= w <= 1) by (unfold w; lra).
  rewrite Rltb_true by nra. cbn [snd vx vy vz pvv].
  match goal with |- Rabs (- component (scale ?k ?u) ra da + ?a * component (V (- (?s * (?r / ?b)) * ?x) ?y ?z) ra da) <= _ =>
    replace (- component (scale k u) ra da + a * component (V (- (s * (r / b)) * x) y z) ra da)
    with ((s * r / 1000 - k) * component u ra da) by (unfold component, dot, scale; cbn [vx vy vz]; generalize r (dir ra da); intros; replace 149597870.7 with (1495978707 / 10) by lra; field) end.
  rewrite Rabs_mult.
  match goal with |- _ * Rabs (component ?u ra da) <= _ =>
    assert (B : Rabs (component u ra da) <= 1) end.
  { eapply Rle_trans; [apply component_bound|]. unfold norm, dot; cbn [vx vy vz].
    replace (- sinR st * - sinR st + cosR st * cosR st + 0 * 0) with 1 by (assert (Q := sc2 st); lra).
    rewrite sqrt_1. lra. }
  match goal with |- Rabs ?x * Rabs ?y <= _ => assert (X : Rabs x <= 0.0005);
    [|assert (P := Rabs_pos x); assert (P' := Rabs_pos y); nra] end.
  clear - Hc Hh. clearbody c.
  match goal with |- Rabs (?s * ((?q + h) * c * 1) / 1000 - ?k * c) <= _ =>
    replace (s * ((q + h) * c * 1) / 1000 - k * c) with (c * (s * (q + h) / 1000 - k)) by (generalize q; intros; field) end.
  unfold w. interval with (i_bisect c, i_prec 50, i_depth 14).
Qed.
