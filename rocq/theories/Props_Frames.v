(** * Theorems: reference frames (C17-C24, C55) *)
From Coq Require Import Reals ZArith Lra Lia Psatz Bool Ascii String List.
From Flocq Require Import Core.Raux.
From Verif Require Import Num NumR Erfa Erfa2 Geom M_Sphere P_Sphere M_Time M_Frames P_Frames P_PrecNum P_Eterms P_Fk P_Polmo.
From Interval Require Import Tactic.
From Verif Require M_Str.
Local Open Scope R_scope.

(** [sphere lon lat]: conventional ranges *)
Definition conv (lon lat : R) : Prop := 0 <= lon < 2 * PI /\ - (PI/2) <= lat <= PI/2.
(** distance between two directions on the unit sphere (chord) *)
Definition chord (a b a' b' : R) : R := norm (vsub (dir a b) (dir a' b')).

Lemma near_unit : forall eps m v, 0 <= eps < 1/100 -> near eps (mmul (mtr m) m) mid -> unitv v ->
  norm (vsub (unit_of (mapp m v)) (mapp m v)) <= 3 * eps.
Proof.
  intros eps m v He H Hv.
  assert (K := near_app eps _ mid v ltac:(lra) H Hv). rewrite mapp_mid in K.
  set (G := mmul (mtr m) m) in *.
  assert (S : norm (mapp m v) * norm (mapp m v) = 1 + dot v (vsub (mapp G v) v)).
  { rewrite norm_sq, dot_mapp, <- mapp_mmul. fold G. generalize G. clear - Hv. intros G.
    replace (dot v (vsub (mapp G v) v)) with (dot v (mapp G v) - dot v v) by vring.
    replace (dot v v) with 1 by (symmetry; exact Hv). ring. }
  assert (C := cauchy_abs v (vsub (mapp G v) v)). rewrite (norm_unit v Hv) in C. apply Rabs_le_inv in C.
  set (u := mapp m v) in *. assert (P := norm_pos u).
  assert (Q : 1 - 3 * eps <= norm u <= 1 + 3 * eps) by nra.
  unfold unit_of. replace (vsub (scale (1 / norm u) u) u) with (scale (1 / norm u - 1) u) by vring.
  rewrite norm_scale_abs.
  replace (Rabs (1 / norm u - 1) * norm u) with (Rabs (1 - norm u)).
  - apply Rabs_le; lra.
  - rewrite <- (Rabs_right (norm u)) at 3 by lra. rewrite <- Rabs_mult. f_equal. field. lra.
Qed.

(** ** C17 *)
Theorem C17_eqgal_galeq : forall dr dd,
  let '(l, b) := palEqgal dr dd in
  let '(r, d) := palGaleq l b in
  conv l b /\ conv r d /\ chord r d dr dd <= 3e-10.
Proof.
  intros. rewrite palEqgal_val. cbv beta iota zeta. rewrite palGaleq_val. cbv beta iota zeta.
  destruct (near_round (5e-11) rmat_eqgal (mtr rmat_galeq) (dir dr dd) ltac:(lra) eqgal_near (dir_unit _ _)) as (N1 & N2 & N3).
  set (w := mapp rmat_eqgal (dir dr dd)) in *.
  rewrite (C2s_anp_dir w N1). fold (unit_of w).
  split; [apply C2s_anp_range|]. split; [apply C2s_anp_range|].
  unfold chord. rewrite (C2s_anp_dir _ N2). fold (unit_of (mapp (mtr rmat_galeq) (unit_of w))). lra.
Qed.
Theorem C17_galeq_eqgal : forall dl db,
  let '(r, d) := palGaleq dl db in
  let '(l, b) := palEqgal r d in
  conv r d /\ conv l b /\ chord l b dl db <= 3e-10.
Proof.
  intros. rewrite palGaleq_val. cbv beta iota zeta. rewrite palEqgal_val. cbv beta iota zeta.
  destruct (near_round (5e-11) (mtr rmat_galeq) rmat_eqgal (dir dl db) ltac:(lra) eqgal_near' (dir_unit _ _)) as (N1 & N2 & N3).
  set (w := mapp (mtr rmat_galeq) (dir dl db)) in *.
  rewrite (C2s_anp_dir w N1). fold (unit_of w).
  split; [apply C2s_anp_range|]. split; [apply C2s_anp_range|].
  unfold chord. rewrite (C2s_anp_dir _ N2). fold (unit_of (mapp rmat_eqgal (unit_of w))). lra.
Qed.
(** The frame itself: the B1950 galactic axes (P=192.25, Q=62.6, R=33 deg) carried to J2000 by the
    FK4-FK5 transformation. *)
Theorem C17_definition : forall dr dd,
  let '(l, b) := palEqgal dr dd in norm (vsub (dir l b) (mapp gal2000 (dir dr dd))) <= 3e-10.
Proof.
  intros. rewrite palEqgal_val. cbv beta iota zeta.
  destruct (near_round (5e-11) rmat_eqgal (mtr rmat_galeq) (dir dr dd) ltac:(lra) eqgal_near (dir_unit _ _)) as (N1 & _ & _).
  rewrite (C2s_anp_dir _ N1). fold (unit_of (mapp rmat_eqgal (dir dr dd))).
  assert (A1 := near_unit (5e-11) rmat_eqgal (dir dr dd) ltac:(lra) eqgal_near (dir_unit _ _)).
  assert (A2 := near_app (4e-11) _ _ (dir dr dd) ltac:(lra) eqgal_def_near (dir_unit _ _)).
  set (u := unit_of (mapp rmat_eqgal (dir dr dd))) in *. set (p := mapp rmat_eqgal (dir dr dd)) in *.
  set (q := mapp gal2000 (dir dr dd)) in *.
  replace (vsub u q) with (vadd (vsub u p) (vsub p q)) by (generalize u p q; clear; intros; vring).
  eapply Rle_trans; [apply norm_triangle|]. lra.
Qed.
Lemma dir_0_90 : forall a, dir a (PI/2) = V 0 0 1.
Proof. intros. unfold dir. rewrite cos_PI2, sin_PI2. f_equal; ring. Qed.
(** non-trivial instance: the galactic latitude of the J2000 celestial pole is about 27.13 deg *)
Example C17_witness : 27.12 * (PI/180) < snd (palEqgal 0 (PI/2)) < 27.14 * (PI/180).
Proof.
  rewrite palEqgal_val. cbn [snd]. rewrite dir_0_90. unfold rmat_eqgal. rn.
  unfold mapp, dot, eraC2s. cbn [vx vy vz m0 m1 m2 snd]. rn. rewrite Reqb_false by lra. unfold atan2R.
  destruct (Rlt_dec _ _) as [H|H]; [split; interval|].
  exfalso. apply H. apply sqrt_lt_R0. interval.
Qed.

(** ** C18 *)
Theorem C18_galsup_supgal : forall dl db,
  let '(sl, sb) := palGalsup dl db in
  let '(l, b) := palSupgal sl sb in
  conv sl sb /\ conv l b /\ chord l b dl db <= 2e-11.
Proof.
  intros. rewrite palGalsup_val. cbv beta iota zeta. rewrite palSupgal_val. cbv beta iota zeta.
  destruct (near_round (2e-12) rmat_galsup (mtr rmat_supgal) (dir dl db) ltac:(lra) galsup_near (dir_unit _ _)) as (N1 & N2 & N3).
  set (w := mapp rmat_galsup (dir dl db)) in *.
  rewrite (C2s_anp_dir w N1). fold (unit_of w).
  split; [apply C2s_anp_range|]. split; [apply C2s_anp_range|].
  unfold chord. rewrite (C2s_anp_dir _ N2). fold (unit_of (mapp (mtr rmat_supgal) (unit_of w))). lra.
Qed.
Theorem C18_supgal_galsup : forall sl sb,
  let '(l, b) := palSupgal sl sb in
  let '(l', b') := palGalsup l b in
  conv l b /\ conv l' b' /\ chord l' b' sl sb <= 2e-11.
Proof.
  intros. rewrite palSupgal_val. cbv beta iota zeta. rewrite palGalsup_val. cbv beta iota zeta.
  destruct (near_round (2e-12) (mtr rmat_supgal) rmat_galsup (dir sl sb) ltac:(lra) galsup_near' (dir_unit _ _)) as (N1 & N2 & N3).
  set (w := mapp (mtr rmat_supgal) (dir sl sb)) in *.
  rewrite (C2s_anp_dir w N1). fold (unit_of w).
  split; [apply C2s_anp_range|]. split; [apply C2s_anp_range|].
  unfold chord. rewrite (C2s_anp_dir _ N2). fold (unit_of (mapp rmat_galsup (unit_of w))). lra.
Qed.
(** the frame: pole at L2=47.37, B2=6.32, origin of longitude on the galactic equator at L2=137.37 *)
Theorem C18_definition : forall dl db,
  let '(sl, sb) := palGalsup dl db in norm (vsub (dir sl sb) (mapp supgal_def (dir dl db))) <= 1e-11.
Proof.
  intros. rewrite palGalsup_val. cbv beta iota zeta.
  destruct (near_round (2e-12) rmat_galsup (mtr rmat_supgal) (dir dl db) ltac:(lra) galsup_near (dir_unit _ _)) as (N1 & _ & _).
  rewrite (C2s_anp_dir _ N1). fold (unit_of (mapp rmat_galsup (dir dl db))).
  assert (A1 := near_unit (2e-12) rmat_galsup (dir dl db) ltac:(lra) galsup_near (dir_unit _ _)).
  assert (A2 := near_app (1e-12) _ _ (dir dl db) ltac:(lra) galsup_def_near (dir_unit _ _)).
  set (u := unit_of (mapp rmat_galsup (dir dl db))) in *. set (p := mapp rmat_galsup (dir dl db)) in *.
  set (q := mapp supgal_def (dir dl db)) in *.
  replace (vsub u q) with (vadd (vsub u p) (vsub p q)) by (generalize u p q; clear; intros; vring).
  eapply Rle_trans; [apply norm_triangle|]. lra.
Qed.

(** ** C19 *)
Theorem C19_eqecl_ecleq : forall dl db date,
  let '(r, d) := palEcleq dl db date in
  let '(l, b) := palEqecl r d date in
  conv r d /\ conv l b /\ dir l b = dir dl db /\
  (- (PI/2) < db < PI/2 -> b = db /\ cong l dl).
Proof.
  intros. rewrite palEcleq_val. cbv beta iota zeta. rewrite palEqecl_val. cbv beta iota zeta.
  assert (Rm := ecl_mat_rot date).
  set (w := mapp (mtr (ecl_mat date)) (dir dl db)).
  assert (U : unitv w) by (apply rot_unit; [now apply rotation_mtr|apply dir_unit]).
  rewrite (C2s_anp_unit w U).
  assert (E : mapp (ecl_mat date) w = dir dl db) by (apply rot_tr_app; easy).
  rewrite E. split; [apply C2s_anp_range|]. split; [apply C2s_anp_range|].
  assert (D := C2s_anp_unit (dir dl db) (dir_unit _ _)).
  split; [exact D|]. intros H.
  assert (G := C2s_anp_range (dir dl db)).
  split; [symmetry; apply (dir_inj_lat _ _ _ _ (eq_sym D)); lra|].
  apply cong_sym. apply (dir_inj_lon _ _ _ _ (eq_sym D)); lra.
Qed.
Theorem C19_ecleq_eqecl : forall dr dd date,
  let '(l, b) := palEqecl dr dd date in
  let '(r, d) := palEcleq l b date in
  conv l b /\ conv r d /\ dir r d = dir dr dd /\
  (- (PI/2) < dd < PI/2 -> d = dd /\ cong r dr).
Proof.
  intros. rewrite palEqecl_val. cbv beta iota zeta. rewrite palEcleq_val. cbv beta iota zeta.
  assert (Rm := ecl_mat_rot date).
  set (w := mapp (ecl_mat date) (dir dr dd)).
  assert (U : unitv w) by (apply rot_unit; [easy|apply dir_unit]).
  rewrite (C2s_anp_unit w U).
  assert (E : mapp (mtr (ecl_mat date)) w = dir dr dd) by (apply rot_app_tr; easy).
  rewrite E. split; [apply C2s_anp_range|]. split; [apply C2s_anp_range|].
  assert (D := C2s_anp_unit (dir dr dd) (dir_unit _ _)).
  split; [exact D|]. intros H.
  assert (G := C2s_anp_range (dir dr dd)).
  split; [symmetry; apply (dir_inj_lat _ _ _ _ (eq_sym D)); lra|].
  apply cong_sym. apply (dir_inj_lon _ _ _ _ (eq_sym D)); lra.
Qed.
(** the transformation itself: precess from J2000 to the date, then rotate about the equinox by
    the mean obliquity; in particular the equinox direction is common to both frames of date *)
Theorem C19_definition : forall dr dd date,
  let '(l, b) := palEqecl dr dd date in
  dir l b = mapp (rotx (eraObl06 2400000.5 date)) (mapp (palPrec 2000 (palEpj date)) (dir dr dd)).
Proof.
  intros. rewrite palEqecl_val. cbv beta iota zeta.
  rewrite (C2s_anp_unit _ (rot_unit _ _ (ecl_mat_rot date) (dir_unit _ _))).
  unfold ecl_mat. rewrite mapp_mmul, palEcmat_val. replace (MJD0 : R) with 2400000.5 by (unfold MJD0; rn; lra). reflexivity.
Qed.

(** ** C20 *)
Theorem C20_palEcmat : forall date, rotation (palEcmat date).
Proof. apply palEcmat_rot. Qed.
Theorem C20_palPrebn : forall bep0 bep1, rotation (palPrebn bep0 bep1).
Proof. apply palPrebn_rot. Qed.
Theorem C20_palPrec : forall ep0 ep1, rotation (palPrec ep0 ep1).
Proof. apply palPrec_rot. Qed.
Theorem C20_palNut : forall nut06a date, rotation (palNut nut06a date : mat R).
Proof.
  intros. unfold palNut, palNutc. destruct (nut06a _ _). apply palDeuler_rot.
Qed.
Theorem C20_palPrenut : forall p06e pnm06a epoch date,
  (forall a b, rotation (pnm06a a b)) -> rotation (palPrenut p06e pnm06a epoch date : mat R).
Proof.
  intros p06e pnm06a epoch date H. unfold palPrenut.
  destruct (eraEpj2jd epoch) as [d1 d2]. destruct (p06e d1 d2) as [[[eps0 psia] oma] chia]. cbv beta iota zeta.
  rewrite eraRxr_mmul, eraRx_mmul, eraRz_mmul, eraRx_mmul, eraRz_mmul, eraIr_mid.
  repeat apply rotation_mmul; auto using rotx_rot, rotz_rot, rotation_mid.
Qed.
(** palPrenut undoes the precession from J2000 to [epoch] (canonical four-rotation form with the angles of that epoch) and then
    applies the bias-precession-nutation of [date]: composed after the precession to [epoch] it gives the latter alone *)
Theorem C20_palPrenut_def : forall p06e pnm06a epoch date,
  let '(eps0, psia, oma, chia) := p06e 2400000.5 (51544.5 + (epoch - 2000) * 365.25) in
  let prec := mmul (rotz chia) (mmul (rotx (- oma)) (mmul (rotz (- psia)) (rotx eps0))) in
  mmul (palPrenut p06e pnm06a epoch date) prec = pnm06a 2400000.5 date.
Proof.
  intros. unfold palPrenut, eraEpj2jd. rops.
  replace (litR 24000005e-1 : R) with 2400000.5 by (rlit; lra).
  match goal with |- context [p06e 2400000.5 ?x] => match goal with |- context [p06e 2400000.5 ?y] => lazymatch y with x => fail | _ =>
    replace y with x by (unfold DJY; rn; lra) end end end.
  replace (MJD0 : R) with 2400000.5 by (unfold MJD0; rn; lra).
  match goal with |- context [p06e 2400000.5 ?x] => destruct (p06e 2400000.5 x) as [[[eps0 psia] oma] chia] end.
  cbv beta iota zeta. rewrite eraRxr_mmul, eraRx_mmul, eraRz_mmul, eraRx_mmul, eraRz_mmul, eraIr_mid, mmul_mid_r.
  assert (X : forall a c, mmul (rotx (- a)) (mmul (rotx a) c) = c).
  { intros a c. rewrite mmul_assoc. assert (E : mmul (rotx (- a)) (rotx a) = mid).
    { generalize (sc2 a). intros S. unfold mmul, rotx, mid, dot; cbn. rewrite cos_neg, sin_neg. vsplit; lra. }
    now rewrite E, mmul_mid_l. }
  assert (Z : forall a c, mmul (rotz (- a)) (mmul (rotz a) c) = c).
  { intros a c. rewrite mmul_assoc. assert (E : mmul (rotz (- a)) (rotz a) = mid).
    { generalize (sc2 a). intros S. unfold mmul, rotz, mid, dot; cbn. rewrite cos_neg, sin_neg. vsplit; lra. }
    now rewrite E, mmul_mid_l. }
  assert (X' := fun a c => X (- a) c). assert (Z' := fun a c => Z (- a) c).
  rewrite <- !mmul_assoc. rewrite Z.
  rewrite <- (Ropp_involutive oma) at 1. rewrite X.
  rewrite <- (Ropp_involutive psia) at 1. rewrite Z.
  assert (E : mmul (rotx (- eps0)) (rotx eps0) = mid) by (rewrite <- (mmul_mid_r (rotx eps0)); apply X).
  rewrite E. apply mmul_mid_r.
Qed.
Example C20_witness_pnm : forall a b, rotation (eraPmat06 a b : mat R).
Proof. apply eraPmat06_rot. Qed.
(** the nutation matrix: mean equator to ecliptic, nutate in longitude, back to the true equator *)
Theorem C20_palNut_def : forall nut06a date,
  let '(dpsi, deps) := nut06a 2400000.5 date in
  let eps0 := eraObl06 2400000.5 date in
  palNut nut06a date = mmul (rotx (- (eps0 + deps))) (mmul (rotz (- dpsi)) (rotx eps0)).
Proof.
  intros. unfold palNut, palNutc.
  replace (MJD0 : R) with 2400000.5 by (unfold MJD0; rn; lra).
  destruct (nut06a 2400000.5 date) as [dpsi deps]. cbv beta iota zeta.
  set (e := eraObl06 2400000.5 date). unfold palDeuler.
  cbn [deuler_loop axis_of Ascii.eqb Bool.eqb orb era_rot]. rops.
  rewrite eraRx_mmul, eraRz_mmul, eraRx_mmul, eraIr_mid, mmul_mid_r. reflexivity.
Qed.
(** palPrebn is the documented ZYZ rotation by Kinoshita's angles; same epochs: no rotation *)
Theorem C20_palPrebn_same : forall bep, palPrebn bep bep = mid.
Proof.
  intros. unfold palPrebn, palDeuler. cbn [deuler_loop axis_of Ascii.eqb Bool.eqb orb era_rot]. rops.
  match goal with |- context [(bep - bep) / ?h] => replace ((bep - bep) / h) with 0 by (unfold Rdiv; ring) end. rewrite !Rmult_0_l, !Rmult_0_r, Ropp_0.
  rewrite !eraRz_mmul, eraRy_mmul, eraIr_mid.
  assert (Z : rotz 0 = mid) by (unfold rotz, mid; rewrite cos_0, sin_0, Ropp_0; easy).
  assert (Y : roty 0 = mid) by (unfold roty, mid; rewrite cos_0, sin_0, Ropp_0; easy).
  rewrite Z, Y, !mmul_mid_l. easy.
Qed.

(** ** C21: J2000 mean vectors to those of [ep] is [palPrec 2000 ep]. *)
Theorem C21_from_2000 : forall ep, palPrec 2000 ep = eraPmat06 2451545 ((ep - 2000) * 365.25).
Proof.
  intros. rewrite palPrec_2000.
  replace (DJ00 : R) with 2451545 by (unfold DJ00; rn; lra).
  replace (DJY : R) with 365.25 by (unfold DJY; rn; lra). reflexivity.
Qed.
Theorem C21_to_2000 : forall ep v, ep <> 2000 -> mapp (palPrec ep 2000) (mapp (palPrec 2000 ep) v) = v.
Proof. intros. rewrite palPrec_to2000 by easy. apply rot_app_tr, palPrec_rot. Qed.
Theorem C21_same : forall ep, ep <> 2000 -> palPrec ep ep = mid.
Proof. intros. rewrite palPrec_gen by easy. apply rotation_tr, palPrec_rot. Qed.
Theorem C21_general : forall ep0 ep1, ep0 <> 2000 -> ep1 <> 2000 ->
  palPrec ep0 ep1 = mmul (palPrec ep0 2000) (palPrec 2000 ep1).
Proof. intros. rewrite palPrec_to2000, palPrec_gen by easy. reflexivity. Qed.
(** the defect: with neither epoch J2000 the two factors are in the wrong order, so the matrix does
    not take mean vectors of ep0 into those of ep1; for 1900 -> 2100 the error exceeds 2e-7 rad
    (0.04 arcsec) in one component *)
Theorem C21_defect : exists v, unitv v /\
  2e-7 < norm (vsub (mapp (palPrec 1900 2100) (mapp (palPrec 2000 1900) v)) (mapp (palPrec 2000 2100) v)).
Proof.
  exists (V 0 0 1). split; [unfold unitv, dot; cbn; lra|].
  generalize prec_defect. set (a := mapp (palPrec 1900 2100) _). set (b := mapp (palPrec 2000 2100) _). intros H.
  clearbody a b. destruct a as [a1 a2 a3], b as [b1 b2 b3]. cbn [vx vy vz vsub] in *.
  eapply Rlt_le_trans; [|apply (norm_ge _ (Rabs (a2 - b2))); [apply Rabs_pos|]].
  - eapply Rlt_le_trans; [|apply Rle_abs]. lra.
  - rewrite <- Rabs_mult, Rabs_pos_eq by nra. unfold vsub, dot; cbn [vx vy vz].
    generalize (Rle_0_sqr (a1 - b1)) (Rle_0_sqr (a3 - b3)). unfold Rsqr. intros. rops. lra.
Qed.

(** ** C22 *)
(** [names s w]: the first three characters of [s] are [w] in any mixture of case *)
Definition names (s : string) (a b c : ascii) : Prop :=
  exists x y z t, s = String x (String y (String z t)) /\
    M_Str.tolower x = M_Str.tolower a /\ M_Str.tolower y = M_Str.tolower b /\ M_Str.tolower z = M_Str.tolower c.
Lemma strncase_spec : forall a b c s,
  strncase_eq (String a (String b (String c EmptyString))) s = true <-> names s a b c.
Proof.
  intros a b c s. split.
  - destruct s as [|x [|y [|z t]]]; cbn.
    + easy.
    + destruct (Ascii.eqb _ _); easy.
    + destruct (Ascii.eqb _ _); [|easy]. destruct (Ascii.eqb _ _); easy.
    + destruct (Ascii.eqb_spec (M_Str.tolower a) (M_Str.tolower x)); [|easy].
      destruct (Ascii.eqb_spec (M_Str.tolower b) (M_Str.tolower y)); [|easy].
      destruct (Ascii.eqb_spec (M_Str.tolower c) (M_Str.tolower z)); [|easy].
      intros _. exists x, y, z, t. easy.
  - intros (x & y & z & t & -> & H1 & H2 & H3). cbn. rewrite H1, H2, H3, !Ascii.eqb_refl. reflexivity.
Qed.
Definition is_fk4 s := names s "F" "K" "4". Definition is_fk5 s := names s "F" "K" "5".
Theorem C22_fk4 : forall sys ep0 ep1 ra dc, is_fk4 sys ->
  let '(ra', dc') := palPreces sys ep0 ep1 ra dc in
  conv ra' dc' /\ dir ra' dc' = mapp (palPrebn ep0 ep1) (dir ra dc).
Proof.
  intros sys ep0 ep1 ra dc H. unfold palPreces. rewrite (proj2 (strncase_spec _ _ _ _) H).
  rewrite eraRxp_mapp, eraS2c_dir. cbv beta iota zeta. rewrite (surjective_pairing (eraC2s _)).
  split; [apply C2s_anp_range|]. apply C2s_anp_unit, rot_unit; [apply palPrebn_rot|apply dir_unit].
Qed.
Theorem C22_fk5 : forall sys ep0 ep1 ra dc, is_fk5 sys ->
  let '(ra', dc') := palPreces sys ep0 ep1 ra dc in
  conv ra' dc' /\ dir ra' dc' = mapp (palPrec ep0 ep1) (dir ra dc).
Proof.
  intros sys ep0 ep1 ra dc H. unfold palPreces.
  destruct (strncase_eq "FK4" sys) eqn:E.
  { exfalso. apply strncase_spec in E. destruct E as (x & y & z & t & -> & _ & _ & E).
    destruct H as (x' & y' & z' & t' & Q & _ & _ & E'). inversion Q; subst. rewrite E' in E. cbv in E. discriminate. }
  rewrite (proj2 (strncase_spec _ _ _ _) H).
  rewrite eraRxp_mapp, eraS2c_dir. cbv beta iota zeta. rewrite (surjective_pairing (eraC2s _)).
  split; [apply C2s_anp_range|]. apply C2s_anp_unit, rot_unit; [apply palPrec_rot|apply dir_unit].
Qed.
Theorem C22_other : forall sys ep0 ep1 ra dc, ~ is_fk4 sys -> ~ is_fk5 sys ->
  palPreces sys ep0 ep1 ra dc = (-99, -99).
Proof.
  intros sys ep0 ep1 ra dc H4 H5. unfold palPreces.
  destruct (strncase_eq "FK4" sys) eqn:E4; [exfalso; apply H4; now apply strncase_spec|].
  destruct (strncase_eq "FK5" sys) eqn:E5; [exfalso; apply H5; now apply strncase_spec|].
  rn. f_equal; lra.
Qed.
Example C22_witness : is_fk4 "fK4" /\ is_fk5 "FK5xyz" /\ ~ is_fk4 "FK" /\ ~ is_fk5 "FK6" /\ ~ is_fk5 "".
Proof.
  repeat split; try (eexists _, _, _, _; split; [reflexivity|repeat split; reflexivity]);
  intros (x & y & z & t & E & _ & _ & H); inversion E; subst; cbv in H; discriminate.
Qed.

(** ** C23 *)
(** Away from the (rotated) pole: the returned longitude and latitude are those of the site vector
    rotated by the polar motion, and the azimuth correction is minus the celestial azimuth of the
    terrestrial pole (its components along north and east at the true site). *)
Theorem C23_palPolmo : forall elongm phim xp yp,
  let rot := mmul (roty xp) (rotx yp) in
  let s := mapp rot (dir elongm phim) in let n := mapp rot (V 0 0 1) in
  (vx s <> 0 \/ vy s <> 0) ->
  let '(elong, phi, daz) := palPolmo elongm phim xp yp in
  - PI < elong <= PI /\ - (PI/2) <= phi <= PI/2 /\ dir elong phi = s /\
  exists rho, 0 <= rho /\ dot n (north elong phi) = rho * cosR (- daz)
                       /\ dot n (east elong phi) = rho * sinR (- daz).
Proof.
  intros l f x y rot s n H. rewrite palPolmo_val. fold rot. unfold pol_mat. fold rot. fold s n.
  assert (G := pol_out_spec s n).
  destruct (pol_out s n) as [[L F] Z]. rewrite cos_neg, sin_neg.
  destruct G as (A & B & C & rho & R1 & R2 & R3).
  - unfold rxysq. destruct H; nra.
  - apply rot_unit; [apply pol_mat_rot|apply dir_unit].
  - repeat (split; [easy|]). exists rho. repeat split; try easy. lra.
Qed.
(** zero polar motion changes nothing *)
Theorem C23_zero : forall elongm phim, - PI < elongm <= PI -> - (PI/2) < phim < PI/2 ->
  palPolmo elongm phim 0 0 = (elongm, phim, 0).
Proof.
  intros l f Hl Hf.
  assert (Hc : 0 < cosR f) by (apply cos_gt_0; lra).
  assert (E : forall v, mapp (mmul (roty 0) (rotx 0)) v = v).
  { intros v. rewrite mapp_mmul. unfold roty, rotx. rewrite cos_0, sin_0. destruct v. rewrite !mapp_val. f_equal; ring. }
  assert (K := C23_palPolmo l f 0 0). cbv zeta in K. rewrite !E in K.
  assert (Hnz : vx (dir l f) <> 0 \/ vy (dir l f) <> 0).
  { unfold dir; cbn. destruct (Req_dec (cosR l) 0) as [C|C]; [right|left].
    - assert (Q := sc2 l). rewrite C in Q. intros Z. apply Rmult_integral in Z. destruct Z as [Z|Z]; [|lra]. rewrite Z in Q. lra.
    - intros Z. apply Rmult_integral in Z. lra. }
  specialize (K Hnz).
  assert (P : palPolmo l f 0 0 = pol_out (dir l f) (V 0 0 1)).
  { rewrite palPolmo_val. unfold pol_mat. rewrite !E. reflexivity. }
  destruct (palPolmo l f 0 0) as [[L F] Z].
  destruct K as (K1 & K2 & K3 & rho & R0 & R1 & R2).
  assert (F = f) by (apply (dir_inj_lat _ _ _ _ K3); lra). subst F.
  assert (L = l).
  { assert (CC := dir_inj_lon _ _ _ _ K3 Hf ltac:(lra)). apply same_sc_eq; [lra|now apply cong_cos|now apply cong_sin]. }
  subst L. apply f_equal2; [easy|].
  apply (f_equal snd) in P. cbn [snd] in P. rewrite P. clear P. unfold pol_out. cbv zeta. cbn [snd vx vy vz].
  clear K1 K2 K3 R0 R1 R2 Hnz.
  assert (Hh : 0 < sqrtR (rxysq (dir l f))).
  { apply sqrt_lt_R0. unfold rxysq, dir. cbn [vx vy vz]. assert (Q := sc2 l).
    replace (cosR l * cosR f * (cosR l * cosR f) + sinR l * cosR f * (sinR l * cosR f))
      with (cosR f * cosR f * (sinR l * sinR l + cosR l * cosR l)) by ring. rewrite Q. nra. }
  revert Hh. generalize (sqrtR (rxysq (dir l f))). intros h Hh.
  generalize ((if Reqb h 0 then 1 else vx (dir l f)) / h) (vy (dir l f)) (vz (dir l f)). intros q p z.
  replace (- 0 * (p / h) + 0 * q) with 0 by (unfold Rdiv; ring).
  replace ((0 * q + 0 * (p / h)) * z - 1 * h) with (- h) by (unfold Rdiv; ring).
  rewrite (Reqb_false (- h)) by lra. cbn [negb orb]. unfold atan2R.
  destruct (Rlt_dec 0 (- - h)) as [G|G]; [|lra].
  replace (- 0 / - - h) with 0 by (field; lra). apply atan_0.
Qed.
Example C23_witness : let s := mapp (mmul (roty 0) (rotx 0)) (dir 1 1) in vx s <> 0 \/ vy s <> 0.
Proof.
  cbv beta iota zeta. right. rewrite mapp_mmul. unfold roty, rotx. rewrite cos_0, sin_0. unfold dir. rewrite !mapp_val; cbn [vx vy vz]. interval.
Qed.

(** ** C24 *)
Theorem C24_palAddet : forall rm dm eq, 1800 <= eq <= 2200 ->
  let '(rc, dc) := palAddet rm dm eq in
  conv rc dc /\ dir rc dc = unit_of (vadd (dir rm dm) (palEtrms eq)).
Proof.
  intros rm dm eq H. rewrite palAddet_val. cbv beta iota zeta. assert (S := etrms_small eq H).
  split; [apply C2s_anp_range|]. apply C2s_anp_dir. apply norm_pos_nz.
  assert (S' : norm (palEtrms eq) <= 1/10) by lra.
  generalize (add_norm (dir rm dm) (palEtrms eq) (dir_unit _ _) S'). lra.
Qed.
(** the E-terms: size e.k with e the eccentricity of the Earth's orbit and k = 20.49552 arcsec, and
    perpendicular to the ecliptic pole of the model obliquity *)
Theorem C24_palEtrms : forall eq,
  norm (palEtrms eq) = Rabs (ecc eq * 20.49552 * (PI / 648000)) /\
  (1800 <= eq <= 2200 -> norm (palEtrms eq) <= 1.8e-6).
Proof.
  intros eq. split.
  - unfold norm. rewrite etrms_dot. apply sqrt_Rsqr_abs.
  - intros H. generalize (etrms_small eq H). lra.
Qed.
(** removing the E-terms from a place to which they were added returns the original direction to
    third order in the E-terms: sin(separation) <= |E|^3 < 6e-18 *)
Theorem C24_subet_addet : forall rm dm eq, 1800 <= eq <= 2200 ->
  let '(rc, dc) := palAddet rm dm eq in
  let '(r, d) := palSubet rc dc eq in
  conv r d /\ norm (cross (dir rm dm) (dir r d)) <= 6e-18 /\ 0 < dot (dir rm dm) (dir r d).
Proof.
  intros rm dm eq H. assert (A := C24_palAddet rm dm eq H). destruct (palAddet rm dm eq) as [rc dc].
  destruct A as [A1 A2]. rewrite palSubet_val. cbv beta iota zeta. rewrite A2.
  assert (S := etrms_small eq H). assert (P := norm_pos (palEtrms eq)).
  assert (S' : norm (palEtrms eq) <= 1/10) by lra.
  destruct (sub_add (dir rm dm) (palEtrms eq) (dir_unit _ _) S') as (B1 & B2 & B3).
  rewrite (C2s_anp_dir _ (norm_pos_nz _ B1)). unfold unit_of in B2, B3.
  split; [apply C2s_anp_range|]. split; [|exact B3].
  eapply Rle_trans; [exact B2|]. apply Rle_trans with ((18/10000000)^3); [apply pow_incr; lra|lra].
Qed.
Theorem C24_addet_subet : forall rc dc eq, 1800 <= eq <= 2200 ->
  let '(rm, dm) := palSubet rc dc eq in
  let '(r, d) := palAddet rm dm eq in
  conv rm dm /\ conv r d /\ norm (cross (dir rc dc) (dir r d)) <= 6e-18 /\ 0 < dot (dir rc dc) (dir r d).
Proof.
  intros rc dc eq H. rewrite palSubet_val. cbv beta iota zeta. rewrite palAddet_val. cbv beta iota zeta.
  assert (S := etrms_small eq H). assert (P := norm_pos (palEtrms eq)).
  assert (S' : norm (palEtrms eq) <= 1/10) by lra.
  destruct (add_sub (dir rc dc) (palEtrms eq) (dir_unit _ _) S') as (B0 & B1 & B2 & B3).
  rewrite (C2s_anp_dir _ B0). fold (unit_of (sub_e (dir rc dc) (palEtrms eq))).
  rewrite (C2s_anp_dir _ (norm_pos_nz _ B1)).
  split; [apply C2s_anp_range|]. split; [apply C2s_anp_range|]. unfold unit_of in B2, B3 |- *. split; [|exact B3].
  eapply Rle_trans; [exact B2|]. apply Rle_trans with ((18/10000000)^3); [apply pow_incr; lra|lra].
Qed.
(** palGe50: rotate the galactic direction to mean B1950 axes (documented P, Q, R), then add the
    1950 E-terms: the result lies within 1e-11 of that direction *)
Theorem C24_palGe50 : forall dl db,
  let '(r, d) := palGe50 dl db in
  conv r d /\
  norm (vsub (dir r d) (unit_of (vadd (mapp (mtr gal1950) (dir dl db)) (palEtrms 1950)))) <= 3e-11.
Proof.
  intros dl db. unfold palGe50. rewrite eraTrxp_mapp, eraS2c_dir, lit1950.
  set (w := mapp (mtr rmat_ge50) (dir dl db)).
  assert (NT : near (1e-12) (mtr rmat_ge50) (mtr gal1950)).
  { generalize ge50_near. unfold near, mtr; cbn [vx vy vz m0 m1 m2]. tauto. }
  assert (A := near_app (1e-12) _ _ (dir dl db) ltac:(lra) NT (dir_unit _ _)). fold w in A.
  set (g := mapp (mtr gal1950) (dir dl db)) in *.
  assert (Rg : rotation gal1950) by (unfold gal1950; repeat apply rotation_mmul; auto using rotz_rot, roty_rot).
  assert (Ug : unitv g) by (apply rot_unit; [now apply rotation_mtr|apply dir_unit]).
  assert (Ng := norm_unit g Ug).
  assert (C1 := unit_of_close w g Ug ltac:(lra)).
  assert (Nw : w <> vzero) by (apply norm_pos_nz; generalize (norm_triangle_sub g w); rewrite (norm_sub_sym g w); lra).
  rewrite (surjective_pairing (eraC2s w)).
  assert (D1 : dir (fst (eraC2s w)) (snd (eraC2s w)) = unit_of w) by (apply eraC2s_nz; easy).
  assert (B := C24_palAddet (fst (eraC2s w)) (snd (eraC2s w)) 1950 ltac:(lra)).
  destruct (palAddet (fst (eraC2s w)) (snd (eraC2s w)) 1950) as [re de]. destruct B as [[B0 B1] B2].
  assert (Hpi := PI_RGT_0).
  rewrite (eraAnp_id re B0), (eraAnpm_small de) by lra.
  split; [easy|]. rewrite B2, D1.
  assert (S := etrms_small 1950 ltac:(lra)).
  set (e := palEtrms 1950) in *. set (u := unit_of w) in *.
  assert (G1 := add_norm g e Ug ltac:(lra)).
  set (G := vadd g e) in *.
  assert (HG : norm (vsub (vadd u e) G) <= 6e-12).
  { unfold G. replace (vsub (vadd u e) (vadd g e)) with (vsub u g) by (generalize u g e; clear; intros; vring). lra. }
  (* compare the two normalised vectors through |G| *)
  set (k := 1 / norm G).
  assert (UG : unitv (unit_of G)).
  { unfold unit_of, unitv. rewrite dot_scale_l, dot_scale_r, <- norm_sq. field. lra. }
  assert (HK : norm (vsub (scale k (vadd u e)) (unit_of G)) <= 10/9 * 6e-12).
  { unfold unit_of. fold k. replace (vsub (scale k (vadd u e)) (scale k G)) with (scale k (vsub (vadd u e) G))
      by (generalize (vadd u e) G k; clear; intros; vring).
    rewrite norm_scale_abs. apply Rmult_le_compat; [apply Rabs_pos|apply norm_pos| |easy].
    unfold k. assert (0 < 1 / norm G <= 10/9); [|rewrite Rabs_right; lra].
    split; [apply Rdiv_lt_0_compat; lra|]. apply div_ub; lra. }
  assert (Kp : 0 < k) by (apply Rdiv_lt_0_compat; lra).
  rewrite <- (unit_of_scale k (vadd u e) Kp).
  eapply Rle_trans; [apply unit_of_close; [easy|lra]|]. lra.
Qed.

(** ** C55 *)
(** ranges and the position: palFk524 returns the direction of the FK4 position vector with the
    E-terms of aberration applied *)
Theorem C55_palFk524_position : forall r2 d2 dr2 dd2 px2 rv2,
  let p := dir r2 d2 in
  let v := motion r2 d2 (dr2 * PMF) (dd2 * PMF) (21.095 * rv2 * px2) in
  let P := vadd (mapp fk_emi_pp p) (mapp fk_emi_pv v) in
  let X := with_e (fk_rho P) P in
  let '(r, d, dr, dd, px, rv) := palFk524 r2 d2 dr2 dd2 px2 rv2 in
  conv r d /\ scale (norm X) (dir r d) = X.
Proof.
  intros. assert (EV : (VF : R) = 21.095) by (unfold VF; rn; lra).
  rewrite palFk524_val. cbv beta iota zeta. rewrite EV. fold p v. unfold fk4_pos. fold P. fold X.
  rewrite fk524_sph_val. destruct (fk_lonlat X) as (A & B & C & _). repeat split; easy.
Qed.
(** proper motions: away from the poles the returned dRA/dt, dDec/dt (radians per tropical year, hence
    the factor PMF) and, when the parallax is nonzero, the radial velocity are the components of the
    FK4 space motion XD along east, north and the line of sight *)
Theorem C55_palFk524_motion : forall r2 d2 dr2 dd2 px2 rv2,
  let p := dir r2 d2 in
  let v := motion r2 d2 (dr2 * PMF) (dd2 * PMF) (21.095 * rv2 * px2) in
  let P := vadd (mapp fk_emi_pp p) (mapp fk_emi_pv v) in
  let rho := fk_rho P in
  let X := with_e rho P in
  let XD := vsub (vadd (vadd (mapp fk_emi_vp p) (mapp fk_emi_vv v)) (scale rho fk_ad)) (scale (dot P fk_ad) X) in
  1e-30 < norm X * cosR (fk_lat X) ->
  let '(r, d, dr, dd, px, rv) := palFk524 r2 d2 dr2 dd2 px2 rv2 in
  XD = scale (norm X) (motion r d (dr * PMF) (dd * PMF) (dot X XD / dot X X)) /\
  (1e-30 < px2 -> 0 < rho -> px = px2 / rho /\ 21.095 * rv * px = dot X XD / (rho * rho)) /\
  (px2 <= 1e-30 -> px = px2 /\ rv = rv2).
Proof.
  intros r2 d2 dr2 dd2 px2 rv2 p v P rho X XD H. assert (EV : (VF : R) = 21.095) by (unfold VF; rn; lra).
  rewrite palFk524_val. cbv beta iota zeta. rewrite EV. fold p v. unfold fk4_pos, fk4_vel. fold P. fold rho. fold X. fold XD.
  rewrite fk524_sph_val. destruct (fk_lonlat X) as (_ & _ & _ & C). rewrite <- C in H.
  assert (T : TINY = 1e-30) by (unfold TINY; lra). rewrite T.
  rewrite (Rltb_true _ _ H).
  assert (NP : (PMF : R) <> 0).
  { rewrite PMF_val. assert (0 < 64800000 / PI) by (apply Rdiv_lt_0_compat; [lra|apply PI_RGT_0]). lra. }
  assert (Q : forall t : R, t / PMF * PMF = t) by (intros; field; easy). rewrite !Q.
  split; [apply fk_motion; lra|]. split.
  - intros H1 H2. rewrite (Rltb_true _ _ H1). split; [easy|]. rewrite EV. field. split; lra.
  - intros H1. rewrite Rltb_false by lra. easy.
Qed.
(** palFk54z is palFk524 for a star with no FK5 proper motion, parallax or radial velocity, moved
    to the epoch with the fictitious FK4 proper motion *)
Theorem C55_palFk54z : forall r2 d2 be,
  let '(r, d, dr, dd, px, rv) := palFk524 r2 d2 0 0 0 0 in
  palFk54z r2 d2 be = (r + dr * (be - 1950), d + dd * (be - 1950), dr, dd) /\ px = 0 /\ rv = 0.
Proof.
  intros. unfold palFk54z. rewrite lit1950. replace (lit (MkDec 0 (-1))) with 0 by (rn; lra).
  assert (E := fk524_sph_val). rewrite palFk524_val. cbv beta iota zeta. rewrite fk524_sph_val.
  rewrite (Rltb_false TINY 0) by (unfold TINY; lra). rops. repeat split.
Qed.
(** palFk45z and palFk54z are inverse at epoch B1950 to better than 1e-9 rad (0.2 mas) *)
Theorem C55_roundtrip : forall r2 d2,
  let '(r, d, dr, dd) := palFk54z r2 d2 1950 in
  let '(r', d') := palFk45z r d 1950 in
  conv r d /\ conv r' d' /\ chord r' d' r2 d2 <= 1e-9.
Proof.
  intros. assert (A := C55_palFk54z r2 d2 1950). assert (B := C55_palFk524_position r2 d2 0 0 0 0).
  cbv zeta in B.
  destruct (palFk524 r2 d2 0 0 0 0) as [[[[[r d] dr] dd] px] rv]. destruct A as (A & _ & _). rewrite A.
  replace (1950 - 1950) with 0 by ring. rewrite !Rmult_0_r, !Rplus_0_r.
  assert (V0 : motion r2 d2 (0 * PMF) (0 * PMF) (21.095 * 0 * 0) = vzero).
  { rewrite !Rmult_0_l, !Rmult_0_r. unfold motion. generalize (east r2 d2) (north r2 d2) (dir r2 d2). intros; vring. }
  rewrite V0, mapp_zero in B.
  replace (vadd (mapp fk_emi_pp (dir r2 d2)) vzero) with (mapp fk_emi_pp (dir r2 d2)) in B
    by (generalize (mapp fk_emi_pp (dir r2 d2)); intros; vring).
  destruct (fk_round (dir r2 d2) (dir_unit _ _)) as (F1 & F2 & F3).
  set (X := with_e (fk_rho (mapp fk_emi_pp (dir r2 d2))) (mapp fk_emi_pp (dir r2 d2))) in *.
  destruct B as [B1 B2].
  assert (D : dir r d = unit_of X).
  { assert (P := norm_gt0 X F1). unfold unit_of. rewrite <- B2 at 2. rewrite scale_scale.
    replace (1 / norm X * norm X) with 1 by (field; lra). now rewrite scale_1. }
  rewrite palFk45z_val. cbv beta iota zeta. rewrite D, fk_a1_1950.
  split; [easy|]. split; [apply C2s_anp_range|].
  unfold chord. rewrite (C2s_anp_dir _ F2). exact F3.
Qed.
(** palFk45z: remove the (adjusted) E-terms, transform to FK5, allow for the fictitious motion *)
Theorem C55_palFk45z : forall r d be,
  let a := vadd fk_a (scale ((be - 1950) / PMF) fk_ad) in
  let s := dir r d in
  let u := vsub (scale (1 + dot s a) s) a in
  let w := vadd (mapp fk_em_p u) (scale ((palEpj (palEpb2d be) - 2000) / PMF) (mapp fk_em_v u)) in
  let '(r2, d2) := palFk45z r d be in
  conv r2 d2 /\ scale (norm w) (dir r2 d2) = w.
Proof.
  intros. rewrite palFk45z_val. cbv beta iota zeta. fold (sub_e s a) in u.
  assert (E : mapp (fk_K be) (sub_e (dir r d) (fk_a1 be)) = w).
  { unfold fk_K. rewrite mapp_madd. reflexivity. }
  rewrite E. split; [apply C2s_anp_range|].
  etransitivity; [|exact (eraC2s_dir w)]. apply f_equal. apply dir_cong; [apply eraAnp_cong|apply cong_refl].
Qed.
