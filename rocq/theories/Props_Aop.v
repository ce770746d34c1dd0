(** * Theorems: observed place (C54) *)
From Coq Require Import Reals ZArith Lra Lia Psatz Bool Ascii String.
From Verif Require Import Num NumR Erfa Erfa2 Geom M_Sphere P_Sphere P_Eterms M_Time M_Frames P_Frames M_Refr P_Refz P_RefzC Props_Refr
  M_Place P_Place Props_Place P_Aop Props_Sphere.
From Flocq Require Import Raux.
From Interval Require Import Tactic.
Local Open Scope R_scope.

(** the parameters carry the sine and cosine of the latitude *)
Definition site_ok (p : aoprms R) : Prop := ao_sphi p = sinR (ao_phi p) /\ ao_cphi p = cosR (ao_phi p).
(** the same point of the sky as azimuth (N through E) and zenith distance, and as hour angle and declination,
    at latitude [phi] *)
Definition same_point (phi az zd ha dec : R) : Prop :=
  sinR dec = sinR phi * cosR zd + cosR phi * sinR zd * cosR az /\
  cosR dec * sinR ha = - (sinR zd * sinR az) /\
  cosR dec * cosR ha = cosR phi * cosR zd - sinR phi * sinR zd * cosR az.
(** sine of the elevation *)
Definition sin_elev (p : aoprms R) (rap dap : R) : R :=
  sinR (ao_phi p) * sinR dap + cosR (ao_phi p) * cosR dap * cosR (ao_st p - rap).

Lemma site_rot : forall p, site_ok p -> rotation (mhor (ao_sphi p) (ao_cphi p)).
Proof. intros p [E1 E2]. rewrite E1, E2. apply mhor_rot, sc1. Qed.

Lemma palAopqk_val : forall rap dap p,
  let ae := ap_hor (ao_sphi p) (ao_cphi p) (ap_aberr (ao_diurab p) (dir (rap - ao_st p) dap)) in
  let z := ap_zdobs p (zd_of ae) in
  let s := palDcc2s (ap_eq (ao_sphi p) (ao_cphi p) (hv (az_of ae) z)) in
  palAopqk rap dap p = (az_of ae, z, - fst s, snd s, palDranrm (ao_st p + fst s)).
Proof.
  intros. unfold palAopqk. cbv zeta. unfold palDcs2c. rewrite eraS2c_dir.
  change (rap - ao_st p) with (@sub R RA rap (ao_st p)) in ae. fold ae.
  replace (@lit R RA 0.0) with 0 by (rn; lra). 
  change (if (eqb (vx ae) 0 && eqb (vy ae) 0)%bool then 0 else atan2 (vy ae) (opp (vx ae))) with (az_of ae).
  change (atan2 (sqrt (add (mul (vx ae) (vx ae)) (mul (vy ae) (vy ae)))) (vz ae)) with (zd_of ae).
  fold z. change (V (mul (opp (cos (az_of ae))) (sin z)) (mul (sin (az_of ae)) (sin z)) (cos z)) with (hv (az_of ae) z).
  fold s. rewrite (surjective_pairing s). reflexivity.
Qed.

(** ** The five outputs of palAopqk describe one point *)
Theorem C54_observed_consistent : forall rap dap p, site_ok p ->
  let '(aob, zob, hob, dob, rob) := palAopqk rap dap p in
  same_point (ao_phi p) aob zob hob dob /\ cong rob (ao_st p - hob) /\
  - PI < aob <= PI /\ - PI <= hob < PI /\ - (PI / 2) <= dob <= PI / 2 /\ 0 <= rob < 2 * PI.
Proof.
  intros rap dap p H. rewrite palAopqk_val. cbv zeta.
  set (ae := ap_hor _ _ _). set (z := ap_zdobs p (zd_of ae)). set (az := az_of ae).
  set (w := ap_eq _ _ _). assert (R := site_rot p H). destruct H as [E1 E2].
  assert (U : unitv w) by (unfold w; rewrite ap_eq_val; apply rot_unit; [now apply rotation_mtr|apply hv_unit]).
  assert (D := palDcc2s_dir w (norm_nz w ltac:(rewrite (norm_unit w U); lra))). rewrite (unit_of_unit w U) in D.
  assert (G := proj2 (proj2 (proj2 C05_sph_cart)) w).
  assert (Az : - PI < az <= PI).
  { unfold az, az_of. assert (PP := PI_RGT_0). destruct (_ && _)%bool; [lra|apply atan2_range]. }
  set (hm := fst (palDcc2s w)) in *. set (dc := snd (palDcc2s w)) in *.
  assert (X := f_equal (@vx _) D). assert (Y := f_equal (@vy _) D). assert (Z := f_equal (@vz _) D).
  unfold dir, w, ap_eq, hv in X, Y, Z. cbn [vx vy vz] in X, Y, Z. rops. rewrite E1, E2 in X, Z.
  split; [|split; [|split; [|split; [|split]]]]; try lra.
  - unfold same_point. rewrite sin_neg, cos_neg. rewrite Z. split; [ring|]. split; lra.
  - replace (ao_st p - - hm) with (ao_st p + hm) by ring. exact (proj1 (proj2 (C03_palDranrm _))).
  - exact (proj1 (C03_palDranrm _)).
Qed.

(** ** palOapqk accepts any of the three forms *)
Lemma same_point_vec : forall phi az zd ha dec, same_point phi az zd ha dec ->
  mapp (mhor (sinR phi) (cosR phi)) (dir (- ha) dec) = hv az zd.
Proof.
  intros phi az zd ha dec (E1 & E2 & E3). unfold dir, mapp, mhor, hv, dot. cbn [vx vy vz m0 m1 m2]. rewrite sin_neg, cos_neg.
  replace (cosR ha * cosR dec) with (cosR phi * cosR zd - sinR phi * sinR zd * cosR az) by lra.
  replace (- sinR ha * cosR dec) with (sinR zd * sinR az) by lra. rewrite E1.
  assert (S := sc1 phi). generalize dependent (cosR phi). generalize (sinR phi). intros s c _ _ S.
  f_equal.
  - replace (s * (c * cosR zd - s * sinR zd * cosR az) + 0 * (sinR zd * sinR az) + - c * (s * cosR zd + c * sinR zd * cosR az))
      with (- ((s * s + c * c) * (cosR az * sinR zd))) by ring. rewrite S. ring.
  - ring.
  - replace (c * (c * cosR zd - s * sinR zd * cosR az) + 0 * (sinR zd * sinR az) + s * (s * cosR zd + c * sinR zd * cosR az))
      with ((s * s + c * c) * cosR zd) by ring. rewrite S. ring.
Qed.
Theorem C54_types_agree : forall p az zd ha dec ra, site_ok p -> same_point (ao_phi p) az zd ha dec ->
  cong ra (ao_st p - ha) ->
  palOapqk "H" ha dec p = palOapqk "A" az zd p /\ palOapqk "R" ra dec p = palOapqk "A" az zd p.
Proof.
  intros p az zd ha dec ra H S C. rewrite !palOapqk_val. cbv zeta.
  assert (A : oa_vec (ob_type "A") az zd p = hv az zd) by reflexivity.
  assert (B : oa_vec (ob_type "H") ha dec p = hv az zd).
  { cbn [ob_type Ascii.eqb Bool.eqb orb oa_vec]. unfold oa_vec. cbn. unfold palDcs2c. rewrite eraS2c_dir, ap_hor_val.
    destruct H as [-> ->]. rops. now apply same_point_vec. }
  assert (D : oa_vec (ob_type "R") ra dec p = hv az zd).
  { rewrite <- B. unfold ob_type. cbn [Ascii.eqb Bool.eqb orb]. unfold oa_vec. cbv zeta. unfold palDcs2c. rewrite !eraS2c_dir. rops.
    f_equal. apply dir_cong; [|apply cong_refl].
    apply cong_opp. apply cong_sym in C. replace ha with (ao_st p - (ao_st p - ha)) by ring.
    unfold Rminus at 1 2. apply cong_add; [apply cong_refl|]. apply cong_opp. now apply cong_sym. }
  now rewrite A, B, D.
Qed.
(** in particular palAopqk's three pairs are interchangeable as palOapqk input *)
Theorem C54_outputs_interchangeable : forall rap dap p, site_ok p ->
  let '(aob, zob, hob, dob, rob) := palAopqk rap dap p in
  palOapqk "H" hob dob p = palOapqk "A" aob zob p /\ palOapqk "R" rob dob p = palOapqk "A" aob zob p.
Proof.
  intros rap dap p H. assert (Q := C54_observed_consistent rap dap p H).
  destruct (palAopqk rap dap p) as [[[[aob zob] hob] dob] rob]. destruct Q as (Q1 & Q2 & _). now apply C54_types_agree.
Qed.
(** letters: case does not matter, and anything but R and H means A *)
Theorem C54_type_letters : forall ob1 ob2 p,
  palOapqk "r" ob1 ob2 p = palOapqk "R" ob1 ob2 p /\ palOapqk "h" ob1 ob2 p = palOapqk "H" ob1 ob2 p /\
  (forall c, c <> "r" -> c <> "R" -> c <> "h" -> c <> "H" -> palOapqk c ob1 ob2 p = palOapqk "A" ob1 ob2 p)%char.
Proof.
  intros. split; [reflexivity|]. split; [reflexivity|]. intros c H1 H2 H3 H4. rewrite !palOapqk_val. cbv zeta.
  replace (ob_type c) with (ob_type "A"); [reflexivity|]. unfold ob_type.
  apply Ascii.eqb_neq in H1, H2, H3, H4. now rewrite H1, H2, H3, H4.
Qed.

(** ** palOapqk undoes palAopqk *)
Lemma chord_shift : forall a1 d1 a2 d2 s, chord (a1 + s) d1 (a2 + s) d2 = chord a1 d1 a2 d2.
Proof.
  intros. unfold chord, norm. f_equal. unfold dir, vsub, dot. cbn [vx vy vz]. rewrite !cos_plus, !sin_plus.
  assert (S := sc1 s). generalize dependent (cosR s). generalize (sinR s). intros s0 c0 S.
  generalize (cosR a1) (sinR a1) (cosR a2) (sinR a2) (cosR d1) (sinR d1) (cosR d2) (sinR d2). intros c1 s1 c2 s2 k1 l1 k2 l2.
  match goal with |- ?l = _ => replace l with ((s0 * s0 + c0 * c0) * ((c1 * k1 - c2 * k2) * (c1 * k1 - c2 * k2) + (s1 * k1 - s2 * k2) * (s1 * k1 - s2 * k2)) + (l1 - l2) * (l1 - l2)) by ring end.
  rewrite S. ring.
Qed.
(** the common part: if palOapqk recovers the topocentric direction to [e] the result is good to about [d^2 + e] *)
Lemma back_to_apparent : forall p rap dap az z e, site_ok p -> Rabs (ao_diurab p) <= 1 / 10 ^ 5 -> e <= 1 / 100 ->
  let ae := ap_hor (ao_sphi p) (ao_cphi p) (ap_aberr (ao_diurab p) (dir (rap - ao_st p) dap)) in
  unitv (oz p (hv az z)) ->
  norm (vsub (oz p (hv az z)) (unit_of ae)) <= e ->
  let '(rap', dap') := palOapqk "A" az z p in
  chord rap' dap' rap dap <= 103 / 100 * (ao_diurab p * ao_diurab p + (1 + Rabs (ao_diurab p)) * e).
Proof.
  intros p rap dap az z e H Hd Le ae U He. assert (R := site_rot p H).
  set (m := mhor (ao_sphi p) (ao_cphi p)) in *. set (d := ao_diurab p) in *.
  set (v := dir (rap - ao_st p) dap) in *.
  rewrite palOapqk_val. cbv zeta. change (oa_vec (ob_type "A") az z p) with (hv az z).
  set (o := oz p (hv az z)) in *.
  rewrite ap_eq_val. fold m. set (w := mapp (mtr m) o).
  assert (Uw : unitv w) by (apply rot_unit; [now apply rotation_mtr|exact U]).
  assert (Ew : norm (vsub w (unit_of (ap_aberr d v))) <= e).
  { unfold w. rewrite <- (rot_app_tr m (unit_of (ap_aberr d v)) R). rewrite <- mapp_vsub, norm_rot by now apply rotation_mtr.
    rewrite <- unit_of_rot by easy. unfold ae in He. rewrite ap_hor_val in He. exact He. }
  destruct (daber_back d v w e Hd (dir_unit _ _) Uw Ew Le) as [NZ B].
  fold d. set (x := ap_aberr (- d) w) in *. assert (D := palDcc2s_dir x NZ).
  set (hm := fst (palDcc2s x)) in *. set (dc := snd (palDcc2s x)) in *.
  assert (C : dir (palDranrm (ao_st p + hm)) dc = dir (hm + ao_st p) dc).
  { apply dir_cong; [|apply cong_refl]. rewrite (Rplus_comm hm). exact (proj1 (proj2 (C03_palDranrm _))). }
  unfold chord. rewrite C. change (norm (vsub (dir (hm + ao_st p) dc) (dir rap dap))) with (chord (hm + ao_st p) dc rap dap).
  replace rap with ((rap - ao_st p) + ao_st p) by ring. rewrite chord_shift. unfold chord. rewrite D. fold v.
  rewrite Rmult_comm. replace (103 / 100) with (1 + 3 / 100) by lra. exact B.
Qed.
Lemma topo_facts : forall p rap dap, site_ok p -> Rabs (ao_diurab p) <= 1 / 10 ^ 5 ->
  let ae := ap_hor (ao_sphi p) (ao_cphi p) (ap_aberr (ao_diurab p) (dir (rap - ao_st p) dap)) in
  unit_of ae = hv (az_of ae) (zd_of ae) /\
  sin_elev p rap dap = cosR (zd_of ae) * norm (daber (ao_diurab p) (dir (rap - ao_st p) dap)).
Proof.
  intros p rap dap H Hd ae. assert (R := site_rot p H). set (d := ao_diurab p) in *. set (v := dir (rap - ao_st p) dap) in *.
  assert (Uv : unitv v) by apply dir_unit.
  assert (N := daber_norm d v Uv). apply Rabs_le_inv in N. assert (Y := vy_bound v Uv).
  assert (D := Rabs_le_inv d _ (Rle_refl _)).
  assert (F : 0 < 1 - d * vy v).
  { assert (Rabs (d * vy v) <= 1/10^5 * 1). { rewrite Rabs_mult. apply Rmult_le_compat; try apply Rabs_pos; [easy|]. apply Rabs_le; lra. }
    apply Rabs_le_inv in H0. lra. }
  assert (E : norm ae = (1 - d * vy v) * norm (daber d v)).
  { unfold ae. rewrite ap_hor_val, norm_rot by easy. rewrite ap_aberr_val, norm_scale by lra. reflexivity. }
  assert (P : 0 < norm ae) by (rewrite E; apply Rmult_lt_0_compat; lra).
  assert (Q := hv_of ae).
  split.
  - rewrite Q at 1. rewrite unit_of_scale by easy. apply unit_of_unit, hv_unit.
  - assert (Z := f_equal (@vz _) Q). rewrite E in Z.
    change (vz ae = (1 - d * vy v) * norm (daber d v) * cosR (zd_of ae)) in Z.
    assert (V : vz ae = (1 - d * vy v) * sin_elev p rap dap).
    { unfold ae. rewrite ap_aberr_val. fold v. unfold sin_elev. destruct H as [E1 E2]. unfold ap_hor, scale, daber, vadd, yhat. cbn [vx vy vz]. rops. rewrite E1, E2.
      rewrite <- (cos_neg (ao_st p - rap)). replace (- (ao_st p - rap)) with (rap - ao_st p) by ring.
      generalize (1 - d * vy v). intros k. unfold v, dir, scale. cbn [vx vy vz]. ring. }
    rewrite V in Z. apply Rmult_eq_reg_l with (1 - d * vy v); [|lra]. rewrite Z. ring.
Qed.

(** a star at least 15.1 degrees up (sine of the elevation at least 0.26), ordinary refraction constants:
    apparent -> observed -> apparent is good to the square of the diurnal aberration constant
    (2.4e-12 rad on the Earth's surface) plus 4e-15 rad *)
Theorem C54_round_trip_15deg : forall p rap dap, site_ok p -> Rabs (ao_diurab p) <= 1 / 10 ^ 5 ->
  usual (ao_refa p) (ao_refb p) -> 26 / 100 <= sin_elev p rap dap ->
  let '(aob, zob, hob, dob, rob) := palAopqk rap dap p in
  let '(rap', dap') := palOapqk "A" aob zob p in
  chord rap' dap' rap dap <= 103 / 100 * (ao_diurab p * ao_diurab p) + 4 / 10 ^ 15.
Proof.
  intros p rap dap H Hd [Ha Hb] He. assert (T := topo_facts p rap dap H Hd). cbv zeta in T.
  rewrite palAopqk_val. cbv zeta.
  set (ae := ap_hor _ _ _) in *. set (zt := zd_of ae) in *. set (az := az_of ae) in *.
  destruct T as [T1 T2]. assert (ZR := zd_range ae). fold zt in ZR.
  assert (N := daber_norm (ao_diurab p) _ (dir_unit (rap - ao_st p) dap)). apply Rabs_le_inv in N.
  assert (DB := Rabs_pos (ao_diurab p)).
  assert (C : 2599 / 10000 <= cosR zt).
  { apply Rnot_lt_le. intros L. rewrite T2 in He. set (n := norm (daber _ _)) in *.
    assert (cosR zt * n <= 2599/10000 * (1 + 1/10^5)).
    { apply Rle_trans with (2599/10000 * n); [apply Rmult_le_compat_r; lra|apply Rmult_le_compat_l; lra]. } lra. }
  assert (Zt : zt <= 1309 / 1000).
  { apply Rnot_lt_le. intros L. assert (cosR zt <= cosR (1309/1000)).
    { assert (PP : 1309/1000 <= PI) by interval. apply cos_decr_1; lra. }
    assert (cosR (1309/1000) <= 2589 / 10000) by interval. lra. }
  set (z := palRefz zt (ao_refa p) (ao_refb p)).
  assert (K : Rabs (z - zt) <= 3 / 1000 /\ Rabs (modelF (ao_refa p) (ao_refb p) z - zt) <= 3 / 10 ^ 15).
  { split.
    - unfold z. rewrite palRefz_low by interval.
      destruct (refz_resid (ao_refa p) (ao_refb p) zt (1312/1000) (378/100) Ha Hb ltac:(lra)) as [K _].
      + split; interval.
      + interval.
      + rewrite Rabs_pos_eq; lra.
      + exact K.
    - apply refz_80; auto. rewrite Rabs_pos_eq by lra. interval. }
  destruct K as [K1 K2]. apply Rabs_le_inv in K1.
  assert (ZB : 242535625 / 10 ^ 9 <= cosR z).
  { apply Rle_trans with (cosR (1312/1000)); [interval|].
    destruct (Rle_or_lt 0 z) as [L|L].
    - assert (PP : 1312/1000 <= PI) by interval. apply cos_decr_1; lra.
    - rewrite <- (cos_neg z). assert (PP : 1312/1000 <= PI) by interval. apply cos_decr_1; lra. }
  assert (AZ : ap_zdobs p zt = z).
  { unfold ap_zdobs. cbv zeta. fold z. replace zbreak with (242535625 / 10 ^ 9) by (unfold zbreak; rn; lra). rops.
    destruct (Rltb_spec (cosR z) (242535625 / 10 ^ 9)); [lra|reflexivity]. }
  rewrite AZ.
  assert (OZ : oz p (hv az z) = hv az (modelF (ao_refa p) (ao_refb p) z)).
  { apply oz_fast; [|exact ZB]. apply Rle_lt_trans with (1312/1000); [apply Rabs_le; lra|interval]. }
  assert (B := back_to_apparent p rap dap az z (3 / 10 ^ 15) H Hd ltac:(lra)). cbv zeta in B. fold ae in B.
  rewrite OZ, T1 in B. specialize (B (hv_unit _ _)).
  specialize (B ltac:(eapply Rle_trans; [apply hv_close|exact K2])).
  destruct (palOapqk "A" az z p) as [rap' dap']. eapply Rle_trans; [exact B|]. lra.
Qed.
(** no atmosphere: everywhere in the sky *)
Lemma no_refro : forall p x, ao_pmb p <= 0 -> ao_refro p x = 0.
Proof. intros p x H. unfold ao_refro. now apply C47_no_air. Qed.
Fixpoint refine (refro : R -> R) (zdt z0 : R) (k : nat) : R :=
  match k with O => z0 | S j => refine refro zdt (zdt - refro z0) j end.
Lemma ao_refro_def : forall p z, ao_refro p z = palRefro z (ao_hm p) (ao_tdk p) (ao_pmb p) (ao_rh p) (ao_wl p) (ao_phi p) (ao_tlr p) (1 / 10 ^ 8).
Proof. intros. unfold ao_refro. replace (@lit R RA 1e-8) with (1 / 10 ^ 8) by (rn; lra). reflexivity. Qed.
Local Opaque ao_refro palRefro.
Lemma refine_ext : forall f g zdt k z0, (forall z, f z = g z) -> refine f zdt z0 k = refine g zdt z0 k.
Proof. intros f g zdt. induction k as [|k IH]; intros z0 H; cbn [refine]; [reflexivity|]. rewrite H. now apply IH. Qed.
Lemma ap_loop_none : forall n (refro : R -> R) zdt dzd, refro zdt = 0 -> ap_loop n refro zdt dzd zdt = zdt.
Proof.
  induction n as [|n IH]; intros refro zdt dzd H; cbn [ap_loop]; [reflexivity|]. cbv zeta. rewrite H. rops.
  destruct (Rltb _ _); [|reflexivity]. replace (zdt - (zdt + 0 - zdt)) with zdt by ring. now apply IH.
Qed.
Theorem C54_round_trip_no_air : forall p rap dap, site_ok p -> Rabs (ao_diurab p) <= 1 / 10 ^ 5 ->
  ao_pmb p <= 0 -> ao_refa p = 0 -> ao_refb p = 0 ->
  let '(aob, zob, hob, dob, rob) := palAopqk rap dap p in
  let '(rap', dap') := palOapqk "A" aob zob p in
  chord rap' dap' rap dap <= 103 / 100 * (ao_diurab p * ao_diurab p).
Proof.
  intros p rap dap H Hd Hp Ha Hb. assert (T := topo_facts p rap dap H Hd). cbv zeta in T.
  rewrite palAopqk_val. cbv zeta.
  set (ae := ap_hor _ _ _) in *. set (zt := zd_of ae) in *. set (az := az_of ae) in *.
  destruct T as [T1 _]. assert (ZR := zd_range ae). fold zt in ZR.
  assert (RF : forall x, ao_refro p x = 0) by (intros x; now apply no_refro).
  assert (RZ : palRefz zt (ao_refa p) (ao_refb p) = zt).
  { rewrite palRefz_all, Ha, Hb. 
    assert (E : rz_ref (Rmin zt Z83) 0 0 = 0).
    { unfold rz_ref, rz_first. cbv zeta. rn. unfold Rdiv. ring_simplify.
      generalize (/ (1 + (0 + 3 * 0 * (sinR (Rmin zt Z83) * / cosR (Rmin zt Z83) * (sinR (Rmin zt Z83) * / cosR (Rmin zt Z83)))) * / (cosR (Rmin zt Z83) * cosR (Rmin zt Z83)))).
      intros. ring. }
    rewrite E. ring. }
  assert (AZ : ap_zdobs p zt = zt).
  { unfold ap_zdobs. cbv zeta. rewrite RZ. destruct (ltb _ _); [|reflexivity].
    apply ap_loop_none, RF. }
  rewrite AZ.
  assert (OZ := oz_none p az zt Ha Hb RF ZR).
  assert (B := back_to_apparent p rap dap az zt 0 H Hd ltac:(lra)). cbv zeta in B. fold ae in B.
  rewrite OZ, T1 in B. specialize (B (hv_unit _ _)).
  specialize (B ltac:(eapply Rle_trans; [apply hv_close|]; fold zt; replace (zt - zt) with 0 by ring; rewrite Rabs_R0; lra)).
  destruct (palOapqk "A" az zt p) as [rap' dap']. eapply Rle_trans; [exact B|]. lra.
Qed.


(** ** Low elevations: palAopqk iterates [z <- zdt - palRefro z] from palRefz's estimate until the step is at
    most 1e-10 rad, ten times at most *)
Lemma refine_S : forall refro zdt k z0, refine refro zdt z0 (S k) = zdt - refro (refine refro zdt z0 k).
Proof.
  intros refro zdt. induction k as [|k IH]; intros z0; [reflexivity|].
  change (refine refro zdt z0 (S (S k))) with (refine refro zdt (zdt - refro z0) (S k)). rewrite IH. reflexivity.
Qed.
Lemma ap_loop_refine : forall n (refro : R -> R) zdt dzd z0,
  exists k, (k <= n)%nat /\ ap_loop n refro zdt dzd z0 = refine refro zdt z0 k /\
    (k = n \/ match k with O => Rabs dzd <= 1 / 10 ^ 10
                      | S j => Rabs (refine refro zdt z0 k - refine refro zdt z0 j) <= 1 / 10 ^ 10 end) /\
    (1 / 10 ^ 10 < Rabs dzd -> (1 <= n)%nat -> (1 <= k)%nat).
Proof.
  induction n as [|n IH]; intros refro zdt dzd z0; cbn [ap_loop].
  { exists O. cbn. repeat split; auto; lia. }
  cbv zeta. rops. replace (litR 1e-10) with (1 / 10 ^ 10) by (rlit; lra).
  destruct (Rltb_spec (1 / 10 ^ 10) (Rabs dzd)) as [L|L].
  - replace (z0 - (z0 + refro z0 - zdt)) with (zdt - refro z0) by ring.
    destruct (IH refro zdt (z0 + refro z0 - zdt) (zdt - refro z0)) as (k & K1 & K2 & K3 & K4).
    exists (S k). split; [lia|]. split; [exact K2|]. split; [|lia].
    destruct K3 as [K3|K3]; [left; lia|right]. destruct k as [|k].
    + cbn [refine]. replace (zdt - refro z0 - z0) with (- (z0 + refro z0 - zdt)) by ring. now rewrite Rabs_Ropp.
    + exact K3.
  - exists O. split; [lia|]. split; [reflexivity|]. split; [right; lra|]. intros C. lra.
Qed.
Theorem C54_low_elevation : forall rap dap p, site_ok p -> Rabs (ao_diurab p) <= 1 / 10 ^ 5 ->
  exists zdt, 0 <= zdt <= PI /\
  (* the topocentric zenith distance: that of the star displaced by the diurnal aberration towards the east point *)
  sin_elev p rap dap = cosR zdt * norm (vadd (dir (rap - ao_st p) dap) (V 0 (ao_diurab p) 0)) /\
  let '(aob, zob, hob, dob, rob) := palAopqk rap dap p in
  let z0 := palRefz zdt (ao_refa p) (ao_refb p) in
  let refro z := palRefro z (ao_hm p) (ao_tdk p) (ao_pmb p) (ao_rh p) (ao_wl p) (ao_phi p) (ao_tlr p) (1 / 10 ^ 8) in
  let z := refine refro zdt z0 in
  if Rlt_dec (cosR z0) (242535625 / 10 ^ 9)
  then exists k, (k < 10)%nat /\ zob = z (S k) /\ (k = 9%nat \/ Rabs (z (S k) - z k) <= 1 / 10 ^ 10)
  else zob = z0.
Proof.
  intros rap dap p H Hd. assert (T := topo_facts p rap dap H Hd). cbv zeta in T. destruct T as [_ T].
  rewrite palAopqk_val. cbv zeta. set (ae := ap_hor _ _ _) in *. set (zt := zd_of ae) in *.
  exists zt. split; [apply zd_range|]. split.
  { rewrite T. f_equal. f_equal. unfold daber, yhat, scale. cbn [vx vy vz]. f_equal. f_equal; ring. }
  clear T. unfold ap_zdobs. cbv zeta. set (z0 := palRefz zt (ao_refa p) (ao_refb p)). rops.
  replace zbreak with (242535625 / 10 ^ 9) by (unfold zbreak; rn; lra).
  destruct (Rltb_spec (cosR z0) (242535625 / 10 ^ 9)) as [L|L]; destruct (Rlt_dec (cosR z0) (242535625 / 10 ^ 9)) as [M|M]; try contradiction; [|reflexivity].
  destruct (ap_loop_refine 10 (ao_refro p) zt (litR 1.0e1) z0) as (k & K1 & K2 & K3 & K4).
  assert (T : litR 1.0e1 = 10) by (rlit; lra).
  specialize (K4 ltac:(rewrite T, Rabs_pos_eq; lra) ltac:(lia)). destruct k as [|k]; [lia|].
  exists k. split; [lia|].
  split; [rewrite K2; apply refine_ext, ao_refro_def|].
  destruct K3 as [K3|K3]; [left; lia|right]. rewrite (refine_ext (ao_refro p) _ zt (S k) z0 (ao_refro_def p)), (refine_ext (ao_refro p) _ zt k z0 (ao_refro_def p)) in K3. exact K3.
Qed.

(** ** palAoppat and palAoppa *)
(** Greenwich mean sidereal time, IAU 1982 expression *)
Definition gmst82 (ut1 : R) : R :=
  let t := (ut1 - 515445 / 10) / 36525 in
  2 * PI * ut1 + (2411054841 / 10 ^ 5 + 8640184812866 / 10 ^ 6 * t + 93104 / 10 ^ 6 * t ^ 2 - 62 / 10 ^ 7 * t ^ 3) * (PI / 43200).
Theorem C54_palAoppat : forall date p,
  let q := palAoppat date p in
  0 <= ao_st q - ao_lon p < 2 * PI /\ cong (ao_st q - ao_lon p) (gmst82 date) /\
  (ao_phi q = ao_phi p /\ ao_sphi q = ao_sphi p /\ ao_cphi q = ao_cphi p /\ ao_diurab q = ao_diurab p /\
   ao_hm q = ao_hm p /\ ao_tdk q = ao_tdk p /\ ao_pmb q = ao_pmb p /\ ao_rh q = ao_rh p /\ ao_wl q = ao_wl p /\
   ao_tlr q = ao_tlr p /\ ao_refa q = ao_refa p /\ ao_refb q = ao_refb p /\ ao_lon q = ao_lon p).
Proof.
  intros. split; [|split]; [| |repeat split].
  - unfold q, palAoppat. cbn [ao_st]. unfold pal__Gmst. cbv zeta. rops. rewrite Rplus_minus_r || idtac.
    match goal with |- 0 <= palDranrm ?x + _ - _ < _ => assert (G := proj1 (C03_palDranrm x)) end. lra.
  - unfold q, palAoppat. cbn [ao_st]. unfold pal__Gmst. cbv zeta. rops.
    match goal with |- cong (palDranrm ?x + ?l - ?l) _ => replace (palDranrm x + l - l) with (palDranrm x) by ring; eapply cong_trans; [exact (proj1 (proj2 (C03_palDranrm x)))|] end.
    unfold gmst82. cbv zeta. apply cong_add.
    + unfold fmodR. exists (- Raux.Ztrunc (date / litR 1.0))%Z. replace (litR 1.0) with 1 by (rlit; lra). unfold D2PI. rn. rewrite opp_IZR. ring.
    + replace (@DS2R R RA) with (PI / 43200) by (unfold DS2R; rn; lra).
      match goal with |- cong ?a ?b => replace a with b; [apply cong_refl|] end.
      replace (litR 51544.5) with (515445 / 10) by (rlit; lra). replace (litR 24110.54841) with (2411054841 / 10 ^ 5) by (rlit; lra).
      replace (litR 8640184.812866) with (8640184812866 / 10 ^ 6) by (rlit; lra). replace (litR 0.093104) with (93104 / 10 ^ 6) by (rlit; lra).
      replace (litR 6.2e-6) with (62 / 10 ^ 7) by (rlit; lra). replace (litR 36525) with 36525 by (rlit; lra).
      generalize ((date - 515445 / 10) / 36525). intros t. ring.
Qed.

(** the Earth's figure used by palAoppa: distance from the axis in au *)
Lemma pow2_val : forall x, 0 < x -> powR x 2 = x * x.
Proof.
  intros x H. unfold powR. destruct (Rlt_dec 0 x); [|lra]. replace 2 with (1 + 1) by ring. rewrite Rpower_plus, !Rpower_1 by easy. reflexivity.
Qed.
Definition ellc (phi : R) : R :=
  1 / sqrtR (cosR phi * cosR phi + (1 - 1000 / 298257) * (1 - 1000 / 298257) * sinR phi * sinR phi).
Lemma pal__Geoc_val : forall phi h,
  pal__Geoc phi h = ((6378140 * ellc phi + h) * cosR phi / 149597870000,
    (6378140 * ((1 - 1000 / 298257) * (1 - 1000 / 298257) * ellc phi) + h) * sinR phi / 149597870000).
Proof.
  intros. unfold pal__Geoc, ellc. cbv zeta. rops. replace (litR 2.0) with 2 by (rlit; lra).
  replace (litR 1.0) with 1 by (rlit; lra). replace (litR 298.257) with (298257 / 1000) by (rlit; lra).
  replace (1 / (298257 / 1000)) with (1000 / 298257) by field.
  rewrite pow2_val by lra.
  replace (litR 6378140.0) with 6378140 by (rlit; lra). replace (litR 1.49597870e11) with 149597870000 by (rlit; lra).
  reflexivity.
Qed.
Lemma ellc_bounds : forall phi, 1 <= ellc phi <= 101 / 100.
Proof.
  intros phi. unfold ellc. assert (S := sc1 phi). set (s := sinR phi) in *. set (c := cosR phi) in *.
  assert (S0 := Rle_0_sqr s). unfold Rsqr in S0. assert (C0 := Rle_0_sqr c). unfold Rsqr in C0.
  set (k := (1 - 1000 / 298257) * (1 - 1000 / 298257)). assert (K : 993 / 1000 <= k <= 1) by (unfold k; lra).
  clearbody s c k. replace (k * s * s) with (k * (s * s)) by ring.
  set (q := c * c + k * (s * s)). assert (Q : 993 / 1000 <= q <= 1) by (unfold q; nra).
  assert (L : 992/1000 <= sqrtR q <= 1).
  { split.
    - apply Rle_trans with (sqrtR (992 / 1000 * (992 / 1000))); [rewrite sqrt_square by lra; lra|]. apply sqrt_le_1; lra.
    - rewrite <- sqrt_1. apply sqrt_le_1; lra. }
  split.
  - apply Rmult_le_reg_r with (sqrtR q); [lra|]. unfold Rdiv. rewrite Rmult_assoc, Rinv_l; lra.
  - apply Rmult_le_reg_r with (sqrtR q); [lra|]. unfold Rdiv. rewrite Rmult_assoc, Rinv_l; lra.
Qed.

(** the site's terrestrial direction after the polar motion [xp], [yp] (first order rotation) *)
Definition site_vec (elongm phim xp yp : R) : vec R :=
  let t := dir elongm phim in
  V (vx t - xp * vz t) (vy t + yp * vz t) (vz t + xp * vx t - yp * vy t).
Lemma site_nz : forall elongm phim xp yp, 0 < norm (site_vec elongm phim xp yp).
Proof.
  intros. apply norm_gt0. intros E.
  assert (U := dir_unit elongm phim). unfold site_vec in E. set (t := dir elongm phim) in *. clearbody t. vd t.
  cbn [vx vy vz] in E. assert (X := f_equal (@vx _) E). assert (Y := f_equal (@vy _) E). assert (Z := f_equal (@vz _) E).
  unfold vzero in X, Y, Z. unfold unitv, dot in U. cbn [vx vy vz] in *.
  (* w . t = 1 *)
  match type of U with ?a * ?a + ?b * ?b + ?c * ?c = 1 =>
    assert (D : (a - xp * c) * a + (b + yp * c) * b + (c + xp * a - yp * b) * c = 1) by lra;
    rewrite X, Y, Z in D; lra end.
Qed.
Local Opaque palRefco.
Theorem C54_palAoppa : forall date dut elongm phim hm xp yp tdk pmb rh wl tlr,
  let p := palAoppa date dut elongm phim hm xp yp tdk pmb rh wl tlr in
  site_ok p /\ - (PI / 2) <= ao_phi p <= PI / 2 /\
  (exists elong, dir elong (ao_phi p) = unit_of (site_vec elongm phim xp yp) /\
     ao_lon p = elong + pal__Eqeqx date + dut * (10027379093 / 10 ^ 10) * (PI / 43200)) /\
  (ao_hm p = hm /\ ao_tdk p = tdk /\ ao_pmb p = pmb /\ ao_rh p = rh /\ ao_wl p = wl /\ ao_tlr p = tlr) /\
  (ao_refa p, ao_refb p) = palRefco hm tdk pmb rh wl (ao_phi p) tlr (1 / 10 ^ 10) /\
  (0 <= 6378140 + hm -> 0 <= ao_diurab p) /\ (Rabs hm <= 10 ^ 6 -> Rabs (ao_diurab p) <= 2 / 10 ^ 6).
Proof.
  intros. unfold p, palAoppa. cbv zeta. rops.
  replace (litR 0.0) with 0 by (rlit; lra).
  set (xc := cosR elongm * cosR phim - xp * sinR phim). set (yc := sinR elongm * cosR phim + yp * sinR phim).
  set (zc := xp * (cosR elongm * cosR phim) - yp * (sinR elongm * cosR phim) + sinR phim).
  assert (W : site_vec elongm phim xp yp = V xc yc zc).
  { unfold site_vec, dir, xc, yc, zc. cbn [vx vy vz]. f_equal; ring. }
  assert (WN := site_nz elongm phim xp yp). rewrite W in *. clearbody xc yc zc.
  set (phi := atan2R zc (sqrtR (xc * xc + yc * yc))).
  rewrite pal__Geoc_val. rewrite (surjective_pairing (palRefco _ _ _ _ _ _ _ _)).
  unfold palAoppat. cbn [ao_phi ao_sphi ao_cphi ao_diurab ao_hm ao_tdk ao_pmb ao_rh ao_wl ao_tlr ao_refa ao_refb ao_lon].
  replace (litR 1.0027379093) with (10027379093 / 10 ^ 10) by (rlit; lra).
  replace (litR 173.14463331) with (17314463331 / 10 ^ 8) by (rlit; lra).
  replace (litR 1e-10) with (1 / 10 ^ 10) by (rlit; lra).
  replace (@DS2R R RA) with (PI / 43200) by (unfold DS2R; rn; lra). rewrite D2PI_val.
  assert (PP := PI_RGT_0).
  assert (RH : - (PI / 2) <= phi <= PI / 2) by (apply atan2_half, sqrt_pos).
  split; [split; reflexivity|]. split; [exact RH|]. split.
  2:split.
  2:repeat (split; [reflexivity|]); reflexivity.
  2:split.
  2:symmetry; apply surjective_pairing.
  2:split.
  - eexists. split; [|reflexivity].
    match goal with |- dir ?e _ = _ => set (elong := e) end. set (r := sqrtR (xc * xc + yc * yc)) in *.
    assert (P : xc = r * cosR elong /\ yc = r * sinR elong).
    { unfold elong. destruct (Reqb_spec xc 0) as [E1|E1]; destruct (Reqb_spec yc 0) as [E2|E2]; cbn [andb]; [|exact (atan2_polar yc xc)..].
      unfold r. rewrite E1, E2. replace (0 * 0 + 0 * 0) with 0 by ring. rewrite sqrt_0. split; ring. }
    assert (Q := atan2_polar zc r). fold phi in Q.
    assert (N : sqrtR (r * r + zc * zc) = norm (V xc yc zc)).
    { unfold norm, dot. cbn [vx vy vz]. f_equal. unfold r. rewrite sqrt_sqrt; [ring|].
      assert (A := Rle_0_sqr xc). assert (B := Rle_0_sqr yc). unfold Rsqr in *. lra. }
    rewrite N in Q. set (n := norm (V xc yc zc)) in *.
    unfold unit_of. fold n. unfold dir, scale. cbn [vx vy vz]. destruct P as [P1 P2]. destruct Q as [Q1 Q2].
    f_equal.
    + rewrite P1, Q1. field. lra.
    + rewrite P2, Q1. field. lra.
    + replace (1 / n * zc) with (1 / n * (n * sinR phi)) by now rewrite <- Q2. field. lra.
  - intros H. assert (E := ellc_bounds phi). assert (C : 0 <= cosR phi) by (apply cos_ge_0; lra).
    set (u := (6378140 * ellc phi + hm) * cosR phi). assert (U : 0 <= u) by (apply Rmult_le_pos; lra).
    replace (2 * PI * (u / 149597870000) * (10027379093 / 10 ^ 10) / (17314463331 / 10 ^ 8))
      with (PI * u * (2 / 149597870000 * (10027379093 / 10 ^ 10) / (17314463331 / 10 ^ 8))) by field.
    assert (PU : 0 <= PI * u) by (apply Rmult_le_pos; [lra|exact U]). lra.
  - intros H. assert (E := ellc_bounds phi). assert (C := COS_bound phi). apply Rabs_le_inv in H.
    set (u := (6378140 * ellc phi + hm) * cosR phi).
    assert (U : Rabs u <= 7500000).
    { unfold u. rewrite Rabs_mult. apply Rle_trans with (7500000 * 1); [|lra].
      apply Rmult_le_compat; try apply Rabs_pos; apply Rabs_le; lra. }
    apply Rabs_le_inv in U. assert (PU : PI <= 3142 / 1000) by interval.
    replace (2 * PI * (u / 149597870000) * (10027379093 / 10 ^ 10) / (17314463331 / 10 ^ 8))
      with (PI * u * (2 / 149597870000 * (10027379093 / 10 ^ 10) / (17314463331 / 10 ^ 8))) by field.
    assert (B : Rabs (PI * u) <= 3142 / 1000 * 7500000).
    { rewrite Rabs_mult, (Rabs_pos_eq PI) by lra. apply Rmult_le_compat; try apply Rabs_pos; try lra. apply Rabs_le; lra. }
    rewrite Rabs_mult. apply Rabs_le_inv in B.
    rewrite (Rabs_pos_eq (2 / 149597870000 * (10027379093 / 10 ^ 10) / (17314463331 / 10 ^ 8))) by lra.
    assert (B' : Rabs (PI * u) <= 3142 / 1000 * 7500000) by (apply Rabs_le; lra). lra.
Qed.
(** no polar motion: the latitude is the given one, the longitude congruent to the given one *)
Theorem C54_no_polar_motion : forall date dut elongm phim hm tdk pmb rh wl tlr, - (PI / 2) < phim < PI / 2 ->
  let p := palAoppa date dut elongm phim hm 0 0 tdk pmb rh wl tlr in
  ao_phi p = phim /\ cong (ao_lon p) (elongm + pal__Eqeqx date + dut * (10027379093 / 10 ^ 10) * (PI / 43200)).
Proof.
  intros date dut elongm phim hm tdk pmb rh wl tlr H p.
  destruct (C54_palAoppa date dut elongm phim hm 0 0 tdk pmb rh wl tlr) as (_ & R & (elong & E1 & E2) & _). fold p in R, E1, E2.
  replace (site_vec elongm phim 0 0) with (dir elongm phim) in E1.
  2:{ unfold site_vec. generalize (dir elongm phim). intros t. vd t. cbn [vx vy vz]. f_equal; ring. }
  rewrite unit_of_unit in E1 by apply dir_unit.
  assert (L := dir_inj_lat _ _ _ _ E1 R ltac:(lra)). split; [exact L|].
  rewrite E2. apply cong_add; [|apply cong_refl]. apply cong_add; [|apply cong_refl].
  apply (dir_inj_lon _ _ _ _ E1); lra.
Qed.
(** an airless site, end to end with the routines' own parameters: apparent -> observed -> apparent to 5e-12 rad,
    from any of the three kinds of observed coordinates *)
Theorem C54_end_to_end_no_air : forall rap dap date dut elongm phim hm xp yp tdk pmb rh wl tlr,
  pmb <= 0 -> Rabs hm <= 10 ^ 6 ->
  let '(aob, zob, hob, dob, rob) := palAop rap dap date dut elongm phim hm xp yp tdk pmb rh wl tlr in
  let back c o1 o2 := palOap c o1 o2 date dut elongm phim hm xp yp tdk pmb rh wl tlr in
  let near '(ra, da) := chord ra da rap dap <= 5 / 10 ^ 12 in
  near (back "A"%char aob zob) /\ near (back "H"%char hob dob) /\ near (back "R"%char rob dob).
Proof.
  intros rap dap date dut elongm phim hm xp yp tdk pmb rh wl tlr Hp Hh. unfold palAop, palOap.
  destruct (C54_palAoppa date dut elongm phim hm xp yp tdk pmb rh wl tlr) as (S & _ & _ & (_ & _ & Ep & _) & ER & _ & D).
  set (p := palAoppa date dut elongm phim hm xp yp tdk pmb rh wl tlr) in *. clearbody p. specialize (D Hh).
  assert (RC : ao_refa p = 0 /\ ao_refb p = 0).
  { Transparent palRefco. unfold palRefco in ER. cbv zeta in ER. rewrite !C47_no_air in ER by easy. injection ER as E1 E2. rewrite E1, E2. split; rn; field. }
  assert (B := C54_round_trip_no_air p rap dap S ltac:(lra) ltac:(lra) (proj1 RC) (proj2 RC)).
  assert (I := C54_outputs_interchangeable rap dap p S).
  destruct (palAopqk rap dap p) as [[[[aob zob] hob] dob] rob]. destruct I as [-> ->].
  destruct (palOapqk "A" aob zob p) as [r d].
  assert (Q : chord r d rap dap <= 5 / 10 ^ 12).
  { eapply Rle_trans; [exact B|]. assert (ao_diurab p * ao_diurab p <= 2 / 10^6 * (2 / 10^6)).
    { replace (ao_diurab p * ao_diurab p) with (Rabs (ao_diurab p) * Rabs (ao_diurab p)) by (rewrite <- Rabs_mult; apply Rabs_pos_eq, Rle_0_sqr).
      apply Rmult_le_compat; try apply Rabs_pos; easy. } lra. }
  auto.
Qed.
(** a site at latitude 0.5 with ordinary refraction and a star two hours past the meridian *)
Example C54_witness : exists p : aoprms R, site_ok p /\ Rabs (ao_diurab p) <= 1 / 10 ^ 5 /\
  usual (ao_refa p) (ao_refb p) /\ 26 / 100 <= sin_elev p (1/2) (3/10) /\ ao_st p = 1.
Proof.
  exists (Aoprms (1/2) (sinR (1/2)) (cosR (1/2)) (13 / 10 ^ 7) 0 280 1000 (1/2) (1/2) (65 / 10 ^ 4) (28 / 10 ^ 5) (- (3 / 10 ^ 7)) 0 1).
  unfold site_ok, usual, sin_elev. cbn [ao_phi ao_sphi ao_cphi ao_diurab ao_refa ao_refb ao_st].
  split; [split; reflexivity|]. split; [rewrite Rabs_pos_eq; lra|]. split; [split; lra|]. split; [interval|reflexivity].
Qed.
