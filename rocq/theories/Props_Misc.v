(** * Theorems: Hipparcos, sidereal time, fast refraction constants, version string (C72-C75) *)
From Coq Require Import Reals ZArith Lra Lia Psatz Bool List Ascii.
From Coquelicot Require Import Coquelicot.
From Interval Require Import Tactic.
From Verif Require Import Num NumR Erfa Erfa2 Geom M_Sphere P_Sphere M_Time P_Frames M_Misc M_Place M_Refr P_Refr Props_Atm Univ.
Import ListNotations.
Local Open Scope R_scope.
(** decimals to fractions of integers *)
Ltac dec := unfold Q2R; cbn [QArith_base.Qnum QArith_base.Qden];
  repeat match goal with |- context [Z.pow_pos ?a ?b] => let v := eval vm_compute in (Z.pow_pos a b) in change (Z.pow_pos a b) with v end.

(** ** C72: FK5 and Hipparcos *)
Definition mas : R := PI / 648000000.
(** orientation and spin of FK5 with respect to Hipparcos at J2000 and per year *)
Definition hip_epsilon : vec R := V (-19.9 * mas) (-9.1 * mas) (22.9 * mas).
Definition hip_omega : vec R := V (-0.30 * mas) (0.60 * mas) (0.70 * mas).
(** the rotation from FK5 to Hipparcos at Julian epoch [ep] *)
Definition hip_matrix (ep : R) : mat R := mmul (palDav2m hip_epsilon) (palDav2m (scale (ep - 2000) hip_omega)).

Lemma Rv2m_opp : forall w, eraRv2m (scale (-1) w) = mtr (eraRv2m w).
Proof.
  intro w. destruct (vzero_dec w) as [->|H].
  - replace (scale (-1) vzero) with vzero by (unfold scale, vzero; cbn [vx vy vz]; f_equal; ring). rewrite eraRv2m_zero. symmetry. apply mtr_mid.
  - assert (H' : scale (-1) w <> vzero).
    { intro E. apply H. rewrite <- (scale_1 w). replace 1 with (-1 * -1) by ring. rewrite <- scale_scale, E. unfold scale, vzero; cbn [vx vy vz]; f_equal; ring. }
    rewrite !eraRv2m_rodrigues by assumption.
    assert (N : norm (scale (-1) w) = norm w).
    { unfold norm. f_equal. unfold dot, scale. cbn [vx vy vz]. ring. }
    rewrite N. destruct w as [x y z]. set (n := norm (V x y z)). clearbody n.
    unfold rodrigues, scale, mtr. cbn [vx vy vz m0 m1 m2]. generalize (cosR n) (sinR n). intros c s. vsplit; ring.
Qed.
Lemma Rv2m_line : forall k t, k <> vzero -> eraRv2m (scale t k) = rodrigues (scale (1 / norm k) k) (t * norm k).
Proof.
  intros k t Hk. assert (Hn := norm_gt0 k Hk).
  assert (P : forall s, 0 < s -> eraRv2m (scale s k) = rodrigues (scale (1 / norm k) k) (s * norm k)).
  { intros s Hs. rewrite eraRv2m_rodrigues.
    - rewrite norm_scale by lra. rewrite scale_scale. f_equal. f_equal. field. lra.
    - intro E. apply Hk. rewrite <- (scale_1 k). replace 1 with (/ s * s) by (field; lra). rewrite <- scale_scale, E. unfold scale, vzero; cbn [vx vy vz]; f_equal; ring. }
  destruct (Rtotal_order t 0) as [L|[->|G]].
  - replace (scale t k) with (scale (-1) (scale (- t) k)) by (rewrite scale_scale; f_equal; ring).
    rewrite Rv2m_opp, P by lra. replace (- t * norm k) with (- (t * norm k)) by ring.
    generalize (t * norm k) (scale (1 / norm k) k). intros a [x y z]. unfold rodrigues, mtr. cbn [vx vy vz m0 m1 m2].
    rewrite cos_neg, sin_neg. generalize (cosR a) (sinR a). intros c s. vsplit; ring.
  - replace (scale 0 k) with vzero by (unfold scale, vzero; f_equal; ring). rewrite eraRv2m_zero, Rmult_0_l.
    destruct (scale (1 / norm k) k) as [x y z]. unfold rodrigues. cbn [vx vy vz]. rewrite cos_0, sin_0. unfold mid. vsplit; ring.
  - apply P. lra.
Qed.
Lemma hip_omega_nz : hip_omega <> vzero.
Proof. unfold hip_omega, vzero, mas. intro E. apply (f_equal vx) in E. cbn [vx] in E. assert (Hp := PI_RGT_0). lra. Qed.
Lemma hip_rot : forall ep, rotation (hip_matrix ep).
Proof. intro. apply rotation_mmul; apply eraRv2m_rot. Qed.
Lemma fk5hip_val : (eraFk5hip : mat R * vec R) = (palDav2m hip_epsilon, hip_omega).
Proof.
  unfold eraFk5hip, palDav2m, hip_epsilon, hip_omega, mas. unfold DAS2R. rops.
  replace (litR 648000) with 648000 by (rlit; lra). f_equal; [f_equal|]; f_equal; rlit; lra.
Qed.
Lemma hip_t : forall ep, ((MJD0 - DJ00 + (#51544.5 + (ep - #2000) * DJY)) / DJY)%num = ep - 2000.
Proof. intro. unfold MJD0, DJ00, DJY. rops. rlit. field. Qed.
Lemma mat_tr_mul : forall (a b : mat R) v, mapp (mtr (mmul a b)) v = mapp (mtr b) (mapp (mtr a) v).
Proof. intros. rewrite mtr_mmul, mapp_mmul. reflexivity. Qed.
Lemma axis_tr : forall w, mapp (mtr (eraRv2m w)) w = w.
Proof. intro w. rewrite <- (eraRv2m_axis w) at 2. apply rot_app_tr. apply eraRv2m_rot. Qed.
Lemma fk5hz_val : forall r5 d5 ep, palFk5hz r5 d5 ep =
  let w := mapp (hip_matrix ep) (dir r5 d5) in (eraAnp (fst (eraC2s w)), snd (eraC2s w)).
Proof.
  intros r5 d5 ep. unfold palFk5hz, eraEpj2jd, eraFk5hz. rewrite fk5hip_val.
  rewrite eraRxp_mapp, eraTrxp_mapp, eraS2c_dir, eraSxp_scale.
  assert (Et : (- (#2400000.5 - DJ00 + (#51544.5 + (ep - #2000) * DJY)) / DJY)%num = -1 * (ep - 2000)).
  { unfold DJ00, DJY. rops. rlit. field. }
  rewrite Et, <- scale_scale, Rv2m_opp, mtr_mtr, <- mapp_mmul. change (mmul (palDav2m hip_epsilon) (eraRv2m (scale (ep - 2000) hip_omega))) with (hip_matrix ep).
  cbv zeta. rewrite (surjective_pairing (eraC2s _)). reflexivity.
Qed.
Definition hip_pos (rh dh ep : R) : vec R := mapp (mtr (hip_matrix ep)) (dir rh dh).
Lemma hfk5z_arg : forall rh dh ep, palHfk5z rh dh ep =
  let '((w, d5, _), (dr5, dd5, _)) := eraPv2s (PV (hip_pos rh dh ep) (cross hip_omega (hip_pos rh dh ep))) in (eraAnp w, d5, dr5, dd5).
Proof.
  intros rh dh ep. unfold palHfk5z, eraEpj2jd, eraHfk5z. rewrite fk5hip_val.
  rewrite !eraRxp_mapp, !eraTrxp_mapp, !eraS2c_dir, !eraSxp_scale, !eraRxr_mmul, !eraPxp_cross.
  assert (Et : ((#2400000.5 - DJ00 + (#51544.5 + (ep - #2000) * DJY)) / DJY)%num = ep - 2000) by exact (hip_t ep).
  rewrite Et. change (mmul (palDav2m hip_epsilon) (eraRv2m (scale (ep - 2000) hip_omega))) with (hip_matrix ep).
  assert (Ev : mapp (mtr (hip_matrix ep)) (cross (mapp (palDav2m hip_epsilon) hip_omega) (dir rh dh)) = cross hip_omega (hip_pos rh dh ep)).
  { rewrite rot_cross by (apply rotation_mtr, hip_rot). unfold hip_pos. f_equal. unfold hip_matrix. rewrite mat_tr_mul.
    rewrite rot_app_tr by apply eraRv2m_rot.
    destruct (Req_dec (ep - 2000) 0) as [E|E].
    - rewrite E. replace (scale 0 hip_omega) with vzero by (unfold scale, vzero; f_equal; ring). unfold palDav2m. rewrite eraRv2m_zero, mtr_mid, mapp_mid. reflexivity.
    - assert (X := axis_tr (scale (ep - 2000) hip_omega)). rewrite mapp_scale in X.
      apply (f_equal (scale (/ (ep - 2000)))) in X. rewrite !scale_scale in X. replace (/ (ep - 2000) * (ep - 2000)) with 1 in X by (field; exact E).
      rewrite !scale_1 in X. exact X. }
  rewrite Ev. reflexivity.
Qed.
(** a velocity at right angles to a direction, from eraPv2s *)
Lemma Pv2s_unit : forall p v, unitv p -> dot p v = 0 ->
  let '((w, d, _), (dr, dd, _)) := eraPv2s (PV p v) in
  w = fst (eraC2s p) /\ d = snd (eraC2s p) /\ (vx p * vx p + vy p * vy p <> 0 -> v = vadd (scale (dr * cosR d) (east w)) (scale dd (north w d))).
Proof.
  intros [x y z] [xd yd zd] Hu Hd. unfold eraPv2s. cbn [pvp pvv vx vy vz]. unfold unitv, dot in Hu, Hd. cbn [vx vy vz] in Hu, Hd.
  rops. replace (litR 0.0) with 0 by (rlit; lra).
  rewrite Hu. replace (sqrtR 1) with 1 by (symmetry; apply sqrt_1).
  destruct (Reqb_spec 1 0) as [E|_]; [lra|].
  assert (C := eraC2s_unit (V x y z) Hu). set (cs := eraC2s (V x y z)) in *.
  assert (Ecs : cs = ((if Reqb (x * x + y * y) 0 then 0 else atan2R y x), (if Reqb z 0 then 0 else atan2R z (sqrtR (x * x + y * y))))).
  { unfold cs, eraC2s. cbn [vx vy vz]. rops. replace (litR 0) with 0 by (rlit; lra). reflexivity. }
  destruct (Reqb_spec (x * x + y * y) 0) as [E0|E0]; cbn [negb].
  - split; [rewrite Ecs; reflexivity|]. split; [|intro N; contradiction]. rewrite Ecs. cbn [snd]. destruct (Reqb z 0); reflexivity.
  - assert (E1 : atan2R y x = fst cs) by (rewrite Ecs; reflexivity).
    assert (Hp : 0 < x * x + y * y) by nra.
    assert (E2 : atan2R z (sqrtR (x * x + y * y)) = snd cs).
    { rewrite Ecs. cbn [snd]. destruct (Reqb_spec z 0) as [->|]; [|reflexivity]. unfold atan2R.
      destruct (Rlt_dec 0 (sqrtR (x * x + y * y))) as [_|N]; [|exfalso; apply N; apply sqrt_lt_R0; exact Hp]. unfold Rdiv. rewrite Rmult_0_l. apply atan_0. }
    rewrite E1, E2. split; [reflexivity|]. split; [reflexivity|]. intros _.
    assert (Rng := eraC2s_range (V x y z)). fold cs in Rng. destruct Rng as [_ Rng].
    assert (Hcd : 0 <= cosR (snd cs)) by (apply cos_ge_0; lra).
    clearbody cs. unfold dir in C. assert (Cx := f_equal (@vx R) C). assert (Cy := f_equal (@vy R) C). assert (Cz := f_equal (@vz R) C). cbn [vx vy vz] in Cx, Cy, Cz. clear C.
    set (ca := cosR (fst cs)) in *. set (sa := sinR (fst cs)) in *. set (cd := cosR (snd cs)) in *. set (sd := sinR (snd cs)) in *.
    assert (S1 : ca * ca + sa * sa = 1) by (unfold ca, sa; generalize (sc2 (fst cs)); lra).
    assert (S2 : cd * cd + sd * sd = 1) by (unfold cd, sd; generalize (sc2 (snd cs)); lra).
    assert (Exy : x * x + y * y = cd * cd).
    { transitivity (ca * cd * (ca * cd) + sa * cd * (sa * cd)); [rewrite Cx, Cy; reflexivity|].
      transitivity ((ca * ca + sa * sa) * (cd * cd)); [ring|rewrite S1; ring]. }
    assert (Hcd' : 0 < cd) by nra.
    rewrite Exy. rewrite sqrt_square by lra.
    unfold vadd, scale, east, north. cbn [vx vy vz]. fold ca sa sd cd.
    clearbody ca sa cd sd. subst x y z. clear Ecs E1 E2.
    assert (Hd' : cd * (ca * xd + sa * yd) = - (sd * zd)) by lra.
    f_equal.
    + apply (Rmult_eq_reg_l cd); [|lra].
      transitivity (- sa * (ca * yd - sa * xd) * cd + (- (ca * sd)) * (zd * cd * cd - sd * (cd * (ca * xd + sa * yd))) / 1 ); [|field; lra].
      rewrite Hd'. replace (zd * cd * cd - sd * - (sd * zd)) with (zd * (cd * cd + sd * sd)) by ring. rewrite S2.
      replace (- sa * (ca * yd - sa * xd) * cd + - (ca * sd) * (zd * 1) / 1) with (- sa * (ca * yd - sa * xd) * cd + ca * - (sd * zd)) by field.
      rewrite <- Hd'. transitivity (cd * xd * (ca * ca + sa * sa)); [rewrite S1; ring|ring].
    + apply (Rmult_eq_reg_l cd); [|lra].
      transitivity (ca * (ca * yd - sa * xd) * cd + (- (sa * sd)) * (zd * cd * cd - sd * (cd * (ca * xd + sa * yd))) / 1 ); [|field; lra].
      rewrite Hd'. replace (zd * cd * cd - sd * - (sd * zd)) with (zd * (cd * cd + sd * sd)) by ring. rewrite S2.
      replace (ca * (ca * yd - sa * xd) * cd + - (sa * sd) * (zd * 1) / 1) with (ca * (ca * yd - sa * xd) * cd + sa * - (sd * zd)) by field.
      rewrite <- Hd'. transitivity (cd * yd * (ca * ca + sa * sa)); [rewrite S1; ring|ring].
    + apply (Rmult_eq_reg_l cd); [|lra].
      transitivity (cd * (zd * cd * cd - sd * (cd * (ca * xd + sa * yd)))); [|field; lra].
      rewrite Hd'. replace (zd * cd * cd - sd * - (sd * zd)) with (zd * (cd * cd + sd * sd)) by ring. rewrite S2. ring.
Qed.
Lemma hip_perp : forall rh dh ep, dot (hip_pos rh dh ep) (cross hip_omega (hip_pos rh dh ep)) = 0.
Proof. intros. generalize hip_omega (hip_pos rh dh ep). intros; vring. Qed.
Lemma hip_unit : forall rh dh ep, unitv (hip_pos rh dh ep).
Proof. intros. apply rot_unit; [apply rotation_mtr, hip_rot|apply dir_unit]. Qed.
Lemma hfk5z_val : forall rh dh ep r5 d5 dr5 dd5, palHfk5z rh dh ep = (r5, d5, dr5, dd5) ->
  r5 = eraAnp (fst (eraC2s (hip_pos rh dh ep))) /\ d5 = snd (eraC2s (hip_pos rh dh ep)) /\
  (vx (hip_pos rh dh ep) * vx (hip_pos rh dh ep) + vy (hip_pos rh dh ep) * vy (hip_pos rh dh ep) <> 0 ->
   cross hip_omega (hip_pos rh dh ep) = vadd (scale (dr5 * cosR d5) (east r5)) (scale dd5 (north r5 d5))).
Proof.
  intros rh dh ep r5 d5 dr5 dd5 H. rewrite hfk5z_arg in H.
  assert (P := Pv2s_unit _ _ (hip_unit rh dh ep) (hip_perp rh dh ep)).
  destruct (eraPv2s _) as [[[w d] r] [[td pd] rd]]. assert (H1 := f_equal (fun q => fst (fst (fst q))) H). assert (H2 := f_equal (fun q => snd (fst (fst q))) H).
  assert (H3 := f_equal (fun q => snd (fst q)) H). assert (H4 := f_equal snd H). cbn [fst snd] in H1, H2, H3, H4. subst r5 d5 dr5 dd5.
  destruct P as [-> [-> P]]. split; [reflexivity|]. split; [reflexivity|]. intro N. rewrite (P N).
  assert (Ea := eraAnp_cong (fst (eraC2s (hip_pos rh dh ep)))). set (a := eraAnp _) in *. set (b := fst _) in *.
  assert (Ec : cosR a = cosR b) by (apply cong_cos; exact Ea). assert (Es : sinR a = sinR b) by (apply cong_sin; exact Ea).
  unfold east, north. rewrite Ec, Es. reflexivity.
Qed.
(** The catalogues are related by the rotation of 19.9, 9.1, 22.9 mas at J2000 drifting at 0.30, 0.60, 0.70 mas/yr *)
Theorem C72_meaning : forall rh dh ep r5 d5 dr5 dd5, palHfk5z rh dh ep = (r5, d5, dr5, dd5) ->
  0 <= r5 < 2 * PI /\ - (PI / 2) <= d5 <= PI / 2 /\ palDmxv (hip_matrix ep) (dir r5 d5) = dir rh dh.
Proof.
  intros rh dh ep r5 d5 dr5 dd5 H. destruct (hfk5z_val _ _ _ _ _ _ _ H) as [-> [-> _]].
  destruct (C2s_anp_range (hip_pos rh dh ep)) as [A B]. split; [exact A|]. split; [exact B|].
  rewrite C2s_anp_unit by apply hip_unit. unfold palDmxv. rewrite eraRxp_mapp. unfold hip_pos. apply rot_tr_app, hip_rot.
Qed.
Theorem C72_meaning_to_hipparcos : forall r5 d5 ep,
  let '(rh, dh) := palFk5hz r5 d5 ep in
  0 <= rh < 2 * PI /\ - (PI / 2) <= dh <= PI / 2 /\ dir rh dh = palDmxv (hip_matrix ep) (dir r5 d5).
Proof.
  intros. rewrite fk5hz_val. cbv zeta.
  destruct (C2s_anp_range (mapp (hip_matrix ep) (dir r5 d5))) as [A B]. split; [exact A|]. split; [exact B|].
  rewrite C2s_anp_unit by (apply rot_unit; [apply hip_rot|apply dir_unit]). unfold palDmxv. rewrite eraRxp_mapp. reflexivity.
Qed.
(** Each conversion undoes the other *)
Theorem C72_roundtrip : forall r d ep, - (PI / 2) < d < PI / 2 ->
  (let '(rh, dh) := palFk5hz r d ep in let '(r', d', _, _) := palHfk5z rh dh ep in d' = d /\ r' = palDranrm r) /\
  (let '(r5, d5, _, _) := palHfk5z r d ep in let '(r', d') := palFk5hz r5 d5 ep in d' = d /\ r' = palDranrm r).
Proof.
  intros r d ep Hd. split.
  - assert (A := C72_meaning_to_hipparcos r d ep). destruct (palFk5hz r d ep) as [rh dh]. destruct A as [_ [_ A]].
    destruct (palHfk5z rh dh ep) as [[[r' d'] x] y] eqn:E. destruct (C72_meaning _ _ _ _ _ _ _ E) as [B1 [B2 B]].
    rewrite A in B. unfold palDmxv in B. rewrite !eraRxp_mapp in B.
    apply (f_equal (mapp (mtr (hip_matrix ep)))) in B. rewrite !rot_app_tr in B by apply hip_rot.
    assert (d' = d) by (apply (dir_inj_lat _ _ _ _ B); lra). split; [assumption|].
    unfold palDranrm. rewrite <- (eraAnp_id r') by exact B1. apply eraAnp_of_cong. apply (dir_inj_lon _ _ _ _ B); lra.
  - destruct (palHfk5z r d ep) as [[[r5 d5] x] y] eqn:E. destruct (C72_meaning _ _ _ _ _ _ _ E) as [_ [_ B]].
    assert (A := C72_meaning_to_hipparcos r5 d5 ep). destruct (palFk5hz r5 d5 ep) as [r' d']. destruct A as [A1 [A2 A]].
    rewrite B in A.
    assert (d' = d) by (apply (dir_inj_lat _ _ _ _ A); lra). split; [assumption|].
    unfold palDranrm. rewrite <- (eraAnp_id r') by exact A1. apply eraAnp_of_cong. apply (dir_inj_lon _ _ _ _ A); lra.
Qed.
(** The FK5 proper motions returned are the derivatives, per Julian year of epoch, of the FK5 position returned *)
Definition vec_derive (f : R -> vec R) (t : R) (l : vec R) : Prop :=
  is_derive (fun s => vx (f s)) t (vx l) /\ is_derive (fun s => vy (f s)) t (vy l) /\ is_derive (fun s => vz (f s)) t (vz l).
Lemma rodrigues_derive : forall u n q t, unitv u ->
  vec_derive (fun s => mapp (mtr (rodrigues u (s * n))) q) t (cross (scale n u) (mapp (mtr (rodrigues u (t * n))) q)).
Proof.
  intros [x y z] n [a b c] t Hu. unfold unitv, dot in Hu. cbn [vx vy vz] in Hu.
  assert (Ds : is_derive (fun s : R => sinR (s * n)) t (n * cosR (t * n))) by (auto_derive; [exact I|ring]).
  assert (Dc : is_derive (fun s : R => cosR (s * n)) t (- (n * sinR (t * n)))) by (auto_derive; [exact I|ring]).
  assert (Lin : forall A0 B0 C0 (l : R), A0 * (n * cosR (t * n)) + B0 * (- (n * sinR (t * n))) = l ->
     is_derive (fun s : R => A0 * sinR (s * n) + B0 * cosR (s * n) + C0) t l).
  { intros A0 B0 C0 l <-. assert (X := is_derive_plus _ _ t _ _ (is_derive_plus _ _ t _ _ (is_derive_scal _ t A0 _ Ds) (is_derive_scal _ t B0 _ Dc)) (is_derive_const C0 t)).
    refine (is_derive_cong _ _ t _ _ (fun _ => eq_refl) _ X). unfold plus, zero. cbn. ring. }
  assert (Ez : z * z = 1 - x * x - y * y) by lra.
  set (s0 := sinR (t * n)) in *. set (c0 := cosR (t * n)) in *.
  unfold vec_derive, rodrigues, mtr, mapp, cross, scale, dot. cbn [vx vy vz m0 m1 m2].
  fold s0 c0. split; [|split].
  - refine (is_derive_cong _ _ t _ _ _ _ (Lin (y * c - z * b) (a - (x * x * a + y * x * b + z * x * c)) (x * x * a + y * x * b + z * x * c) _ eq_refl)).
    + intro s. cbn. ring.
    + cbn. clearbody s0 c0. clear Ds Dc Lin. ring [Ez].
  - refine (is_derive_cong _ _ t _ _ _ _ (Lin (z * a - x * c) (b - (x * y * a + y * y * b + z * y * c)) (x * y * a + y * y * b + z * y * c) _ eq_refl)).
    + intro s. cbn. ring.
    + cbn. clearbody s0 c0. clear Ds Dc Lin. ring [Ez].
  - refine (is_derive_cong _ _ t _ _ _ _ (Lin (x * b - y * a) (c - (x * z * a + y * z * b + z * z * c)) (x * z * a + y * z * b + z * z * c) _ eq_refl)).
    + intro s. cbn. ring.
    + cbn. clearbody s0 c0. clear Ds Dc Lin. ring [Ez].
Qed.
Lemma hip_derive : forall rh dh ep, vec_derive (hip_pos rh dh) ep (cross hip_omega (hip_pos rh dh ep)).
Proof.
  intros rh dh ep. set (q := mapp (mtr (palDav2m hip_epsilon)) (dir rh dh)).
  assert (E : forall s, hip_pos rh dh s = mapp (mtr (rodrigues (scale (1 / norm hip_omega) hip_omega) ((s - 2000) * norm hip_omega))) q).
  { intro s. unfold hip_pos, hip_matrix. rewrite mat_tr_mul. unfold palDav2m at 1. rewrite Rv2m_line by apply hip_omega_nz. reflexivity. }
  assert (Hu := scale_unit _ hip_omega_nz). assert (Hn := norm_gt0 _ hip_omega_nz).
  assert (D := rodrigues_derive _ (norm hip_omega) q (ep - 2000) Hu).
  rewrite scale_scale in D. replace (norm hip_omega * (1 / norm hip_omega)) with 1 in D by (field; lra). rewrite scale_1, <- E in D.
  assert (Sh : forall (f : R -> R) l, is_derive f (ep - 2000) l -> is_derive (fun s : R => f (s - 2000)) ep l).
  { intros f l Df. assert (D2 : is_derive (fun s : R => s - 2000) ep 1) by (auto_derive; [exact I|ring]).
    refine (is_derive_cong _ _ ep _ _ (fun _ => eq_refl) _ (is_derive_comp f (fun s : R => s - 2000) ep _ _ Df D2)). unfold scal. cbn. unfold mult. cbn. ring. }
  destruct D as [D1 [D2 D3]]. split; [|split].
  - refine (is_derive_cong _ _ ep _ _ _ eq_refl (Sh _ _ D1)). intro s. rewrite E. reflexivity.
  - refine (is_derive_cong _ _ ep _ _ _ eq_refl (Sh _ _ D2)). intro s. rewrite E. reflexivity.
  - refine (is_derive_cong _ _ ep _ _ _ eq_refl (Sh _ _ D3)). intro s. rewrite E. reflexivity.
Qed.
Theorem C72_proper_motion : forall rh dh ep r5 d5 dr5 dd5, palHfk5z rh dh ep = (r5, d5, dr5, dd5) -> - (PI / 2) < d5 < PI / 2 ->
  vec_derive (fun e => let '(r, d, _, _) := palHfk5z rh dh e in dir r d) ep
    (vadd (scale (dr5 * cosR d5) (east r5)) (scale dd5 (north r5 d5))).
Proof.
  intros rh dh ep r5 d5 dr5 dd5 H Hd. destruct (hfk5z_val _ _ _ _ _ _ _ H) as [E1 [E2 E3]].
  assert (Ed : forall e, (let '(r, d, _, _) := palHfk5z rh dh e in dir r d) = hip_pos rh dh e).
  { intro e. destruct (palHfk5z rh dh e) as [[[r d] x] y] eqn:Q. destruct (hfk5z_val _ _ _ _ _ _ _ Q) as [-> [-> _]]. apply C2s_anp_unit, hip_unit. }
  rewrite <- E3.
  - destruct (hip_derive rh dh ep) as [D1 [D2 D3]]. split; [|split].
    + refine (is_derive_cong _ _ ep _ _ _ eq_refl D1). intro s. rewrite Ed. reflexivity.
    + refine (is_derive_cong _ _ ep _ _ _ eq_refl D2). intro s. rewrite Ed. reflexivity.
    + refine (is_derive_cong _ _ ep _ _ _ eq_refl D3). intro s. rewrite Ed. reflexivity.
  - rewrite <- (Ed ep), H. unfold dir. cbn [vx vy vz]. intro Z.
    assert (C : 0 < cosR d5) by (apply cos_gt_0; lra).
    assert (S := sc2 r5). nra.
Qed.

(** ** C73: sidereal time *)
(** Earth rotation angle [du] days of UT1 after J2000.0 (IAU 2000 definition) *)
Definition earth_rotation (du : R) : R := 2 * PI * (0.7790572732640 + 1.00273781191135448 * du).
(** accumulated precession in right ascension, arcseconds, [t] centuries after J2000.0 *)
Definition prec_ra (t : R) : R := 0.014506 + 4612.156534 * t + 1.3915817 * t ^ 2 - 0.00000044 * t ^ 3 - 0.000029956 * t ^ 4 - 0.0000000368 * t ^ 5.
Definition arcsec : R := PI / 648000.
Lemma fmod1 : forall x, exists k, fmodR x 1 = x + IZR k.
Proof. intro x. unfold fmodR. match goal with |- context [IZR ?k * 1] => exists (- k)%Z end. rewrite opp_IZR. ring. Qed.
Lemma era00_cong : forall a b, cong (eraEra00 a b) (earth_rotation (a + b - 2451545)).
Proof.
  intros a b.
  assert (P : forall d1 d2, d1 + d2 = a + b -> cong (eraAnp (D2PI * (fmod d1 #1.0 + fmod d2 #1.0 + #0.7790572732640 + #0.00273781191135448 * (d1 + (d2 - DJ00))))%num) (earth_rotation (a + b - 2451545))).
  { intros d1 d2 E. eapply cong_trans; [apply eraAnp_cong|]. rewrite D2PI_val. unfold DJ00. rops. replace (litR 1.0) with 1 by (rlit; lra).
    replace (litR 0.7790572732640) with 0.7790572732640 by (rlit; lra). replace (litR 0.00273781191135448) with (1.00273781191135448 - 1) by (rlit; lra). replace (litR 2451545.0) with 2451545 by (rlit; lra).
    destruct (fmod1 d1) as [k1 ->]. destruct (fmod1 d2) as [k2 ->]. unfold earth_rotation. exists (k1 + k2 + 2451545)%Z.
    rewrite !plus_IZR, <- E. ring. }
  unfold eraEra00. destruct (a <? b)%num; apply P; ring.
Qed.
Lemma gmst06_cong : forall a b c d, cong (eraGmst06 a b c d) (earth_rotation (a + b - 2451545) + prec_ra ((c + d - 2451545) / 36525) * arcsec).
Proof.
  intros a b c d. unfold eraGmst06. eapply cong_trans; [apply eraAnp_cong|].
  match goal with |- cong ?l _ => replace l with (eraEra00 a b + prec_ra ((c + d - 2451545) / 36525) * arcsec) end.
  2:{ rops. f_equal. unfold jcent, DJ00, DAS2R, arcsec. rops. replace (litR 2451545.0) with 2451545 by (rlit; lra). replace (litR 36525.0) with 36525 by (rlit; lra).
      replace ((c - 2451545 + d) / 36525) with ((c + d - 2451545) / 36525) by field. generalize ((c + d - 2451545) / 36525). intro t.
      unfold prec_ra. replace (litR 0.014506) with 0.014506 by (rlit; lra). replace (litR 4612.156534) with 4612.156534 by (rlit; lra). replace (litR 1.3915817) with 1.3915817 by (rlit; lra).
      replace (litR 0.00000044) with 0.00000044 by (rlit; lra). replace (litR 0.000029956) with 0.000029956 by (rlit; lra). replace (litR 0.0000000368) with 0.0000000368 by (rlit; lra). replace (litR 648000) with 648000 by (rlit; lra). cbn [Rpow_def.pow]. ring. }
  destruct (era00_cong a b) as [k E]. exists k. rewrite E. ring.
Qed.
Theorem C73_palGmst : forall ut1, 0 <= palGmst ut1 < 2 * PI /\
  cong (palGmst ut1) (earth_rotation (ut1 - 51544.5) + prec_ra ((ut1 - 51544.5) / 36525) * arcsec).
Proof.
  intro ut1. split; [apply eraAnp_range|]. unfold palGmst. eapply cong_trans; [apply gmst06_cong|].
  unfold MJD0. rops. replace (litR 2400000.5) with 2400000.5 by (rlit; lra).
  replace (2400000.5 + ut1 - 2451545) with (ut1 - 51544.5) by lra. apply cong_refl.
Qed.
(** palGmsta is palGmst with the date in two parts, however divided *)
Theorem C73_palGmsta : forall date ut, palGmsta date ut = palGmst (date + ut).
Proof.
  intros. unfold palGmst, palGmsta, eraGmst06. apply eraAnp_of_cong. cbv zeta.
  assert (E : jcent (date + MJD0)%num ut = jcent MJD0 (date + ut)).
  { unfold jcent, MJD0, DJ00. rops. field. rlit. lra. }
  rewrite E. destruct (era00_cong (date + MJD0)%num ut) as [k1 E1]. destruct (era00_cong MJD0 (date + ut)) as [k2 E2]. rewrite E1, E2.
  replace ((date + MJD0)%num + ut) with ((MJD0 : R) + (date + ut)) by (rops; ring).
  exists (k1 - k2)%Z. rewrite minus_IZR. rops. ring.
Qed.
(** one mean solar day later the sidereal time has advanced by 1.00273790935 +- 4e-10 turns, for 1800-2200 *)
Theorem C73_advance : forall ut1, Rabs (ut1 - 51544.5) <= 73050 ->
  exists turns, cong (palGmst (ut1 + 1)) (palGmst ut1 + 2 * PI * turns) /\ Rabs (turns - 1.00273790935) <= 4e-10.
Proof.
  intros ut1 H. apply Rabs_le_between in H.
  exists (1.00273781191135448 + (prec_ra ((ut1 + 1 - 51544.5) / 36525) - prec_ra ((ut1 - 51544.5) / 36525)) / 1296000). split.
  - destruct (C73_palGmst ut1) as [_ [k1 E1]]. destruct (C73_palGmst (ut1 + 1)) as [_ [k2 E2]]. rewrite E1, E2.
    exists (k2 - k1)%Z. rewrite minus_IZR. unfold earth_rotation, arcsec. field.
  - unfold prec_ra. set (t := (ut1 - 51544.5) / 36525). replace ((ut1 + 1 - 51544.5) / 36525) with (t + 1 / 36525) by (unfold t; field).
    assert (Ht : -2 <= t <= 2.0001) by (unfold t; lra). clearbody t.
    match goal with |- Rabs ?e <= _ => replace e with (1.00273781191135448 - 1.00273790935 + (4612.156534 / 36525 + 1.3915817 * (2 * t / 36525 + 1 / 36525 ^ 2)
      - 0.00000044 * (3 * t ^ 2 / 36525 + 3 * t / 36525 ^ 2 + 1 / 36525 ^ 3) - 0.000029956 * (4 * t ^ 3 / 36525 + 6 * t ^ 2 / 36525 ^ 2 + 4 * t / 36525 ^ 3 + 1 / 36525 ^ 4)
      - 0.0000000368 * (5 * t ^ 4 / 36525 + 10 * t ^ 3 / 36525 ^ 2 + 10 * t ^ 2 / 36525 ^ 3 + 5 * t / 36525 ^ 4 + 1 / 36525 ^ 5)) / 1296000) by field end.
    interval.
Qed.
(** the sidereal time palAoppat puts into the observed-place parameters (IAU 1982 expression) is that of palGmst to 0.3 arcsec
    for a century either side of J2000 *)
Theorem C73_palAoppat : forall ut1, Rabs (ut1 - 51544.5) <= 36525 ->
  exists x, cong x (palGmst ut1) /\ Rabs (pal__Gmst ut1 - x) <= 0.3 * arcsec.
Proof.
  intros ut1 H. apply Rabs_le_between in H. set (t := (ut1 - 51544.5) / 36525).
  assert (Ht : -1 <= t <= 1) by (unfold t; lra).
  assert (E0 : cong (pal__Gmst ut1) (2 * PI * ut1 + (24110.54841 + 8640184.812866 * t + 0.093104 * t ^ 2 - 6.2e-6 * t ^ 3) * (15 * arcsec))).
  { unfold pal__Gmst, palDranrm. eapply cong_trans; [apply eraAnp_cong|]. rewrite D2PI_val. unfold DS2R. rops.
    replace (litR 1.0) with 1 by (rlit; lra). destruct (fmod1 ut1) as [k ->]. exists k.
    replace (litR 51544.5) with 51544.5 by (rlit; lra). replace (litR 36525) with 36525 by (rlit; lra). fold t. clearbody t.
    replace (litR 24110.54841) with 24110.54841 by (rlit; lra). replace (litR 8640184.812866) with 8640184.812866 by (rlit; lra). replace (litR 0.093104) with 0.093104 by (rlit; lra).
    replace (litR 6.2e-6) with 6.2e-6 by (rlit; lra). replace (litR 43200) with 43200 by (rlit; lra). unfold arcsec. cbn [Rpow_def.pow]. field. }
  destruct E0 as [k E0]. destruct (C73_palGmst ut1) as [_ [k2 E2]].
  exists (earth_rotation (ut1 - 51544.5) + prec_ra t * arcsec + IZR (k + 51544) * (2 * PI)). split.
  - rewrite E2. exists (k + 51544 - k2)%Z. fold t. rewrite !minus_IZR, !plus_IZR. ring.
  - rewrite E0, plus_IZR. replace ut1 with (36525 * t + 51544.5) by (unfold t; field). replace (36525 * t + 51544.5 - 51544.5) with (36525 * t) by ring.
    clearbody t. unfold earth_rotation, prec_ra, arcsec.
    match goal with |- Rabs ?e <= _ => assert (EE : e = 2 * PI * ((0.5 + 24110.54841 / 86400 - 0.7790572732640 - 0.014506 / 1296000) + (36525 + 8640184.812866 / 86400 - 1.00273781191135448 * 36525 - 4612.156534 / 1296000) * t
      + (0.093104 / 86400 - 1.3915817 / 1296000) * t ^ 2 - (6.2e-6 / 86400 - 0.00000044 / 1296000) * t ^ 3 + 0.000029956 / 1296000 * t ^ 4 + 0.0000000368 / 1296000 * t ^ 5)) end.
    { clear. dec. field. }
    rewrite EE. interval with (i_prec 80, i_bisect t, i_taylor t).
Qed.
Lemma eraAnpm_cong : forall a, cong (eraAnpm a) a.
Proof.
  intro a. unfold eraAnpm, DSIGN. rewrite D2PI_val. rops.
  assert (F := fmod_cong a). destruct (Rleb PI (Rabs (fmodR a (2 * PI)))); [|exact F].
  assert (P : forall s, s = 1 \/ s = -1 -> cong (fmodR a (2 * PI) - s * (2 * PI)) a).
  { intros s Hs. eapply cong_trans; [|exact F]. destruct Hs as [->| ->]; [exists (-1)%Z|exists 1%Z]; ring. }
  match goal with |- cong (_ - ?e) _ => assert (Q : e = 1 * (2 * PI) \/ e = -1 * (2 * PI)) end.
  { assert (Hp := PI_RGT_0). rewrite (Rabs_pos_eq (2 * PI)) by lra. match goal with |- context [if ?b then _ else _] => destruct b end; [right|left]; ring. }
  destruct Q as [-> | ->]; apply P; auto.
Qed.
(** adding palEqeqx to mean sidereal time gives apparent sidereal time, for any apparent sidereal time that is the Earth
    rotation angle plus a function of date *)
Theorem C73_palEqeqx : forall (gst06a : R -> R -> R -> R -> R) (eo : R -> R -> R),
  (forall a b c d, cong (gst06a a b c d) (eraEra00 a b - eo c d)) ->
  forall date ut1 : R, cong (eraGmst06 MJD0 ut1 MJD0 date + palEqeqx gst06a date) (gst06a MJD0 ut1 MJD0 date).
Proof.
  intros gst eo H date ut1. unfold palEqeqx, eraEe06a.
  destruct (eraAnpm_cong (gst #0.0 #0.0 MJD0 date - eraGmst06 #0.0 #0.0 MJD0 date)%num) as [k1 ->].
  destruct (H #0.0 #0.0 MJD0 date)%num as [k2 E2]. destruct (H MJD0 ut1 MJD0 date) as [k3 E3].
  destruct (gmst06_cong MJD0 ut1 MJD0 date) as [k4 E4]. destruct (gmst06_cong #0.0 #0.0 MJD0 date)%num as [k5 E5].
  destruct (era00_cong MJD0 ut1) as [k6 E6]. destruct (era00_cong #0.0 #0.0)%num as [k7 E7].
  rops. rewrite E4, E3, E2, E5, E6, E7.
  exists (k4 + k1 + k7 + k2 - k5 - k6 - k3)%Z. rewrite !minus_IZR, !plus_IZR. ring.
Qed.

(** ** C74: palRefcoq *)
(** [refc_gamma]: n - 1 at the observer, [refc_pw] the vapour pressure; arguments within limits *)
Lemma refcoq_val : forall tdk pmb rh wl,
  let t := clampR (-150) 200 (tdk - 273.15) in let p := clampR 0 10000 pmb in let r := clampR 0 1 rh in let w := clampR 0.1 1000000 wl in
  let tk := t + 273.15 in let pw := vapour0 tk p r in
  let gamma := if Rle_dec wl 100 then ((77.53484e-6 + (4.39108e-7 + 3.666e-9 / (w * w)) / (w * w)) * p - 11.2684e-6 * pw) / tk
               else (77.6890e-6 * p - (6.3938e-6 - 0.375463 / tk) * pw) / tk in
  let beta := if Rle_dec wl 100 then 4.4474e-6 * tk else 4.4474e-6 * tk * (1 - 0.0074 * pw) in
  palRefcoq tdk pmb rh wl = (gamma * (1 - beta), - gamma * (beta - gamma / 2)).
Proof.
  intros. unfold palRefcoq, eraRefco. rewrite !DMAX_R, !DMIN_R. rops.
  replace (litR 273.15) with 273.15 by (rlit; lra). replace (litR 150.0) with 150 by (rlit; lra). replace (litR 200.0) with 200 by (rlit; lra).
  replace (litR 0.0) with 0 by (rlit; lra). replace (litR 10000.0) with 10000 by (rlit; lra). replace (litR 1.0) with 1 by (rlit; lra).
  replace (litR 0.1) with 0.1 by (rlit; lra). replace (litR 1e6) with 1000000 by (rlit; lra). replace (litR 100.0) with 100 by (rlit; lra).
  replace (litR 10.0) with 10 by (rlit; lra). replace (litR 0.7859) with 0.7859 by (rlit; lra). replace (litR 0.03477) with 0.03477 by (rlit; lra).
  replace (litR 0.00412) with 0.00412 by (rlit; lra). replace (litR 4.5e-6) with 4.5e-6 by (rlit; lra). replace (litR 6e-10) with 6e-10 by (rlit; lra).
  replace (litR 77.53484e-6) with 77.53484e-6 by (rlit; lra). replace (litR 4.39108e-7) with 4.39108e-7 by (rlit; lra). replace (litR 3.666e-9) with 3.666e-9 by (rlit; lra).
  replace (litR 11.2684e-6) with 11.2684e-6 by (rlit; lra). replace (litR 77.6890e-6) with 77.6890e-6 by (rlit; lra). replace (litR 6.3938e-6) with 6.3938e-6 by (rlit; lra).
  replace (litR 0.375463) with 0.375463 by (rlit; lra). replace (litR 4.4474e-6) with 4.4474e-6 by (rlit; lra). replace (litR 0.0074) with 0.0074 by (rlit; lra). replace (litR 2.0) with 2 by (rlit; lra).
  replace (- (150)) with (-150) by lra. change (Rmin (Rmax (tdk - 273.15) (-150)) 200) with t. change (Rmin (Rmax pmb 0) 10000) with p. change (Rmin (Rmax rh 0) 1) with r. change (Rmin (Rmax wl 0.1) 1000000) with w.
  fold tk.
  match goal with |- context [if Rltb 0 p then ?x else 0] => assert (Epw : (if Rltb 0 p then x else 0) = pw) end.
  { unfold pw, vapour0, psat. replace (tk - 273.15) with t by (unfold tk; ring). destruct (Rltb_spec 0 p), (Rlt_dec 0 p); try contradiction; reflexivity. }
  rewrite !Epw. unfold gamma, beta. destruct (Rleb_spec wl 100), (Rle_dec wl 100); try contradiction; cbn [negb]; f_equal; try ring.
Qed.
Theorem C74_clamped : forall tdk pmb rh wl,
  palRefcoq tdk pmb rh wl = palRefcoq (clampR 123.15 473.15 tdk) (clampR 0 10000 pmb) (clampR 0 1 rh) (clampR 0.1 1000000 wl).
Proof.
  intros. rewrite (refcoq_val tdk), (refcoq_val (clampR 123.15 473.15 tdk)).
  assert (Et : clampR (-150) 200 (clampR 123.15 473.15 tdk - 273.15) = clampR (-150) 200 (tdk - 273.15)).
  { unfold clampR, Rmin, Rmax. repeat destruct (Rle_dec _ _); lra. }
  rewrite Et, !clampR_idem by lra. cbv zeta.
  assert (Ew : (clampR 0.1 1000000 wl <= 100) <-> wl <= 100) by (unfold clampR, Rmin, Rmax; repeat destruct (Rle_dec _ _); lra).
  destruct (Rle_dec wl 100), (Rle_dec (clampR 0.1 1000000 wl) 100); tauto || reflexivity.
Qed.
(** no air, no refraction *)
Theorem C74_no_air : forall tdk pmb rh wl, pmb <= 0 -> palRefcoq tdk pmb rh wl = (0, 0).
Proof.
  intros tdk pmb rh wl H. rewrite refcoq_val. cbv zeta.
  replace (clampR 0 10000 pmb) with 0 by (unfold clampR, Rmin, Rmax; repeat destruct (Rle_dec _ _); lra).
  assert (E : forall t r, vapour0 t 0 r = 0) by (intros; unfold vapour0; destruct (Rlt_dec 0 0); [lra|reflexivity]).
  rewrite !E. destruct (Rle_dec wl 100); f_equal; unfold Rdiv; ring.
Qed.
(** Consistency with palRefro: the constants are n0(1-beta) and -n0(beta - n0/2) of the refractivity n0 that palRefro's model
    atmosphere has at the observer (C71_surface), to 1e-9 mb/K, beta = 4.4474e-6 T, in the radio reduced by 0.0074 beta per mb of vapour *)
Theorem C74_surface_refractivity : forall tdk pmb rh wl, 123.15 <= tdk <= 473.15 -> 0 <= pmb <= 10000 -> 0 <= rh <= 1 -> 0.1 <= wl <= 1000000 -> wl <> 100 ->
  exists n0, Rabs (n0 - refractivity wl pmb (vapour0 tdk pmb rh) tdk) <= 3e-9 * pmb / tdk /\
    let beta := 4.4474e-6 * tdk * (if Rlt_dec wl 100 then 1 else 1 - 0.0074 * vapour0 tdk pmb rh) in
    palRefcoq tdk pmb rh wl = (n0 * (1 - beta), - n0 * (beta - n0 / 2)).
Proof.
  intros tdk pmb rh wl Ht Hp Hr Hw Hn.
  assert (C : forall lo hi x, lo <= x <= hi -> clampR lo hi x = x) by (intros; unfold clampR, Rmin, Rmax; repeat destruct (Rle_dec _ _); lra).
  rewrite refcoq_val. rewrite !C by lra. cbv zeta. replace (tdk - 273.15 + 273.15) with tdk by ring.
  destruct (Rlt_dec wl 100) as [L|L], (Rle_dec wl 100) as [L'|L']; try lra.
  - eexists. split; [|rewrite Rmult_1_r; reflexivity]. unfold refractivity. destruct (Rlt_dec wl 100); [|contradiction].
    set (pw := vapour0 tdk pmb rh). set (q := / (wl * wl)).
    assert (Hq : 0 <= q <= 100).
    { unfold q. split; [left; apply Rinv_0_lt_compat; nra|]. replace 100 with (/ 0.01) by lra. apply Rinv_le_contravar; nra. }
    match goal with |- Rabs ?e <= _ => assert (EE : e = ((77.53484e-6 - 287.6155 * 273.15e-6 / 1013.25) + (4.39108e-7 - 1.62887 * 273.15e-6 / 1013.25) * q + (3.666e-9 - 0.01360 * 273.15e-6 / 1013.25) * q * q) * (pmb / tdk)) end.
    { unfold q. clearbody pw. dec. field. repeat split; lra. }
    rewrite EE, Rabs_mult. assert (Hpt : 0 <= pmb / tdk) by (apply Rmult_le_pos; [lra|left; apply Rinv_0_lt_compat; lra]).
    rewrite (Rabs_pos_eq (pmb / tdk)) by exact Hpt. replace (3e-9 * pmb / tdk) with (3e-9 * (pmb / tdk)) by (unfold Rdiv; ring).
    apply Rmult_le_compat_r; [exact Hpt|]. clearbody q. interval.
  - eexists. split; [|reflexivity]. unfold refractivity. destruct (Rlt_dec wl 100); [contradiction|].
    set (pw := vapour0 tdk pmb rh). match goal with |- Rabs ?e <= _ => replace e with 0 by (clearbody pw; dec; field; lra) end.
    rewrite Rabs_R0. unfold Rdiv. rewrite Rmult_assoc. apply Rmult_le_pos; [lra|]. apply Rmult_le_pos; [lra|left; apply Rinv_0_lt_compat; lra].
Qed.

(** ** C75: palVers *)
(** with a buffer of at least [verlen] > 0 bytes: exactly the first [verlen] bytes are written, they hold the longest prefix of
    the version that fits and a terminating NUL; a null pointer is allowed *)
Theorem C75_palVers : forall version vernum buf verlen, (0 < verlen <= length buf)%nat -> 
  exists out, palVers version vernum (Some buf) verlen = Some (Some out, vernum) /\ length out = length buf /\
    skipn verlen out = skipn verlen buf /\
    (exists rest, out = firstn (verlen - 1) version ++ NUL :: rest).
Proof.
  intros version vernum buf n [H0 H1]. unfold palVers, my__strlcpy, strncpy.
  assert (E : Nat.ltb (length buf) n = false) by (apply Nat.ltb_ge; exact H1). rewrite E.
  set (d := firstn n (version ++ repeat NUL n) ++ skipn n buf).
  assert (L1 : length (firstn n (version ++ repeat NUL n)) = n) by (rewrite firstn_length, app_length, repeat_length; lia).
  assert (Ld : length d = length buf) by (unfold d; rewrite app_length, L1, skipn_length; lia).
  unfold set_at. rewrite Ld.
  assert (E2 : ((Z.of_nat n - 1 <? 0)%Z || (Z.of_nat (length buf) <=? Z.of_nat n - 1)%Z)%bool = false).
  { apply Bool.orb_false_iff. split; [apply Z.ltb_ge|apply Z.leb_gt]; lia. }
  rewrite E2. replace (Z.to_nat (Z.of_nat n - 1)) with (n - 1)%nat by lia. replace (S (n - 1)) with n by lia.
  eexists. split; [reflexivity|].
  assert (Sk : skipn n d = skipn n buf).
  { unfold d. rewrite skipn_app, L1, Nat.sub_diag, skipn_all2 by lia. reflexivity. }
  assert (L2 : length (firstn (n - 1) d) = (n - 1)%nat) by (rewrite firstn_length, Ld; lia).
  split; [|split].
  - rewrite app_length, L2. cbn [length]. rewrite skipn_length, Ld. lia.
  - rewrite Sk. rewrite skipn_app, L2, skipn_all2 by lia. replace (n - (n - 1))%nat with 1%nat by lia. reflexivity.
  - assert (F : firstn (n - 1) d = firstn (n - 1) (version ++ repeat NUL n)).
    { unfold d. rewrite firstn_app, L1. replace (n - 1 - n)%nat with 0%nat by lia. cbn [firstn]. rewrite app_nil_r, firstn_firstn. f_equal. lia. }
    rewrite F, firstn_app.
    destruct (Nat.le_gt_cases (n - 1) (length version)) as [C|C].
    + replace (n - 1 - length version)%nat with 0%nat by lia. cbn [firstn]. rewrite app_nil_r. eexists. reflexivity.
    + assert (R1 : forall k m, (k <= m)%nat -> firstn k (repeat NUL m) = repeat NUL k).
      { induction k; intros m Hm; [reflexivity|]. destruct m; [lia|]. cbn. f_equal. apply IHk. lia. }
      rewrite R1 by lia. destruct (n - 1 - length version)%nat as [|k] eqn:K; [lia|]. cbn [repeat]. rewrite <- app_assoc. cbn [app]. eexists. reflexivity.
Qed.
Theorem C75_null_pointer : forall version vernum verlen, palVers version vernum None verlen = Some (None, vernum).
Proof. reflexivity. Qed.
(** verlen = 0, which strlcpy and snprintf accept, makes palVers write before the buffer *)
Theorem C75_zero_length_refuted : forall version vernum buf, palVers version vernum (Some buf) 0 = None.
Proof.
  intros. unfold palVers, my__strlcpy, strncpy. replace (Nat.ltb (length buf) 0) with false by (symmetry; apply Nat.ltb_ge; lia).
  unfold set_at. reflexivity.
Qed.
Example C75_eg : exists out, palVers (["0"; "."; "9"; "."; "1"; "0"]%char) 9010 (Some (repeat NUL 8)) 4 = Some (Some out, 9010%Z) /\
  out = ["0"; "."; "9"]%char ++ repeat NUL 5.
Proof. eexists. split; reflexivity. Qed.
Example C74_eg : 123.15 <= 280 <= 473.15 /\ 0 <= 1000 <= 10000 /\ 0 <= 0.5 <= 1 /\ 0.1 <= 0.55 <= 1000000 /\ 0.55 <> 100.
Proof. repeat split; lra. Qed.
Example C73_eg : Rabs (53736 - 51544.5) <= 36525. Proof. rewrite Rabs_pos_eq; lra. Qed.
