(** * Proofs: angle normalisation, spherical/Cartesian conversion, separation, bearing. *)
From Coq Require Import Reals ZArith Lra Lia Psatz Bool.
From Verif Require Import Num NumR Erfa Geom M_Sphere.
Local Open Scope R_scope.

Lemma palDrange_range : forall a, - PI <= palDrange a <= PI.
Proof.
  intros a. unfold palDrange. rewrite D2PI_val. rn. assert (Hpi := PI_RGT_0).
  assert (Hb := fmod_bound a (2 * PI) ltac:(lra)). apply Rabs_def2 in Hb.
  repeat rcase; lra.
Qed.
Lemma palDrange_cong : forall a, cong (palDrange a) a.
Proof.
  intros a. unfold palDrange. rewrite D2PI_val. rn.
  repeat rcase.
  - apply cong_trans with (fmodR a (2 * PI)); [|apply fmod_cong]. exists (-1)%Z. lra.
  - apply cong_trans with (fmodR a (2 * PI)); [|apply fmod_cong]. exists 1%Z. lra.
  - apply fmod_cong.
Qed.
Lemma palDrange_id : forall a, - PI <= a <= PI -> palDrange a = a.
Proof.
  intros a H. unfold palDrange. rewrite D2PI_val. rn. assert (Hpi := PI_RGT_0).
  rewrite fmod_small; [|lra|apply Rabs_def1; lra].
  repeat rcase; lra.
Qed.

(** ERFA kernels to specification vocabulary *)
Ltac era := repeat match goal with
  | |- context [eraPm ?a] => change (eraPm a) with (norm a)
  | |- context [eraPdp ?a ?b] => change (eraPdp a b) with (dot a b)
  | |- context [eraPxp ?a ?b] => change (eraPxp a b) with (cross a b)
  end.

(** ** separation *)
Lemma eraSepp_range : forall a b, 0 <= eraSepp a b <= PI.
Proof.
  intros a b. unfold eraSepp. era. rn.
  assert (Hpi := PI_RGT_0).
  assert (Hn := norm_pos (cross a b)). set (s := norm (cross a b)) in *. set (c := dot a b).
  assert (0 <= atan2R s c).
  { assert (Hg := atan2_range s c). destruct (atan2_polar s c) as [_ E].
    destruct (Rle_lt_dec 0 (atan2R s c)); [easy|exfalso].
    assert (sinR (atan2R s c) < 0) by (apply sin_lt_0_var; lra).
    assert (0 <= sqrtR (c * c + s * s)) by apply sqrt_pos.
    destruct H0.
    - nra.
    - symmetry in H0. apply sqrt_eq_0 in H0; [|nra].
      assert (c = 0) by nra. assert (s = 0) by nra.
      rewrite H1, H2 in r. unfold atan2R in r.
      destruct (Rlt_dec 0 0); [lra|]. lra. }
  generalize (atan2_range s c). repeat rcase; cbn; lra.
Qed.

Lemma sepp_hyp : forall a b, sqrtR (dot a b * dot a b + norm (cross a b) * norm (cross a b)) = norm a * norm b.
Proof.
  intros a b. rewrite norm_sq, lagrange.
  replace (dot a b * dot a b + (dot a a * dot b b - dot a b * dot a b)) with (dot a a * dot b b) by ring.
  unfold norm. apply sqrt_mult_alt. apply dot_pos.
Qed.
Lemma eraSepp_unf : forall a b, eraSepp a b =
  (if negb (Reqb (norm (cross a b)) 0) || negb (Reqb (dot a b) 0)
   then atan2R (norm (cross a b)) (dot a b) else 0).
Proof.
  intros a b. unfold eraSepp. cbv zeta. rn. fold (cross a b).
  generalize (eraPm_norm (eraPxp a b)) (eraPdp_dot a b) (eraPxp_cross a b). intros -> -> ->. reflexivity.
Qed.
Lemma eraSepp_polar : forall a b,
  dot a b = norm a * norm b * cosR (eraSepp a b) /\
  norm (cross a b) = norm a * norm b * sinR (eraSepp a b).
Proof.
  intros a b. rewrite eraSepp_unf.
  generalize (sepp_hyp a b). intros E.
  destruct (Reqb_spec (norm (cross a b)) 0) as [H1|H1]; cbn [negb orb].
  - destruct (Reqb_spec (dot a b) 0) as [H2|H2]; cbn [negb].
    + rewrite H1, H2 in *. replace (0 * 0 + 0 * 0) with 0 in E by ring. rewrite sqrt_0 in E.
      rewrite <- E. lra.
    + rewrite <- E. apply atan2_polar.
  - rewrite <- E. apply atan2_polar.
Qed.

Lemma eraSepp_sym : forall a b, eraSepp a b = eraSepp b a.
Proof.
  intros a b. rewrite !eraSepp_unf. rewrite (dot_comm b a).
  replace (norm (cross b a)) with (norm (cross a b)); [easy|].
  unfold norm. f_equal. rewrite !lagrange. rewrite (dot_comm b a). ring.
Qed.

(** ** bearing *)
(** local east and north unit vectors at the direction (a,b) *)
Definition east (a : R) : vec R := V (- sinR a) (cosR a) 0.
Definition north (a b : R) : vec R := V (- (cosR a * sinR b)) (- (sinR a * sinR b)) (cosR b).

Lemma eraPas_polar : forall a1 b1 a2 b2, exists rho, 0 <= rho /\
  dot (dir a2 b2) (east a1) = rho * sinR (eraPas a1 b1 a2 b2) /\
  dot (dir a2 b2) (north a1 b1) = rho * cosR (eraPas a1 b1 a2 b2).
Proof.
  intros. unfold eraPas. rn.
  set (y := sinR (a2 - a1) * cosR b2).
  set (x := sinR b2 * cosR b1 - cosR b2 * sinR b1 * cosR (a2 - a1)).
  assert (Ey : dot (dir a2 b2) (east a1) = y).
  { unfold y, dir, east, dot; cbn [vx vy vz]. rewrite sin_minus. ring. }
  assert (Ex : dot (dir a2 b2) (north a1 b1) = x).
  { unfold x, dir, north, dot; cbn [vx vy vz]. rewrite cos_minus. ring. }
  rewrite Ex, Ey. exists (sqrtR (x * x + y * y)). split; [apply sqrt_pos|].
  destruct (Reqb_spec x 0) as [H1|H1]; cbn [negb orb].
  - destruct (Reqb_spec y 0) as [H2|H2]; cbn [negb].
    + rewrite H1, H2, Rmult_0_l, Rplus_0_l, sqrt_0. lra.
    + generalize (atan2_polar y x); lra.
  - generalize (atan2_polar y x); lra.
Qed.
Lemma eraPas_range : forall a1 b1 a2 b2, - PI < eraPas a1 b1 a2 b2 <= PI.
Proof.
  intros. unfold eraPas; rn. assert (Hpi := PI_RGT_0).
  match goal with |- context [if ?b then _ else _] => destruct b end; [apply atan2_range|lra].
Qed.

Lemma eraPap_eraPas : forall a1 b1 a2 b2, 0 < cosR b1 ->
  eraPap (dir a1 b1) (dir a2 b2) = eraPas a1 b1 a2 b2.
Proof.
  intros a1 b1 a2 b2 Hc. unfold eraPap.
  rewrite eraPn_nz by apply dir_nz. cbn [fst snd].
  era.
  rewrite !(norm_unit _ (dir_unit _ _)). rn.
  rewrite (Reqb_false 1 0) by lra. cbn [orb].
  replace (1 / 1) with 1 by field. rewrite scale_1.
  set (eta := V _ _ _).
  set (y := sinR (a2 - a1) * cosR b2).
  set (x := sinR b2 * cosR b1 - cosR b2 * sinR b1 * cosR (a2 - a1)).
  assert (Hs := sc2 a1). assert (Hs1 := sc2 b1).
  assert (Ex : dot (eraPmp (dir a2 b2) (dir a1 b1)) eta = cosR b1 * x).
  { unfold x, eta, eraPmp, dir, dot; rn; cbn [vx vy vz]. rewrite cos_minus.
    set (sa := sinR a1) in *; set (ca := cosR a1) in *; set (sb := sinR b1) in *; set (cb := cosR b1) in *.
    set (sA := sinR a2); set (cA := cosR a2); set (sB := sinR b2); set (cB := cosR b2).
    transitivity (cB * cb * sb * (- (cA * ca + sA * sa)) + cb * cb * (sa * sa + ca * ca) * (sB - sb) + cb*cb*sb*(sa*sa+ca*ca)); [ring|].
    rewrite Hs. ring. }
  assert (Ey : dot (eraPmp (dir a2 b2) (dir a1 b1)) (cross eta (dir a1 b1)) = cosR b1 * y).
  { unfold y, eta, eraPmp, dir, dot, cross; rn; cbn [vx vy vz]. rewrite sin_minus.
    set (sa := sinR a1) in *; set (ca := cosR a1) in *; set (sb := sinR b1) in *; set (cb := cosR b1) in *.
    set (sA := sinR a2); set (cA := cosR a2); set (sB := sinR b2); set (cB := cosR b2).
    transitivity (cb * cB * (sA * ca - cA * sa) * (sb * sb + cb * cb * (sa * sa + ca * ca))); [ring|].
    rewrite Hs. replace (sb * sb + cb * cb * 1) with 1 by lra. ring. }
  rewrite Ex, Ey. unfold eraPas. rn. fold y x.
  destruct (Reqb_spec x 0) as [H1|H1]; cbn [negb orb].
  - rewrite H1, Rmult_0_r. destruct (Reqb_spec y 0) as [H2|H2]; cbn [negb].
    + rewrite H2, Rmult_0_r. rewrite Reqb_true by easy. cbn [andb].
      unfold atan2R. destruct (Rlt_dec 0 1); [|lra]. unfold Rdiv; rewrite Rmult_0_l. apply atan_0.
    + rewrite (Reqb_false (cosR b1 * y)) by nra. cbn [andb].
      rewrite <- (atan2_scale (cosR b1) y 0 Hc). now rewrite Rmult_0_r.
  - rewrite (Reqb_false (cosR b1 * x)) by nra. rewrite andb_false_r.
    apply atan2_scale. easy.
Qed.

(** palPa is the bearing of the zenith seen from the star (star at right
    ascension -ha, zenith at right ascension 0, declination phi). *)
Lemma palPa_bearing : forall ha dec phi, palPa ha dec phi = palDbear (- ha) dec 0 phi.
Proof.
  intros. unfold palPa, palDbear, eraPas. rn.
  replace (0 - - ha) with ha by ring.
  replace (cosR phi * sinR ha) with (sinR ha * cosR phi) by ring.
  replace (sinR phi * cosR dec - cosR phi * sinR dec * cosR ha) with
    (sinR phi * cosR dec - cosR phi * sinR dec * cosR ha) by ring.
  set (y := sinR ha * cosR phi). set (x := sinR phi * cosR dec - cosR phi * sinR dec * cosR ha).
  destruct (Reqb_spec y 0) as [H|H], (Reqb_spec x 0) as [H'|H']; cbn [negb andb orb]; auto.
  rewrite H. unfold atan2R. destruct (Rlt_dec 0 1); [|lra]. unfold Rdiv; rewrite Rmult_0_l. apply atan_0.
Qed.

(** ** rotation vectors *)
Lemma eraRv2m_zero : eraRv2m vzero = mid.
Proof.
  unfold eraRv2m, vzero; rn; cbn [vx vy vz].
  replace (0 * 0 + 0 * 0 + 0 * 0) with 0 by ring. rewrite sqrt_0.
  rewrite Rltb_false by lra. cbn [vx vy vz]. rewrite cos_0, sin_0. unfold mid. vsplit; ring.
Qed.

(** Rodrigues form of a rotation of the axes about the unit vector (x,y,z). *)
Definition rodrigues (u : vec R) (t : R) : mat R :=
  let x := vx u in let y := vy u in let z := vz u in
  let s := sinR t in let c := cosR t in let f := 1 - c in
  M (V (x * x * f + c) (x * y * f + z * s) (x * z * f - y * s))
    (V (y * x * f - z * s) (y * y * f + c) (y * z * f + x * s))
    (V (z * x * f + y * s) (z * y * f - x * s) (z * z * f + c)).
Lemma eraRv2m_rodrigues : forall w, w <> vzero ->
  eraRv2m w = rodrigues (scale (1 / norm w) w) (norm w).
Proof.
  intros w H. assert (Hn := norm_gt0 w H). unfold eraRv2m. rn.
  change (sqrtR (vx w * vx w + vy w * vy w + vz w * vz w)) with (norm w).
  rewrite Rltb_true by easy. cbn [vx vy vz].
  unfold rodrigues, scale; cbn [vx vy vz]. vsplit; field; lra.
Qed.
(* polynomial identities modulo x^2+y^2+z^2 = 1 and s^2+c^2 = 1 *)
Lemma rodrigues_rot : forall u t, unitv u -> rotation (rodrigues u t).
Proof.
  intros [x y z] t Hu. unfold unitv, dot in Hu; cbn in Hu.
  assert (Hs := sc2 t). unfold rodrigues; cbn [vx vy vz].
  set (s := sinR t) in *; set (c := cosR t) in *; clearbody s c.
  assert (Ez : z * z = 1 - x * x - y * y) by lra.
  assert (Es : s * s = 1 - c * c) by lra.
  split.
  - vnorm. unfold mid. vsplit; ring [Ez Es].
  - vnorm. ring [Ez Es].
Qed.
Lemma scale_unit : forall w, w <> vzero -> unitv (scale (1 / norm w) w).
Proof.
  intros w H. assert (Hn := norm_gt0 w H). unfold unitv.
  rewrite dot_scale_l, dot_scale_r, <- norm_sq. field. lra.
Qed.
Lemma vzero_dec : forall w : vec R, w = vzero \/ w <> vzero.
Proof.
  intros [x y z]. destruct (Req_EM_T x 0), (Req_EM_T y 0), (Req_EM_T z 0);
    [left; subst; easy| right; intros E; inversion E; easy ..].
Qed.
Lemma eraRv2m_rot : forall w, rotation (eraRv2m w).
Proof.
  intros w. destruct (vzero_dec w) as [->|H].
  - rewrite eraRv2m_zero. apply rotation_mid.
  - rewrite eraRv2m_rodrigues by easy. apply rodrigues_rot, scale_unit; easy.
Qed.
(** the axis is fixed *)
Lemma eraRv2m_axis : forall w, mapp (eraRv2m w) w = w.
Proof.
  intros w. destruct (vzero_dec w) as [->|H].
  - apply mapp_zero.
  - rewrite eraRv2m_rodrigues by easy. assert (Hn := norm_gt0 w H).
    assert (Hu := scale_unit w H). set (u := scale (1 / norm w) w) in *.
    assert (E : w = scale (norm w) u).
    { unfold u. rewrite scale_scale. replace (norm w * (1 / norm w)) with 1 by (field; lra). now rewrite scale_1. }
    rewrite E at 2 3. rewrite mapp_scale. f_equal.
    destruct u as [x y z]. unfold unitv, dot in Hu; cbn in Hu.
    unfold rodrigues; vnorm. set (c := cosR _); set (s := sinR _).
    assert (Ez : z * z = 1 - x * x - y * y) by lra.
    f_equal; ring [Ez].
Qed.
(** trace = 1 + 2 cos(angle) *)
Lemma eraRv2m_trace : forall w,
  vx (m0 (eraRv2m w)) + vy (m1 (eraRv2m w)) + vz (m2 (eraRv2m w)) = 1 + 2 * cosR (norm w).
Proof.
  intros w. destruct (vzero_dec w) as [->|H].
  - rewrite eraRv2m_zero. unfold norm. replace (dot vzero vzero) with 0 by (vnorm; ring).
    rewrite sqrt_0, cos_0. cbn. ring.
  - rewrite eraRv2m_rodrigues by easy. assert (Hu := scale_unit w H).
    destruct (scale (1 / norm w) w) as [x y z]. unfold unitv, dot in Hu; cbn in Hu.
    unfold rodrigues; cbn [vx vy vz m0 m1 m2]. set (c := cosR _).
    replace (x * x * (1 - c) + c + (y * y * (1 - c) + c) + (z * z * (1 - c) + c))
      with ((x * x + y * y + z * z) * (1 - c) + 3 * c) by ring. rewrite Hu. ring.
Qed.
Lemma eraRm2v_rodrigues : forall u t, unitv u -> 0 < t < PI -> eraRm2v (rodrigues u t) = scale t u.
Proof.
  intros [x y z] t Hu Ht. unfold unitv, dot in Hu; cbn in Hu.
  assert (Hsin : 0 < sinR t) by (apply sin_gt_0; lra).
  unfold eraRm2v, rodrigues; rn; cbn [vx vy vz m0 m1 m2].
  set (s := sinR t) in *. set (c := cosR t) in *.
  replace (y * z * (1 - c) + x * s - (z * y * (1 - c) - x * s)) with (2 * s * x) by ring.
  replace (z * x * (1 - c) + y * s - (x * z * (1 - c) - y * s)) with (2 * s * y) by ring.
  replace (x * y * (1 - c) + z * s - (y * x * (1 - c) - z * s)) with (2 * s * z) by ring.
  assert (E : sqrtR (2 * s * x * (2 * s * x) + 2 * s * y * (2 * s * y) + 2 * s * z * (2 * s * z)) = 2 * s).
  { replace (2 * s * x * (2 * s * x) + 2 * s * y * (2 * s * y) + 2 * s * z * (2 * s * z))
      with ((2 * s) * (2 * s) * (x * x + y * y + z * z)) by ring.
    rewrite Hu, Rmult_1_r. apply sqrt_square. lra. }
  rewrite E, Rltb_true by lra.
  replace (x * x * (1 - c) + c + (y * y * (1 - c) + c) + (z * z * (1 - c) + c) - 1)
    with ((x * x + y * y + z * z) * (1 - c) + 3 * c - 1) by ring.
  rewrite Hu. replace (1 * (1 - c) + 3 * c - 1) with (2 * c) by ring.
  rewrite atan2_scale by lra.
  assert (Et : atan2R s c = t).
  { replace s with (1 * sinR t) by (unfold s; ring). replace c with (1 * cosR t) by (unfold c; ring).
    apply atan2_unique; lra. }
  rewrite Et. unfold scale; cbn [vx vy vz]. f_equal; field; lra.
Qed.
Lemma eraRm2v_eraRv2m : forall w, norm w < PI -> eraRm2v (eraRv2m w) = w.
Proof.
  intros w Hw. destruct (vzero_dec w) as [->|H].
  - rewrite eraRv2m_zero. unfold eraRm2v, mid; rn; cbn [vx vy vz m0 m1 m2].
    replace ((0 - 0) * (0 - 0) + (0 - 0) * (0 - 0) + (0 - 0) * (0 - 0)) with 0 by ring.
    rewrite sqrt_0, Rltb_false by lra. easy.
  - assert (Hn := norm_gt0 w H). rewrite eraRv2m_rodrigues by easy.
    rewrite eraRm2v_rodrigues; [|now apply scale_unit|lra].
    rewrite scale_scale. replace (norm w * (1 / norm w)) with 1 by (field; lra). apply scale_1.
Qed.
