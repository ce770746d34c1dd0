(** * Specification-level Euclidean geometry over R, independent of the models,
      and the proof that the ERFA kernels compute it. *)
From Coq Require Import Reals ZArith Lra Lia Psatz Bool.
From Flocq Require Import Core.Raux.
From Verif Require Import Num NumR Erfa.
Local Open Scope R_scope.

Notation sinR := Rtrigo_def.sin.
Notation cosR := Rtrigo_def.cos.
Notation sqrtR := R_sqrt.sqrt.

(** ** Specification *)
Definition dot (a b : vec R) : R := vx a * vx b + vy a * vy b + vz a * vz b.
Definition cross (a b : vec R) : vec R :=
  V (vy a * vz b - vz a * vy b) (vz a * vx b - vx a * vz b) (vx a * vy b - vy a * vx b).
Definition norm (a : vec R) : R := sqrtR (dot a a).
Definition scale (k : R) (a : vec R) : vec R := V (k * vx a) (k * vy a) (k * vz a).
Definition vadd (a b : vec R) : vec R := V (vx a + vx b) (vy a + vy b) (vz a + vz b).
Definition vsub (a b : vec R) : vec R := V (vx a - vx b) (vy a - vy b) (vz a - vz b).
Definition vzero : vec R := V 0 0 0.
Definition unitv (a : vec R) : Prop := dot a a = 1.
(** direction with longitude [a] and latitude [b] *)
Definition dir (a b : R) : vec R := V (cosR a * cosR b) (sinR a * cosR b) (sinR b).
(** matrix acting on column vectors *)
Definition mapp (m : mat R) (v : vec R) : vec R := V (dot (m0 m) v) (dot (m1 m) v) (dot (m2 m) v).
Definition mtr (r : mat R) : mat R :=
  M (V (vx (m0 r)) (vx (m1 r)) (vx (m2 r))) (V (vy (m0 r)) (vy (m1 r)) (vy (m2 r)))
    (V (vz (m0 r)) (vz (m1 r)) (vz (m2 r))).
Definition mmul (a b : mat R) : mat R :=
  let t := mtr b in
  M (V (dot (m0 a) (m0 t)) (dot (m0 a) (m1 t)) (dot (m0 a) (m2 t)))
    (V (dot (m1 a) (m0 t)) (dot (m1 a) (m1 t)) (dot (m1 a) (m2 t)))
    (V (dot (m2 a) (m0 t)) (dot (m2 a) (m1 t)) (dot (m2 a) (m2 t))).
Definition mid : mat R := M (V 1 0 0) (V 0 1 0) (V 0 0 1).
Definition det3 (m : mat R) : R := dot (m0 m) (cross (m1 m) (m2 m)).
(** proper rotation: orthonormal rows and determinant +1 *)
Definition rotation (m : mat R) : Prop := mmul m (mtr m) = mid /\ det3 m = 1.
(** elementary rotations of the axes, by the right-hand rule *)
Definition rotx (t : R) : mat R := M (V 1 0 0) (V 0 (cosR t) (sinR t)) (V 0 (- sinR t) (cosR t)).
Definition roty (t : R) : mat R := M (V (cosR t) 0 (- sinR t)) (V 0 1 0) (V (sinR t) 0 (cosR t)).
Definition rotz (t : R) : mat R := M (V (cosR t) (sinR t) 0) (V (- sinR t) (cosR t) 0) (V 0 0 1).

(** ** Elementary facts *)
Ltac vcases :=
  repeat match goal with
  | v : vec R |- _ => destruct v
  | m : mat R |- _ => destruct m
  end.
Ltac vnorm := cbv [dot cross scale vadd vsub vzero mapp mtr mmul mid det3] ; cbn [vx vy vz m0 m1 m2].
Ltac vsplit :=
  match goal with
  | |- @eq (vec R) (V _ _ _) (V _ _ _) => f_equal
  | |- @eq (mat R) (M _ _ _) (M _ _ _) => apply f_equal3; apply f_equal3
  | |- _ => idtac
  end.
Lemma f_equal3 : forall (A B C D : Type) (f : A -> B -> C -> D) a a' b b' c c',
  a = a' -> b = b' -> c = c' -> f a b c = f a' b' c'.
Proof. intros; subst; reflexivity. Qed.
Ltac vring := vcases; vnorm; vsplit; ring.

Lemma dot_comm : forall a b, dot a b = dot b a. Proof. intros; vring. Qed.
Lemma dot_scale_l : forall k a b, dot (scale k a) b = k * dot a b. Proof. intros; vring. Qed.
Lemma dot_scale_r : forall k a b, dot a (scale k b) = k * dot a b. Proof. intros; vring. Qed.
Lemma scale_scale : forall k l a, scale k (scale l a) = scale (k * l) a. Proof. intros; vring. Qed.
Lemma scale_1 : forall a, scale 1 a = a. Proof. intros; vring. Qed.
Lemma dot_pos : forall a, 0 <= dot a a.
Proof. intros [x y z]; unfold dot; cbn; nra. Qed.
Lemma dot_zero : forall a, dot a a = 0 -> a = vzero.
Proof.
  intros [x y z]; unfold dot, vzero; cbn; intros H.
  f_equal; nra.
Qed.
Lemma norm_pos : forall a, 0 <= norm a. Proof. intros; apply sqrt_pos. Qed.
Lemma norm_sq : forall a, norm a * norm a = dot a a.
Proof. intros; apply sqrt_sqrt, dot_pos. Qed.
Lemma norm_gt0 : forall a, a <> vzero -> 0 < norm a.
Proof.
  intros a H. unfold norm. apply sqrt_lt_R0.
  destruct (dot_pos a); [assumption|]. symmetry in H0. apply dot_zero in H0. easy.
Qed.
Lemma norm_scale : forall k a, 0 <= k -> norm (scale k a) = k * norm a.
Proof.
  intros k a Hk. unfold norm. rewrite dot_scale_l, dot_scale_r.
  rewrite <- Rmult_assoc, sqrt_mult_alt by nra. rewrite sqrt_square by easy. easy.
Qed.
Lemma norm_unit : forall a, unitv a -> norm a = 1.
Proof. intros a H; unfold norm; rewrite H; apply sqrt_1. Qed.
Lemma lagrange : forall a b, dot (cross a b) (cross a b) = dot a a * dot b b - dot a b * dot a b.
Proof. intros; vring. Qed.
Lemma cauchy : forall a b, dot a b * dot a b <= dot a a * dot b b.
Proof. intros a b; generalize (lagrange a b) (dot_pos (cross a b)); lra. Qed.
Lemma cauchy_abs : forall a b, Rabs (dot a b) <= norm a * norm b.
Proof.
  intros a b. apply Rsqr_incr_0_var; [|apply Rmult_le_pos; apply norm_pos].
  rewrite <- Rsqr_abs. unfold Rsqr.
  replace (norm a * norm b * (norm a * norm b)) with ((norm a * norm a) * (norm b * norm b)) by ring.
  rewrite !norm_sq. apply cauchy.
Qed.

Lemma dir_unit : forall a b, unitv (dir a b).
Proof.
  intros a b; unfold unitv, dir, dot; cbn.
  generalize (sc2 a) (sc2 b).
  set (sa := sinR a); set (ca := cosR a); set (sb := sinR b); set (cb := cosR b).
  intros Ha Hb.
  replace (ca * cb * (ca * cb) + sa * cb * (sa * cb) + sb * sb) with ((sa*sa + ca*ca) * (cb * cb) + sb * sb) by ring.
  rewrite Ha. lra.
Qed.
Lemma dir_cong : forall a a' b b', cong a a' -> cong b b' -> dir a b = dir a' b'.
Proof.
  intros. unfold dir. rewrite (cong_cos _ _ H), (cong_sin _ _ H), (cong_cos _ _ H0), (cong_sin _ _ H0). easy.
Qed.
Lemma dir_nz : forall a b, dir a b <> vzero.
Proof. intros a b E. generalize (dir_unit a b). unfold unitv. rewrite E. unfold dot, vzero; cbn. lra. Qed.

Lemma mapp_mmul : forall a b v, mapp (mmul a b) v = mapp a (mapp b v). Proof. intros; vring. Qed.
Lemma mapp_mid : forall v, mapp mid v = v. Proof. intros; vring. Qed.
Lemma mmul_assoc : forall a b c, mmul a (mmul b c) = mmul (mmul a b) c. Proof. intros; vring. Qed.
Lemma mmul_mid_l : forall a, mmul mid a = a. Proof. intros; vring. Qed.
Lemma mmul_mid_r : forall a, mmul a mid = a. Proof. intros; vring. Qed.
Lemma mtr_mmul : forall a b, mtr (mmul a b) = mmul (mtr b) (mtr a). Proof. intros; vring. Qed.
Lemma mtr_mtr : forall a, mtr (mtr a) = a. Proof. intros; vring. Qed.
Lemma mtr_mid : mtr mid = mid. Proof. vring. Qed.
Lemma det3_mmul : forall a b, det3 (mmul a b) = det3 a * det3 b. Proof. intros; vring. Qed.
Lemma det3_mtr : forall a, det3 (mtr a) = det3 a. Proof. intros; vring. Qed.
Lemma mapp_scale : forall m k v, mapp m (scale k v) = scale k (mapp m v). Proof. intros; vring. Qed.
Lemma mapp_vadd : forall m u v, mapp m (vadd u v) = vadd (mapp m u) (mapp m v). Proof. intros; vring. Qed.
Lemma mapp_zero : forall m, mapp m vzero = vzero. Proof. intros; vring. Qed.
Lemma dot_mapp : forall m u v, dot (mapp m u) v = dot u (mapp (mtr m) v). Proof. intros; vring. Qed.

(** adjugate, to turn a right inverse into a left inverse *)
Definition adj (m : mat R) : mat R := mtr (M (cross (m1 m) (m2 m)) (cross (m2 m) (m0 m)) (cross (m0 m) (m1 m))).
Lemma adj_l : forall m, det3 m = 1 -> mmul (adj m) m = mid.
Proof.
  intros m H. transitivity (M (V (det3 m) 0 0) (V 0 (det3 m) 0) (V 0 0 (det3 m))).
  - unfold adj. vring.
  - rewrite H. reflexivity.
Qed.
Lemma rotation_tr : forall m, rotation m -> mmul (mtr m) m = mid.
Proof.
  intros m [H D].
  assert (E : adj m = mtr m).
  { rewrite <- (mmul_mid_r (adj m)), <- H, mmul_assoc, adj_l by easy. apply mmul_mid_l. }
  rewrite <- E. apply adj_l; easy.
Qed.
Lemma rotation_mtr : forall m, rotation m -> rotation (mtr m).
Proof.
  intros m H. split.
  - rewrite mtr_mtr. now apply rotation_tr.
  - rewrite det3_mtr. apply H.
Qed.
Lemma rotation_mid : rotation mid.
Proof. split; [vring|vnorm; ring]. Qed.
Lemma rotation_mmul : forall a b, rotation a -> rotation b -> rotation (mmul a b).
Proof.
  intros a b [Ha Da] [Hb Db]. split.
  - rewrite mtr_mmul, mmul_assoc, <- (mmul_assoc a b), Hb, mmul_mid_r. easy.
  - rewrite det3_mmul, Da, Db. ring.
Qed.
Lemma rot_app_tr : forall m v, rotation m -> mapp (mtr m) (mapp m v) = v.
Proof. intros m v H. rewrite <- mapp_mmul, rotation_tr, mapp_mid by easy. easy. Qed.
Lemma rot_tr_app : forall m v, rotation m -> mapp m (mapp (mtr m) v) = v.
Proof. intros m v [H _]. rewrite <- mapp_mmul, H, mapp_mid. easy. Qed.
Lemma rot_dot : forall m u v, rotation m -> dot (mapp m u) (mapp m v) = dot u v.
Proof. intros m u v H. rewrite dot_mapp, rot_app_tr by easy. easy. Qed.
Lemma rot_unit : forall m u, rotation m -> unitv u -> unitv (mapp m u).
Proof. intros m u H Hu. unfold unitv. rewrite rot_dot; easy. Qed.
Lemma rot_nz : forall m u, rotation m -> u <> vzero -> mapp m u <> vzero.
Proof. intros m u H Hu E. apply Hu. rewrite <- (rot_app_tr m u H), E. apply mapp_zero. Qed.
Lemma rot_cross : forall m u v, rotation m -> mapp m (cross u v) = cross (mapp m u) (mapp m v).
Proof.
  intros m u v H.
  rewrite <- (rot_tr_app m (cross (mapp m u) (mapp m v)) H). f_equal.
  transitivity (scale (det3 m) (cross u v)).
  - destruct H as [_ ->]. now rewrite scale_1.
  - vring.
Qed.

Lemma rotx_rot : forall t, rotation (rotx t).
Proof.
  intros t. generalize (sc2 t). intros H. split; unfold rotx.
  - vnorm. unfold mid. vsplit; lra.
  - vnorm. lra.
Qed.
Lemma roty_rot : forall t, rotation (roty t).
Proof.
  intros t. generalize (sc2 t). intros H. split; unfold roty.
  - vnorm. unfold mid. vsplit; lra.
  - vnorm. lra.
Qed.
Lemma rotz_rot : forall t, rotation (rotz t).
Proof.
  intros t. generalize (sc2 t). intros H. split; unfold rotz.
  - vnorm. unfold mid. vsplit; lra.
  - vnorm. lra.
Qed.

(** ** ERFA kernels at R compute the specification *)
Lemma eraPdp_dot : forall a b, eraPdp a b = dot a b. Proof. reflexivity. Qed.
Lemma eraPxp_cross : forall a b, eraPxp a b = cross a b. Proof. reflexivity. Qed.
Lemma eraPm_norm : forall a, eraPm a = norm a. Proof. reflexivity. Qed.
Lemma eraSxp_scale : forall k a, eraSxp k a = scale k a. Proof. reflexivity. Qed.
Lemma eraS2c_dir : forall a b, eraS2c a b = dir a b. Proof. reflexivity. Qed.
Lemma eraTr_mtr : forall a, eraTr a = mtr a. Proof. reflexivity. Qed.
Lemma eraRxp_mapp : forall m v, eraRxp m v = mapp m v.
Proof. intros. vcases. unfold eraRxp, row_dot, mapp, dot; rn; cbn. f_equal; ring. Qed.
Lemma eraTrxp_mapp : forall m v, eraTrxp m v = mapp (mtr m) v.
Proof. intros. unfold eraTrxp. rewrite eraRxp_mapp, eraTr_mtr. easy. Qed.
Lemma eraRxr_mmul : forall a b, eraRxr a b = mmul a b.
Proof. intros. vcases. unfold eraRxr, row_mul, mmul, mtr, dot; rn; cbn. vsplit; ring. Qed.
Lemma eraIr_mid : eraIr = mid. Proof. unfold eraIr; rn; reflexivity. Qed.
Lemma eraRx_mmul : forall t r, eraRx t r = mmul (rotx t) r.
Proof. intros; vcases; unfold eraRx, rotx, mmul, mtr, dot; rn; cbn; vsplit; ring. Qed.
Lemma eraRy_mmul : forall t r, eraRy t r = mmul (roty t) r.
Proof. intros; vcases; unfold eraRy, roty, mmul, mtr, dot; rn; cbn; vsplit; ring. Qed.
Lemma eraRz_mmul : forall t r, eraRz t r = mmul (rotz t) r.
Proof. intros; vcases; unfold eraRz, rotz, mmul, mtr, dot; rn; cbn; vsplit; ring. Qed.

Lemma eraPn_nz : forall p, p <> vzero -> eraPn p = (norm p, scale (1 / norm p) p).
Proof.
  intros p H. unfold eraPn. rewrite eraPm_norm, eraSxp_scale. rn.
  rewrite Reqb_false; [easy|]. generalize (norm_gt0 p H); lra.
Qed.
Lemma eraPn_zero : eraPn vzero = (0, vzero).
Proof.
  unfold eraPn. rewrite eraPm_norm. unfold norm. replace (dot vzero vzero) with 0 by (vnorm; ring).
  rewrite sqrt_0. rn. rewrite Reqb_true by easy. unfold eraZp. rn. easy.
Qed.

Lemma D2PI_val : (D2PI : R) = 2 * PI. Proof. unfold D2PI; rn; easy. Qed.

Lemma eraAnp_range : forall a, 0 <= eraAnp a < 2 * PI.
Proof.
  intros a. unfold eraAnp. rewrite D2PI_val. rn.
  assert (Hpi := PI_RGT_0).
  assert (Hb := fmod_bound a (2 * PI) ltac:(lra)). apply Rabs_def2 in Hb.
  rcase; lra.
Qed.
Lemma eraAnp_cong : forall a, cong (eraAnp a) a.
Proof.
  intros a. unfold eraAnp. rewrite D2PI_val. rn.
  rcase; [|apply fmod_cong].
  apply cong_trans with (fmodR a (2 * PI)); [|apply fmod_cong]. exists 1%Z; lra.
Qed.
Lemma cong_range_eq : forall a b, 0 <= a < 2 * PI -> 0 <= b < 2 * PI -> cong a b -> a = b.
Proof.
  intros a b Ha Hb H. apply same_sc_eq; [lra|now apply cong_cos|now apply cong_sin].
Qed.
Lemma eraAnp_id : forall a, 0 <= a < 2 * PI -> eraAnp a = a.
Proof. intros a H. apply cong_range_eq; [apply eraAnp_range|easy|apply eraAnp_cong]. Qed.
Lemma eraAnp_of_cong : forall a b, cong a b -> eraAnp a = eraAnp b.
Proof.
  intros a b H. apply cong_range_eq; try apply eraAnp_range.
  eapply cong_trans; [apply eraAnp_cong|]. eapply cong_trans; [apply H|]. apply cong_sym, eraAnp_cong.
Qed.

(** eraC2s: longitude in (-pi,pi], latitude in [-pi/2,pi/2], and the direction
    is that of the vector. *)
Lemma eraC2s_range : forall p, - PI < fst (eraC2s p) <= PI /\ - (PI/2) <= snd (eraC2s p) <= PI / 2.
Proof.
  intros [x y z]. unfold eraC2s; cbn [fst snd vx vy vz]; rn. assert (Hpi := PI_RGT_0).
  split; rcase; try lra.
  - apply atan2_range.
  - apply atan2_half, sqrt_pos.
Qed.

Lemma eraC2s_dir : forall p, scale (norm p) (dir (fst (eraC2s p)) (snd (eraC2s p))) = p.
Proof.
  intros [x y z]. unfold eraC2s; cbn [fst snd vx vy vz]; rn.
  set (d2 := x * x + y * y).
  assert (Hd : 0 <= d2) by (unfold d2; nra).
  assert (Hr : norm (V x y z) = sqrtR (sqrtR d2 * sqrtR d2 + z * z)).
  { unfold norm, dot; cbn. rewrite sqrt_sqrt by easy. f_equal. }
  rewrite Hr.
  set (la := if Reqb d2 0 then 0 else atan2R y x).
  set (ph := if Reqb z 0 then 0 else atan2R z (sqrtR d2)).
  assert (Hl : x = sqrtR d2 * cosR la /\ y = sqrtR d2 * sinR la).
  { unfold la. destruct (Reqb_spec d2 0) as [E|E].
    - rewrite E, sqrt_0. unfold d2 in E. split; nra.
    - apply atan2_polar. }
  assert (Hp : sqrtR d2 = sqrtR (sqrtR d2 * sqrtR d2 + z * z) * cosR ph /\
               z = sqrtR (sqrtR d2 * sqrtR d2 + z * z) * sinR ph).
  { unfold ph. destruct (Reqb_spec z 0) as [E|E].
    - rewrite E, cos_0, sin_0, Rmult_0_l, Rplus_0_r, sqrt_square by apply sqrt_pos. lra.
    - apply atan2_polar. }
  set (r := sqrtR (sqrtR d2 * sqrtR d2 + z * z)) in *.
  destruct Hl as [Hx Hy]. destruct Hp as [Hc Hz].
  unfold scale, dir; cbn [vx vy vz]. f_equal.
  - transitivity (sqrtR d2 * cosR la); [rewrite Hc; ring | lra].
  - transitivity (sqrtR d2 * sinR la); [rewrite Hc; ring | lra].
  - lra.
Qed.

(** direction recovered up to the norm *)
Lemma eraC2s_unit : forall p, unitv p -> dir (fst (eraC2s p)) (snd (eraC2s p)) = p.
Proof. intros p H. rewrite <- (eraC2s_dir p) at 3. rewrite (norm_unit p H), scale_1. easy. Qed.
Lemma eraC2s_nz : forall p, p <> vzero -> dir (fst (eraC2s p)) (snd (eraC2s p)) = scale (1 / norm p) p.
Proof.
  intros p H. rewrite <- (eraC2s_dir p) at 4. rewrite scale_scale.
  generalize (norm_gt0 p H); intros. replace (1 / norm p * norm p) with 1 by (field; lra).
  now rewrite scale_1.
Qed.

(** Equality of directions determines the coordinates away from the poles. *)
Lemma lat_unique : forall b b', - (PI/2) <= b <= PI/2 -> - (PI/2) <= b' <= PI/2 -> sinR b = sinR b' -> b = b'.
Proof.
  intros b b' H H' E.
  destruct (Rtotal_order b b') as [L|[L|L]]; [|easy|].
  - exfalso. assert (sinR b < sinR b') by (apply sin_increasing_1; lra). lra.
  - exfalso. assert (sinR b' < sinR b) by (apply sin_increasing_1; lra). lra.
Qed.
Lemma dir_inj_lat : forall a b a' b', dir a b = dir a' b' ->
  - (PI/2) <= b <= PI/2 -> - (PI/2) <= b' <= PI/2 -> b = b'.
Proof. intros a b a' b' E H H'. apply lat_unique; try easy. now inversion E. Qed.
Lemma dir_inj_lon : forall a b a' b', dir a b = dir a' b' ->
  - (PI/2) < b < PI/2 -> - (PI/2) <= b' <= PI/2 -> cong a a'.
Proof.
  intros a b a' b' E H H'.
  assert (b = b') by (apply (dir_inj_lat a b a' b' E); lra). subst b'.
  assert (0 < cosR b) by (apply cos_gt_0; lra).
  inversion E. apply same_sc_cong; apply Rmult_eq_reg_r with (cosR b); lra.
Qed.
