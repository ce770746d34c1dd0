(** * Reference frames: supporting proofs *)
From Coq Require Import Reals ZArith Lra Lia Psatz Bool Ascii String List.
From Flocq Require Import Core.Raux.
From Verif Require Import Num NumR Erfa Erfa2 Geom M_Sphere P_Sphere M_Time M_Frames.
From Interval Require Import Tactic.
Local Open Scope R_scope.

(** ** Latitudes pass unchanged through the range reductions *)
Lemma eraAnpm_small : forall a, - PI < a < PI -> eraAnpm a = a.
Proof.
  intros a H. unfold eraAnpm. rewrite D2PI_val. rn. assert (Hpi := PI_RGT_0).
  rewrite fmod_small; [|lra|apply Rabs_def1; lra].
  rewrite Rleb_false; [easy|]. apply Rlt_not_le. apply Rabs_def1; lra.
Qed.
Lemma palDrange_small : forall a, - PI <= a <= PI -> palDrange a = a.
Proof.
  intros a H. unfold palDrange. rewrite D2PI_val. rn. assert (Hpi := PI_RGT_0).
  rewrite fmod_small; [|lra|apply Rabs_def1; lra].
  rewrite Rltb_false by lra. rewrite Rltb_false by lra. easy.
Qed.
Lemma C2s_anpm : forall w, eraAnpm (snd (eraC2s w)) = snd (eraC2s w).
Proof. intros w. assert (Hpi := PI_RGT_0). apply eraAnpm_small. generalize (eraC2s_range w). lra. Qed.
Lemma C2s_drange : forall w, palDrange (snd (eraC2s w)) = snd (eraC2s w).
Proof. intros w. assert (Hpi := PI_RGT_0). apply palDrange_small. generalize (eraC2s_range w). lra. Qed.
Lemma C2s_anp_dir : forall w, w <> vzero ->
  dir (eraAnp (fst (eraC2s w))) (snd (eraC2s w)) = scale (1 / norm w) w.
Proof.
  intros w H. rewrite <- (eraC2s_nz w H). apply dir_cong; [apply eraAnp_cong|apply cong_refl].
Qed.
Lemma C2s_anp_range : forall w, 0 <= eraAnp (fst (eraC2s w)) < 2 * PI /\ - (PI/2) <= snd (eraC2s w) <= PI/2.
Proof. intros w. split; [apply eraAnp_range|apply eraC2s_range]. Qed.

(** unit vector along w *)
Definition unit_of (w : vec R) : vec R := scale (1 / norm w) w.
Lemma unit_of_scale : forall k w, 0 < k -> unit_of (scale k w) = unit_of w.
Proof.
  intros k w Hk. unfold unit_of. rewrite norm_scale by lra.
  destruct (Req_dec (norm w) 0) as [E|E].
  - assert (w = vzero) by (apply dot_zero; rewrite <- norm_sq, E; ring). subst w.
    vnorm. vsplit; ring.
  - rewrite scale_scale. f_equal. field. lra.
Qed.
Lemma unit_of_unit : forall w, unitv w -> unit_of w = w.
Proof. intros w H. unfold unit_of. rewrite (norm_unit w H). replace (1/1) with 1 by field. apply scale_1. Qed.

(** ** Normalising a slightly perturbed unit vector *)
Lemma norm_triangle : forall a b, norm (vadd a b) <= norm a + norm b.
Proof.
  intros a b. apply Rsqr_incr_0_var; [|generalize (norm_pos a) (norm_pos b); lra].
  unfold Rsqr. rewrite norm_sq.
  replace (dot (vadd a b) (vadd a b)) with (dot a a + 2 * dot a b + dot b b) by vring.
  rewrite <- !norm_sq. generalize (cauchy_abs a b) (Rle_abs (dot a b)). nra.
Qed.
Lemma norm_triangle_sub : forall a b, norm a - norm b <= norm (vsub a b).
Proof.
  intros a b. generalize (norm_triangle (vsub a b) b).
  replace (vadd (vsub a b) b) with a by vring. lra.
Qed.
Lemma norm_opp : forall a, norm (vsub vzero a) = norm a.
Proof. intros a. unfold norm. f_equal. vring. Qed.
Lemma norm_sub_sym : forall a b, norm (vsub a b) = norm (vsub b a).
Proof. intros a b. unfold norm. f_equal. vring. Qed.
(** |u/|u| - v| <= 2 |u - v| for a unit vector v *)
Lemma unit_of_close : forall u v, unitv v -> norm (vsub u v) < 1 ->
  norm (vsub (unit_of u) v) <= 2 * norm (vsub u v).
Proof.
  intros u v Hv He.
  assert (Hn : norm v = 1) by now apply norm_unit.
  assert (L1 := norm_triangle_sub u v). assert (L2 := norm_triangle_sub v u).
  rewrite (norm_sub_sym v u) in L2. rewrite Hn in *.
  set (e := norm (vsub u v)) in *.
  assert (Hu : 0 < norm u) by lra.
  replace (vsub (unit_of u) v) with (vadd (scale (1 / norm u - 1) u) (vsub u v)) by (unfold unit_of; vring).
  eapply Rle_trans; [apply norm_triangle|]. fold e.
  assert (norm (scale (1 / norm u - 1) u) = Rabs (1 - norm u)).
  { unfold norm at 1. rewrite dot_scale_l, dot_scale_r, <- norm_sq.
    replace ((1 / norm u - 1) * ((1 / norm u - 1) * (norm u * norm u)))
      with ((1 - norm u) * (1 - norm u)) by (field; lra).
    apply sqrt_Rsqr_abs. }
  rewrite H. assert (Rabs (1 - norm u) <= e); [|lra].
  apply Rabs_le. lra.
Qed.

(** ** Matrices that are nearly orthogonal *)
Definition near (eps : R) (a b : mat R) : Prop :=
  (Rabs (vx (m0 a) - vx (m0 b)) <= eps /\ Rabs (vy (m0 a) - vy (m0 b)) <= eps /\ Rabs (vz (m0 a) - vz (m0 b)) <= eps) /\
  (Rabs (vx (m1 a) - vx (m1 b)) <= eps /\ Rabs (vy (m1 a) - vy (m1 b)) <= eps /\ Rabs (vz (m1 a) - vz (m1 b)) <= eps) /\
  (Rabs (vx (m2 a) - vx (m2 b)) <= eps /\ Rabs (vy (m2 a) - vy (m2 b)) <= eps /\ Rabs (vz (m2 a) - vz (m2 b)) <= eps).

Lemma row_near : forall a b c x y z e, 0 <= e -> Rabs a <= e -> Rabs b <= e -> Rabs c <= e ->
  x * x + y * y + z * z = 1 ->
  (a * x + b * y + c * z) * (a * x + b * y + c * z) <= 3 * (e * e).
Proof.
  intros a b c x y z e He Ha Hb Hc H.
  assert (C := cauchy (V a b c) (V x y z)). unfold dot in C; cbn [vx vy vz] in C. rewrite H in C.
  assert (Q : forall t, Rabs t <= e -> t * t <= e * e).
  { intros t Ht. rewrite <- (Rabs_right e) in Ht by lra. apply Rsqr_le_abs_1 in Ht. exact Ht. }
  apply Q in Ha; apply Q in Hb; apply Q in Hc. lra.
Qed.
Lemma near_app : forall eps a b v, 0 <= eps -> near eps a b -> unitv v ->
  norm (vsub (mapp a v) (mapp b v)) <= 3 * eps.
Proof.
  intros eps a b v He H Hv. unfold near in H. unfold unitv in Hv.
  destruct v as [x y z]; destruct a as [[a1 a2 a3] [a4 a5 a6] [a7 a8 a9]];
  destruct b as [[b1 b2 b3] [b4 b5 b6] [b7 b8 b9]].
  cbn [vx vy vz m0 m1 m2] in H. unfold dot in Hv; cbn [vx vy vz] in Hv.
  destruct H as ((H1 & H2 & H3) & (H4 & H5 & H6) & (H7 & H8 & H9)).
  unfold norm. apply Rsqr_incr_0_var; [|lra]. rewrite Rsqr_sqrt by apply dot_pos.
  unfold Rsqr, vsub, mapp, dot; cbn [vx vy vz m0 m1 m2].
  assert (R1 := row_near _ _ _ x y z eps He H1 H2 H3 Hv).
  assert (R2 := row_near _ _ _ x y z eps He H4 H5 H6 Hv).
  assert (R3 := row_near _ _ _ x y z eps He H7 H8 H9 Hv).
  replace (a1 * x + a2 * y + a3 * z - (b1 * x + b2 * y + b3 * z)) with ((a1-b1)*x+(a2-b2)*y+(a3-b3)*z) by ring.
  replace (a4 * x + a5 * y + a6 * z - (b4 * x + b5 * y + b6 * z)) with ((a4-b4)*x+(a5-b5)*y+(a6-b6)*z) by ring.
  replace (a7 * x + a8 * y + a9 * z - (b7 * x + b8 * y + b9 * z)) with ((a7-b7)*x+(a8-b8)*y+(a9-b9)*z) by ring.
  lra.
Qed.
(** converting with [a], then with [b], where [b a] is nearly the identity *)
Lemma near_round : forall eps a b v, 0 <= eps < 1/4 -> near eps (mmul b a) mid -> unitv v ->
  let w := unit_of (mapp a v) in
  mapp a v <> vzero /\ mapp b w <> vzero /\ norm (vsub (unit_of (mapp b w)) v) <= 6 * eps.
Proof.
  intros eps a b v He H Hv w.
  assert (K := near_app eps (mmul b a) mid v ltac:(lra) H Hv).
  rewrite mapp_mid, mapp_mmul in K.
  assert (N0 : forall q, norm (vsub q v) < 1 -> q <> vzero).
  { intros q Hq E. subst q. rewrite norm_opp, (norm_unit v Hv) in Hq. lra. }
  assert (N1 : mapp a v <> vzero).
  { intros E. rewrite E, mapp_zero in K. rewrite norm_opp, (norm_unit v Hv) in K. lra. }
  assert (P := norm_gt0 _ N1).
  assert (Q : 0 < 1 / norm (mapp a v)) by (apply Rdiv_lt_0_compat; lra).
  assert (E : mapp b w = scale (1 / norm (mapp a v)) (mapp b (mapp a v))) by (unfold w, unit_of; apply mapp_scale).
  split; [exact N1|]. split.
  - rewrite E. intros Z. apply (N0 (mapp b (mapp a v))); [lra|].
    apply (f_equal (scale (norm (mapp a v)))) in Z. rewrite scale_scale in Z.
    replace (norm (mapp a v) * (1 / norm (mapp a v))) with 1 in Z by (field; lra).
    rewrite scale_1 in Z. rewrite Z. vnorm. vsplit; ring.
  - rewrite E, unit_of_scale by easy.
    eapply Rle_trans; [apply unit_of_close; [easy|lra]|]. lra.
Qed.

(** ** Galactic coordinates *)
Lemma palEqgal_val : forall dr dd, palEqgal dr dd =
  let w := mapp rmat_eqgal (dir dr dd) in (eraAnp (fst (eraC2s w)), snd (eraC2s w)).
Proof.
  intros. unfold palEqgal. rewrite eraRxp_mapp, eraS2c_dir.
  cbv zeta. rewrite (surjective_pairing (eraC2s _)), C2s_anpm. easy.
Qed.
Lemma palGaleq_val : forall dl db, palGaleq dl db =
  let w := mapp (mtr rmat_galeq) (dir dl db) in (eraAnp (fst (eraC2s w)), snd (eraC2s w)).
Proof.
  intros. unfold palGaleq. rewrite eraTrxp_mapp, eraS2c_dir.
  cbv zeta. rewrite (surjective_pairing (eraC2s _)), C2s_anpm. easy.
Qed.
Lemma palGalsup_val : forall dl db, palGalsup dl db =
  let w := mapp rmat_galsup (dir dl db) in (eraAnp (fst (eraC2s w)), snd (eraC2s w)).
Proof.
  intros. unfold palGalsup. rewrite eraRxp_mapp, eraS2c_dir.
  cbv zeta. rewrite (surjective_pairing (eraC2s _)), C2s_anpm. easy.
Qed.
Lemma palSupgal_val : forall dl db, palSupgal dl db =
  let w := mapp (mtr rmat_supgal) (dir dl db) in (eraAnp (fst (eraC2s w)), snd (eraC2s w)).
Proof.
  intros. unfold palSupgal. rewrite eraTrxp_mapp, eraS2c_dir.
  cbv zeta. rewrite (surjective_pairing (eraC2s _)), C2s_anpm. easy.
Qed.
Lemma near_mul : forall e a1 a2 a3 a4 a5 a6 a7 a8 a9 b1 b2 b3 b4 b5 b6 b7 b8 b9,
  Rabs (a1*b1+a2*b4+a3*b7-1) <= e -> Rabs (a1*b2+a2*b5+a3*b8-0) <= e -> Rabs (a1*b3+a2*b6+a3*b9-0) <= e ->
  Rabs (a4*b1+a5*b4+a6*b7-0) <= e -> Rabs (a4*b2+a5*b5+a6*b8-1) <= e -> Rabs (a4*b3+a5*b6+a6*b9-0) <= e ->
  Rabs (a7*b1+a8*b4+a9*b7-0) <= e -> Rabs (a7*b2+a8*b5+a9*b8-0) <= e -> Rabs (a7*b3+a8*b6+a9*b9-1) <= e ->
  near e (mmul (M (V a1 a2 a3) (V a4 a5 a6) (V a7 a8 a9)) (M (V b1 b2 b3) (V b4 b5 b6) (V b7 b8 b9))) mid.
Proof. intros. unfold near, mmul, mtr, mid, dot; cbn [vx vy vz m0 m1 m2]. tauto. Qed.
Lemma mtr_val : forall a1 a2 a3 a4 a5 a6 a7 a8 a9 : R, mtr (M (V a1 a2 a3) (V a4 a5 a6) (V a7 a8 a9)) = M (V a1 a4 a7) (V a2 a5 a8) (V a3 a6 a9).
Proof. reflexivity. Qed.
Ltac nearm := rn; rewrite mtr_val; apply near_mul; interval with (i_prec 100).
Lemma eqgal_near : near (5e-11) (mmul (mtr rmat_galeq) rmat_eqgal) mid.
Proof. unfold rmat_eqgal, rmat_galeq. nearm. Qed.
Lemma eqgal_near' : near (5e-11) (mmul rmat_eqgal (mtr rmat_galeq)) mid.
Proof. unfold rmat_eqgal, rmat_galeq. nearm. Qed.
Lemma galsup_near : near (2e-12) (mmul (mtr rmat_supgal) rmat_galsup) mid.
Proof. unfold rmat_supgal, rmat_galsup. nearm. Qed.
Lemma galsup_near' : near (2e-12) (mmul rmat_galsup (mtr rmat_supgal)) mid.
Proof. unfold rmat_supgal, rmat_galsup. nearm. Qed.

(** ** Precession, nutation and ecliptic matrices *)
Lemma eraFw2m_rot : forall g f p e, rotation (eraFw2m g f p e).
Proof.
  intros. unfold eraFw2m. rewrite eraRx_mmul, eraRz_mmul, eraRx_mmul, eraRz_mmul, eraIr_mid.
  repeat apply rotation_mmul; auto using rotx_rot, rotz_rot, rotation_mid.
Qed.
Lemma eraPmat06_rot : forall d1 d2, rotation (eraPmat06 d1 d2).
Proof. intros. unfold eraPmat06, eraPfw06. apply eraFw2m_rot. Qed.
Lemma era_rot_rotation : forall ax t r, rotation r -> rotation (era_rot ax t r).
Proof.
  intros [] t r H; unfold era_rot; [rewrite eraRx_mmul|rewrite eraRy_mmul|rewrite eraRz_mmul];
  apply rotation_mmul; auto using rotx_rot, roty_rot, rotz_rot.
Qed.
Lemma deuler_loop_rot : forall order rot r, rotation r -> rotation (deuler_loop order rot r).
Proof.
  induction order as [|c order IH]; intros [|a rot] r H; cbn; auto.
  destruct (axis_of c); auto. apply IH, era_rot_rotation, H.
Qed.
Lemma palDeuler_rot : forall order a b c, rotation (palDeuler order a b c : mat R).
Proof. intros. unfold palDeuler. apply deuler_loop_rot. rewrite eraIr_mid. apply rotation_mid. Qed.
Lemma palEcmat_rot : forall d, rotation (palEcmat d : mat R).
Proof. intros. apply palDeuler_rot. Qed.
Lemma palEcmat_val : forall d, palEcmat d = rotx (eraObl06 MJD0 d).
Proof.
  intros d. unfold palEcmat, palDeuler. cbn [deuler_loop axis_of Ascii.eqb Bool.eqb orb era_rot].
  rewrite eraRx_mmul, eraIr_mid, mmul_mid_r. easy.
Qed.
Lemma palPrec_rot : forall a b, rotation (palPrec a b : mat R).
Proof.
  intros. unfold palPrec. rewrite !eraTr_mtr, eraRxr_mmul.
  destruct (eqb a _); [apply eraPmat06_rot|].
  destruct (eqb b _); [apply rotation_mtr, eraPmat06_rot|].
  apply rotation_mmul; [apply rotation_mtr|]; apply eraPmat06_rot.
Qed.
Lemma palPrebn_rot : forall a b, rotation (palPrebn a b : mat R).
Proof. intros. apply palDeuler_rot. Qed.

(** the precession from J2000 to [ep] *)
Lemma lit2000 : lit (MkDec 20000 (-1)) = 2000.
Proof. rn. lra. Qed.
Local Opaque eraPmat06.
Lemma palPrec_2000 : forall ep, palPrec 2000 ep = eraPmat06 DJ00 ((ep - 2000) * DJY).
Proof. intros. unfold palPrec. rewrite lit2000. rops. rewrite Reqb_true by lra. reflexivity. Qed.
Lemma palPrec_gen : forall ep0 ep1, ep0 <> 2000 -> ep1 <> 2000 ->
  palPrec ep0 ep1 = mmul (mtr (palPrec 2000 ep0)) (palPrec 2000 ep1).
Proof.
  intros. rewrite !palPrec_2000. unfold palPrec. rewrite lit2000. rops.
  rewrite Reqb_false by lra. rewrite Reqb_false by lra.
  rewrite eraRxr_mmul, eraTr_mtr. reflexivity.
Qed.
Lemma palPrec_to2000 : forall ep, ep <> 2000 -> palPrec ep 2000 = mtr (palPrec 2000 ep).
Proof.
  intros. rewrite palPrec_2000. unfold palPrec. rewrite lit2000. rops. rewrite Reqb_false by lra.
  rewrite Reqb_true by lra. reflexivity.
Qed.
Local Transparent eraPmat06.

(** ** Ecliptic coordinates *)
Definition ecl_mat (date : R) : mat R := mmul (palEcmat date) (palPrec 2000 (palEpj date)).
Lemma ecl_mat_rot : forall d, rotation (ecl_mat d).
Proof. intros. apply rotation_mmul; [apply palEcmat_rot|apply palPrec_rot]. Qed.
Local Opaque palEcmat palPrec.
Lemma palEcleq_val : forall l b d, palEcleq l b d =
  let w := mapp (mtr (ecl_mat d)) (dir l b) in (eraAnp (fst (eraC2s w)), snd (eraC2s w)).
Proof.
  intros. unfold palEcleq. rewrite !eraTrxp_mapp, eraS2c_dir, lit2000.
  cbv zeta. rewrite (surjective_pairing (eraC2s _)), C2s_drange.
  unfold ecl_mat. rewrite mtr_mmul, mapp_mmul. easy.
Qed.
Lemma palEqecl_val : forall r p d, palEqecl r p d =
  let w := mapp (ecl_mat d) (dir r p) in (eraAnp (fst (eraC2s w)), snd (eraC2s w)).
Proof.
  intros. unfold palEqecl. rewrite !eraRxp_mapp, eraS2c_dir, lit2000.
  cbv zeta. rewrite (surjective_pairing (eraC2s _)), C2s_drange.
  unfold ecl_mat. rewrite mapp_mmul. easy.
Qed.
Lemma C2s_anp_unit : forall w, unitv w -> dir (eraAnp (fst (eraC2s w))) (snd (eraC2s w)) = w.
Proof.
  intros w H. rewrite C2s_anp_dir.
  - rewrite (norm_unit w H). replace (1/1) with 1 by field. apply scale_1.
  - intros E. unfold unitv in H. rewrite E in H. unfold vzero, dot in H; cbn in H. lra.
Qed.

Local Transparent palEcmat palPrec.
