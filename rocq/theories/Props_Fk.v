(** * Theorems: the FK4 and FK5 frames rotate against each other (C55, continued) *)
From Coq Require Import Reals ZArith Lra Lia Psatz Bool.
From Interval Require Import Tactic.
From Verif Require Import Num NumR Erfa Erfa2 Geom M_Sphere P_Sphere M_Time M_Frames P_Frames P_Eterms P_Fk Props_Frames.
Local Open Scope R_scope.

(** ** Specification *)
(** rotation of the FK5 frame against FK4 in FK4 axes, arcseconds per tropical century (0.497 in all) *)
Definition fk_spin : vec R := V (-0.0134129) (-0.4356125) (-0.2385123).
(** tropical in terms of Julian centuries *)
Definition tropical : R := 36524.2198781 / 36525.
(** the change per century of the E-terms of aberration (arcseconds) *)
Definition e_rate : vec R := V 0.001245 (-0.001580) (-0.000659).

Definition spin_mat : mat R := M (V 0 0.2385123 (-0.4356125)) (V (-0.2385123) 0 0.0134129) (V 0.4356125 (-0.0134129) 0).
Lemma spin_app : forall v, mapp spin_mat v = cross fk_spin v.
Proof. intros [x y z]. unfold fk_spin, spin_mat. vnorm. f_equal; lra. Qed.
Lemma near_by : forall e a b, 
  Rabs (vx (m0 a) - vx (m0 b)) <= e -> Rabs (vy (m0 a) - vy (m0 b)) <= e -> Rabs (vz (m0 a) - vz (m0 b)) <= e ->
  Rabs (vx (m1 a) - vx (m1 b)) <= e -> Rabs (vy (m1 a) - vy (m1 b)) <= e -> Rabs (vz (m1 a) - vz (m1 b)) <= e ->
  Rabs (vx (m2 a) - vx (m2 b)) <= e -> Rabs (vy (m2 a) - vy (m2 b)) <= e -> Rabs (vz (m2 a) - vz (m2 b)) <= e -> near e a b.
Proof. intros. unfold near. repeat split; assumption. Qed.
Lemma mmul_val : forall a1 a2 a3 a4 a5 a6 a7 a8 a9 b1 b2 b3 b4 b5 b6 b7 b8 b9 : R,
  mmul (M (V a1 a2 a3) (V a4 a5 a6) (V a7 a8 a9)) (M (V b1 b2 b3) (V b4 b5 b6) (V b7 b8 b9)) =
  M (V (a1*b1+a2*b4+a3*b7) (a1*b2+a2*b5+a3*b8) (a1*b3+a2*b6+a3*b9)) (V (a4*b1+a5*b4+a6*b7) (a4*b2+a5*b5+a6*b8) (a4*b3+a5*b6+a6*b9))
    (V (a7*b1+a8*b4+a9*b7) (a7*b2+a8*b5+a9*b8) (a7*b3+a8*b6+a9*b9)).
Proof. reflexivity. Qed.
Definition mscale (k : R) (a : mat R) : mat R := M (scale k (m0 a)) (scale k (m1 a)) (scale k (m2 a)).
Lemma mscale_app : forall k a v, mapp (mscale k a) v = scale k (mapp a v).
Proof. intros. unfold mscale. vring. Qed.
Ltac nearb := apply near_by; cbn [vx vy vz m0 m1 m2]; interval with (i_prec 100).
Lemma near_vp : near 8e-7 fk_emi_vp (mmul spin_mat fk_emi_pp).
Proof. unfold fk_emi_vp, fk_emi_pp, spin_mat. rn. rewrite mmul_val. nearb. Qed.
Lemma near_vv : near 4e-7 fk_emi_vv (mscale tropical fk_emi_pp).
Proof. unfold fk_emi_vv, fk_emi_pp, tropical, mscale, scale. rn. cbn [vx vy vz m0 m1 m2]. nearb. Qed.
Lemma near_pv : near 2e-11 fk_emi_pv (mscale (- (PI / 648000 / 2)) fk_emi_pp).
Proof. unfold fk_emi_pv, fk_emi_pp, mscale, scale. rn. cbn [vx vy vz m0 m1 m2]. nearb. Qed.
Lemma near_em : near 6e-7 fk_em_v (mscale (- / tropical) (mmul (mtr fk_emi_pp) (mmul spin_mat (mmul fk_emi_pp fk_em_p)))).
Proof. unfold fk_em_v, fk_em_p, fk_emi_pp, spin_mat, tropical. rn. rewrite mtr_val, !mmul_val. unfold mscale, scale. cbn [vx vy vz m0 m1 m2]. nearb. Qed.
(** ** C55_matrices: the blocks of the 6x6 matrices: the velocity rows are the frame rotation and the change of the unit of time;
    the motion is taken back over half a century; the matrix of palFk45z has the opposite rotation. *)
Theorem C55_matrices : forall p, unitv p ->
  norm (vsub (mapp fk_emi_vp p) (cross fk_spin (mapp fk_emi_pp p))) <= 3e-6 /\
  norm (vsub (mapp fk_emi_vv p) (scale tropical (mapp fk_emi_pp p))) <= 2e-6 /\
  norm (vsub (mapp fk_emi_pv p) (scale (- (PI / 648000 / 2)) (mapp fk_emi_pp p))) <= 6e-11 /\
  norm (vsub (mapp fk_em_v p) (scale (- / tropical) (mapp (mtr fk_emi_pp) (cross fk_spin (mapp fk_emi_pp (mapp fk_em_p p)))))) <= 2e-6.
Proof.
  intros p Hp. split; [|split; [|split]].
  - rewrite <- spin_app, <- mapp_mmul. eapply Rle_trans; [apply (near_app 8e-7); [lra|exact near_vp|exact Hp]|lra].
  - rewrite <- mscale_app. eapply Rle_trans; [apply (near_app 4e-7); [lra|exact near_vv|exact Hp]|lra].
  - rewrite <- mscale_app. eapply Rle_trans; [apply (near_app 2e-11); [lra|exact near_pv|exact Hp]|lra].
  - rewrite <- spin_app, <- !mapp_mmul, <- mscale_app, <- !mmul_assoc. eapply Rle_trans; [apply (near_app 6e-7); [lra|exact near_em|exact Hp]|lra].
Qed.

(** ** C55_fixed_star: a star at rest in FK5 has in FK4 the proper motion of the rotation of the frame, with the drift of the E-terms;
    [dr], [dd] in radians per tropical year, hence 648000/pi times 100 for arcseconds per century. *)
Theorem C55_fixed_star : forall r2 d2 r d dr dd px rv, palFk524 (T := R) r2 d2 0 0 0 0 = (r, d, dr, dd, px, rv) ->
  1e-29 <= cosR d ->
  let u := dir r d in
  let q := 64800000 / PI in
  exists w, norm (vsub (motion r d (dr * q) (dd * q) w) (vadd (cross fk_spin u) (vsub e_rate (scale (dot u e_rate) u)))) <= 1e-5.
Proof.
  intros r2 d2 r d dr dd px rv E Hc u q. assert (M := C55_palFk524_motion r2 d2 0 0 0 0). cbv zeta in M.
  assert (V0 : motion r2 d2 (0 * PMF) (0 * PMF) (21.095 * 0 * 0) = vzero).
  { rewrite !Rmult_0_l, !Rmult_0_r. unfold motion. generalize (east r2 d2) (north r2 d2) (dir r2 d2). intros; vring. }
  rewrite V0, !mapp_zero in M. rewrite E in M. rewrite PMF_val in M. fold q in M.
  set (P := vadd (mapp fk_emi_pp (dir r2 d2)) vzero) in *. assert (EP : P = mapp fk_emi_pp (dir r2 d2)) by (unfold P; generalize (mapp fk_emi_pp (dir r2 d2)); intros; vring).
  assert (F := fk_lonlat (with_e (fk_rho P) P)). 
  assert (Epos := palFk524_val r2 d2 0 0 0 0). cbv zeta in Epos. replace (VF * 0 * 0) with (21.095 * 0 * 0) in Epos by ring. rewrite V0 in Epos. unfold fk4_pos in Epos. rewrite mapp_zero in Epos. fold P in Epos.
  rewrite E, fk524_sph_val in Epos.
  assert (Er : r = fk_lon (with_e (fk_rho P) P)) by (apply (f_equal (fun z => fst (fst (fst (fst (fst z)))))) in Epos; exact Epos).
  assert (Ed : d = fk_lat (with_e (fk_rho P) P)) by (apply (f_equal (fun z => snd (fst (fst (fst (fst z)))))) in Epos; exact Epos). clear Epos.
  rewrite <- Er, <- Ed in F. destruct F as [_ [_ [F _]]]. fold u in F.
  set (rho := fk_rho P) in *. set (X := with_e rho P) in *. rewrite <- Ed in M.
  assert (Hp := fk_p_norm (dir r2 d2) (dir_unit _ _)). rewrite <- EP in Hp.
  assert (Hrho : - (35/10000000) <= rho - norm P <= 35/10000000).
  { unfold rho, fk_rho. assert (W := with_e_close (norm P) P ltac:(lra) ltac:(lra)).
    generalize (norm_triangle_sub (with_e (norm P) P) P) (norm_triangle_sub P (with_e (norm P) P)). rewrite (norm_sub_sym P). lra. }
  assert (W := with_e_close rho P ltac:(lra) ltac:(lra)). fold X in W.
  assert (HN : - (35/10000000) <= norm X - norm P <= 35/10000000).
  { generalize (norm_triangle_sub X P) (norm_triangle_sub P X). rewrite (norm_sub_sym P X). lra. }
  set (N := norm X) in *. destruct M as [M _]; [nra|].
  match type of M with ?x = _ => set (XD := x) in M end.
  set (w := dot X XD / dot X X) in *. exists w.
  assert (Q := C55_matrices (dir r2 d2) (dir_unit _ _)). destruct Q as [Q _]. rewrite <- EP in Q.
  set (vp := mapp fk_emi_vp (dir r2 d2)) in *.
  assert (EA : fk_ad = e_rate) by (unfold fk_ad, e_rate; rn; f_equal; lra).
  assert (Ea : norm e_rate <= 0.0022) by (apply norm_le; [lra|]; unfold e_rate, dot; cbn [vx vy vz]; lra).
  assert (Es : norm fk_spin <= 0.5) by (apply norm_le; [lra|]; unfold fk_spin, dot; cbn [vx vy vz]; lra).
  assert (Uu : unitv u) by apply dir_unit. assert (Nu := norm_unit u Uu).
  set (m := motion r d (dr * q) (dd * q) w) in *. clearbody m w.
  (* XD as the wanted vector times N plus small terms *)
  assert (EXD : XD = vadd (scale N (vadd (cross fk_spin u) (vsub e_rate (scale (dot u e_rate) u))))
     (vadd (vsub vp (cross fk_spin P)) (vadd (cross fk_spin (vsub P X)) (vadd (scale (rho - N) e_rate) (vadd (scale (- dot (vsub P X) e_rate) X) (scale (- (N * (N - 1)) * dot u e_rate) u)))))).
  { unfold XD. rewrite EA. rewrite <- F. generalize e_rate fk_spin. intros a s. clear. destruct vp as [v1 v2 v3], P as [p1 p2 p3], u as [u1 u2 u3], a as [a1 a2 a3], s as [s1 s2 s3]. vnorm. f_equal; ring. }
  set (t := vadd (cross fk_spin u) (vsub e_rate (scale (dot u e_rate) u))) in *.
  match type of EXD with _ = vadd _ ?x => set (er := x) in * end.
  assert (Em : vsub m t = scale (1 / N) er).
  { replace m with (scale (1 / N) XD) by (rewrite M, scale_scale; replace (1 / N * N) with 1 by (field; lra); apply scale_1).
    rewrite EXD. clear - HN Hp. destruct t as [t1 t2 t3], er as [e1 e2 e3]. vnorm. f_equal; field; lra. }
  rewrite Em, norm_scale_abs, (Rabs_pos_eq (1 / N)) by (apply Rlt_le, Rdiv_lt_0_compat; lra).
  assert (Ne : norm er <= 9.5e-6).
  { assert (WX : norm (vsub P X) <= 35/10000000) by (rewrite norm_sub_sym; exact W).
    assert (NX := norm_pos (vsub P X)). assert (N1 := norm_pos e_rate). assert (N2 := norm_pos fk_spin).
    unfold er. eapply Rle_trans; [apply norm_triangle|]. eapply Rle_trans; [apply Rplus_le_compat_l, norm_triangle|].
    eapply Rle_trans; [apply Rplus_le_compat_l, Rplus_le_compat_l, norm_triangle|]. eapply Rle_trans; [apply Rplus_le_compat_l, Rplus_le_compat_l, Rplus_le_compat_l, norm_triangle|].
    rewrite !norm_scale_abs, !Rabs_Ropp.
    assert (T1 : norm (cross fk_spin (vsub P X)) <= 0.5 * (35/10000000)).
    { apply norm_le; [lra|]. rewrite lagrange, <- !norm_sq. assert (0 <= dot fk_spin (vsub P X) * dot fk_spin (vsub P X)) by apply Rle_0_sqr.
      assert (norm fk_spin * norm (vsub P X) <= 0.5 * (35/10000000)) by (apply Rmult_le_compat; lra). assert (0 <= norm fk_spin * norm (vsub P X)) by (apply Rmult_le_pos; lra). nra. }
    assert (T2 : Rabs (rho - N) * norm e_rate <= 1e-5 * 0.0022) by (apply Rmult_le_compat; [apply Rabs_pos|lra|apply Rabs_le; lra|lra]).
    assert (T3 : Rabs (dot (vsub P X) e_rate) * norm X <= (35/10000000 * 0.0022) * 1.1).
    { fold N. apply Rmult_le_compat; [apply Rabs_pos|lra| |lra]. eapply Rle_trans; [apply cauchy_abs|]. apply Rmult_le_compat; lra. }
    assert (T4 : Rabs (- (N * (N - 1)) * dot u e_rate) * norm u <= 1e-5 * 0.0022).
    { rewrite Nu, Rmult_1_r, Rabs_mult, Rabs_Ropp. apply Rmult_le_compat; try apply Rabs_pos.
      - rewrite Rabs_mult. apply Rle_trans with (1.1 * (4/1000000)); [|lra]. apply Rmult_le_compat; try apply Rabs_pos; apply Rabs_le; lra.
      - eapply Rle_trans; [apply cauchy_abs|]. rewrite Nu. lra. }
    lra. }
  assert (0 < 1 / N <= 1.01). { split; [apply Rdiv_lt_0_compat; lra|]. apply (Rmult_le_reg_r N); [lra|]. replace (1 / N * N) with 1 by (field; lra). lra. }
  assert (0 <= norm er) by apply norm_pos. nra.
Qed.
(** Non-vacuity: a star on the FK5 equator meets the hypothesis on the latitude *)
Example C55_fixed_eg : exists r d dr dd px rv, palFk524 (T := R) 0 0 0 0 0 0 = (r, d, dr, dd, px, rv) /\ 1e-29 <= cosR d.
Proof.
  destruct (palFk524 (T := R) 0 0 0 0 0 0) as [[[[[r d] dr] dd] px] rv] eqn:E. exists r, d, dr, dd, px, rv. split; [reflexivity|].
  assert (V0 : motion 0 0 (0 * PMF) (0 * PMF) (21.095 * 0 * 0) = vzero).
  { rewrite !Rmult_0_l, !Rmult_0_r. unfold motion. generalize (east 0 0) (north 0 0) (dir 0 0). intros; vring. }
  assert (Epos := palFk524_val 0 0 0 0 0 0). cbv zeta in Epos. replace (VF * 0 * 0) with (21.095 * 0 * 0) in Epos by ring. rewrite V0 in Epos. unfold fk4_pos in Epos. rewrite mapp_zero in Epos.
  set (P := vadd (mapp fk_emi_pp (dir 0 0)) vzero) in *. assert (EP : P = mapp fk_emi_pp (dir 0 0)) by (unfold P; generalize (mapp fk_emi_pp (dir 0 0)); intros; vring).
  rewrite E, fk524_sph_val in Epos.
  assert (Ed : d = fk_lat (with_e (fk_rho P) P)) by (apply (f_equal (fun z => snd (fst (fst (fst (fst z)))))) in Epos; exact Epos). clear Epos.
  assert (F := fk_lonlat (with_e (fk_rho P) P)). rewrite <- Ed in F. destruct F as [_ [Rd [F _]]].
  set (lo := fk_lon (with_e (fk_rho P) P)) in *.
  assert (Hp := fk_p_norm (dir 0 0) (dir_unit _ _)). rewrite <- EP in Hp.
  assert (Hrho : - (35/10000000) <= fk_rho P - norm P <= 35/10000000).
  { unfold fk_rho. assert (W := with_e_close (norm P) P ltac:(lra) ltac:(lra)).
    generalize (norm_triangle_sub (with_e (norm P) P) P) (norm_triangle_sub P (with_e (norm P) P)). rewrite (norm_sub_sym P). lra. }
  assert (W := with_e_close (fk_rho P) P ltac:(lra) ltac:(lra)). set (X := with_e (fk_rho P) P) in *.
  assert (Px : 0.99 <= vx P). { rewrite EP. unfold dir. rewrite sin_0, cos_0. unfold mapp, fk_emi_pp. rn. unfold dot. cbn [vx vy vz m0 m1 m2]. lra. }
  assert (Xx : 0.9 <= vx X).
  { assert (B : Rabs (vx (vsub X P)) <= 35/10000000).
    { eapply Rle_trans; [|exact W]. rewrite <- sqrt_Rsqr_abs. unfold norm. apply sqrt_le_1_alt. unfold dot, Rsqr. assert (0 <= vy (vsub X P) * vy (vsub X P)) by apply Rle_0_sqr. assert (0 <= vz (vsub X P) * vz (vsub X P)) by apply Rle_0_sqr. lra. }
    assert (EV : vx (vsub X P) = vx X - vx P) by reflexivity. rewrite EV in B. revert B. unfold Rabs; destruct (Rcase_abs _); lra. }
  assert (HN : norm X <= 1.1) by (generalize (norm_triangle_sub X P); lra).
  rewrite <- F in Xx. unfold dir in Xx. cbn [vx scale] in Xx.
  assert (C0 : 0 <= cosR d) by (apply cos_ge_0; lra). assert (CB := COS_bound lo). assert (N0 := norm_pos X).
  assert (norm X * (cosR d * cosR lo) <= 1.1 * cosR d).
  { apply Rle_trans with (norm X * (cosR d * 1)); [apply Rmult_le_compat_l; [lra|]; apply Rmult_le_compat_l; lra|]. rewrite Rmult_1_r. apply Rmult_le_compat_r; lra. }
  unfold cosR in *. lra.
Qed.
