(** * FK4/FK5 conversions: supporting proofs *)
From Coq Require Import Reals ZArith Lra Lia Psatz Bool.
From Flocq Require Import Core.Raux.
From Verif Require Import Num NumR Erfa Erfa2 Geom M_Sphere P_Sphere M_Time M_Frames P_Frames P_Eterms.
From Interval Require Import Tactic.
Local Open Scope R_scope.

(** unit vectors of increasing longitude and latitude *)
Definition east (r d : R) : vec R := V (- sinR r) (cosR r) 0.
Definition north (r d : R) : vec R := V (- (cosR r * sinR d)) (- (sinR r * sinR d)) (cosR d).
(** space motion of a star at unit distance: dRA/dt, dDec/dt and relative radial rate *)
Definition motion (r d ur ud w : R) : vec R :=
  vadd (scale (ur * cosR d) (east r d)) (vadd (scale ud (north r d)) (scale w (dir r d))).
Lemma fk524_cart_val : forall r d ur ud w, fk524_cart r d ur ud w = (dir r d, motion r d ur ud w).
Proof.
  intros. unfold fk524_cart, motion, east, north, dir. rops. cbv zeta.
  apply f_equal2; [easy|]. vnorm. f_equal; ring.
Qed.

Definition fk4_pos (p v : vec R) := vadd (mapp fk_emi_pp p) (mapp fk_emi_pv v).
Definition fk4_vel (p v : vec R) := vadd (mapp fk_emi_vp p) (mapp fk_emi_vv v).
Lemma row6_val : forall rp rv p v, row6 rp rv p v = dot rp p + dot rv v.
Proof. intros. unfold row6, dot. rn. unfold Rdiv. ring. Qed.
Lemma fk524_bn_val : forall p v, fk524_bn p v = (fk4_pos p v, fk4_vel p v).
Proof. intros. unfold fk524_bn. rewrite !row6_val. reflexivity. Qed.

(** E-terms added to a position of length rho *)
Definition with_e (rho : R) (p : vec R) : vec R :=
  vadd p (vsub (scale rho fk_a) (scale (dot p fk_a) p)).
Definition fk_rho (p : vec R) : R := norm (with_e (norm p) p).
Lemma fk524_eterms_val : forall p v, fk524_eterms p v =
  let X := with_e (fk_rho p) p in
  (X, vsub (vadd v (scale (fk_rho p) fk_ad)) (scale (dot p fk_ad) X), fk_rho p).
Proof.
  intros p v. unfold fk524_eterms. rops. cbv zeta.
  replace (sqrtR (vx p * vx p + vy p * vy p + vz p * vz p)) with (norm p) by reflexivity.
  replace (vx p * vx fk_a + vy p * vy fk_a + vz p * vz fk_a) with (dot p fk_a) by reflexivity.
  replace (vx p * vx fk_ad + vy p * vy fk_ad + vz p * vz fk_ad) with (dot p fk_ad) by reflexivity.
  assert (E : sqrtR
      ((vx p + (vx fk_a * norm p - dot p fk_a * vx p)) * (vx p + (vx fk_a * norm p - dot p fk_a * vx p)) +
       (vy p + (vy fk_a * norm p - dot p fk_a * vy p)) * (vy p + (vy fk_a * norm p - dot p fk_a * vy p)) +
       (vz p + (vz fk_a * norm p - dot p fk_a * vz p)) * (vz p + (vz fk_a * norm p - dot p fk_a * vz p))) = fk_rho p).
  { unfold fk_rho, norm at 7, dot at 7, with_e, vadd, vsub, scale. cbn [vx vy vz].
    set (n := norm p). set (q := dot p fk_a). clearbody n q. f_equal. ring. }
  rewrite E. clear E. unfold with_e.
  set (n := fk_rho p). set (q := dot p fk_a). set (qd := dot p fk_ad). clearbody n q qd.
  set (a := @fk_a R RA). set (ad := @fk_ad R RA). clearbody a ad.
  apply f_equal2; [|easy].
  apply f_equal2; unfold vadd, vsub, scale; cbn [vx vy vz]; f_equal; ring.
Qed.

Definition TINY : R := 1 / 10^30.
Definition rxysq (X : vec R) := vx X * vx X + vy X * vy X.
Definition fk_lon (X : vec R) : R :=
  if (Reqb (vx X) 0 && Reqb (vy X) 0)%bool then 0
  else if Rltb (atan2R (vy X) (vx X)) 0 then atan2R (vy X) (vx X) + 2 * PI else atan2R (vy X) (vx X).
Definition fk_lat (X : vec R) : R := atan2R (vz X) (sqrtR (rxysq X)).
Lemma fk524_sph_val : forall X XD rho ur ud px rv, fk524_sph X XD rho ur ud px rv =
  (fk_lon X, fk_lat X,
   (if Rltb TINY (sqrtR (rxysq X)) then (vx X * vy XD - vy X * vx XD) / rxysq X else ur) / PMF,
   (if Rltb TINY (sqrtR (rxysq X)) then
      (vz XD * rxysq X - vz X * (vx X * vx XD + vy X * vy XD)) / ((rxysq X + vz X * vz X) * sqrtR (rxysq X))
    else ud) / PMF,
   (if Rltb TINY px then px / rho else px),
   (if Rltb TINY px then dot X XD / (px * VF * rho) else rv)).
Proof.
  intros. unfold fk524_sph.
  replace (lit (MkDec 0 (-1))) with 0 by (rn; lra).
  replace (lit (MkDec 10 (-31))) with TINY by (unfold TINY; rn; lra).
  rewrite D2PI_val. rops. cbv zeta. fold (rxysq X).
  destruct (Rltb TINY (sqrtR (rxysq X))), (Rltb TINY px); reflexivity.
Qed.

Lemma palFk524_val : forall r2 d2 dr2 dd2 px2 rv2,
  palFk524 r2 d2 dr2 dd2 px2 rv2 =
  let ur := dr2 * PMF in let ud := dd2 * PMF in
  let p := dir r2 d2 in let v := motion r2 d2 ur ud (VF * rv2 * px2) in
  let P := fk4_pos p v in
  let X := with_e (fk_rho P) P in
  let XD := vsub (vadd (fk4_vel p v) (scale (fk_rho P) fk_ad)) (scale (dot P fk_ad) X) in
  fk524_sph X XD (fk_rho P) ur ud px2 rv2.
Proof.
  intros. unfold palFk524. rewrite fk524_cart_val, fk524_bn_val, fk524_eterms_val. reflexivity.
Qed.

(** spherical conversion *)
Lemma fk_lonlat : forall X, 0 <= fk_lon X < 2 * PI /\ - (PI/2) <= fk_lat X <= PI/2 /\
  scale (norm X) (dir (fk_lon X) (fk_lat X)) = X /\
  sqrtR (rxysq X) = norm X * cosR (fk_lat X).
Proof.
  intros [x y z]. unfold fk_lon, fk_lat, rxysq; cbn [vx vy vz]. assert (Hpi := PI_RGT_0).
  set (d2 := x * x + y * y).
  assert (Hd : 0 <= d2) by (unfold d2; nra).
  assert (Hr : norm (V x y z) = sqrtR (sqrtR d2 * sqrtR d2 + z * z)).
  { unfold norm, dot; cbn. rewrite sqrt_sqrt by easy. f_equal. }
  rewrite Hr.
  assert (Hp := atan2_polar z (sqrtR d2)).
  set (r := sqrtR (sqrtR d2 * sqrtR d2 + z * z)) in *. set (ph := atan2R z (sqrtR d2)) in *.
  assert (HL : exists la, (if (Reqb x 0 && Reqb y 0)%bool then 0
            else if Rltb (atan2R y x) 0 then atan2R y x + 2 * PI else atan2R y x) = la /\
          0 <= la < 2 * PI /\ x = sqrtR d2 * cosR la /\ y = sqrtR d2 * sinR la).
  { eexists; split; [reflexivity|].
    destruct (Reqb_spec x 0) as [Ex|Ex]; destruct (Reqb_spec y 0) as [Ey|Ey]; cbn [andb];
    [|clear Ex Ey..].
    1:{ split; [lra|]. unfold d2; subst x y. replace (0*0+0*0) with 0 by ring. rewrite sqrt_0. lra. }
    all: destruct (atan2_polar y x) as [P1 P2]; fold d2 in P1, P2;
         generalize (atan2_range y x); intros;
         destruct (Rltb_spec (atan2R y x) 0);
         [ split; [lra|]; replace (atan2R y x + 2 * PI) with (atan2R y x + IZR 1 * (2 * PI)) by (simpl; ring);
           rewrite cos_period_Z, sin_period_Z; easy
         | split; [lra|easy] ]. }
  destruct HL as (la & -> & HL1 & Hx & Hy).
  split; [easy|]. split; [apply atan2_half, sqrt_pos|].
  destruct Hp as [Hc Hz]. split; [|lra].
  unfold scale, dir; cbn [vx vy vz]. f_equal.
  - transitivity (sqrtR d2 * cosR la); [rewrite Hc; ring | lra].
  - transitivity (sqrtR d2 * sinR la); [rewrite Hc; ring | lra].
  - lra.
Qed.

(** the space motion is reproduced by the returned proper motions *)
Lemma fk_motion : forall X XD, 0 < sqrtR (rxysq X) ->
  let ur := (vx X * vy XD - vy X * vx XD) / rxysq X in
  let ud := (vz XD * rxysq X - vz X * (vx X * vx XD + vy X * vy XD)) / ((rxysq X + vz X * vz X) * sqrtR (rxysq X)) in
  XD = scale (norm X) (motion (fk_lon X) (fk_lat X) ur ud (dot X XD / dot X X)).
Proof.
  intros X XD H ur ud. destruct (fk_lonlat X) as (_ & _ & E & C).
  set (L := fk_lon X) in *. set (B := fk_lat X) in *. clearbody L B.
  set (n := norm X) in *.
  assert (S : sqrtR (rxysq X) * sqrtR (rxysq X) = rxysq X)
    by (apply sqrt_sqrt; unfold rxysq; nra).
  assert (N2 : n * n = dot X X) by apply norm_sq.
  set (h := sqrtR (rxysq X)) in *. clearbody h.
  assert (Q1 := sc2 L). assert (Q2 := sc2 B).
  assert (Hn : n <> 0) by (intros Z; rewrite Z in C; lra).
  assert (Hcb : cosR B <> 0) by (intros Z; rewrite Z in C; lra).
  assert (Hx : vx X = n * (cosR L * cosR B)) by (rewrite <- E; reflexivity).
  assert (Hy : vy X = n * (sinR L * cosR B)) by (rewrite <- E; reflexivity).
  assert (Hz : vz X = n * sinR B) by (rewrite <- E; reflexivity).
  assert (Hd : dot X XD = n * (cosR L * cosR B) * vx XD + n * (sinR L * cosR B) * vy XD + n * sinR B * vz XD)
    by (unfold dot; rewrite Hx, Hy, Hz; easy).
  assert (Hu : ur * cosR B = (cosR L * vy XD - sinR L * vx XD) / n).
  { unfold ur. rewrite <- S, C, Hx, Hy. field. split; easy. }
  assert (Hv : ud = (vz XD * cosR B - sinR B * (cosR L * vx XD + sinR L * vy XD)) / n).
  { unfold ud. replace (rxysq X + vz X * vz X) with (n * n) by (rewrite N2; unfold rxysq, dot; ring).
    rewrite <- S, C, Hx, Hy, Hz. field. split; easy. }
  unfold motion. rewrite Hu, Hv, <- N2, Hd. clear - Q1 Q2 Hn.
  destruct XD as [a b c]. unfold east, north, dir. vnorm.
  set (sl := sinR L) in *. set (cl := cosR L) in *. set (sb := sinR B) in *. set (cb := cosR B) in *. clearbody sl cl sb cb.
  f_equal; field_simplify_eq; try easy.
  - transitivity (a * n * (sl * sl + cl * cl * (sb * sb + cb * cb)) + n * cl * b * sl * ((sb * sb + cb * cb) - 1)).
    + rewrite Q2. replace (sl * sl + cl * cl * 1) with 1 by lra. ring.
    + ring.
  - transitivity (b * n * (sl * sl * (sb * sb + cb * cb) + cl * cl) + n * cl * sl * a * ((sb * sb + cb * cb) - 1)).
    + rewrite Q2. replace (sl * sl * 1 + cl * cl) with 1 by lra. ring.
    + ring.
  - transitivity (c * n * (sb * sb + cb * cb)); [rewrite Q2; ring|ring].
Qed.

(** ** palFk45z *)
Definition fk_a1 (be : R) : vec R := vadd fk_a (scale ((be - 1950) / PMF) fk_ad).
Definition fk_w (be : R) : R := (palEpj (palEpb2d be) - 2000) / PMF.
Definition madd (k : R) (a b : mat R) : mat R :=
  M (vadd (m0 a) (scale k (m0 b))) (vadd (m1 a) (scale k (m1 b))) (vadd (m2 a) (scale k (m2 b))).
Lemma mapp_madd : forall k a b v, mapp (madd k a b) v = vadd (mapp a v) (scale k (mapp b v)).
Proof. intros. unfold madd. vring. Qed.
Definition fk_K (be : R) : mat R := madd (fk_w be) fk_em_p fk_em_v.
Lemma lit1950 : lit (MkDec 19500 (-1)) = 1950.
Proof. rn. lra. Qed.
Local Opaque PMF palEpj palEpb2d.
Lemma palFk45z_val : forall r d be, palFk45z r d be =
  let w := mapp (fk_K be) (sub_e (dir r d) (fk_a1 be)) in (eraAnp (fst (eraC2s w)), snd (eraC2s w)).
Proof.
  intros. unfold palFk45z. rewrite eraS2c_dir, lit1950, lit2000, !eraRxp_mapp. rops. cbv zeta.
  match goal with |- context [eraC2s ?q] => assert (E : q = mapp (fk_K be) (sub_e (dir r d) (fk_a1 be))) end.
  { unfold fk_K. rewrite mapp_madd. fold (fk_w be).
    match goal with |- context [mapp fk_em_p ?q] => assert (E : q = sub_e (dir r d) (fk_a1 be)) end.
    { unfold sub_e, fk_a1, vsub, vadd, scale, dot. cbn [vx vy vz].
      set (a := @fk_a R RA). set (ad := @fk_ad R RA). clearbody a ad. f_equal; ring. }
    rewrite E. reflexivity. }
  rewrite E. rewrite (surjective_pairing (eraC2s _)). reflexivity.
Qed.
Local Transparent PMF palEpj palEpb2d.

Lemma PMF_val : (PMF : R) = 64800000 / PI.
Proof. unfold PMF. rewrite D2PI_val. rn. field. generalize PI_RGT_0; lra. Qed.
Lemma fk_w_1950 : fk_w 1950 = - (1826257654095 / 100000000) / (36525 / 100) / (64800000 / PI).
Proof.
  unfold fk_w, palEpj, palEpb2d, eraEpb2jd, eraEpj, MJD0, DJ00, DJY, DTY. cbn [snd].
  rewrite PMF_val. rn. unfold Rdiv. apply f_equal2; [|easy]. lra.
Qed.
Lemma fk_a1_1950 : fk_a1 1950 = fk_a.
Proof. unfold fk_a1. replace ((1950 - 1950) / PMF) with 0 by (unfold Rdiv; ring).
  generalize (@fk_a R RA) (@fk_ad R RA). intros; vring.
Qed.

(** palFk45z's matrix is the inverse of palFk524's to 9e-11 *)
Lemma fk_KA : near (9e-11) (mmul (fk_K 1950) fk_emi_pp) mid.
Proof.
  unfold fk_K. rewrite fk_w_1950. unfold madd, fk_em_p, fk_em_v, fk_emi_pp. rn.
  unfold vadd, scale; cbn [vx vy vz m0 m1 m2].
  apply near_mul; interval with (i_prec 100).
Qed.
Lemma fk_AA : near (9e-11) (mmul (mtr fk_emi_pp) fk_emi_pp) mid.
Proof. unfold fk_emi_pp. nearm. Qed.
Lemma mapp_norm : forall m v k, 0 <= k ->
  dot (m0 m) (m0 m) + dot (m1 m) (m1 m) + dot (m2 m) (m2 m) <= k * k -> norm (mapp m v) <= k * norm v.
Proof.
  intros m v k Hk H. apply norm_le; [apply Rmult_le_pos; [easy|apply norm_pos]|].
  replace (k * norm v * (k * norm v)) with (k * k * (norm v * norm v)) by ring. rewrite norm_sq.
  assert (C0 := cauchy (m0 m) v). assert (C1 := cauchy (m1 m) v). assert (C2 := cauchy (m2 m) v).
  assert (P := dot_pos v). unfold mapp at 1 2. unfold dot at 1. cbn [vx vy vz]. nra.
Qed.
Lemma fk_K_norm : forall v, norm (mapp (fk_K 1950) v) <= 18/10 * norm v.
Proof.
  intros v. apply mapp_norm; [lra|].
  unfold fk_K. rewrite fk_w_1950. unfold madd, fk_em_p, fk_em_v. rn.
  unfold dot, vadd, scale; cbn [vx vy vz m0 m1 m2]. interval.
Qed.
Lemma fk_a_norm : norm fk_a <= 17 / 10000000.
Proof. apply norm_le; [lra|]. unfold fk_a, dot; rn; cbn [vx vy vz]. interval. Qed.

Lemma with_e_close : forall rho p, 0 <= rho <= 1001/1000 -> norm p <= 10001/10000 ->
  norm (vsub (with_e rho p) p) <= 35 / 10000000.
Proof.
  intros rho p Hr Hp. unfold with_e.
  assert (D := fk_a_norm). set (a := @fk_a R RA) in *. clearbody a.
  replace (vsub (vadd p (vsub (scale rho a) (scale (dot p a) p))) p)
    with (vsub (scale rho a) (scale (dot p a) p)) by vring.
  replace (vsub (scale rho a) (scale (dot p a) p)) with (vadd (scale rho a) (scale (- dot p a) p)) by vring.
  eapply Rle_trans; [apply norm_triangle|]. rewrite !norm_scale_abs, Rabs_Ropp, Rabs_right by lra.
  assert (C := cauchy_abs p a). assert (P1 := norm_pos p). assert (P2 := norm_pos a).
  assert (Rabs (dot p a) * norm p <= norm p * norm a * norm p) by (apply Rmult_le_compat_r; lra).
  assert (norm p * norm a * norm p <= 10001/10000 * (17/10000000) * (10001/10000)).
  { apply Rmult_le_compat; try lra; [apply Rmult_le_pos; lra|]. apply Rmult_le_compat; lra. }
  assert (rho * norm a <= 1001/1000 * (17/10000000)) by (apply Rmult_le_compat; lra). lra.
Qed.

Lemma fk_p_norm : forall x, unitv x -> 1 - 3e-10 <= norm (mapp fk_emi_pp x) <= 1 + 3e-10.
Proof.
  intros x Hx. assert (K := near_app (9e-11) (mmul (mtr fk_emi_pp) fk_emi_pp) mid x ltac:(lra) fk_AA Hx).
  rewrite mapp_mid in K.
  assert (S : norm (mapp fk_emi_pp x) * norm (mapp fk_emi_pp x) =
              1 + dot x (vsub (mapp (mmul (mtr fk_emi_pp) fk_emi_pp) x) x)).
  { rewrite norm_sq, dot_mapp, <- mapp_mmul. set (G := mmul _ _). clearbody G.
    replace (dot x (vsub (mapp G x) x)) with (dot x (mapp G x) - dot x x) by vring.
    replace (dot x x) with 1 by (symmetry; exact Hx). ring. }
  assert (C := cauchy_abs x (vsub (mapp (mmul (mtr fk_emi_pp) fk_emi_pp) x) x)).
  rewrite (norm_unit x Hx) in C. apply Rabs_le_inv in C.
  assert (P := norm_pos (mapp fk_emi_pp x)). nra.
Qed.

Lemma fk_round : forall x, unitv x ->
  let p := mapp fk_emi_pp x in let X := with_e (fk_rho p) p in
  let w := mapp (fk_K 1950) (sub_e (unit_of X) fk_a) in
  X <> vzero /\ w <> vzero /\ norm (vsub (unit_of w) x) <= 1e-9.
Proof.
  intros x Hx p X w.
  assert (Hp := fk_p_norm x Hx). fold p in Hp.
  assert (Hrho : Rabs (fk_rho p - norm p) <= 35/10000000).
  { unfold fk_rho. assert (W := with_e_close (norm p) p ltac:(lra) ltac:(lra)).
    apply Rabs_le. generalize (norm_triangle_sub (with_e (norm p) p) p) (norm_triangle_sub p (with_e (norm p) p)).
    rewrite (norm_sub_sym p). lra. }
  apply Rabs_le_inv in Hrho.
  assert (W := with_e_close (fk_rho p) p ltac:(lra) ltac:(lra)). fold X in W.
  set (rho := fk_rho p) in *.
  assert (HN : - (35/10000000) <= norm X - norm p <= 35/10000000).
  { generalize (norm_triangle_sub X p) (norm_triangle_sub p X). rewrite (norm_sub_sym p X). lra. }
  set (N := norm X) in *.
  assert (D := fk_a_norm). assert (Pa := norm_pos fk_a).
  set (r0 := unit_of X) in *.
  assert (ER : scale N r0 = X).
  { unfold r0, unit_of. rewrite scale_scale. fold N. replace (N * (1 / N)) with 1 by (field; lra). apply scale_1. }
  assert (Hr0 : unitv r0).
  { unfold r0, unit_of, unitv. rewrite dot_scale_l, dot_scale_r, <- norm_sq. fold N. field. lra. }
  assert (NX : X <> vzero) by (apply norm_pos_nz; fold N; lra).
  (* N * v1 = p + e *)
  set (e := vadd (scale (rho - N) fk_a) (vadd (scale (dot (vsub r0 p) fk_a) X) (scale (dot p fk_a) (vsub X p)))).
  assert (EV : scale N (sub_e r0 fk_a) = vadd p e).
  { unfold sub_e, e.
    transitivity (vsub (vadd X (scale (dot r0 fk_a) X)) (scale N fk_a)).
    - rewrite <- ER. generalize (@fk_a R RA). intros a. generalize r0 N. clear. intros; vring.
    - transitivity (vadd p (vadd (scale (rho - N) fk_a) (vadd (scale (dot r0 fk_a) X) (scale (- dot p fk_a) p)))).
      + unfold X at 1, with_e. fold rho. generalize (@fk_a R RA). intros a. generalize r0 N rho X p. clear. intros; vring.
      + generalize (@fk_a R RA). intros a. generalize r0 N rho X p. clear. intros; vring. }
  assert (Hrp : norm (vsub r0 p) <= 71 / 10000000).
  { replace (vsub r0 p) with (vadd (scale (1 - N) r0) (vsub X p)) by (rewrite <- ER; generalize r0 N p; clear; intros; vring).
    eapply Rle_trans; [apply norm_triangle|]. rewrite norm_scale_abs, (norm_unit r0 Hr0).
    assert (Rabs (1 - N) <= 36/10000000 - 3e-10) by (apply Rabs_le; lra). lra. }
  assert (He : norm e <= 31e-12).
  { unfold e. eapply Rle_trans; [apply norm_triangle|].
    assert (T1 : norm (scale (rho - N) fk_a) <= 70/10000000 * (17/10000000)).
    { rewrite norm_scale_abs. apply Rmult_le_compat; try easy; [apply Rabs_pos|]. apply Rabs_le; lra. }
    assert (T2 : norm (scale (dot (vsub r0 p) fk_a) X) <= 71/10000000 * (17/10000000) * (1001/1000)).
    { rewrite norm_scale_abs. fold N. apply Rmult_le_compat; try apply Rabs_pos; try lra.
      eapply Rle_trans; [apply cauchy_abs|]. apply Rmult_le_compat; try apply norm_pos; lra. }
    assert (T3 : norm (scale (dot p fk_a) (vsub X p)) <= 1001/1000 * (17/10000000) * (35/10000000)).
    { rewrite norm_scale_abs. apply Rmult_le_compat; try apply Rabs_pos; try apply norm_pos; try lra.
      eapply Rle_trans; [apply cauchy_abs|]. apply Rmult_le_compat; try apply norm_pos; lra. }
    generalize (norm_triangle (scale (dot (vsub r0 p) fk_a) X) (scale (dot p fk_a) (vsub X p))). lra. }
  assert (EW : scale N w = vadd (mapp (fk_K 1950) p) (mapp (fk_K 1950) e)).
  { unfold w. rewrite <- mapp_scale, EV. apply mapp_vadd. }
  assert (KA := near_app (9e-11) _ mid x ltac:(lra) fk_KA Hx). rewrite mapp_mid, mapp_mmul in KA. fold p in KA.
  assert (KE := fk_K_norm e).
  assert (HW : norm (vsub (scale N w) x) <= 34e-11).
  { rewrite EW. replace (vsub (vadd (mapp (fk_K 1950) p) (mapp (fk_K 1950) e)) x)
      with (vadd (vsub (mapp (fk_K 1950) p) x) (mapp (fk_K 1950) e))
      by (generalize (mapp (fk_K 1950) p) (mapp (fk_K 1950) e); intros; vring).
    eapply Rle_trans; [apply norm_triangle|]. lra. }
  split; [exact NX|]. split.
  - intros Z. rewrite Z in HW. replace (scale N vzero) with vzero in HW by vring.
    rewrite norm_opp, (norm_unit x Hx) in HW. lra.
  - rewrite <- (unit_of_scale N w) by lra. eapply Rle_trans; [apply unit_of_close; [easy|lra]|]. lra.
Qed.
