(** * Lemmas for the observed place (C54). *)
From Coq Require Import Reals ZArith Lra Lia Psatz Bool Ascii String.
From Verif Require Import Num NumR Erfa Erfa2 Geom M_Sphere P_Sphere P_Eterms M_Time M_Frames P_Frames P_PrecNum P_Fk M_Refr P_Refz P_RefzC M_Place P_Place.
From Interval Require Import Tactic.
Local Open Scope R_scope.

(** unit vector (S, E, Z) at azimuth [az] (from north through east), zenith distance [z] *)
Definition hv (az z : R) : vec R := V (- cosR az * sinR z) (sinR az * sinR z) (cosR z).
Lemma sc1 : forall x, sinR x * sinR x + cosR x * cosR x = 1.
Proof. intros x. assert (H := sin2_cos2 x). unfold Rsqr in H. exact H. Qed.
Lemma hv_unit : forall az z, unitv (hv az z).
Proof.
  intros. unfold unitv, hv, dot. cbn [vx vy vz]. assert (H1 := sc1 az). assert (H2 := sc1 z).
  replace (- cosR az * sinR z * (- cosR az * sinR z) + sinR az * sinR z * (sinR az * sinR z) + cosR z * cosR z)
    with ((sinR az * sinR az + cosR az * cosR az) * (sinR z * sinR z) + cosR z * cosR z) by ring.
  rewrite H1. lra.
Qed.
Lemma chord_sq_bound : forall x, 2 - 2 * cosR x <= x * x.
Proof.
  intros x. replace x with (2 * (x / 2)) at 1 by field. rewrite cos_2a_sin.
  replace (2 - 2 * (1 - 2 * sinR (x / 2) * sinR (x / 2))) with (4 * (sinR (x/2) * sinR (x/2))) by ring.
  assert (A : Rabs (sinR (x / 2)) <= Rabs (x / 2)).
  { destruct (Rle_or_lt 0 (x / 2)) as [P|P].
    - rewrite (Rabs_pos_eq (x/2)) by easy. apply Rabs_le. split.
      + destruct (Rle_or_lt (x/2) 1) as [Q|Q]; [|generalize (SIN_bound (x/2)); lra].
        assert (0 <= sinR (x/2)) by (apply sin_ge_0; [easy|generalize PI2_1 PI_RGT_0; lra]). lra.
      + destruct P as [P|<-]; [left; now apply sin_lt_x|rewrite sin_0; lra].
    - rewrite (Rabs_left (x/2)) by easy. replace (sinR (x/2)) with (- sinR (- (x/2))) by (rewrite sin_neg; ring).
      rewrite Rabs_Ropp. apply Rabs_le. split.
      + destruct (Rle_or_lt (-(x/2)) 1) as [Q|Q]; [|generalize (SIN_bound (-(x/2))); lra].
        assert (0 <= sinR (-(x/2))) by (apply sin_ge_0; [lra|generalize PI2_1 PI_RGT_0; lra]). lra.
      + left. apply sin_lt_x. lra. }
  apply Rsqr_le_abs_1 in A. unfold Rsqr in A. lra.
Qed.
Lemma hv_close : forall az z1 z2, norm (vsub (hv az z1) (hv az z2)) <= Rabs (z1 - z2).
Proof.
  intros. apply norm_le; [apply Rabs_pos|]. rewrite <- Rabs_mult, Rabs_pos_eq by (apply Rle_0_sqr).
  eapply Rle_trans; [|apply chord_sq_bound]. rewrite cos_minus.
  unfold hv, vsub, dot. cbn [vx vy vz].
  assert (H0 := sc1 az). assert (H1 := sc1 z1). assert (H2 := sc1 z2).
  generalize dependent (cosR az). generalize (sinR az). intros s c. generalize dependent (cosR z1). generalize (sinR z1). intros s1 c1.
  generalize dependent (cosR z2). generalize (sinR z2). intros s2 c2 H2 H1 H0.
  replace ((- c * s1 - - c * s2) * (- c * s1 - - c * s2) + (s * s1 - s * s2) * (s * s1 - s * s2) + (c1 - c2) * (c1 - c2))
    with ((s * s + c * c) * ((s1 - s2) * (s1 - s2)) + (c1 - c2) * (c1 - c2)) by ring.
  rewrite H0. lra.
Qed.

(** ** The horizon rotation *)
Definition mhor (s c : R) : mat R := M (V s 0 (- c)) (V 0 1 0) (V c 0 s).
Lemma ap_hor_val : forall s c v, ap_hor s c v = mapp (mhor s c) v.
Proof. intros s c v. vd v. unfold ap_hor, mapp, mhor, dot. rops. cbn [vx vy vz m0 m1 m2]. f_equal; ring. Qed.
Lemma ap_eq_val : forall s c v, ap_eq s c v = mapp (mtr (mhor s c)) v.
Proof. intros s c v. vd v. unfold ap_eq, mapp, mhor, mtr, dot. rops. cbn [vx vy vz m0 m1 m2]. f_equal; ring. Qed.
Lemma mhor_rot : forall s c, s * s + c * c = 1 -> rotation (mhor s c).
Proof.
  intros s c H. split.
  - unfold mhor, mmul, mtr, mid, dot. cbn [vx vy vz m0 m1 m2]. f_equal; f_equal; lra.
  - unfold mhor, det3, dot, cross. cbn [vx vy vz m0 m1 m2]. lra.
Qed.

(** ** Azimuth and zenith distance of a vector *)
Definition az_of (w : vec R) : R := if (Reqb (vx w) 0 && Reqb (vy w) 0)%bool then 0 else atan2R (vy w) (- vx w).
Definition zd_of (w : vec R) : R := atan2R (sqrtR (vx w * vx w + vy w * vy w)) (vz w).
Lemma norm_z : forall w, norm w = sqrtR (sqrtR (vx w * vx w + vy w * vy w) * sqrtR (vx w * vx w + vy w * vy w) + vz w * vz w).
Proof.
  intros w. unfold norm, dot. f_equal. rewrite sqrt_sqrt; [ring|]. assert (A := Rle_0_sqr (vx w)). assert (B := Rle_0_sqr (vy w)). unfold Rsqr in *. lra.
Qed.
Lemma hv_of : forall w, w = scale (norm w) (hv (az_of w) (zd_of w)).
Proof.
  intros w. set (r := sqrtR (vx w * vx w + vy w * vy w)).
  assert (Z := atan2_polar r (vz w)).
  assert (N : norm w = sqrtR (vz w * vz w + r * r)) by (rewrite norm_z; fold r; f_equal; ring).
  assert (P : - vx w = r * cosR (az_of w) /\ vy w = r * sinR (az_of w)).
  { unfold az_of. destruct (Reqb_spec (vx w) 0) as [E1|E1]; destruct (Reqb_spec (vy w) 0) as [E2|E2]; cbn [andb].
    1:{ unfold r. rewrite E1, E2. replace (0 * 0 + 0 * 0) with 0 by ring. rewrite sqrt_0. lra. }
    all: assert (Q := atan2_polar (vy w) (- vx w)); replace (- vx w * - vx w + vy w * vy w) with (vx w * vx w + vy w * vy w) in Q by ring; exact Q. }
  unfold zd_of. fold r. rewrite <- N in Z.
  destruct Z as [Z1 Z2]. destruct P as [P1 P2]. unfold scale, hv. cbn [vx vy vz].
  set (t := atan2R r (vz w)) in *. set (a := az_of w) in *. set (n := norm w) in *.
  destruct w as [x y z]. cbn [vx vy vz] in *. f_equal.
  - replace x with (- - x) by ring. rewrite P1, Z2. ring.
  - rewrite P2, Z2. ring.
  - exact Z1.
Qed.
Lemma zd_range : forall w, 0 <= zd_of w <= PI.
Proof.
  intros w. unfold zd_of. set (r := sqrtR _). assert (R0 : 0 <= r) by apply sqrt_pos. assert (G := atan2_range r (vz w)).
  split; [|lra]. clearbody r. assert (PP := PI_RGT_0). generalize (vz w). intros z. unfold atan2R.
  destruct (Rlt_dec 0 z).
  { assert (Q := atan_bound (r / z)). assert (0 <= r / z) by (apply Rmult_le_pos; [easy|left; now apply Rinv_0_lt_compat]).
    destruct H as [H|<-]; [left; rewrite <- atan_0; now apply atan_increasing|rewrite atan_0; lra]. }
  destruct (Rlt_dec z 0).
  { destruct (Rle_dec 0 r); [|contradiction]. assert (Q := atan_bound (r / z)). lra. }
  destruct (Rlt_dec 0 r); [lra|]. destruct (Rlt_dec r 0); lra.
Qed.
Lemma zd_hv : forall az z, 0 <= z <= PI -> zd_of (hv az z) = z.
Proof.
  intros az z H. unfold zd_of, hv. cbn [vx vy vz].
  replace (- cosR az * sinR z * (- cosR az * sinR z) + sinR az * sinR z * (sinR az * sinR z)) with ((sinR az * sinR az + cosR az * cosR az) * (sinR z * sinR z)) by ring.
  rewrite sc1, Rmult_1_l. assert (S : 0 <= sinR z) by (apply sin_ge_0; lra). rewrite sqrt_square by easy.
  assert (PP := PI_RGT_0). assert (Q := atan2_unique 1 z ltac:(lra) ltac:(lra)). now rewrite !Rmult_1_l in Q.
Qed.

(** ** Diurnal aberration *)
Definition yhat : vec R := V 0 1 0.
Definition daber (d : R) (v : vec R) : vec R := vadd v (scale d yhat).
Lemma ap_aberr_val : forall d v, ap_aberr d v = scale (1 - d * vy v) (daber d v).
Proof.
  intros d v. vd v. unfold ap_aberr, daber, yhat, vadd, scale. cbv zeta. replace (@lit R RA 1.0) with 1 by (rn; lra). rops.
  cbn [vx vy vz]. f_equal; ring.
Qed.
Lemma vy_bound : forall v, unitv v -> -1 <= vy v <= 1.
Proof. intros v H. vd v. unfold unitv, dot in H. cbn [vx vy vz] in *. nra. Qed.
Lemma yhat_norm : norm yhat = 1.
Proof. apply norm_unit. unfold unitv, yhat, dot. cbn [vx vy vz]. ring. Qed.
Lemma daber_norm : forall d v, unitv v -> Rabs (norm (daber d v) - 1) <= Rabs d.
Proof.
  intros d v U. unfold daber. assert (A := norm_triangle v (scale d yhat)).
  assert (B := norm_triangle (vadd v (scale d yhat)) (scale (- d) yhat)).
  replace (vadd (vadd v (scale d yhat)) (scale (- d) yhat)) with v in B by (unfold yhat; vring).
  rewrite !norm_scale_abs, yhat_norm, Rabs_Ropp in *. rewrite (norm_unit v U) in *. apply Rabs_le. lra.
Qed.
(** aberration there and back: [d^2] *)
Lemma daber_back : forall d v w e, Rabs d <= 1 / 10 ^ 5 -> unitv v -> unitv w ->
  norm (vsub w (unit_of (ap_aberr d v))) <= e -> e <= 1 / 100 ->
  ap_aberr (- d) w <> vzero /\
  norm (vsub (unit_of (ap_aberr (- d) w)) v) <= (d * d + (1 + Rabs d) * e) * (1 + 3 / 100).
Proof.
  intros d v w e Hd Uv Uw He Le.
  assert (N := daber_norm d v Uv). apply Rabs_le_inv in N. set (n := norm (daber d v)) in *.
  assert (Y := vy_bound v Uv). assert (Yw := vy_bound w Uw).
  assert (D := Rabs_le_inv d _ (Rle_refl (Rabs d))).
  assert (D0 := Rabs_pos d).
  assert (F1 : 0 < 1 - d * vy v) by nra. assert (F2 : 0 < 1 - - d * vy w) by nra.
  rewrite !ap_aberr_val in *. rewrite unit_of_scale in He by lra.
  assert (E : daber d v = scale n (unit_of (daber d v))).
  { unfold unit_of. rewrite scale_scale. fold n. replace (n * (1 / n)) with 1 by (field; lra). now rewrite scale_1. }
  set (x := scale n (daber (- d) w)).
  assert (X : vsub x v = vadd (scale n (vsub w (unit_of (daber d v)))) (scale (d * (1 - n)) yhat)).
  { unfold x. replace (scale n (vsub w (unit_of (daber d v)))) with (vsub (scale n w) (scale n (unit_of (daber d v)))) by (generalize (unit_of (daber d v)); intros q; clearbody n; vring).
    rewrite <- E. unfold daber, yhat. clearbody n. vring. }
  assert (B : norm (vsub x v) <= d * d + (1 + Rabs d) * e).
  { rewrite X. eapply Rle_trans; [apply norm_triangle|]. rewrite !norm_scale_abs, yhat_norm, Rabs_mult.
    assert (A1 : Rabs n * norm (vsub w (unit_of (daber d v))) <= (1 + Rabs d) * e).
    { apply Rmult_le_compat; [apply Rabs_pos|apply norm_pos|rewrite Rabs_pos_eq by lra; lra|easy]. }
    assert (A2 : Rabs d * Rabs (1 - n) <= Rabs d * Rabs d) by (apply Rmult_le_compat_l; [easy|]; apply Rabs_le; lra).
    assert (A3 : Rabs d * Rabs d = d * d) by (rewrite <- Rabs_mult; apply Rabs_pos_eq, Rle_0_sqr). lra. }
  assert (B2 : d * d + (1 + Rabs d) * e <= 11 / 1000).
  { assert (A3 : d * d = Rabs d * Rabs d) by (rewrite <- Rabs_mult; symmetry; apply Rabs_pos_eq, Rle_0_sqr).
    assert (0 <= e) by (eapply Rle_trans; [apply norm_pos|exact He]).
    assert (Rabs d * Rabs d <= 1/10^5 * (1/10^5)) by (apply Rmult_le_compat; lra).
    assert (Rabs d * e <= 1/10^5 * (1/100)) by (apply Rmult_le_compat; lra). lra. }
  assert (XZ : x <> vzero).
  { apply norm_nz. assert (L := norm_triangle_sub v x). rewrite norm_sub_sym, (norm_unit v Uv) in L. lra. }
  assert (Q : daber (- d) w <> vzero).
  { intros Z0. apply XZ. unfold x. rewrite Z0. unfold scale, vzero. cbn [vx vy vz]. f_equal; ring. }
  split.
  - apply norm_nz. rewrite norm_scale by lra. apply Rmult_lt_0_compat; [lra|]. now apply norm_gt0.
  - rewrite unit_of_scale by lra. replace (unit_of (daber (- d) w)) with (unit_of x) by (unfold x; apply unit_of_scale; lra).
    eapply Rle_trans; [apply unit_close_tight; [easy|lra]|]. assert (H0 := norm_pos (vsub x v)).
    apply Rmult_le_compat; lra.
Qed.

(** ** The refraction step of palOapqk *)
Definition oz (p : aoprms R) (o : vec R) : vec R :=
  let az := if (negb (Reqb (vx o) 0) || negb (Reqb (vy o) 0))%bool then atan2R (vy o) (vx o) else 0 in
  let sz := sqrtR (vx o * vx o + vy o * vy o) in
  let zdo := atan2R sz (vz o) in
  let dref := if Rleb (242535625 / 10 ^ 9) (vz o) then let tz := sz / vz o in (ao_refa p + ao_refb p * tz * tz) * tz
              else ao_refro p zdo in
  let zdt := zdo + dref in
  V (cosR az * sinR zdt) (sinR az * sinR zdt) (cosR zdt).
(** azimuth direction of an (S,E,Z) vector *)
Lemma oz_dir : forall az z t, 
  let o := hv az z in
  let a := if (negb (Reqb (vx o) 0) || negb (Reqb (vy o) 0))%bool then atan2R (vy o) (vx o) else 0 in
  let sg := if Rlt_dec (sinR z) 0 then -1 else 1 in
  sinR z <> 0 -> V (cosR a * sinR t) (sinR a * sinR t) (cosR t) = hv az (sg * t).
Proof.
  intros az z t o a sg NZ.
  assert (S1 : sqrtR (vx o * vx o + vy o * vy o) = Rabs (sinR z)).
  { unfold o, hv. cbn [vx vy vz].
    replace (- cosR az * sinR z * (- cosR az * sinR z) + sinR az * sinR z * (sinR az * sinR z)) with ((sinR az * sinR az + cosR az * cosR az) * (sinR z * sinR z)) by ring.
    rewrite sc1, Rmult_1_l. apply sqrt_Rsqr_abs. }
  assert (P := atan2_polar (vy o) (vx o)). rewrite S1 in P.
  assert (A : a = atan2R (vy o) (vx o)).
  { unfold a. destruct (Reqb_spec (vx o) 0) as [E1|E1]; destruct (Reqb_spec (vy o) 0) as [E2|E2]; cbn [negb orb]; auto.
    exfalso. unfold o, hv in E1, E2. cbn [vx vy] in E1, E2.
    assert (X : (sinR az * sinR az + cosR az * cosR az) * (sinR z * sinR z) = 0).
    { replace ((sinR az * sinR az + cosR az * cosR az) * (sinR z * sinR z)) with ((- cosR az * sinR z) * (- cosR az * sinR z) + (sinR az * sinR z) * (sinR az * sinR z)) by ring.
      rewrite E1, E2. ring. }
    rewrite sc1 in X. nra. }
  rewrite <- A in P. clearbody a. destruct P as [P1 P2]. unfold o, hv in P1, P2. cbn [vx vy] in P1, P2.
  unfold hv. unfold sg. destruct (Rlt_dec (sinR z) 0) as [L|L].
  - rewrite Rabs_left in P1, P2 by easy. replace (-1 * t) with (- t) by ring. rewrite sin_neg, cos_neg.
    assert (C : cosR a = cosR az) by (apply Rmult_eq_reg_l with (sinR z); [lra|easy]).
    assert (S : sinR a = - sinR az) by (apply Rmult_eq_reg_l with (sinR z); [lra|easy]).
    rewrite C, S. f_equal; ring.
  - rewrite Rabs_pos_eq in P1, P2 by lra. rewrite Rmult_1_l.
    assert (C : cosR a = - cosR az) by (apply Rmult_eq_reg_l with (sinR z); [lra|easy]).
    assert (S : sinR a = sinR az) by (apply Rmult_eq_reg_l with (sinR z); [lra|easy]).
    rewrite C, S. f_equal; ring.
Qed.
Lemma hv_sz : forall az z, sqrtR (vx (hv az z) * vx (hv az z) + vy (hv az z) * vy (hv az z)) = Rabs (sinR z).
Proof.
  intros. unfold hv. cbn [vx vy vz].
  replace (- cosR az * sinR z * (- cosR az * sinR z) + sinR az * sinR z * (sinR az * sinR z)) with ((sinR az * sinR az + cosR az * cosR az) * (sinR z * sinR z)) by ring.
  rewrite sc1, Rmult_1_l. apply sqrt_Rsqr_abs.
Qed.
Lemma atan2_abs : forall z, - PI < z < PI -> atan2R (Rabs (sinR z)) (cosR z) = Rabs z.
Proof.
  intros z H. destruct (Rle_or_lt 0 z) as [L|L].
  - rewrite (Rabs_pos_eq z) by easy. assert (S : 0 <= sinR z) by (apply sin_ge_0; lra). rewrite Rabs_pos_eq by easy.
    assert (Q := atan2_unique 1 z ltac:(lra) ltac:(lra)). now rewrite !Rmult_1_l in Q.
  - rewrite (Rabs_left z) by easy. rewrite <- (cos_neg z).
    replace (Rabs (sinR z)) with (sinR (- z)).
    + assert (Q := atan2_unique 1 (- z) ltac:(lra) ltac:(lra)). now rewrite !Rmult_1_l in Q.
    + assert (S : 0 < sinR (- z)) by (apply sin_gt_0; lra). rewrite sin_neg in *. rewrite Rabs_left; lra.
Qed.
Lemma sin_nz : forall z, - PI < z < PI -> z <> 0 -> sinR z <> 0 /\ ((sinR z < 0 /\ z < 0) \/ (0 < sinR z /\ 0 < z)).
Proof.
  intros z H N. destruct (Rtotal_order z 0) as [L|[E|L]]; [|contradiction|].
  - assert (0 < sinR (- z)) by (apply sin_gt_0; lra). rewrite sin_neg in *. split; [lra|left; lra].
  - assert (0 < sinR z) by (apply sin_gt_0; lra). split; [lra|right; lra].
Qed.
(** the last step: from [t = zdo + dref] back to a vector *)
Lemma oz_final : forall az z t, - PI < z < PI -> z <> 0 ->
  let o := hv az z in
  let a := if (negb (Reqb (vx o) 0) || negb (Reqb (vy o) 0))%bool then atan2R (vy o) (vx o) else 0 in
  V (cosR a * sinR t) (sinR a * sinR t) (cosR t) = hv az (if Rlt_dec z 0 then - t else t).
Proof.
  intros az z t H N o a. destruct (sin_nz z H N) as [S1 S2]. unfold a, o. rewrite (oz_dir az z t S1).
  destruct (Rlt_dec (sinR z) 0), (Rlt_dec z 0); try lra; f_equal; ring.
Qed.
Lemma oz_zero : forall p az, oz p (hv az 0) = hv az 0.
Proof.
  intros. assert (E : hv az 0 = V 0 0 1) by (unfold hv; rewrite sin_0, cos_0; f_equal; ring). rewrite E.
  unfold oz. cbn [vx vy vz]. cbv zeta.
  replace (0 * 0 + 0 * 0) with 0 by ring. rewrite sqrt_0.
  destruct (Reqb_spec 0 0) as [_|C]; [|lra]. cbn [negb orb].
  destruct (Rleb_spec (242535625 / 10 ^ 9) 1) as [_|C]; [|lra].
  assert (A : atan2R 0 1 = 0). { assert (P := PI_RGT_0). assert (Q := atan2_unique 1 0 ltac:(lra) ltac:(lra)). rewrite sin_0, cos_0, Rmult_0_r, Rmult_1_l in Q. exact Q. }
  rewrite A. replace (0 / 1) with 0 by field.
  replace (0 + (ao_refa p + ao_refb p * 0 * 0) * 0) with 0 by ring. rewrite sin_0, cos_0. f_equal; ring.
Qed.
Lemma oz_fast : forall p az z, Rabs z < PI / 2 -> 242535625 / 10 ^ 9 <= cosR z ->
  oz p (hv az z) = hv az (modelF (ao_refa p) (ao_refb p) z).
Proof.
  intros p az z Hz Hc. assert (PP := PI_RGT_0).
  assert (Z := Rabs_le_inv z _ (Rle_refl _)).
  destruct (Req_dec z 0) as [->|N].
  { rewrite oz_zero. f_equal. unfold modelF. rewrite tan_0. ring. }
  unfold oz. cbv zeta. rewrite hv_sz. rewrite (oz_final az z) by (easy || lra). f_equal.
  replace (vz (hv az z)) with (cosR z) by reflexivity.
  destruct (Rleb_spec (242535625 / 10 ^ 9) (cosR z)) as [_|C]; [|contradiction].
  rewrite atan2_abs by lra. unfold modelF.
  destruct (sin_nz z ltac:(lra) N) as [_ [[S1 S2]|[S1 S2]]].
  - rewrite (Rabs_left z), (Rabs_left (sinR z)) by easy. destruct (Rlt_dec z 0); [|lra].
    replace (- sinR z / cosR z) with (- Rtrigo1.tan z) by (unfold Rtrigo1.tan; field; lra). ring.
  - rewrite (Rabs_pos_eq z), (Rabs_pos_eq (sinR z)) by lra. destruct (Rlt_dec z 0); [lra|].
    change (sinR z / cosR z) with (Rtrigo1.tan z). ring.
Qed.
Lemma oz_slow : forall p az z, 0 <= z < PI -> cosR z < 242535625 / 10 ^ 9 ->
  oz p (hv az z) = hv az (z + ao_refro p z).
Proof.
  intros p az z Hz Hc. assert (PP := PI_RGT_0).
  destruct (Req_dec z 0) as [->|N]; [rewrite cos_0 in Hc; lra|].
  unfold oz. cbv zeta. rewrite hv_sz. rewrite (oz_final az z) by (easy || lra). f_equal.
  destruct (Rlt_dec z 0); [lra|].
  replace (vz (hv az z)) with (cosR z) by reflexivity.
  destruct (Rleb_spec (242535625 / 10 ^ 9) (cosR z)) as [C|_]; [lra|].
  rewrite atan2_abs by lra. now rewrite Rabs_pos_eq by lra.
Qed.
(** without an atmosphere palOapqk does not move any vector (the nadir included) *)
Lemma oz_none : forall p az z, ao_refa p = 0 -> ao_refb p = 0 -> (forall x, ao_refro p x = 0) -> 0 <= z <= PI ->
  oz p (hv az z) = hv az z.
Proof.
  intros p az z A B C H. assert (PP := PI_RGT_0).
  destruct (Req_dec z PI) as [->|NP].
  - unfold oz. cbv zeta. rewrite hv_sz. replace (vz (hv az PI)) with (-1) by (unfold hv; cbn [vz]; now rewrite cos_PI).
    destruct (Rleb_spec (242535625 / 10 ^ 9) (-1)) as [X|_]; [lra|]. rewrite C, sin_PI, Rabs_R0.
    assert (E : atan2R 0 (-1) = PI). { assert (Q := atan2_unique 1 PI ltac:(lra) ltac:(lra)). rewrite sin_PI, cos_PI, Rmult_0_r, Rmult_1_l in Q. exact Q. }
    rewrite E, Rplus_0_r. unfold hv. rewrite sin_PI, cos_PI. f_equal; ring.
  - destruct (Rle_or_lt (242535625 / 10 ^ 9) (cosR z)) as [L|L].
    + assert (Z2 : z < PI / 2).
      { apply Rnot_le_lt. intros G. assert (cosR z <= 0) by (apply cos_le_0; lra). lra. }
      rewrite oz_fast; [|rewrite Rabs_pos_eq; lra|easy]. rewrite A, B. f_equal. unfold modelF. ring.
    + rewrite oz_slow by (easy || lra). rewrite C. f_equal. ring.
Qed.

(** ** palOapqk and palAopqk as functions of vectors *)
Lemma palDcc2s_dir : forall v, v <> vzero -> dir (fst (palDcc2s v)) (snd (palDcc2s v)) = unit_of v.
Proof. intros v H. unfold palDcc2s. now apply eraC2s_nz. Qed.
Lemma palOapqk_val : forall c ob1 ob2 p,
  let v := ap_aberr (- ao_diurab p) (ap_eq (ao_sphi p) (ao_cphi p) (oz p (oa_vec (ob_type c) ob1 ob2 p))) in
  palOapqk c ob1 ob2 p = (palDranrm (ao_st p + fst (palDcc2s v)), snd (palDcc2s v)).
Proof.
  intros. unfold palOapqk. cbv zeta. set (o := oa_vec (ob_type c) ob1 ob2 p) in *.
  assert (E : zbreak = 242535625 / 10 ^ 9) by (unfold zbreak; rn; lra).
  assert (K : v = ap_aberr (- ao_diurab p) (ap_eq (ao_sphi p) (ao_cphi p) (oz p o))) by reflexivity.
  unfold oz in K. cbv zeta in K. rewrite <- E in K.
  replace (@lit R RA 0.0) with 0 by (rn; lra). rops.
  rewrite <- K. rewrite (surjective_pairing (palDcc2s v)). reflexivity.
Qed.
