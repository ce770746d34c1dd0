(** * Theorems: tangent-plane projection in double precision (C91) *)
From Coq Require Import Reals ZArith Lra Lia Psatz Bool.
From Flocq Require Import Core.
From Interval Require Import Tactic.
From Verif Require Import Num NumR NumD NumDE Geom Erfa M_Sphere P_Sphere P_Tangent Props_Dangle Props_Dsep Props_Dsph Props_Dhor.
Local Open Scope R_scope.

Section D.
Variable L : Libm.
(** palDtp2s and palDs2tp run in double arithmetic *)
Definition dtp2s (xi eta raz decz : R) : R * R := @palDtp2s R (DA L) xi eta raz decz.
Definition ds2tp (ra dec raz decz : R) : R * R * Z := @palDs2tp R (DA L) ra dec raz decz.

Definition dtv (xi et decz : R) : vec R :=
  let s := l_sin L decz in let c := l_cos L decz in V (rd (c - rd (et * s))) xi (rd (s + rd (et * c))).
Lemma dtp2s_unf : forall xi et raz decz, dtp2s xi et raz decz =
  let v := dtv xi et decz in
  (dranrm L (rd (l_atan2 L (vy v) (vx v) + raz)), l_atan2 L (vz v) (dhyp (vx v) (vy v))).
Proof.
  intros. unfold dtp2s, palDtp2s, dtv, dhyp, dranrm, palDranrm. cbv zeta. dn. cbn [vx vy vz].
  now rewrite (Rplus_comm (rd (xi * xi))).
Qed.
(** the exact vector in the frame whose zero meridian passes through the tangent point *)
Definition tv (xi et decz : R) : vec R := V (cosR decz - et * sinR decz) xi (sinR decz + et * cosR decz).
Lemma tv_dir : forall ra dec raz decz xi et, projects ra dec raz decz xi et ->
  tv xi et decz = scale (sqrtR (1 + xi * xi + et * et)) (dir (ra - raz) dec).
Proof.
  intros ra dec raz decz xi et P. assert (C := projects_cos _ _ _ _ _ _ P). destruct P as (D0 & H1 & H2).
  set (D := dot (dir ra dec) (dir raz decz)) in *. set (n := sqrtR (1 + xi * xi + et * et)) in *.
  assert (Pn : 0 < n) by (apply sqrt_lt_R0; nra). assert (DN : n * D = 1) by (rewrite C; field; lra).
  assert (X := tp_expand raz decz (dir ra dec)). fold D in X. rewrite H1, H2 in X.
  assert (E : scale n (dir ra dec) = vadd (vadd (scale xi (east raz)) (scale et (north raz decz))) (dir raz decz)).
  { rewrite <- X. generalize (dir raz decz) (east raz) (north raz decz). intros t e nn.
    transitivity (scale (n * D) (vadd (vadd (scale xi e) (scale et nn)) t)); [vring|]. rewrite DN. vring. }
  assert (E1 := f_equal vx E). assert (E2 := f_equal vy E). assert (E3 := f_equal vz E). clear E X H1 H2 D0 C DN.
  unfold scale, vadd, dir, east, north in E1, E2, E3. cbn [vx vy vz] in E1, E2, E3. unfold tv, dir, scale. cbn [vx vy vz].
  rewrite cos_minus, sin_minus. assert (T := sin2_cos2 raz). unfold Rsqr in T. f_equal.
  - transitivity (n * (cosR ra * cosR dec) * cosR raz + n * (sinR ra * cosR dec) * sinR raz); [|ring]. rewrite E1, E2.
    transitivity ((sinR raz * sinR raz + cosR raz * cosR raz) * (cosR decz - et * sinR decz)); [rewrite T; ring|ring].
  - transitivity (n * (sinR ra * cosR dec) * cosR raz - n * (cosR ra * cosR dec) * sinR raz); [|ring]. rewrite E1, E2.
    transitivity ((sinR raz * sinR raz + cosR raz * cosR raz) * xi); [rewrite T; ring|ring].
  - rewrite E3. ring.
Qed.
(** c - t s in doubles *)
Lemma lin_err : forall c s c' s' t n, c * c + s * s = 1 -> Rabs (c' - c) <= u53 -> Rabs (s' - s) <= u53 -> 0 < n -> 1 + t * t <= n * n ->
  Rabs (rd (c' - rd (t * s')) - (c - t * s)) <= 3.43 * u53 * n.
Proof.
  intros c s c' s' t n T Hc Hs Pn N. assert (E1 := eta_small). assert (E0 := eta_pos).
  assert (N1 : 1 <= n) by nra. assert (At := Rabs_pos t).
  assert (T2 : Rabs t * Rabs t = t * t) by (rewrite <- Rabs_mult; apply Rabs_pos_eq, Rle_0_sqr).
  assert (Tn : Rabs t <= n) by nra.
  assert (T1 : 1 + Rabs t <= 1.4143 * n).
  { apply Rsqr_incr_0_var; [|lra]. unfold Rsqr. assert (0 <= (1 - Rabs t) * (1 - Rabs t)) by apply Rle_0_sqr. nra. }
  assert (Bs : Rabs s <= 1) by (apply Rabs_le; nra).
  assert (CN : Rabs (c - t * s) <= n).
  { apply Rsqr_incr_0_var; [|lra]. rewrite <- Rsqr_abs. unfold Rsqr.
    replace ((c - t * s) * (c - t * s)) with ((1 + t * t) * (c * c + s * s) - (s + t * c) * (s + t * c)) by ring. rewrite T.
    assert (0 <= (s + t * c) * (s + t * c)) by apply Rle_0_sqr. lra. }
  assert (D1 : Rabs (t * s' - t * s) <= u53 * Rabs t).
  { replace (t * s' - t * s) with ((s' - s) * t) by ring. rewrite Rabs_mult. apply Rmult_le_compat_r; easy. }
  assert (B1 : Rabs (t * s') <= 1.0001 * Rabs t).
  { rewrite Rabs_mult, (Rmult_comm 1.0001). apply Rmult_le_compat_l; [easy|]. apply Rabs_le_inv in Hs, Bs. unfold u53 in *. apply Rabs_le. lra. }
  assert (D1' : Rabs (t * s' - t * s) <= u53 * n) by (unfold u53 in *; lra).
  assert (R1 := rd_err (t * s')). fold eta in R1.
  assert (R1' : Rabs (rd (t * s') - t * s') <= 1.001 * u53 * n).
  { assert (Rabs (t * s') <= n * 1.0001) by lra. assert (u53 * Rabs (t * s') <= u53 * (n * 1.0001)) by (apply Rmult_le_compat_l; [unfold u53; lra|easy]). unfold u53 in *. lra. }
  assert (SUM : Rabs (rd (t * s') - t * s) <= u53 * Rabs t + 1.001 * u53 * n).
  { replace (rd (t * s') - t * s) with (rd (t * s') - t * s' + (t * s' - t * s)) by ring. eapply Rle_trans; [apply Rabs_triang|]. lra. }
  apply Rabs_le_inv in SUM, Hc, CN.
  assert (R2 := rde (c' - rd (t * s')) (1.0001 * n) ltac:(apply Rabs_le; unfold u53 in *; lra)).
  apply Rabs_le_inv in R2. apply Rabs_le. unfold u53 in *. lra.
Qed.
Lemma dtv_err : trig_acc L u53 -> forall xi et decz, fmt decz ->
  norm (vsub (tv xi et decz) (dtv xi et decz)) <= 5.5e-16 * sqrtR (1 + xi * xi + et * et).
Proof.
  intros HT xi et decz F. destruct (HT decz F) as [Hs Hc]. assert (T := sin2_cos2 decz). unfold Rsqr in T.
  set (n := sqrtR (1 + xi * xi + et * et)). assert (X2 : 0 <= xi * xi) by apply Rle_0_sqr. assert (Y2 : 0 <= et * et) by apply Rle_0_sqr.
  assert (Pn : 0 < n) by (apply sqrt_lt_R0; lra). assert (N2 : n * n = 1 + xi * xi + et * et) by (apply sqrt_sqrt; lra).
  assert (K1 := lin_err (cosR decz) (sinR decz) (l_cos L decz) (l_sin L decz) et n ltac:(lra) Hc Hs Pn ltac:(lra)).
  assert (K2 := lin_err (sinR decz) (- cosR decz) (l_sin L decz) (- l_cos L decz) et n ltac:(lra) Hs
     ltac:(replace (- l_cos L decz - - cosR decz) with (- (l_cos L decz - cosR decz)) by ring; now rewrite Rabs_Ropp) Pn ltac:(lra)).
  replace (et * - l_cos L decz) with (- (et * l_cos L decz)) in K2 by ring. rewrite rd_opp in K2.
  replace (l_sin L decz - - rd (et * l_cos L decz)) with (l_sin L decz + rd (et * l_cos L decz)) in K2 by ring.
  replace (sinR decz - et * - cosR decz) with (sinR decz + et * cosR decz) in K2 by ring.
  apply Rsqr_incr_0_var; [|lra]. unfold Rsqr. rewrite norm_sq. unfold tv, dtv, vsub, dot. cbn [vx vy vz].
  set (a := rd _) in *. set (a0 := cosR decz - et * sinR decz) in *. set (b := rd (l_sin L decz + _)) in *. set (b0 := sinR decz + et * cosR decz) in *.
  assert (Q : forall x y, Rabs (x - y) <= 3.43 * u53 * n -> (y - x) * (y - x) <= 3.43 * u53 * n * (3.43 * u53 * n)).
  { intros x y H. replace ((y - x) * (y - x)) with (Rabs (x - y) * Rabs (x - y)); [apply Rmult_le_compat; try apply Rabs_pos; easy|].
    rewrite <- Rabs_mult, Rabs_pos_eq by apply Rle_0_sqr. ring. }
  apply Q in K1, K2. replace (xi - xi) with 0 by ring. assert (0 < n * n) by nra. unfold u53 in *. nra.
Qed.

(** C91: from the plane to the sphere.  For every point of the plane and every tangent point, the declination is within 9e-16
    (plus the error of atan2) of that of the point projected, and the right ascension, times the cosine of the declination,
    within 5.6e-16 plus the rounding of the addition of the tangent point's *)
Theorem C91_palDtp2s : forall e xi et raz decz ra dec, atan2_acc L e -> 0 <= e <= 0.1 -> atan2_dbl L -> trig_acc L u53 ->
  is_double xi -> is_double et -> is_double raz -> is_double decz -> Rabs raz <= 10 -> Rabs xi <= 10 ^ 60 -> Rabs et <= 10 ^ 60 ->
  projects ra dec raz decz xi et -> - (PI / 2) <= dec <= PI / 2 ->
  Rabs (snd (dtp2s xi et raz decz) - dec) <= 9e-16 + e /\
  (1e-9 <= cosR dec -> 0 <= fst (dtp2s xi et raz decz) < 2 * PI /\ exists k : Z, Rabs (fst (dtp2s xi et raz decz) - (ra + IZR k * (2 * PI))) <= 5.6e-16 / cosR dec + 2.9e-15 + e).
Proof.
  intros e xi et raz decz ra dec HA He HD HT Fx Fe Fr Fz Br _ _ P Hb.
  apply double_fmt in Fx, Fe, Fr, Fz.
  assert (E := dtv_err HT xi et decz Fz). rewrite (tv_dir _ _ _ _ _ _ P) in E. set (n := sqrtR (1 + xi * xi + et * et)) in *.
  assert (N1 : 1 <= n) by (unfold n; rewrite <- sqrt_1 at 1; apply sqrt_le_1_alt; nra).
  assert (N65 : / 10 ^ 65 <= n) by (apply (Rle_trans _ (/ 1)); [apply Rinv_le_contravar; lra|lra]).
  destruct (near_core (dtv xi et decz) n (ra - raz) dec 5.5e-16 N65 Hb E ltac:(lra)) as (NZ & h0 & K & M).
  rewrite dtp2s_unf. cbv zeta. cbn [fst snd]. set (v := dtv xi et decz) in *. set (h := dhyp (vx v) (vy v)) in *.
  assert (Fv : fmt (vx v) /\ fmt (vy v) /\ fmt (vz v)) by (repeat split; unfold v, dtv; cbn [vx vy vz]; try apply fmt_rd; easy).
  destruct Fv as (F0 & F1 & F2).
  set (t := l_atan2 L (vy v) (vx v)). assert (Ft : fmt t) by (apply HD; easy).
  split.
  - assert (AL := HA (vz v) h F2 ltac:(apply fmt_rd) NZ). apply Rabs_le_inv in AL, K. apply Rabs_le. lra.
  - intros Hc. assert (C30 : / 10 ^ 30 <= cosR dec) by (apply (Rle_trans _ 1e-9); lra).
    destruct (M ltac:(lra) C30) as (NZ' & _ & _ & k & Hk).
    assert (AL := HA (vy v) (vx v) F1 F0 NZ'). fold t in AL. assert (B := atan2_range (vy v) (vx v)). assert (P4 := PI_4). assert (P0 := PI_RGT_0).
    apply Rabs_le_inv in AL, Br, Hk.
    assert (W := rdi (t + raz) 14.2 ltac:(lra)). assert (E1 := eta_small). assert (E0 := eta_pos).
    assert (Bd : Rabs (rd (t + raz)) <= 14.3) by (apply Rabs_le; unfold u53 in W; lra).
    assert (Dd : is_double (rd (t + raz))).
    { split; [apply FLT_format_generic; [now unfold Prec_gt_0|apply fmt_rd]|]. eapply Rle_lt_trans; [exact Bd|].
      apply Rlt_le_trans with (bpow radix2 4); [cbn; lra|apply bpow_le; lia]. }
    destruct (C81_palDranrm L _ Dd) as (_ & RG & _ & j & _ & _ & J). split; [exact RG|]. exists (k - j)%Z. rewrite minus_IZR.
    apply Rabs_le_inv in J. set (w := rd (t + raz)) in *. set (q := dranrm L w) in *. set (x := Rabs w) in *. clearbody q x w t.
    assert (CI : 0 < / cosR dec) by (apply Rinv_0_lt_compat; lra). unfold Rdiv in *. set (ci := / cosR dec) in *. clearbody ci.
    apply Rabs_le. unfold u53 in *. split; lra.
Qed.
(** ** palDs2tp *)
Lemma sin_lip : forall x y, Rabs (sinR x - sinR y) <= Rabs (x - y) /\ Rabs (cosR x - cosR y) <= Rabs (x - y).
Proof.
  intros x y.
  assert (G : forall a b, (sinR a - sinR b) * (sinR a - sinR b) + (cosR a - cosR b) * (cosR a - cosR b) <= (a - b) * (a - b)).
  { intros a b. assert (H := half_chord (a - b)). rewrite cos_minus in H. assert (T1 := sin2_cos2 a). assert (T2 := sin2_cos2 b). unfold Rsqr in *. lra. }
  specialize (G x y). split; apply Rsqr_incr_0_var; try apply Rabs_pos; rewrite <- !Rsqr_abs; unfold Rsqr.
  - assert (0 <= (cosR x - cosR y) * (cosR x - cosR y)) by apply Rle_0_sqr. lra.
  - assert (0 <= (sinR x - sinR y) * (sinR x - sinR y)) by apply Rle_0_sqr. lra.
Qed.
Definition s2tp_num (ra dec raz decz : R) : R * R * R :=
  let sz := l_sin L decz in let sd := l_sin L dec in let cz := l_cos L decz in let cd := l_cos L dec in
  let dr := rd (ra - raz) in let sr := l_sin L dr in let cr := l_cos L dr in
  (rd (cd * sr), rd (rd (sd * cz) - rd (rd (cd * sz) * cr)), rd (rd (sd * sz) + rd (rd (cd * cz) * cr))).
Lemma ds2tp_unf : forall ra dec raz decz, ds2tp ra dec raz decz =
  let '(a, b, d) := s2tp_num ra dec raz decz in
  let '(j, d') := if Rltb (rd 1e-6) d then (0%Z, d) else if Rleb 0 d then (1%Z, rd 1e-6) else if Rltb (- rd 1e-6) d then (2%Z, - rd 1e-6) else (3%Z, d) in
  (rd (a / d'), rd (b / d'), j).
Proof.
  intros. unfold ds2tp, palDs2tp, s2tp_num. cbv zeta. dn. rewrite !(rdZ 0) by (cbn; lia). replace (1 / 1000000) with 1e-6 by lra. reflexivity.
Qed.
Lemma s2tp_num_err : trig_acc L u53 -> forall ra dec raz decz, fmt ra -> fmt dec -> fmt raz -> fmt decz -> Rabs (ra - raz) <= 7 ->
  let '(a, b, d) := s2tp_num ra dec raz decz in let k := (Rabs (ra - raz) + 9.02) * u53 in
  Rabs (a - dot (dir ra dec) (east raz)) <= k /\ Rabs (b - dot (dir ra dec) (north raz decz)) <= k /\ Rabs (d - dot (dir ra dec) (dir raz decz)) <= k.
Proof.
  intros HT ra dec raz decz F1 F2 F3 F4 Hr. unfold s2tp_num. cbv zeta. set (r := Rabs (ra - raz)) in *. assert (Pr : 0 <= r) by apply Rabs_pos.
  assert (E1 := eta_small). assert (E0 := eta_pos).
  assert (X0 : dot (dir ra dec) (east raz) = cosR dec * sinR (ra - raz)) by (rewrite sin_minus; unfold dot, dir, east; cbn [vx vy vz]; ring).
  assert (X1 : dot (dir ra dec) (north raz decz) = sinR dec * cosR decz + - (cosR dec * sinR decz * cosR (ra - raz))) by (rewrite cos_minus; unfold dot, dir, north; cbn [vx vy vz]; ring).
  assert (X2 : dot (dir ra dec) (dir raz decz) = sinR dec * sinR decz + cosR dec * cosR decz * cosR (ra - raz)) by (rewrite cos_minus; unfold dot, dir; cbn [vx vy vz]; ring).
  assert (Y1 : Rabs (dot (dir ra dec) (north raz decz)) <= 1).
  { assert (C := cauchy_abs (dir ra dec) (north raz decz)). rewrite (norm_unit (dir ra dec)), (norm_unit (north raz decz)) in C by (apply dir_unit || (destruct (tp_orth raz decz) as (_ & O & _); exact O)). lra. }
  assert (Y2 : Rabs (dot (dir ra dec) (dir raz decz)) <= 1).
  { assert (C := cauchy_abs (dir ra dec) (dir raz decz)). rewrite !norm_unit in C by apply dir_unit. lra. }
  rewrite X1 in Y1. rewrite X2 in Y2. rewrite X0, X1, X2. clear X0 X1 X2.
  destruct (HT dec F2) as [Hsd Hcd]. destruct (HT decz F4) as [Hsz Hcz]. destruct (HT (rd (ra - raz)) ltac:(apply fmt_rd)) as [Hsr Hcr].
  assert (W := rde (ra - raz) r ltac:(apply Rle_refl)). destruct (sin_lip (rd (ra - raz)) (ra - raz)) as [W1 W2].
  set (dr := rd (ra - raz)) in *. set (d0 := ra - raz) in *.
  assert (Hsr' : Rabs (l_sin L dr - sinR d0) <= (r + 1.001) * u53).
  { apply Rabs_le_inv in Hsr, W1, W. assert (Q : Rabs (dr - d0) <= u53 * r + eta) by (now apply Rabs_le). apply Rabs_le. unfold u53 in *. lra. }
  assert (Hcr' : Rabs (l_cos L dr - cosR d0) <= (r + 1.001) * u53).
  { apply Rabs_le_inv in Hcr, W2, W. assert (Q : Rabs (dr - d0) <= u53 * r + eta) by (now apply Rabs_le). apply Rabs_le. unfold u53 in *. lra. }
  assert (B : forall x, Rabs (sinR x) <= 1 /\ Rabs (cosR x) <= 1).
  { intros x. split; apply Rabs_le; [apply SIN_bound|apply COS_bound]. }
  destruct (B dec) as [Bsd Bcd]. destruct (B decz) as [Bsz Bcz]. destruct (B d0) as [Bsr Bcr].
  assert (U1 : forall x y, Rabs (x - y) <= u53 -> Rabs (x - y) <= 1 * u53) by (intros; lra). apply U1 in Hsd, Hcd, Hsz, Hcz.
  assert (BM : forall x y, Rabs x <= 1 -> Rabs y <= 1 -> Rabs (x * y) <= 1).
  { intros x y Hx Hy. rewrite Rabs_mult. replace 1 with (1 * 1) by ring. apply Rmult_le_compat; try apply Rabs_pos; easy. }
  assert (A := prod_e 1 (r + 1.001) _ _ _ _ ltac:(lra) ltac:(lra) Bcd Bsr Hcd Hsr').
  assert (P1 := prod_e 1 1 _ _ _ _ ltac:(lra) ltac:(lra) Bsd Bcz Hsd Hcz). assert (P2 := prod_e 1 1 _ _ _ _ ltac:(lra) ltac:(lra) Bcd Bsz Hcd Hsz).
  assert (P3 := prod_e 1 1 _ _ _ _ ltac:(lra) ltac:(lra) Bsd Bsz Hsd Hsz). assert (P4 := prod_e 1 1 _ _ _ _ ltac:(lra) ltac:(lra) Bcd Bcz Hcd Hcz).
  assert (Q2 := prod_e (1 + 1 + 1.001) (r + 1.001) _ _ _ _ ltac:(lra) ltac:(lra) (BM _ _ Bcd Bsz) Bcr P2 Hcr').
  assert (Q4 := prod_e (1 + 1 + 1.001) (r + 1.001) _ _ _ _ ltac:(lra) ltac:(lra) (BM _ _ Bcd Bcz) Bcr P4 Hcr').
  set (b2 := rd (rd (l_cos L dec * l_sin L decz) * l_cos L dr)) in *.
  assert (Q2' : Rabs (- b2 - - (cosR dec * sinR decz * cosR d0)) <= (1 + 1 + 1.001 + (r + 1.001) + 1.001) * u53).
  { replace (- b2 - - (cosR dec * sinR decz * cosR d0)) with (- (b2 - cosR dec * sinR decz * cosR d0)) by ring. now rewrite Rabs_Ropp. }
  assert (S1 := sum_e (1 + 1 + 1.001) (1 + 1 + 1.001 + (r + 1.001) + 1.001) _ _ _ _ ltac:(lra) ltac:(lra) Y1 P1 Q2').
  assert (S2 := sum_e (1 + 1 + 1.001) (1 + 1 + 1.001 + (r + 1.001) + 1.001) _ _ _ _ ltac:(lra) ltac:(lra) Y2 P3 Q4).
  assert (Up : 0 < u53) by (unfold u53; lra).
  assert (MONO : forall x y z, x <= z -> Rabs y <= x * u53 -> Rabs y <= z * u53) by (intros x y z H H1; eapply Rle_trans; [exact H1|apply Rmult_le_compat_r; lra]).
  split; [|split].
  - eapply MONO; [|exact A]. lra.
  - eapply MONO; [|exact S1]. lra.
  - eapply MONO; [|exact S2]. lra.
Qed.
Lemma quot_err : forall n d n' d' E, 0 <= E <= 1e-14 -> Rabs (n' - n) <= E -> Rabs (d' - d) <= E -> 0.01 <= d <= 1 ->
  Rabs (rd (n' / d') - n / d) <= (1.000001 * E + 1.00001 * u53) * ((1 + Rabs (n / d)) / d).
Proof.
  intros n d n' d' E HE Hn Hd D. assert (E1 := eta_small). assert (E0 := eta_pos). apply Rabs_le_inv in Hd.
  set (x := n / d). assert (Pd : 0 < d') by lra. set (i := / d). assert (Pi : 0 < i) by (apply Rinv_0_lt_compat; lra).
  assert (I1 : 1 <= i) by (unfold i; rewrite <- Rinv_1; apply Rinv_le_contravar; lra).
  assert (Ax := Rabs_pos x).
  assert (Q : Rabs (n' / d' - x) <= 1.0000001 * E * (1 + Rabs x) * i).
  { replace (n' / d' - x) with ((n' - n - x * (d' - d)) * / d') by (unfold x; field; lra).
    rewrite Rabs_mult, (Rabs_pos_eq (/ d')) by (left; now apply Rinv_0_lt_compat).
    assert (Hi : / d' <= 1.0000001 * i).
    { apply (Rmult_le_reg_r (d * d')); [apply Rmult_lt_0_compat; lra|]. replace (/ d' * (d * d')) with d by (field; lra).
      replace (1.0000001 * i * (d * d')) with (1.0000001 * d') by (unfold i; field; lra). lra. }
    assert (HN : Rabs (n' - n - x * (d' - d)) <= E * (1 + Rabs x)).
    { eapply Rle_trans; [apply Rabs_triang|]. rewrite Rabs_Ropp, Rabs_mult. assert (Rabs x * Rabs (d' - d) <= Rabs x * E) by (apply Rmult_le_compat_l; [easy|now apply Rabs_le]). lra. }
    replace (1.0000001 * E * (1 + Rabs x) * i) with (E * (1 + Rabs x) * (1.0000001 * i)) by ring.
    apply Rmult_le_compat; try easy; [apply Rabs_pos|left; now apply Rinv_0_lt_compat]. }
  set (y := (1 + Rabs x) * i). assert (Y1 : 1 + Rabs x <= y) by (unfold y; rewrite <- (Rmult_1_r (1 + Rabs x)) at 1; apply Rmult_le_compat_l; lra).
  replace (1.0000001 * E * (1 + Rabs x) * i) with (1.0000001 * E * y) in Q by (unfold y; ring).
  replace ((1 + Rabs x) / d) with y by reflexivity.
  assert (Ey : E * y <= 1e-14 * y) by (apply Rmult_le_compat_r; lra).
  assert (B : Rabs (n' / d') <= Rabs x + 2e-14 * y).
  { replace (n' / d') with (x + (n' / d' - x)) by ring. eapply Rle_trans; [apply Rabs_triang|]. lra. }
  assert (R1 := rde (n' / d') (1.000001 * y) ltac:(lra)).
  replace (rd (n' / d') - x) with (rd (n' / d') - n' / d' + (n' / d' - x)) by ring. eapply Rle_trans; [apply Rabs_triang|].
  assert (0 <= E * y) by (apply Rmult_le_pos; lra). unfold u53 in *. lra.
Qed.
(** C91: from the sphere to the plane, within 89.4 degrees of the tangent point *)
Theorem C91_palDs2tp : forall ra dec raz decz xi et, trig_acc L u53 ->
  is_double ra -> is_double dec -> is_double raz -> is_double decz -> Rabs (ra - raz) <= 7 ->
  let D := dot (dir ra dec) (dir raz decz) in 0.01 <= D -> projects ra dec raz decz xi et ->
  let k := 1.13e-15 + 1.12e-16 * Rabs (ra - raz) in
  let '(x, y, j) := ds2tp ra dec raz decz in
  j = 0%Z /\ Rabs (x - xi) <= k * ((1 + Rabs xi) / D) /\ Rabs (y - et) <= k * ((1 + Rabs et) / D).
Proof.
  intros ra dec raz decz xi et HT F1 F2 F3 F4 Hr D HD (P0 & P1 & P2) k. apply double_fmt in F1, F2, F3, F4.
  assert (K := s2tp_num_err HT ra dec raz decz F1 F2 F3 F4 Hr). rewrite ds2tp_unf. destruct (s2tp_num ra dec raz decz) as [[a b] d]. cbv zeta in K.
  destruct K as (Ka & Kb & Kd). fold D in P0, P1, P2, Kd.
  assert (Y2 : D <= 1).
  { assert (C := cauchy_abs (dir ra dec) (dir raz decz)). rewrite !norm_unit in C by apply dir_unit. apply Rabs_le_inv in C. unfold D. lra. }
  set (r := Rabs (ra - raz)) in *. assert (Pr : 0 <= r) by apply Rabs_pos. set (E := (r + 9.02) * u53) in *.
  assert (HE : 0 <= E <= 1e-14) by (unfold E, u53; lra).
  assert (T : Rabs (rd 1e-6 - 1e-6) <= 1e-20).
  { assert (R1 := rde 1e-6 1e-6 ltac:(rewrite Rabs_pos_eq; lra)). assert (E1 := eta_small). unfold u53 in R1. lra. }
  apply Rabs_le_inv in T. assert (Kd' := Rabs_le_inv _ _ Kd).
  destruct (Rltb_spec (rd 1e-6) d) as [_|C]; [|exfalso; lra]. cbv beta iota zeta. split; [easy|].
  assert (G : forall n n' x, Rabs (n' - n) <= E -> n = D * x -> Rabs (rd (n' / d) - x) <= k * ((1 + Rabs x) / D)).
  { intros n n' x Hn Ex. assert (Q := quot_err n D n' d E HE Hn Kd ltac:(lra)). replace (n / D) with x in Q by (rewrite Ex; field; lra).
    eapply Rle_trans; [exact Q|]. apply Rmult_le_compat_r; [|unfold k, E, u53; lra].
    apply Rmult_le_pos; [assert (Ax := Rabs_pos x); lra|left; apply Rinv_0_lt_compat; lra]. }
  split; eapply G; try eassumption; lra.
Qed.
(** C91: the status is right except within 2e-15 of the boundaries between the four cases *)
Theorem C91_palDs2tp_status : forall ra dec raz decz, trig_acc L u53 ->
  is_double ra -> is_double dec -> is_double raz -> is_double decz -> Rabs (ra - raz) <= 7 ->
  let D := dot (dir ra dec) (dir raz decz) in let j := snd (ds2tp ra dec raz decz) in
  (1e-6 + 2e-15 <= D -> j = 0%Z) /\ (2e-15 <= D <= 1e-6 - 2e-15 -> j = 1%Z) /\
  (- 1e-6 + 2e-15 <= D <= - 2e-15 -> j = 2%Z) /\ (D <= - 1e-6 - 2e-15 -> j = 3%Z).
Proof.
  intros ra dec raz decz HT F1 F2 F3 F4 Hr D j. apply double_fmt in F1, F2, F3, F4. unfold j. clear j.
  assert (K := s2tp_num_err HT ra dec raz decz F1 F2 F3 F4 Hr). rewrite ds2tp_unf. destruct (s2tp_num ra dec raz decz) as [[a b] d]. cbv zeta in K.
  destruct K as (_ & _ & Kd). fold D in Kd. assert (Pr := Rabs_pos (ra - raz)).
  assert (Kd' : Rabs (d - D) <= 1.9e-15) by (unfold u53 in Kd; lra). apply Rabs_le_inv in Kd'.
  assert (T : Rabs (rd 1e-6 - 1e-6) <= 1e-20).
  { assert (R1 := rde 1e-6 1e-6 ltac:(rewrite Rabs_pos_eq; lra)). assert (E1 := eta_small). unfold u53 in R1. lra. }
  apply Rabs_le_inv in T.
  destruct (Rltb_spec (rd 1e-6) d) as [C1|C1]; [|destruct (Rleb_spec 0 d) as [C2|C2]; [|destruct (Rltb_spec (- rd 1e-6) d) as [C3|C3]]];
    cbv beta iota zeta; cbn [snd]; (split; [|split; [|split]]); intros H; try easy; exfalso; lra.
Qed.
End D.
Lemma small_double : forall n, (Z.abs n <= 4)%Z -> is_double (IZR n).
Proof.
  intros n H. split; [apply FLT_format_generic; [now unfold Prec_gt_0|apply fmtZ; lia]|].
  apply Rlt_le_trans with (bpow radix2 3); [|apply bpow_le; lia]. rewrite <- abs_IZR. apply IZR_lt. cbn. lia.
Qed.
(** Non-vacuity: with a correctly rounded libm, a point of the plane far off axis, and a star one radian of right ascension away *)
Example C91_eg_back : exists ra dec, projects ra dec 1 1 2 1 /\ Rabs (snd (dtp2s Lcr 2 1 1 1) - dec) <= 1.2e-15.
Proof.
  destruct (palDtp2s_spec 2 1 1 1) as (_ & B & P). set (o := palDtp2s 2 1 1 1) in *. exists (fst o), (snd o). split; [exact P|].
  destruct (C91_palDtp2s Lcr 2.3e-16 2 1 1 1 (fst o) (snd o) Lcr_atan2 ltac:(lra) Lcr_atan2_dbl Lcr_trig (small_double 2 ltac:(lia)) (small_double 1 ltac:(lia))
    (small_double 1 ltac:(lia)) (small_double 1 ltac:(lia)) ltac:(rewrite Rabs_pos_eq; lra) ltac:(rewrite Rabs_pos_eq; lra) ltac:(rewrite Rabs_pos_eq; lra) P B) as [K _].
  lra.
Qed.
Example C91_eg_forward : exists xi et, projects 2 1 1 1 xi et /\ 0.5 < xi /\ let '(x, _, j) := ds2tp Lcr 2 1 1 1 in j = 0%Z /\ Rabs (x - xi) <= 2.6e-15.
Proof.
  set (D := dot (dir 2 1) (dir 1 1)). assert (HD : 0.8 <= D <= 0.87) by (unfold D, dot, dir; cbn [vx vy vz]; split; interval).
  set (n := dot (dir 2 1) (east 1)). assert (HN : 0.45 <= n <= 0.46) by (unfold n, dot, dir, east; cbn [vx vy vz]; split; interval).
  set (m := dot (dir 2 1) (north 1 1)).
  assert (P : projects 2 1 1 1 (n / D) (m / D)).
  { unfold projects. cbv zeta. fold D n m. split; [lra|]. split; field; lra. }
  assert (X1 : 0.5 < n / D) by (apply (Rmult_lt_reg_r D); [lra|]; replace (n / D * D) with n by (field; lra); lra).
  assert (X2 : n / D <= 0.58) by (apply (Rmult_le_reg_r D); [lra|]; replace (n / D * D) with n by (field; lra); lra).
  exists (n / D), (m / D). split; [exact P|]. split; [exact X1|].
  assert (A1 : Rabs (2 - 1) = 1) by (rewrite Rabs_pos_eq; lra).
  assert (K := C91_palDs2tp Lcr 2 1 1 1 (n / D) (m / D) Lcr_trig (small_double 2 ltac:(lia)) (small_double 1 ltac:(lia)) (small_double 1 ltac:(lia)) (small_double 1 ltac:(lia))
    ltac:(rewrite A1; lra)). cbv zeta in K. fold D in K. specialize (K ltac:(lra) P). rewrite A1 in K.
  destruct (ds2tp Lcr 2 1 1 1) as [[x y] j]. destruct K as (Kj & Kx & _). split; [easy|].
  rewrite (Rabs_pos_eq (n / D)) in Kx by lra. eapply Rle_trans; [exact Kx|].
  assert ((1 + n / D) / D <= 2).
  { apply (Rmult_le_reg_r D); [lra|]. replace ((1 + n / D) / D * D) with (1 + n / D) by (field; lra). lra. }
  lra.
Qed.
