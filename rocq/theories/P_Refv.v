(** * palRefv: one Newton step in Cartesian form. *)
From Coq Require Import Reals ZArith Lra Lia Psatz Bool.
From Verif Require Import Num NumR Geom M_Sphere P_Sphere M_Refr P_Refr P_Refz.
From Interval Require Import Tactic.
Local Open Scope R_scope.
Local Notation tanR := Rtrigo1.tan.

(** Az/El vector at zenith distance [z] in the vertical plane [p] *)
Lemma Rabs_le_between : forall x y, Rabs x <= y <-> - y <= x <= y.
Proof. intros. split; [intros; split; unfold Rabs in *; destruct (Rcase_abs x); lra|intros; apply Rabs_le; lra]. Qed.
Definition azv (p z : R) : vec R := V (sinR z * cosR p) (sinR z * sinR p) (cosR z).
(** the Newton step *)
Definition dstep (a b z : R) : R := (modelF a b z - z) / modelF1 a b z.
Lemma refv_val : forall a b p zu, 0 <= zu <= PI -> 1 / 20 <= cosR zu -> modelF1 a b zu <> 0 ->
  let d := dstep a b zu in
  palRefv (azv p zu) a b = V ((1 - d * d / 2) * (sinR zu - d * cosR zu) * cosR p)
    ((1 - d * d / 2) * (sinR zu - d * cosR zu) * sinR p) ((1 - d * d / 2) * (cosR zu + d * sinR zu)).
Proof.
  intros a b p zu Hz Hc HF d. unfold palRefv, azv. cbv zeta. cbn [vx vy vz]. rops.
  replace (litR 0.05) with (1/20) by (rlit; lra). replace (litR 1.0) with 1 by (rlit; lra).
  replace (litR 3.0) with 3 by (rlit; lra). replace (litR 2.0) with 2 by (rlit; lra).
  rewrite DMAX_R, Rmax_left by easy.
  assert (S0 : 0 <= sinR zu) by (apply sin_ge_0; lra).
  assert (RS : sinR zu * cosR p * (sinR zu * cosR p) + sinR zu * sinR p * (sinR zu * sinR p) = sinR zu * sinR zu).
  { assert (Q := sc2 p). replace (sinR zu * cosR p * (sinR zu * cosR p) + sinR zu * sinR p * (sinR zu * sinR p))
      with (sinR zu * sinR zu * (sinR p * sinR p + cosR p * cosR p)) by ring. rewrite Q. ring. }
  rewrite RS, sqrt_square by easy.
  set (s := sinR zu) in *. set (c := cosR zu) in *.
  assert (Hc0 : c <> 0) by lra.
  assert (E1 : 1 + (a + 3 * (b * (s * s) / (c * c))) * (c * c + s * s) / (c * c) = modelF1 a b zu).
  { unfold modelF1. rewrite <- tan_val. fold s c. field. easy. }
  rewrite E1.
  assert (E2 : (a + b * (s * s) / (c * c)) / modelF1 a b zu * s / c = d).
  { unfold d, dstep, modelF. rewrite <- tan_val. fold s c. field. easy. }
  assert (E3 : s * ((a + b * (s * s) / (c * c)) / modelF1 a b zu) = d * c) by (rewrite <- E2; field; easy).
  rewrite E2. set (w := (a + b * (s * s) / (c * c)) / modelF1 a b zu) in *.
  replace (s * cosR p * ((1 - d * d / 2) * (1 - w))) with ((1 - d * d / 2) * (s - s * w) * cosR p) by ring.
  replace (s * sinR p * ((1 - d * d / 2) * (1 - w))) with ((1 - d * d / 2) * (s - s * w) * sinR p) by ring.
  rewrite E3. f_equal. ring.
Qed.
Lemma cos_atan' : forall d, cosR (Ratan.atan d) * sqrtR (1 + d * d) = 1.
Proof.
  intros d. rewrite cos_atan. unfold Rsqr. field.
  assert (0 < sqrtR (1 + d * d)) by (apply sqrt_lt_R0; nra). lra.
Qed.
Lemma sin_atan' : forall d, sinR (Ratan.atan d) * sqrtR (1 + d * d) = d.
Proof.
  intros d. rewrite sin_atan. unfold Rsqr. field.
  assert (0 < sqrtR (1 + d * d)) by (apply sqrt_lt_R0; nra). lra.
Qed.
Lemma refv_dir : forall a b p zu, 0 <= zu <= PI -> 1 / 20 <= cosR zu -> modelF1 a b zu <> 0 ->
  let d := dstep a b zu in
  palRefv (azv p zu) a b = scale ((1 - d * d / 2) * sqrtR (1 + d * d)) (azv p (zu - Ratan.atan d)).
Proof.
  intros a b p zu Hz Hc HF d. rewrite refv_val by easy. fold d.
  unfold scale, azv. rewrite sin_minus, cos_minus. cbn [vx vy vz].
  assert (C := cos_atan' d). assert (S := sin_atan' d).
  set (q := sqrtR (1 + d * d)) in *. set (ca := cosR (Ratan.atan d)) in *. set (sa := sinR (Ratan.atan d)) in *.
  f_equal.
  - replace ((1 - d * d / 2) * q * ((sinR zu * ca - cosR zu * sa) * cosR p))
      with ((1 - d * d / 2) * (sinR zu * (ca * q) - cosR zu * (sa * q)) * cosR p) by ring. rewrite C, S. ring.
  - replace ((1 - d * d / 2) * q * ((sinR zu * ca - cosR zu * sa) * sinR p))
      with ((1 - d * d / 2) * (sinR zu * (ca * q) - cosR zu * (sa * q)) * sinR p) by ring. rewrite C, S. ring.
  - replace ((1 - d * d / 2) * q * (cosR zu * ca + sinR zu * sa))
      with ((1 - d * d / 2) * (cosR zu * (ca * q) + sinR zu * (sa * q))) by ring. rewrite C, S. ring.
Qed.
Lemma len_factor : forall d, Rabs d <= 1 / 100 ->
  let g := (1 - d * d / 2) * sqrtR (1 + d * d) in 0 < g /\ Rabs (g - 1) <= d ^ 4.
Proof.
  intros d Hd g. assert (D2 : 0 <= d * d <= 1 / 10000) by (unfold Rabs in Hd; destruct (Rcase_abs d); nra).
  assert (Q0 : 0 < sqrtR (1 + d * d)) by (apply sqrt_lt_R0; lra).
  assert (Q2 : sqrtR (1 + d * d) * sqrtR (1 + d * d) = 1 + d * d) by (apply sqrt_sqrt; lra).
  assert (G0 : 0 < g) by (unfold g; nra).
  assert (G2 : g * g = 1 - 3 / 4 * d ^ 4 + d ^ 6 / 4).
  { unfold g. replace ((1 - d * d / 2) * sqrtR (1 + d * d) * ((1 - d * d / 2) * sqrtR (1 + d * d)))
      with ((1 - d * d / 2) ^ 2 * (sqrtR (1 + d * d) * sqrtR (1 + d * d))) by ring. rewrite Q2. field. }
  split; [easy|]. set (q := d * d) in *.
  replace (d ^ 4) with (q * q) in * by (unfold q; ring). replace (d ^ 6) with (q * (q * q)) in * by (unfold q; ring).
  apply Rabs_le. split; nra.
Qed.
Lemma atan_cubic : forall d, 0 <= d -> 0 <= d - Ratan.atan d <= d ^ 3 / 3.
Proof.
  intros d Hd. destruct (Req_dec d 0) as [->|Hn]; [rewrite atan_0; lra|].
  assert (P : 0 < d) by lra. split.
  - destruct (MVT_cor2 (fun x => x - Ratan.atan x) (fun x => 1 - / (1 + x * x)) 0 d P) as (c & E & Hc).
    { intros c _. apply derivable_pt_lim_minus; [apply derivable_pt_lim_id|]. replace (c * c) with (Rsqr c) by easy. replace (Rsqr c) with (c ^ 2) by (unfold Rsqr; ring). apply derivable_pt_lim_atan. }
    rewrite atan_0 in E. assert (0 <= 1 - / (1 + c * c)); [|nra].
    assert (/ (1 + c * c) <= / 1) by (apply Rinv_le_contravar; nra). lra.
  - destruct (MVT_cor2 (fun x => x ^ 3 / 3 - (x - Ratan.atan x)) (fun x => x ^ 2 - (1 - / (1 + x ^ 2))) 0 d P) as (c & E & Hc).
    { intros c _. apply derivable_pt_lim_minus; [|apply derivable_pt_lim_minus; [apply derivable_pt_lim_id|apply derivable_pt_lim_atan]].
      replace (c ^ 2) with (INR 3 * c ^ pred 3 * / 3) by (cbn; field).
      replace (fun x => x ^ 3 / 3) with (mult_real_fct (/ 3) (fun x => x ^ 3)) by (unfold mult_real_fct; apply FunctionalExtensionality.functional_extensionality; intros; unfold Rdiv; ring).
      rewrite Rmult_comm. apply derivable_pt_lim_scal, derivable_pt_lim_pow. }
    rewrite atan_0 in E. cbn [pow] in E.
    assert (0 <= c * (c * 1) - (1 - / (1 + c ^ 2))); [|cbn [pow] in *; nra].
    assert (1 - / (1 + c ^ 2) = c ^ 2 / (1 + c ^ 2)) by (field; nra).
    rewrite H. assert (c ^ 2 / (1 + c ^ 2) <= c ^ 2 / 1); [|cbn [pow] in *; lra].
    unfold Rdiv. apply Rmult_le_compat_l; [nra|]. apply Rinv_le_contravar; nra.
Qed.
Lemma atan_cubic_abs : forall d, Rabs (d - Ratan.atan d) <= Rabs d ^ 3 / 3 /\ Rabs (Ratan.atan d) <= Rabs d.
Proof.
  intros d. destruct (Rle_dec 0 d) as [H|H].
  - generalize (atan_cubic d H). intros K. assert (0 <= Ratan.atan d).
    { destruct (Req_dec d 0) as [->|]; [rewrite atan_0; lra|]. left. rewrite <- atan_0. apply atan_increasing. lra. }
    rewrite (Rabs_pos_eq d) by easy. rewrite !Rabs_pos_eq by lra. lra.
  - generalize (atan_cubic (- d) ltac:(lra)). rewrite atan_opp. intros K.
    assert (0 <= - Ratan.atan d).
    { rewrite <- atan_opp. left. rewrite <- atan_0. apply atan_increasing. lra. }
    rewrite (Rabs_left d) by lra. rewrite !Rabs_left1 by lra. lra.
Qed.
Lemma refv_resid : forall a b am zu Zm T, 2 / 10000 <= am <= 3 / 10000 -> 0 <= a <= am -> - (4 / 10000000) <= b <= 0 ->
  0 <= T <= 86/10 -> 0 <= Zm < PI / 2 -> tanR Zm <= T -> Rabs zu + 3 / 1000 <= Zm ->
  let m := 1 - 12 / 10000000 * T ^ 2 * (1 + T ^ 2) in
  let D := T * am / m in
  let d := dstep a b zu in
  let z := zu - Ratan.atan d in
  modelF1 a b zu <> 0 /\ Rabs d <= D /\ D <= 3 / 1000 /\
  Rabs (modelF a b z - zu) <= T * (1 + T ^ 2) * am * D ^ 2 + (1 + am * (1 + T ^ 2)) * (D ^ 3 / 3).
Proof.
  intros a b am zu Zm T Ham Ha Hb HT HZ Ht Hu m D d z.
  assert (H9 : 0 <= T <= 9) by lra. assert (HA : 2 / 10000 <= am) by lra.
  assert (TB : forall t, - Zm <= t <= Zm -> Rabs (tanR t) <= T).
  { intros t Hx. apply (tan_bound Zm); [lra|easy|]. apply Rabs_le. lra. }
  assert (CN : forall t, - Zm <= t <= Zm -> cosR t <> 0).
  { intros t Hx. apply cos_nz. apply Rle_lt_trans with Zm; [apply Rabs_le|]; lra. }
  set (M := T * (1 + T ^ 2) * (2 * am)).
  assert (HM : forall t, - Zm <= t <= Zm -> Rabs (modelF2 a b t) <= M) by (intros t Hx; apply (F2_bound a b am); auto).
  assert (m1 : 99 / 100 <= m).
  { unfold m. assert (T ^ 2 <= 7396/100) by nra. assert (0 <= T ^ 2) by nra. nra. }
  assert (LB : forall t, - Zm <= t <= Zm -> m <= modelF1 a b t).
  { intros t Hx. eapply Rle_trans; [|apply (F1_bound a b am T); auto]. unfold m. lra. }
  assert (Zu : - Zm <= zu <= Zm) by (unfold Rabs in Hu; destruct (Rcase_abs zu); lra).
  assert (F1u := LB zu Zu). split; [lra|].
  assert (Dd : Rabs d <= D).
  { unfold d, dstep, D, Rdiv. rewrite Rabs_mult. rewrite (Rabs_pos_eq (/ _)) by (left; apply Rinv_0_lt_compat; lra).
    apply Rmult_le_compat; [apply Rabs_pos|left; apply Rinv_0_lt_compat; lra|apply (F0_bound a b am); auto|apply Rinv_le_contravar; lra]. }
  assert (DB : D <= 3 / 1000).
  { unfold D. assert (T * am / m <= (86/10 * (3/10000)) / (99/100)); [|lra].
    unfold Rdiv at 1 4. apply Rmult_le_compat; [nra|left; apply Rinv_0_lt_compat; lra|nra|apply Rinv_le_contravar; lra]. }
  split; [easy|]. split; [easy|].
  destruct (atan_cubic_abs d) as [A1 A2].
  assert (Zz : - Zm <= z <= Zm).
  { assert (Q : Rabs (Ratan.atan d) <= 3/1000) by (eapply Rle_trans; [exact A2|eapply Rle_trans; [exact Dd|exact DB]]).
    apply Rabs_le_between in Q. apply Rabs_le_between. unfold z. revert Q Hu. generalize (Ratan.atan d). clear. intros u Q Hu.
    apply Rle_trans with (Rabs zu + Rabs u); [|apply Rabs_le in Q; lra].
    unfold Rminus. rewrite <- (Rabs_Ropp u). apply Rabs_triang. }
  assert (Tl := taylor2 (- Zm) Zm (modelF a b) (modelF1 a b) (modelF2 a b) M z zu
    (fun t Ht => modelF_deriv a b t (CN t Ht)) (fun t Ht => modelF1_deriv a b t (CN t Ht)) HM Zz Zu).
  assert (Ed : modelF1 a b zu * d = modelF a b zu - zu) by (unfold d, dstep; field; lra).
  replace (modelF a b z - zu) with ((modelF a b z - modelF a b zu - modelF1 a b zu * (z - zu)) + modelF1 a b zu * (d - Ratan.atan d)).
  2: { unfold z at 2. replace (modelF1 a b zu * (d - Ratan.atan d)) with (modelF1 a b zu * d - modelF1 a b zu * Ratan.atan d) by ring. rewrite Ed. ring. }
  eapply Rle_trans; [apply Rabs_triang|]. apply Rplus_le_compat.
  - eapply Rle_trans; [exact Tl|]. unfold M.
    replace (T * (1 + T ^ 2) * (2 * am) / 2) with (T * (1 + T ^ 2) * am) by lra.
    apply Rmult_le_compat_l; [apply Rmult_le_pos; [apply Rmult_le_pos; [lra|generalize (pow2_ge_0 T); lra]|lra]|].
    rewrite <- (pow2_abs (z - zu)). apply pow_incr. split; [apply Rabs_pos|].
    unfold z. replace (zu - Ratan.atan d - zu) with (- Ratan.atan d) by ring. rewrite Rabs_Ropp. lra.
  - rewrite Rabs_mult. rewrite (Rabs_pos_eq (modelF1 a b zu)) by lra.
    apply Rmult_le_compat; [lra|apply Rabs_pos| |].
    + unfold modelF1. assert (S : tanR zu ^ 2 <= T ^ 2) by (rewrite <- (pow2_abs (tanR zu)); apply pow_incr; split; [apply Rabs_pos|auto]).
      assert (0 <= tanR zu ^ 2) by nra. set (q := tanR zu ^ 2) in *. assert (3 * b * q <= 0) by nra.
      assert ((a + 3 * b * q) * (1 + q) <= am * (1 + q)) by (apply Rmult_le_compat_r; lra).
      assert (am * (1 + q) <= am * (1 + T ^ 2)) by (apply Rmult_le_compat_l; lra). lra.
    + eapply Rle_trans; [exact A1|]. assert (Rabs d ^ 3 <= D ^ 3) by (apply pow_incr; split; [apply Rabs_pos|easy]). lra.
Qed.
