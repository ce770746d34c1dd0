(** * Proofs: palPcd and palUnpcd; palPxy. *)
From Coq Require Import Reals ZArith Lra Lia Psatz Bool Arith.
From Verif Require Import Num NumR Erfa Geom M_Sphere Loops M_Linear P_Dmat P_Linear.
Local Open Scope R_scope.

(** real cube root *)
Definition cbrt (x : R) : R := DSIGN (powR (Rabs x) (1 / 3)) x.
Lemma cbrt_cube : forall x, cbrt x * cbrt x * cbrt x = x.
Proof.
  intros x. unfold cbrt, DSIGN. rn.
  assert (P : forall z, 0 < z -> powR z (1/3) * powR z (1/3) * powR z (1/3) = z).
  { intros z Hz. unfold powR. destruct (Rlt_dec 0 z); [|lra]. rewrite <- !Rpower_plus.
    replace (1/3 + 1/3 + 1/3) with 1 by field. now apply Rpower_1. }
  assert (P0 : powR 0 (1/3) = 0).
  { unfold powR. destruct (Rlt_dec 0 0); [lra|]. destruct (Req_EM_T (1/3) 0); lra. }
  assert (N : 0 <= powR (Rabs x) (1/3)).
  { unfold powR. destruct (Rlt_dec 0 (Rabs x)); [left; apply exp_pos|]. destruct (Req_EM_T (1/3) 0); lra. }
  rewrite (Rabs_pos_eq (powR (Rabs x) (1/3))) by exact N.
  destruct (Rltb_spec x 0) as [L|L].
  - assert (Q := P (Rabs x) ltac:(apply Rabs_pos_lt; lra)).
    replace (_ * _ * _) with (- (powR (Rabs x) (1/3) * powR (Rabs x) (1/3) * powR (Rabs x) (1/3))) by ring.
    rewrite Q, Rabs_left by lra. ring.
  - destruct (Req_dec x 0) as [->|Hx]; [rewrite Rabs_R0, P0; ring|].
    rewrite (P (Rabs x)) by (apply Rabs_pos_lt; lra). apply Rabs_pos_eq. lra.
Qed.
Lemma cube_inj : forall a b, a * a * a = b * b * b -> a = b.
Proof.
  intros a b H. assert (E : (a - b) * (a * a + a * b + b * b) = 0) by (transitivity (a*a*a - b*b*b); [ring|lra]).
  apply Rmult_integral in E. destruct E as [E|E]; [lra|].
  assert (U : 0 <= (a + b / 2) * (a + b / 2)) by apply Rle_0_sqr. assert (W : 0 <= b * b) by apply Rle_0_sqr.
  assert (B : b * b = 0) by nra. assert (Hb : b = 0) by (apply Rmult_integral in B; tauto). subst b.
  assert (A : a * a = 0) by nra. apply Rmult_integral in A. tauto.
Qed.
(** Cardano *)
Lemma cardano : forall q r, 0 < q * q * q + r * r ->
  let d := R_sqrt.sqrt (q * q * q + r * r) in
  let F := cbrt (r + d) + cbrt (r - d) in F * F * F + 3 * q * F = 2 * r.
Proof.
  intros q r Hw. cbv zeta. set (d := R_sqrt.sqrt _).
  assert (Hd : d * d = q * q * q + r * r) by (apply sqrt_sqrt; lra).
  assert (S := cbrt_cube (r + d)). assert (T := cbrt_cube (r - d)).
  set (s := cbrt (r + d)) in *. set (t := cbrt (r - d)) in *.
  assert (ST : s * t = - q).
  { apply cube_inj. replace (s * t * (s * t) * (s * t)) with ((s * s * s) * (t * t * t)) by ring. rewrite S, T.
    replace ((r + d) * (r - d)) with (r * r - d * d) by ring. rewrite Hd. ring. }
  replace ((s + t) * (s + t) * (s + t)) with (s * s * s + t * t * t + 3 * (s * t) * (s + t)) by ring.
  rewrite S, T, ST. ring.
Qed.

(** the three trigonometric roots *)
Lemma cos_3a : forall t, Rtrigo_def.cos (3 * t) = 4 * (Rtrigo_def.cos t * Rtrigo_def.cos t * Rtrigo_def.cos t) - 3 * Rtrigo_def.cos t.
Proof.
  intros t. replace (3 * t) with (2 * t + t) by ring. rewrite cos_plus, cos_2a_cos, sin_2a.
  assert (H := sc2 t). replace (2 * Rtrigo_def.sin t * Rtrigo_def.cos t * Rtrigo_def.sin t) with (2 * Rtrigo_def.cos t * (Rtrigo_def.sin t * Rtrigo_def.sin t)) by ring.
  replace (Rtrigo_def.sin t * Rtrigo_def.sin t) with (1 - Rtrigo_def.cos t * Rtrigo_def.cos t) by lra. ring.
Qed.

(** the body of palUnpcd: the root chosen *)
Definition unpcd_root (disco rp : R) : R :=
  let q := 1 / (3 * disco) in let r := rp / (2 * disco) in
  if Rltb 0 (q * q * q + r * r) then
    cbrt (r + R_sqrt.sqrt (q * q * q + r * r)) + cbrt (r - R_sqrt.sqrt (q * q * q + r * r))
  else
    let w := 2 / R_sqrt.sqrt (- (3) * disco) in
    let c := 4 * rp / (disco * w * w * w) in
    let s := R_sqrt.sqrt (1 - DMIN (c * c) 1) in
    let t3 := atan2R s c in
    let f1 := w * Rtrigo_def.cos ((2 * PI - t3) / 3) in
    let f2 := w * Rtrigo_def.cos (t3 / 3) in
    let f3 := w * Rtrigo_def.cos ((2 * PI + t3) / 3) in
    if Rltb (Rabs (f1 - rp)) (Rabs (f2 - rp)) then
      if Rltb (Rabs (f1 - rp)) (Rabs (f3 - rp)) then f1 else f3
    else if Rltb (Rabs (f2 - rp)) (Rabs (f3 - rp)) then f2 else f3.

Lemma unpcd_unf : forall disco x y,
  let rp := R_sqrt.sqrt (x * x + y * y) in
  palUnpcd disco x y =
  if (negb (Reqb rp 0) && negb (Reqb disco 0))%bool
  then (x * (unpcd_root disco rp / rp), y * (unpcd_root disco rp / rp)) else (x, y).
Proof.
  intros. unfold palUnpcd. unfold D2PI. rn. cbv zeta. fold rp.
  destruct (negb (Reqb rp 0) && negb (Reqb disco 0))%bool; [|reflexivity].
  unfold unpcd_root, cbrt. reflexivity.
Qed.

Lemma trig_setup : forall disco rp, disco <> 0 -> 0 < rp ->
  let q := 1 / (3 * disco) in let r := rp / (2 * disco) in
  ~ 0 < q * q * q + r * r ->
  let w := 2 / R_sqrt.sqrt (- (3) * disco) in
  let c := 4 * rp / (disco * w * w * w) in
  disco < 0 /\ 0 < w /\ disco * w * w = - (4 / 3) /\ -1 <= c < 0 /\ c * w = - 3 * rp.
Proof.
  intros disco rp Hd Hrp. cbv zeta. intros Hw.
  assert (E : 1 / (3 * disco) * (1 / (3 * disco)) * (1 / (3 * disco)) + rp / (2 * disco) * (rp / (2 * disco)) =
              (1 / disco + 27 / 4 * (rp * rp)) * (/ 27 * (/ disco * / disco))) by (field; lra).
  rewrite E in Hw. clear E.
  assert (I2 : 0 < / disco * / disco). { apply Rsqr_pos_lt. now apply Rinv_neq_0_compat. }
  assert (R2 : 0 < rp * rp) by nra.
  assert (K : 1 / disco + 27 / 4 * (rp * rp) <= 0).
  { apply Rnot_lt_le. intros K. apply Hw. apply Rmult_lt_0_compat; [exact K|lra]. }
  assert (Dn : disco < 0).
  { destruct (Rlt_dec disco 0); [easy|]. exfalso. assert (0 < disco) by lra.
    assert (0 < 1 / disco) by (apply Rdiv_lt_0_compat; lra). lra. }
  assert (Sq : R_sqrt.sqrt (- (3) * disco) * R_sqrt.sqrt (- (3) * disco) = - (3) * disco) by (apply sqrt_sqrt; lra).
  assert (Sp : 0 < R_sqrt.sqrt (- (3) * disco)) by (apply sqrt_lt_R0; lra).
  set (sq := R_sqrt.sqrt (- (3) * disco)) in *.
  assert (Wp : 0 < 2 / sq) by (apply Rdiv_lt_0_compat; lra).
  assert (WW : disco * (2 / sq) * (2 / sq) = - (4 / 3)).
  { replace (disco * (2 / sq) * (2 / sq)) with (4 * disco / (sq * sq)) by (field; lra). rewrite Sq. field. lra. }
  set (w := 2 / sq) in *.
  assert (Cw : 4 * rp / (disco * w * w * w) * w = - 3 * rp).
  { rewrite WW. field. lra. }
  split; [exact Dn|]. split; [exact Wp|]. split; [exact WW|]. split; [|exact Cw].
  set (c := 4 * rp / (disco * w * w * w)) in *.
  assert (Cn : c < 0) by nra.
  split; [|exact Cn].
  (* c^2 w^2 = 9 rp^2, w^2 = -4/(3 disco) *)
  assert (K2 : 27 / 4 * (rp * rp) * - disco <= 1).
  { replace 1 with ((- (1 / disco)) * (- disco)) by (field; lra). apply Rmult_le_compat_r; lra. }
  assert (C2 : c * c <= 1).
  { assert (c * c * (disco * w * w) = 9 * (rp * rp) * disco).
    { replace (c * c * (disco * w * w)) with ((c * w) * (c * w) * disco) by ring. rewrite Cw. ring. }
    rewrite WW in H. lra. }
  nra.
Qed.

Lemma trig_roots : forall disco rp, disco <> 0 -> 0 < rp ->
  let q := 1 / (3 * disco) in let r := rp / (2 * disco) in
  ~ 0 < q * q * q + r * r ->
  let w := 2 / R_sqrt.sqrt (- (3) * disco) in
  let c := 4 * rp / (disco * w * w * w) in
  let t3 := atan2R (R_sqrt.sqrt (1 - DMIN (c * c) 1)) c in
  let f1 := w * Rtrigo_def.cos ((2 * PI - t3) / 3) in
  let f2 := w * Rtrigo_def.cos (t3 / 3) in
  let f3 := w * Rtrigo_def.cos ((2 * PI + t3) / 3) in
  (forall f, f = f1 \/ f = f2 \/ f = f3 -> disco * (f * f * f) + f = rp) /\
  0 <= f1 <= w / 2 /\ w / 2 <= f2 /\ f3 < 0 /\ f1 + f2 + f3 = 0.
Proof.
  intros disco rp Hd Hrp q r Hw w c t3 f1 f2 f3.
  destruct (trig_setup disco rp Hd Hrp Hw) as (Dn & Wp & WW & Cr & Cw). fold w in Wp, WW, Cw, Cr. fold c in Cr, Cw.
  clearbody c. clearbody w. assert (Csq : c * c <= 1). { assert (0 <= (1 + c) * (1 - c)) by (apply Rmult_le_pos; lra). lra. }
  assert (M : DMIN (c * c) 1 = c * c).
  { unfold DMIN. rn. destruct (Rltb_spec (c * c) 1); lra. }
  assert (Hcs : c <> 0 \/ R_sqrt.sqrt (1 - c * c) <> 0) by (left; lra).
  assert (Ss : R_sqrt.sqrt (1 - c * c) * R_sqrt.sqrt (1 - c * c) = 1 - c * c) by (apply sqrt_sqrt; lra).
  assert (S0 : 0 <= R_sqrt.sqrt (1 - c * c)) by apply sqrt_pos.
  assert (Ht : t3 = atan2R (R_sqrt.sqrt (1 - c * c)) c) by (unfold t3; now rewrite M).
  assert (N1 : R_sqrt.sqrt (c * c + R_sqrt.sqrt (1 - c * c) * R_sqrt.sqrt (1 - c * c)) = 1).
  { rewrite Ss. replace (c * c + (1 - c * c)) with 1 by ring. apply sqrt_1. }
  assert (Tc : Rtrigo_def.cos t3 = c). { rewrite Ht, (atan2_cos _ _ Hcs), N1. field. }
  assert (Ts : Rtrigo_def.sin t3 = R_sqrt.sqrt (1 - c * c)). { rewrite Ht, (atan2_sin _ _ Hcs), N1. field. }
  assert (Tr : - PI < t3 <= PI) by (rewrite Ht; apply atan2_range).
  assert (Pi := PI_RGT_0).
  assert (T0 : 0 <= t3).
  { apply Rnot_lt_le. intros L. assert (Rtrigo_def.sin (- t3) > 0) by (apply sin_gt_0; lra).
    rewrite sin_neg in H. lra. }
  assert (T1 : PI / 2 < t3).
  { apply Rnot_le_lt. intros L. assert (0 <= Rtrigo_def.cos t3) by (apply cos_ge_0; lra). lra. }
  clearbody t3.
  assert (RT : forall th, Rtrigo_def.cos (3 * th) = c -> disco * (w * Rtrigo_def.cos th * (w * Rtrigo_def.cos th) * (w * Rtrigo_def.cos th)) + w * Rtrigo_def.cos th = rp).
  { intros th H. rewrite cos_3a in H. set (k := Rtrigo_def.cos th) in *.
    replace (disco * (w * k * (w * k) * (w * k)) + w * k) with ((disco * w * w) * w * (k * k * k) + w * k) by ring.
    rewrite WW. replace (- (4 / 3) * w * (k * k * k) + w * k) with (- (1/3) * ((4 * (k * k * k) - 3 * k) * w)) by field.
    rewrite H, Cw. field. }
  split.
  { intros f [->|[->| ->]].
    - apply RT. replace (3 * ((2 * PI - t3) / 3)) with (- t3 + 2 * INR 1 * PI) by (cbn; field). rewrite cos_period, cos_neg. exact Tc.
    - apply RT. replace (3 * (t3 / 3)) with t3 by field. exact Tc.
    - apply RT. replace (3 * ((2 * PI + t3) / 3)) with (t3 + 2 * INR 1 * PI) by (cbn; field). rewrite cos_period. exact Tc. }
  assert (B1 : 0 <= Rtrigo_def.cos ((2 * PI - t3) / 3) <= 1 / 2).
  { split; [apply cos_ge_0; lra|]. rewrite <- cos_PI3. apply cos_decr_1; lra. }
  assert (B2 : 1 / 2 <= Rtrigo_def.cos (t3 / 3)).
  { rewrite <- cos_PI3. apply cos_decr_1; lra. }
  assert (B3 : Rtrigo_def.cos ((2 * PI + t3) / 3) < 0).
  { apply cos_lt_0; lra. }
  unfold f1, f2, f3. split; [nra|]. split; [nra|]. split; [nra|].
  replace ((2 * PI - t3) / 3) with (2 * (PI / 3) - t3 / 3) by field.
  replace ((2 * PI + t3) / 3) with (2 * (PI / 3) + t3 / 3) by field.
  rewrite cos_minus, cos_plus, (cos_2a_cos (PI / 3)), cos_PI3. field.
Qed.

Lemma root_ok : forall disco rp, disco <> 0 -> 0 < rp ->
  let F := unpcd_root disco rp in disco * (F * F * F) + F = rp.
Proof.
  intros disco rp Hd Hrp. cbv zeta. unfold unpcd_root. cbv zeta.
  set (q := 1 / (3 * disco)). set (r := rp / (2 * disco)).
  destruct (Rltb_spec 0 (q * q * q + r * r)) as [L|L].
  - assert (H := cardano q r L). cbv zeta in H. set (F := cbrt _ + cbrt _) in *.
    replace (disco * (F * F * F) + F) with (disco * (F * F * F + 3 * q * F)) by (unfold q; field; exact Hd).
    rewrite H. unfold r. field. exact Hd.
  - assert (H := trig_roots disco rp Hd Hrp L). cbv zeta in H. destruct H as [H _].
    repeat match goal with |- context [Rltb ?a ?b] => destruct (Rltb a b) end; apply H; auto.
Qed.

Lemma mono_edge : forall disco h f r, disco < 0 -> 0 <= f <= h -> 0 <= r <= h -> -3 * disco * (h * h) = 1 ->
  1 + disco * (f * f + f * r + r * r) = 0 -> f = r.
Proof.
  intros disco h f r Hd Hf Hr Hh E.
  assert (A1 : 0 <= h * h - f * f) by nra. assert (A2 : 0 <= h * h - f * r) by nra. assert (A3 : 0 <= h * h - r * r) by nra.
  assert (S : disco * (3 * (h * h) - (f * f + f * r + r * r)) = 0) by lra.
  apply Rmult_integral in S. destruct S as [S|S]; [lra|].
  assert (B1 : h * h - f * f = 0) by lra. assert (B3 : h * h - r * r = 0) by lra.
  assert (E2 : (f - r) * (f + r) = 0) by lra. apply Rmult_integral in E2. destruct E2 as [E2|E2]; lra.
Qed.

(** when the cubic is one-to-one on the domain, the root is the original radius *)
Lemma root_unique : forall disco r, disco <> 0 -> 0 < r ->
  (disco < 0 -> -3 * disco * (r * r) <= 1) ->
  unpcd_root disco (r * (1 + disco * (r * r))) = r.
Proof.
  intros disco r Hd Hr Hm.
  set (rp := r * (1 + disco * (r * r))).
  assert (R2 : 0 < r * r) by nra.
  assert (Hrp : 0 < rp).
  { unfold rp. apply Rmult_lt_0_compat; [exact Hr|]. destruct (Rlt_dec disco 0) as [L|L]; [specialize (Hm L); lra|nra]. }
  destruct (Rlt_dec disco 0) as [L|L].
  - specialize (Hm L). unfold unpcd_root. cbv zeta.
    assert (NW : ~ 0 < 1 / (3 * disco) * (1 / (3 * disco)) * (1 / (3 * disco)) + rp / (2 * disco) * (rp / (2 * disco))).
    { intros K. set (u := - disco * (r * r)) in *.
      assert (Hu : 0 <= u <= 1 / 3) by (unfold u; nra).
      (* multiply by 108 disco^2 * (-disco) > 0 *)
      assert (E : (1 / (3 * disco) * (1 / (3 * disco)) * (1 / (3 * disco)) + rp / (2 * disco) * (rp / (2 * disco))) * (108 * (disco * disco) * - disco)
         = - (4 - 27 * (u * ((1 - u) * (1 - u))))).
      { unfold rp, u. field. lra. }
      assert (P : 0 < 108 * (disco * disco) * - disco).
      { apply Rmult_lt_0_compat; [|lra]. assert (0 < disco * disco) by (apply Rsqr_pos_lt; exact Hd). lra. }
      assert (Q : 0 < - (4 - 27 * (u * ((1 - u) * (1 - u))))).
      { rewrite <- E. now apply Rmult_lt_0_compat. }
      (* 27 u (1-u)^2 <= 4 on [0,1/3] : 4 - 27u(1-u)^2 = (1-3u)^2 (4-3u) *)
      assert (4 - 27 * (u * ((1 - u) * (1 - u))) = (1 - 3 * u) * (1 - 3 * u) * (4 - 3 * u)) by ring.
      assert (0 <= (1 - 3 * u) * (1 - 3 * u) * (4 - 3 * u)) by (apply Rmult_le_pos; [apply Rle_0_sqr|lra]). lra. }
    rewrite (Rltb_false _ _ NW).
    assert (T := trig_roots disco rp Hd Hrp NW). cbv zeta in T.
    destruct (trig_setup disco rp Hd Hrp NW) as (_ & Wp & WW & _).
    set (w := 2 / R_sqrt.sqrt (- (3) * disco)) in *.
    set (t3 := atan2R _ _) in *.
    set (f1 := w * Rtrigo_def.cos ((2 * PI - t3) / 3)) in *. set (f2 := w * Rtrigo_def.cos (t3 / 3)) in *.
    set (f3 := w * Rtrigo_def.cos ((2 * PI + t3) / 3)) in *. clearbody t3 f1 f2 f3.
    destruct T as (TR & B1 & B2 & B3 & SUM).
    assert (Er : r <= w / 2).
    { apply Rnot_lt_le. intros G. assert ((w / 2) * (w / 2) < r * r) by nra. nra. }
    (* monotone on [0, w/2] *)
    assert (U : forall f, 0 <= f <= w / 2 -> disco * (f * f * f) + f = rp -> f = r).
    { intros f Hf Ef. assert (E : (f - r) * (1 + disco * (f * f + f * r + r * r)) = 0).
      { replace (_ * _) with ((disco * (f * f * f) + f) - r * (1 + disco * (r * r))) by ring. rewrite Ef. unfold rp. ring. }
      apply Rmult_integral in E. destruct E as [E|E]; [lra|].
      apply (mono_edge disco (w / 2) f r); try lra; nra. }
    assert (E1 : f1 = r) by (apply U; [exact B1|apply TR; auto]). subst f1.
    assert (RP : rp < r).
    { assert (0 < r * (- disco * (r * r))) by (apply Rmult_lt_0_compat; [exact Hr|apply Rmult_lt_0_compat; lra]). unfold rp. lra. }
    rewrite (Rabs_pos_eq (r - rp)) by lra. rewrite (Rabs_pos_eq (f2 - rp)) by lra. rewrite (Rabs_left (f3 - rp)) by lra.
    destruct (Rltb_spec (r - rp) (f2 - rp)) as [G|G].
    + rewrite Rltb_true by lra. reflexivity.
    + assert (f2 = r) by lra. rewrite Rltb_true by lra. easy.
  - assert (Dp : 0 < disco) by lra.
    assert (E := root_ok disco rp Hd Hrp). cbv zeta in E. set (F := unpcd_root disco rp) in *.
    assert (G : (F - r) * (1 + disco * (F * F + F * r + r * r)) = 0).
    { replace (_ * _) with ((disco * (F * F * F) + F) - r * (1 + disco * (r * r))) by ring. rewrite E. unfold rp. ring. }
    apply Rmult_integral in G. destruct G as [G|G]; [lra|].
    assert (0 <= (F + r / 2) * (F + r / 2)) by apply Rle_0_sqr. nra.
Qed.

Theorem pcd_unpcd : forall disco x y,
  let '(x1, y1) := palUnpcd disco x y in palPcd disco x1 y1 = (x, y).
Proof.
  intros disco x y. rewrite unpcd_unf. cbv zeta. set (rp := R_sqrt.sqrt (x * x + y * y)).
  assert (Q : rp * rp = x * x + y * y) by (apply sqrt_sqrt; nra).
  assert (P : 0 <= rp) by apply sqrt_pos.
  destruct (Reqb_spec rp 0) as [E|E]; cbn [negb andb].
  - rewrite E in Q. assert (x = 0 /\ y = 0) as [-> ->] by (split; nra). unfold palPcd. rn. f_equal; ring.
  - destruct (Reqb_spec disco 0) as [D|D]; cbn [negb andb].
    + subst. unfold palPcd. rn. f_equal; ring.
    + assert (H := root_ok disco rp D ltac:(lra)). cbv zeta in H. set (F := unpcd_root disco rp) in *.
      unfold palPcd. rn.
      assert (K : F / rp * (1 + disco * (x * (F / rp) * (x * (F / rp)) + y * (F / rp) * (y * (F / rp)))) = 1).
      { replace (x * (F / rp) * (x * (F / rp)) + y * (F / rp) * (y * (F / rp))) with ((x * x + y * y) * (F / rp * (F / rp))) by ring.
        rewrite <- Q. transitivity ((disco * (F * F * F) + F) / rp); [field; exact E|]. rewrite H. field. exact E. }
      f_equal.
      * transitivity (x * (F / rp * (1 + disco * (x * (F / rp) * (x * (F / rp)) + y * (F / rp) * (y * (F / rp)))))); [ring|rewrite K; ring].
      * transitivity (y * (F / rp * (1 + disco * (x * (F / rp) * (x * (F / rp)) + y * (F / rp) * (y * (F / rp)))))); [ring|rewrite K; ring].
Qed.
Theorem unpcd_pcd : forall disco x y,
  (disco < 0 -> -3 * disco * (x * x + y * y) <= 1) ->
  let '(x1, y1) := palPcd disco x y in palUnpcd disco x1 y1 = (x, y).
Proof.
  intros disco x y Hm. unfold palPcd. rn. set (f := 1 + disco * (x * x + y * y)).
  assert (N2 : 0 <= x * x + y * y) by nra.
  assert (Fp : 0 < f). { unfold f. destruct (Rlt_dec disco 0) as [L|L]; [specialize (Hm L); lra|nra]. }
  set (r := R_sqrt.sqrt (x * x + y * y)).
  assert (Q : r * r = x * x + y * y) by (apply sqrt_sqrt; lra).
  assert (P : 0 <= r) by apply sqrt_pos.
  assert (Erp : R_sqrt.sqrt (x * f * (x * f) + y * f * (y * f)) = r * (1 + disco * (r * r))).
  { replace (x * f * (x * f) + y * f * (y * f)) with ((x * x + y * y) * (f * f)) by ring.
    rewrite sqrt_mult by nra. rewrite sqrt_square by lra. fold r. rewrite Q. reflexivity. }
  rewrite unpcd_unf. cbv zeta. rewrite Erp.
  destruct (Reqb_spec (r * (1 + disco * (r * r))) 0) as [E|E]; cbn [negb andb].
  - rewrite Q in E. fold f in E. assert (r = 0) by (apply Rmult_integral in E; lra).
    rewrite H in Q. assert (x = 0 /\ y = 0) as [-> ->] by (split; nra). f_equal; ring.
  - destruct (Reqb_spec disco 0) as [D|D]; cbn [negb andb].
    + unfold f. rewrite D. f_equal; ring.
    + assert (Hr : 0 < r). { destruct P as [P|P]; [exact P|]. exfalso. apply E. rewrite <- P. ring. }
      rewrite root_unique by (try easy; rewrite Q; exact Hm).
      rewrite Q. fold f. f_equal; field; split; lra.
Qed.

(** ** palPxy *)
Lemma pxy_loop : forall n xye xym co (xyp0 : nat -> R * R) xyp sx sy,
  for_up n (fun i '(xyp, sdx2, sdy2) =>
        let '(xp, yp) := palXy2xy (fst (xym i)) (snd (xym i)) co in
        let dx := fst (xye i) - xp in
        let dy := snd (xye i) - yp in
        (upd xyp i (xp, yp), sdx2 + dx * dx, sdy2 + dy * dy)) (xyp0, 0, 0) = (xyp, sx, sy) ->
  (forall i, xyp i = if Nat.ltb i n then palXy2xy (fst (xym i)) (snd (xym i)) co else xyp0 i) /\
  sx = rsum n (fun i => (fst (xye i) - fst (palXy2xy (fst (xym i)) (snd (xym i)) co)) * (fst (xye i) - fst (palXy2xy (fst (xym i)) (snd (xym i)) co))) /\
  sy = rsum n (fun i => (snd (xye i) - snd (palXy2xy (fst (xym i)) (snd (xym i)) co)) * (snd (xye i) - snd (palXy2xy (fst (xym i)) (snd (xym i)) co))).
Proof.
  induction n as [|n IH]; intros xye xym co xyp0 xyp sx sy H.
  - cbn in H. injection H as <- <- <-. split; [|split; reflexivity]. intros i. now destruct (Nat.ltb_spec i 0); [lia|].
  - rewrite for_up_S in H. set (s := for_up n _ _) in H. destruct s as [[xyp1 sx1] sy1] eqn:Es.
    destruct (IH xye xym co xyp0 xyp1 sx1 sy1 Es) as (H1 & H2 & H3).
    destruct (palXy2xy (fst (xym n)) (snd (xym n)) co) as [xp yp] eqn:Ep. injection H as <- <- <-.
    split; [|cbn [rsum]; rewrite Ep, H2, H3; split; reflexivity].
    intros i. unfold upd. destruct (Nat.eqb_spec i n) as [->|Hn].
    + destruct (Nat.ltb_spec n (S n)); [easy|lia].
    + rewrite H1. destruct (Nat.ltb_spec i n), (Nat.ltb_spec i (S n)); try lia; reflexivity.
Qed.
