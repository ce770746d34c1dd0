(** * The real-number reading of the arithmetic, and trigonometric toolbox. *)
From Coq Require Import Reals ZArith Lra Lia Psatz Bool.
From Flocq Require Import Core.Raux.
From Verif Require Import Num.
Local Open Scope R_scope.

(** ** The instance *)
Definition Rltb (x y : R) : bool := if Rlt_dec x y then true else false.
Definition Rleb (x y : R) : bool := if Rle_dec x y then true else false.
Definition Reqb (x y : R) : bool := if Req_EM_T x y then true else false.

(** C [atan2(y,x)] without signed zeros: principal value in (-pi,pi]. *)
Definition atan2R (y x : R) : R :=
  if Rlt_dec 0 x then Ratan.atan (y / x)
  else if Rlt_dec x 0 then
    (if Rle_dec 0 y then Ratan.atan (y / x) + PI else Ratan.atan (y / x) - PI)
  else if Rlt_dec 0 y then PI / 2
  else if Rlt_dec y 0 then - (PI / 2)
  else 0.

(** C [fmod]: result has the sign of [x] (only used with [y <> 0]). *)
Definition fmodR (x y : R) : R := x - IZR (Ztrunc (x / y)) * y.

(** C [pow] on nonnegative bases (negative bases never occur in PAL). *)
Definition powR (x y : R) : R :=
  if Rlt_dec 0 x then Rpower x y
  else if Req_EM_T y 0 then 1 else 0.

Definition litR (d : Dec) : R :=
  if (0 <=? dexp d)%Z then IZR (dmant d * 10 ^ dexp d)
  else IZR (dmant d) / IZR (10 ^ (- dexp d)).

Global Instance RA : Arith R := {|
  add := Rplus; sub := Rminus; mul := Rmult; div := Rdiv; opp := Ropp;
  ltb := Rltb; leb := Rleb; eqb := Reqb;
  fabs := Rabs; sqrt := R_sqrt.sqrt; sin := Rtrigo_def.sin; cos := Rtrigo_def.cos;
  tan := Rtrigo1.tan; asin := Ratan.asin; atan := Ratan.atan; atan2 := atan2R;
  exp := Rtrigo_def.exp; log := Rpower.ln; sinh := Rtrigo_def.sinh; pow := powR;
  fmod := fmodR;
  floor := fun x => IZR (Zfloor x); ceil := fun x => IZR (Zceil x);
  ofZ := IZR; toZ := Ztrunc; lit := litR; pi := PI |}.

(** ** Tactics: reduce class projections and literals at R. *)
Ltac rlit :=
  repeat match goal with
  | |- context [litR ?d] =>
      let v := eval cbv -[IZR Rdiv] in (litR d) in change (litR d) with v
  | H : context [litR ?d] |- _ =>
      let v := eval cbv -[IZR Rdiv] in (litR d) in change (litR d) with v in H
  end.
Ltac rops :=
  cbn [add sub mul div opp ltb leb eqb fabs sqrt sin cos tan asin atan atan2
       exp log sinh pow fmod floor ceil ofZ toZ lit pi RA] in *.
Ltac rn := rops; rlit.

Lemma Rltb_spec : forall x y, Bool.reflect (x < y) (Rltb x y).
Proof. intros; unfold Rltb; destruct (Rlt_dec x y); now constructor. Qed.
Lemma Rleb_spec : forall x y, Bool.reflect (x <= y) (Rleb x y).
Proof. intros; unfold Rleb; destruct (Rle_dec x y); now constructor. Qed.
Lemma Reqb_spec : forall x y, Bool.reflect (x = y) (Reqb x y).
Proof. intros; unfold Reqb; destruct (Req_EM_T x y); now constructor. Qed.
(** Destruct the first real comparison found in the goal. *)
Ltac rcase :=
  match goal with
  | |- context [Rltb ?a ?b] => destruct (Rltb_spec a b)
  | |- context [Rleb ?a ?b] => destruct (Rleb_spec a b)
  | |- context [Reqb ?a ?b] => destruct (Reqb_spec a b)
  end.
Ltac rcase_in H :=
  match type of H with
  | context [Rltb ?a ?b] => destruct (Rltb_spec a b)
  | context [Rleb ?a ?b] => destruct (Rleb_spec a b)
  | context [Reqb ?a ?b] => destruct (Reqb_spec a b)
  end.
Lemma Rltb_true : forall x y, x < y -> Rltb x y = true.
Proof. intros x y H; destruct (Rltb_spec x y); easy. Qed.
Lemma Rltb_false : forall x y, ~ x < y -> Rltb x y = false.
Proof. intros x y H; destruct (Rltb_spec x y); easy. Qed.
Lemma Rleb_true : forall x y, x <= y -> Rleb x y = true.
Proof. intros x y H; destruct (Rleb_spec x y); easy. Qed.
Lemma Rleb_false : forall x y, ~ x <= y -> Rleb x y = false.
Proof. intros x y H; destruct (Rleb_spec x y); easy. Qed.
Lemma Reqb_true : forall x y, x = y -> Reqb x y = true.
Proof. intros x y H; destruct (Reqb_spec x y); easy. Qed.
Lemma Reqb_false : forall x y, x <> y -> Reqb x y = false.
Proof. intros x y H; destruct (Reqb_spec x y); easy. Qed.

(** ** Angles modulo a turn *)
(** [cong a b]: the two angles (radians) differ by a whole number of turns. *)
Definition cong (a b : R) : Prop := exists k : Z, a = b + IZR k * (2 * PI).

Lemma cong_refl : forall a, cong a a.
Proof. intros a; exists 0%Z; lra. Qed.
Lemma cong_sym : forall a b, cong a b -> cong b a.
Proof. intros a b [k H]; exists (- k)%Z; rewrite opp_IZR; lra. Qed.
Lemma cong_trans : forall a b c, cong a b -> cong b c -> cong a c.
Proof. intros a b c [k H] [l H']; exists (k + l)%Z; rewrite plus_IZR; lra. Qed.
Lemma cong_add : forall a b c d, cong a b -> cong c d -> cong (a + c) (b + d).
Proof. intros a b c d [k H] [l H']; exists (k + l)%Z; rewrite plus_IZR; lra. Qed.
Lemma cong_opp : forall a b, cong a b -> cong (- a) (- b).
Proof. intros a b [k H]; exists (- k)%Z; rewrite opp_IZR; lra. Qed.

Lemma sin_period_Z : forall x k, Rtrigo_def.sin (x + IZR k * (2 * PI)) = Rtrigo_def.sin x.
Proof.
  intros x k. destruct (Z_le_dec 0 k) as [H|H].
  - replace (IZR k) with (INR (Z.to_nat k)) by (rewrite INR_IZR_INZ, Z2Nat.id by lia; easy).
    replace (x + INR (Z.to_nat k) * (2 * PI)) with (x + 2 * INR (Z.to_nat k) * PI) by ring.
    apply sin_period.
  - rewrite <- (sin_period (x + IZR k * (2 * PI)) (Z.to_nat (- k))).
    f_equal. rewrite INR_IZR_INZ, Z2Nat.id by lia. rewrite opp_IZR. ring.
Qed.
Lemma cos_period_Z : forall x k, Rtrigo_def.cos (x + IZR k * (2 * PI)) = Rtrigo_def.cos x.
Proof.
  intros x k. destruct (Z_le_dec 0 k) as [H|H].
  - replace (IZR k) with (INR (Z.to_nat k)) by (rewrite INR_IZR_INZ, Z2Nat.id by lia; easy).
    replace (x + INR (Z.to_nat k) * (2 * PI)) with (x + 2 * INR (Z.to_nat k) * PI) by ring.
    apply cos_period.
  - rewrite <- (cos_period (x + IZR k * (2 * PI)) (Z.to_nat (- k))).
    f_equal. rewrite INR_IZR_INZ, Z2Nat.id by lia. rewrite opp_IZR. ring.
Qed.
Lemma cong_sin : forall a b, cong a b -> Rtrigo_def.sin a = Rtrigo_def.sin b.
Proof. intros a b [k ->]; apply sin_period_Z. Qed.
Lemma cong_cos : forall a b, cong a b -> Rtrigo_def.cos a = Rtrigo_def.cos b.
Proof. intros a b [k ->]; apply cos_period_Z. Qed.

Lemma sc2 : forall x, Rtrigo_def.sin x * Rtrigo_def.sin x + Rtrigo_def.cos x * Rtrigo_def.cos x = 1.
Proof. intros x; generalize (sin2_cos2 x); unfold Rsqr; lra. Qed.
(** [c2] rewrites squares of cosines: cos^2 = 1 - sin^2 *)
Lemma cc_ss : forall x, Rtrigo_def.cos x * Rtrigo_def.cos x = 1 - Rtrigo_def.sin x * Rtrigo_def.sin x.
Proof. intros x; generalize (sc2 x); lra. Qed.
Lemma cos_bounds : forall x, -1 <= Rtrigo_def.cos x <= 1. Proof. intro; apply COS_bound. Qed.
Lemma sin_bounds : forall x, -1 <= Rtrigo_def.sin x <= 1. Proof. intro; apply SIN_bound. Qed.

(** an angle with cosine one is a whole number of turns, in |t| < 2pi: zero *)
Lemma cos_eq_1_0 : forall t, - (2 * PI) < t < 2 * PI -> Rtrigo_def.cos t = 1 -> t = 0.
Proof.
  intros t Ht Hc.
  assert (Hs : Rtrigo_def.sin (t / 2) = 0).
  { replace t with (2 * (t / 2)) in Hc by field. rewrite cos_2a_sin in Hc.
    assert (E : Rtrigo_def.sin (t/2) * Rtrigo_def.sin (t/2) = 0) by lra.
    destruct (Rmult_integral _ _ E); assumption. }
  destruct (Rtotal_order t 0) as [H|[H|H]]; [|assumption|].
  - exfalso. assert (0 < Rtrigo_def.sin (- (t / 2))) by (apply sin_gt_0; lra).
    rewrite sin_neg in H0. lra.
  - exfalso. assert (0 < Rtrigo_def.sin (t / 2)) by (apply sin_gt_0; lra). lra.
Qed.

Lemma same_sc_eq : forall a b, - (2 * PI) < a - b < 2 * PI ->
  Rtrigo_def.cos a = Rtrigo_def.cos b -> Rtrigo_def.sin a = Rtrigo_def.sin b -> a = b.
Proof.
  intros a b H Hc Hs.
  assert (a - b = 0); [|lra].
  apply cos_eq_1_0; [assumption|].
  rewrite cos_minus, Hc, Hs. generalize (sc2 b); lra.
Qed.

Lemma same_sc_cong : forall a b,
  Rtrigo_def.cos a = Rtrigo_def.cos b -> Rtrigo_def.sin a = Rtrigo_def.sin b -> cong a b.
Proof.
  intros a b Hc Hs.
  pose (k := Zfloor ((a - b) / (2 * PI))).
  exists k.
  assert (Hpi := PI_RGT_0).
  assert (Hl := Zfloor_lb ((a - b) / (2 * PI))).
  assert (Hu := Zfloor_ub ((a - b) / (2 * PI))). fold k in Hl, Hu.
  assert (E : a - b = (a - b) / (2 * PI) * (2 * PI)) by (field; lra).
  set (q := (a - b) / (2 * PI)) in *.
  apply same_sc_eq.
  - nra.
  - rewrite cos_period_Z; assumption.
  - rewrite sin_period_Z; assumption.
Qed.

(** ** atan2 *)
Lemma atan2_range : forall y x, - PI < atan2R y x <= PI.
Proof.
  intros y x; unfold atan2R. assert (Hpi := PI_RGT_0).
  destruct (Rlt_dec 0 x); [generalize (atan_bound (y / x)); lra|].
  destruct (Rlt_dec x 0).
  - destruct (Rle_dec 0 y).
    + generalize (atan_bound (y / x)). intros.
      assert (y / x <= 0).
      { unfold Rdiv. assert (/ x < 0) by (apply Rinv_lt_0_compat; easy). nra. }
      assert (Ratan.atan (y / x) <= 0).
      { rewrite <- atan_0. destruct H0; [left; apply atan_increasing; easy|right; f_equal; easy]. }
      lra.
    + generalize (atan_bound (y / x)). intros.
      assert (0 < y / x).
      { unfold Rdiv. assert (/ x < 0) by (apply Rinv_lt_0_compat; easy). nra. }
      assert (0 < Ratan.atan (y / x)) by (rewrite <- atan_0; apply atan_increasing; easy).
      lra.
  - destruct (Rlt_dec 0 y); [lra|]. destruct (Rlt_dec y 0); lra.
Qed.

Lemma sqrt_1_q : forall x y, x <> 0 ->
  R_sqrt.sqrt (1 + (y / x)²) = R_sqrt.sqrt (x * x + y * y) / Rabs x.
Proof.
  intros x y Hx.
  assert (0 < Rabs x) by (apply Rabs_pos_lt; easy).
  apply Rsqr_inj; [apply sqrt_pos | |].
  - apply Rmult_le_pos; [apply sqrt_pos | left; apply Rinv_0_lt_compat; easy].
  - rewrite Rsqr_sqrt by (generalize (Rle_0_sqr (y / x)); lra).
    transitivity ((x * x + y * y) / (x * x)); [unfold Rsqr; field; easy|].
    rewrite Rsqr_div', <- Rsqr_abs, Rsqr_sqrt by nra. reflexivity.
Qed.

(** The polar form: (x,y) = |(x,y)| (cos t, sin t) with t = atan2(y,x). *)
Lemma atan2_polar : forall y x,
  x = R_sqrt.sqrt (x * x + y * y) * Rtrigo_def.cos (atan2R y x) /\
  y = R_sqrt.sqrt (x * x + y * y) * Rtrigo_def.sin (atan2R y x).
Proof.
  intros y x; unfold atan2R.
  assert (Hr : x <> 0 -> R_sqrt.sqrt (x * x + y * y) <> 0).
  { intros Hx E. apply sqrt_eq_0 in E; nra. }
  destruct (Rlt_dec 0 x).
  - rewrite cos_atan, sin_atan, sqrt_1_q by lra. rewrite Rabs_right by lra.
    specialize (Hr ltac:(lra)). split; field; split; lra || easy.
  - destruct (Rlt_dec x 0).
    + specialize (Hr ltac:(lra)). destruct (Rle_dec 0 y).
      * rewrite neg_cos, neg_sin, cos_atan, sin_atan, sqrt_1_q by lra.
        rewrite Rabs_left by lra. split; field; split; lra || easy.
      * replace (Ratan.atan (y / x) - PI) with (- (- Ratan.atan (y/x) + PI)) by ring.
        rewrite cos_neg, sin_neg, neg_cos, neg_sin, cos_neg, sin_neg, cos_atan, sin_atan, sqrt_1_q by lra.
        rewrite Rabs_left by lra. split; field; split; lra || easy.
    + assert (x = 0) by lra. subst x.
      replace (0 * 0 + y * y) with (y²) by (unfold Rsqr; ring).
      destruct (Rlt_dec 0 y).
      * rewrite cos_PI2, sin_PI2, sqrt_Rsqr by lra. lra.
      * destruct (Rlt_dec y 0).
        -- rewrite cos_neg, sin_neg, cos_PI2, sin_PI2.
           rewrite Rsqr_neg, sqrt_Rsqr by lra. lra.
        -- assert (y = 0) by lra. subst. unfold Rsqr. rewrite Rmult_0_l, sqrt_0. lra.
Qed.

Lemma hyp_pos : forall x y, (x <> 0 \/ y <> 0) -> 0 < R_sqrt.sqrt (x * x + y * y).
Proof.
  intros x y H. apply sqrt_lt_R0. destruct H; nra.
Qed.

Lemma atan2_cos : forall y x, (x <> 0 \/ y <> 0) ->
  Rtrigo_def.cos (atan2R y x) = x / R_sqrt.sqrt (x * x + y * y).
Proof.
  intros y x H. generalize (hyp_pos x y H); intros Hp.
  destruct (atan2_polar y x) as [E _].
  set (r := R_sqrt.sqrt (x * x + y * y)) in *. set (c := Rtrigo_def.cos (atan2R y x)) in *.
  rewrite E at 1. field. lra.
Qed.
Lemma atan2_sin : forall y x, (x <> 0 \/ y <> 0) ->
  Rtrigo_def.sin (atan2R y x) = y / R_sqrt.sqrt (x * x + y * y).
Proof.
  intros y x H. generalize (hyp_pos x y H); intros Hp.
  destruct (atan2_polar y x) as [_ E].
  set (r := R_sqrt.sqrt (x * x + y * y)) in *. set (c := Rtrigo_def.sin (atan2R y x)) in *.
  rewrite E at 1. field. lra.
Qed.

(** Uniqueness of the polar angle. *)
Lemma atan2_unique : forall r t, 0 < r -> - PI < t <= PI ->
  atan2R (r * Rtrigo_def.sin t) (r * Rtrigo_def.cos t) = t.
Proof.
  intros r t Hr Ht.
  assert (E : R_sqrt.sqrt (r * Rtrigo_def.cos t * (r * Rtrigo_def.cos t) + r * Rtrigo_def.sin t * (r * Rtrigo_def.sin t)) = r).
  { replace (r * Rtrigo_def.cos t * (r * Rtrigo_def.cos t) + r * Rtrigo_def.sin t * (r * Rtrigo_def.sin t))
      with (r² * (Rtrigo_def.sin t * Rtrigo_def.sin t + Rtrigo_def.cos t * Rtrigo_def.cos t)) by (unfold Rsqr; ring).
    rewrite sc2, Rmult_1_r, sqrt_Rsqr; lra. }
  destruct (atan2_polar (r * Rtrigo_def.sin t) (r * Rtrigo_def.cos t)) as [Hc Hs].
  rewrite E in Hc, Hs.
  generalize (atan2_range (r * Rtrigo_def.sin t) (r * Rtrigo_def.cos t)). intros Hg.
  apply same_sc_eq; [lra | |].
  - apply Rmult_eq_reg_l with r; lra.
  - apply Rmult_eq_reg_l with r; lra.
Qed.

Lemma atan2_cong : forall r t, 0 < r ->
  cong (atan2R (r * Rtrigo_def.sin t) (r * Rtrigo_def.cos t)) t.
Proof.
  intros r t Hr.
  assert (E : R_sqrt.sqrt (r * Rtrigo_def.cos t * (r * Rtrigo_def.cos t) + r * Rtrigo_def.sin t * (r * Rtrigo_def.sin t)) = r).
  { replace (r * Rtrigo_def.cos t * (r * Rtrigo_def.cos t) + r * Rtrigo_def.sin t * (r * Rtrigo_def.sin t))
      with (r² * (Rtrigo_def.sin t * Rtrigo_def.sin t + Rtrigo_def.cos t * Rtrigo_def.cos t)) by (unfold Rsqr; ring).
    rewrite sc2, Rmult_1_r, sqrt_Rsqr; lra. }
  destruct (atan2_polar (r * Rtrigo_def.sin t) (r * Rtrigo_def.cos t)) as [Hc Hs].
  rewrite E in Hc, Hs.
  apply same_sc_cong; apply Rmult_eq_reg_l with r; lra.
Qed.

Lemma atan2_scale : forall k y x, 0 < k -> atan2R (k * y) (k * x) = atan2R y x.
Proof.
  intros k y x Hk. unfold atan2R.
  assert (Q : x <> 0 -> k * y / (k * x) = y / x) by (intros; field; lra).
  destruct (Rlt_dec 0 (k * x)), (Rlt_dec 0 x); try nra.
  - now rewrite Q by lra.
  - destruct (Rlt_dec (k * x) 0), (Rlt_dec x 0); try nra.
    + destruct (Rle_dec 0 (k * y)), (Rle_dec 0 y); try nra; now rewrite Q by lra.
    + destruct (Rlt_dec 0 (k * y)), (Rlt_dec 0 y); try nra; auto.
      destruct (Rlt_dec (k * y) 0), (Rlt_dec y 0); try nra; auto.
Qed.

(** atan2 with nonnegative second argument is in [-pi/2,pi/2]. *)
Lemma atan2_half : forall y x, 0 <= x -> - (PI / 2) <= atan2R y x <= PI / 2.
Proof.
  intros y x Hx; unfold atan2R. assert (Hpi := PI_RGT_0).
  destruct (Rlt_dec 0 x); [generalize (atan_bound (y / x)); lra|].
  destruct (Rlt_dec x 0); [lra|].
  destruct (Rlt_dec 0 y); [lra|]. destruct (Rlt_dec y 0); lra.
Qed.

(** ** fmod *)
Lemma fmod_bound : forall x y, 0 < y -> Rabs (fmodR x y) < y.
Proof.
  intros x y Hy. unfold fmodR.
  assert (E : x = x / y * y) by (field; lra). set (q := x / y) in *.
  assert (Rabs (q - IZR (Ztrunc q)) < 1).
  { unfold Ztrunc. case Rlt_bool_spec; intros H.
    - generalize (Zceil_ub q) (Zceil_lb q). intros. apply Rabs_def1; lra.
    - generalize (Zfloor_ub q) (Zfloor_lb q). intros. apply Rabs_def1; lra. }
  replace (x - IZR (Ztrunc q) * y) with ((q - IZR (Ztrunc q)) * y) by (rewrite E; ring).
  rewrite Rabs_mult, (Rabs_right y) by lra. nra.
Qed.
Lemma fmod_nonneg : forall x y, 0 < y -> 0 <= x -> 0 <= fmodR x y.
Proof.
  intros x y Hy Hx. unfold fmodR.
  assert (0 <= x / y) by (apply Rmult_le_pos; [easy|left; apply Rinv_0_lt_compat; easy]).
  rewrite Ztrunc_floor by easy.
  assert (E : x = x / y * y) by (field; lra).
  generalize (Zfloor_lb (x / y)). nra.
Qed.
Lemma fmod_nonpos : forall x y, 0 < y -> x <= 0 -> fmodR x y <= 0.
Proof.
  intros x y Hy Hx. unfold fmodR.
  assert (x / y <= 0).
  { unfold Rdiv. assert (0 < / y) by (apply Rinv_0_lt_compat; easy). nra. }
  rewrite Ztrunc_ceil by easy.
  assert (E : x = x / y * y) by (field; lra).
  generalize (Zceil_ub (x / y)). nra.
Qed.
Lemma fmod_cong : forall x, cong (fmodR x (2 * PI)) x.
Proof. intros x; unfold fmodR. exists (- Ztrunc (x / (2 * PI)))%Z. rewrite opp_IZR. ring. Qed.
Lemma fmod_small : forall x y, 0 < y -> Rabs x < y -> fmodR x y = x.
Proof.
  intros x y Hy Hx. unfold fmodR.
  assert (Rabs (x / y) < 1).
  { unfold Rdiv. rewrite Rabs_mult, (Rabs_right (/ y)) by (left; apply Rinv_0_lt_compat; easy).
    apply Rmult_lt_reg_r with y; [easy|]. rewrite Rmult_assoc, Rinv_l; lra. }
  replace (Ztrunc (x / y)) with 0%Z; [lra|].
  symmetry. apply Rabs_def2 in H.
  unfold Ztrunc. case Rlt_bool_spec; intros.
  - apply Zceil_imp. simpl. lra.
  - apply Zfloor_imp. simpl. lra.
Qed.
