(** * Proofs: plate models, palDcmpf, least squares, pincushion distortion. *)
From Coq Require Import Reals ZArith Lra Lia Psatz Bool Arith.
From Verif Require Import Num NumR Erfa Geom M_Sphere P_Sphere Loops M_Linear P_Dmat.
Local Open Scope R_scope.

(** ** palInvf *)
Definition det6 (c : co6 R) : R := cB c * cF c - cC c * cE c.
Lemma invf_ok : forall c bk, det6 c <> 0 ->
  palInvf c bk = (C6 ((cC c * cD c - cA c * cF c) / det6 c) (cF c / det6 c) (- cC c / det6 c)
    ((cA c * cE c - cB c * cD c) / det6 c) (- cE c / det6 c) (cB c / det6 c), 0%Z).
Proof. intros c bk H. unfold palInvf. rn. unfold det6 in *. rewrite (Reqb_false _ _ H). reflexivity. Qed.
Lemma invf_fail : forall c bk, det6 c = 0 -> palInvf c bk = (bk, (-1)%Z).
Proof. intros c bk H. unfold palInvf. rn. unfold det6 in *. rewrite (Reqb_true _ _ H). reflexivity. Qed.

(** ** palDcmpf *)
Lemma dcmpf_angles : forall b c e f,
  0 < b * f - c * e ->
  let rb := R_sqrt.sqrt (b * b + e * e) in let rc := R_sqrt.sqrt (c * c + f * f) in
  let p := palDrange (atan2R c f + atan2R e b) in
  let or := atan2R (c * rb - e * rc) (b * rc + f * rb) in
  let C := Rtrigo_def.cos (p / 2) in let S := Rtrigo_def.sin (p / 2) in
  0 < rb /\ 0 < rc /\ S * S < C * C /\
  rb * (C * Rtrigo_def.cos or + S * Rtrigo_def.sin or) = b /\
  rb * (S * Rtrigo_def.cos or - C * Rtrigo_def.sin or) = e /\
  rc * (S * Rtrigo_def.cos or + C * Rtrigo_def.sin or) = c /\
  rc * (C * Rtrigo_def.cos or - S * Rtrigo_def.sin or) = f /\
  (c * rb - e * rc <> 0 \/ b * rc + f * rb <> 0).
Proof.
  intros b c e f Hdet. cbv zeta.
  assert (Hbe : b <> 0 \/ e <> 0). { destruct (Req_dec b 0); [|now left]. right. intros ->. subst. lra. }
  assert (Hcf : f <> 0 \/ c <> 0). { destruct (Req_dec f 0); [|now left]. right. intros ->. subst. lra. }
  assert (Hrb := hyp_pos b e Hbe). assert (Hrc := hyp_pos f c Hcf).
  replace (f * f + c * c) with (c * c + f * f) in Hrc by ring.
  assert (Qb : R_sqrt.sqrt (b * b + e * e) * R_sqrt.sqrt (b * b + e * e) = b * b + e * e) by (apply sqrt_sqrt; nra).
  assert (Qc : R_sqrt.sqrt (c * c + f * f) * R_sqrt.sqrt (c * c + f * f) = c * c + f * f) by (apply sqrt_sqrt; nra).
  set (rb := R_sqrt.sqrt (b * b + e * e)) in *. set (rc := R_sqrt.sqrt (c * c + f * f)) in *.
  assert (P1c : Rtrigo_def.cos (atan2R c f) = f / rc).
  { rewrite (atan2_cos c f Hcf). unfold rc. do 2 f_equal. ring. }
  assert (P1s : Rtrigo_def.sin (atan2R c f) = c / rc).
  { rewrite (atan2_sin c f Hcf). unfold rc. do 2 f_equal. ring. }
  assert (P2c : Rtrigo_def.cos (atan2R e b) = b / rb) by (apply (atan2_cos e b Hbe)).
  assert (P2s : Rtrigo_def.sin (atan2R e b) = e / rb) by (apply (atan2_sin e b Hbe)).
  set (p1 := atan2R c f) in *. set (p2 := atan2R e b) in *.
  assert (Rp := palDrange_range (p1 + p2)). assert (Gp := palDrange_cong (p1 + p2)).
  assert (Cp := cong_cos _ _ Gp). assert (Sp := cong_sin _ _ Gp).
  rewrite cos_plus, P1c, P1s, P2c, P2s in Cp. rewrite sin_plus, P1c, P1s, P2c, P2s in Sp.
  set (p := palDrange (p1 + p2)) in *.
  assert (D2 : Rtrigo_def.cos p = Rtrigo_def.cos (p/2) * Rtrigo_def.cos (p/2) - Rtrigo_def.sin (p/2) * Rtrigo_def.sin (p/2)).
  { rewrite <- cos_plus. f_equal. lra. }
  assert (D3 : Rtrigo_def.sin p = 2 * Rtrigo_def.sin (p/2) * Rtrigo_def.cos (p/2)).
  { replace p with (p/2 + p/2) at 1 by lra. rewrite sin_plus. ring. }
  assert (H1 := sc2 (p/2)).
  assert (HC0 : 0 <= Rtrigo_def.cos (p/2)). { apply cos_ge_0; lra. }
  set (C := Rtrigo_def.cos (p/2)) in *. set (S := Rtrigo_def.sin (p/2)) in *.
  assert (Hcp : 0 < C * C - S * S).
  { rewrite <- D2, Cp. replace (f / rc * (b / rb) - c / rc * (e / rb)) with ((b * f - c * e) / (rb * rc)) by (field; split; lra).
    apply Rdiv_lt_0_compat; [lra|]. now apply Rmult_lt_0_compat. }
  assert (HC : 0 < C) by nra.
  (* unit vectors *)
  set (c1 := f / rc) in *. set (s1 := c / rc) in *. set (c2 := b / rb) in *. set (s2 := e / rb) in *.
  assert (U1 : s1 * s1 + c1 * c1 = 1). { rewrite <- P1c, <- P1s. apply sc2. }
  assert (U2 : s2 * s2 + c2 * c2 = 1). { rewrite <- P2c, <- P2s. apply sc2. }
  assert (Ef : f = rc * c1) by (unfold c1; field; lra). assert (Ec : c = rc * s1) by (unfold s1; field; lra).
  assert (Eb : b = rb * c2) by (unfold c2; field; lra). assert (Ee : e = rb * s2) by (unfold s2; field; lra).
  assert (K1 : C * C - S * S = c1 * c2 - s1 * s2) by lra.
  assert (K2 : 2 * S * C = s1 * c2 + c1 * s2) by lra.
  (* c1 C + s1 S = c2 C + s2 S, both equal to cos of the half difference *)
  assert (R1 : c1 = (C*C - S*S) * c2 + 2*S*C * s2).
  { rewrite K1, K2. replace c1 with (c1 * (s2*s2 + c2*c2)) at 1 by (rewrite U2; ring). ring. }
  assert (R2 : s1 = 2*S*C * c2 - (C*C - S*S) * s2).
  { rewrite K1, K2. replace s1 with (s1 * (s2*s2 + c2*c2)) at 1 by (rewrite U2; ring). ring. }
  assert (A1 : c1 + c2 = 2 * C * (C * c2 + S * s2)).
  { rewrite R1. replace c2 with (c2 * (S*S + C*C)) at 2 by (rewrite H1; ring). ring. }
  assert (A2 : s1 - s2 = 2 * C * (S * c2 - C * s2)).
  { rewrite R2. replace s2 with (s2 * (S*S + C*C)) at 2 by (rewrite H1; ring). ring. }
  set (co := C * c2 + S * s2) in *. set (so := S * c2 - C * s2) in *.
  assert (U3 : so * so + co * co = 1).
  { unfold so, co. replace (_ + _) with ((S*S + C*C) * (s2*s2 + c2*c2)) by ring. rewrite H1, U2. ring. }
  assert (W1 : c * rb - e * rc = (rb * rc * (2 * C)) * so) by (rewrite Ec, Ee; replace (rc * s1 * rb - rb * s2 * rc) with (rb * rc * (s1 - s2)) by ring; rewrite A2; ring).
  assert (W2 : b * rc + f * rb = (rb * rc * (2 * C)) * co) by (rewrite Eb, Ef; replace (rb * c2 * rc + rc * c1 * rb) with (rb * rc * (c1 + c2)) by ring; rewrite A1; ring).
  assert (HK : 0 < rb * rc * (2 * C)). { apply Rmult_lt_0_compat; [now apply Rmult_lt_0_compat|lra]. }
  rewrite W1, W2, atan2_scale by exact HK.
  assert (Hso : co <> 0 \/ so <> 0). { destruct (Req_dec co 0) as [E0|]; [|now left]. right. intros E1. rewrite E0, E1 in U3. lra. }
  assert (Q1 : R_sqrt.sqrt (co * co + so * so) = 1). { replace (co * co + so * so) with 1 by lra. apply sqrt_1. }
  rewrite (atan2_cos so co Hso), (atan2_sin so co Hso), Q1.
  split; [exact Hrb|]. split; [exact Hrc|]. split; [lra|].
  assert (F1 : C * co + S * so = c2). { unfold co, so. replace (_ + _) with ((S*S + C*C) * c2) by ring. rewrite H1. ring. }
  assert (F2 : S * co - C * so = s2). { unfold co, so. replace (_ - _) with ((S*S + C*C) * s2) by ring. rewrite H1. ring. }
  assert (F3 : S * co + C * so = s1). { rewrite R2. unfold co, so. ring. }
  assert (F4 : C * co - S * so = c1). { rewrite R1. unfold co, so. ring. }
  split; [rewrite Eb, <- F1; field|]. split; [rewrite Ee, <- F2; field|]. split; [rewrite Ec, <- F3; field|].
  split; [rewrite Ef, <- F4; field|].
  destruct Hso as [H|H]; [right|left]; apply Rmult_integral_contrapositive_currified; lra.
Qed.
(** the four documented steps (step 4 with its evident misprint
    [-sin(orient) * y'''] read as [-sin(orient) * x''']) *)
Definition recompose (d : dcmp R) (x1 y1 : R) : R * R :=
  let x' := dc_xz d + x1 in let y' := dc_yz d + y1 in
  let x'' := dc_xs d * x' in let y'' := dc_ys d * y' in
  let h := dc_perp d / 2 in let o := dc_orient d in
  let x3 := Rtrigo_def.cos h * x'' + Rtrigo_def.sin h * y'' in
  let y3 := Rtrigo_def.sin h * x'' + Rtrigo_def.cos h * y'' in
  (Rtrigo_def.cos o * x3 + Rtrigo_def.sin o * y3, - Rtrigo_def.sin o * x3 + Rtrigo_def.cos o * y3).

Lemma neq_test : forall x y, (x <> 0 \/ y <> 0) -> (negb (Reqb x 0) || negb (Reqb y 0))%bool = true.
Proof. intros x y [H|H]; rewrite (Reqb_false _ _ H); cbn; [easy|apply orb_true_r]. Qed.

Lemma dcmpf_core : forall a d b c e f xs rb,
  rb = R_sqrt.sqrt (b * b + e * e) -> (xs = 1 \/ xs = -1) -> 0 < b * f - c * e ->
  let rc := R_sqrt.sqrt (c * c + f * f) in
  let p := palDrange (atan2R c f + atan2R e b) in
  let or := atan2R (c * rb - e * rc) (b * rc + f * rb) in
  let C := Rtrigo_def.cos (p / 2) in let S := Rtrigo_def.sin (p / 2) in
  let co := Rtrigo_def.cos or in let so := Rtrigo_def.sin or in
  let xsc := xs * rb in
  let det := xsc * rc * (C + S) * (C - S) in
  let x0 := rc * (a * (C * co - S * so) - d * (C * so + S * co)) / det in
  let y0 := xsc * (a * (C * so - S * co) + d * (C * co + S * so)) / det in
  det <> 0 /\
  forall x1 y1, recompose (Dcmp x0 y0 xsc rc p or) x1 y1 = (a + xs * b * x1 + c * y1, d + xs * e * x1 + f * y1).
Proof.
  intros a d b c e f xs rb Hrb Hxs Hdet. cbv zeta. subst rb.
  destruct (dcmpf_angles b c e f Hdet) as (Hb & Hc & HSC & E1 & E2 & E3 & E4 & _).
  cbv zeta in *. unfold recompose. cbn [dc_xz dc_yz dc_xs dc_ys dc_perp dc_orient].
  set (rb := R_sqrt.sqrt (b * b + e * e)) in *. set (rc := R_sqrt.sqrt (c * c + f * f)) in *.
  set (p := palDrange (atan2R c f + atan2R e b)) in *.
  set (or := atan2R (c * rb - e * rc) (b * rc + f * rb)) in *.
  assert (H1 := sc2 (p/2)). assert (H2 := sc2 or).
  set (C := Rtrigo_def.cos (p / 2)) in *. set (S := Rtrigo_def.sin (p / 2)) in *.
  set (co := Rtrigo_def.cos or) in *. set (so := Rtrigo_def.sin or) in *.
  assert (Hk : C * C - S * S <> 0) by lra.
  assert (Hx0 : xs <> 0) by (destruct Hxs; lra).
  assert (HD : xs * rb * rc * (C + S) * (C - S) = (xs * rb * rc) * (C * C - S * S)) by ring.
  assert (Hn : xs * rb * rc <> 0). { repeat apply Rmult_integral_contrapositive_currified; lra. }
  split.
  { rewrite HD. now apply Rmult_integral_contrapositive_currified. }
  intros x1 y1. rewrite HD.
  set (x0 := rc * _ / _). set (y0 := xs * rb * _ / _).
  set (N := xs * rb * rc * (C * C - S * S)) in *.
  assert (HN : N <> 0) by (unfold N; now apply Rmult_integral_contrapositive_currified).
  assert (X : xs * rb * (C * co + S * so) * x0 + rc * (S * co + C * so) * y0 = a).
  { unfold x0, y0. transitivity (a * ((N * (so * so + co * co)) / N)).
    - unfold N. field. repeat split; lra.
    - rewrite H2. field. exact HN. }
  assert (Y : xs * rb * (S * co - C * so) * x0 + rc * (C * co - S * so) * y0 = d).
  { unfold x0, y0. transitivity (d * ((N * (so * so + co * co)) / N)).
    - unfold N. field. repeat split; lra.
    - rewrite H2. field. exact HN. }
  f_equal.
  - transitivity ((xs * rb * (C * co + S * so) * x0 + rc * (S * co + C * so) * y0)
      + xs * (rb * (C * co + S * so)) * x1 + rc * (S * co + C * so) * y1); [ring|]. rewrite X, E1, E3. ring.
  - transitivity ((xs * rb * (S * co - C * so) * x0 + rc * (C * co - S * so) * y0)
      + xs * (rb * (S * co - C * so)) * x1 + rc * (C * co - S * so) * y1); [ring|]. rewrite Y, E2, E4. ring.
Qed.

Lemma dcmpf_recompose : forall c x1 y1, det6 c <> 0 -> recompose (palDcmpf c) x1 y1 = palXy2xy x1 y1 c.
Proof.
  intros [a b c d e f] x1 y1 Hdet. unfold det6 in Hdet. cbn [cA cB cC cD cE cF] in Hdet.
  unfold palDcmpf, palXy2xy. cbn [cA cB cC cD cE cF]. rn.
  destruct (Rleb_spec 0 (b * f - c * e)) as [L|L].
  - assert (Hp : 0 < b * f - c * e) by lra.
    destruct (dcmpf_angles b c e f Hp) as (Hb & Hc & _ & _ & _ & _ & _ & Hw). cbv zeta in Hw.
    destruct (dcmpf_core a d b c e f 1 _ eq_refl (or_introl eq_refl) Hp) as [N0 Hr]. cbv zeta in N0, Hr.
    rewrite (neq_test c f) by (destruct (Req_dec c 0); [right; intros ->; subst; lra|now left]).
    rewrite (neq_test e b) by (destruct (Req_dec e 0); [right; intros ->; subst; lra|now left]).
    rewrite (neq_test _ _ Hw).
    rewrite !Rmult_1_l in N0, Hr. rewrite Rltb_true by (now apply Rabs_pos_lt).
    rewrite Hr. f_equal; ring.
  - assert (Hp : 0 < (- b) * f - c * (- e)) by lra.
    destruct (dcmpf_angles (- b) c (- e) f Hp) as (Hb & Hc & _ & _ & _ & _ & _ & Hw). cbv zeta in Hw.
    assert (Q : R_sqrt.sqrt (b * b + e * e) = R_sqrt.sqrt (- b * - b + - e * - e)) by (f_equal; ring).
    destruct (dcmpf_core a d (-b) c (-e) f (-1) _ Q (or_intror eq_refl) Hp) as [N0 Hr]. cbv zeta in N0, Hr.
    rewrite <- Q in Hw.
    rewrite (neq_test c f) by (destruct (Req_dec c 0); [right; intros ->; subst; lra|now left]).
    rewrite (neq_test (- e) (- b)) by (destruct (Req_dec e 0); [right; intros E0; assert (b = 0) by lra; subst; lra|left; lra]).
    rewrite (neq_test _ _ Hw).
    replace (-1 * R_sqrt.sqrt (b * b + e * e)) with (- R_sqrt.sqrt (b * b + e * e)) in N0, Hr by ring.
    rewrite Rltb_true by (now apply Rabs_pos_lt).
    rewrite Hr. f_equal; ring.
Qed.

(** ** least squares *)
Lemma fsum_rsum : forall n g, fsum n g = rsum n g.
Proof. intros. unfold fsum. rn. induction n; [reflexivity|]. rewrite for_up_S, IHn. reflexivity. Qed.
Lemma fsum2_rsum : forall n g h, fsum2 n g h = rsum n (fun i => g i + h i).
Proof. intros. unfold fsum2. rn. induction n; [reflexivity|]. rewrite for_up_S, IHn. cbn [rsum]. ring. Qed.

(** the sum of the squared residuals of a model over the data *)
Definition sumsq (np : nat) (xye xym : nat -> R * R) (co : co6 R) : R :=
  rsum np (fun i =>
    let rx := fst (xye i) - (cA co + cB co * fst (xym i) + cC co * snd (xym i)) in
    let ry := snd (xye i) - (cD co + cE co * fst (xym i) + cF co * snd (xym i)) in
    rx * rx + ry * ry).

(** orthogonality of the residual to the perturbation gives a minimum *)
Lemma lsq_min : forall n (r p : nat -> R), rsum n (fun i => r i * p i) = 0 ->
  rsum n (fun i => r i * r i) <= rsum n (fun i => (r i - p i) * (r i - p i)).
Proof.
  intros n r p H.
  assert (E : rsum n (fun i => (r i - p i) * (r i - p i)) = rsum n (fun i => r i * r i) + rsum n (fun i => p i * p i)).
  { rewrite <- rsum_plus. replace (rsum n (fun i => r i * r i + p i * p i)) with
      (rsum n (fun i => r i * r i + p i * p i) + (-2) * rsum n (fun i => r i * p i)) by (rewrite H; ring).
    rewrite <- rsum_scal, <- rsum_plus. apply rsum_ext. intros. ring. }
  assert (Hp : rsum n (fun _ => 0) <= rsum n (fun i => p i * p i)) by (apply rsum_le; intros; apply Rle_0_sqr).
  rewrite rsum_zero in Hp by easy. lra.
Qed.
Lemma lsq_min2 : forall n (r p s q : nat -> R),
  rsum n (fun i => r i * p i) + rsum n (fun i => s i * q i) = 0 ->
  rsum n (fun i => r i * r i + s i * s i) <=
  rsum n (fun i => (r i - p i) * (r i - p i) + (s i - q i) * (s i - q i)).
Proof.
  intros n r p s q H.
  assert (E : rsum n (fun i => (r i - p i) * (r i - p i) + (s i - q i) * (s i - q i)) =
     rsum n (fun i => r i * r i + s i * s i) + rsum n (fun i => p i * p i + q i * q i)).
  { rewrite <- rsum_plus.
    transitivity (rsum n (fun i => r i * r i + s i * s i + (p i * p i + q i * q i)) + (-2) * (rsum n (fun i => r i * p i) + rsum n (fun i => s i * q i))).
    2:{ rewrite H. ring. }
    rewrite Rmult_plus_distr_l, <- !rsum_scal, <- !rsum_plus. apply rsum_ext. intros. ring. }
  assert (Hp : rsum n (fun _ => 0) <= rsum n (fun i => p i * p i + q i * q i)).
  { apply rsum_le; intros. assert (0 <= p i * p i) by apply Rle_0_sqr. assert (0 <= q i * q i) by apply Rle_0_sqr. lra. }
  rewrite rsum_zero in Hp by easy. lra.
Qed.
Lemma rsum_one : forall n, rsum n (fun _ => 1) = INR n.
Proof. induction n; [easy|]. cbn [rsum]. rewrite IHn, S_INR. easy. Qed.

Local Opaque palDmat.
Lemma fitxy6_min : forall np xye xym co0 iw0 co, fitxy6 np xye xym co0 iw0 = (co, 0%Z) ->
  (3 <= np)%Z /\ forall co', sumsq (Z.to_nat np) xye xym co <= sumsq (Z.to_nat np) xye xym co'.
Proof.
  intros np xye xym co0 iw0 co H. unfold fitxy6 in H.
  destruct (Z.leb_spec 3 np) as [Hnp|Hnp]; [|discriminate]. split; [easy|].
  rewrite !fsum_rsum in H. rn.
  set (n := Z.to_nat np) in *.
  set (sxe := rsum n (fun i => fst (xye i))) in *.
  set (sxexm := rsum n (fun i => fst (xye i) * fst (xym i))) in *.
  set (sxeym := rsum n (fun i => fst (xye i) * snd (xym i))) in *.
  set (sye := rsum n (fun i => snd (xye i))) in *.
  set (syeym := rsum n (fun i => snd (xye i) * snd (xym i))) in *.
  set (syexm := rsum n (fun i => snd (xye i) * fst (xym i))) in *.
  set (sxm := rsum n (fun i => fst (xym i))) in *.
  set (sym := rsum n (fun i => snd (xym i))) in *.
  set (sxmxm := rsum n (fun i => fst (xym i) * fst (xym i))) in *.
  set (sxmym := rsum n (fun i => fst (xym i) * snd (xym i))) in *.
  set (symym := rsum n (fun i => snd (xym i) * snd (xym i))) in *.
  set (A := rows3 _ _ _) in H. set (y := of3 sxe sxexm sxeym) in H.
  assert (DC := dmat_correct 3 A y iw0). cbv zeta in DC. destruct DC as [_ DC].
  set (r := palDmat 3 A y iw0) in *. clearbody r.
  destruct (Z.eqb_spec (dm_jf r) 0) as [J|J]; [|discriminate].
  destruct (DC J) as (Inv & Sol & _). clear DC.
  apply (f_equal fst) in H. cbn [fst] in H. subst co.
  assert (Hp : IZR np = rsum n (fun _ => 1)).
  { rewrite rsum_one. unfold n. rewrite INR_IZR_INZ, Z2Nat.id by lia. easy. }
  (* normal equations for the x coefficients *)
  assert (NX : forall i, (i < 3)%nat -> mvec 3 A (dm_y r) i = y i) by exact Sol.
  set (w := of3 sye syexm syeym).
  assert (NY : forall i, (i < 3)%nat -> mvec 3 A (fun i => mvec 3 (dm_a r) w i) i = w i).
  { apply Inv. easy. }
  assert (Ew : forall i, (i < 3)%nat -> mvec 3 (dm_a r) w i =
     match i with 0%nat => vx | 1%nat => vy | _ => vz end (palDmxv (mat_of (dm_a r)) (V sye syexm syeym))).
  { intros i Hi. unfold mvec. unfold w. cbn [rsum of3]. unfold palDmxv, eraRxp, row_dot, mat_of. cbn [m0 m1 m2 vx vy vz]. rn.
    destruct i as [|[|[|]]]; try lia; cbn [vx vy vz]; ring. }
  set (W := palDmxv (mat_of (dm_a r)) (V sye syexm syeym)) in *. clearbody W.
  intros co'. match goal with |- sumsq _ _ _ ?c <= _ => set (co := c) end.
  assert (X0 := NX 0%nat ltac:(lia)). assert (X1 := NX 1%nat ltac:(lia)). assert (X2 := NX 2%nat ltac:(lia)).
  assert (Y0 := NY 0%nat ltac:(lia)). assert (Y1 := NY 1%nat ltac:(lia)). assert (Y2 := NY 2%nat ltac:(lia)).
  unfold mvec at 1 in X0. unfold mvec at 1 in X1. unfold mvec at 1 in X2.
  unfold mvec at 1 in Y0. unfold mvec at 1 in Y1. unfold mvec at 1 in Y2.
  cbn [rsum A y w rows3 of3] in X0, X1, X2, Y0, Y1, Y2.
  rewrite !Ew in Y0, Y1, Y2 by lia. cbv beta iota in Y0, Y1, Y2.
  (* residual orthogonality *)
  set (rx := fun i => fst (xye i) - (cA co + cB co * fst (xym i) + cC co * snd (xym i))).
  set (ry := fun i => snd (xye i) - (cD co + cE co * fst (xym i) + cF co * snd (xym i))).
  assert (OX : forall u v t, rsum n (fun i => rx i * (u + v * fst (xym i) + t * snd (xym i))) = 0).
  { intros u v t.
    transitivity (u * (sxe - (cA co * IZR np + cB co * sxm + cC co * sym)) +
                  v * (sxexm - (cA co * sxm + cB co * sxmxm + cC co * sxmym)) +
                  t * (sxeym - (cA co * sym + cB co * sxmym + cC co * symym))).
    - rewrite Hp. unfold sxe, sxexm, sxeym, sxm, sym, sxmxm, sxmym, symym, Rminus.
      rewrite ?Ropp_plus_distr, ?Rmult_plus_distr_l, ?Ropp_mult_distr_l, <- ?rsum_scal, <- ?rsum_plus.
      apply rsum_ext. intros i Hi. unfold rx. ring.
    - unfold co. cbn [cA cB cC]. rewrite <- X0, <- X1, <- X2. ring. }
  assert (OY : forall u v t, rsum n (fun i => ry i * (u + v * fst (xym i) + t * snd (xym i))) = 0).
  { intros u v t.
    transitivity (u * (sye - (cD co * IZR np + cE co * sxm + cF co * sym)) +
                  v * (syexm - (cD co * sxm + cE co * sxmxm + cF co * sxmym)) +
                  t * (syeym - (cD co * sym + cE co * sxmym + cF co * symym))).
    - rewrite Hp. unfold sye, syexm, syeym, sxm, sym, sxmxm, sxmym, symym, Rminus.
      rewrite ?Ropp_plus_distr, ?Rmult_plus_distr_l, ?Ropp_mult_distr_l, <- ?rsum_scal, <- ?rsum_plus.
      apply rsum_ext. intros i Hi. unfold ry. ring.
    - unfold co. cbn [cD cE cF]. rewrite <- Y0, <- Y1, <- Y2. ring. }
  unfold sumsq.
  apply Rle_trans with (rsum n (fun i =>
     (rx i - ((cA co' - cA co) + (cB co' - cB co) * fst (xym i) + (cC co' - cC co) * snd (xym i))) *
     (rx i - ((cA co' - cA co) + (cB co' - cB co) * fst (xym i) + (cC co' - cC co) * snd (xym i))) +
     (ry i - ((cD co' - cD co) + (cE co' - cE co) * fst (xym i) + (cF co' - cF co) * snd (xym i))) *
     (ry i - ((cD co' - cD co) + (cE co' - cE co) * fst (xym i) + (cF co' - cF co) * snd (xym i))))).
  - apply lsq_min2. rewrite OX, OY. ring.
  - right. apply rsum_ext. intros i Hi. unfold rx, ry. ring.
Qed.
