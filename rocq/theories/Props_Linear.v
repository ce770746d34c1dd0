(** * Headline theorems: linear plate models, fits, matrix inversion, distortion. *)
From Coq Require Import Reals ZArith Lra Lia Psatz Bool Arith.
From Verif Require Import Num NumR Erfa Geom M_Sphere Loops M_Linear P_Dmat P_Linear P_Lsq P_Pcd DetExists.
Local Open Scope R_scope.

(** ** C25  palInvf *)
Theorem C25_palInvf : forall (c bk : co6 R),
  (det6 c <> 0 ->
     snd (palInvf c bk) = 0%Z /\
     let b := fst (palInvf c bk) in
     (forall x y, let '(u, v) := palXy2xy x y c in palXy2xy u v b = (x, y)) /\
     (forall x y, let '(u, v) := palXy2xy x y b in palXy2xy u v c = (x, y)) /\
     (forall bk', palInvf b bk' = (c, 0%Z))) /\
  (det6 c = 0 -> palInvf c bk = (bk, (-1)%Z) /\
     (* and there is then no inverse model *)
     ~ exists b, forall x y, let '(u, v) := palXy2xy x y c in palXy2xy u v b = (x, y)).
Proof.
  intros c bk. split.
  - intros H. rewrite (invf_ok c bk H). cbn [fst snd]. split; [reflexivity|].
    destruct c as [a b c d e f]. unfold det6 in *. cbn [cA cB cC cD cE cF] in *.
    split; [|split].
    + intros x y. unfold palXy2xy. cbn [cA cB cC cD cE cF]. rn. f_equal; field; exact H.
    + intros x y. unfold palXy2xy. cbn [cA cB cC cD cE cF]. rn. f_equal; field; exact H.
    + intros bk'. set (c' := C6 _ _ _ _ _ _).
      assert (E : det6 c' = 1 / (b * f - c * e)) by (unfold det6, c'; cbn [cB cC cE cF]; field; exact H).
      assert (N : det6 c' <> 0). { rewrite E. unfold Rdiv. rewrite Rmult_1_l. now apply Rinv_neq_0_compat. }
      rewrite (invf_ok c' bk' N), E. unfold c'. cbn [cA cB cC cD cE cF]. do 2 f_equal; field; exact H.
  - intros H. split; [now apply invf_fail|]. intros [b Hb].
    destruct c as [a0 b0 c0 d0 e0 f0]. destruct b as [a b c d e f].
    unfold det6 in H. cbn [cA cB cC cD cE cF] in H.
    assert (H00 := Hb 0 0). assert (H10 := Hb 1 0). assert (H01 := Hb 0 1).
    unfold palXy2xy in *. cbn [cA cB cC cD cE cF] in *. rn.
    injection H00 as P1 P2. injection H10 as P3 P4. injection H01 as P5 P6.
    assert (K : (b * b0 + c * e0) * (e * c0 + f * f0) - (b * c0 + c * f0) * (e * b0 + f * e0) = (b * f - c * e) * (b0 * f0 - c0 * e0)) by ring.
    replace (b * b0 + c * e0) with 1 in K by lra. replace (e * c0 + f * f0) with 1 in K by lra.
    replace (b * c0 + c * f0) with 0 in K by lra. replace (e * b0 + f * e0) with 0 in K by lra.
    rewrite H in K. lra.
Qed.
(** a rotated, scaled, shifted model satisfies the hypothesis *)
Example C25_nonvacuous : det6 (C6 1 2 3 4 5 6) <> 0.
Proof. unfold det6; cbn. lra. Qed.

(** ** C26  palDcmpf *)
Theorem C26_palDcmpf : forall (c : co6 R), det6 c <> 0 ->
  forall x1 y1, recompose (palDcmpf c) x1 y1 = palXy2xy x1 y1 c.
Proof. intros. now apply dcmpf_recompose. Qed.
(** for a reflecting model the reflection is carried by the sign of the x scale *)
Theorem C26_scales : forall (c : co6 R), 0 <= dc_ys (palDcmpf c) /\ (det6 c < 0 -> dc_xs (palDcmpf c) <= 0) /\ (0 <= det6 c -> 0 <= dc_xs (palDcmpf c)).
Proof.
  intros [a b c d e f]. unfold det6, palDcmpf. cbn [cA cB cC cD cE cF]. rn.
  assert (P1 := sqrt_pos (b * b + e * e)). assert (P2 := sqrt_pos (c * c + f * f)).
  destruct (Rleb_spec 0 (b * f - c * e)) as [L|L].
  - destruct (Rltb _ _); cbn [dc_ys dc_xs]; (split; [exact P2|split; intros; lra]).
  - destruct (Rltb _ _); cbn [dc_ys dc_xs]; (split; [exact P2|split; intros; lra]).
Qed.

(** ** C27  palFitxy is a least squares fit *)
(** itype 6: any six coefficients; itype 4: [type4] *)
Definition model_ok (itype : Z) (co : co6 R) : Prop := itype = 6%Z \/ (itype = 4%Z /\ type4 co).
Theorem C27_palFitxy : forall itype np xye xym co0 iw0 co,
  palFitxy itype np xye xym co0 iw0 = (co, 0%Z) ->
  (* two-point four-coefficient fits excepted when they return the null model, see below *)
  ~ (itype = 4%Z /\ np = 2%Z /\ co = C6 0 0 0 0 0 0) ->
  model_ok itype co /\
  forall co', model_ok itype co' ->
    sumsq (Z.to_nat np) xye xym co <= sumsq (Z.to_nat np) xye xym co'.
Proof.
  intros itype np xye xym co0 iw0 co H Hx. unfold palFitxy in H.
  destruct (Z.eqb_spec itype 6) as [E6|E6].
  - destruct (fitxy6_min _ _ _ _ _ _ H) as [_ M]. split; [now left|]. intros; apply M.
  - destruct (Z.eqb_spec itype 4) as [E4|E4]; [|discriminate].
    destruct (fitxy4_min _ _ _ _ _ _ H) as [_ [(T & _ & M)|(E2 & Z)]].
    + split; [right; now split|]. intros co' [K|[_ K]]; [lia|]. now apply M.
    + exfalso. apply Hx. auto.
Qed.
(** The exception is real: two well separated measured points (a microradian, or
    0.2 arcsec, apart) make the normal equations' determinant fall under palDmat's
    absolute threshold; palFitxy then returns status 0 with all-zero coefficients. *)
Definition two_e : nat -> R * R := fun i => match i with 0%nat => (0, 0) | _ => (1, 0) end.
Definition two_m : nat -> R * R := fun i => match i with 0%nat => (0, 0) | _ => (1/1000000, 0) end.
Lemma small_det_fails : forall n A y iw0, (0 < n)%nat -> Rabs (detR n A) < 1e-20 ->
  dm_jf (palDmat n A y iw0) = (-1)%Z /\ dm_d (palDmat n A y iw0) = 0.
Proof.
  intros n A y iw0 Hn Hd. destruct (dmat_correct n A y iw0) as [[J|J] H]; [|exact J].
  exfalso. destruct (H J) as (_ & _ & HD & _ & B). specialize (B Hn). rewrite (HD _ (detR_ok n)) in B. lra.
Qed.

(** ** C30  palDmat *)
Theorem C30_palDmat : forall (n : nat) (A : nat -> nat -> R) (y : nat -> R) (iw0 : nat -> nat),
  let r := palDmat n A y iw0 in
  dm_jf r = 0%Z ->
  (* two-sided inverse *)
  (forall i j, (i < n)%nat -> (j < n)%nat ->
     mmul n A (dm_a r) i j = delta i j /\ mmul n (dm_a r) A i j = delta i j) /\
  (* the solution of the simultaneous equations, and the only one *)
  (forall i, (i < n)%nat -> rsum n (fun j => A i j * dm_y r j) = y i) /\
  (forall x, (forall i, (i < n)%nat -> rsum n (fun j => A i j * x j) = y i) ->
     forall i, (i < n)%nat -> x i = dm_y r i) /\
  (* the determinant *)
  dm_d r = detR n A.
Proof.
  intros n A y iw0 r J. destruct (dmat_correct n A y iw0) as [_ H]. fold r in H.
  destruct (H J) as (I & S & D & _). split; [|split; [|split]].
  - now apply inverse_of_solves.
  - exact S.
  - intros x Hx i Hi. transitivity (mvec n (dm_a r) y i).
    + apply (proj1 (I x y) Hx i Hi).
    + symmetry. apply (proj1 (I (dm_y r) y) S i Hi).
  - apply D. apply detR_ok.
Qed.

(** ** C31  singular matrices *)
Theorem C31_palDmat_singular : forall (n : nat) (A : nat -> nat -> R) (y : nat -> R) (iw0 : nat -> nat),
  let r := palDmat n A y iw0 in
  (* a null vector *)
  ((exists x, (exists i, (i < n)%nat /\ x i <> 0) /\ forall i, (i < n)%nat -> rsum n (fun j => A i j * x j) = 0) ->
   dm_jf r = (-1)%Z /\ dm_d r = 0) /\
  (* a zero, or merely tiny, determinant *)
  ((0 < n)%nat -> Rabs (detR n A) < 1e-20 -> dm_jf r = (-1)%Z /\ dm_d r = 0) /\
  (dm_jf r = 0%Z \/ dm_jf r = (-1)%Z).
Proof.
  intros n A y iw0 r. destruct (dmat_correct n A y iw0) as [K H]. fold r in K, H. split; [|split].
  - intros (x & (i & Hi & Hx) & Hz). destruct K as [J|J]; [|exact J]. exfalso.
    destruct (H J) as (I & _). apply Hx.
    assert (E := proj1 (I x (fun _ => 0)) Hz i Hi). rewrite E. unfold mvec. apply rsum_zero. intros. ring.
  - intros Hn Hd. now apply small_det_fails.
  - destruct K as [J|[J _]]; auto.
Qed.
(** The converse fails: a perfectly conditioned matrix is reported singular when
    its determinant is small: here c*I with c = 0.005 and order 10. *)
Definition scaled_id (i j : nat) : R := if Nat.eqb i j then 5/1000 else 0.
Lemma det_rows : forall n D, is_det n D -> forall c m, (m <= n)%nat ->
  D (fun i j => (if Nat.ltb i m then c else 1) * delta i j) = c ^ m.
Proof.
  intros n D HD c m. induction m as [|m IH]; intros Hm.
  - cbn [Rpow_def.pow]. transitivity (D delta); [|apply (det_id _ _ HD)]. apply (det_ext _ _ HD). intros. destruct (Nat.ltb_spec i 0); [lia|ring].
  - cbn [Rpow_def.pow]. rewrite <- IH by lia. rewrite <- (det_scale _ _ HD _ m) by lia. apply (det_ext _ _ HD). intros i j Hi Hj.
    destruct (Nat.eqb_spec i m), (Nat.ltb_spec i m), (Nat.ltb_spec i (S m)); try lia; ring.
Qed.
Lemma det_scaled : forall n c, detR n (fun i j => if Nat.eqb i j then c else 0) = c ^ n.
Proof.
  intros n c. rewrite <- (det_rows n _ (detR_ok n) c n) by lia. apply (det_ext _ _ (detR_ok n)).
  intros i j Hi Hj. unfold delta. destruct (Nat.ltb_spec i n); [|lia]. destruct (Nat.eqb i j); ring.
Qed.
Theorem C31_nonsingular_refuted : exists (n : nat) (A B : nat -> nat -> R),
  (forall i j, (i < n)%nat -> (j < n)%nat -> mmul n A B i j = delta i j /\ mmul n B A i j = delta i j) /\
  forall y iw0, dm_jf (palDmat n A y iw0) = (-1)%Z.
Proof.
  exists 10%nat, scaled_id, (fun i j => if Nat.eqb i j then 200 else 0). split.
  - intros i j Hi Hj. unfold mmul, scaled_id. split.
    + rewrite (rsum_single 10 i); [|easy|].
      * unfold delta. rewrite Nat.eqb_refl. destruct (Nat.eqb i j); lra.
      * intros k Hk Hn. destruct (Nat.eqb_spec i k); [lia|ring].
    + rewrite (rsum_single 10 i); [|easy|].
      * unfold delta. rewrite Nat.eqb_refl. destruct (Nat.eqb i j); lra.
      * intros k Hk Hn. destruct (Nat.eqb_spec i k); [lia|ring].
  - intros y iw0. apply small_det_fails; [lia|]. unfold scaled_id. rewrite det_scaled.
    rewrite <- RPow_abs, Rabs_pos_eq by lra. cbn [Rpow_def.pow]. lra.
Qed.

(** ** C27, the exception *)
Lemma det_row_op : forall n D, is_det n D -> forall A B r s c, (r < n)%nat -> (s < n)%nat -> r <> s ->
  (forall i j, (i < n)%nat -> (j < n)%nat -> B i j = if Nat.eqb i r then A i j + c * A s j else A i j) -> D A = D B.
Proof.
  intros n D HD A B r s c Hr Hs Hrs H. rewrite <- (det_add _ _ HD A r s c Hr Hs Hrs).
  apply (det_ext _ _ HD). intros i j Hi Hj. symmetry. now apply H.
Qed.
Lemma det_row_scale : forall n D, is_det n D -> forall A B r c, (r < n)%nat ->
  (forall i j, (i < n)%nat -> (j < n)%nat -> B i j = if Nat.eqb i r then c * A i j else A i j) -> D B = c * D A.
Proof.
  intros n D HD A B r c Hr H. rewrite <- (det_scale _ _ HD A r c Hr).
  apply (det_ext _ _ HD). intros i j Hi Hj. now apply H.
Qed.
Ltac case4 := let i := fresh in let j := fresh in intros i j ? ?;
  destruct i as [|[|[|[|]]]]; try lia; destruct j as [|[|[|[|]]]]; try lia; cbn [rows4 of4 Nat.eqb]; unfold delta; cbn [Nat.eqb].
Lemma det_block : forall D, is_det 4 D -> forall p s q, p <> 0 -> p * q - s * s <> 0 ->
  D (rows4 (of4 p s 0 0) (of4 s q 0 0) (of4 0 0 (- q) (- s)) (of4 0 0 s p)) = - ((p * q - s * s) * (p * q - s * s)).
Proof.
  intros D HD p s q Hp Hq. set (t := q - s * s / p).
  assert (Ht : t <> 0). { unfold t. intros E. apply Hq. replace (p * q - s * s) with (p * (q - s * s / p)) by (field; exact Hp). rewrite E. ring. }
  rewrite (det_row_op 4 D HD _ (rows4 (of4 p s 0 0) (of4 0 t 0 0) (of4 0 0 (- q) (- s)) (of4 0 0 s p)) 1 0 (- s / p))
    by (try lia; case4; unfold t; field; exact Hp).
  rewrite (det_row_op 4 D HD _ (rows4 (of4 p 0 0 0) (of4 0 t 0 0) (of4 0 0 (- q) (- s)) (of4 0 0 s p)) 0 1 (- s / t))
    by (try lia; case4; field; exact Ht).
  rewrite (det_row_op 4 D HD _ (rows4 (of4 p 0 0 0) (of4 0 t 0 0) (of4 0 0 (- t) 0) (of4 0 0 s p)) 2 3 (s / p))
    by (try lia; case4; unfold t; field; exact Hp).
  rewrite (det_row_op 4 D HD _ (rows4 (of4 p 0 0 0) (of4 0 t 0 0) (of4 0 0 (- t) 0) (of4 0 0 0 p)) 3 2 (s / t))
    by (try lia; case4; field; exact Ht).
  rewrite (det_row_scale 4 D HD (rows4 (of4 1 0 0 0) (of4 0 t 0 0) (of4 0 0 (- t) 0) (of4 0 0 0 p)) _ 0 p) by (try lia; case4; ring).
  rewrite (det_row_scale 4 D HD (rows4 (of4 1 0 0 0) (of4 0 1 0 0) (of4 0 0 (- t) 0) (of4 0 0 0 p)) _ 1 t) by (try lia; case4; ring).
  rewrite (det_row_scale 4 D HD (rows4 (of4 1 0 0 0) (of4 0 1 0 0) (of4 0 0 1 0) (of4 0 0 0 p)) _ 2 (- t)) by (try lia; case4; ring).
  rewrite (det_row_scale 4 D HD delta _ 3 p) by (try lia; case4; ring).
  rewrite (det_id _ _ HD). unfold t. field. exact Hp.
Qed.
Local Opaque palDmat.
Theorem C27_two_points_refuted :
  exists xye xym, (* two distinct measured points, which the identity-type model fits exactly *)
    xym 0%nat <> xym 1%nat /\ (exists co', type4 co' /\ sumsq 2 xye xym co' = 0) /\
    forall co0 iw0, palFitxy 4 2 xye xym co0 iw0 = (C6 0 0 0 0 0 0, 0%Z) /\
      0 < sumsq 2 xye xym (C6 0 0 0 0 0 0).
Proof.
  exists two_e, two_m. split; [|split].
  - intros E. injection E. lra.
  - exists (C6 0 1000000 0 0 0 1000000). split.
    + left. cbn. split; ring.
    + unfold sumsq. cbn [rsum two_e two_m fst snd cA cB cC cD cE cF]. field.
  - intros co0 iw0. split.
    2:{ unfold sumsq. cbn [rsum two_e two_m fst snd cA cB cC cD cE cF]. lra. }
    unfold palFitxy. cbn [Z.eqb Pos.eqb]. unfold fitxy4. cbn [Z.leb Z.compare Pos.compare Pos.compare_cont].
    assert (P : forall sg v s j, fitxy4_pass 2 sg two_e two_m iw0 = (v, s, j) -> j = (-1)%Z /\ s = -1).
    { intros sg v s j H.
      assert (J : j = (-1)%Z).
      { unfold fitxy4_pass in H. apply (f_equal snd) in H. cbn [snd] in H. subst j.
        apply small_det_fails; [lia|].
        rewrite !fsum_rsum, !fsum2_rsum. rn.
        rewrite (det_ext _ _ (detR_ok 4) _ (rows4 (of4 2 (1/1000000) 0 0) (of4 (1/1000000) (1/1000000000000) 0 0)
          (of4 0 0 (- (1/1000000000000)) (- (1/1000000))) (of4 0 0 (1/1000000) 2))).
        2:{ change (Z.to_nat 2) with 2%nat. case4; cbn [rsum two_m fst snd]; lra. }
        rewrite (det_block _ (detR_ok 4)) by lra. rewrite Rabs_Ropp, Rabs_pos_eq by lra. lra. }
      split; [exact J|].
      destruct (fitxy4_pass_ok 2 sg two_e two_m iw0 v s j ltac:(lia) H) as [N _]. apply N. rewrite J. discriminate. }
    destruct (fitxy4_pass 2 (lit 1) two_e two_m iw0) as [[v0 s0] j0] eqn:P0.
    destruct (fitxy4_pass 2 (opp (lit 1)) two_e two_m iw0) as [[v1 s1] j1] eqn:P1.
    destruct (P _ _ _ _ P0) as [-> ->]. destruct (P _ _ _ _ P1) as [-> ->].
    cbn [Z.eqb Pos.eqb]. rn. rewrite (Rleb_true 0 0) by lra. rewrite orb_true_r. cbn [andb].
    f_equal. f_equal; ring.
Qed.

(** ** C28  status codes of palFitxy *)
(** for any arithmetic: which code, and what is left untouched *)
Theorem C28_status : forall (T : Type) (AT : Arith T) itype np (xye xym : nat -> T * T) co0 iw0,
  let r := palFitxy itype np xye xym co0 iw0 in
  (itype <> 4%Z /\ itype <> 6%Z -> r = (co0, (-1)%Z)) /\
  (itype = 4%Z /\ (np < 2)%Z \/ itype = 6%Z /\ (np < 3)%Z -> r = (co0, (-2)%Z)) /\
  (itype = 4%Z /\ (2 <= np)%Z \/ itype = 6%Z /\ (3 <= np)%Z -> snd r = 0%Z \/ r = (co0, (-3)%Z)).
Proof.
  intros. unfold palFitxy in r.
  split; [|split].
  - intros [H4 H6]. unfold r. apply Z.eqb_neq in H4, H6. now rewrite H4, H6.
  - intros [[-> H]|[-> H]]; unfold r; cbn [Z.eqb Pos.eqb].
    + unfold fitxy4. destruct (Z.leb_spec 2 np); [lia|easy].
    + unfold fitxy6. destruct (Z.leb_spec 3 np); [lia|easy].
  - intros [[-> H]|[-> H]]; unfold r; cbn [Z.eqb Pos.eqb].
    + unfold fitxy4. destruct (Z.leb_spec 2 np); [|lia].
      destruct (fitxy4_pass np (lit 1) xye xym iw0) as [[v0 s0] j0]. destruct (fitxy4_pass np (opp (lit 1)) xye xym iw0) as [[v1 s1] j1].
      destruct (Z.eqb j0 0); destruct (_ && _)%bool; cbn [snd]; auto; destruct (Z.eqb j1 0); cbn [snd]; auto.
    + unfold fitxy6. destruct (Z.leb_spec 3 np); [|lia]. cbv zeta. destruct (Z.eqb _ 0); cbn [snd]; auto.
Qed.
(** degenerate configurations are reported: collinear points (itype 6), coincident points (itype 4, three or more) *)
Theorem C28_degenerate : forall np (xye xym : nat -> R * R) co0 iw0, (3 <= np)%Z ->
  ((exists al be ga, (al <> 0 \/ be <> 0 \/ ga <> 0) /\
      forall i, (i < Z.to_nat np)%nat -> al + be * fst (xym i) + ga * snd (xym i) = 0) ->
   palFitxy 6 np xye xym co0 iw0 = (co0, (-3)%Z)) /\
  ((exists p q, forall i, (i < Z.to_nat np)%nat -> xym i = (p, q)) ->
   palFitxy 4 np xye xym co0 iw0 = (co0, (-3)%Z)).
Proof.
  intros np xye xym co0 iw0 Hnp. split.
  - intros (al & be & ga & Hn & Hc). exact (fitxy6_singular np xye xym co0 iw0 al be ga Hnp Hn Hc).
  - intros (p & q & Hc). exact (fitxy4_singular np xye xym co0 iw0 p q Hnp Hc).
Qed.
(** two coincident points: the documented -3 is not given *)
Theorem C28_two_coincident_refuted : forall (xye : nat -> R * R) p q co0 iw0,
  palFitxy 4 2 xye (fun _ => (p, q)) co0 iw0 = (C6 0 0 0 0 0 0, 0%Z).
Proof.
  intros xye p q co0 iw0. unfold palFitxy. cbn [Z.eqb Pos.eqb]. unfold fitxy4. cbn [Z.leb Z.compare Pos.compare Pos.compare_cont].
  assert (P : forall sg v s j, fitxy4_pass 2 sg xye (fun _ => (p, q)) iw0 = (v, s, j) -> j <> 0%Z /\ s = -1).
  { intros sg v s j H. destruct (fitxy4_pass_ok 2 sg xye (fun _ => (p, q)) iw0 v s j ltac:(lia) H) as [N O].
    assert (J : j <> 0%Z). { intros J. destruct (O J) as (_ & _ & D). apply D. exists p, q. easy. }
    split; [exact J|now apply N]. }
  destruct (fitxy4_pass 2 (lit 1) xye (fun _ => (p, q)) iw0) as [[v0 s0] j0] eqn:P0.
  destruct (fitxy4_pass 2 (opp (lit 1)) xye (fun _ => (p, q)) iw0) as [[v1 s1] j1] eqn:P1.
  destruct (P _ _ _ _ P0) as [J0 ->]. destruct (P _ _ _ _ P1) as [J1 ->].
  apply Z.eqb_neq in J0, J1. rewrite J0.
  rn. rewrite (Rleb_true 0 0) by lra. cbn [Z.eqb Pos.eqb]. rewrite orb_true_r. cbn [andb]. f_equal. f_equal; ring.
Qed.

(** ** C29  palPxy *)
Theorem C29_palPxy : forall np xye xym co xyp0 xyp xrms yrms rrms,
  palPxy np xye xym co xyp0 = (xyp, xrms, yrms, rrms) ->
  let n := Z.to_nat np in
  let px i := fst (palXy2xy (fst (xym i)) (snd (xym i)) co) in
  let py i := snd (palXy2xy (fst (xym i)) (snd (xym i)) co) in
  (forall i, (i < n)%nat -> xyp i = palXy2xy (fst (xym i)) (snd (xym i)) co) /\
  (forall i, (n <= i)%nat -> xyp i = xyp0 i) /\
  ((1 <= np)%Z ->
     xrms = R_sqrt.sqrt (rsum n (fun i => (fst (xye i) - px i) ^ 2) / IZR np) /\
     yrms = R_sqrt.sqrt (rsum n (fun i => (snd (xye i) - py i) ^ 2) / IZR np) /\
     rrms = R_sqrt.sqrt (sumsq n xye xym co / IZR np)) /\
  ((np <= 0)%Z -> xrms = 0 /\ yrms = 0 /\ rrms = 0).
Proof.
  intros np xye xym co xyp0 xyp xrms yrms rrms H n px py. unfold palPxy in H. rn.
  match type of H with context [for_up ?m ?f ?s] => set (L := for_up m f s) in H; assert (EL : for_up m f s = L) by reflexivity end.
  destruct L as [[xyp1 sx] sy]. destruct (pxy_loop _ _ _ _ _ _ _ _ EL) as (H1 & H2 & H3).
  fold n in H1, H2, H3. injection H as <- <- <- <-.
  split; [|split; [|split]].
  - intros i Hi. rewrite H1. destruct (Nat.ltb_spec i n); [easy|lia].
  - intros i Hi. rewrite H1. destruct (Nat.ltb_spec i n); [lia|easy].
  - intros Hnp. assert (M : DMAX 1 (IZR np) = IZR np).
    { unfold DMAX. rn. assert (1 <= IZR np) by (apply IZR_le in Hnp; exact Hnp). destruct (Rltb_spec (IZR np) 1); lra. }
    rewrite M.
    assert (Ex : sx = rsum n (fun i => (fst (xye i) - px i) ^ 2)) by (rewrite H2; apply rsum_ext; intros; unfold px; ring).
    assert (Ey : sy = rsum n (fun i => (snd (xye i) - py i) ^ 2)) by (rewrite H3; apply rsum_ext; intros; unfold py; ring).
    assert (Pn : 0 < IZR np) by (apply IZR_lt; lia).
    assert (Zx : 0 <= sx). { rewrite Ex. rewrite <- (rsum_zero n (fun _ => 0)) by easy. apply rsum_le. intros; apply pow2_ge_0. }
    assert (Zy : 0 <= sy). { rewrite Ey. rewrite <- (rsum_zero n (fun _ => 0)) by easy. apply rsum_le. intros; apply pow2_ge_0. }
    split; [rewrite Ex; reflexivity|]. split; [rewrite Ey; reflexivity|].
    rewrite !sqrt_sqrt by (apply Rmult_le_pos; [lra|left; apply Rinv_0_lt_compat; lra]).
    f_equal. transitivity ((sx + sy) / IZR np); [field; lra|]. f_equal. rewrite Ex, Ey, <- rsum_plus. unfold sumsq.
    apply rsum_ext. intros. unfold px, py, palXy2xy. cbn [fst snd]. rn. ring.
  - intros Hnp. assert (N0 : n = 0%nat) by (unfold n; lia). rewrite N0 in H2, H3. cbn [rsum] in H2, H3. subst sx sy.
    assert (E : 0 / DMAX 1 (IZR np) = 0) by (unfold Rdiv; ring). rewrite E, sqrt_0.
    replace (0 * 0 + 0 * 0) with 0 by ring. rewrite sqrt_0. auto.
Qed.

(** ** C32  palPcd and palUnpcd *)
Theorem C32_palUnpcd_preimage : forall disco x y : R,
  let '(x1, y1) := palUnpcd disco x y in palPcd disco x1 y1 = (x, y).
Proof. exact pcd_unpcd. Qed.
(** wherever the radial law r -> r(1 + c r^2) is increasing (all r when c >= 0,
    r <= 1/sqrt(-3c) otherwise) *)
Theorem C32_palUnpcd_inverts : forall disco x y : R,
  (disco < 0 -> -3 * disco * (x * x + y * y) <= 1) ->
  let '(x1, y1) := palPcd disco x y in palUnpcd disco x1 y1 = (x, y).
Proof. exact unpcd_pcd. Qed.
Example C32_nonvacuous : (147069/1000 < 0 -> -3 * (147069/1000) * (1/100 * (1/100) + 0 * 0) <= 1) /\
  (- (1/3) < 0 -> -3 * - (1/3) * (1 * 1 + 0 * 0) <= 1).
Proof. split; intros; lra. Qed.

Print Assumptions C25_palInvf.
Print Assumptions C27_palFitxy.
Print Assumptions C30_palDmat.
Print Assumptions C28_status.
