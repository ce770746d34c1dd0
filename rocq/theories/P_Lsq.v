(** * Proofs: four-coefficient fits, palFitxy, palPxy, palPcd/palUnpcd. *)
From Coq Require Import Reals ZArith Lra Lia Psatz Bool Arith.
From Verif Require Import Num NumR Erfa Geom M_Sphere P_Sphere Loops M_Linear P_Dmat P_Linear.
Local Open Scope R_scope.

(** ** the four-coefficient models *)
(** nothing but the solution vector depends on the right-hand side *)
Lemma for_up_fst : forall X Y (f : nat -> X * Y -> X * Y) (g : nat -> X -> X) n (s : X * Y),
  (forall i s, fst (f i s) = g i (fst s)) -> fst (for_up n f s) = for_up n g (fst s).
Proof. intros X Y f g n s H. induction n; [reflexivity|]. rewrite !for_up_S, H, IHn. reflexivity. Qed.
Lemma dmat_elim_indep : forall T (AT : Arith T) n k yk yk' (a : nat -> nat -> T) y y',
  fst (dmat_elim n k yk a y) = fst (dmat_elim n k yk' a y').
Proof.
  intros. unfold dmat_elim.
  rewrite !(for_up_fst _ _ _ (fun i a => if Nat.eqb i k then a else
     for_up n (fun j a => if Nat.eqb j k then a else upd2 a i j (sub (a i j) (mul (a i k) (a k j)))) a)); try reflexivity.
  - intros i [s t]. cbn [fst]. destruct (Nat.eqb i k); reflexivity.
  - intros i [s t]. cbn [fst]. destruct (Nat.eqb i k); reflexivity.
Qed.
Definition core {T} (s : dmat T) := (dm_a s, dm_d s, dm_jf s, dm_iw s).
Lemma step_indep : forall T (AT : Arith T) n k (s s' : dmat T), core s = core s' -> core (dmat_step n k s) = core (dmat_step n k s').
Proof.
  intros T AT n k [a y d jf iw] [a' y' d' jf' iw'] H. unfold core in H. cbn in H. injection H as <- <- <- <-.
  unfold dmat_step. cbn [dm_a dm_y dm_d dm_jf dm_iw]. destruct (dmat_pivot n k a) as [amx imx].
  destruct (ltb amx SFA); [reflexivity|]. destruct (Nat.eqb imx k); cbv beta iota zeta.
  - destruct (ltb (fabs _) SFA); [reflexivity|].
    match goal with |- ?L = ?R => match L with context [dmat_elim n k ?yk ?A (upd ?z k ?q)] =>
      match R with context [dmat_elim n k ?yk' A (upd ?z' k ?q')] =>
      assert (E := dmat_elim_indep T AT n k yk yk' A (upd z k q) (upd z' k q'));
      destruct (dmat_elim n k yk A (upd z k q)); destruct (dmat_elim n k yk' A (upd z' k q')) end end end.
    cbn [fst] in E. subst. reflexivity.
  - destruct (ltb (fabs _) SFA); [reflexivity|].
    match goal with |- ?L = ?R => match L with context [dmat_elim n k ?yk ?A (upd ?z k ?q)] =>
      match R with context [dmat_elim n k ?yk' A (upd ?z' k ?q')] =>
      assert (E := dmat_elim_indep T AT n k yk yk' A (upd z k q) (upd z' k q'));
      destruct (dmat_elim n k yk A (upd z k q)); destruct (dmat_elim n k yk' A (upd z' k q')) end end end.
    cbn [fst] in E. subst. reflexivity.
Qed.
Lemma dmat_jf_indep : forall T (AT : Arith T) n (a : nat -> nat -> T) y y' iw,
  dm_jf (palDmat n a y iw) = dm_jf (palDmat n a y' iw).
Proof.
  intros. unfold palDmat.
  assert (E : forall m, core (for_up m (dmat_step n) (Dm a y (lit 1) 0%Z iw)) = core (for_up m (dmat_step n) (Dm a y' (lit 1) 0%Z iw))).
  { induction m; [reflexivity|]. rewrite !for_up_S. now apply step_indep. }
  specialize (E n). unfold core in E.
  match type of E with (_, _, dm_jf ?s, _) = (_, _, dm_jf ?s', _) =>
    change (dm_jf (if negb (Z.eqb (dm_jf s) 0) then Dm (dm_a s) (dm_y s) (lit 0) (dm_jf s) (dm_iw s)
      else Dm (for_down n (fun k a => let ki := dm_iw s k in if Nat.eqb k ki then a else dmat_swap_cols n k ki a) (dm_a s)) (dm_y s) (dm_d s) (dm_jf s) (dm_iw s)) =
      dm_jf (if negb (Z.eqb (dm_jf s') 0) then Dm (dm_a s') (dm_y s') (lit 0) (dm_jf s') (dm_iw s')
      else Dm (for_down n (fun k a => let ki := dm_iw s' k in if Nat.eqb k ki then a else dmat_swap_cols n k ki a) (dm_a s')) (dm_y s') (dm_d s') (dm_jf s') (dm_iw s')));
    destruct s, s' end.
  cbn in E |- *. injection E as _ _ -> _. destruct (negb _); reflexivity.
Qed.

Definition obj4 (n : nat) (sg : R) (xye xym : nat -> R * R) (a b c d : R) : R :=
  rsum n (fun i => (a + b * fst (xym i) - c * snd (xym i) - fst (xye i) * sg) * (a + b * fst (xym i) - c * snd (xym i) - fst (xye i) * sg)
                 + (d + c * fst (xym i) + b * snd (xym i) - snd (xye i)) * (d + c * fst (xym i) + b * snd (xym i) - snd (xye i))).

Lemma fsum3_rsum : forall n (g h : nat -> R), for_up n (fun i s => s + g i - h i) 0 = rsum n (fun i => g i - h i).
Proof. intros. induction n; [reflexivity|]. rewrite for_up_S, IHn. cbn [rsum]. ring. Qed.

Local Opaque palDmat.
Lemma fitxy4_pass_ok : forall np sg xye xym iw0 v s j, (0 <= np)%Z ->
  fitxy4_pass np sg xye xym iw0 = (v, s, j) ->
  (j <> 0%Z -> s = -1) /\
  (j = 0%Z -> s = obj4 (Z.to_nat np) sg xye xym (v 0%nat) (v 1%nat) (v 2%nat) (v 3%nat) /\
   (forall a b c d, s <= obj4 (Z.to_nat np) sg xye xym a b c d) /\
   (* the measured points do not all coincide *)
   ~ (exists p q, forall i, (i < Z.to_nat np)%nat -> xym i = (p, q))).
Proof.
  intros np sg xye xym iw0 v s j Hnp H. unfold fitxy4_pass in H.
  rewrite !fsum_rsum, !fsum2_rsum in H. rn. rewrite fsum3_rsum in H.
  set (n := Z.to_nat np) in *.
  assert (Hp : IZR np = rsum n (fun _ => 1)).
  { rewrite rsum_one. unfold n. rewrite INR_IZR_INZ, Z2Nat.id by lia. easy. }
  set (sxe := rsum n (fun i => fst (xye i) * sg)) in *.
  set (sxxyy := rsum n (fun i => fst (xye i) * sg * fst (xym i) + snd (xye i) * snd (xym i))) in *.
  set (sxyyx := rsum n (fun i => fst (xye i) * sg * snd (xym i) - snd (xye i) * fst (xym i))) in *.
  set (sye := rsum n (fun i => snd (xye i))) in *.
  set (sxm := rsum n (fun i => fst (xym i))) in *.
  set (sym := rsum n (fun i => snd (xym i))) in *.
  set (sx2y2 := rsum n (fun i => fst (xym i) * fst (xym i) + snd (xym i) * snd (xym i))) in *.
  set (A := rows4 _ _ _ _) in H. set (y := of4 sxe sxxyy sxyyx sye) in H.
  assert (DC := dmat_correct 4 A y iw0). cbv zeta in DC. destruct DC as [_ DC].
  set (r := palDmat 4 A y iw0) in *. clearbody r.
  injection H as <- Hs <-.
  split.
  - intros J. apply Z.eqb_neq in J. rewrite J in Hs. lra.
  - intros J. rewrite J in Hs. cbn [Z.eqb] in Hs. destruct (DC J) as (Inv & Sol & _).
    assert (X0 := Sol 0%nat ltac:(lia)). assert (X1 := Sol 1%nat ltac:(lia)).
    assert (X2 := Sol 2%nat ltac:(lia)). assert (X3 := Sol 3%nat ltac:(lia)).
    unfold mvec in X0, X1, X2, X3. cbn [rsum A y rows4 of4] in X0, X1, X2, X3.
    split; [symmetry; exact Hs|].
    set (a := dm_y r 0%nat) in *. set (b := dm_y r 1%nat) in *. set (c := dm_y r 2%nat) in *. set (d := dm_y r 3%nat) in *.
    set (rx := fun i => a + b * fst (xym i) - c * snd (xym i) - fst (xye i) * sg).
    set (ry := fun i => d + c * fst (xym i) + b * snd (xym i) - snd (xye i)).
    split.
    + intros a' b' c' d'. rewrite <- Hs. unfold obj4.
      apply Rle_trans with (rsum n (fun i =>
        (rx i - ((a - a') + (b - b') * fst (xym i) - (c - c') * snd (xym i))) *
        (rx i - ((a - a') + (b - b') * fst (xym i) - (c - c') * snd (xym i))) +
        (ry i - ((d - d') + (c - c') * fst (xym i) + (b - b') * snd (xym i))) *
        (ry i - ((d - d') + (c - c') * fst (xym i) + (b - b') * snd (xym i))))).
      * apply (lsq_min2 n rx _ ry _). rewrite <- rsum_plus.
        transitivity ((a - a') * (IZR np * a + sxm * b - sym * c - sxe) + (d - d') * (sym * b + sxm * c + IZR np * d - sye)
          + (b - b') * (sxm * a + sx2y2 * b + sym * d - sxxyy) + (c - c') * - (sym * a - sx2y2 * c - sxm * d - sxyyx)).
        -- rewrite Hp. unfold sxe, sxxyy, sxyyx, sye, sxm, sym, sx2y2, Rminus.
           repeat match goal with |- context [rsum n ?f * ?z] =>
             lazymatch z with rsum _ _ => fail | _ => rewrite (Rmult_comm (rsum n f) z) end end.
           rewrite ?Ropp_plus_distr, ?Rmult_plus_distr_l, ?Ropp_involutive, ?Ropp_mult_distr_l.
           repeat match goal with |- context [- rsum n ?f] => replace (- rsum n f) with ((-1) * rsum n f) by ring end.
           rewrite <- ?rsum_scal, <- ?rsum_plus. apply rsum_ext. intros i Hi. unfold rx, ry. ring.
        -- rewrite <- X0, <- X1, <- X2, <- X3. ring.
      * right. apply rsum_ext. intros i Hi. unfold rx, ry. ring.
    + intros (p & q & Hpq).
      assert (Ez : forall i, (i < 4)%nat -> of4 (- p) 1 0 (- q) i = mvec 4 (dm_a r) (fun _ => 0) i).
      { apply Inv. intros i Hi. 
        assert (E1 : sxm = IZR np * p).
        { rewrite Hp. unfold sxm. rewrite Rmult_comm, <- rsum_scal. apply rsum_ext. intros k Hk. rewrite Hpq by easy. cbn. ring. }
        assert (E2 : sym = IZR np * q).
        { rewrite Hp. unfold sym. rewrite Rmult_comm, <- rsum_scal. apply rsum_ext. intros k Hk. rewrite Hpq by easy. cbn. ring. }
        assert (E3 : sx2y2 = IZR np * (p * p + q * q)).
        { rewrite Hp. unfold sx2y2. rewrite Rmult_comm, <- rsum_scal. apply rsum_ext. intros k Hk. rewrite Hpq by easy. cbn. ring. }
        unfold mvec, A. rewrite E1, E2, E3. destruct i as [|[|[|[|]]]]; try lia; cbn [rsum rows4 of4]; ring. }
      specialize (Ez 1%nat ltac:(lia)). unfold mvec in Ez. cbn [rsum of4] in Ez. lra.
Qed.

(** the two families of four-coefficient models: a similarity, or a similarity
    followed by a reflection of x *)
Definition type4 (co : co6 R) : Prop :=
  (cB co = cF co /\ cC co = - cE co) \/ (cB co = - cF co /\ cC co = cE co).
Lemma obj4_plus : forall n xye xym a b c d,
  obj4 n 1 xye xym a b c d = sumsq n xye xym (C6 a b (- c) d c b).
Proof. intros. unfold obj4, sumsq. apply rsum_ext. intros i Hi. cbn. ring. Qed.
Lemma obj4_minus : forall n xye xym a b c d,
  obj4 n (-1) xye xym a b c d = sumsq n xye xym (C6 (- a) (- b) c d c b).
Proof. intros. unfold obj4, sumsq. apply rsum_ext. intros i Hi. cbn. ring. Qed.
Lemma sumsq_nonneg : forall n xye xym co, 0 <= sumsq n xye xym co.
Proof.
  intros. unfold sumsq. apply Rle_trans with (rsum n (fun _ => 0)); [rewrite rsum_zero by easy; lra|].
  apply rsum_le. intros i _. cbv zeta.
  match goal with |- 0 <= ?x * ?x + ?y * ?y => assert (0 <= x * x) by apply Rle_0_sqr; assert (0 <= y * y) by apply Rle_0_sqr; lra end.
Qed.
Lemma pass_min_type4 : forall n xye xym s0 s1,
  (forall a b c d, s0 <= obj4 n 1 xye xym a b c d) -> (forall a b c d, s1 <= obj4 n (-1) xye xym a b c d) ->
  forall co, type4 co -> s0 <= sumsq n xye xym co \/ s1 <= sumsq n xye xym co.
Proof.
  intros n xye xym s0 s1 H0 H1 [a b c d e f] [[E1 E2]|[E1 E2]]; cbn [cA cB cC cD cE cF] in *.
  - left. specialize (H0 a f e d). rewrite obj4_plus in H0. rewrite E1, E2. exact H0.
  - right. specialize (H1 (- a) f c d). rewrite obj4_minus in H1. rewrite <- E2, E1. rewrite Ropp_involutive in H1. exact H1.
Qed.
(** two distinct points are fitted exactly *)
Lemma two_points_exact : forall xye xym s, ~ (exists p q, forall i, (i < 2)%nat -> xym i = (p, q)) ->
  (forall a b c d, s <= obj4 2 1 xye xym a b c d) -> s <= 0.
Proof.
  intros xye xym s Hd H.
  destruct (xym 0%nat) as [x0 y0] eqn:E0. destruct (xym 1%nat) as [x1 y1] eqn:E1.
  destruct (xye 0%nat) as [u0 v0] eqn:F0. destruct (xye 1%nat) as [u1 v1] eqn:F1.
  set (L := (x1 - x0) * (x1 - x0) + (y1 - y0) * (y1 - y0)).
  assert (HL : L <> 0).
  { intros HL. apply Hd. exists x0, y0. unfold L in HL.
    assert (x1 - x0 = 0 /\ y1 - y0 = 0) as [? ?] by (apply Rplus_sqr_eq_0; unfold Rsqr; exact HL).
    intros [|[|i]] Hi; try lia; [easy|]. rewrite E1. f_equal; lra. }
  set (b := ((u1 - u0) * (x1 - x0) + (v1 - v0) * (y1 - y0)) / L).
  set (c := ((v1 - v0) * (x1 - x0) - (u1 - u0) * (y1 - y0)) / L).
  specialize (H (u0 - b * x0 + c * y0) b c (v0 - c * x0 - b * y0)).
  unfold obj4 in H. cbn [rsum] in H. rewrite E0, E1, F0, F1 in H. cbn [fst snd] in H.
  replace (0 + _ + _) with 0 in H; [exact H|].
  assert (B1 : b * (x1 - x0) - c * (y1 - y0) = u1 - u0).
  { unfold b, c. transitivity ((u1 - u0) * (L / L)); [|field; exact HL]. unfold L at 3. field. exact HL. }
  assert (B2 : c * (x1 - x0) + b * (y1 - y0) = v1 - v0).
  { unfold b, c. transitivity ((v1 - v0) * (L / L)); [|field; exact HL]. unfold L at 3. field. exact HL. }
  assert (P1 : u0 - b * x0 + c * y0 + b * x1 - c * y1 - u1 * 1 = 0) by lra.
  assert (P2 : v0 - c * x0 - b * y0 + c * x1 + b * y1 - v1 = 0) by lra.
  rewrite P1, P2. ring.
Qed.

Lemma pass_jf : forall T (AT : Arith T) np s s' xye xym iw0,
  snd (fitxy4_pass np s xye xym iw0) = snd (fitxy4_pass np s' xye xym iw0).
Proof. intros. unfold fitxy4_pass. cbn [snd]. apply dmat_jf_indep. Qed.

Lemma fitxy4_min : forall np xye xym co0 iw0 co, fitxy4 np xye xym co0 iw0 = (co, 0%Z) ->
  (2 <= np)%Z /\
  ((type4 co /\ (exists i j, (i < Z.to_nat np)%nat /\ (j < Z.to_nat np)%nat /\ xym i <> xym j) /\
    forall co', type4 co' -> sumsq (Z.to_nat np) xye xym co <= sumsq (Z.to_nat np) xye xym co') \/
   (np = 2%Z /\ co = C6 0 0 0 0 0 0)).
Proof.
  intros np xye xym co0 iw0 co H. unfold fitxy4 in H.
  destruct (Z.leb_spec 2 np) as [Hnp|Hnp]; [|discriminate]. split; [easy|].
  assert (PJ := pass_jf R RA np (lit 1) (opp (lit 1)) xye xym iw0).
  destruct (fitxy4_pass np (lit 1) xye xym iw0) as [[v0 s0] j0] eqn:P0.
  destruct (fitxy4_pass np (opp (lit 1)) xye xym iw0) as [[v1 s1] j1] eqn:P1.
  cbn [snd] in PJ. subst j1. rn. assert (Np0 : (0 <= np)%Z) by lia.
  destruct (fitxy4_pass_ok _ _ _ _ _ _ _ _ Np0 P0) as [N0 O0].
  destruct (fitxy4_pass_ok _ _ _ _ _ _ _ _ Np0 P1) as [N1 O1].
  destruct (Z.eqb_spec j0 0) as [J|J].
  - left. destruct (O0 J) as (S0 & M0 & D0). destruct (O1 J) as (S1 & M1 & _).
    rewrite obj4_plus in S0. rewrite obj4_minus in S1.
    assert (Z0 : 0 <= s0) by (rewrite S0; apply sumsq_nonneg).
    assert (Z1 : 0 <= s1) by (rewrite S1; apply sumsq_nonneg).
    assert (MT := pass_min_type4 _ _ _ _ _ M0 M1).
    assert (DD : exists i j, (i < Z.to_nat np)%nat /\ (j < Z.to_nat np)%nat /\ xym i <> xym j).
    { (* a finite search *)
      assert (Q : forall m, (forall i, (i < m)%nat -> xym i = xym 0%nat) \/ exists i, (i < m)%nat /\ xym i <> xym 0%nat).
      { induction m as [|m [IH|(i & Hi & IH)]].
        - left. intros; lia.
        - destruct (Req_EM_T (fst (xym m)) (fst (xym 0%nat))) as [E1|E1];
          [destruct (Req_EM_T (snd (xym m)) (snd (xym 0%nat))) as [E2|E2]|].
          + left. intros i Hi. destruct (Nat.eq_dec i m) as [->|]; [|apply IH; lia].
            destruct (xym m), (xym 0%nat). cbn in *. now subst.
          + right. exists m. split; [lia|]. congruence.
          + right. exists m. split; [lia|]. congruence.
        - right. exists i. split; [lia|easy]. }
      destruct (Q (Z.to_nat np)) as [A|(i & Hi & A)].
      - exfalso. apply D0. exists (fst (xym 0%nat)), (snd (xym 0%nat)). intros i Hi. rewrite A by easy. apply surjective_pairing.
      - exists i, 0%nat. split; [easy|]. split; [lia|easy]. }
    rewrite (Rleb_true 0 s0 Z0) in H. cbn [andb] in H.
    destruct (Rleb_spec s0 s1) as [L|L]; [|destruct (Z.eqb_spec np 2) as [E2|E2]]; cbn [orb] in H; apply (f_equal fst) in H; cbn [fst] in H; subst co.
    + split; [left; cbn; split; ring|]. split; [exact DD|]. intros co' Hc. rewrite <- S0. destruct (MT co' Hc); lra.
    + split; [left; cbn; split; ring|]. split; [exact DD|]. intros co' Hc. rewrite <- S0. subst np.
      apply Rle_trans with 0; [|apply sumsq_nonneg]. exact (two_points_exact xye xym s0 D0 M0).
    + split; [right; cbn; split; ring|]. split; [exact DD|]. intros co' Hc. rewrite <- S1. destruct (MT co' Hc); lra.
  - right. rewrite (N1 J) in H.
    assert (E0 : Rleb 0 0 = true) by (apply Rleb_true; lra). assert (E1 : Rleb 0 (-1) = false) by (apply Rleb_false; lra).
    rewrite E0, E1 in H. cbn [andb orb] in H. destruct (Z.eqb_spec np 2) as [E2|E2]; [|discriminate].
    split; [easy|]. injection H as <-. f_equal; ring.
Qed.

(** exactly singular configurations *)
Lemma fitxy6_singular : forall np xye xym co0 iw0 al be ga,
  (3 <= np)%Z -> (al <> 0 \/ be <> 0 \/ ga <> 0) ->
  (forall i, (i < Z.to_nat np)%nat -> al + be * fst (xym i) + ga * snd (xym i) = 0) ->
  fitxy6 np xye xym co0 iw0 = (co0, (-3)%Z).
Proof.
  intros np xye xym co0 iw0 al be ga Hnp Hn Hc. unfold fitxy6.
  destruct (Z.leb_spec 3 np); [|lia]. rewrite !fsum_rsum.
  assert (Hp : IZR np = rsum (Z.to_nat np) (fun _ => 1)).
  { rewrite rsum_one. rewrite INR_IZR_INZ, Z2Nat.id by lia. easy. }
  cbv zeta. set (A := rows3 _ _ _). set (y := of3 _ _ _).
  assert (DC := dmat_correct 3 A y iw0). cbv zeta in DC.
  set (r := palDmat 3 A y iw0) in *. clearbody r. destruct DC as [J DC].
  destruct (Z.eqb_spec (dm_jf r) 0) as [J0|J0]; [|reflexivity].
  exfalso. destruct (DC J0) as (Inv & _).
  assert (Ez : forall i, (i < 3)%nat -> of3 al be ga i = mvec 3 (dm_a r) (fun _ => 0) i).
  { apply Inv. intros i Hi. unfold mvec, A. cbn [rsum]. rn. rewrite Hp.
    assert (W : forall g, rsum (Z.to_nat np) (fun k => g k * (al + be * fst (xym k) + ga * snd (xym k))) = 0).
    { intros g. apply rsum_zero. intros k Hk. rewrite Hc by easy. ring. }
    destruct i as [|[|[|]]]; try lia; cbn [rows3 of3].
    - symmetry; etransitivity; [symmetry; apply (W (fun _ => 1))|]. symmetry.
      rewrite Rplus_0_l, !(Rmult_comm (rsum _ _)), <- !rsum_scal, <- !rsum_plus. apply rsum_ext. intros. ring.
    - symmetry; etransitivity; [symmetry; apply (W (fun k => fst (xym k)))|]. symmetry.
      rewrite Rplus_0_l, !(Rmult_comm (rsum _ _)), <- !rsum_scal, <- !rsum_plus. apply rsum_ext. intros. ring.
    - symmetry; etransitivity; [symmetry; apply (W (fun k => snd (xym k)))|]. symmetry.
      rewrite Rplus_0_l, !(Rmult_comm (rsum _ _)), <- !rsum_scal, <- !rsum_plus. apply rsum_ext. intros. ring. }
  assert (E0 := Ez 0%nat ltac:(lia)). assert (E1 := Ez 1%nat ltac:(lia)). assert (E2 := Ez 2%nat ltac:(lia)).
  unfold mvec in E0, E1, E2. cbn [rsum of3] in E0, E1, E2. lra.
Qed.
Lemma fitxy4_singular : forall np xye xym co0 iw0 p q, (3 <= np)%Z ->
  (forall i, (i < Z.to_nat np)%nat -> xym i = (p, q)) ->
  fitxy4 np xye xym co0 iw0 = (co0, (-3)%Z).
Proof.
  intros np xye xym co0 iw0 p q Hnp Hc. unfold fitxy4.
  destruct (Z.leb_spec 2 np); [|lia].
  assert (PJ := pass_jf R RA np (lit 1) (opp (lit 1)) xye xym iw0).
  destruct (fitxy4_pass np (lit 1) xye xym iw0) as [[v0 s0] j0] eqn:P0.
  destruct (fitxy4_pass np (opp (lit 1)) xye xym iw0) as [[v1 s1] j1] eqn:P1.
  cbn [snd] in PJ. subst j1. rn. assert (Np0 : (0 <= np)%Z) by lia.
  destruct (fitxy4_pass_ok _ _ _ _ _ _ _ _ Np0 P0) as [N0 O0].
  destruct (fitxy4_pass_ok _ _ _ _ _ _ _ _ Np0 P1) as [N1 _].
  destruct (Z.eqb_spec j0 0) as [J|J].
  { exfalso. destruct (O0 J) as (_ & _ & D). apply D. now exists p, q. }
  rewrite (N1 J).
  rewrite (Rleb_true 0 0) by lra. rewrite (Rleb_false 0 (-1)) by lra. cbn [andb orb].
  destruct (Z.eqb_spec np 2); [lia|reflexivity].
Qed.
