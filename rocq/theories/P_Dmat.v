(** * Proof: palDmat (in-place Gauss-Jordan with partial pivoting), any order n. *)
From Coq Require Import Reals ZArith Lra Lia Psatz Bool Arith.
From Verif Require Import Num NumR Loops M_Linear.
Local Open Scope R_scope.

(** ** Specification vocabulary *)
Fixpoint rsum (n : nat) (f : nat -> R) : R :=
  match n with O => 0 | S m => rsum m f + f m end.
(** (A x)_i *)
Definition mvec (n : nat) (A : nat -> nat -> R) (x : nat -> R) (i : nat) : R :=
  rsum n (fun j => A i j * x j).
Definition delta (i j : nat) : R := if Nat.eqb i j then 1 else 0.
Definition swapf {X} (a b : nat) (f : nat -> X) : nat -> X :=
  fun i => if Nat.eqb i a then f b else if Nat.eqb i b then f a else f i.
(** [D] is a determinant function on n x n matrices *)
Record is_det (n : nat) (D : (nat -> nat -> R) -> R) : Prop := {
  det_ext : forall A B, (forall i j, (i < n)%nat -> (j < n)%nat -> A i j = B i j) -> D A = D B;
  det_scale : forall A r c, (r < n)%nat ->
    D (fun i j => if Nat.eqb i r then c * A i j else A i j) = c * D A;
  det_add : forall A r s c, (r < n)%nat -> (s < n)%nat -> r <> s ->
    D (fun i j => if Nat.eqb i r then A i j + c * A s j else A i j) = D A;
  det_swap : forall A r s, (r < n)%nat -> (s < n)%nat -> r <> s -> D (swapf r s A) = - D A;
  det_id : D delta = 1 }.

(** ** sums *)
Lemma rsum_ext : forall n f g, (forall i, (i < n)%nat -> f i = g i) -> rsum n f = rsum n g.
Proof. induction n; intros; cbn; [easy|]. rewrite (IHn f g), H by (intros; auto); easy. Qed.
Lemma rsum_plus : forall n f g, rsum n (fun i => f i + g i) = rsum n f + rsum n g.
Proof. induction n; intros; cbn; [lra|]. rewrite IHn. lra. Qed.
Lemma rsum_scal : forall n c f, rsum n (fun i => c * f i) = c * rsum n f.
Proof. induction n; intros; cbn; [lra|]. rewrite IHn. lra. Qed.
Lemma rsum_zero : forall n f, (forall i, (i < n)%nat -> f i = 0) -> rsum n f = 0.
Proof. induction n; intros; cbn; [easy|]. rewrite IHn, H by (intros; auto). lra. Qed.
Lemma rsum_single : forall n k f, (k < n)%nat -> (forall i, (i < n)%nat -> i <> k -> f i = 0) -> rsum n f = f k.
Proof.
  induction n; intros k f Hk H; [lia|]. cbn. destruct (Nat.eq_dec k n) as [->|Hn].
  - rewrite rsum_zero; [lra|]. intros; apply H; lia.
  - rewrite (IHn k) by (intros; try apply H; lia). rewrite (H n) by lia. lra.
Qed.
Lemma rsum_le : forall n f g, (forall i, (i < n)%nat -> f i <= g i) -> rsum n f <= rsum n g.
Proof. induction n; intros; cbn; [lra|]. assert (f n <= g n) by auto. assert (rsum n f <= rsum n g) by auto. lra. Qed.
Lemma rsum_swap : forall n (f : nat -> nat -> R) m, rsum n (fun i => rsum m (f i)) = rsum m (fun j => rsum n (fun i => f i j)).
Proof.
  induction n; intros; cbn; [symmetry; apply rsum_zero; easy|]. rewrite IHn, <- rsum_plus. easy.
Qed.
Lemma mvec_delta : forall n x i, (i < n)%nat -> mvec n delta x i = x i.
Proof.
  intros. unfold mvec. rewrite (rsum_single n i); [unfold delta; rewrite Nat.eqb_refl; lra|easy|].
  intros j Hj Hn. unfold delta. destruct (Nat.eqb_spec i j); [subst; easy|lra].
Qed.

(** ** closed forms of the inner loops *)
Definition dm_closed_swap n k m (a : nat -> nat -> R) i j :=
  if Nat.ltb j n then swapf k m (fun r => a r j) i else a i j.
Ltac nb := repeat match goal with
  | |- context [Nat.eqb ?a ?b] => destruct (Nat.eqb_spec a b); try subst; try lia; cbn [andb orb]
  | |- context [Nat.ltb ?a ?b] => destruct (Nat.ltb_spec a b); try lia; cbn [andb orb]
  end.
Lemma dmat_swap_rows_eq : forall n k m (a : nat -> nat -> R), k <> m ->
  forall i j, dmat_swap_rows n k m a i j = dm_closed_swap n k m a i j.
Proof.
  intros n k m a Hkm. unfold dmat_swap_rows.
  apply (for_up_ind _ (fun p s => forall i j, s i j = dm_closed_swap p k m a i j)).
  - intros i j. unfold dm_closed_swap. now destruct (Nat.ltb_spec j 0); [lia|].
  - intros p s Hp IH i j. unfold upd2. rewrite !IH. unfold dm_closed_swap, swapf.
    nb; reflexivity.
Qed.
Lemma dmat_scale_row_eq : forall n k (a : nat -> nat -> R) i j,
  dmat_scale_row n k a i j =
  if (Nat.eqb i k && Nat.ltb j n && negb (Nat.eqb j k))%bool then a k j * a k k else a i j.
Proof.
  intros n k a. unfold dmat_scale_row.
  apply (for_up_ind _ (fun p s => forall i j, s i j =
    if (Nat.eqb i k && Nat.ltb j p && negb (Nat.eqb j k))%bool then a k j * a k k else a i j)).
  - intros i j. destruct (Nat.ltb_spec j 0); [lia|]. now rewrite andb_false_r.
  - intros p s Hp IH i j. destruct (Nat.eqb_spec p k) as [E|E].
    + rewrite IH. subst. nb; reflexivity.
    + unfold upd2. rewrite !IH. rn. nb; reflexivity.
Qed.
Lemma dmat_elim_eq : forall n k yk (a : nat -> nat -> R) (y : nat -> R),
  (k < n)%nat ->
  let r := dmat_elim n k yk a y in
  (forall i j, fst r i j =
    if (Nat.ltb i n && negb (Nat.eqb i k) && Nat.ltb j n && negb (Nat.eqb j k))%bool
    then a i j - a i k * a k j else a i j) /\
  (forall i, snd r i = if (Nat.ltb i n && negb (Nat.eqb i k))%bool then y i - a i k * yk else y i).
Proof.
  intros n k yk a y Hk. cbv zeta. unfold dmat_elim.
  apply (for_up_ind _ (fun p s =>
    (forall i j, fst s i j =
      if (Nat.ltb i p && negb (Nat.eqb i k) && Nat.ltb j n && negb (Nat.eqb j k))%bool
      then a i j - a i k * a k j else a i j) /\
    (forall i, snd s i = if (Nat.ltb i p && negb (Nat.eqb i k))%bool then y i - a i k * yk else y i))).
  - cbn [fst snd]. split; intros; destruct (Nat.ltb_spec i 0); try lia; reflexivity.
  - intros p [s t] Hp [IH IHt]. cbn [fst snd] in *. destruct (Nat.eqb_spec p k) as [E|E].
    + cbn [fst snd]. subst p. split; intros.
      * rewrite IH. nb; reflexivity.
      * rewrite IHt. nb; reflexivity.
    + set (s' := for_up n _ s). cbn [fst snd].
      assert (Hs : forall i j, s' i j =
        if (Nat.eqb i p && Nat.ltb j n && negb (Nat.eqb j k))%bool then a p j - a p k * a k j else s i j).
      { unfold s'. apply (for_up_ind _ (fun q s' => forall i j, s' i j =
          if (Nat.eqb i p && Nat.ltb j q && negb (Nat.eqb j k))%bool then a p j - a p k * a k j else s i j)).
        - intros i j. destruct (Nat.ltb_spec j 0); [lia|]. now rewrite andb_false_r.
        - intros q s1 Hq IH1 i j. destruct (Nat.eqb_spec q k) as [F|F].
          + rewrite IH1. subst. nb; reflexivity.
          + unfold upd2. rewrite !IH1. rn.
            assert (Hpq : s p q = a p q). { rewrite IH. nb; reflexivity. }
            assert (Hpk : s p k = a p k). { rewrite IH. nb; reflexivity. }
            assert (Hkq : s k q = a k q). { rewrite IH. nb; reflexivity. }
            nb; try reflexivity; rewrite ?Hpq, ?Hpk, ?Hkq; reflexivity. }
      split; intros.
      * rewrite Hs, IH. nb; reflexivity.
      * assert (Hpk : s' p k = a p k). { rewrite Hs, IH. nb; reflexivity. }
        unfold upd. rewrite Hpk, !IHt. rn. nb; reflexivity.
Qed.
Lemma dmat_col_eq : forall n k (a : nat -> nat -> R) i j,
  dmat_col n k a i j =
  if (Nat.ltb i n && negb (Nat.eqb i k) && Nat.eqb j k)%bool then a i k * - a k k else a i j.
Proof.
  intros n k a. unfold dmat_col.
  apply (for_up_ind _ (fun p s => forall i j, s i j =
    if (Nat.ltb i p && negb (Nat.eqb i k) && Nat.eqb j k)%bool then a i k * - a k k else a i j)).
  - intros i j. destruct (Nat.ltb_spec i 0); [lia|]. reflexivity.
  - intros p s Hp IH i j. destruct (Nat.eqb_spec p k) as [E|E].
    + rewrite IH. subst. nb; reflexivity.
    + unfold upd2. rewrite !IH. rn. nb; reflexivity.
Qed.
Lemma dmat_swap_cols_eq : forall n k m (a : nat -> nat -> R) i j, k <> m -> (i < n)%nat ->
  dmat_swap_cols n k m a i j = swapf k m (a i) j.
Proof.
  intros n k m a i0 j0 Hkm Hi0. unfold dmat_swap_cols.
  enough (H : forall i j, for_up n (fun i a => let t := a i k in upd2 (upd2 a i k (a i m)) i m t) a i j =
    if Nat.ltb i n then swapf k m (a i) j else a i j).
  { rewrite H. now destruct (Nat.ltb_spec i0 n); [|lia]. }
  apply (for_up_ind _ (fun p s => forall i j, s i j = if Nat.ltb i p then swapf k m (a i) j else a i j)).
  - intros i j. now destruct (Nat.ltb_spec i 0); [lia|].
  - intros p s Hp IH i j. unfold upd2. rewrite !IH. unfold swapf. nb; reflexivity.
Qed.
Lemma dmat_pivot_eq : forall n k (a : nat -> nat -> R), (k < n)%nat ->
  let r := dmat_pivot n k a in
  (k <= snd r < n)%nat /\ fst r = Rabs (a (snd r) k) /\
  (forall i, (k <= i < n)%nat -> Rabs (a i k) <= fst r).
Proof.
  intros n k a Hk. cbv zeta. unfold dmat_pivot.
  assert (H := for_from_ind _ (fun p (r : R * nat) => (k <= snd r < p)%nat /\ fst r = Rabs (a (snd r) k) /\
    (forall i, (k <= i < p)%nat -> Rabs (a i k) <= fst r)) (k + 1) (n - (k + 1))
    (fun i '(amx, imx) => let t := fabs (a i k) in if ltb amx t then (t, i) else (amx, imx)) (fabs (a k k), k)).
  replace (k + 1 + (n - (k + 1)))%nat with n in H by lia. apply H; clear H.
  - cbn [fst snd]. rn. split; [lia|]. split; [easy|]. intros. replace i with k by lia. lra.
  - intros i [amx imx] Hi (H1 & H2 & H3). cbn [fst snd] in *. rn.
    destruct (Rltb_spec amx (Rabs (a i k))) as [L|L]; cbn [fst snd].
    + split; [lia|]. split; [easy|]. intros j Hj. destruct (Nat.eq_dec j i) as [->|]; [lra|].
      assert (Rabs (a j k) <= amx) by (apply H3; lia). lra.
    + split; [lia|]. split; [easy|]. intros j Hj. destruct (Nat.eq_dec j i) as [->|]; [lra|]. apply H3; lia.
Qed.

(** ** Gauss-Jordan invariant *)
Fixpoint prm {X} (k : nat) (iw : nat -> nat) (f : nat -> X) : nat -> X :=
  match k with O => f | S k' => swapf k' (iw k') (prm k' iw f) end.
Lemma prm_ext : forall X k iw iw' (f : nat -> X), (forall j, (j < k)%nat -> iw j = iw' j) ->
  forall i, prm k iw f i = prm k iw' f i.
Proof.
  induction k; intros iw iw' f H i; cbn [prm]; [easy|]. unfold swapf.
  rewrite (H k) by lia. rewrite !(IHk iw iw') by (intros; apply H; lia). easy.
Qed.
(** the full matrix represented by the in-place store after k columns *)
Definition full (k : nat) (C : nat -> nat -> R) (i j : nat) : R := if Nat.ltb j k then delta i j else C i j.
(** and the accumulated right-hand side operator *)
Definition rhs (k : nat) (C : nat -> nat -> R) (i j : nat) : R := if Nat.ltb j k then C i j else delta i j.

Lemma mvec_ext : forall n A B x i, (i < n)%nat -> (forall j, (j < n)%nat -> A i j = B i j) -> mvec n A x i = mvec n B x i.
Proof. intros. unfold mvec. apply rsum_ext. intros. now rewrite H0. Qed.
Lemma mvec_lin : forall n A B x i r c, mvec n (fun i j => A i j + c * B r j) x i = mvec n A x i + c * mvec n B x r.
Proof.
  intros. unfold mvec. rewrite <- rsum_scal, <- rsum_plus. apply rsum_ext. intros. ring.
Qed.

(** closed form of one elimination on the store *)
Definition exch (n k : nat) (C : nat -> nat -> R) (i j : nat) : R :=
  let p := C k k in
  if Nat.eqb i k then (if Nat.eqb j k then 1 / p else C k j * (1 / p))
  else if Nat.eqb j k then C i k * - (1 / p) else C i j - C i k * (C k j * (1 / p)).

Lemma exch_full : forall n k C i j, (k < n)%nat -> (i < n)%nat -> (j < n)%nat -> C k k <> 0 ->
  full (S k) (exch n k C) i j =
  if Nat.eqb i k then (1 / C k k) * full k C k j else full k C i j + (- (C i k) / C k k) * full k C k j.
Proof.
  intros n k C i j Hk Hi Hj Hp. unfold full, exch, delta. nb; try (field; easy); try ring.
Qed.
Lemma exch_rhs : forall n k C i j, (k < n)%nat -> (i < n)%nat -> (j < n)%nat -> C k k <> 0 ->
  rhs (S k) (exch n k C) i j =
  if Nat.eqb i k then (1 / C k k) * rhs k C k j else rhs k C i j + (- (C i k) / C k k) * rhs k C k j.
Proof.
  intros n k C i j Hk Hi Hj Hp. unfold rhs, exch, delta. nb; try (field; easy); try ring.
Qed.

(** [B], [z]: the problem after the row exchanges so far; [C], [y], [d]: the store *)
Record Inv (n : nat) (A B : nat -> nat -> R) (z : nat -> R) (k : nat)
    (C : nat -> nat -> R) (y : nat -> R) (d : R) : Prop := {
  inv_eq : forall x b,
    (forall i, (i < n)%nat -> mvec n B x i = b i) <->
    (forall i, (i < n)%nat -> mvec n (full k C) x i = mvec n (rhs k C) b i);
  inv_y : forall i, (i < n)%nat -> y i = mvec n (rhs k C) z i;
  inv_det : forall D, is_det n D -> D A = d * D (full k C);
  inv_d : d <> 0 }.

Lemma inv_init : forall n A y, Inv n A A y 0 A y 1.
Proof.
  intros. split.
  - intros x b. split; intros H i Hi.
    + change (mvec n (rhs 0 A) b i) with (mvec n delta b i). rewrite mvec_delta by easy. apply H; easy.
    + specialize (H i Hi). change (mvec n (rhs 0 A) b i) with (mvec n delta b i) in H.
      rewrite mvec_delta in H by easy. exact H.
  - intros i Hi. change (mvec n (rhs 0 A) y i) with (mvec n delta y i). now rewrite mvec_delta.
  - intros D HD. change (full 0 A) with A. lra.
  - lra.
Qed.

(** row operations preserve the determinant *)
Lemma det_eliminate : forall n D, is_det n D -> forall k (c : nat -> R) A, (k < n)%nat ->
  D (fun i j => if Nat.eqb i k then A i j else A i j + c i * A k j) = D A.
Proof.
  intros n D HD k c A Hk.
  enough (H : forall m, (m <= n)%nat ->
    D (fun i j => if (Nat.eqb i k || negb (Nat.ltb i m))%bool then A i j else A i j + c i * A k j) = D A).
  { rewrite <- (H n) by lia. apply (det_ext _ _ HD). intros i j Hi Hj.
    destruct (Nat.ltb_spec i n); [|lia]. cbn. now rewrite orb_false_r. }
  induction m as [|m IH]; intros Hm.
  - apply (det_ext _ _ HD). intros i j _ _. destruct (Nat.ltb_spec i 0); [lia|]. cbn. now rewrite orb_true_r.
  - rewrite <- IH by lia.
    destruct (Nat.eq_dec m k) as [->|Hmk].
    + apply (det_ext _ _ HD). intros i j Hi Hj. nb; reflexivity.
    + rewrite <- (det_add _ _ HD (fun i j => if (Nat.eqb i k || negb (Nat.ltb i m))%bool then A i j else A i j + c i * A k j) m k (c m)) by lia.
      apply (det_ext _ _ HD). intros i j Hi Hj. nb; reflexivity.
Qed.

Lemma inv_exch : forall n A B z k C y d, (k < n)%nat -> Inv n A B z k C y d -> C k k <> 0 ->
  forall a' y',
  (forall i j, (i < n)%nat -> (j < n)%nat -> a' i j = exch n k C i j) ->
  (forall i, (i < n)%nat -> y' i = if Nat.eqb i k then y k * (1 / C k k)
                                   else y i - C i k * (y k * (1 / C k k))) ->
  Inv n A B z (S k) a' y' (d * C k k).
Proof.
  intros n A B z k C y d Hk [I2 I3 I4 I5] Hp a' y' Ha Hy.
  set (p := C k k) in *.
  assert (F : forall i j, (i < n)%nat -> (j < n)%nat -> full (S k) a' i j =
     if Nat.eqb i k then (1 / p) * full k C k j else full k C i j + (- (C i k) / p) * full k C k j).
  { intros i j Hi Hj. unfold p. rewrite <- (exch_full n k C i j) by easy. unfold full. rewrite Ha by easy. easy. }
  assert (G : forall i j, (i < n)%nat -> (j < n)%nat -> rhs (S k) a' i j =
     if Nat.eqb i k then (1 / p) * rhs k C k j else rhs k C i j + (- (C i k) / p) * rhs k C k j).
  { intros i j Hi Hj. unfold p. rewrite <- (exch_rhs n k C i j) by easy. unfold rhs. rewrite Ha by easy. easy. }
  assert (FM : forall x i, (i < n)%nat -> mvec n (full (S k) a') x i =
     if Nat.eqb i k then (1 / p) * mvec n (full k C) x k else mvec n (full k C) x i + (- (C i k) / p) * mvec n (full k C) x k).
  { intros x i Hi. destruct (Nat.eqb_spec i k) as [->|Hn].
    - unfold mvec. rewrite <- rsum_scal. apply rsum_ext. intros j Hj. rewrite F by easy. rewrite Nat.eqb_refl. ring.
    - rewrite <- mvec_lin. unfold mvec. apply rsum_ext. intros j Hj. rewrite F by easy. nb. reflexivity. }
  assert (GM : forall x i, (i < n)%nat -> mvec n (rhs (S k) a') x i =
     if Nat.eqb i k then (1 / p) * mvec n (rhs k C) x k else mvec n (rhs k C) x i + (- (C i k) / p) * mvec n (rhs k C) x k).
  { intros x i Hi. destruct (Nat.eqb_spec i k) as [->|Hn].
    - unfold mvec. rewrite <- rsum_scal. apply rsum_ext. intros j Hj. rewrite G by easy. rewrite Nat.eqb_refl. ring.
    - rewrite <- mvec_lin. unfold mvec. apply rsum_ext. intros j Hj. rewrite G by easy. nb. reflexivity. }
  split.
  - intros x b. rewrite (I2 x b). split; intros H.
    + intros i Hi. rewrite FM, GM by easy. rewrite (H i Hi), (H k Hk). easy.
    + assert (Ek : mvec n (full k C) x k = mvec n (rhs k C) b k).
      { specialize (H k Hk). rewrite FM, GM in H by easy. rewrite Nat.eqb_refl in H.
        apply (Rmult_eq_reg_l (1 / p)); [easy|]. unfold Rdiv. rewrite Rmult_1_l. now apply Rinv_neq_0_compat. }
      intros i Hi. specialize (H i Hi). rewrite FM, GM in H by easy.
      destruct (Nat.eqb_spec i k) as [E|E]; [rewrite E; exact Ek|]. rewrite Ek in H. lra.
  - intros i Hi. rewrite Hy by easy.
    rewrite GM by easy. rewrite <- !I3 by easy. fold p. destruct (Nat.eqb_spec i k) as [E|E]; [ring|]. field. easy.
  - intros D HD. rewrite (I4 D HD).
    assert (E : D (full (S k) a') = 1 / p * D (full k C)).
    { transitivity (D (fun i j => if Nat.eqb i k then 1 / p * (fun i j => if Nat.eqb i k then full k C i j else full k C i j + (- (C i k) / p) * full k C k j) i j
          else (fun i j => if Nat.eqb i k then full k C i j else full k C i j + (- (C i k) / p) * full k C k j) i j)).
      - apply (det_ext _ _ HD). intros i j Hi Hj. rewrite F by easy. nb; reflexivity.
      - rewrite (det_scale _ _ HD) by easy. f_equal. apply (det_eliminate n D HD k (fun i => - (C i k) / p) (full k C) Hk). }
    rewrite E. field. easy.
  - apply Rmult_integral_contrapositive_currified; easy.
Qed.

Lemma rsum_swapf : forall n a b (f : nat -> R), (a < n)%nat -> (b < n)%nat -> rsum n (swapf a b f) = rsum n f.
Proof.
  assert (W : forall n a b f, (a < b)%nat -> (b < n)%nat -> rsum n (swapf a b f) = rsum n f).
  { induction n; intros a b f Hab Hb; [lia|]. cbn [rsum]. destruct (Nat.eq_dec b n) as [->|Hn].
    - assert (E : forall g : nat -> R, rsum n g = rsum n (fun i => if Nat.eqb i a then 0 else g i) + g a).
      { intros g.
        transitivity (rsum n (fun i => if Nat.eqb i a then 0 else g i) + rsum n (fun i => if Nat.eqb i a then g i else 0)).
        - rewrite <- rsum_plus. apply rsum_ext. intros i Hi. destruct (Nat.eqb i a); lra.
        - f_equal. rewrite (rsum_single n a) by (try lia; intros i Hi Hne; apply Nat.eqb_neq in Hne; now rewrite Hne).
          now rewrite Nat.eqb_refl. }
      rewrite (E (swapf a n f)), (E f).
      assert (H : rsum n (fun i => if Nat.eqb i a then 0 else swapf a n f i) = rsum n (fun i => if Nat.eqb i a then 0 else f i)).
      { apply rsum_ext. intros i Hi. unfold swapf. nb; reflexivity. }
      rewrite H. unfold swapf. nb. lra.
    - rewrite IHn by lia. f_equal. unfold swapf. nb; reflexivity. }
  intros n a b f Ha Hb. destruct (Nat.lt_trichotomy a b) as [H|[H|H]].
  - now apply W. - subst. apply rsum_ext. intros i _. unfold swapf. nb; reflexivity.
  - rewrite <- (W n b a f) by easy. apply rsum_ext. intros i _. unfold swapf. nb; reflexivity.
Qed.

Lemma mvec_swapf : forall n A x i k m, mvec n (swapf k m A) x i = swapf k m (mvec n A x) i.
Proof. intros. unfold mvec, swapf. nb; reflexivity. Qed.
Lemma forall_swapf : forall n k m (P Q : nat -> R), (k < n)%nat -> (m < n)%nat ->
  (forall i, (i < n)%nat -> swapf k m P i = Q i) <-> (forall i, (i < n)%nat -> P i = swapf k m Q i).
Proof.
  intros n k m P Q Hk Hm. split; intros H i Hi.
  - unfold swapf in *. nb.
    + rewrite <- (H m Hm). nb; reflexivity.
    + rewrite <- (H k Hk). nb; reflexivity.
    + rewrite <- (H i Hi). nb; reflexivity.
  - unfold swapf in *. nb.
    + rewrite (H m Hm). nb; reflexivity.
    + rewrite (H k Hk). nb; reflexivity.
    + rewrite (H i Hi). nb; reflexivity.
Qed.

(** row exchange at step k *)
Lemma inv_swap : forall n A B z k m C y d, (k < m < n)%nat -> Inv n A B z k C y d ->
  forall a' y',
  (forall i j, (i < n)%nat -> (j < n)%nat -> a' i j = swapf k m C i j) ->
  (forall i, (i < n)%nat -> y' i = swapf k m y i) ->
  Inv n A (swapf k m B) (swapf k m z) k a' y' (- d).
Proof.
  intros n A B z k m C y d Hm [I2 I3 I4 I5] a' y' Ha Hy.
  assert (F : forall i j, (i < n)%nat -> (j < n)%nat -> full k a' i j = swapf k m (full k C) i j).
  { intros i j Hi Hj. unfold full, swapf. nb; rewrite ?Ha by lia; unfold swapf, delta; nb; reflexivity. }
  assert (GM : forall b i, (i < n)%nat -> mvec n (rhs k a') b i = swapf k m (mvec n (rhs k C) (swapf k m b)) i).
  { intros b i Hi.
    assert (T : forall r, (r < n)%nat -> mvec n (rhs k a') b r =
        rsum n (fun j => if Nat.ltb j k then swapf k m C r j * b j else 0) + (if Nat.ltb r k then 0 else b r)).
    { intros r Hr. transitivity (rsum n (fun j => if Nat.ltb j k then swapf k m C r j * b j else 0) + rsum n (fun j => if Nat.ltb j k then 0 else delta r j * b j)).
      - rewrite <- rsum_plus. unfold mvec. apply rsum_ext. intros j Hj. unfold rhs.
        destruct (Nat.ltb j k); [rewrite Ha by easy|]; ring.
      - f_equal. rewrite (rsum_single n r); [|easy|].
        + unfold delta. rewrite Nat.eqb_refl. destruct (Nat.ltb r k); ring.
        + intros j Hj Hn. unfold delta. destruct (Nat.ltb j k); [easy|]. destruct (Nat.eqb_spec r j); [lia|ring]. }
    assert (T' : forall r, (r < n)%nat -> mvec n (rhs k C) (swapf k m b) r =
        rsum n (fun j => if Nat.ltb j k then C r j * b j else 0) + (if Nat.ltb r k then 0 else swapf k m b r)).
    { intros r Hr. transitivity (rsum n (fun j => if Nat.ltb j k then C r j * b j else 0) + rsum n (fun j => if Nat.ltb j k then 0 else delta r j * swapf k m b j)).
      - rewrite <- rsum_plus. unfold mvec. apply rsum_ext. intros j Hj. unfold rhs.
        destruct (Nat.ltb_spec j k); [|ring]. unfold swapf. nb. ring.
      - f_equal. rewrite (rsum_single n r); [|easy|].
        + unfold delta. rewrite Nat.eqb_refl. destruct (Nat.ltb r k); ring.
        + intros j Hj Hn. unfold delta. destruct (Nat.ltb j k); [easy|]. destruct (Nat.eqb_spec r j); [lia|ring]. }
    rewrite T by easy.
    transitivity (swapf k m (fun r => rsum n (fun j => if Nat.ltb j k then C r j * b j else 0) + (if Nat.ltb r k then 0 else swapf k m b r)) i).
    - unfold swapf. nb; reflexivity.
    - unfold swapf at 1 3. nb; rewrite T' by lia; nb; reflexivity. }
  assert (SW : forall P Q : nat -> R, (forall i, (i < n)%nat -> P i = Q i) <-> (forall i, (i < n)%nat -> swapf k m P i = swapf k m Q i)).
  { intros P Q. rewrite forall_swapf by lia. split; intros H i Hi.
    - rewrite H by easy. unfold swapf. nb; reflexivity.
    - rewrite H by easy. unfold swapf. nb; reflexivity. }
  split.
  - intros x b.
    transitivity (forall i, (i < n)%nat -> swapf k m (mvec n B x) i = b i).
    { split; intros H i Hi; rewrite <- (H i Hi); now rewrite <- mvec_swapf. }
    rewrite forall_swapf by lia. rewrite (I2 x (swapf k m b)). rewrite SW.
    split; intros H i Hi.
    + rewrite GM by easy. rewrite <- H by easy. rewrite <- mvec_swapf. apply mvec_ext; [easy|]. intros. now apply F.
    + rewrite <- GM by easy. rewrite <- H by easy. rewrite <- mvec_swapf. apply mvec_ext; [easy|]. intros. symmetry. now apply F.
  - intros i Hi. rewrite Hy, GM by easy.
    assert (Z : forall r, (r < n)%nat -> y r = mvec n (rhs k C) (swapf k m (swapf k m z)) r).
    { intros r Hr. rewrite I3 by easy. unfold mvec. apply rsum_ext. intros j Hj. f_equal. unfold swapf. nb; reflexivity. }
    unfold swapf at 1 2. nb; apply Z; lia.
  - intros D HD. rewrite (I4 D HD). rewrite (det_ext _ _ HD (full k a') (swapf k m (full k C)) F).
    rewrite (det_swap _ _ HD) by lia. ring.
  - lra.
Qed.

(** extensionality in the permuted problem *)
Lemma inv_ext : forall n A B z B' z' k C y d,
  (forall i j, (i < n)%nat -> (j < n)%nat -> B' i j = B i j) -> (forall i, (i < n)%nat -> z' i = z i) ->
  Inv n A B z k C y d -> Inv n A B' z' k C y d.
Proof.
  intros n A B z B' z' k C y d HB Hz [I2 I3 I4 I5]. split; try easy.
  - intros x b. rewrite <- I2. split; intros H i Hi; rewrite <- H by easy; apply mvec_ext; try easy; intros; rewrite HB; easy.
  - intros i Hi. rewrite I3 by easy. unfold mvec. apply rsum_ext. intros. now rewrite Hz.
Qed.

(** ** one turn of the outer loop *)
Definition StepOK (n : nat) (A : nat -> nat -> R) (y0 : nat -> R) (k : nat) (s : dmat R) : Prop :=
  (dm_jf s = 0%Z -> Inv n A (prm k (dm_iw s) A) (prm k (dm_iw s) y0) k (dm_a s) (dm_y s) (dm_d s) /\
     (forall j, (j < k)%nat -> (j <= dm_iw s j < n)%nat) /\ ((0 < k)%nat -> 1e-20 <= Rabs (dm_d s))) /\
  (dm_jf s = 0%Z \/ dm_jf s = (-1)%Z).
Lemma SFA_R : (SFA : R) = 1e-20.
Proof. unfold SFA. rn. lra. Qed.
Lemma prm_upd : forall X k iw m (f : nat -> X) i, prm k (upd iw k m) f i = prm k iw f i.
Proof. intros. apply prm_ext. intros j Hj. apply upd_other. lia. Qed.

Lemma step_ok : forall n A y0 k s, (k < n)%nat -> StepOK n A y0 k s -> StepOK n A y0 (S k) (dmat_step n k s).
Proof.
  intros n A y0 k [a y d jf iw] Hk [H1 H2]. cbn [dm_jf dm_iw dm_a dm_y dm_d] in *.
  unfold dmat_step. cbn [dm_jf dm_iw dm_a dm_y dm_d].
  assert (PV := dmat_pivot_eq n k a Hk). cbv zeta in PV.
  destruct (dmat_pivot n k a) as [amx imx]. cbn [fst snd] in PV. destruct PV as (PV1 & PV2 & PV3).
  change (ltb amx SFA) with (Rltb amx SFA). destruct (Rltb_spec amx SFA) as [L|L].
  { split; cbn [dm_jf]; [discriminate|now right]. }
  rewrite SFA_R in L.
  (* after the (possible) exchange *)
  set (t := if Nat.eqb imx k then _ else _).
  assert (HT : exists a1 y1 d1, t = (a1, y1, d1) /\ Rabs (a1 k k) = amx /\
     (jf = 0%Z -> Inv n A (prm (S k) (upd iw k imx) A) (prm (S k) (upd iw k imx) y0) k a1 y1 d1)).
  { unfold t. destruct (Nat.eqb_spec imx k) as [E|E].
    - exists a, y, d. split; [easy|]. split; [subst; easy|]. intros J. destruct (H1 J) as (I & _).
      refine (inv_ext _ _ _ _ _ _ _ _ _ _ _ _ I).
      + intros i j Hi Hj. cbn [prm]. rewrite upd_same. subst imx. unfold swapf. rewrite !prm_upd. nb; reflexivity.
      + intros i Hi. cbn [prm]. rewrite upd_same. subst imx. unfold swapf. rewrite !prm_upd. nb; reflexivity.
    - do 3 eexists. split; [reflexivity|]. split.
      + rewrite dmat_swap_rows_eq by lia. unfold dm_closed_swap, swapf. nb. easy.
      + intros J. destruct (H1 J) as (I & _).
        refine (inv_ext _ _ (swapf k imx (prm k iw A)) (swapf k imx (prm k iw y0)) _ _ _ _ _ _ _ _ (inv_swap n A _ _ k imx a y d _ I _ _ _ _)).
        * intros i j Hi Hj. cbn [prm]. rewrite upd_same. unfold swapf. rewrite !prm_upd. reflexivity.
        * intros i Hi. cbn [prm]. rewrite upd_same. unfold swapf. rewrite !prm_upd. reflexivity.
        * lia.
        * intros i j Hi Hj. rewrite dmat_swap_rows_eq by lia. unfold dm_closed_swap, swapf. nb; reflexivity.
        * intros i Hi. unfold upd, swapf. nb; reflexivity. }
  destruct HT as (a1 & y1 & d1 & -> & Hp & HI). cbv beta iota.
  rn. rewrite SFA_R. destruct (Rltb_spec (Rabs (d1 * a1 k k)) 1e-20) as [M|M].
  { split; cbn [dm_jf]; [discriminate|now right]. }
  assert (P0 : a1 k k <> 0). { intros E. rewrite E, Rabs_R0 in Hp. lra. }
  set (a2 := upd2 a1 k k (1 / a1 k k)).
  set (a3 := dmat_scale_row n k a2).
  assert (E3 : forall i j, (j < n)%nat -> a3 i j = if Nat.eqb i k then (if Nat.eqb j k then 1 / a1 k k else a1 k j * (1 / a1 k k)) else a1 i j).
  { intros i j Hj. unfold a3. rewrite dmat_scale_row_eq. unfold a2, upd2. nb; reflexivity. }
  set (yk := y1 k * a3 k k).
  assert (EL := dmat_elim_eq n k yk a3 (upd y1 k yk) Hk). cbv zeta in EL.
  destruct (dmat_elim n k yk a3 (upd y1 k yk)) as [a4 y4]. cbn [fst snd] in EL. destruct EL as [EL1 EL2].
  assert (Yk : yk = y1 k * (1 / a1 k k)). { unfold yk. rewrite E3 by easy. nb. reflexivity. }
  split; cbn [dm_jf dm_iw dm_a dm_y dm_d]; [|exact H2].
  intros J. split; [|split].
  - apply (inv_exch n A _ _ k a1 y1 d1 Hk (HI J) P0).
    + intros i j Hi Hj. rewrite dmat_col_eq, !EL1. unfold exch. rewrite !E3 by easy. nb; cbn [negb]; try reflexivity; try ring.
    + intros i Hi. rewrite EL2. unfold upd. rewrite Yk, !E3 by easy. nb; cbn [negb]; reflexivity.
  - destruct (H1 J) as (_ & I & _). intros j Hj. destruct (Nat.eq_dec j k) as [->|Nj].
    + rewrite upd_same. lia.
    + rewrite upd_other by easy. apply I. lia.
  - intros _. lra.
Qed.

Lemma loop_ok : forall n A y iw0, StepOK n A y n (for_up n (dmat_step n) (Dm A y 1 0%Z iw0)).
Proof.
  intros. apply (for_up_ind _ (fun k s => StepOK n A y k s)).
  - split; cbn [dm_jf dm_iw dm_a dm_y dm_d prm]; [|now left]. intros _. split; [apply inv_init|]. split; intros; lia.
  - intros. now apply step_ok.
Qed.

Lemma mvec_extx : forall n A x x' i, (forall j, (j < n)%nat -> x j = x' j) -> mvec n A x i = mvec n A x' i.
Proof. intros. unfold mvec. apply rsum_ext. intros. now rewrite H. Qed.
Lemma swapf_swapf : forall X k m (f : nat -> X) i, swapf k m (swapf k m f) i = f i.
Proof. intros. unfold swapf. nb; reflexivity. Qed.
(** a permuted system of equations is the same system *)
Lemma prm_system : forall n k iw A x b, (k <= n)%nat -> (forall j, (j < k)%nat -> (j <= iw j < n)%nat) ->
  (forall i, (i < n)%nat -> mvec n A x i = b i) <->
  (forall i, (i < n)%nat -> mvec n (prm k iw A) x i = prm k iw b i).
Proof.
  induction k as [|k IH]; intros iw A x b Hk Hw; [reflexivity|].
  rewrite (IH iw A x b) by (try lia; intros; apply Hw; lia). cbn [prm].
  assert (W := Hw k ltac:(lia)).
  split; intros H i Hi.
  - rewrite mvec_swapf. unfold swapf. nb; apply H; lia.
  - assert (S : forall r, (r < n)%nat -> swapf k (iw k) (mvec n (prm k iw A) x) r = swapf k (iw k) (prm k iw b) r).
    { intros r Hr. rewrite <- mvec_swapf. now apply H. }
    rewrite (proj1 (forall_swapf n k (iw k) _ _ ltac:(lia) ltac:(lia)) S i Hi). apply swapf_swapf.
Qed.
(** undoing the exchanges on the columns *)
Lemma undo_columns : forall n iw C b i, (i < n)%nat -> (forall j, (j < n)%nat -> (j <= iw j < n)%nat) ->
  mvec n (for_down n (fun k a => if Nat.eqb k (iw k) then a else dmat_swap_cols n k (iw k) a) C) b i =
  mvec n C (prm n iw b) i.
Proof.
  intros n iw C b i0 Hi0 Hw.
  enough (H : forall i, (i < n)%nat ->
     mvec n (for_down n (fun k a => if Nat.eqb k (iw k) then a else dmat_swap_cols n k (iw k) a) C) (prm 0 iw b) i =
     mvec n C (prm n iw b) i) by (now apply H).
  apply (for_down_ind _ (fun k a => forall i, (i < n)%nat -> mvec n a (prm k iw b) i = mvec n C (prm n iw b) i)); [easy|].
  intros k a Hk IH i Hi. rewrite <- IH by easy. cbn [prm]. assert (W := Hw k Hk).
  destruct (Nat.eqb_spec k (iw k)) as [E|E].
  - apply mvec_extx. intros j Hj. rewrite <- E. unfold swapf. nb; reflexivity.
  - unfold mvec.
    rewrite <- (rsum_swapf n k (iw k) (fun j => a i j * swapf k (iw k) (prm k iw b) j)) by lia.
    apply rsum_ext. intros j Hj. rewrite dmat_swap_cols_eq by easy. unfold swapf. nb; reflexivity.
Qed.

Theorem dmat_correct : forall n A y iw0, let r := palDmat n A y iw0 in
  (dm_jf r = 0%Z \/ (dm_jf r = (-1)%Z /\ dm_d r = 0)) /\
  (dm_jf r = 0%Z ->
   (forall x b, (forall i, (i < n)%nat -> mvec n A x i = b i) <-> (forall i, (i < n)%nat -> x i = mvec n (dm_a r) b i)) /\
   (forall i, (i < n)%nat -> mvec n A (dm_y r) i = y i) /\
   (forall D, is_det n D -> dm_d r = D A) /\ dm_d r <> 0 /\ ((0 < n)%nat -> 1e-20 <= Rabs (dm_d r))).
Proof.
  intros n A y iw0. cbv zeta. unfold palDmat. rn.
  assert (L := loop_ok n A y iw0). set (s := for_up n (dmat_step n) _) in *. destruct L as [L1 L2].
  destruct L2 as [J|J]; rewrite J; cbn [Z.eqb negb dm_a dm_y dm_d dm_jf].
  2:{ split; [right; easy|discriminate]. }
  split; [now left|]. intros _. destruct (L1 J) as ([I2 I3 I4 I5] & Hw & Hd).
  assert (FD : forall x i, (i < n)%nat -> mvec n (full n (dm_a s)) x i = x i).
  { intros x i Hi. rewrite <- (mvec_delta n x i) by easy. apply mvec_ext; [easy|]. intros j Hj. unfold full. nb. reflexivity. }
  assert (RC : forall x i, (i < n)%nat -> mvec n (rhs n (dm_a s)) x i = mvec n (dm_a s) x i).
  { intros x i Hi. apply mvec_ext; [easy|]. intros j Hj. unfold rhs. nb. reflexivity. }
  split; [|split; [|split; [|split]]].
  - intros x b. rewrite (prm_system n n (dm_iw s)) by (try lia; easy). rewrite I2. split; intros H i Hi.
    + rewrite undo_columns by easy. rewrite <- FD by easy. rewrite <- RC by easy. now apply H.
    + rewrite FD, RC by easy. rewrite H by easy. now rewrite undo_columns.
  - apply (prm_system n n (dm_iw s)); [lia|easy|]. apply I2. intros i Hi. rewrite FD by easy. now apply I3.
  - intros D HD. rewrite (I4 D HD). rewrite (det_ext _ _ HD (full n (dm_a s)) delta).
    + rewrite (det_id _ _ HD). lra.
    + intros i j Hi Hj. unfold full. nb. reflexivity.
  - exact I5.
  - exact Hd.
Qed.

(** matrix product *)
Definition mmul (n : nat) (A B : nat -> nat -> R) (i j : nat) : R := rsum n (fun k => A i k * B k j).
Lemma inverse_of_solves : forall n A B,
  (forall x b, (forall i, (i < n)%nat -> mvec n A x i = b i) <-> (forall i, (i < n)%nat -> x i = mvec n B b i)) ->
  forall i j, (i < n)%nat -> (j < n)%nat -> mmul n A B i j = delta i j /\ mmul n B A i j = delta i j.
Proof.
  intros n A B H i j Hi Hj. split.
  - assert (X : forall i, (i < n)%nat -> mvec n A (fun k => B k j) i = delta i j).
    { apply H. intros r Hr. unfold mvec. rewrite (rsum_single n j); [unfold delta; rewrite Nat.eqb_refl; ring|easy|].
      intros q Hq Hn. unfold delta. destruct (Nat.eqb_spec q j); [easy|ring]. }
    exact (X i Hi).
  - assert (X : forall i, (i < n)%nat -> delta i j = mvec n B (fun k => A k j) i).
    { apply H. intros r Hr. unfold mvec. rewrite (rsum_single n j); [unfold delta; rewrite Nat.eqb_refl; ring|easy|].
      intros q Hq Hn. unfold delta. destruct (Nat.eqb_spec q j); [easy|ring]. }
    symmetry. exact (X i Hi).
Qed.
