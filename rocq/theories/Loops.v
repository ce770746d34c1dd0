(** * C-style counted loops and arrays. *)
From Coq Require Import Arith Lia Bool.

(** [for (i = i0; i < i0 + cnt; i++) s = f(i, s)] *)
Fixpoint for_from {S : Type} (i0 cnt : nat) (f : nat -> S -> S) (s : S) : S :=
  match cnt with
  | 0 => s
  | Datatypes.S c => for_from (i0 + 1) c f (f i0 s)
  end.
(** [for (i = 0; i < n; i++)] *)
Definition for_up {S : Type} (n : nat) (f : nat -> S -> S) (s : S) : S := for_from 0 n f s.
(** [for (k = n; k-- > 0;)] *)
Fixpoint for_down {S : Type} (n : nat) (f : nat -> S -> S) (s : S) : S :=
  match n with
  | 0 => s
  | Datatypes.S c => for_down c f (f c s)
  end.

(** An array is its contents as a function of the index; [upd a i x] is [a[i] = x]. *)
Definition upd {X : Type} (a : nat -> X) (i : nat) (x : X) : nat -> X :=
  fun j => if Nat.eqb j i then x else a j.
Definition upd2 {X : Type} (a : nat -> nat -> X) (i k : nat) (x : X) : nat -> nat -> X :=
  fun i' k' => if Nat.eqb i' i && Nat.eqb k' k then x else a i' k'.

Lemma for_from_snoc : forall S cnt i0 (f : nat -> S -> S) s,
  for_from i0 (cnt + 1) f s = f (i0 + cnt) (for_from i0 cnt f s).
Proof.
  induction cnt; intros; cbn.
  - now rewrite Nat.add_0_r.
  - rewrite IHcnt. f_equal. lia.
Qed.
Lemma for_up_S : forall S n (f : nat -> S -> S) s, for_up (Datatypes.S n) f s = f n (for_up n f s).
Proof. intros. unfold for_up. replace (Datatypes.S n) with (n + 1) by lia. apply for_from_snoc. Qed.
(** loop invariant rule *)
Lemma for_up_ind : forall S (P : nat -> S -> Prop) n f s,
  P 0 s -> (forall i s, i < n -> P i s -> P (Datatypes.S i) (f i s)) -> P n (for_up n f s).
Proof.
  intros S P n f s H0 Hs. induction n as [|n IH]; [exact H0|].
  rewrite for_up_S. apply Hs; [lia|]. apply IH. intros. apply Hs; [lia|easy].
Qed.
Lemma for_from_ind : forall S (P : nat -> S -> Prop) i0 cnt f s,
  P i0 s -> (forall i s, i0 <= i < i0 + cnt -> P i s -> P (Datatypes.S i) (f i s)) ->
  P (i0 + cnt) (for_from i0 cnt f s).
Proof.
  intros S P i0 cnt f s H0 Hs. induction cnt as [|n IH]; [rewrite Nat.add_0_r; exact H0|].
  replace (Datatypes.S n) with (n + 1) by lia. rewrite for_from_snoc.
  replace (i0 + (n + 1)) with (Datatypes.S (i0 + n)) by lia. apply Hs; [lia|]. apply IH.
  intros. apply Hs; [lia|easy].
Qed.
Lemma for_down_ind : forall S (P : nat -> S -> Prop) n f s,
  P n s -> (forall i s, i < n -> P (Datatypes.S i) s -> P i (f i s)) -> P 0 (for_down n f s).
Proof.
  intros S P n. induction n as [|n IH]; intros f s H0 Hs; [exact H0|].
  cbn. apply IH; [apply Hs; [lia|easy]|]. intros. apply Hs; [lia|easy].
Qed.
Lemma upd_same : forall X (a : nat -> X) i x, upd a i x i = x.
Proof. intros. unfold upd. now rewrite Nat.eqb_refl. Qed.
Lemma upd_other : forall X (a : nat -> X) i x j, j <> i -> upd a i x j = a j.
Proof. intros. unfold upd. apply Nat.eqb_neq in H. now rewrite H. Qed.
