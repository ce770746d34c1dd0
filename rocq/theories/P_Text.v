(** * Lemmas: strings in memory (C105) *)
From Coq Require Import ZArith Bool String List Ascii Arith Lia.
From Verif Require Import Num Erfa ObsTable M_Str M_Int P_Int M_Text.
Import ListNotations.
Local Open Scope Z_scope.

(** the string [s] with its terminator lies at address [p] *)
Fixpoint holds (m : mem) (p : Z) (s : str) : Prop :=
  match s with [] => m p = Some NUL | c :: t => m p = Some c /\ holds m (p + 1) t end.
Definition no_nul (s : str) : Prop := Forall (fun c => c <> NUL) s.

Lemma holds_app : forall m a b p, holds m p (a ++ b) -> holds m (p + Z.of_nat (length a)) b.
Proof.
  intros m a. induction a as [|c a IH]; intros b p H; [cbn; now rewrite Z.add_0_r|].
  cbn [app holds length] in *. destruct H as [_ H]. apply IH in H. now replace (p + Z.of_nat (S (length a))) with (p + 1 + Z.of_nat (length a)) by lia.
Qed.
Lemma holds_array_aux : forall m s p, (forall k c, nth_error (s ++ [NUL]) k = Some c -> m (p + Z.of_nat k) = Some c) -> holds m p s.
Proof.
  intros m s. induction s as [|c s IH]; intros p H.
  - cbn. specialize (H O NUL eq_refl). now rewrite Z.add_0_r in H.
  - cbn. split; [specialize (H O c eq_refl); now rewrite Z.add_0_r in H|]. apply IH. intros k d Hk. specialize (H (S k) d Hk).
    now replace (p + 1 + Z.of_nat k) with (p + Z.of_nat (S k)) by lia.
Qed.
Lemma holds_array : forall s k, (k <= length s)%nat -> holds (array s) (Z.of_nat k) (skipn k s).
Proof.
  intros s k Hk. assert (H : holds (array s) 0 s).
  { apply holds_array_aux. intros j c Hj. unfold array. destruct (Z.ltb_spec (0 + Z.of_nat j) 0); [lia|]. now rewrite Z.add_0_l, Nat2Z.id. }
  rewrite <- (firstn_skipn k s) in H at 2. apply holds_app in H. now rewrite firstn_length_le in H by easy.
Qed.
Lemma array_outside : forall s i, i < 0 \/ Z.of_nat (length s) < i -> array s i = None.
Proof.
  intros s i H. unfold array. destruct (Z.ltb_spec i 0); [easy|]. apply nth_error_None. rewrite app_length. cbn. lia.
Qed.
Lemma nul_eqb : forall c, c <> NUL -> Ascii.eqb c NUL = false. Proof. intros c H. now apply Ascii.eqb_neq. Qed.
Lemma no_nul_skip : forall k s, no_nul s -> no_nul (skipn k s).
Proof. intros k s H. unfold no_nul in *. rewrite Forall_forall in *. intros x Hx. apply H. rewrite <- (firstn_skipn k s). apply in_or_app. now right. Qed.

Section Pf.
  Variable pf : platform.
  Definition safe (c : ascii) : Prop := char_signed pf = true -> (code c < 128 \/ code c = 255)%N.
  Lemma ctype_safe : forall f c, safe c -> ctype pf f c = Some (f c).
  Proof.
    intros f c H. unfold ctype. destruct (char_signed pf) eqn:E; [|reflexivity]. destruct (H E) as [H1|H1].
    - destruct (N.leb_spec 128 (code c)); [lia|reflexivity].
    - rewrite H1. reflexivity.
  Qed.
  Lemma ctype_bad : forall f c, char_signed pf = true -> (128 <= code c < 255)%N -> ctype pf f c = None.
  Proof.
    intros f c E [H1 H2]. unfold ctype. rewrite E. apply N.leb_le in H1. apply N.ltb_lt in H2. now rewrite H1, H2.
  Qed.
  Lemma safe_NUL : safe NUL. Proof. intros _. left. reflexivity. Qed.
  Lemma blank_safe : forall c, safe c -> ISBLANK pf c = Some (isblank c).
  Proof. intros c H. unfold ISBLANK. destruct (ctype_isblank pf); [now apply ctype_safe|reflexivity]. Qed.
  Definition allsafe (s : str) : Prop := Forall safe s.

  Lemma scan_ok : forall s n h m p, holds m p s -> no_nul s -> allsafe s -> (length s < n)%nat -> scan_m pf n h m p = Some (scan_minus h s).
  Proof.
    induction s as [|c s IH]; intros n h m p H N S L; (destruct n as [|n]; [cbn in L; lia|]); cbn [scan_m holds scan_minus] in *.
    - now rewrite H.
    - destruct H as [H1 H2]. inversion N; subst. inversion S; subst. rewrite H1. cbn [obind]. rewrite nul_eqb by easy. rewrite ctype_safe by easy. cbn [obind].
      destruct (isdigit c); [reflexivity|]. apply IH; try easy. cbn in L; lia.
  Qed.
  Lemma scan_bad : forall s1 c s2 n h m p, char_signed pf = true -> (128 <= code c < 255)%N -> Forall (fun c => isdigit c = false) s1 ->
    holds m p (s1 ++ c :: s2) -> no_nul (s1 ++ c :: s2) -> scan_m pf n h m p = None.
  Proof.
    induction s1 as [|d s1 IH]; intros c s2 n h m p E Hc D H N; (destruct n as [|n]; [reflexivity|]); cbn [scan_m holds app] in *; destruct H as [H1 H2]; inversion N; subst;
      rewrite H1; cbn [obind]; rewrite nul_eqb by easy.
    - now rewrite ctype_bad.
    - inversion D; subst. unfold ctype at 1. destruct (_ && _); [reflexivity|]. cbn [obind]. rewrite H5. now apply (IH c s2).
  Qed.
  Lemma skip_ok : forall test p0, test NUL = Some false -> forall s n m p, holds m p s -> Forall (fun c => test c = Some (p0 c)) s -> (length s < n)%nat ->
    skip_m test n m p = Some (p + Z.of_nat (length s - length (drop_while p0 s))).
  Proof.
    intros test p0 T0. induction s as [|c s IH]; intros n m p H F L; (destruct n as [|n]; [cbn in L; lia|]); cbn [skip_m holds drop_while] in *.
    - rewrite H. cbn [obind]. rewrite T0. cbn [obind]. cbn. now rewrite Z.add_0_r.
    - destruct H as [H1 H2]. inversion F; subst. rewrite H1. cbn [obind]. rewrite H3. cbn [obind]. destruct (p0 c).
      + rewrite (IH n m (p + 1)) by (try easy; cbn in L; lia). f_equal. assert (D : (length (drop_while p0 s) <= length s)%nat).
        { clear. induction s as [|c s IH]; [easy|]. cbn. destruct (p0 c); cbn; lia. }
        cbn [length]. lia.
      + cbn [length]. rewrite Nat.sub_diag. cbn. now rewrite Z.add_0_r.
  Qed.
  Lemma blanks_ok : forall s n k m p, holds m p s -> allsafe s -> (length s < n)%nat -> -2147483648 <= k -> k + Z.of_nat (length s) < 2147483648 ->
    blanks_m pf n k m p = Some (k + Z.of_nat (length (take_while isblank s))).
  Proof.
    induction s as [|c s IH]; intros n k m p H S L B1 B2; (destruct n as [|n]; [cbn in L; lia|]); cbn [blanks_m holds take_while] in *.
    - rewrite H. cbn [obind]. rewrite blank_safe by apply safe_NUL. cbn. now rewrite Z.add_0_r.
    - destruct H as [H1 H2]. inversion S; subst. rewrite H1. cbn [obind]. rewrite blank_safe by easy. cbn [obind]. destruct (isblank c).
      + cbn [length] in *. rewrite ck32 by lia. cbn [obind]. rewrite (IH n (k + 1) m (p + 1)) by (try easy; lia). f_equal. lia.
      + cbn. now rewrite Z.add_0_r.
  Qed.
  Lemma sep_ok : forall s n k m p, holds m p s -> allsafe s -> (length s < n)%nat -> -2147483648 <= k -> k + Z.of_nat (length s) < 2147483648 ->
    sep_m pf n k m p = Some (k + Z.of_nat (skip_sep s)).
  Proof.
    intros s n k m p H S L B1 B2. unfold sep_m, skip_sep. destruct s as [|c s].
    - assert (H' := H). cbn [holds] in H. rewrite H. cbn [obind is_comma]. change (Ascii.eqb NUL ",") with false. cbn iota. now apply (blanks_ok []).
    - assert (H' := H). cbn [holds] in H. destruct H as [H1 _]. rewrite H1. cbn [obind is_comma]. destruct (Ascii.eqb c ",").
      + cbn [length] in *. rewrite ck32 by lia. reflexivity.
      + now apply blanks_ok.
  Qed.
  Lemma text_ok : forall s n m p, holds m p s -> no_nul s -> (length s < n)%nat -> text_m n m p = Some s.
  Proof.
    induction s as [|c s IH]; intros n m p H N L; (destruct n as [|n]; [cbn in L; lia|]); cbn [text_m holds] in *.
    - now rewrite H.
    - destruct H as [H1 H2]. inversion N; subst. rewrite H1. cbn [obind]. rewrite nul_eqb by easy. rewrite (IH n m (p + 1)) by (try easy; cbn in L; lia). reflexivity.
  Qed.

  (** copying *)
  Definition same_below (i : Z) (a b : mem) : Prop := forall j, j < i -> a j = b j.
  Lemma put_ok : forall size i c b, 0 <= i < size -> put size i c b = Some (fun j => if j =? i then Some c else b j).
  Proof. intros size i c b H. unfold put. destruct (Z.leb_spec 0 i); [|lia]. destruct (Z.ltb_spec i size); [reflexivity|lia]. Qed.
  Lemma pad_ok : forall size n i b, 0 <= i -> i + Z.of_nat n <= size ->
    exists b', pad_m size n i b = Some b' /\ (forall j, j < i \/ i + Z.of_nat n <= j -> b' j = b j) /\ (forall j, i <= j < i + Z.of_nat n -> b' j = Some NUL).
  Proof.
    intros size n. induction n as [|n IH]; intros i b H0 H; cbn [pad_m].
    - exists b. split; [reflexivity|]. split; [easy|]. intros; lia.
    - rewrite put_ok by lia. cbn [obind]. destruct (IH (i + 1) (fun j => if j =? i then Some NUL else b j) ltac:(lia) ltac:(lia)) as (b' & E & K1 & K2).
      exists b'. split; [exact E|]. split.
      + intros j Hj. rewrite K1 by lia. destruct (Z.eqb_spec j i); [lia|reflexivity].
      + intros j Hj. destruct (Z.eq_dec j i) as [->|Nj]; [|apply K2; lia]. rewrite K1 by lia. now rewrite Z.eqb_refl.
  Qed.
  (** what copying [n] bytes does: the first [n] characters of [s], and the terminator if it is among them *)
  Lemma copy_ok : forall s size n m p i b, holds m p s -> no_nul s -> 0 <= i -> i + Z.of_nat n <= size ->
    exists b', copy_m pf size n m p i b = Some b' /\ (forall j, j < i \/ i + Z.of_nat n <= j -> b' j = b j) /\
      (forall k, (k < n)%nat -> (k <= length s)%nat -> b' (i + Z.of_nat k) = nth_error (s ++ [NUL]) k).
  Proof.
    induction s as [|c s IH]; intros size n m p i b H N H0 Hs; (destruct n as [|n]; [cbn; exists b; split; [reflexivity|]; split; [easy|intros; lia]|]); cbn [copy_m holds] in *.
    - rewrite H. cbn [obind]. rewrite put_ok by lia. cbn [obind]. change (Ascii.eqb NUL NUL) with true. cbn iota.
      destruct (bsd_copy pf).
      + eexists. split; [reflexivity|]. cbv beta. split.
        * intros j Hj. destruct (Z.eqb_spec j i); [lia|reflexivity].
        * intros k Hk Hl. cbn in Hl. assert (k = O) by lia. subst k. now rewrite Z.add_0_r, Z.eqb_refl.
      + destruct (pad_ok size n (i + 1) (fun j => if j =? i then Some NUL else b j) ltac:(lia) ltac:(lia)) as (b' & E & K1 & K2).
        exists b'. split; [exact E|]. split.
        * intros j Hj. rewrite K1 by lia. destruct (Z.eqb_spec j i); [lia|reflexivity].
        * intros k Hk Hl. cbn in Hl. assert (k = O) by lia. subst k. rewrite Z.add_0_r, K1 by lia. now rewrite Z.eqb_refl.
    - destruct H as [H1 H2]. inversion N; subst. rewrite H1. cbn [obind]. rewrite put_ok by lia. cbn [obind]. rewrite nul_eqb by easy.
      destruct (IH size n m (p + 1) (i + 1) (fun j => if j =? i then Some c else b j) H2 H5 ltac:(lia) ltac:(lia)) as (b' & E & K1 & K2).
      exists b'. split; [exact E|]. split.
      + intros j Hj. rewrite K1 by lia. destruct (Z.eqb_spec j i); [lia|reflexivity].
      + intros k Hk Hl. destruct k as [|k].
        * rewrite Z.add_0_r, K1 by lia. now rewrite Z.eqb_refl.
        * cbn [app nth_error]. cbn [length] in Hl. rewrite <- (K2 k) by lia. f_equal. lia.
  Qed.
  Lemma bcopy_ok : forall s size m p b, holds m p s -> no_nul s -> 0 < size ->
    exists b', bcopy_m pf size m p b = Some b' /\ holds b' 0 (firstn (Z.to_nat size - 1) s) /\ (forall j, j < 0 \/ size <= j -> b' j = b j).
  Proof.
    intros s size m p b H N Hs. unfold bcopy_m. destruct (Z.eqb_spec size 0); [lia|]. rewrite andb_false_r.
    destruct (copy_ok s size (Z.to_nat size) m p 0 b H N ltac:(lia) ltac:(lia)) as (b1 & -> & K1 & K2). cbn [obind].
    rewrite put_ok by lia. eexists. split; [reflexivity|]. split.
    - apply holds_array_aux. intros k c Hk. cbv beta. assert (Lk : (k < length (firstn (Z.to_nat size - 1) s ++ [NUL]))%nat) by (apply nth_error_Some; congruence).
      rewrite app_length, firstn_length in Lk. cbn in Lk. rewrite Z.add_0_l. destruct (Z.eqb_spec (Z.of_nat k) (size - 1)) as [E|E].
      + assert (Lf : length (firstn (Z.to_nat size - 1) s) = k) by (rewrite firstn_length; lia). rewrite nth_error_app2 in Hk by lia.
        replace (k - _)%nat with O in Hk by lia. cbn in Hk. exact Hk.
      + rewrite <- (Z.add_0_l (Z.of_nat k)). rewrite (K2 k) by lia. rewrite <- Hk. destruct (Nat.ltb_spec k (length s)) as [C|C].
        * rewrite nth_error_app1 by easy. rewrite nth_error_app1 by (rewrite firstn_length; lia). clear - Lk E Hs C.
          assert (Kn : (k < Z.to_nat size - 1)%nat) by lia. revert Kn C. generalize (Z.to_nat size - 1)%nat as q. clear. revert s. induction k as [|k IH]; intros s q Hq C; (destruct s; [cbn in C; lia|]); (destruct q; [lia|]); cbn; [reflexivity|]. apply IH; cbn in C; lia.
        * rewrite firstn_all2 by lia. reflexivity.
    - intros j Hj. cbv beta. destruct (Z.eqb_spec j (size - 1)); [lia|]. apply K1. lia.
  Qed.
  Lemma d2e_ok : forall s n p b, holds b p s -> no_nul s -> 0 <= p -> p + Z.of_nat (length s) < 256 -> (length s < n)%nat ->
    exists b', d2e_m n p b = Some b' /\ holds b' p (map d2e s) /\ (forall j, j < p -> b' j = b j).
  Proof.
    induction s as [|c s IH]; intros n p b H N H0 Hp L; (destruct n as [|n]; [cbn in L; lia|]); cbn [d2e_m holds map length] in *.
    - rewrite H. cbn [obind]. exists b. now repeat split.
    - destruct H as [H1 H2]. inversion N; subst. rewrite H1. cbn [obind]. rewrite nul_eqb by easy. unfold d2e at 1. destruct (Ascii.eqb c "d" || Ascii.eqb c "D").
      + rewrite put_ok by lia. cbn [obind]. set (b1 := fun j => if j =? p then Some "E"%char else b j).
        assert (H2' : holds b1 (p + 1) s).
        { assert (G : forall s q, p < q -> holds b q s -> holds b1 q s).
          { clear. induction s as [|c s IH]; intros q Hq; cbn; unfold b1; [destruct (Z.eqb_spec q p); [lia|easy]|]. intros [Ha Hb]. split; [destruct (Z.eqb_spec q p); [lia|easy]|]. apply IH; [lia|easy]. }
          apply G; [lia|easy]. }
        destruct (IH n (p + 1) b1 H2' H5 ltac:(lia) ltac:(lia) ltac:(lia)) as (b' & E & K1 & K2). exists b'. split; [exact E|]. split.
        * split; [|exact K1]. rewrite K2 by lia. unfold b1. now rewrite Z.eqb_refl.
        * intros j Hj. rewrite K2 by lia. unfold b1. destruct (Z.eqb_spec j p); [lia|reflexivity].
      + cbn [obind]. destruct (IH n (p + 1) b H2 H5 ltac:(lia) ltac:(lia) ltac:(lia)) as (b' & E & K1 & K2). exists b'. split; [exact E|]. split.
        * split; [|exact K1]. rewrite K2 by lia. exact H1.
        * intros j Hj. apply K2. lia.
  Qed.
End Pf.
