(** * Proofs about free-format decoding. *)
From Coq Require Import ZArith Bool Ascii String Arith Lia List.
From Verif Require Import Num Erfa ObsTable M_Str.
Import ListNotations.

(** ** Vocabulary of the specifications *)
Definition all (p : ascii -> bool) (s : str) : Prop := forallb p s = true.
Definition no_start (p : ascii -> bool) (s : str) : Prop := match s with c :: _ => p c = false | [] => True end.
(** an optional sign as written *)
Definition sign_text (sg : option bool) : str :=
  match sg with None => [] | Some true => ["-"%char] | Some false => ["+"%char] end.
Definition negative (sg : option bool) : bool := match sg with Some true => true | _ => false end.
(** what separates a field from the next: one comma, or any blanks *)
Definition next_field (rest rest' : str) : Prop :=
  rest = ","%char :: rest' \/
  (no_start (fun c => Ascii.eqb c ",") rest /\
   exists bl, rest = bl ++ rest' /\ all isblank bl /\ no_start isblank rest').
(** [int_field s sg ds rest]: after white space, [s] starts with the integer [sg ds] *)
Definition int_field (s : str) (sg : option bool) (ds rest : str) : Prop :=
  exists ws, s = ws ++ sign_text sg ++ ds ++ rest /\ all isspace ws /\
    ds <> [] /\ all isdigit ds /\ no_start isdigit rest.
Definition signed (sg : option bool) (v : Z) : Z := if negative sg then (- v)%Z else v.

(** ** Lists *)
Lemma all_cons : forall p c s, all p (c :: s) <-> p c = true /\ all p s.
Proof. intros. unfold all. cbn. apply andb_true_iff. Qed.
Lemma all_app : forall p a b, all p (a ++ b) <-> all p a /\ all p b.
Proof. intros. unfold all. rewrite forallb_app. apply andb_true_iff. Qed.
Lemma drop_app : forall p a b, all p a -> drop_while p (a ++ b) = drop_while p b.
Proof. induction a; intros b H; [easy|]. apply all_cons in H. cbn. destruct H as [-> H]. auto. Qed.
Lemma drop_no : forall p b, no_start p b -> drop_while p b = b.
Proof. destruct b; cbn; [easy|]. now intros ->. Qed.
Lemma take_app : forall p a b, all p a -> no_start p b -> take_while p (a ++ b) = a.
Proof.
  induction a; intros b H N; cbn.
  - destruct b; cbn in *; [easy|]. now rewrite N.
  - apply all_cons in H. destruct H as [-> H]. now rewrite IHa.
Qed.
Lemma take_drop : forall p s, take_while p s ++ drop_while p s = s.
Proof. induction s; cbn; [easy|]. destruct (p a); cbn; [now rewrite IHs|easy]. Qed.
Lemma take_all : forall p s, all p (take_while p s).
Proof. induction s; cbn; [easy|]. destruct (p a) eqn:E; [|easy]. apply all_cons. auto. Qed.
Lemma drop_start : forall p s, no_start p (drop_while p s).
Proof. induction s; cbn; [easy|]. destruct (p a) eqn:E; [easy|exact E]. Qed.
Lemma drop_len : forall p s, (length (drop_while p s) <= length s)%nat.
Proof. intros. rewrite <- (take_drop p s) at 2. rewrite app_length. lia. Qed.
Lemma skip_sep_next : forall s, exists s', next_field s s' /\ length s = (skip_sep s + length s')%nat.
Proof.
  intros s. unfold skip_sep. destruct (is_comma s) eqn:E.
  - destruct s as [|c t]; cbn in E; [easy|]. apply Ascii.eqb_eq in E. subst c. exists t. split; [now left|easy].
  - exists (drop_while isblank s). split.
    + right. split; [now destruct s|]. exists (take_while isblank s). split; [now rewrite take_drop|].
      split; [apply take_all|apply drop_start].
    + rewrite <- app_length. now rewrite take_drop.
Qed.
Lemma next_field_uniq : forall r a b, next_field r a -> next_field r b -> a = b.
Proof.
  intros r a b [->|(N & bl & E & B1 & B2)] [E'|(N' & bl' & E' & B1' & B2')].
  - now injection E'.
  - cbn in N'. discriminate.
  - subst r. rewrite E' in N. cbn in N. discriminate.
  - rewrite E in E'.
    assert (D1 : drop_while isblank (bl ++ a) = a) by (rewrite drop_app by easy; now apply drop_no).
    assert (D2 : drop_while isblank (bl' ++ b) = b) by (rewrite drop_app by easy; now apply drop_no).
    congruence.
Qed.
Lemma next_field_len : forall r r', next_field r r' -> skip_sep r = (length r - length r')%nat.
Proof.
  intros r r' H. destruct (skip_sep_next r) as (s' & H' & L). rewrite (next_field_uniq _ _ _ H H'). lia.
Qed.
Lemma next_field_suffix : forall r r', next_field r r' -> exists q, r = q ++ r'.
Proof. intros r r' [->|(_ & bl & -> & _)]; [now exists [","%char]|now exists bl]. Qed.
Lemma skip_sep_le : forall s, (skip_sep s <= length s)%nat.
Proof. intros s. destruct (skip_sep_next s) as (s' & _ & E). lia. Qed.

(** ** Characters *)
Ltac chars c := destruct c as [[] [] [] [] [] [] [] []]; vm_compute; try easy.
Lemma space_not_digit : forall c, isspace c = true -> isdigit c = false.
Proof. intros c. chars c. Qed.
Lemma digit_not_space : forall c, isdigit c = true -> isspace c = false.
Proof. intros c. chars c. Qed.
Lemma space_not_minus : forall c, isspace c = true -> Ascii.eqb c "-" = false.
Proof. intros c. chars c. Qed.
Lemma take_sign_other : forall c t, isdigit c = true -> take_sign (c :: t) = (false, c :: t).
Proof. intros c t H. destruct c as [[] [] [] [] [] [] [] []]; try reflexivity; discriminate H. Qed.

Lemma take_sign_field : forall sg ds rest, ds <> [] -> all isdigit ds ->
  take_sign (sign_text sg ++ ds ++ rest) = (negative sg, ds ++ rest).
Proof.
  intros [[]|] ds rest Hn Hd; try reflexivity. destruct ds as [|c t]; [easy|].
  apply all_cons in Hd. cbn [sign_text app negative]. now apply take_sign_other.
Qed.
Lemma sign_no_space : forall sg ds rest, ds <> [] -> all isdigit ds -> no_start isspace (sign_text sg ++ ds ++ rest).
Proof.
  intros [[]|] ds rest Hn Hd; try reflexivity. destruct ds as [|c t]; [easy|].
  apply all_cons in Hd. cbn. now apply digit_not_space.
Qed.
Definition clamp (v : Z) : Z * bool :=
  if (LONG_MAX <? v)%Z then (LONG_MAX, true) else if (v <? LONG_MIN)%Z then (LONG_MIN, true) else (v, false).
Lemma strtol_field : forall s sg ds rest, int_field s sg ds rest ->
  strtol s = (fst (clamp (signed sg (dval ds))), rest, snd (clamp (signed sg (dval ds)))).
Proof.
  intros s sg ds rest (ws & -> & Hw & Hn & Hd & Hr). unfold strtol.
  rewrite drop_app by easy. rewrite (drop_no isspace) by now apply sign_no_space.
  rewrite take_sign_field by easy. rewrite take_app by easy.
  destruct ds as [|c t]; [easy|]. rewrite drop_app by easy. rewrite drop_no by easy.
  unfold clamp, signed. cbv zeta. set (v := if negative sg then _ else _).
  destruct (LONG_MAX <? v)%Z; [easy|]. destruct (v <? LONG_MIN)%Z; easy.
Qed.
Lemma take_sign_app : forall s, exists sg, s = sign_text sg ++ snd (take_sign s) /\ fst (take_sign s) = negative sg.
Proof.
  intros [|c t]; [now exists None|].
  destruct (Ascii.eqb_spec c "-"); [subst; now exists (Some true)|].
  destruct (Ascii.eqb_spec c "+"); [subst; now exists (Some false)|].
  exists None. destruct c as [[] [] [] [] [] [] [] []]; try (split; reflexivity); exfalso; auto.
Qed.
(** decoding either finds a field or leaves everything as it was *)
Lemma strtol_cases : forall s,
  (exists sg ds rest, int_field s sg ds rest) \/
  ((forall sg ds rest, ~ int_field s sg ds rest) /\ strtol s = (0%Z, s, false)).
Proof.
  intros s. unfold strtol at 1.
  destruct (take_sign (drop_while isspace s)) as [neg t] eqn:E.
  destruct (take_while isdigit t) as [|c ds] eqn:D.
  - right. split; [|easy]. intros sg ds rest (ws & Es & Hw & Hn & Hd & Hr).
    rewrite Es in E. rewrite drop_app in E by easy. rewrite (drop_no isspace) in E by now apply sign_no_space.
    rewrite take_sign_field in E by easy. injection E as <- <-. rewrite take_app in D by easy. auto.
  - left. destruct (take_sign_app (drop_while isspace s)) as (sg & Hs & Hg). rewrite E in Hs. cbn [snd] in Hs.
    exists sg, (take_while isdigit t), (drop_while isdigit t). exists (take_while isspace s).
    rewrite take_drop, <- Hs, take_drop. split; [easy|]. split; [apply take_all|].
    split; [rewrite D; easy|]. split; [apply take_all|apply drop_start].
Qed.
Lemma int_field_suffix : forall s sg ds rest, int_field s sg ds rest ->
  exists q, s = q ++ rest /\ (length rest < length s)%nat.
Proof.
  intros s sg ds rest (ws & -> & _ & Hn & _). exists (ws ++ sign_text sg ++ ds). rewrite <- !app_assoc. split; [easy|].
  rewrite !app_length. destruct ds; [easy|]. cbn. lia.
Qed.
Lemma scan_minus_field : forall s sg ds rest, int_field s sg ds rest -> scan_minus false s = negative sg.
Proof.
  intros s sg ds rest (ws & -> & Hw & Hn & Hd & _).
  assert (K : scan_minus false (ws ++ sign_text sg ++ ds ++ rest) = scan_minus false (sign_text sg ++ ds ++ rest)).
  { induction ws as [|c ws IH]; [easy|]. apply all_cons in Hw. destruct Hw as [Hc Hw]. cbn [app scan_minus].
    rewrite space_not_digit, space_not_minus by easy. auto. }
  rewrite K. destruct ds as [|c t]; [easy|]. apply all_cons in Hd. destruct Hd as [Hc _].
  destruct sg as [[]|]; cbn; now rewrite Hc.
Qed.
Lemma to_int_id : forall v, (- 2 ^ 31 <= v < 2 ^ 31)%Z -> to_int v = v.
Proof. intros v H. unfold to_int. rewrite Z.mod_small by lia. lia. Qed.
Lemma clamp_id : forall v, (LONG_MIN <= v <= LONG_MAX)%Z -> clamp v = (v, false).
Proof.
  intros v H. unfold clamp. destruct (Z.ltb_spec LONG_MAX v); [lia|]. destruct (Z.ltb_spec v LONG_MIN); [lia|easy].
Qed.
Lemma skipn_pre : forall (pre s : str), skipn (length pre + 1 - 1) (pre ++ s) = s.
Proof. intros. rewrite Nat.add_sub. rewrite skipn_app, skipn_all, Nat.sub_diag. reflexivity. Qed.
Lemma same_ptr_false : forall (a b : str), (length a < length b)%nat -> same_ptr a b = false.
Proof. intros. unfold same_ptr. apply Nat.eqb_neq. lia. Qed.
