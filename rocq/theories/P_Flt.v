(** * palDfltin: specification of [strtod] and proofs. *)
From Coq Require Import ZArith Bool Ascii String Arith Lia Reals Lra List.
From Verif Require Import Num NumR Erfa ObsTable M_Str P_Str.
Import ListNotations.
Local Open Scope R_scope.

(** ** The text of a decimal number *)
Definition is_e (c : ascii) : bool := Ascii.eqb c "e" || Ascii.eqb c "E".
Definition is_ed (c : ascii) : bool := is_e c || Ascii.eqb c "d" || Ascii.eqb c "D".
(** integer digits, optional point and fraction, optional exponent (letter, sign, digits) *)
Record number := Num { n_int : str; n_dot : bool; n_frac : str; n_exp : option (ascii * option bool * str) }.
Definition exp_text (ex : option (ascii * option bool * str)) : str :=
  match ex with None => [] | Some (c, sg, ds) => c :: sign_text sg ++ ds end.
Definition number_text (n : number) : str :=
  n_int n ++ (if n_dot n then "."%char :: n_frac n else []) ++ exp_text (n_exp n).
Definition number_ok (letter : ascii -> bool) (n : number) : Prop :=
  all isdigit (n_int n) /\ all isdigit (n_frac n) /\ n_int n ++ n_frac n <> [] /\
  (n_dot n = false -> n_frac n = []) /\
  match n_exp n with None => True | Some (c, sg, ds) => letter c = true /\ all isdigit ds /\ ds <> [] end.
Definition exp_val (ex : option (ascii * option bool * str)) : Z :=
  match ex with None => 0 | Some (_, sg, ds) => signed sg (dval ds) end.
Definition number_val (sg : option bool) (n : number) : R :=
  (if negative sg then -1 else 1) * IZR (dval (n_int n ++ n_frac n)) *
  powerRZ 10 (exp_val (n_exp n) - Z.of_nat (length (n_frac n))).
(** the text that follows does not continue the number *)
Definition starts_exp (s : str) : Prop :=
  match s with c :: t => is_e c = true /\ ~ no_start isdigit (snd (take_sign t)) | [] => False end.
Definition stops (n : number) (rest : str) : Prop :=
  no_start isdigit rest /\
  (n_exp n = None -> ~ starts_exp rest /\
     (n_dot n = false -> no_start (fun c => Ascii.eqb c ".") rest /\
        no_start (fun c => Ascii.eqb c "x" || Ascii.eqb c "X") rest)).
(** does a number start here (after white space and sign)? *)
Definition starts_number (s : str) : Prop :=
  match snd (take_sign (drop_while isspace s)) with
  | c :: t => isdigit c = true \/ (c = "."%char /\ ~ no_start isdigit t)
  | [] => False
  end.
(** "inf", "nan", ... *)
Definition starts_word (s : str) : Prop :=
  ~ no_start isalpha (snd (take_sign (drop_while isspace s))).

(** ** The contract of C [strtod] (C99 7.20.1.3), rounding aside *)
Record conforms (strtod : str -> strtod_res (T := R)) : Prop := {
  c_number : forall ws sg n rest, all isspace ws -> number_ok is_e n -> stops n rest ->
    let r := strtod (ws ++ sign_text sg ++ number_text n ++ rest) in
    sr_end r = rest /\ (sr_erange r = false -> sr_val r = number_val sg n /\ sr_neg r = negative sg);
  c_none : forall s, ~ starts_number s -> ~ starts_word s -> strtod s = SR 0 false s false;
  c_suffix : forall s, exists q, s = q ++ sr_end (strtod s)
}.

(** ** A conforming implementation exists *)
Definition split_frac (t1 : str) : str * str :=
  match t1 with
  | c :: u => if Ascii.eqb c "." then (take_while isdigit u, drop_while isdigit u) else ([], t1)
  | [] => ([], t1)
  end.
Definition split_exp (t2 : str) : Z * str :=
  match t2 with
  | c :: u => if is_e c then
      let '(en, w) := take_sign u in
      match take_while isdigit w with
      | [] => (0%Z, t2)
      | ds => ((if en then - dval ds else dval ds)%Z, drop_while isdigit w)
      end else (0%Z, t2)
  | [] => (0%Z, t2)
  end.
Definition strtod_dec (s : str) : strtod_res (T := R) :=
  let '(neg, t) := take_sign (drop_while isspace s) in
  let ip := take_while isdigit t in
  let '(fp, t2) := split_frac (drop_while isdigit t) in
  match ip ++ fp with
  | [] => SR 0 false s false
  | m =>
    let '(e, t3) := split_exp t2 in
    SR ((if neg then -1 else 1) * IZR (dval m) * powerRZ 10 (e - Z.of_nat (length fp))) neg t3 false
  end.

Lemma digit_not_dot : forall c, isdigit c = true -> Ascii.eqb c "." = false.
Proof. intros c. chars c. Qed.
Lemma is_e_not_digit : forall c, is_e c = true -> isdigit c = false /\ Ascii.eqb c "." = false.
Proof. intros c. chars c. Qed.
Lemma not_dot_match : forall s : str, no_start (fun c => Ascii.eqb c ".") s -> split_frac s = ([], s).
Proof. intros [|c s] H; [easy|]. cbn in H. unfold split_frac. now rewrite H. Qed.
Lemma no_start_app : forall p a b, a <> [] -> no_start p (a ++ b) <-> no_start p a.
Proof. intros p [|c a] b H; [easy|]. reflexivity. Qed.
Lemma all_no_start : forall p q a, (forall c, p c = true -> q c = false) -> all p a -> no_start q a.
Proof. intros p q [|c a] H Ha; [easy|]. apply all_cons in Ha. cbn. apply H. tauto. Qed.
Lemma number_start : forall n rest letter, number_ok letter n ->
  match number_text n ++ rest with c :: t => isdigit c = true \/ (c = "."%char /\ ~ no_start isdigit t) | [] => False end.
Proof.
  intros [ip dot fp ex] rest letter (Hi & Hf & Hn & Hd & He). unfold number_text. cbn [n_int n_dot n_frac n_exp] in *.
  destruct ip as [|c ip].
  - destruct dot; [|rewrite Hd in Hn by easy; easy]. cbn. right. split; [easy|].
    destruct fp as [|d fp]; [easy|]. cbn. apply all_cons in Hf. destruct Hf as [-> _]. easy.
  - apply all_cons in Hi. cbn. left. tauto.
Qed.
Lemma take_sign_number : forall sg n rest letter, number_ok letter n ->
  take_sign (sign_text sg ++ number_text n ++ rest) = (negative sg, number_text n ++ rest).
Proof.
  intros sg n rest letter H. assert (K := number_start n rest letter H).
  destruct sg as [[]|]; try reflexivity. cbn [sign_text app negative].
  destruct (number_text n ++ rest) as [|c t]; [easy|].
  destruct K as [K|[-> _]]; [now apply take_sign_other|reflexivity].
Qed.
Lemma number_no_space : forall sg n rest letter, number_ok letter n ->
  no_start isspace (sign_text sg ++ number_text n ++ rest).
Proof.
  intros sg n rest letter H. assert (K := number_start n rest letter H).
  destruct sg as [[]|]; try reflexivity. cbn [sign_text app].
  destruct (number_text n ++ rest) as [|c t]; [easy|].
  cbn. destruct K as [K|[-> _]]; [now apply digit_not_space|reflexivity].
Qed.
Lemma starts_number_ok : forall ws sg n rest letter, all isspace ws -> number_ok letter n ->
  starts_number (ws ++ sign_text sg ++ number_text n ++ rest).
Proof.
  intros ws sg n rest letter Hw H. unfold starts_number. rewrite drop_app by easy.
  rewrite (drop_no isspace) by (eapply number_no_space; eauto). erewrite take_sign_number by eauto. cbn [snd].
  eapply number_start; eauto.
Qed.

Lemma strtod_dec_number : forall ws sg n rest, all isspace ws -> number_ok is_e n -> stops n rest ->
  strtod_dec (ws ++ sign_text sg ++ number_text n ++ rest) = SR (number_val sg n) (negative sg) rest false.
Proof.
  intros ws sg n rest Hw Hn [Hr Hs]. unfold strtod_dec.
  rewrite drop_app by easy. rewrite (drop_no isspace) by (eapply number_no_space; eauto).
  erewrite take_sign_number by eauto.
  destruct n as [ip dot fp ex]. destruct Hn as (Hi & Hf & Hn & Hd & He). unfold number_text, number_val.
  cbn [n_int n_dot n_frac n_exp] in *.
  assert (X1 : no_start isdigit (exp_text ex ++ rest)).
  { destruct ex as [[[c es] ds]|]; [|easy]. cbn. now apply is_e_not_digit. }
  assert (X2 : no_start isdigit ((if dot then "."%char :: fp else []) ++ exp_text ex ++ rest)).
  { destruct dot; [reflexivity|exact X1]. }
  rewrite <- !app_assoc. rewrite take_app by easy. rewrite drop_app, drop_no by easy.
  assert (FP : split_frac ((if dot then "."%char :: fp else []) ++ exp_text ex ++ rest) = (fp, exp_text ex ++ rest)).
  { destruct dot.
    - cbn [app split_frac Ascii.eqb Bool.eqb]. rewrite take_app by easy. now rewrite drop_app, drop_no by easy.
    - rewrite Hd by easy. cbn [app]. apply not_dot_match. destruct ex as [[[c es] ds]|].
      + cbn. now apply is_e_not_digit.
      + now apply Hs. }
  rewrite FP.
  destruct (ip ++ fp) as [|m0 ms] eqn:EM; [easy|]. rewrite <- EM. clear EM.
  assert (EX : split_exp (exp_text ex ++ rest) = (exp_val ex, rest)).
  { destruct ex as [[[c es] ds]|].
    - destruct He as (Hc & Hds & Hne). cbn [exp_text app split_exp]. rewrite Hc, <- app_assoc.
      rewrite take_sign_field by easy. rewrite take_app by easy. rewrite drop_app, drop_no by easy.
      destruct ds; [easy|]. reflexivity.
    - cbn [exp_text app exp_val]. unfold split_exp. destruct rest as [|c u]; [easy|]. destruct (is_e c) eqn:Ec; [|easy].
      destruct Hs as [Hs _]; [easy|]. cbn in Hs.
      destruct (take_sign u) as [en w]. cbn [snd] in Hs.
      destruct w as [|d w]; [easy|]. cbn. destruct (isdigit d) eqn:Ed; [|easy].
      exfalso. apply Hs. split; [easy|]. cbn. now rewrite Ed. }
  rewrite EX. reflexivity.
Qed.
Lemma suffix_drop : forall p s, exists q, s = q ++ drop_while p s.
Proof. intros. exists (take_while p s). now rewrite take_drop. Qed.
Lemma suffix_trans : forall (a b c : str), (exists q, a = q ++ b) -> (exists q, b = q ++ c) -> exists q, a = q ++ c.
Proof. intros a b c [q ->] [q' ->]. exists (q ++ q'). now rewrite app_assoc. Qed.
Lemma suffix_sign : forall s, exists q, s = q ++ snd (take_sign s).
Proof. intros s. destruct (take_sign_app s) as (sg & E & _). now exists (sign_text sg). Qed.
Theorem strtod_dec_conforms : conforms strtod_dec.
Proof.
  split.
  - intros ws sg n rest Hw Hn Hs. cbv zeta. rewrite strtod_dec_number by easy. easy.
  - intros s Hn _. unfold strtod_dec, starts_number in *. destruct (take_sign (drop_while isspace s)) as [neg t]. cbn [snd] in Hn.
    destruct t as [|c t]; [easy|]. cbn [take_while drop_while].
    destruct (isdigit c) eqn:Ec; [exfalso; apply Hn; now left|].
    destruct (Ascii.eqb_spec c ".") as [->|Nd].
    + unfold split_frac. cbn [Ascii.eqb Bool.eqb]. destruct t as [|d t]; [easy|]. cbn [take_while]. destruct (isdigit d) eqn:Ed; [|easy].
      exfalso. apply Hn. right. split; [easy|]. cbn. now rewrite Ed.
    + rewrite not_dot_match by (cbn; now apply Ascii.eqb_neq). easy.
  - intros s. unfold strtod_dec.
    destruct (take_sign (drop_while isspace s)) as [neg t] eqn:E.
    assert (S1 : exists q, s = q ++ t).
    { eapply suffix_trans; [apply (suffix_drop isspace)|]. generalize (suffix_sign (drop_while isspace s)). now rewrite E. }
    set (t1 := drop_while isdigit t).
    assert (S2 : exists q, s = q ++ t1) by (eapply suffix_trans; [exact S1|apply suffix_drop]).
    destruct (split_frac t1) as [fp t2] eqn:E2.
    assert (S3 : exists q, s = q ++ t2).
    { eapply suffix_trans; [exact S2|]. destruct t1 as [|c u]; [injection E2 as <- <-; now exists []|].
      destruct (Ascii.eqb_spec c ".") as [->|Nd].
      - cbn [split_frac Ascii.eqb Bool.eqb] in E2. injection E2 as <- <-. exists ("."%char :: take_while isdigit u). cbn. now rewrite take_drop.
      - rewrite not_dot_match in E2 by (cbn; now apply Ascii.eqb_neq). injection E2 as <- <-. now exists []. }
    destruct (take_while isdigit t ++ fp) as [|m ms]; [now exists []|].
    destruct (split_exp t2) as [e t3] eqn:E3. cbn [sr_end]. unfold split_exp in E3.
    eapply suffix_trans; [exact S3|]. destruct t2 as [|c u]; [injection E3 as <- <-; now exists []|].
    destruct (is_e c); [|injection E3 as <- <-; now exists []].
    destruct (take_sign u) as [en w] eqn:E4. generalize (suffix_sign u). rewrite E4. cbn [snd]. intros [q Hq].
    destruct (take_while isdigit w) as [|d ds] eqn:E5; injection E3 as <- <-; [now exists []|].
    exists (c :: q ++ take_while isdigit w). cbn. rewrite <- app_assoc, take_drop. now rewrite <- Hq.
Qed.

(** ** Fortran exponents *)
Lemma d2e_id : forall p s, (forall c, p c = true -> d2e c = c) -> all p s -> map d2e s = s.
Proof.
  intros p s H. induction s as [|c s IH]; intros Ha; [easy|]. apply all_cons in Ha. cbn. rewrite H by tauto. f_equal. tauto.
Qed.
Lemma d2e_space : forall c, isspace c = true -> d2e c = c. Proof. intros c. chars c. Qed.
Lemma d2e_digit : forall c, isdigit c = true -> d2e c = c. Proof. intros c. chars c. Qed.
Lemma d2e_exp : forall c, is_ed c = true -> is_e (d2e c) = true. Proof. intros c. chars c. Qed.
Definition d2e_number (n : number) : number :=
  Num (n_int n) (n_dot n) (n_frac n)
      (match n_exp n with None => None | Some (c, sg, ds) => Some (d2e c, sg, ds) end).
Lemma d2e_number_text : forall n, number_ok is_ed n -> map d2e (number_text n) = number_text (d2e_number n).
Proof.
  intros [ip dot fp ex] (Hi & Hf & _ & _ & He). unfold number_text, d2e_number. cbn [n_int n_dot n_frac n_exp] in *.
  rewrite !map_app. rewrite (d2e_id isdigit ip d2e_digit Hi). f_equal. f_equal.
  - destruct dot; [|easy]. cbn. rewrite (d2e_id isdigit fp d2e_digit Hf). easy.
  - destruct ex as [[[c sg] ds]|]; [|easy]. cbn. rewrite map_app. rewrite (d2e_id isdigit ds d2e_digit) by tauto.
    f_equal. f_equal. now destruct sg as [[]|].
Qed.
Lemma d2e_number_ok : forall n, number_ok is_ed n -> number_ok is_e (d2e_number n).
Proof.
  intros [ip dot fp ex] (Hi & Hf & Hn & Hd & He). repeat split; try easy. cbn in *.
  destruct ex as [[[c sg] ds]|]; [|easy]. destruct He as (Hc & Hds). split; [now apply d2e_exp|easy].
Qed.
Lemma d2e_number_val : forall sg n, number_val sg (d2e_number n) = number_val sg n.
Proof. intros sg [ip dot fp [[[c s] ds]|]]; reflexivity. Qed.
Lemma d2e_blank : forall c, isblank (d2e c) = isblank c. Proof. intros c. chars c. Qed.
Lemma d2e_comma : forall c, Ascii.eqb (d2e c) "," = Ascii.eqb c ",". Proof. intros c. chars c. Qed.
Lemma d2e_alpha : forall c, isalpha (d2e c) = isalpha c. Proof. intros c. chars c. Qed.
Lemma skip_sep_d2e : forall s, skip_sep (map d2e s) = skip_sep s.
Proof.
  intros s. unfold skip_sep.
  assert (E : is_comma (map d2e s) = is_comma s) by (destruct s; [easy|apply d2e_comma]). rewrite E.
  destruct (is_comma s); [easy|]. clear E. induction s as [|c s IH]; [easy|]. cbn. rewrite d2e_blank. destruct (isblank c); [cbn; now rewrite IH|easy].
Qed.
Lemma drop_d2e : forall p s, (forall c, p (d2e c) = p c) -> drop_while p (map d2e s) = map d2e (drop_while p s).
Proof. intros p s H. induction s as [|c s IH]; [easy|]. cbn. rewrite H. destruct (p c); [exact IH|easy]. Qed.

(** ** The decoder on the text it sees *)
Lemma flt_number : forall strtod, conforms strtod ->
  forall pre s ws sg n rest dreslt,
  firstn 255 s = ws ++ sign_text sg ++ number_text n ++ rest ->
  all isspace ws -> number_ok is_ed n -> stops (d2e_number n) (map d2e rest) ->
  sr_erange (strtod (map d2e (firstn 255 s))) = false ->
  palDfltin strtod (pre ++ s) (length pre + 1) dreslt =
    Some ((length pre + 1 + (length (firstn 255 s) - length rest) + skip_sep rest)%nat,
          number_val sg n, if negative sg then (-1)%Z else 0%Z).
Proof.
  intros strtod C pre s ws sg n rest dres E Hw Hn Hs Her. unfold palDfltin.
  destruct (Nat.leb_spec 1 (length pre + 1)); [|lia].
  destruct (Nat.leb_spec (length pre + 1) (length (pre ++ s) + 1)); [|rewrite app_length in *; lia]. cbn [andb].
  rewrite skipn_pre.
  set (buf := map d2e (firstn 255 s)) in *.
  assert (Eb : buf = ws ++ sign_text sg ++ number_text (d2e_number n) ++ map d2e rest).
  { unfold buf. rewrite E, !map_app. rewrite (d2e_id isspace ws d2e_space Hw), d2e_number_text by easy.
    do 2 f_equal. now destruct sg as [[]|]. }
  destruct (c_number strtod C ws sg (d2e_number n) (map d2e rest) Hw (d2e_number_ok n Hn) Hs) as [Hend Hval].
  rewrite <- Eb in Hend, Hval. destruct (Hval Her) as [Hv Hneg]. rewrite Hend, Hv, Her, Hneg, d2e_number_val.
  assert (L : (length (map d2e rest) < length buf)%nat).
  { rewrite Eb, !app_length. assert (K := number_start (d2e_number n) [] is_e (d2e_number_ok n Hn)). rewrite app_nil_r in K.
    destruct (number_text (d2e_number n)); [easy|]. cbn. lia. }
  rewrite same_ptr_false, andb_false_r by exact L. cbv zeta. cbn [Z.eqb].
  rewrite skip_sep_d2e. rewrite map_length. unfold buf at 1. rewrite map_length.
  assert (J : (if (number_val sg n <? #0)%num then (-1)%Z
      else if (number_val sg n ==? #0)%num then if negative sg then (-1)%Z else 0%Z else 0%Z) = (if negative sg then (-1)%Z else 0%Z)).
  { rn. destruct (Rltb_spec (number_val sg n) 0) as [H1|H1].
    - unfold number_val in H1. destruct (negative sg); [easy|exfalso].
      assert (0 <= IZR (dval (n_int n ++ n_frac n))).
      { apply IZR_le. destruct Hn as (Hi & Hf & _). assert (Hall : all isdigit (n_int n ++ n_frac n)) by now apply all_app.
        clear -Hall. unfold dval.
        assert (K : forall l v, all isdigit l -> (0 <= v)%Z -> (0 <= fold_left (fun v c => 10 * v + digit c) l v)%Z).
        { induction l; intros v H Hv; [easy|]. apply all_cons in H. destruct H as [Hc H]. cbn [fold_left]. apply IHl; [easy|].
          assert (0 <= digit a)%Z; [|lia]. unfold isdigit, between in Hc. apply andb_true_iff in Hc.
          unfold digit. destruct Hc as [Hc _]. apply N.leb_le in Hc. lia. }
        apply K; [easy|lia]. }
      assert (0 < powerRZ 10 (exp_val (n_exp n) - Z.of_nat (length (n_frac n)))) by (apply powerRZ_lt; lra). nra.
    - destruct (Reqb_spec (number_val sg n) 0) as [H2|H2]; [easy|].
      destruct (negative sg) eqn:Eg; [exfalso|easy].
      unfold number_val in H1, H2. rewrite Eg in *. 
      assert (0 <= IZR (dval (n_int n ++ n_frac n))).
      { apply IZR_le. destruct Hn as (Hi & Hf & _). assert (Hall : all isdigit (n_int n ++ n_frac n)) by now apply all_app.
        clear -Hall. unfold dval.
        assert (K : forall l v, all isdigit l -> (0 <= v)%Z -> (0 <= fold_left (fun v c => 10 * v + digit c) l v)%Z).
        { induction l; intros v H Hv; [easy|]. apply all_cons in H. destruct H as [Hc H]. cbn [fold_left]. apply IHl; [easy|].
          assert (0 <= digit a)%Z; [|lia]. unfold isdigit, between in Hc. apply andb_true_iff in Hc.
          unfold digit. destruct Hc as [Hc _]. apply N.leb_le in Hc. lia. }
        apply K; [easy|lia]. }
      assert (0 < powerRZ 10 (exp_val (n_exp n) - Z.of_nat (length (n_frac n)))) by (apply powerRZ_lt; lra).
      set (a := IZR (dval (n_int n ++ n_frac n))) in *. set (b := powerRZ _ _) in *. nra. }
  rewrite J. destruct (negative sg); reflexivity.
Qed.
