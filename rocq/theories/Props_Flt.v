(** * Headline theorems: palDfltin, palDafin. *)
From Coq Require Import ZArith Bool Ascii String Arith Lia Reals Lra List.
From Flocq Require Import Raux.
From Verif Require Import Num NumR Erfa ObsTable M_Str P_Str P_Flt.
Import ListNotations.
Local Open Scope R_scope.
Local Notation str_of := list_ascii_of_string.

(** ** C42  palDfltin
    The specification of numbers and of the C library's [strtod] is in P_Flt.v. *)
(** the text after the number does not continue it; D counts as an exponent letter *)
Definition starts_exp_f (s : str) : Prop :=
  match s with c :: t => is_ed c = true /\ ~ no_start isdigit (snd (take_sign t)) | [] => False end.
Definition stops_f (n : number) (rest : str) : Prop :=
  no_start isdigit rest /\
  (n_exp n = None -> ~ starts_exp_f rest /\
     (n_dot n = false -> no_start (fun c => Ascii.eqb c "." || Ascii.eqb c "x" || Ascii.eqb c "X") rest)).
Lemma no_start_d2e : forall p s, (forall c, p (d2e c) = p c) -> no_start p (map d2e s) <-> no_start p s.
Proof. intros p [|c s] H; [easy|]. cbn. now rewrite H. Qed.
Lemma take_sign_d2e : forall s, snd (take_sign (map d2e s)) = map d2e (snd (take_sign s)).
Proof. intros [|c s]; [easy|]. cbn [map]. destruct c as [[] [] [] [] [] [] [] []]; reflexivity. Qed.
Lemma stops_d2e : forall n rest, stops_f n rest -> stops (d2e_number n) (map d2e rest).
Proof.
  intros n rest [H1 H2]. split.
  - apply no_start_d2e; [|easy]. intros c. chars c.
  - intros E. destruct H2 as [H2 H3]; [now destruct n as [? ? ? [[[? ?] ?]|]]|]. split.
    + destruct rest as [|c t]; [easy|]. cbn. intros [K1 K2]. apply H2. cbn. split.
      * clear -K1. revert K1. chars c.
      * intros K. apply K2. rewrite take_sign_d2e. apply no_start_d2e; [|easy]. intros x. chars x.
    + intros D. specialize (H3 D). destruct rest as [|c t]; [easy|]. clear -H3. revert H3. cbn. chars c.
Qed.
Theorem C42_number : forall strtod, conforms strtod -> forall pre s ws sg n rest dreslt,
  s = ws ++ sign_text sg ++ number_text n ++ rest -> (length s <= 255)%nat ->
  all isspace ws -> number_ok is_ed n -> stops_f n rest ->
  sr_erange (strtod (map d2e s)) = false ->
  exists seen rest', palDfltin strtod (pre ++ s) (length pre + 1) dreslt =
      Some ((length seen + 1)%nat, number_val sg n, if negative sg then (-1)%Z else 0%Z) /\
    pre ++ s = seen ++ rest' /\ next_field rest rest'.
Proof.
  intros strtod C pre s ws sg n rest d E L Hw Hn Hs Her.
  assert (F : firstn 255 s = s) by now apply firstn_all2.
  rewrite <- F in Her. rewrite (flt_number strtod C pre s ws sg n rest d) by (rewrite ?F in *; try apply stops_d2e; auto).
  rewrite F. destruct (skip_sep_next rest) as (rest' & NF & Lr). destruct (next_field_suffix rest rest' NF) as (q & Er).
  exists (pre ++ (ws ++ sign_text sg ++ number_text n) ++ q), rest'. split; [|split; [|easy]].
  - do 3 f_equal. rewrite E, !app_length. rewrite Er, app_length in *. lia.
  - rewrite E, Er, <- !app_assoc. reflexivity.
Qed.
(** out of range: status 2 *)
Theorem C42_range : forall strtod, conforms strtod -> forall pre s ws sg n rest dreslt,
  s = ws ++ sign_text sg ++ number_text n ++ rest -> (length s <= 255)%nat ->
  all isspace ws -> number_ok is_ed n -> stops_f n rest ->
  sr_erange (strtod (map d2e s)) = true ->
  exists seen rest', palDfltin strtod (pre ++ s) (length pre + 1) dreslt =
      Some ((length seen + 1)%nat, sr_val (strtod (map d2e s)), 2%Z) /\
    pre ++ s = seen ++ rest' /\ next_field rest rest'.
Proof.
  intros strtod C pre s ws sg n rest d E L Hw Hn Hs Her.
  assert (F : firstn 255 s = s) by now apply firstn_all2. unfold palDfltin.
  destruct (Nat.leb_spec 1 (length pre + 1)); [|lia].
  destruct (Nat.leb_spec (length pre + 1) (length (pre ++ s) + 1)); [|rewrite app_length in *; lia]. cbn [andb].
  rewrite skipn_pre, F.
  assert (Eb : map d2e s = ws ++ sign_text sg ++ number_text (d2e_number n) ++ map d2e rest).
  { rewrite E, !map_app. rewrite (d2e_id isspace ws d2e_space Hw), d2e_number_text by easy.
    do 2 f_equal. now destruct sg as [[]|]. }
  destruct (c_number strtod C ws sg (d2e_number n) (map d2e rest) Hw (d2e_number_ok n Hn) (stops_d2e _ _ Hs)) as [Hend _].
  rewrite <- Eb in Hend. rewrite Hend, Her.
  assert (L1 : (length (map d2e rest) < length (map d2e s))%nat).
  { rewrite Eb, !app_length. assert (K := number_start (d2e_number n) [] is_e (d2e_number_ok n Hn)). rewrite app_nil_r in K.
    destruct (number_text (d2e_number n)); [easy|]. cbn. lia. }
  rewrite same_ptr_false, andb_false_r by exact L1. cbv zeta. cbn [Z.eqb]. rewrite skip_sep_d2e, !map_length.
  destruct (skip_sep_next rest) as (rest' & NF & Lr). destruct (next_field_suffix rest rest' NF) as (q & Er).
  exists (pre ++ (ws ++ sign_text sg ++ number_text n) ++ q), rest'. split; [|split; [|easy]].
  - do 3 f_equal. rewrite E, !app_length. rewrite Er, app_length in *. lia.
  - rewrite E, Er, <- !app_assoc. reflexivity.
Qed.
(** null field: no number and no word such as INF or NAN *)
Lemma starts_number_d2e : forall s, starts_number (map d2e s) -> starts_number s.
Proof.
  intros s. unfold starts_number.
  rewrite drop_d2e by (intros c; chars c). rewrite take_sign_d2e.
  destruct (snd (take_sign (drop_while isspace s))) as [|c t]; [easy|]. cbn [map].
  intros [H|[H1 H2]].
  - left. revert H. clear. chars c.
  - right. split; [revert H1; clear; chars c|]. intros K. apply H2. apply no_start_d2e; [|easy]. intros x. chars x.
Qed.
Lemma starts_word_d2e : forall s, starts_word (map d2e s) -> starts_word s.
Proof.
  intros s. unfold starts_word. rewrite drop_d2e by (intros c; chars c). rewrite take_sign_d2e.
  intros H K. apply H. apply no_start_d2e; [|easy]. intros c. apply d2e_alpha.
Qed.
Theorem C42_null : forall strtod, conforms strtod -> forall pre s dreslt,
  (length s <= 255)%nat -> ~ starts_number s -> ~ starts_word s ->
  exists seen junk rest0 rest', palDfltin strtod (pre ++ s) (length pre + 1) dreslt = Some ((length seen + 1)%nat, dreslt, 1%Z) /\
    pre ++ s = seen ++ rest' /\ s = junk ++ rest0 /\
    all (fun c => isblank c || isalpha c) junk /\ no_start (fun c => isblank c || isalpha c) rest0 /\ next_field rest0 rest'.
Proof.
  intros strtod C pre s d L Hn Hw. assert (F : firstn 255 s = s) by now apply firstn_all2. unfold palDfltin.
  destruct (Nat.leb_spec 1 (length pre + 1)); [|lia].
  destruct (Nat.leb_spec (length pre + 1) (length (pre ++ s) + 1)); [|rewrite app_length in *; lia]. cbn [andb].
  rewrite skipn_pre, F.
  assert (Hn' : ~ starts_number (map d2e s)) by (intros K; apply Hn; now apply starts_number_d2e).
  assert (Hw' : ~ starts_word (map d2e s)) by (intros K; apply Hw; now apply starts_word_d2e).
  rewrite (c_none strtod C) by assumption.
  cbn [sr_val sr_end sr_erange sr_neg]. cbv zeta. rn. rewrite Reqb_true by easy. unfold same_ptr. rewrite Nat.eqb_refl. cbn [andb Z.eqb].
  set (p := fun c => isblank c || isalpha c).
  rewrite (drop_d2e p) by (intros c; unfold p; now rewrite d2e_blank, d2e_alpha).
  rewrite skip_sep_d2e, !map_length.
  set (r0 := drop_while p s). destruct (skip_sep_next r0) as (rest' & N & Lr).
  destruct (next_field_suffix r0 rest' N) as (q & Er).
  assert (Es : s = take_while p s ++ r0) by (unfold r0; now rewrite take_drop).
  exists (pre ++ take_while p s ++ q), (take_while p s), r0, rest'.
  split; [|split; [|split; [easy|split; [apply take_all|split; [apply drop_start|easy]]]]].
  - do 3 f_equal. assert (Le := f_equal (@length _) Es). rewrite !app_length in *. rewrite Er, app_length in *. lia.
  - rewrite Es at 1. rewrite Er, <- !app_assoc. reflexivity.
Qed.
(** the pointer never moves back nor leaves the string; the status is one of the
    documented four; status 0 never goes with a negative number *)
Theorem C42_pointer : forall strtod, conforms strtod -> forall string nstrt dreslt,
  (1 <= nstrt <= length string + 1)%nat ->
  exists nstrt' v j, palDfltin strtod string nstrt dreslt = Some (nstrt', v, j) /\
    (nstrt <= nstrt' <= length string + 1)%nat /\ (-1 <= j <= 2)%Z /\
    (j = 0%Z -> 0 <= v) /\ (j = (-1)%Z -> v <= 0) /\ (j = 1%Z -> v = dreslt).
Proof.
  intros strtod C string nstrt d H. unfold palDfltin.
  destruct (Nat.leb_spec 1 nstrt); [|lia]. destruct (Nat.leb_spec nstrt (length string + 1)); [|lia]. cbn [andb].
  set (buf := map d2e (firstn 255 (skipn (nstrt - 1) string))).
  assert (Lb : (length buf <= length string - (nstrt - 1))%nat).
  { unfold buf. rewrite map_length, firstn_length, skipn_length. lia. }
  destruct (c_suffix strtod C buf) as [q Hq]. assert (Lq := f_equal (@length _) Hq). rewrite app_length in Lq.
  set (r := strtod buf) in *. rn.
  destruct (Reqb (sr_val r) 0 && same_ptr (sr_end r) buf) eqn:E1.
  - set (p := fun c : ascii => (isblank c || isalpha c)%bool). cbv zeta. cbn [Z.eqb].
    assert (D := drop_len p (sr_end r)). assert (K := skip_sep_le (drop_while p (sr_end r))).
    eexists _, _, _. split; [reflexivity|]. repeat split; try lia; discriminate.
  - assert (K := skip_sep_le (sr_end r)). destruct (sr_erange r); cbv zeta; cbn [Z.eqb].
    + eexists _, _, _. split; [reflexivity|]. repeat split; try lia; discriminate.
    + destruct (Rltb_spec (sr_val r) 0); [|destruct (Reqb_spec (sr_val r) 0); [destruct (sr_neg r)|]]; cbn [Z.eqb];
      (eexists _, _, _; split; [reflexivity|]; repeat split; try lia; try discriminate; intros _; lra).
Qed.
(** a concrete case, decoded by the reference [strtod] *)
Definition case_42 : number := Num (str_of "1") true (str_of "25") (Some ("D"%char, Some true, str_of "3")).
Example C42_case : exists p, palDfltin strtod_dec (str_of "a  -1.25D-3 , 7") 2 9 = Some (p, number_val (Some true) case_42, (-1)%Z) /\ p = 13%nat.
Proof.
  destruct (C42_number strtod_dec strtod_dec_conforms (str_of "a") (str_of "  -1.25D-3 , 7") (str_of "  ") (Some true)
    case_42 (str_of " , 7") 9) as (seen & rest' & H1 & H2 & H3); try reflexivity; try easy.
  - cbn. lia.
  - exists (length seen + 1)%nat. split; [exact H1|].
    assert (K : rest' = str_of ", 7").
    { apply (next_field_uniq _ _ _ H3). right. split; [easy|]. exists (str_of " "). repeat split; easy. }
    rewrite K in H2. apply (f_equal (@length _)) in H2. rewrite !app_length in H2. cbn in H2 |- *. lia.
Qed.
Example C42_case_value : number_val (Some true) case_42 = - 125 / 100000.
Proof.
  unfold number_val. change (dval (n_int case_42 ++ n_frac case_42)) with 125%Z.
  change (exp_val (n_exp case_42) - Z.of_nat (length (n_frac case_42)))%Z with (-5)%Z.
  unfold powerRZ. change (Pos.to_nat 5) with 5%nat. cbn [negative pow]. lra.
Qed.
(** Refuted for long strings: at most 255 characters are examined, so a number across
    that boundary is cut in two, with an OK status. *)
Definition cut_string : str := repeat " "%char 250 ++ str_of "1234567890".
Theorem C42_buffer_refuted : forall strtod, conforms strtod ->
  sr_erange (strtod (repeat " "%char 250 ++ str_of "12345")) = false ->
  palDfltin strtod cut_string 1 0 = Some (256%nat, 12345, 0%Z).
Proof.
  intros strtod C Er. set (n := Num (str_of "12345") false [] None).
  assert (E : firstn 255 cut_string = repeat " "%char 250 ++ sign_text None ++ number_text n ++ []) by reflexivity.
  assert (Hn : number_ok is_ed n) by (unfold number_ok; cbn; repeat (split; [easy|]); easy).
  assert (Hs : stops (d2e_number n) (map d2e [])) by (repeat split; easy).
  assert (Ee : sr_erange (strtod (map d2e (firstn 255 cut_string))) = false).
  { rewrite <- Er. f_equal. }
  assert (K := flt_number strtod C [] cut_string (repeat " "%char 250) None n [] 0 E eq_refl Hn Hs Ee).
  change ([] ++ cut_string) with cut_string in K. change (length ([] : str) + 1)%nat with 1%nat in K. rewrite K.
  replace (number_val None n) with 12345; [reflexivity|].
  unfold number_val. change (dval (n_int n ++ n_frac n)) with 12345%Z.
    change (exp_val (n_exp n) - Z.of_nat (length (n_frac n)))%Z with 0%Z. cbn [powerRZ negative]. lra.
Qed.

(** ** C43  palDafin *)
Definition integral (x : R) : Prop := exists z, x = IZR z.
Lemma DINT_integral : forall x : R, (DINT x = x)%num <-> integral x.
Proof.
  intros x. unfold DINT. rn. split.
  - destruct (Rltb x 0); intros <-; eexists; reflexivity.
  - intros [z ->]. rewrite Zfloor_IZR, Zceil_IZR. now destruct (Rltb (IZR z) 0).
Qed.

(** the statuses a run of the three decodings should give *)
Definition null (j : Z) : Prop := j = 1%Z.
Definition given (j : Z) : Prop := j = 0%Z.
Theorem C43_status : forall strtod, conforms strtod -> forall string ipos a,
  (1 <= ipos <= length string + 1)%nat ->
  exists p1 deg jd p2 mi jm p3 se js p a' j,
    (* the three fields in turn, default zero *)
    palDfltin strtod string ipos 0 = Some (p1, deg, jd) /\
    palDfltin strtod string p1 0 = Some (p2, mi, jm) /\
    palDfltin strtod string p2 0 = Some (p3, se, js) /\
    palDafin strtod string ipos a = Some (p, a', j) /\
    (ipos <= p <= length string + 1)%nat /\ (-3 <= j <= 1)%Z /\
    (* success: exactly the documented combinations, in range *)
    (j = 0%Z <-> ((jd = 0 \/ jd = -1)%Z /\
        ((null jm /\ null js) \/
         (given jm /\ null js /\ integral deg /\ 0 <= mi < 60) \/
         (given jm /\ given js /\ integral deg /\ integral mi /\ 0 <= mi < 60 /\ 0 <= se < 60)))) /\
    (* all three omitted: status 1, result untouched *)
    (j = 1%Z <-> null jd /\ null jm /\ null js) /\
    (j = 1%Z -> a' = a /\ p = p3) /\
    (* the value, whenever the three fields were decoded *)
    (j <> 1%Z -> (jd <= 1)%Z -> (jm = 0 \/ jm = 1)%Z ->
       a' = (if (jd <? 0)%Z then -1 else 1) * ((Rabs deg + mi / 60 + se / 3600) * (PI / 180)) /\ p = p3) /\
    (* unreadable degrees or arcminutes: decoding stops there *)
    ((1 < jd)%Z -> j = (-1)%Z /\ a' = Rabs deg * (PI / 180) /\ p = p1) /\
    ((jd <= 1)%Z -> ~ (jm = 0 \/ jm = 1)%Z -> j = (-2)%Z /\ p = p2 /\
       a' = (if (jd <? 0)%Z then -1 else 1) * ((Rabs deg + mi / 60) * (PI / 180))) /\
    (* bad arcseconds *)
    ((jd <= 1)%Z -> (jm = 0 \/ jm = 1)%Z -> ~ (js = 0 \/ js = 1)%Z -> j = (-3)%Z) /\
    (* a field omitted before one that is given *)
    (null jd -> given jm -> (js = 0 \/ js = 1)%Z -> j = (-2)%Z) /\
    ((jd <= 1)%Z -> null jm -> given js -> j = (-3)%Z) /\
    (* range checks *)
    ((jd <= 0)%Z -> given jm -> (js = 0 \/ js = 1)%Z -> ~ integral deg -> j = (-1)%Z) /\
    ((jd <= 0)%Z -> given jm -> (js = 0 \/ js = 1)%Z -> integral deg -> 60 <= mi \/ (given js /\ ~ integral mi) -> j = (-2)%Z) /\
    ((jd <= 0)%Z -> given jm -> given js -> integral deg -> integral mi -> mi < 60 -> 60 <= se -> j = (-3)%Z).
Proof.
  intros strtod C string ipos a H. unfold palDafin, null, given. rn.
  destruct (C42_pointer strtod C string ipos 0 H) as (p1 & deg & jd & E1 & B1 & J1 & P1 & M1 & D1).
  assert (H1 : (1 <= p1 <= length string + 1)%nat) by lia.
  destruct (C42_pointer strtod C string p1 0 H1) as (p2 & mi & jm & E2 & B2 & J2 & P2 & M2 & D2).
  assert (H2 : (1 <= p2 <= length string + 1)%nat) by lia.
  destruct (C42_pointer strtod C string p2 0 H2) as (p3 & se & js & E3 & B3 & J3 & P3 & M3 & D3).
  exists p1, deg, jd, p2, mi, jm, p3, se, js. rewrite E1, E2, E3.
  assert (Q1 : (jd = -1 \/ jd = 0 \/ jd = 1 \/ jd = 2)%Z) by lia.
  assert (Q2 : (jm = -1 \/ jm = 0 \/ jm = 1 \/ jm = 2)%Z) by lia.
  assert (Q3 : (js = -1 \/ js = 0 \/ js = 1 \/ js = 2)%Z) by lia.
  assert (Ed := DINT_integral deg). assert (Em := DINT_integral mi).
  assert (KD : if Reqb (DINT deg) deg then integral deg else ~ integral deg).
  { destruct (Reqb_spec (DINT deg) deg); tauto. }
  assert (KM : if Reqb (DINT mi) mi then integral mi else ~ integral mi).
  { destruct (Reqb_spec (DINT mi) mi); tauto. }
  clear Ed Em E1 E2 E3.
  destruct Q1 as [->|[->|[->| ->]]]; destruct Q2 as [->|[->|[->| ->]]]; destruct Q3 as [->|[->|[->| ->]]];
  cbn [Z.ltb Z.leb Z.eqb Z.compare Pos.compare Pos.compare_cont orb andb negb].
  all: repeat match goal with
    | K : context [Reqb (DINT ?x) ?x] |- context [Reqb (DINT ?x) ?x] => destruct (Reqb (DINT x) x)
    | |- context [Rleb 60 ?x] => destruct (Rleb_spec 60 x) end;
    cbn [Z.ltb Z.leb Z.eqb Z.compare Pos.compare Pos.compare_cont orb andb negb].
  all: try specialize (P1 eq_refl); try specialize (P2 eq_refl); try specialize (P3 eq_refl);
    try specialize (D1 eq_refl); try specialize (D2 eq_refl); try specialize (D3 eq_refl).
  all: eexists _, _, _; do 4 (split; [reflexivity|]); split; [lia|]; split; [lia|]; repeat apply conj; intros; repeat apply conj.
  all: repeat match goal with
     | K : _ /\ _ |- _ => destruct K | K : _ \/ _ |- _ => destruct K
     | K : ?x = ?y :> Z |- _ => first [discriminate K | clear K] end.
  all: try reflexivity; try discriminate; try lia; try tauto; try lra;
    try (unfold DAS2R; rn; field; fail).
  all: try (intuition (discriminate || lia || lra); fail).
Qed.
(** the documented example: '-57 17 44.806  12 34 56.7' gives -1 radian nearly, with the
    pointer at the second angle *)
Example C43_case : exists a, palDafin strtod_dec (str_of "-57 17 44.806  12 34 56.7") 1 9 = Some (16%nat, a, 0%Z) /\
  a = - ((57 + 17 / 60 + (44806 / 1000) / 3600) * (PI / 180)).
Proof.
  set (n1 := Num (str_of "57") false [] None). set (n2 := Num (str_of "17") false [] None).
  set (n3 := Num (str_of "44") true (str_of "806") None).
  assert (W : forall pre s ws sg n rest, firstn 255 s = ws ++ sign_text sg ++ number_text n ++ rest ->
     all isspace ws -> number_ok is_e n -> number_ok is_ed n -> d2e_number n = n -> map d2e rest = rest -> stops n rest ->
     palDfltin strtod_dec (pre ++ s) (length pre + 1) 0 =
       Some ((length pre + 1 + (length (firstn 255 s) - length rest) + skip_sep rest)%nat, number_val sg n, if negative sg then (-1)%Z else 0%Z)).
  { intros pre s ws sg n rest E Hw Hn Hn' Hd Hr Hs. apply (flt_number strtod_dec strtod_dec_conforms pre s ws sg n rest 0 E Hw Hn').
    - now rewrite Hd, Hr.
    - rewrite E, !map_app. rewrite (d2e_id isspace ws d2e_space Hw), d2e_number_text, Hd, Hr by easy.
      assert (Esg : map d2e (sign_text sg) = sign_text sg) by now destruct sg as [[]|]. rewrite Esg.
      now rewrite strtod_dec_number. }
  assert (W1 : palDfltin strtod_dec (str_of "-57 17 44.806  12 34 56.7") 1 0 = Some (5%nat, number_val (Some true) n1, (-1)%Z)).
  { apply (W [] (str_of "-57 17 44.806  12 34 56.7") [] (Some true) n1 (str_of " 17 44.806  12 34 56.7")); try reflexivity;
    unfold number_ok, stops; cbn; intuition (try easy). }
  assert (W2 : palDfltin strtod_dec (str_of "-57 17 44.806  12 34 56.7") 5 0 = Some (8%nat, number_val None n2, 0%Z)).
  { apply (W (str_of "-57 ") (str_of "17 44.806  12 34 56.7") [] None n2 (str_of " 44.806  12 34 56.7")); try reflexivity;
    unfold number_ok, stops; cbn; intuition (try easy). }
  assert (W3 : palDfltin strtod_dec (str_of "-57 17 44.806  12 34 56.7") 8 0 = Some (16%nat, number_val None n3, 0%Z)).
  { apply (W (str_of "-57 17 ") (str_of "44.806  12 34 56.7") [] None n3 (str_of "  12 34 56.7")); try reflexivity;
    unfold number_ok, stops; cbn; intuition (try easy). }
  assert (V1 : number_val (Some true) n1 = -57).
  { unfold number_val. cbn [negative]. change (dval (n_int n1 ++ n_frac n1)) with 57%Z.
    change (exp_val (n_exp n1) - Z.of_nat (length (n_frac n1)))%Z with 0%Z. cbn [powerRZ]. lra. }
  assert (V2 : number_val None n2 = 17).
  { unfold number_val. cbn [negative]. change (dval (n_int n2 ++ n_frac n2)) with 17%Z.
    change (exp_val (n_exp n2) - Z.of_nat (length (n_frac n2)))%Z with 0%Z. cbn [powerRZ]. lra. }
  assert (V3 : number_val None n3 = 44806 / 1000).
  { unfold number_val. cbn [negative]. change (dval (n_int n3 ++ n_frac n3)) with 44806%Z.
    change (exp_val (n_exp n3) - Z.of_nat (length (n_frac n3)))%Z with (-3)%Z.
    unfold powerRZ. change (Pos.to_nat 3) with 3%nat. cbn [pow]. lra. }
  assert (Hp : (1 <= 1 <= length (str_of "-57 17 44.806  12 34 56.7") + 1)%nat) by (cbn; lia).
  destruct (C43_status strtod_dec strtod_dec_conforms _ 1 9 Hp)
    as (p1 & deg & jd & p2 & mi & jm & p3 & se & js & p & a' & j & E1 & E2 & E3 & E & _ & _ & J0 & J1 & _ & V & _).
  rewrite W1 in E1. injection E1 as <- <- <-. rewrite W2 in E2. injection E2 as <- <- <-. rewrite W3 in E3. injection E3 as <- <- <-.
  rewrite V1, V2, V3 in *.
  assert (j = 0%Z) as ->.
  { apply J0. split; [now right|]. right. right. unfold given. repeat split; try lra; [now exists (-57)%Z|now exists 17%Z]. }
  destruct V as [-> ->]; try easy; [now left|]. eexists. split; [exact E|]. cbn [Z.ltb Z.compare].
  rewrite Rabs_left by lra. lra.
Qed.
