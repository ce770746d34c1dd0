(** * C105: the string routines on memory *)
From Coq Require Import ZArith Bool String List Ascii Arith Lia.
From Verif Require Import Num Erfa ObsTable M_Str M_Int P_Int M_Text P_Text P_Str.
Import ListNotations.
Local Open Scope Z_scope.

(** characters for which the <ctype.h> functions are defined: if plain [char] is signed, the ASCII ones and 255 (EOF) *)
Definition classifiable (pf : platform) (s : str) : Prop := forall c, In c s -> char_signed pf = true -> (code c < 128 \/ code c = 255)%N.
Definition terminated_once (s : str) : Prop := ~ In NUL s.

Lemma cl_safe : forall pf s, classifiable pf s -> allsafe pf s. Proof. intros pf s H. apply Forall_forall. intros c Hc E. now apply (H c). Qed.
Lemma to_nn : forall s, terminated_once s -> no_nul s. Proof. intros s H. apply Forall_forall. intros c Hc E. subst. now apply H. Qed.
Lemma safe_skip : forall pf k s, allsafe pf s -> allsafe pf (skipn k s).
Proof. intros pf k s H. unfold allsafe in *. rewrite Forall_forall in *. intros x Hx. apply H. rewrite <- (firstn_skipn k s). apply in_or_app. now right. Qed.
Lemma safe_drop : forall pf p s, allsafe pf s -> allsafe pf (drop_while p s).
Proof. intros pf p s H. induction H; cbn; [constructor|]. destruct (p x); [easy|now constructor]. Qed.
Lemma drop_split : forall p s, s = firstn (length s - length (drop_while p s)) s ++ drop_while p s.
Proof.
  intros p s. induction s as [|c s IH]; [reflexivity|]. cbn [drop_while]. destruct (p c).
  - assert (L := drop_len p s).
    replace (length (c :: s) - length (drop_while p s))%nat with (S (length s - length (drop_while p s))) by (cbn [length]; lia). cbn [firstn app]. now rewrite <- IH.
  - rewrite Nat.sub_diag. reflexivity.
Qed.
Lemma suffix_split : forall (t r : str), (exists q, t = q ++ r) -> t = firstn (length t - length r) t ++ r /\ (length r <= length t)%nat.
Proof.
  intros t r [q ->]. rewrite app_length. replace (length q + length r - length r)%nat with (length q) by lia. rewrite firstn_app, Nat.sub_diag, firstn_all. cbn. rewrite app_nil_r. split; [easy|lia].
Qed.
Lemma holds_suffix : forall m t r p, holds m p t -> (exists q, t = q ++ r) -> holds m (p + Z.of_nat (length t - length r)) r.
Proof.
  intros m t r p H [q ->]. rewrite app_length. replace (length q + length r - length r)%nat with (length q) by lia. now apply holds_app.
Qed.
Lemma safe_suffix : forall pf t r, allsafe pf t -> (exists q, t = q ++ r) -> allsafe pf r.
Proof. intros pf t r H [q ->]. unfold allsafe in *. rewrite Forall_app in H. easy. Qed.
Lemma drop_sfx : forall p s, exists q, s = q ++ drop_while p s. Proof. intros p s. eexists. apply drop_split. Qed.
Lemma cor_ok : forall a b, cor (Some a) (Some b) = Some (a || b). Proof. intros [] []; reflexivity. Qed.

(** C105: palIntin on memory.  For every string of characters that <ctype.h> accepts and every start position inside it (or on
    the terminator), nothing outside the string is read, no [int] overflows, and the outcome is that of the model of C40;
    the new position is again admissible, so the call can be repeated for ever. *)
Theorem C105_palIntin : forall pf string n nstrt ireslt,
  terminated_once string -> classifiable pf string -> Z.of_nat (length string) < 2 ^ 31 - 1 -> (length string < n)%nat -> (1 <= nstrt <= length string + 1)%nat ->
  exists nstrt' v j, palIntin_m pf n (array string) (Z.of_nat nstrt) ireslt = Some (Z.of_nat nstrt', v, j) /\
    palIntin string nstrt ireslt = Some (nstrt', v, j) /\ (nstrt <= nstrt' <= length string + 1)%nat.
Proof.
  intros pf string n nstrt ires N S L Ln Hn. apply to_nn in N. apply cl_safe in S. change (2 ^ 31 - 1) with 2147483647 in L.
  unfold palIntin_m, palIntin. destruct (Nat.leb_spec 1 nstrt) as [_|?]; [|lia]. destruct (Nat.leb_spec nstrt (length string + 1)) as [_|?]; [|lia]. cbn [andb].
  rewrite ck32 by lia. cbn [obind]. replace (Z.of_nat nstrt - 1) with (Z.of_nat (nstrt - 1)) by lia.
  assert (H := holds_array string (nstrt - 1) ltac:(lia)). apply (no_nul_skip (nstrt - 1)) in N. apply (safe_skip _ (nstrt - 1)) in S.
  set (t := skipn (nstrt - 1) string) in *. assert (Lt : length t = (length string - (nstrt - 1))%nat) by apply skipn_length.
  rewrite (scan_ok pf t) by (try easy; lia). cbn [obind]. rewrite (text_ok t) by (try easy; lia). cbn [obind].
  assert (Sx : forall v r e, strtol t = (v, r, e) -> exists q, t = q ++ r).
  { intros v r e. destruct (strtol_cases t) as [(sg & ds & rest & F)|[_ ->]].
    - rewrite (strtol_field _ _ _ _ F). destruct (int_field_suffix _ _ _ _ F) as (q & E & _). intros X. injection X as _ <- _. now exists q.
    - intros X. injection X as _ <- _. now exists []. }
  destruct (strtol t) as [[v r] e]. specialize (Sx v r e eq_refl).
  destruct (suffix_split t r Sx) as [_ Lr]. assert (Hr := holds_suffix _ _ _ _ H Sx). assert (Sr := safe_suffix _ _ _ S Sx). set (i := Z.of_nat (nstrt - 1)) in *.
  set (p := i + Z.of_nat (length t - length r)) in *. cbv zeta.
  assert (Ep : (p =? i) = same_ptr r t).
  { unfold same_ptr, p. destruct (Nat.eqb_spec (length r) (length t)); [apply Z.eqb_eq|apply Z.eqb_neq]; lia. }
  rewrite Ep. set (f := fun c : ascii => isblank c || isalpha c || Ascii.eqb c "+").
  assert (Fin : forall (r' : str) (j : Z), holds (array string) (i + Z.of_nat (length t - length r')) r' -> allsafe pf r' -> (length r' <= length t)%nat ->
    exists nstrt' v' j', (let* nstrt := ck 32 (i + Z.of_nat (length t - length r') + 1) in let* nstrt := sep_m pf n nstrt (array string) (i + Z.of_nat (length t - length r')) in
        Some (nstrt, if j =? 1 then ires else to_int v, j)) = Some (Z.of_nat nstrt', v', j') /\
      Some ((length string - length r' + 1 + skip_sep r')%nat, if j =? 1 then ires else to_int v, j) = Some (nstrt', v', j') /\ (nstrt <= nstrt' <= length string + 1)%nat).
  { intros r' j Hr' Sr' Lr'. rewrite ck32 by lia. cbn [obind]. rewrite (sep_ok pf r') by (try easy; lia). cbn [obind].
    assert (Sk := skip_sep_le r'). exists (length string - length r' + 1 + skip_sep r')%nat, (if j =? 1 then ires else to_int v), j.
    split; [do 3 f_equal; lia|]. split; [reflexivity|lia]. }
  destruct ((to_int v =? 0) && same_ptr r t); [|destruct e].
  - rewrite (skip_ok (fun c => cor (cor (ISBLANK pf c) (ctype pf isalpha c)) (Some (Ascii.eqb c "+"))) f) with (s := r); try easy; try lia.
    2:{ rewrite blank_safe, ctype_safe by apply safe_NUL. reflexivity. }
    2:{ eapply Forall_impl; [|exact Sr]. intros c Hc. cbv beta. rewrite blank_safe, ctype_safe by easy. now rewrite !cor_ok. }
    cbn [obind]. assert (Ld : (length (drop_while f r) <= length r)%nat) by (apply suffix_split; apply drop_sfx).
    replace (p + Z.of_nat (length r - length (drop_while f r))) with (i + Z.of_nat (length t - length (drop_while f r))) by (unfold p; lia).
    apply (Fin (drop_while f r) 1); [|now apply safe_drop|lia].
    replace (i + Z.of_nat (length t - length (drop_while f r))) with (p + Z.of_nat (length r - length (drop_while f r))) by (unfold p; lia).
    apply holds_suffix; [easy|apply drop_sfx].
  - cbn [obind]. now apply (Fin r 2).
  - destruct ((to_int v <? 0) || scan_minus false t); cbn [obind]; [now apply (Fin r (-1))|now apply (Fin r 0)].
Qed.
(** A start position outside the string is read beyond its ends *)
Theorem C105_palIntin_outside : forall pf string n nstrt ireslt,
  nstrt < 1 \/ Z.of_nat (length string) + 1 < nstrt -> palIntin_m pf n (array string) nstrt ireslt = None.
Proof.
  intros pf string n nstrt ires H. unfold palIntin_m, ck. destruct (fits 32 (nstrt - 1)); [|reflexivity]. cbn [obind].
  assert (E : array string (nstrt - 1) = None) by (apply array_outside; lia). destruct n; [reflexivity|]. cbn [scan_m]. rewrite E. reflexivity.
Qed.
(** The program's claim of accepting any text fails where plain [char] is signed: a character 128..254 before the first digit
    is passed to [isdigit] as a negative number, which is undefined. *)
Theorem C105_palIntin_refuted : forall pf pre s c rest n ireslt, char_signed pf = true -> terminated_once (pre ++ s ++ c :: rest) ->
  Forall (fun x => isdigit x = false) s -> (128 <= code c < 255)%N ->
  palIntin_m pf n (array (pre ++ s ++ c :: rest)) (Z.of_nat (length pre) + 1) ireslt = None.
Proof.
  intros pf pre s c rest n ires E N D Hc. apply to_nn in N. unfold palIntin_m, ck. destruct (fits _ _); [|reflexivity]. cbn [obind].
  replace (Z.of_nat (length pre) + 1 - 1) with (Z.of_nat (length pre)) by lia.
  assert (H := holds_array (pre ++ s ++ c :: rest) (length pre) ltac:(rewrite app_length; lia)).
  apply (no_nul_skip (length pre)) in N. rewrite skipn_app, skipn_all, Nat.sub_diag in *. cbn [app skipn] in *.
  now rewrite (scan_bad pf s c rest).
Qed.

Lemma skip_none : forall test n m p c, m p = Some c -> test c = None -> skip_m test n m p = None.
Proof. intros test n m p c H E. destruct n; [reflexivity|]. cbn [skip_m]. rewrite H. cbn [obind]. rewrite E. reflexivity. Qed.
Section Flt.
  Context {T : Type} {A : Arith T}.
  Variable strtod : str -> strtod_res (T := T).
  (** the end pointer of [strtod] points into the string it was given *)
  Hypothesis suffix : forall s, exists q, s = q ++ sr_end (strtod s).

  Lemma d2e_nn : forall s, no_nul s -> no_nul (map d2e s).
  Proof.
    intros s H. induction H; cbn; constructor; [|easy]. unfold d2e. destruct (_ || _); [discriminate|easy].
  Qed.
  Lemma d2e_safe : forall pf s, allsafe pf s -> allsafe pf (map d2e s).
  Proof.
    intros pf s H. induction H; cbn; constructor; [|easy]. unfold d2e. destruct (_ || _); [intros _; left; reflexivity|easy].
  Qed.
  Lemma sub_firstn : forall (P : ascii -> Prop) k s, Forall P s -> Forall P (firstn k s).
  Proof. intros P k s H. rewrite Forall_forall in *. intros x Hx. apply H. rewrite <- (firstn_skipn k s). apply in_or_app. now left. Qed.

  Lemma palDfltin_mem : forall pf string nstrt dreslt,
    no_nul string -> allsafe pf string -> Z.of_nat (length string) < 2147483647 -> (1 <= nstrt <= length string + 1)%nat ->
    exists nstrt' v j, palDfltin_m pf strtod (array string) (Z.of_nat nstrt) dreslt = Some (Z.of_nat nstrt', v, j) /\
      palDfltin strtod string nstrt dreslt = Some (nstrt', v, j) /\ (nstrt <= nstrt' <= length string + 1)%nat.
  Proof.
    intros pf string nstrt dres N S L Hn. unfold palDfltin_m, palDfltin.
    destruct (Nat.leb_spec 1 nstrt) as [_|?]; [|lia]. destruct (Nat.leb_spec nstrt (length string + 1)) as [_|?]; [|lia]. cbn [andb].
    rewrite ck32 by lia. cbn [obind]. replace (Z.of_nat nstrt - 1) with (Z.of_nat (nstrt - 1)) by lia.
    assert (H := holds_array string (nstrt - 1) ltac:(lia)). apply (no_nul_skip (nstrt - 1)) in N. apply (safe_skip _ (nstrt - 1)) in S.
    set (u := skipn (nstrt - 1) string) in *. assert (Lu : length u = (length string - (nstrt - 1))%nat) by apply skipn_length.
    destruct (bcopy_ok pf u 256 (array string) (Z.of_nat (nstrt - 1)) uninit H N ltac:(lia)) as (b & -> & Hb & _). cbn [obind].
    change (Z.to_nat 256 - 1)%nat with 255%nat in Hb. assert (Lf : length (firstn 255 u) = Nat.min 255 (length u)) by apply firstn_length.
    apply (sub_firstn _ 255) in N. apply (sub_firstn _ 255) in S. set (w := firstn 255 u) in *.
    destruct (d2e_ok w 256 0 b Hb N ltac:(lia) ltac:(lia) ltac:(lia)) as (b' & -> & Hb' & _). cbn [obind].
    apply d2e_nn in N. apply d2e_safe in S. assert (Lm := map_length d2e w). set (t := map d2e w) in *.
    rewrite (text_ok t) by (try easy; lia). cbn [obind]. cbv zeta. assert (Sx := suffix t). set (res := strtod t) in *. set (r := sr_end res) in *.
    destruct (suffix_split t r Sx) as [_ Lr]. assert (Hr := holds_suffix _ _ _ _ Hb' Sx). rewrite Z.add_0_l in Hr. assert (Sr := safe_suffix _ _ _ S Sx).
    set (p := Z.of_nat (length t - length r)) in *.
    assert (Ep : (p =? 0) = same_ptr r t).
    { unfold same_ptr, p. destruct (Nat.eqb_spec (length r) (length t)); [apply Z.eqb_eq|apply Z.eqb_neq]; lia. }
    rewrite Ep. set (f := fun c : ascii => isblank c || isalpha c). set (v := sr_val res) in *.
    assert (Fin : forall (r' : str) (j : Z), holds b' (Z.of_nat (length t - length r')) r' -> allsafe pf r' -> (length r' <= length t)%nat ->
      exists nstrt' v' j', (let* nstrt := ck 32 (Z.of_nat nstrt + Z.of_nat (length t - length r')) in let* nstrt := sep_m pf 256 nstrt b' (Z.of_nat (length t - length r')) in
          Some (nstrt, if j =? 1 then dres else v, j)) = Some (Z.of_nat nstrt', v', j') /\
        Some ((nstrt + (length t - length r') + skip_sep r')%nat, if j =? 1 then dres else v, j) = Some (nstrt', v', j') /\ (nstrt <= nstrt' <= length string + 1)%nat).
    { intros r' j Hr' Sr' Lr'. rewrite ck32 by lia. cbn [obind]. rewrite (sep_ok pf r') by (try easy; lia). cbn [obind].
      assert (Sk := skip_sep_le r'). exists (nstrt + (length t - length r') + skip_sep r')%nat, (if j =? 1 then dres else v), j.
      split; [do 3 f_equal; lia|]. split; [reflexivity|lia]. }
    destruct ((v ==? #0)%num && same_ptr r t); [|destruct (sr_erange res)].
    - rewrite (skip_ok (fun c => cor (ISBLANK pf c) (ctype pf isalpha c)) f) with (s := r); try easy; try lia.
      2:{ rewrite blank_safe, ctype_safe by apply safe_NUL. reflexivity. }
      2:{ eapply Forall_impl; [|exact Sr]. intros c Hc. cbv beta. rewrite blank_safe, ctype_safe by easy. now rewrite !cor_ok. }
      cbn [obind]. assert (Ld : (length (drop_while f r) <= length r)%nat) by (apply suffix_split; apply drop_sfx).
      replace (p + Z.of_nat (length r - length (drop_while f r))) with (Z.of_nat (length t - length (drop_while f r))) by (unfold p; lia).
      apply (Fin (drop_while f r) 1); [|now apply safe_drop|lia].
      replace (Z.of_nat (length t - length (drop_while f r))) with (p + Z.of_nat (length r - length (drop_while f r))) by (unfold p; lia).
      apply holds_suffix; [easy|apply drop_sfx].
    - cbn [obind]. now apply (Fin r 2).
    - cbn [obind]. destruct (v <? #0)%num; [now apply (Fin r (-1))|]. destruct (v ==? #0)%num; [|now apply (Fin r 0)]. destruct (sr_neg res); [now apply (Fin r (-1))|now apply (Fin r 0)].
  Qed.
End Flt.

(** C105: palDfltin on memory, including its buffer of 256 bytes: the same, for every number type and every [strtod] whose end
    pointer points into the text it was given *)
Theorem C105_palDfltin : forall T (A : Arith T) strtod pf string nstrt dreslt, (forall s, exists q, s = q ++ sr_end (strtod s)) ->
  terminated_once string -> classifiable pf string -> Z.of_nat (length string) < 2 ^ 31 - 1 -> (1 <= nstrt <= length string + 1)%nat ->
  exists nstrt' v j, palDfltin_m pf strtod (array string) (Z.of_nat nstrt) dreslt = Some (Z.of_nat nstrt', v, j) /\
    palDfltin strtod string nstrt dreslt = Some (nstrt', v, j) /\ (nstrt <= nstrt' <= length string + 1)%nat.
Proof. intros. apply palDfltin_mem; [easy|now apply to_nn|now apply cl_safe|easy|easy]. Qed.
Theorem C105_palDfltin_outside : forall T (A : Arith T) strtod pf string nstrt dreslt,
  nstrt < 1 \/ Z.of_nat (length string) + 1 < nstrt -> palDfltin_m pf strtod (array string) nstrt dreslt = None.
Proof.
  intros T A strtod pf string nstrt dres H. unfold palDfltin_m, ck. destruct (fits 32 (nstrt - 1)); [|reflexivity]. cbn [obind].
  assert (E : array string (nstrt - 1) = None) by (apply array_outside; lia). unfold bcopy_m. change (256 =? 0) with false. rewrite andb_false_r.
  change (Z.to_nat 256) with 256%nat. cbn [copy_m]. rewrite E. reflexivity.
Qed.
(** where plain [char] is signed, text that is no number and begins with a character 128..254 is passed to [isalpha] as a
    negative number *)
Theorem C105_palDfltin_refuted : forall T (A : Arith T) strtod pf pre c rest dreslt,
  char_signed pf = true -> terminated_once (pre ++ c :: rest) -> (128 <= code c < 255)%N ->
  (let t := map d2e (firstn 255 (c :: rest)) in (sr_val (strtod t) ==? #0)%num = true /\ sr_end (strtod t) = t) ->
  palDfltin_m pf strtod (array (pre ++ c :: rest)) (Z.of_nat (length pre) + 1) dreslt = None.
Proof.
  intros T A strtod pf pre c rest dres E N Hc [Hv He]. apply to_nn in N. unfold palDfltin_m, ck. destruct (fits _ _); [|reflexivity]. cbn [obind].
  replace (Z.of_nat (length pre) + 1 - 1) with (Z.of_nat (length pre)) by lia.
  assert (H := holds_array (pre ++ c :: rest) (length pre) ltac:(rewrite app_length; lia)).
  apply (no_nul_skip (length pre)) in N. rewrite skipn_app, skipn_all, Nat.sub_diag in *. cbn [app skipn] in *.
  destruct (bcopy_ok pf (c :: rest) 256 _ _ uninit H N ltac:(lia)) as (b & -> & Hb & _). cbn [obind].
  change (Z.to_nat 256 - 1)%nat with 255%nat in Hb. assert (Lf : (length (firstn 255 (c :: rest)) <= 255)%nat) by apply firstn_le_length.
  apply (sub_firstn _ 255) in N. assert (Ew : exists w, firstn 255 (c :: rest) = c :: w) by (eexists; reflexivity). destruct Ew as [w Ew]. rewrite Ew in *.
  destruct (d2e_ok (c :: w) 256 0 b Hb N ltac:(lia) ltac:(lia) ltac:(lia)) as (b' & -> & Hb' & _). cbn [obind].
  apply d2e_nn in N. assert (Lm := map_length d2e (c :: w)). rewrite (text_ok (map d2e (c :: w))) by (try easy; lia). cbn [obind]. cbv zeta.
  rewrite He, Hv, Nat.sub_diag. cbn [andb Z.of_nat Z.eqb].
  assert (Ed : d2e c = c).
  { unfold d2e. destruct (Ascii.eqb_spec c "d") as [->|]; [cbn in Hc; lia|]. destruct (Ascii.eqb_spec c "D") as [->|]; [cbn in Hc; lia|]. reflexivity. }
  cbn [map holds] in Hb'. destruct Hb' as [Hb' _]. rewrite Ed in Hb'.
  assert (Sk : skip_m (fun c => cor (ISBLANK pf c) (ctype pf isalpha c)) 256 b' 0 = None).
  { apply skip_none with (c := c); [exact Hb'|]. rewrite (ctype_bad pf isalpha c) by assumption.
    unfold ISBLANK. destruct (ctype_isblank pf); [rewrite (ctype_bad pf isblank c) by assumption; reflexivity|].
    assert (B : isblank c = false).
    { unfold isblank. destruct (Ascii.eqb_spec c " ") as [->|]; [cbn in Hc; lia|]. destruct (N.eqb_spec (code c) 9); [lia|reflexivity]. }
    rewrite B. reflexivity. }
  rewrite Sk. reflexivity.
Qed.
(** C105: palDafin on memory *)
Theorem C105_palDafin : forall T (A : Arith T) strtod pf string ipos a, (forall s, exists q, s = q ++ sr_end (strtod s)) ->
  terminated_once string -> classifiable pf string -> Z.of_nat (length string) < 2 ^ 31 - 1 -> (1 <= ipos <= length string + 1)%nat ->
  exists ipos' v j, palDafin_m pf strtod (array string) (Z.of_nat ipos) a = Some (Z.of_nat ipos', v, j) /\
    palDafin strtod string ipos a = Some (ipos', v, j) /\ (ipos <= ipos' <= length string + 1)%nat.
Proof.
  intros T A strtod pf string ipos a Sx N S L Hn. apply to_nn in N. apply cl_safe in S. change (2 ^ 31 - 1) with 2147483647 in L.
  assert (K := fun p => palDfltin_mem strtod Sx pf string p (#0)%num N S L). unfold palDafin_m, palDafin.
  destruct (K ipos Hn) as (p1 & d1 & j1 & -> & -> & B1). cbn [obind]. destruct (1 <? j1); [eexists _, _, _; now repeat split|].
  destruct (K p1 ltac:(lia)) as (p2 & d2 & j2 & -> & -> & B2). cbn [obind]. destruct ((j2 <? 0) || (1 <? j2)); [eexists _, _, _; split; [reflexivity|]; split; [reflexivity|lia]|].
  destruct (K p2 ltac:(lia)) as (p3 & d3 & j3 & -> & -> & B3). cbn [obind]. eexists _, _, _. split; [reflexivity|]. split; [reflexivity|lia].
Qed.

(** C105: the output buffers of palObs.  With sizes of at least one both are left holding terminated strings, those of the
    model of C44, and no byte beyond the stated sizes is touched. *)
Lemma table_nn : forall t, In t telData -> no_nul (list_ascii_of_string (t_short t)) /\ no_nul (list_ascii_of_string (t_long t)).
Proof.
  assert (V : forallb (fun t => forallb (fun c => negb (Ascii.eqb c NUL)) (list_ascii_of_string (t_short t)) && forallb (fun c => negb (Ascii.eqb c NUL)) (list_ascii_of_string (t_long t))) telData = true) by (vm_compute; reflexivity).
  intros t Ht. rewrite forallb_forall in V. specialize (V t Ht). apply andb_true_iff in V. destruct V as [V1 V2].
  rewrite forallb_forall in V1, V2. split; apply Forall_forall; intros c Hc; [specialize (V1 c Hc)|specialize (V2 c Hc)]; apply negb_true_iff in V1 || apply negb_true_iff in V2; now apply Ascii.eqb_neq.
Qed.
Lemma search_in : forall c l t, search c l = Some t -> In t l.
Proof. intros c l t. induction l as [|x l IH]; [easy|]. cbn. destruct (strcasecmp0 _ _); [intros E; injection E as ->; now left|]. intros E. right. now apply IH. Qed.
Theorem C105_palObs : forall T (A : Arith T) pf n c identlen namelen ident name (o : obs_out (T := T)), 0 < identlen -> 0 < namelen ->
  exists ident' name', let '(j, o') := palObs n c (Z.to_nat identlen) (Z.to_nat namelen) o in
    palObs_m pf n c identlen namelen ident name = Some (j, ident', name') /\
    holds name' 0 (o_name o') /\ (j = 0 -> holds ident' 0 (o_ident o')) /\ (j <> 0 -> ident' = ident) /\
    (forall i, i < 0 \/ identlen <= i -> ident' i = ident i) /\ (forall i, i < 0 \/ namelen <= i -> name' i = name i).
Proof.
  intros T A pf n c il nl ident name o Hi Hn. unfold palObs_m.
  destruct (bcopy_ok pf ["?"%char] nl (array ["?"%char]) 0 name (holds_array ["?"%char] 0 ltac:(cbn; lia)) ltac:(repeat constructor; discriminate) Hn) as (b1 & E1 & H1 & U1). rewrite E1. cbn [obind].
  set (found := match n with O => search c telData | S k => nth_error telData k end).
  assert (Ef : palObs n c (Z.to_nat il) (Z.to_nat nl) o = match found with Some t => (0, fill t (Z.to_nat il) (Z.to_nat nl)) | None => (-1, OO (o_ident o) (strellcpy ["?"%char] (Z.to_nat nl)) (o_w o) (o_p o) (o_h o)) end).
  { unfold palObs, found. destruct n; reflexivity. }
  rewrite Ef. assert (Fi : forall t, found = Some t -> In t telData).
  { intros t. unfold found. destruct n; [apply search_in|apply nth_error_In]. }
  destruct found as [t|].
  - destruct (table_nn t (Fi t eq_refl)) as [Ns Nl].
    destruct (bcopy_ok pf _ il _ 0 ident (holds_array (list_ascii_of_string (t_short t)) 0 ltac:(lia)) Ns Hi) as (b2 & E2 & H2 & U2). rewrite E2. cbn [obind].
    destruct (bcopy_ok pf _ nl _ 0 b1 (holds_array (list_ascii_of_string (t_long t)) 0 ltac:(lia)) Nl Hn) as (b3 & E3 & H3 & U3). rewrite E3. cbn [obind].
    exists b2, b3. split; [reflexivity|]. split; [exact H3|]. split; [intros _; exact H2|]. split; [easy|]. split; [exact U2|]. intros i Hi'. rewrite U3 by easy. now apply U1.
  - exists ident, b1. split; [reflexivity|]. split; [exact H1|]. split; [easy|]. split; [easy|]. split; [easy|exact U1].
Qed.
(** With a size of zero and [strncpy] the terminator is written before the buffer *)
Theorem C105_palObs_refuted : forall pf n c identlen namelen ident name, bsd_copy pf = false ->
  (namelen = 0 -> palObs_m pf n c identlen namelen ident name = None) /\
  (identlen = 0 -> (exists t, nth_error telData n = Some t) -> palObs_m pf (S n) c identlen namelen ident name = None).
Proof.
  intros pf n c il nl ident name E.
  assert (Z0 : forall m p b, bcopy_m pf 0 m p b = None) by (intros; unfold bcopy_m; rewrite E; reflexivity).
  split.
  - intros ->. unfold palObs_m. now rewrite Z0.
  - intros -> [t Ht]. unfold palObs_m. destruct (bcopy_m pf nl _ 0 name); [|reflexivity]. cbn [obind]. rewrite Ht. now rewrite Z0.
Qed.

(** concrete cases: fields read one after the other; the UTF-8 degree sign; the last position *)
Definition T0 (s : string) : str := list_ascii_of_string s.
Definition deg_sign : str := T0 "12" ++ [ascii_of_nat 194; ascii_of_nat 176].
Example C105_eg : let u := Pf true false false in
  palIntin_m u 99 (array (T0 "xx -12, +7")) 3 99 = Some (8, -12, -1) /\ palIntin_m u 99 (array (T0 "xx -12, +7")) 8 99 = Some (11, 7, 0) /\
  palIntin_m u 99 (array (T0 "xx -12, +7")) 11 99 = Some (11, 99, 1) /\ palIntin_m u 99 (array (T0 "xx -12, +7")) 12 99 = None /\
  palIntin_m u 99 (array deg_sign) 1 99 = Some (3, 12, 0) /\ palIntin_m u 99 (array deg_sign) 3 99 = None /\
  palIntin_m (Pf true true false) 99 (array deg_sign) 1 99 = None /\ palIntin_m (Pf false true false) 99 (array deg_sign) 3 99 = Some (3, 99, 1) /\
  terminated_once (T0 "xx -12, +7") /\ classifiable u (T0 "xx -12, +7") /\
  (let r := palObs_m u 0 (T0 "aat") 3 20 uninit uninit in exists i nm, r = Some (0, i, nm) /\ i 0 = Some "A"%char /\ i 2 = Some NUL /\ i 3 = None /\ nm 19 = Some NUL /\ nm 20 = None).
Proof.
  intros u. repeat (split; [vm_compute; reflexivity|]). split; [intros X; cbn in X; repeat (destruct X as [X|X]; [discriminate X|]); exact X|]. split.
  - intros c Hc _. left. cbn in Hc. repeat (destruct Hc as [<-|Hc]; [reflexivity|]). destruct Hc.
  - eexists _, _. split; [vm_compute; reflexivity|]. vm_compute. repeat split.
Qed.
