(** * Headline theorems: palIntin, palDfltin, palDafin, palObs. *)
From Coq Require Import ZArith Bool Ascii String Arith Lia Reals Lra List.
From Verif Require Import Num NumR Erfa ObsTable M_Str P_Str.
Import ListNotations.

(** ** C40  palIntin
    [int_field], [next_field] (P_Str.v) are the specification of the text. *)
Theorem C40_number : forall pre s sg ds rest ireslt,
  int_field s sg ds rest -> (- 2 ^ 31 <= signed sg (dval ds) < 2 ^ 31)%Z ->
  exists seen rest', palIntin (pre ++ s) (length pre + 1) ireslt =
      Some (length seen + 1, signed sg (dval ds), if negative sg then (-1)%Z else 0%Z) /\
    pre ++ s = seen ++ rest' /\ next_field rest rest'.
Proof.
  intros pre s sg ds rest ires F Hv. unfold palIntin.
  destruct (Nat.leb_spec 1 (length pre + 1)); [|lia].
  destruct (Nat.leb_spec (length pre + 1) (length (pre ++ s) + 1)); [|rewrite app_length in *; lia]. cbn [andb].
  rewrite skipn_pre. rewrite (scan_minus_field s sg ds rest F). rewrite (strtol_field s sg ds rest F).
  rewrite clamp_id by (unfold LONG_MIN, LONG_MAX; lia). cbn [fst snd]. rewrite to_int_id by easy.
  destruct (int_field_suffix s sg ds rest F) as (q & Es & L). rewrite (same_ptr_false rest s L), andb_false_r.
  destruct (skip_sep_next rest) as (rest' & NF & Lr). destruct (next_field_suffix rest rest' NF) as (q' & Er).
  exists (pre ++ q ++ q'), rest'. split; [|split; [|easy]].
  - assert (E1 : (signed sg (dval ds) <? 0)%Z || negative sg = negative sg).
    { unfold signed. destruct (negative sg) eqn:E; [apply orb_true_r|]. rewrite orb_false_r.
      apply Z.ltb_ge. assert (D := F). destruct D as (ws & _ & _ & _ & Hd & _). clear -Hd.
      assert (K : forall l v, all isdigit l -> (0 <= v)%Z -> (0 <= fold_left (fun v c => 10 * v + digit c) l v)%Z).
      { induction l; intros v H Hv; [easy|]. apply all_cons in H. destruct H as [Hc H]. cbn [fold_left]. apply IHl; [easy|].
        assert (0 <= digit a)%Z; [|lia]. unfold isdigit, between in Hc. apply andb_true_iff in Hc.
        unfold digit. destruct Hc as [Hc _]. apply N.leb_le in Hc. lia. }
      apply K; [easy|lia]. }
    rewrite E1. destruct (negative sg); cbn [Z.eqb]; do 3 f_equal; rewrite !app_length, Es, app_length, Er, app_length in *; lia.
  - rewrite Es, Er, <- !app_assoc. reflexivity.
Qed.
(** no number at the current position: status 1, result untouched, letters, blanks
    and plus signs are stepped over *)
Theorem C40_null : forall pre s ireslt,
  (forall sg ds rest, ~ int_field s sg ds rest) ->
  exists seen junk rest0 rest', palIntin (pre ++ s) (length pre + 1) ireslt = Some (length seen + 1, ireslt, 1%Z) /\
    pre ++ s = seen ++ rest' /\ s = junk ++ rest0 /\
    all (fun c => isblank c || isalpha c || Ascii.eqb c "+") junk /\
    no_start (fun c => isblank c || isalpha c || Ascii.eqb c "+") rest0 /\ next_field rest0 rest'.
Proof.
  intros pre s ires NF. unfold palIntin.
  destruct (Nat.leb_spec 1 (length pre + 1)); [|lia].
  destruct (Nat.leb_spec (length pre + 1) (length (pre ++ s) + 1)); [|rewrite app_length in *; lia]. cbn [andb].
  rewrite skipn_pre. destruct (strtol_cases s) as [(sg & ds & rest & F)|[_ E]]; [now apply NF in F|].
  rewrite E. change (to_int 0) with 0%Z. unfold same_ptr. rewrite Nat.eqb_refl. cbn [Z.eqb andb].
  set (p := fun c => isblank c || isalpha c || Ascii.eqb c "+").
  set (r0 := drop_while p s). destruct (skip_sep_next r0) as (rest' & N & L).
  destruct (next_field_suffix r0 rest' N) as (q & Er).
  assert (Es : s = take_while p s ++ r0) by (unfold r0; now rewrite take_drop).
  exists (pre ++ take_while p s ++ q), (take_while p s), r0, rest'. split; [|split; [|split; [easy|split; [apply take_all|split; [apply drop_start|easy]]]]].
  - do 3 f_equal. assert (Le := f_equal (@length _) Es). rewrite !app_length in *. rewrite Er, app_length in *. lia.
  - rewrite Es at 1. rewrite Er, <- !app_assoc. reflexivity.
Qed.
(** every position inside the string is accepted, and the pointer only moves
    forward and stays inside *)
Theorem C40_pointer : forall string nstrt ireslt,
  (1 <= nstrt <= length string + 1)%nat ->
  exists nstrt' v j, palIntin string nstrt ireslt = Some (nstrt', v, j) /\
    (nstrt <= nstrt' <= length string + 1)%nat /\ (-1 <= j <= 2)%Z.
Proof.
  intros string nstrt ires H. unfold palIntin.
  destruct (Nat.leb_spec 1 nstrt); [|lia]. destruct (Nat.leb_spec nstrt (length string + 1)); [|lia]. cbn [andb].
  set (s := skipn (nstrt - 1) string).
  assert (Ls : length s = (length string - (nstrt - 1))%nat) by (unfold s; apply skipn_length).
  assert (R : exists v r e, strtol s = (v, r, e) /\ (length r <= length s)%nat).
  { destruct (strtol_cases s) as [(sg & ds & rest & F)|[_ ->]].
    - rewrite (strtol_field _ _ _ _ F). destruct (int_field_suffix _ _ _ _ F) as (q & _ & L). eexists _, _, _. split; [easy|lia].
    - eexists _, _, _. split; [easy|lia]. }
  destruct R as (v & r & e & -> & Lr). cbv zeta.
  destruct ((to_int v =? 0)%Z && same_ptr r s); [|destruct e].
  - set (p := fun c : ascii => (isblank c || isalpha c || Ascii.eqb c "+")%bool). assert (L1 := drop_len p r). assert (L2 := skip_sep_le (drop_while p r)).
    eexists _, _, _. split; [reflexivity|]. split; lia.
  - assert (L2 := skip_sep_le r). eexists _, _, _. split; [reflexivity|]. split; lia.
  - assert (L2 := skip_sep_le r). eexists _, _, _. split; [reflexivity|]. split; [lia|].
    destruct ((to_int v <? 0)%Z || scan_minus false s); lia.
Qed.
Definition S (s : string) : str := list_ascii_of_string s.
(** a typical string, its three fields, and the way an explicit minus zero is told apart *)
Example C40_fields : palIntin (S "xx -12, +7") 3 99 = Some (8%nat, (-12)%Z, (-1)%Z) /\
  palIntin (S "xx -12, +7") 8 99 = Some (11%nat, 7%Z, 0%Z) /\ palIntin (S "xx -12, +7") 11 99 = Some (11%nat, 99%Z, 1%Z) /\
  palIntin (S "-0") 1 99 = Some (3%nat, 0%Z, (-1)%Z) /\ int_field (S " -12, +7") (Some true) (S "12") (S ", +7").
Proof. repeat split. exists (S " "). repeat split. discriminate. Qed.
(** A number that fits a long but not an int is returned modulo 2^32, with an OK status. *)
Theorem C40_wide_refuted : palIntin (S "4294967297") 1 99 = Some (11%nat, 1%Z, 0%Z) /\
  palIntin (S "4294967296") 1 99 = Some (11%nat, 0%Z, 0%Z) /\ palIntin (S "2147483648") 1 99 = Some (11%nat, (- 2147483648)%Z, (-1)%Z).
Proof. vm_compute. repeat split. Qed.
(** the general law *)
Theorem C40_value_mod : forall pre s sg ds rest ireslt,
  int_field s sg ds rest -> (LONG_MIN <= signed sg (dval ds) <= LONG_MAX)%Z ->
  exists n v j, palIntin (pre ++ s) (length pre + 1) ireslt = Some (n, v, j) /\
    (- 2 ^ 31 <= v < 2 ^ 31)%Z /\ ((v - signed sg (dval ds)) mod 2 ^ 32 = 0)%Z /\ (j = 0 \/ j = -1)%Z.
Proof.
  intros pre s sg ds rest ires F Hv. unfold palIntin.
  destruct (Nat.leb_spec 1 (length pre + 1)); [|lia].
  destruct (Nat.leb_spec (length pre + 1) (length (pre ++ s) + 1)); [|rewrite app_length in *; lia]. cbn [andb].
  rewrite skipn_pre. rewrite (strtol_field s sg ds rest F). rewrite clamp_id by easy. cbn [fst snd].
  destruct (int_field_suffix s sg ds rest F) as (q & Es & L). rewrite (same_ptr_false rest s L), andb_false_r.
  set (v := signed sg (dval ds)).
  destruct ((to_int v <? 0)%Z || scan_minus false s); cbn [Z.eqb]; eexists _, (to_int v), _; (split; [reflexivity|]); unfold to_int;
  assert (B := Z.mod_pos_bound (v + 2 ^ 31) (2 ^ 32) ltac:(lia)); (split; [lia|]); (split; [|lia]);
  rewrite (Z.mod_eq (v + 2 ^ 31)) by lia; 
  match goal with |- (?x mod _ = 0)%Z => replace x with ((- ((v + 2 ^ 31) / 2 ^ 32)) * 2 ^ 32)%Z by ring end; apply Z.mod_mul; lia.
Qed.

(** ** C41  documented: on overflow the result is LONG_MAX, on underflow LONG_MIN.
    Refuted: the long is squeezed into an int, giving -1 and 0. *)
Theorem C41_overflow_refuted : forall pre s sg ds rest ireslt,
  int_field s sg ds rest ->
  ((LONG_MAX < signed sg (dval ds))%Z -> exists n, palIntin (pre ++ s) (length pre + 1) ireslt = Some (n, (-1)%Z, 2%Z)) /\
  ((signed sg (dval ds) < LONG_MIN)%Z -> exists n, palIntin (pre ++ s) (length pre + 1) ireslt = Some (n, 0%Z, 2%Z)).
Proof.
  intros pre s sg ds rest ires F. unfold palIntin.
  destruct (Nat.leb_spec 1 (length pre + 1)); [|lia].
  destruct (Nat.leb_spec (length pre + 1) (length (pre ++ s) + 1)); [|rewrite app_length in *; lia]. cbn [andb].
  rewrite skipn_pre. rewrite (strtol_field s sg ds rest F).
  destruct (int_field_suffix s sg ds rest F) as (q & Es & L). rewrite (same_ptr_false rest s L).
  unfold clamp. set (v := signed sg (dval ds)). split; intros H1.
  - destruct (Z.ltb_spec LONG_MAX v); [|lia]. cbn [fst snd]. rewrite andb_false_r. change (to_int LONG_MAX) with (-1)%Z. eexists. reflexivity.
  - destruct (Z.ltb_spec LONG_MAX v); [unfold LONG_MAX, LONG_MIN in *; lia|]. destruct (Z.ltb_spec v LONG_MIN); [|lia]. cbn [fst snd].
    rewrite andb_false_r. change (to_int LONG_MIN) with 0%Z. eexists. reflexivity.
Qed.
Example C41_case : palIntin (S "99999999999999999999 5") 1 0 = Some (22%nat, (-1)%Z, 2%Z).
Proof. reflexivity. Qed.
