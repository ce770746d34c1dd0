(** * C105: the two variants of palDfltin *)
From Coq Require Import ZArith Bool Ascii String Arith Lia Reals Lra List.
From Verif Require Import Num NumR Erfa ObsTable M_Str M_Text P_Str P_Flt Props_Flt.
Import ListNotations.
Local Open Scope R_scope.

Lemma scan_ws : forall ws s, all isspace ws -> scan_for_minus (ws ++ s) = match scan_for_minus s with Some k => Some (length ws + k)%nat | None => None end.
Proof.
  unfold all. induction ws as [|c ws IH]; intros s H; [cbn; now destruct (scan_for_minus s)|]. cbn [forallb] in H. apply andb_true_iff in H. destruct H as [H1 H2].
  cbn [app scan_for_minus length]. rewrite IH by exact H2.
  assert (E : isdigit c = false /\ Ascii.eqb c "," = false /\ Ascii.eqb c "-" = false).
  { clear - H1. revert H1. destruct c as [[] [] [] [] [] [] [] []]; cbv; intros K; try discriminate K; repeat split. }
  destruct E as (-> & -> & ->). cbn [orb]. now destruct (scan_for_minus s).
Qed.
Lemma scan_number : forall sg n rest, negative sg = false -> number_ok is_ed n -> scan_for_minus (sign_text sg ++ number_text n ++ rest) = None.
Proof.
  intros sg n rest Hs (H1 & H2 & H3 & H4 & _).
  assert (G : scan_for_minus (number_text n ++ rest) = None).
  { unfold number_text. unfold all in *. destruct (n_int n) as [|c i].
    - cbn [app] in *. destruct (n_dot n); [|now rewrite H4 in H3]. destruct (n_frac n) as [|c f]; [easy|]. cbn [app scan_for_minus forallb] in *.
      apply andb_true_iff in H2. destruct H2 as [-> _]. reflexivity.
    - cbn [app scan_for_minus forallb] in *. apply andb_true_iff in H1. destruct H1 as [-> _]. reflexivity. }
  destruct sg as [[]|]; [discriminate| |exact G]. cbn [sign_text app scan_for_minus]. change (isdigit "+"%char) with false. change (Ascii.eqb "+" ",") with false. change (Ascii.eqb "+" "-") with false. cbn [orb]. now rewrite G.
Qed.
(** C105: without [copysign] a number (optional white space, sign, digits, ...) is decoded in the same way *)
Theorem C105_scan_number : forall strtod, conforms strtod -> forall pre s ws sg n rest dreslt,
  s = ws ++ sign_text sg ++ number_text n ++ rest -> (length s <= 255)%nat ->
  all isspace ws -> number_ok is_ed n -> stops_f n rest ->
  sr_erange (strtod (map d2e s)) = false -> sr_erange (strtod (map d2e (sign_text sg ++ number_text n ++ rest))) = false ->
  palDfltin_scan strtod (pre ++ s) (length pre + 1) dreslt = palDfltin strtod (pre ++ s) (length pre + 1) dreslt.
Proof.
  intros strtod C pre s ws sg n rest d E L Hw Hn Hs Her Her2. unfold palDfltin_scan.
  destruct (Nat.leb_spec 1 (length pre + 1)) as [_|?]; [|lia].
  destruct (Nat.leb_spec (length pre + 1) (length (pre ++ s) + 1)) as [_|X]; [|rewrite app_length in X; lia]. cbn [andb].
  replace (length pre + 1 - 1)%nat with (length pre) by lia. rewrite skipn_app, skipn_all, Nat.sub_diag. cbn [app skipn].
  destruct (C42_number strtod C pre s ws sg n rest d E L Hw Hn Hs Her) as (seen & r1 & E1 & S1 & N1).
  assert (Ef : scan_for_minus s = if negative sg then Some (length ws) else None).
  { rewrite E, scan_ws by exact Hw. destruct (negative sg) eqn:Ng; [|now rewrite scan_number]. destruct sg as [[]|]; try discriminate. cbn. now rewrite Nat.add_0_r. }
  rewrite Ef. destruct (negative sg) eqn:Ng.
  - set (s2 := sign_text sg ++ number_text n ++ rest) in *.
    assert (L2 : (length s2 <= 255)%nat) by (rewrite E, app_length in L; lia).
    destruct (C42_number strtod C (pre ++ ws) s2 [] sg n rest d eq_refl L2 eq_refl Hn Hs Her2) as (seen2 & r2 & E2 & S2 & N2).
    rewrite <- app_assoc, <- E in E2, S2. rewrite app_length in E2. replace (length pre + length ws + 1)%nat with (length pre + 1 + length ws)%nat in E2 by lia.
    rewrite E2, E1, Ng. cbn [Z.eqb orb]. assert (r1 = r2) by now apply (next_field_uniq rest). subst r2.
    assert (Ls : length seen = length seen2) by (rewrite S1 in S2; apply (f_equal (@length _)) in S2; rewrite !app_length in S2; lia). now rewrite Ls.
  - rewrite E1. reflexivity.
Qed.
(** ... but other text is not: a minus sign after letters is found by one variant only *)
Theorem C105_scan_refuted : forall strtod, conforms strtod -> sr_erange (strtod (list_ascii_of_string "-5")) = false ->
  strtod (list_ascii_of_string "abc-5") = SR 0 false (list_ascii_of_string "abc-5") false ->
  palDfltin_scan strtod (list_ascii_of_string "abc-5") 1 99 = Some (6%nat, -5, (-1)%Z) /\
  palDfltin strtod (list_ascii_of_string "abc-5") 1 99 = Some (4%nat, 99, 1%Z).
Proof.
  intros strtod C Er E. split.
  - set (n := Num (list_ascii_of_string "5") false [] None).
    assert (Hn : number_ok is_ed n) by (unfold number_ok; cbn; repeat (split; [easy|]); easy).
    assert (Hs : stops_f n []) by (split; [exact I|]; intros _; split; [intros []|intros _; exact I]).
    destruct (C42_number strtod C (list_ascii_of_string "abc") (list_ascii_of_string "-5") [] (Some true) n [] 99 eq_refl ltac:(cbn; lia) eq_refl Hn Hs Er) as (seen & r & E1 & S1 & N1).
    unfold palDfltin_scan. change ((1 <=? 1)%nat && _) with true. cbn iota. change (scan_for_minus _) with (Some 3%nat). cbn iota.
    change (list_ascii_of_string "abc" ++ list_ascii_of_string "-5") with (list_ascii_of_string "abc-5") in *. change (length (list_ascii_of_string "abc") + 1)%nat with 4%nat in E1.
    change (1 + 3)%nat with 4%nat. rewrite E1. cbn [negative Z.eqb orb].
    assert (Lr : r = []).
    { destruct N1 as [N1|[_ (bl & N1 & _)]]; [discriminate|]. destruct bl; [now destruct r|discriminate]. }
    subst r. rewrite app_nil_r in S1. subst seen. do 3 f_equal.
    unfold number_val. cbn. lra.
  - unfold palDfltin. change ((1 <=? 1)%nat && _) with true. cbn iota.
    change (map d2e (firstn 255 (skipn (1 - 1) (list_ascii_of_string "abc-5")))) with (list_ascii_of_string "abc-5"). rewrite E. cbv zeta. cbn [sr_val sr_end].
    assert (B : ((0 : R) ==? #0)%num = true) by (cbn; apply Reqb_true; rlit; lra). rewrite B. reflexivity.
Qed.
(** the hypotheses can be met *)
Example C105_scan_eg : conforms strtod_dec /\ sr_erange (strtod_dec (list_ascii_of_string "-5")) = false /\
  strtod_dec (list_ascii_of_string "abc-5") = SR 0 false (list_ascii_of_string "abc-5") false.
Proof. split; [exact strtod_dec_conforms|]. split; reflexivity. Qed.
