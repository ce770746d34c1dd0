(** * Headline theorems: palObs. *)
From Coq Require Import ZArith Bool Ascii String Arith Lia Reals Lra List.
From Verif Require Import Num NumR Erfa ObsTable M_Str P_Str.
Import ListNotations.
Local Open Scope R_scope.
Local Notation str_of := list_ascii_of_string.

(** ** C44  palObs
    The table itself (ObsTable.v) is the specification of the stations: west-positive
    longitude and latitude in degrees, minutes and seconds, height in metres. *)
Definition dms (d m : Z) (s : R) : R := (IZR d + IZR m / 60 + s / 3600) * (PI / 180).
Definition longitude_west (t : tel) (x : R) : Prop :=
  match t_w t with West d m s => x = dms d m (litR s) | East d m s => x = - dms d m (litR s) | _ => False end.
Definition latitude (t : tel) (x : R) : Prop :=
  match t_p t with North d m s => x = dms d m (litR s) | South d m s => x = - dms d m (litR s) | _ => False end.
Definition ident (t : tel) : str := str_of (t_short t).
Definition fullname (t : tel) : str := str_of (t_long t).
(** the entry [t] has been reported *)
Definition reports (t : tel) (r : Z * obs_out) : Prop :=
  fst r = 0%Z /\ o_ident (snd r) = ident t /\ o_name (snd r) = fullname t /\
  longitude_west t (o_w (snd r)) /\ latitude t (o_p (snd r)) /\ o_h (snd r) = litR (t_h t).
Definition same_but_case (a b : str) : Prop := map tolower a = map tolower b.

Definition west_or_east (a : angle) : bool := match a with West _ _ _ | East _ _ _ => true | _ => false end.
Lemma table_shape : forallb (fun t => (west_or_east (t_w t) && negb (west_or_east (t_p t)) &&
  (length (ident t) <=? 10)%nat && (length (fullname t) <=? 40)%nat)) telData = true.
Proof. vm_compute. reflexivity. Qed.
Lemma fill_reports : forall t il nl, In t telData -> (11 <= il)%nat -> (41 <= nl)%nat -> reports t (0%Z, fill t il nl).
Proof.
  intros t il nl Hin Hi Hn. assert (K := table_shape). rewrite forallb_forall in K. specialize (K t Hin).
  apply andb_true_iff in K. destruct K as [K L2]. apply andb_true_iff in K. destruct K as [K L1].
  apply andb_true_iff in K. destruct K as [K1 K2]. apply Nat.leb_le in L1, L2.
  unfold reports, fill. cbn [fst snd o_ident o_name o_w o_p o_h]. split; [easy|].
  split; [apply firstn_all2; unfold ident in *; lia|]. split; [apply firstn_all2; unfold fullname in *; lia|].
  unfold longitude_west, latitude, dms. split; [|split; [|reflexivity]].
  - destruct (t_w t); try discriminate K1; unfold angle_val, asec, DAS2R; rn; field.
  - destruct (t_p t); try discriminate K2; unfold angle_val, asec, DAS2R; rn; field.
Qed.
Theorem C44_by_number : forall k t c il nl o, nth_error telData k = Some t -> (11 <= il)%nat -> (41 <= nl)%nat ->
  reports t (palObs (S k) c il nl o).
Proof.
  intros k t c il nl o H Hi Hn. unfold palObs. rewrite H. apply fill_reports; try easy. now apply nth_error_In in H.
Qed.
Fixpoint distinct (l : list str) : bool :=
  match l with [] => true | x :: r => negb (existsb (fun y => if list_eq_dec ascii_dec x y then true else false) r) && distinct r end.
Lemma distinct_NoDup : forall l, distinct l = true -> NoDup l.
Proof.
  induction l as [|x l IH]; intros H; [constructor|]. cbn in H. apply andb_true_iff in H. destruct H as [H1 H2].
  constructor; [|auto]. intros K. apply negb_true_iff in H1. assert (E : existsb (fun y => if list_eq_dec ascii_dec x y then true else false) l = true).
  { apply existsb_exists. exists x. split; [easy|]. now destruct (list_eq_dec ascii_dec x x). }
  congruence.
Qed.
Lemma ids_distinct : NoDup (map (fun t => map tolower (ident t)) telData).
Proof. apply distinct_NoDup. vm_compute. reflexivity. Qed.
Lemma search_some : forall l c t, search c l = Some t -> In t l /\ same_but_case c (ident t).
Proof.
  induction l as [|u l IH]; intros c t H; [easy|]. cbn [search] in H. unfold strcasecmp0 in H.
  destruct (list_eq_dec ascii_dec (map tolower c) (map tolower (str_of (t_short u)))) as [E|E].
  - injection H as <-. split; [now left|exact E].
  - destruct (IH c t H). split; [now right|easy].
Qed.
Lemma search_none : forall l c, search c l = None <-> forall t, In t l -> ~ same_but_case c (ident t).
Proof.
  induction l as [|u l IH]; intros c; cbn [search].
  - split; [now intros _ t []|easy].
  - unfold strcasecmp0. destruct (list_eq_dec ascii_dec (map tolower c) (map tolower (str_of (t_short u)))) as [E|E].
    + split; [easy|]. intros H. exfalso. apply (H u); [now left|exact E].
    + rewrite IH. split; [intros H t [->|Ht]; [exact E|now apply H]|intros H t Ht; apply H; now right].
Qed.
Lemma ids_unique : forall t u, In t telData -> In u telData -> same_but_case (ident t) (ident u) -> t = u.
Proof.
  assert (N := ids_distinct). generalize dependent telData. induction l as [|x l IH]; intros N t u Ht Hu E; [easy|].
  cbn [map] in N. apply NoDup_cons_iff in N. destruct N as [N1 N2].
  assert (K : forall y, In y l -> In (map tolower (ident y)) (map (fun t => map tolower (ident t)) l)).
  { intros y Hy. apply (in_map (fun t => map tolower (ident t))). exact Hy. }
  destruct Ht as [->|Ht], Hu as [->|Hu]; try easy.
  - exfalso. apply N1. rewrite E. now apply K.
  - exfalso. apply N1. rewrite <- E. now apply K.
  - now apply IH.
Qed.
Theorem C44_by_name : forall t c il nl o, In t telData -> same_but_case c (ident t) -> (11 <= il)%nat -> (41 <= nl)%nat ->
  reports t (palObs 0 c il nl o).
Proof.
  intros t c il nl o Ht E Hi Hn. unfold palObs. destruct (search c telData) as [u|] eqn:Es.
  - destruct (search_some _ _ _ Es) as [Hu Eu]. assert (u = t) as ->; [|now apply fill_reports].
    apply ids_unique; try easy. unfold same_but_case in *. congruence.
  - exfalso. rewrite search_none in Es. exact (Es t Ht E).
Qed.
(** otherwise status -1, the name is "?", and everything else keeps its value *)
Theorem C44_unknown : forall n c il (o : obs_out) nl, (2 <= nl)%nat ->
  (n = 0%nat /\ (forall t, In t telData -> ~ same_but_case c (ident t))) \/ (length telData < n)%nat ->
  palObs n c il nl o = ((-1)%Z, OO (o_ident o) (str_of "?") (o_w o) (o_p o) (o_h o)).
Proof.
  intros n c il o nl Hn H. unfold palObs.
  assert (Q : strellcpy ["?"%char] nl = str_of "?") by (apply firstn_all2; cbn; lia). rewrite Q.
  destruct H as [[-> H]|H].
  - now rewrite (proj2 (search_none telData c) H).
  - destruct n as [|k]; [lia|]. rewrite (proj2 (nth_error_None telData k)) by lia. reflexivity.
Qed.
(** buffers of any size receive as much of the text as fits, and no station has a space in its identifier *)
Theorem C44_truncates : forall k t c il nl o, nth_error telData k = Some t ->
  o_ident (snd (palObs (T := R) (S k) c il nl o)) = firstn (il - 1) (ident t) /\
  o_name (snd (palObs (T := R) (S k) c il nl o)) = firstn (nl - 1) (fullname t) /\
  ~ In " "%char (ident t).
Proof.
  intros k t c il nl o H. unfold palObs. rewrite H. cbn [snd fill o_ident o_name]. repeat split; try easy.
  intros K. assert (F : forallb (fun t => forallb (fun c => negb (Ascii.eqb c " ")) (ident t)) telData = true) by (vm_compute; reflexivity).
  rewrite forallb_forall in F. specialize (F t (nth_error_In _ _ H)). rewrite forallb_forall in F. specialize (F _ K). discriminate F.
Qed.
(** every station of the table is a possible place: longitude within half a turn, latitude within a
    quarter, minutes and seconds in range *)
Definition arc_ok (lim : Z) (a : angle) : bool :=
  match a with West d m s | East d m s | North d m s | South d m s =>
    ((0 <=? d) && (d <? lim) && (0 <=? m) && (m <? 60) && (0 <=? dmant s) && (dexp s <=? 0) && (dmant s <? 60 * 10 ^ (- dexp s)))%Z end.
Lemma table_ranges : forallb (fun t => arc_ok 180 (t_w t) && arc_ok 90 (t_p t)) telData = true.
Proof. vm_compute. reflexivity. Qed.
Lemma arc_ok_dms : forall lim d m s, arc_ok lim (West d m s) = true -> 0 <= dms d m (litR s) < IZR lim * (PI / 180).
Proof.
  intros lim d m [c e] H. cbn [arc_ok dmant dexp] in H. repeat (apply andb_true_iff in H; destruct H as [H ?]).
  apply Z.leb_le in H. repeat match goal with K : (_ <=? _)%Z = true |- _ => apply Z.leb_le in K | K : (_ <? _)%Z = true |- _ => apply Z.ltb_lt in K end.
  assert (S : 0 <= litR (MkDec c e) < 60).
  { unfold litR. cbn [dmant dexp].
    assert (P : (0 < 10 ^ (- e))%Z) by (apply Z.pow_pos_nonneg; lia).
    destruct (Z.leb_spec 0 e).
    - assert (e = 0)%Z by lia. subst e. cbn in *. split; [apply IZR_le; lia|apply IZR_lt; lia].
    - apply IZR_lt in P. split.
      + apply Rmult_le_pos; [apply IZR_le; lia|left; now apply Rinv_0_lt_compat].
      + apply Rmult_lt_reg_r with (IZR (10 ^ (- e))); [easy|]. unfold Rdiv. rewrite Rmult_assoc, Rinv_l, Rmult_1_r by lra.
        rewrite <- mult_IZR. apply IZR_lt. lia. }
  unfold dms. assert (0 <= IZR d /\ IZR d <= IZR lim - 1). { split; [apply IZR_le; lia|]. rewrite <- minus_IZR. apply IZR_le. lia. }
  assert (0 <= IZR m <= 59) by (split; apply IZR_le; lia). assert (0 < PI) by apply PI_RGT_0. split.
  - apply Rmult_le_pos; lra.
  - apply Rmult_lt_compat_r; lra.
Qed.
Theorem C44_places : forall k t c il nl o, nth_error telData k = Some t ->
  let r := snd (palObs (T := R) (S k) c il nl o) in Rabs (o_w r) < PI /\ Rabs (o_p r) < PI / 2.
Proof.
  intros k t c il nl o H r.
  assert (F : forallb (fun t => arc_ok 180 (t_w t) && arc_ok 90 (t_p t)) telData = true) by apply table_ranges.
  rewrite forallb_forall in F. specialize (F t (nth_error_In _ _ H)). apply andb_true_iff in F. destruct F as [F1 F2].
  assert (L : reports t (palObs (S k) c 11 41 o)) by (apply C44_by_number; auto).
  assert (Ew : o_w r = o_w (snd (palObs (S k) c 11 41 o))) by (unfold r, palObs; now rewrite H).
  assert (Ep : o_p r = o_p (snd (palObs (S k) c 11 41 o))) by (unfold r, palObs; now rewrite H).
  rewrite Ew, Ep. destruct L as (_ & _ & _ & Lw & Lp & _). unfold longitude_west, latitude in *.
  assert (P := PI_RGT_0). split.
  - destruct (t_w t) as [d m s|d m s|d m s|d m s]; try easy; assert (B := arc_ok_dms 180 d m s F1); rewrite Lw; apply Rabs_def1; lra.
  - destruct (t_p t) as [d m s|d m s|d m s|d m s]; try easy; assert (B := arc_ok_dms 90 d m s F2); rewrite Lp; apply Rabs_def1; lra.
Qed.
Example C44_case : exists t, reports t (palObs 0 (str_of "jcmt") 11 41 (OO [] [] 0 0 0)) /\ fullname t = str_of "JCMT 15 metre".
Proof.
  destruct (search (str_of "jcmt") telData) as [t|] eqn:E; [|vm_compute in E; discriminate E].
  exists t. split.
  - destruct (search_some _ _ _ E). apply C44_by_name; auto.
  - vm_compute in E. injection E as <-. reflexivity.
Qed.

(** ** C45  Documented: "All characters in c up to the first space are checked; thus an
    abbreviated ID will return the parameters for the first station in the list which
    matches the abbreviation supplied".  Refuted: the whole string must be an identifier. *)
Definition abbreviates (c : str) (t : tel) : Prop := exists q, map tolower (ident t) = map tolower (take_while (fun x => negb (Ascii.eqb x " ")) c) ++ q.
Theorem C45_abbreviation_refuted : exists t, In t telData /\ abbreviates (str_of "LPO") t /\ abbreviates (str_of "LPO4.2 ") t /\
  forall il o, palObs (T := R) 0 (str_of "LPO") il 41 o = ((-1)%Z, OO (o_ident o) (str_of "?") (o_w o) (o_p o) (o_h o)) /\
               palObs (T := R) 0 (str_of "LPO4.2 ") il 41 o = ((-1)%Z, OO (o_ident o) (str_of "?") (o_w o) (o_p o) (o_h o)).
Proof.
  destruct telData as [|t0 [|t1 l]] eqn:E; [discriminate E..|]. exists t1. split; [right; now left|].
  injection E as <- <- <-. split; [now exists (str_of "4.2")|]. split; [now exists []|]. intros il o. split; vm_compute; destruct o; reflexivity.
Qed.
(** what holds instead: only complete identifiers are found *)
Theorem C45_only_complete : forall c il nl o, fst (palObs (T := R) 0 c il nl o) = 0%Z <-> exists t, In t telData /\ same_but_case c (ident t).
Proof.
  intros c il nl o. unfold palObs. destruct (search c telData) as [t|] eqn:E.
  - split; [|easy]. intros _. exists t. now apply search_some.
  - split; [discriminate|]. intros (t & H1 & H2). rewrite search_none in E. now destruct (E t H1).
Qed.
