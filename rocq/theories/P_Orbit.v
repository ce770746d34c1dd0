(** * Control flow of the orbit functions, for every arithmetic; termination over the reals. *)
From Coq Require Import Reals ZArith Lra Lia Bool List.
From Verif Require Import Num NumR Erfa M_Sphere M_Place M_Orbit Geom.
Import ListNotations.
Global Opaque NITMAX.

Section Gen.
  Context {T : Type} {A : Arith T}.

  Lemma ue_halve_mono : forall hf n b p p2 x, ue_halve hf n b p p2 = Some x ->
    forall hf', (hf <= hf')%nat -> ue_halve hf' n b p p2 = Some x.
  Proof.
    induction hf; intros n b p p2 x H hf' L; cbn in H; destruct hf'; cbn; destruct (ltb #0.7 (fabs b))%num; try easy; try lia.
    apply IHhf; [easy|lia].
  Qed.
  Lemma ue_sfun_mono : forall hf al psi x, ue_sfun hf al psi = Some x ->
    forall hf', (hf <= hf')%nat -> ue_sfun hf' al psi = Some x.
  Proof.
    intros hf al psi x H hf' L. unfold ue_sfun in *.
    destruct (ue_halve hf 0 (mul al (mul psi psi)) psi (mul psi psi)) as [y|] eqn:E; [|easy].
    now rewrite (ue_halve_mono _ _ _ _ _ _ E _ L).
  Qed.
  Lemma ue_iter_mono : forall left hf cm al r0 sg dt psi pl fl first x,
    ue_iter left hf cm al r0 sg dt psi pl fl first = Some x ->
    forall hf', (hf <= hf')%nat -> ue_iter left hf' cm al r0 sg dt psi pl fl first = Some x.
  Proof.
    induction left; intros hf cm al r0 sg dt psi pl fl first x H hf' L; cbn in *;
      destruct (ue_sfun hf al psi) as [[s tol]|] eqn:E; try easy; rewrite (ue_sfun_mono _ _ _ _ E _ L).
    - exact H.
    - match goal with |- context [if ?c then _ else _] => destruct c end; [easy|].
      match goal with |- context [leb tol ?c] => destruct (leb tol c) end; [|easy].
      eapply IHleft; eassumption.
  Qed.
  Lemma palUe2pv_mono : forall hf date u p x, palUe2pv hf date u p = Some x ->
    forall hf', (hf <= hf')%nat -> palUe2pv hf' date u p = Some x.
  Proof.
    intros hf date u p x H hf' L. unfold palUe2pv in *.
    match type of H with match ?t with _ => _ end = _ => destruct t as [o|] eqn:E end; [|easy].
    now rewrite (ue_iter_mono _ _ _ _ _ _ _ _ _ _ _ _ E _ L).
  Qed.

  Lemma ue_iter_status : forall left hf cm al r0 sg dt psi pl fl first st,
    ue_iter left hf cm al r0 sg dt psi pl fl first = Some (UFail st) -> st = (-1)%Z \/ st = (-2)%Z.
  Proof.
    induction left; intros hf cm al r0 sg dt psi pl fl first st H; cbn in H;
      destruct (ue_sfun hf al psi) as [[s tol]|]; try easy;
      (match type of H with (if ?c then _ else _) = _ => destruct c end; [injection H as <-; now left|]).
    - injection H as <-. now right.
    - match type of H with (if ?c then _ else _) = _ => destruct c end; [|easy]. eauto.
  Qed.
  Lemma palUe2pv_cases : forall hf date u p x, palUe2pv hf date u p = Some x ->
    (exists st, (st = -1 \/ st = -2)%Z /\ x = (st, u, p)) \/
    (exists psi q, x = (0%Z, UE (u_cm u) (u_alpha u) (u_t0 u) (u_p0 u) (u_v0 u) (u_r0 u) (u_sigma0 u) date psi, q)).
  Proof.
    intros hf date u p x H. unfold palUe2pv in H.
    match type of H with match ?t with _ => _ end = _ => destruct t as [[st|s r psi']|] eqn:E end; try easy.
    - apply ue_iter_status in E. left. exists st. split; [easy|now injection H].
    - right. injection H as <-. eexists; eexists; reflexivity.
  Qed.
  Lemma palPv2ue_cases : forall p date pm j o, palPv2ue p date pm = (j, o) ->
    (j = 0%Z /\ exists u, o = Some u) \/ ((j = -1 \/ j = -2 \/ j = -3)%Z /\ o = None).
  Proof.
    intros p date pm j o H. unfold palPv2ue in H.
    repeat match type of H with (if ?c then _ else _) = _ => destruct c end; injection H as <- <-;
      (left; split; [easy|eexists; reflexivity]) || (right; split; [lia|reflexivity]).
  Qed.
  Lemma el_check_cases : forall jform aorq e dm, let c := el_check jform aorq e dm in (c = 0 \/ c = -1 \/ c = -2 \/ c = -3 \/ c = -4)%Z.
  Proof.
    intros. unfold c, el_check. repeat match goal with |- context [if ?c then _ else _] => destruct c end; lia.
  Qed.
  (** palEl2ue: the status is that of the validation unless that is 0; then it is 0 (with elements) or -5 (without) *)
  Lemma palEl2ue_cases : forall hf date jform epoch orbinc anode perih aorq e aorl dm x,
    palEl2ue hf date jform epoch orbinc anode perih aorq e aorl dm = Some x ->
    (el_check jform aorq e dm <> 0%Z /\ x = (el_check jform aorq e dm, None)) \/
    (el_check jform aorq e dm = 0%Z /\ (x = (-5, None)%Z \/ exists u, x = (0%Z, Some u))).
  Proof.
    intros hf date jform epoch orbinc anode perih aorq e aorl dm x H. unfold palEl2ue in H.
    destruct (Z.eqb_spec (el_check jform aorq e dm) 0) as [E|E]; cbn [negb] in H.
    - right. split; [easy|].
      destruct (el_std jform epoch anode perih aorq e aorl dm) as [[[pht argph] q] cm].
      match type of H with match ?t with _ => _ end = _ => destruct t as [[[j ul] p]|] eqn:E2 end; [|easy].
      destruct (negb (j =? 0)%Z); [left; now injection H|].
      destruct (palPv2ue p date (cm - #1.0)%num) as [j' o] eqn:E3.
      destruct (palPv2ue_cases _ _ _ _ _ E3) as [[-> [u ->]]|[Hj ->]]; cbn [negb Z.eqb] in H.
      + right. exists u. now injection H.
      + destruct (Z.eqb_spec j' 0); [lia|]. left. now injection H.
    - left. split; [easy|now injection H].
  Qed.
  Lemma palEl2ue_mono : forall hf date jform epoch orbinc anode perih aorq e aorl dm x,
    palEl2ue hf date jform epoch orbinc anode perih aorq e aorl dm = Some x ->
    forall hf', (hf <= hf')%nat -> palEl2ue hf' date jform epoch orbinc anode perih aorq e aorl dm = Some x.
  Proof.
    intros hf date jform epoch orbinc anode perih aorq e aorl dm x H hf' L. unfold palEl2ue in *.
    destruct (negb (el_check jform aorq e dm =? 0)%Z); [easy|].
    destruct (el_std jform epoch anode perih aorq e aorl dm) as [[[pht argph] q] cm].
    match type of H with match ?t with _ => _ end = _ => destruct t as [y|] eqn:E2 end; [|easy].
    now rewrite (palUe2pv_mono _ _ _ _ _ E2 _ L).
  Qed.

  (** the elements that palPertue works with *)
  Lemma pt_elements_jstat : forall plan94 tpel nps js js' us,
    pt_elements plan94 tpel nps js = Ok (js', us) -> (js' = js \/ js' = 102)%Z /\ length us = length nps.
  Proof.
    induction nps; intros js js' us H; cbn in H.
    - injection H as <- <-. split; [now left|easy].
    - destruct (palPlanet plan94 tpel a) as [j p]. destruct ((j =? 1)%Z || (j =? 0)%Z); [|easy].
      destruct (palPv2ue p tpel #0.0%num) as [[] [u|]]; try easy.
      match type of H with rbind ?t _ = _ => destruct t as [[js2 us2]| |] eqn:E end; cbn in H; try easy.
      injection H as <- <-. apply IHnps in E. destruct E as [E E2]. split; [|cbn; now rewrite E2].
      destruct (j =? 1)%Z; lia.
  Qed.
  Lemma pt_motions_length : forall hf tpmo ups l, pt_motions hf tpmo ups = Ok l -> length l = length ups.
  Proof.
    induction ups; intros l H; cbn in H; [now injection H as <-|].
    destruct (palUe2pv hf tpmo a pv_junk) as [[[j u'] p]|]; [|easy]. destruct (negb (j =? 0)%Z); [easy|].
    destruct (pt_motions hf tpmo ups) as [ds| |]; cbn in H; try easy. injection H as <-. cbn. f_equal. now apply IHups.
  Qed.
  Definition ok_jstat (j : Z) : Prop := (j = 0 \/ 1 <= j <= 9 \/ j = 101 \/ j = 102)%Z.
  Lemma pt_body_jstat : forall pvb np rho st, ok_jstat (snd st) -> (1 <= np <= 9)%Z -> ok_jstat (snd (pt_body pvb np rho st)).
  Proof.
    intros pvb np rho [[ne fd] js] H N. unfold pt_body.
    match goal with |- context [if ?c then _ else _] => destruct c end;
      match goal with |- context [if ?c then _ else _] => destruct c end; cbn [snd] in *; auto; try (unfold ok_jstat; lia);
      match goal with |- context [if ?c then _ else _] => destruct c end; cbn [snd] in *; auto; unfold ok_jstat; lia.
  Qed.
  Lemma pt_bodies_jstat : forall nps dat pe pm pvb dt st, Forall (fun n => 1 <= n <= 9)%Z nps -> ok_jstat (snd st) ->
    ok_jstat (snd (pt_bodies nps dat pe pm pvb dt st)).
  Proof.
    induction nps; intros dat pe pm pvb dt st F H; [easy|]. inversion F as [|? ? F1 F2]; subst. cbn [pt_bodies].
    apply IHnps; [easy|]. destruct (a <=? 8)%Z.
    - destruct (nth_error dat _); [now apply pt_body_jstat|easy].
    - destruct (fst (fst st)); [now apply pt_body_jstat|easy].
  Qed.
  Lemma pt_range_ok : Forall (fun n => 1 <= n <= 9)%Z pt_range.
  Proof. unfold pt_range. repeat constructor; lia. Qed.
  (** the Moon's position is never used *)
  Lemma pt_bodies_moon : forall nps dat pe pm pm' pvb dt st, Forall (fun n => 1 <= n <= 9)%Z nps ->
    pt_bodies nps dat pe pm pvb dt st = pt_bodies nps dat pe pm' pvb dt st.
  Proof.
    induction nps; intros dat pe pm pm' pvb dt st F; [easy|]. inversion F as [|? ? F1 F2]; subst. cbn [pt_bodies].
    rewrite (IHnps dat pe pm pm') by easy. f_equal. destruct (Z.leb_spec a 8); [easy|].
    destruct (Z.eqb_spec a 9); [easy|lia].
  Qed.
  Lemma pt_step_moon : forall plan94 epv00 moon moon' hf tf fb s,
    pt_step plan94 epv00 moon hf tf fb s = pt_step plan94 epv00 moon' hf tf fb s.
  Proof.
    intros. unfold pt_step.
    match goal with |- rbind ?x ?f = rbind ?x ?g => destruct x as [[[tpel js] up]| |]; cbn [rbind]; reflexivity end.
  Qed.
  Lemma pt_loop_moon : forall plan94 epv00 moon moon' hf n tf fb s,
    pt_loop plan94 epv00 moon hf n tf fb s = pt_loop plan94 epv00 moon' hf n tf fb s.
  Proof.
    induction n; intros tf fb s; cbn [pt_loop]; [easy|].
    destruct (ltb #0.0 (mul fb (ps_tleft s)))%num; [|easy]. rewrite (pt_step_moon _ _ moon moon').
    destruct (pt_step plan94 epv00 moon' hf tf fb s); cbn [rbind]; auto.
  Qed.
  Lemma pt_step_jstat : forall plan94 epv00 moon hf tf fb s s', ok_jstat (ps_jstat s) ->
    pt_step plan94 epv00 moon hf tf fb s = Ok s' -> ok_jstat (ps_jstat s').
  Proof.
    intros plan94 epv00 moon hf tf fb s s' O H. unfold pt_step in H.
    match type of H with rbind ?x ?f = _ => destruct x as [[[tpel js] up]| |] eqn:E1; cbn [rbind] in H; [|discriminate H|discriminate H] end.
    assert (O1 : ok_jstat js).
    { match type of E1 with (if ?c then _ else _) = _ => destruct c end; [|injection E1 as _ <- _; easy].
      match type of E1 with rbind ?x ?f = _ => destruct x as [[js2 up2]| |] eqn:E2; cbn [rbind] in E1; [|discriminate E1|discriminate E1] end.
      injection E1 as _ <- _. apply pt_elements_jstat in E2. destruct E2 as [[-> | ->] _]; [easy|unfold ok_jstat; lia]. }
    match type of H with rbind ?x ?f = _ => destruct x as [[[tpmo up'] pl]| |] eqn:E3; cbn [rbind] in H; [|discriminate H|discriminate H] end.
    match type of H with match ?t with _ => _ end = _ => destruct t as [[[j u'] p]|]; [|discriminate H] end.
    destruct (negb (j =? 0)%Z); [discriminate H|]. destruct (palEpv epv00 _) as [[[pe x1] x2] x3].
    match type of H with match ?t with _ => _ end = _ =>
      assert (O2 : ok_jstat (snd t)) by (apply pt_bodies_jstat; [apply pt_range_ok|easy]); destruct t as [[ne fd] js3] end.
    cbn [snd] in O2.
    match type of H with (if ?c then _ else _) = _ => destruct c end.
    - match type of H with match ?t with _ => _ end = _ => destruct t as [[[j2 u2] p2]|]; [|discriminate H] end.
      destruct (negb (j2 =? 0)%Z); [discriminate H|].
      match type of H with match ?t with _ => _ end = _ => destruct t as [[] [ul'|]]; try discriminate H end.
      now injection H as <-.
    - now injection H as <-.
  Qed.
  Lemma pt_loop_jstat : forall plan94 epv00 moon hf n tf fb s s', ok_jstat (ps_jstat s) ->
    pt_loop plan94 epv00 moon hf n tf fb s = Ok s' -> ok_jstat (ps_jstat s').
  Proof.
    induction n; intros tf fb s s' O H; cbn [pt_loop] in H;
      (destruct (ltb #0.0 (mul fb (ps_tleft s)))%num; [|injection H as <-; easy]); [easy|].
    destruct (pt_step plan94 epv00 moon hf tf fb s) as [s2| |] eqn:E; cbn [rbind] in H; [|discriminate H|discriminate H].
    apply pt_step_jstat in E; eauto.
  Qed.
  (** more fuel does not change a result *)
  Lemma pt_motions_mono : forall hf tpmo ups, pt_motions hf tpmo ups <> Stuck ->
    forall hf', (hf <= hf')%nat -> pt_motions hf' tpmo ups = pt_motions hf tpmo ups.
  Proof.
    induction ups as [|u ups IH]; intros H hf' L; cbn [pt_motions] in *; [easy|].
    destruct (palUe2pv hf tpmo u pv_junk) as [[[j u'] p]|] eqn:E; [|now contradict H].
    rewrite (palUe2pv_mono _ _ _ _ _ E _ L). destruct (negb (j =? 0)%Z); [easy|].
    rewrite IH; [easy| |easy]. intros F. rewrite F in H. now apply H.
  Qed.
  Lemma pt_step_mono : forall plan94 epv00 moon hf tf fb s, pt_step plan94 epv00 moon hf tf fb s <> Stuck ->
    forall hf', (hf <= hf')%nat -> pt_step plan94 epv00 moon hf' tf fb s = pt_step plan94 epv00 moon hf tf fb s.
  Proof.
    intros plan94 epv00 moon hf tf fb s H hf' L. unfold pt_step in *.
    match goal with |- rbind ?x _ = _ => destruct x as [[[tpel js] up]| |]; cbn [rbind] in *; [|easy|easy] end.
    match type of H with context [if ?c then rbind (pt_motions _ _ _) _ else _] => destruct c end.
    - match type of H with context [pt_motions hf ?a ?b] => rewrite (pt_motions_mono hf a b) with (hf' := hf') end;
        [|intros F; rewrite F in H; now apply H|easy].
      match type of H with context [pt_motions hf ?a ?b] => destruct (pt_motions hf a b) as [l| |]; cbn [rbind] in *; [|easy|easy] end.
      match type of H with context [palUe2pv hf ?a ?b ?c] => destruct (palUe2pv hf a b c) as [[[j u'] p]|] eqn:E; [|now contradict H] end.
      rewrite (palUe2pv_mono _ _ _ _ _ E _ L). destruct (negb (j =? 0)%Z); [easy|].
      destruct (palEpv epv00 _) as [[[pe x1] x2] x3]. destruct (pt_bodies _ _ _ _ _ _ _) as [[ne fd] js3].
      match type of H with (if ?c then _ else _) <> _ => destruct c end; [|easy].
      match type of H with context [palUe2pv hf ?a ?b ?c] => destruct (palUe2pv hf a b c) as [[[j2 u2] p2]|] eqn:E2; [|now contradict H] end.
      rewrite (palUe2pv_mono _ _ _ _ _ E2 _ L). easy.
    - cbn [rbind] in *.
      match type of H with context [palUe2pv hf ?a ?b ?c] => destruct (palUe2pv hf a b c) as [[[j u'] p]|] eqn:E; [|now contradict H] end.
      rewrite (palUe2pv_mono _ _ _ _ _ E _ L). destruct (negb (j =? 0)%Z); [easy|].
      destruct (palEpv epv00 _) as [[[pe x1] x2] x3]. destruct (pt_bodies _ _ _ _ _ _ _) as [[ne fd] js3].
      match type of H with (if ?c then _ else _) <> _ => destruct c end; [|easy].
      match type of H with context [palUe2pv hf ?a ?b ?c] => destruct (palUe2pv hf a b c) as [[[j2 u2] p2]|] eqn:E2; [|now contradict H] end.
      rewrite (palUe2pv_mono _ _ _ _ _ E2 _ L). easy.
  Qed.
  Lemma pt_loop_mono : forall plan94 epv00 moon n hf tf fb s, pt_loop plan94 epv00 moon hf n tf fb s <> Stuck ->
    forall hf' n', (hf <= hf')%nat -> (n <= n')%nat ->
      pt_loop plan94 epv00 moon hf' n' tf fb s = pt_loop plan94 epv00 moon hf n tf fb s.
  Proof.
    induction n; intros hf tf fb s H hf' n' L L'; cbn [pt_loop] in H |- *;
      destruct (ltb #0.0 (mul fb (ps_tleft s)))%num eqn:E; try easy.
    - destruct n'; cbn [pt_loop]; rewrite E; easy.
    - destruct n'; [lia|]. cbn [pt_loop]. rewrite E.
      assert (H1 : pt_step plan94 epv00 moon hf tf fb s <> Stuck) by (intros F; rewrite F in H; now apply H).
      rewrite (pt_step_mono _ _ _ _ _ _ _ H1 _ L).
      destruct (pt_step plan94 epv00 moon hf tf fb s) as [s2| |]; cbn [rbind] in *; try easy. apply IHn; [easy|easy|lia].
    - destruct n'; cbn [pt_loop]; rewrite E; easy.
  Qed.
End Gen.

(** ** Termination over the reals *)
Local Open Scope R_scope.
Lemma halve_pow : forall k n b p p2, Rabs b <= 0.7 * 4 ^ k -> exists x, ue_halve (T := R) k n b p p2 = Some x.
Proof.
  induction k; intros n b p p2 H; cbn [ue_halve]; rops.
  - rewrite Rltb_false by (rlit; lra). eexists; reflexivity.
  - rcase; [|eexists; reflexivity]. apply IHk. replace (litR 4.0) with 4 by (rlit; lra).
    replace (b / 4) with (b * / 4) by reflexivity. rewrite Rabs_mult, (Rabs_pos_eq (/ 4)) by lra. cbn [Rpow_def.pow] in H. lra.
Qed.
Lemma pow4_exceeds : forall x, exists k, x <= 0.7 * 4 ^ k.
Proof.
  intros x. destruct (Pow_x_infinity 4 ltac:(rewrite Rabs_pos_eq; lra) (x / 0.7)) as [N H].
  exists N. specialize (H N (le_n N)). rewrite Rabs_pos_eq in H by (apply pow_le; lra).
  apply Rge_le in H. apply (Rmult_le_compat_l (7/10)) in H; [|lra]. replace (7 / 10 * (x / 0.7)) with x in H by lra. lra.
Qed.
Lemma ue_sfun_total : forall al psi, exists hf x, ue_sfun (T := R) hf al psi = Some x.
Proof.
  intros al psi. destruct (pow4_exceeds (Rabs (al * (psi * psi)))) as [k H].
  destruct (halve_pow k 0 (al * (psi * psi)) psi (psi * psi) H) as [[[[n b] p] p2] E].
  exists k. unfold ue_sfun. rops. rewrite E. eexists; reflexivity.
Qed.
Lemma ue_iter_total : forall left cm al r0 sg dt psi pl fl first,
  exists hf x, ue_iter (T := R) left hf cm al r0 sg dt psi pl fl first = Some x.
Proof.
  induction left; intros cm al r0 sg dt psi pl fl first;
    destruct (ue_sfun_total al psi) as (h1 & [s tol] & E1).
  - exists h1. cbn [ue_iter]. rewrite E1. match goal with |- context [if ?c then _ else _] => destruct c end; eexists; reflexivity.
  - set (ff := r0 * uf1 s + sg * uf2 s + cm * uf3 s - dt).
    set (r := r0 * uf0 s + sg * uf1 s + cm * uf2 s).
    set (w := if Rltb (ff * (if first then ff else fl)) (litR 0.0) then ff * (pl - psi) / ((if first then ff else fl) - ff) else ff / r).
    destruct (IHleft cm al r0 sg dt (psi - w) psi ff false) as (h2 & x2 & E2).
    exists (Nat.max h1 h2). cbn [ue_iter].
    rewrite (ue_sfun_mono _ _ _ _ E1) by lia. rops. fold ff r. fold w.
    match goal with |- context [if ?c then _ else _] => destruct c end; [eexists; reflexivity|].
    rcase; [|eexists; reflexivity]. exists x2. apply (ue_iter_mono _ _ _ _ _ _ _ _ _ _ _ _ E2). lia.
Qed.
Lemma palUe2pv_total : forall date u p, exists hf x, palUe2pv (T := R) hf date u p = Some x.
Proof.
  intros date u p. unfold palUe2pv. rops.
  match goal with |- context [ue_iter _ _ ?a ?b ?c ?d ?e ?f ?g ?h ?i] => destruct (ue_iter_total NITMAX a b c d e f g h i) as (hf & x & E) end.
  exists hf. rewrite E. destruct x; eexists; reflexivity.
Qed.
Lemma palEl2ue_total : forall date jform epoch orbinc anode perih aorq e aorl dm,
  exists hf x, palEl2ue (T := R) hf date jform epoch orbinc anode perih aorq e aorl dm = Some x.
Proof.
  intros. unfold palEl2ue. destruct (negb _); [exists O; eexists; reflexivity|].
  destruct (el_std jform epoch anode perih aorq e aorl dm) as [[[pht argph] q] cm].
  match goal with |- context [palUe2pv _ ?a ?b ?c] => destruct (palUe2pv_total a b c) as (hf & [[j ul] p] & E) end.
  exists hf. rewrite E. destruct (negb _); [eexists; reflexivity|]. destruct (palPv2ue _ _ _) as [j' o].
  destruct (negb _); eexists; reflexivity.
Qed.
Lemma pt_motions_total : forall tpmo ups, exists hf, pt_motions (T := R) hf tpmo ups <> Stuck.
Proof.
  induction ups as [|u ups [h1 E1]]; [now exists O|].
  destruct (palUe2pv_total tpmo u pv_junk) as (h2 & [[j u'] p] & E2).
  exists (Nat.max h1 h2). cbn [pt_motions]. rewrite (palUe2pv_mono _ _ _ _ _ E2) by lia.
  destruct (negb _); [easy|]. rewrite (pt_motions_mono h1) by (easy || lia).
  destruct (pt_motions h1 tpmo ups); cbn [rbind]; easy.
Qed.
Lemma pt_step_total : forall plan94 epv00 moon tf fb s, exists hf, pt_step (T := R) plan94 epv00 moon hf tf fb s <> Stuck.
Proof.
  intros. unfold pt_step.
  match goal with |- exists hf, rbind ?x _ <> _ => assert (X : x <> Stuck); [|destruct x as [[[tpel js] up]| |]; cbn [rbind]; [|now exists O|easy]] end.
  { match goal with |- (if ?c then _ else _) <> _ => destruct c end; [|easy].
    assert (G : forall l j, pt_elements plan94 (add (add (add (ps_t0 s) (ps_rtn s)) (div (if ltb (fabs (sub (ps_tspan s) (ps_rtn s))) (fabs (pt_ts (ps_first s) fb (ps_fd s)))
        then sub (ps_tspan s) (ps_rtn s) else pt_ts (ps_first s) fb (ps_fd s)) #2.0%num)) (mul fb #50.0%num)) l j <> Stuck).
    { induction l; intros j; cbn [pt_elements]; [easy|].
      destruct (palPlanet _ _ _) as [j2 p2]. destruct ((j2 =? 1)%Z || (j2 =? 0)%Z); [|easy].
      destruct (palPv2ue _ _ _) as [[] [u|]]; try easy.
      match goal with |- rbind ?t _ <> _ => specialize (IHl (if (j2 =? 1)%Z then 102%Z else j)); destruct t as [[js us]| |]; cbn [rbind]; easy end. }
    specialize (G planets8 (ps_jstat s)). destruct (pt_elements _ _ _ _) as [[js us]| |]; cbn [rbind]; easy. }
  clear X.
  match goal with |- context [if ?c then rbind (pt_motions _ ?tp _) _ else _] => set (cnd := c); set (tpmo := tp) end.
  assert (M : exists h0 o, o <> Stuck /\ forall hf, (h0 <= hf)%nat ->
     (if cnd then rbind (pt_motions hf tpmo up) (fun l => Ok (tpmo, map fst l, map snd l)) else Ok (ps_tpmo s, up, ps_pl s)) = o).
  { destruct cnd; [|exists O; eexists; split; [|intros; reflexivity]; easy].
    destruct (pt_motions_total tpmo up) as [h0 E]. exists h0, (rbind (pt_motions h0 tpmo up) (fun l => Ok (tpmo, map fst l, map snd l))).
    split; [destruct (pt_motions h0 tpmo up); cbn [rbind]; easy|]. intros hf L. now rewrite (pt_motions_mono h0). }
  destruct M as (h0 & o & No & M). clearbody cnd tpmo.
  destruct o as [[[tpm up'] pl]| |]; [|exists h0; rewrite M by lia; easy|easy]. clear No.
  match goal with |- context [palUe2pv _ ?a (ps_ul s) ?c] => destruct (palUe2pv_total a (ps_ul s) c) as (h1 & [[j ul] p0] & E1); set (tt := a) in * end.
  clearbody tt.
  destruct (negb (j =? 0)%Z) eqn:Nj.
  { exists (Nat.max h0 h1). rewrite M by lia. cbn [rbind]. rewrite (palUe2pv_mono _ _ _ _ _ E1) by lia. rewrite Nj. easy. }
  match goal with |- context [palUe2pv _ ?a ul pv_junk] => idtac | _ => idtac end.
  destruct (palUe2pv_total (ps_t0 s + (ps_rtn s + (if ltb (fabs (sub (ps_tspan s) (ps_rtn s))) (fabs (pt_ts (ps_first s) fb (ps_fd s)))
        then sub (ps_tspan s) (ps_rtn s) else pt_ts (ps_first s) fb (ps_fd s)))) ul pv_junk) as (h2 & [[j2 ul2] p2] & E2).
  exists (Nat.max h0 (Nat.max h1 h2)). rewrite M by lia. cbn [rbind]. rewrite (palUe2pv_mono _ _ _ _ _ E1) by lia. rewrite Nj.
  destruct (palEpv epv00 _) as [[[pe x1] x2] x3]. destruct (pt_bodies _ _ _ _ _ _ _) as [[ne fd] js3].
  match goal with |- (if ?c then _ else _) <> _ => destruct c end; [|easy].
  rewrite (palUe2pv_mono _ _ _ _ _ E2) by lia. destruct (negb (j2 =? 0)%Z); [easy|]. match goal with |- context [palPv2ue ?a ?b ?c] => destruct (palPv2ue a b c) as [[] [ul'|]] end; easy.
Qed.

(** progress of palPertue: every step advances at least 0.01 day, or reaches the final epoch exactly *)
Definition pt_inv (tf : R) (s : pstate) : Prop := ps_tspan s = tf - ps_t0 s /\ ps_tleft s = ps_tspan s - ps_rtn s.
Lemma pt_ts_bounds : forall first (fb : R) fd, exists m, 0.01 <= m <= 10 /\ pt_ts first fb fd = m * fb.
Proof.
  intros first fb fd. unfold pt_ts, DMIN, DMAX. rops. destruct first.
  - exists 0.01. split; [lra|]. rlit. lra.
  - destruct (negb _).
    + eexists. split; [|reflexivity]. rlit. repeat rcase; lra.
    + exists 10. split; [lra|]. rlit. lra.
Qed.
Lemma pt_step_progress : forall plan94 epv00 moon hf tf fb s s', (fb = 1 \/ fb = -1) -> pt_inv tf s -> 0 < fb * ps_tleft s ->
  pt_step plan94 epv00 moon hf tf fb s = Ok s' ->
  pt_inv tf s' /\ (fb * ps_tleft s' = 0 \/ fb * ps_tleft s' <= fb * ps_tleft s - 0.01) /\ 0 <= fb * ps_tleft s' /\
  (fb * ps_tleft s' <= 0 -> exists q, palPv2ue q tf 0 = (0%Z, Some (ps_ul s'))).
Proof.
  intros plan94 epv00 moon hf tf fb s s' Hfb [I1 I2] Hr H.
  destruct (pt_ts_bounds (ps_first s) fb (ps_fd s)) as (m & Hm & Em).
  unfold pt_step in H. rewrite Em in H. clear Em. rops.
  set (ts := if Rltb (Rabs (ps_tspan s - ps_rtn s)) (Rabs (m * fb)) then ps_tspan s - ps_rtn s else m * fb) in *.
  assert (Ets : (ts = ps_tleft s) \/ (ts = m * fb /\ m <= fb * ps_tleft s)).
  { unfold ts. rewrite <- I2. rcase; [now left|right; split; [easy|]].
    rewrite Rabs_mult, (Rabs_pos_eq m) in n by lra.
    destruct Hfb as [-> | ->]; unfold Rabs in n; destruct (Rcase_abs _) in n; destruct (Rcase_abs _) in n; lra. }
  clearbody ts.
  match type of H with rbind ?x ?f = _ => destruct x as [[[tpel js] up]| |] eqn:E1; cbn [rbind] in H; [|discriminate H|discriminate H] end.
  match type of H with rbind ?x ?f = _ => destruct x as [[[tpmo up'] pl]| |] eqn:E3; cbn [rbind] in H; [|discriminate H|discriminate H] end.
  match type of H with match ?t with _ => _ end = _ => destruct t as [[[j u'] p]|]; [|discriminate H] end.
  destruct (negb (j =? 0)%Z); [discriminate H|]. destruct (palEpv epv00 _) as [[[pe x1] x2] x3].
  match type of H with match ?t with _ => _ end = _ => destruct t as [[ne fd] js3] end.
  assert (G : fb * (ps_tspan s - (ps_rtn s + ts)) = 0 \/ fb * (ps_tspan s - (ps_rtn s + ts)) <= fb * ps_tleft s - 0.01).
  { destruct Ets as [-> | [-> K]]; [left; rewrite I2; ring|right]. rewrite I2. destruct Hfb as [-> | ->]; lra. }
  assert (G2 : 0 <= fb * (ps_tspan s - (ps_rtn s + ts))).
  { destruct Ets as [-> | [-> K]]; [rewrite I2; right; ring|]. rewrite I2 in K. destruct Hfb as [-> | ->]; lra. }
  match type of H with (if ?c || ?d then _ else _) = _ => destruct c; cbn [orb] in H; [|destruct (Rleb_spec (fb * (ps_tspan s - (ps_rtn s + ts))) (litR 0.0)) as [G3|G3]] end.
  3: { injection H as <-. unfold pt_inv. cbn [ps_tspan ps_t0 ps_tleft ps_rtn]. rops.
    split; [split; [easy|reflexivity]|split; [exact G|split; [exact G2|]]]. intros G4. exfalso. apply G3. rlit. lra. }
  all: match type of H with match ?t with _ => _ end = _ => destruct t as [[[j2 u2] p2]|]; [|discriminate H] end;
    (destruct (negb (j2 =? 0)%Z); [discriminate H|]);
    match type of H with match palPv2ue ?q ?d ?m with _ => _ end = _ => destruct (palPv2ue q d m) as [[] [ul'|]] eqn:EU; try discriminate H end;
    injection H as <-; unfold pt_inv; cbn [ps_tspan ps_t0 ps_tleft ps_rtn ps_ul]; rops;
    (split; [split; [easy|rlit; lra]|]);
    (replace (tf - (ps_t0 s + (ps_rtn s + ts))) with (ps_tspan s - (ps_rtn s + ts)) by lra);
    (split; [exact G|split; [exact G2|]]); intros G4;
    (replace (ps_t0 s + (ps_rtn s + ts)) with tf in EU by (destruct Hfb as [-> | ->]; lra));
    (replace (litR 0.0) with 0 in EU by (rlit; lra)); eexists; exact EU.
Qed.
Lemma pt_loop_total : forall plan94 epv00 moon tf fb n s, (fb = 1 \/ fb = -1) -> pt_inv tf s -> fb * ps_tleft s <= 0.01 * INR n ->
  exists hf, pt_loop (T := R) plan94 epv00 moon hf n tf fb s <> Stuck.
Proof.
  induction n; intros s Hfb I L.
  - exists O. cbn [pt_loop]. rops. rewrite Rltb_false; [easy|]. cbn [INR] in L. rlit. lra.
  - cbn [pt_loop]. rops. rcase; [|now exists O]. rlit.
    destruct (pt_step_total plan94 epv00 moon tf fb s) as [h1 E1].
    destruct (pt_step plan94 epv00 moon h1 tf fb s) as [s2| |] eqn:E2; [|exists h1; rewrite E2; easy|easy].
    destruct (pt_step_progress _ _ _ _ _ _ _ _ Hfb I ltac:(lra) E2) as (I2 & P & _).
    destruct (IHn s2 Hfb I2) as [h2 E3].
    { rewrite S_INR in L. assert (0 <= INR n) by apply pos_INR. lra. }
    exists (Nat.max h1 h2). rewrite (pt_step_mono _ _ _ h1) by (lia || (rewrite E2; easy)). rewrite E2. cbn [rbind].
    rewrite (pt_loop_mono _ _ _ n h2); [easy|easy|lia|lia].
Qed.

(** on success the elements are those of a state vector accepted at the final date *)
Lemma pt_loop_final : forall plan94 epv00 moon hf tf fb n s s', (fb = 1 \/ fb = -1) -> pt_inv tf s -> 0 < fb * ps_tleft s ->
  pt_loop plan94 epv00 moon hf n tf fb s = Ok s' -> exists q, palPv2ue q tf 0 = (0%Z, Some (ps_ul s')).
Proof.
  induction n; intros s s' Hfb I L H; cbn [pt_loop] in H; rops; rewrite Rltb_true in H by (rlit; lra); [discriminate H|].
  destruct (pt_step plan94 epv00 moon hf tf fb s) as [s2| |] eqn:E; cbn [rbind] in H; [|discriminate H|discriminate H].
  destruct (pt_step_progress _ _ _ _ _ _ _ _ Hfb I L E) as (I2 & P1 & P2 & P3).
  destruct (Rlt_dec 0 (fb * ps_tleft s2)) as [G|G]; [eapply IHn; eassumption|].
  destruct P3 as [q Q]; [lra|]. exists q.
  destruct n; cbn [pt_loop] in H; rops; rewrite Rltb_false in H by (rlit; lra); injection H as <-; exact Q.
Qed.
