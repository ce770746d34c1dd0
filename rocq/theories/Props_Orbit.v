(** * Theorems: orbital elements and prediction (C59-C63) *)
From Coq Require Import Reals ZArith Lra Lia Psatz Bool List.
From Interval Require Import Tactic.
From Verif Require Import Num NumR Erfa Geom M_Sphere M_Time M_Place M_Orbit P_Orbit.
Import ListNotations.
Local Open Scope R_scope.

(** ** C59: palPv2ue then palUe2pv at the same date *)
Lemma GCON_pos : 0 < GCON (T := R).
Proof. unfold GCON. rn. lra. Qed.
Lemma CD2S_pos : 0 < CD2S (T := R).
Proof. unfold CD2S, GCON, SPD. rn. lra. Qed.
Lemma NITMAX_S : NITMAX = S 24.
Proof. reflexivity. Qed.

(** one pass of the refinement loop *)
Lemma ue_iter_S : forall (T : Type) (A : Arith T) k hf cm al r0 sg dt psi pl fl first,
  ue_iter (S k) hf cm al r0 sg dt psi pl fl first =
  match ue_sfun hf al psi with
  | None => None
  | Some (s, tol) =>
      let ff := (r0 * uf1 s + sg * uf2 s + cm * uf3 s - dt)%num in
      let r := (r0 * uf0 s + sg * uf1 s + cm * uf2 s)%num in
      let flast := if first then ff else fl in
      let secant := (ff * flast <? #0.0)%num in
      if negb secant && (r ==? #0.0)%num then Some (UFail (-1))
      else
        let w := (if secant then ff * (pl - psi) / (flast - ff) else ff / r)%num in
        if (fabs w >=? tol)%num then ue_iter k hf cm al r0 sg dt (psi - w)%num psi ff false
        else Some (UDone s r (psi - w)%num)
  end.
Proof. reflexivity. Qed.

Lemma series_0 : forall al, ue_series al 0 0 0 = UF 1 0 0 0.
Proof. intros. unfold ue_series. rn. f_equal; lra. Qed.

Local Opaque CD2S.
(** A state vector that palPv2ue accepts is returned exactly, whatever was in the output array and however little fuel the
    halving loop has (it is not entered), and the element set is unchanged. *)
Theorem C59_roundtrip : forall p date pmass u, palPv2ue (T := R) p date pmass = (0%Z, Some u) ->
  forall hf junk, palUe2pv hf date u junk = Some (0%Z, u, p).
Proof.
  intros [[x y z] [xd yd zd]] date pmass u H hf junk. unfold palPv2ue in H. cbn [pvp pvv vx vy vz] in H. rops.
  destruct (Rltb_spec pmass (litR 0.0)); [discriminate H|].
  destruct (Rltb_spec (sqrtR (x * x + y * y + z * z)) (litR 1e-3)) as [|Hr]; [discriminate H|].
  destruct (Rltb_spec (sqrtR (xd / CD2S * (xd / CD2S) + yd / CD2S * (yd / CD2S) + zd / CD2S * (zd / CD2S))) (litR 1e-3)) as [|Hv]; [discriminate H|].
  injection H as <-. set (r := sqrtR (x * x + y * y + z * z)) in *.
  assert (Hr0 : 0.001 <= r) by (revert Hr; rlit; lra). clear Hr. clearbody r.
  assert (HC := CD2S_pos).
  unfold palUe2pv. cbn [u_cm u_alpha u_t0 u_p0 u_v0 u_r0 u_sigma0 u_t u_psi]. rops.
  replace (litR 0.0) with 0 by (rlit; lra). replace (litR 2.0) with 2 by (rlit; lra). replace (litR 1.0) with 1 by (rlit; lra).
  replace (0 + (date - date) * GCON / r) with 0 by (field; lra). replace ((date - date) * GCON) with 0 by ring.
  rewrite NITMAX_S, ue_iter_S. generalize 24%nat; intros k24. unfold ue_sfun. rops.
  match goal with |- context [ue_halve hf 0 ?b ?p ?q] => replace b with 0 by ring; replace q with 0 by ring end.
  assert (E : ue_halve hf 0 0 0 0 = Some (0%nat, 0, 0, 0)).
  { destruct hf; cbn [ue_halve]; rops; rewrite Rabs_R0, Rltb_false by (rlit; lra); reflexivity. }
  rewrite E, series_0. cbn [ue_double uf0 uf1 uf2 uf3]. cbv zeta.
  repeat (rewrite ?Rmult_0_l, ?Rmult_0_r, ?Rmult_1_r, ?Rplus_0_l, ?Rplus_0_r, ?Rminus_0_r).
  replace (litR 0.0) with 0 by (rlit; lra).
  rewrite Rltb_false by lra. cbn [negb andb]. rewrite Reqb_false by lra. replace (0 / r) with 0 by (field; lra).
  rewrite Rabs_R0, Rleb_false by (rlit; lra).
  unfold ue_project. cbn [uf0 uf1 uf2 uf3 vx vy vz]. set (c := CD2S) in *. clearbody c. rops. replace (litR 1.0) with 1 by (rlit; lra).
  apply f_equal, f_equal2; [apply f_equal, f_equal2; [reflexivity|lra]|]. f_equal; f_equal. all: field; lra.
Qed.
Local Transparent CD2S.
Definition pv_eg : pv R := PV (V 1 0 0) (V 0 2e-7 0).
Lemma pv_eg_ok : exists u, palPv2ue (T := R) pv_eg 50000 0 = (0%Z, Some u).
Proof.
  unfold palPv2ue, pv_eg. cbn [pvp pvv vx vy vz]. unfold CD2S, GCON, SPD. rn.
  rewrite !Rltb_false; [eexists; reflexivity| | |]; try lra; apply Rle_not_lt; interval.
Qed.
(** Non-vacuity: an orbit at 1 AU, moving at 2e-7 AU/s *)
Example C59_roundtrip_eg : exists u, palPv2ue (T := R) pv_eg 50000 0 = (0%Z, Some u) /\
  palUe2pv 0 50000 u pv_junk = Some (0%Z, u, pv_eg).
Proof. destruct pv_eg_ok as [u E]. exists u. split; [exact E|]. eapply C59_roundtrip, E. Qed.

(** ** C60: palUe2pv terminates and reports honestly *)
(** The loop of palUe2pv in the shape of the C text, with its counter NIT and no other bound: [ue_runs n c o] says that
    the loop, entered in configuration [c], executes its body exactly [n] times and ends in outcome [o]. *)
Section Loop.
  Context {T : Type} {A : Arith T}.
  Record uconf : Type := UC { uc_nit : nat; uc_psi : T; uc_plast : T; uc_flast : T }.
  Local Open Scope num_scope.
  (** the residual of the universal Kepler equation and the radius, as functions of the universal functions *)
  Definition kepler_ff (cm r0 sigma0 dt : T) (s : ufun T) : T := r0 * uf1 s + sigma0 * uf2 s + cm * uf3 s - dt.
  Definition kepler_r (cm r0 sigma0 : T) (s : ufun T) : T := r0 * uf0 s + sigma0 * uf1 s + cm * uf2 s.
  Definition kepler_fl (cm r0 sigma0 dt : T) (c : uconf) (s : ufun T) : T :=
    if Nat.eqb (uc_nit c) 1 then kepler_ff cm r0 sigma0 dt s else uc_flast c.
  (** the correction W; [None] for a null radius vector *)
  Definition kepler_w (cm r0 sigma0 dt : T) (c : uconf) (s : ufun T) : option T :=
    let ff := kepler_ff cm r0 sigma0 dt s in let fl := kepler_fl cm r0 sigma0 dt c s in
    if ff * fl <? #0.0 then Some (ff * (uc_plast c - uc_psi c) / (fl - ff))
    else if kepler_r cm r0 sigma0 s ==? #0.0 then None else Some (ff / kepler_r cm r0 sigma0 s).
  Variables (hf : nat) (cm al r0 sigma0 dt : T).
  Inductive ue_runs : nat -> uconf -> uout (T := T) -> Prop :=
  | run_null c s tol : ue_sfun hf al (uc_psi c) = Some (s, tol) -> kepler_w cm r0 sigma0 dt c s = None ->
      ue_runs 1 c (UFail (-1))
  | run_many c s tol w : ue_sfun hf al (uc_psi c) = Some (s, tol) -> kepler_w cm r0 sigma0 dt c s = Some w ->
      (25 < uc_nit c)%nat -> ue_runs 1 c (UFail (-2))
  | run_exit c s tol w : ue_sfun hf al (uc_psi c) = Some (s, tol) -> kepler_w cm r0 sigma0 dt c s = Some w ->
      (uc_nit c <= 25)%nat -> (tol <=? fabs w) = false ->
      ue_runs 1 c (UDone s (kepler_r cm r0 sigma0 s) (uc_psi c - w))
  | run_next c s tol w n o : ue_sfun hf al (uc_psi c) = Some (s, tol) -> kepler_w cm r0 sigma0 dt c s = Some w ->
      (uc_nit c <= 25)%nat -> (tol <=? fabs w) = true ->
      ue_runs n (UC (S (uc_nit c)) (uc_psi c - w) (uc_psi c) (kepler_ff cm r0 sigma0 dt s)) o -> ue_runs (S n) c o.

  Lemma ue_iter_runs : forall left nit psi pl fl o, (nit + left = 26)%nat -> (1 <= nit)%nat ->
    ue_iter left hf cm al r0 sigma0 dt psi pl fl (Nat.eqb nit 1) = Some o ->
    exists n, (1 <= n <= S left)%nat /\ ue_runs n (UC nit psi pl fl) o.
  Proof.
    induction left; intros nit psi pl fl o L G H; cbn [ue_iter] in H;
      destruct (ue_sfun hf al psi) as [[s tol]|] eqn:E; try discriminate H.
    - exists 1%nat. split; [lia|].
      match type of H with (if ?c then _ else _) = _ => destruct c eqn:C end; injection H as <-.
      + apply run_null with s tol; [exact E|]. unfold kepler_w, kepler_fl, kepler_ff, kepler_r. cbn [uc_nit uc_psi uc_plast uc_flast].
        apply andb_prop in C. destruct C as [C1 C2]. apply negb_true_iff in C1. now rewrite C1, C2.
      + destruct (kepler_w cm r0 sigma0 dt (UC nit psi pl fl) s) as [w|] eqn:W; [eapply run_many; eauto; cbn; lia|].
        exfalso. unfold kepler_w, kepler_fl, kepler_ff, kepler_r in W. cbn [uc_nit uc_psi uc_plast uc_flast] in W.
        match type of W with (if ?b then _ else _) = _ => destruct b; [discriminate W|] end. cbn [negb andb] in C.
        rewrite C in W. discriminate W.
    - assert (K : kepler_w cm r0 sigma0 dt (UC nit psi pl fl) s =
        let ff := r0 * uf1 s + sigma0 * uf2 s + cm * uf3 s - dt in let r := r0 * uf0 s + sigma0 * uf1 s + cm * uf2 s in
        let fl' := if Nat.eqb nit 1 then ff else fl in
        if negb (ff * fl' <? #0.0) && (r ==? #0.0) then None
        else Some (if ff * fl' <? #0.0 then ff * (pl - psi) / (fl' - ff) else ff / r)).
      { unfold kepler_w, kepler_fl, kepler_ff, kepler_r. cbn [uc_nit uc_psi uc_plast uc_flast]. cbv zeta.
        match goal with |- (if ?b then _ else _) = _ => destruct b; cbn [negb andb]; [reflexivity|] end.
        match goal with |- (if ?b then _ else _) = _ => destruct b; reflexivity end. }
      cbv zeta in K.
      match type of H with (if ?c then _ else _) = _ => destruct c eqn:C end; rewrite ?C in K.
      + injection H as <-. exists 1%nat. split; [lia|]. eapply run_null; eauto.
      + match type of H with context [leb tol (fabs ?w)] => set (w0 := w) in *; clearbody w0 end.
        destruct (leb tol (fabs w0)) eqn:D.
        * destruct (IHleft (S nit) (psi - w0) psi (kepler_ff cm r0 sigma0 dt s) o) as (n & Hn & R1); [lia|lia| |].
          { replace (Nat.eqb (S nit) 1) with false; [exact H|]. destruct nit; [lia|reflexivity]. }
          exists (S n). split; [lia|]. eapply run_next; eauto. cbn. lia.
        * injection H as <-. exists 1%nat. split; [lia|]. apply (run_exit (UC nit psi pl fl) s tol w0); auto. cbn. lia.
  Qed.
  Lemma ue_runs_det : forall n c o, ue_runs n c o -> forall n' o', ue_runs n' c o' -> n = n' /\ o = o'.
  Proof.
    induction 1 as [c s tol E W|c s tol w E W N|c s tol w E W N D|c s tol w n o E W N D R1 IH]; intros n' o' R2;
      destruct R2 as [c' s' tol' E'|c' s' tol' w' E' W' N'|c' s' tol' w' E' W' N' D'|c' s' tol' w' n' o' E' W' N' D' R2];
      (assert (Q : Some (s, tol) = Some (s', tol')) by congruence; injection Q as <- <-); try congruence; try lia; try (split; congruence).
    assert (w = w') by congruence. subst w'. destruct (IH _ _ R2). split; congruence.
  Qed.
  (** a run that ends normally ends because the last correction is below the tolerance *)
  Lemma ue_runs_done : forall n c o, ue_runs n c o -> forall s r psi, o = UDone s r psi ->
    exists c' tol w, ue_sfun hf al (uc_psi c') = Some (s, tol) /\ kepler_w cm r0 sigma0 dt c' s = Some w /\
      (tol <=? fabs w) = false /\ r = kepler_r cm r0 sigma0 s /\ psi = uc_psi c' - w.
  Proof.
    induction 1 as [c s tol E W|c s tol w E W N|c s tol w E W N D|c s tol w n o E W N D R1 IH]; intros s' r' psi' Eq; try discriminate Eq.
    - injection Eq as <- <- <-. exists c, tol, w. auto.
    - eauto.
  Qed.
End Loop.

(** For every arithmetic: palUe2pv executes the loop body at least once and at most 26 times, and returns what the loop
    left; the projection is that of the last pass. *)
Theorem C60_at_most_26 : forall (T : Type) (A : Arith T) hf date u pv0 st u' pv1,
  palUe2pv hf date u pv0 = Some (st, u', pv1) ->
  exists n o, (1 <= n <= 26)%nat /\
    ue_runs hf (u_cm u) (u_alpha u) (u_r0 u) (u_sigma0 u) ((date - u_t0 u) * GCON)%num n
      (UC 1 (u_psi u + (date - u_t u) * GCON / u_r0 u)%num #0.0%num #0.0%num) o /\
    match o with
    | UFail j => st = j /\ (j = -1 \/ j = -2)%Z
    | UDone s r psi => st = 0%Z /\ u_psi u' = psi /\
        pv1 = ue_project (u_cm u) (u_r0 u) ((date - u_t0 u) * GCON)%num (u_p0 u) (u_v0 u) s r
    end.
Proof.
  intros T A hf date u pv0 st u' pv1 H. unfold palUe2pv in H.
  match type of H with match ?t with _ => _ end = _ => destruct t as [o|] eqn:E; [|discriminate H] end.
  destruct (ue_iter_runs _ _ _ _ _ _ 25 1 _ _ _ o ltac:(lia) ltac:(lia) E) as (n & Hn & R1).
  exists n, o. split; [lia|]. split; [exact R1|].
  destruct o as [j|s r psi]; injection H as <- <- <-; [|auto]. split; [reflexivity|]. eapply ue_iter_status, E.
Qed.
(** Over the reals it always terminates: some number of halvings suffices, and then the result does not depend on it. *)
Theorem C60_terminates : forall date u pv0, exists hf x, forall hf', (hf <= hf')%nat -> palUe2pv (T := R) hf' date u pv0 = Some x.
Proof.
  intros date u pv0. destruct (palUe2pv_total date u pv0) as (hf & x & E). exists hf, x. intros. eapply palUe2pv_mono; eassumption.
Qed.
(** On failure both arrays are untouched; on success only the date and the anomaly in [u] change. *)
Theorem C60_untouched : forall (T : Type) (A : Arith T) hf date u pv0 st u' pv1,
  palUe2pv hf date u pv0 = Some (st, u', pv1) ->
  (st = 0%Z /\ u_t u' = date /\ u_cm u' = u_cm u /\ u_alpha u' = u_alpha u /\ u_t0 u' = u_t0 u /\ u_p0 u' = u_p0 u /\
     u_v0 u' = u_v0 u /\ u_r0 u' = u_r0 u /\ u_sigma0 u' = u_sigma0 u) \/
  ((st = -1 \/ st = -2)%Z /\ u' = u /\ pv1 = pv0).
Proof.
  intros T A hf date u pv0 st u' pv1 H. destruct (palUe2pv_cases _ _ _ _ _ H) as [(j & J & E)|(psi & q & E)]; injection E as -> -> ->.
  - right. auto.
  - left. cbn. repeat split; reflexivity.
Qed.
(** Status 0 means that the last correction was below the tolerance: over the reals, the residual of the universal Kepler
    equation divided by the radius (Newton), or the secant step, is smaller than the tolerance in absolute value. *)
Theorem C60_converged : forall hf date u pv0 u' pv1, palUe2pv (T := R) hf date u pv0 = Some (0%Z, u', pv1) ->
  exists psi plast flast s tol w, ue_sfun hf (u_alpha u) psi = Some (s, tol) /\ Rabs w < tol /\ u_psi u' = psi - w /\
    let ff := u_r0 u * uf1 s + u_sigma0 u * uf2 s + u_cm u * uf3 s - (date - u_t0 u) * GCON in
    let r := u_r0 u * uf0 s + u_sigma0 u * uf1 s + u_cm u * uf2 s in
    (ff * flast < 0 /\ w = ff * (plast - psi) / (flast - ff)) \/ (r <> 0 /\ w = ff / r).
Proof.
  intros hf date u pv0 u' pv1 H. destruct (C60_at_most_26 _ _ _ _ _ _ _ _ _ H) as (n & o & _ & R1 & K).
  destruct o as [j|s r psi]; [destruct K as [<- [K|K]]; discriminate K|]. destruct K as (_ & K & _).
  destruct (ue_runs_done _ _ _ _ _ _ _ _ _ R1 s r psi eq_refl) as (c & tol & w & E & W & D & Er & Ep).
  exists (uc_psi c), (uc_plast c), (kepler_fl (u_cm u) (u_r0 u) (u_sigma0 u) ((date - u_t0 u) * GCON)%num c s), s, tol, w.
  split; [exact E|]. split; [rops; revert D; rcase; [discriminate|lra]|]. split; [rewrite K, Ep; reflexivity|].
  unfold kepler_w in W. unfold kepler_ff, kepler_r in *. rops.
  replace (litR 0.0) with 0 in W by (rlit; lra).
  destruct (Rltb_spec ((u_r0 u * uf1 s + u_sigma0 u * uf2 s + u_cm u * uf3 s - (date - u_t0 u) * GCON) *
       kepler_fl (u_cm u) (u_r0 u) (u_sigma0 u) ((date - u_t0 u) * GCON) c s) 0).
  - left. split; [easy|]. now injection W as <-.
  - right. destruct (Reqb_spec (u_r0 u * uf0 s + u_sigma0 u * uf1 s + u_cm u * uf2 s) 0); [discriminate W|].
    split; [easy|]. now injection W as <-.
Qed.
(** Non-vacuity: success (C59), and a null radius vector: all elements zero but the mass gives status -1 *)
Example C60_eg_ok : exists u, palUe2pv (T := R) 0 50000 u pv_junk = Some (0%Z, u, pv_eg).
Proof. destruct C59_roundtrip_eg as (u & _ & E). eauto. Qed.
Example C60_eg_null : let u := UE 1 0 50000 vzero vzero 0 0 50000 0 in
  palUe2pv (T := R) 0 50000 u pv_eg = Some ((-1)%Z, u, pv_eg).
Proof.
  cbv zeta. unfold palUe2pv. cbn [u_cm u_alpha u_t0 u_p0 u_v0 u_r0 u_sigma0 u_t u_psi]. rops.
  replace (0 + (50000 - 50000) * GCON / 0) with 0 by (unfold Rdiv; ring). replace ((50000 - 50000) * GCON) with 0 by ring.
  rewrite NITMAX_S, ue_iter_S. generalize 24%nat; intros k24. unfold ue_sfun. rops.
  match goal with |- context [ue_halve 0 0 ?b ?p ?q] => replace b with 0 by ring; replace q with 0 by ring end.
  cbn [ue_halve]. rops. rewrite Rabs_R0, Rltb_false by (rlit; lra). rewrite series_0. cbn [ue_double uf0 uf1 uf2 uf3]. cbv zeta.
  rewrite Rltb_false by (rlit; lra). cbn [negb andb]. rewrite Reqb_true by (rlit; lra). reflexivity.
Qed.

(** ** C61: status codes *)
(** The documented argument checks. *)
Definition form_ok (jform : Z) : Prop := (1 <= jform <= 3)%Z.
Definition e_ok (jform : Z) (e : R) : Prop := 0 <= e <= 10 /\ (e < 1 \/ jform = 3%Z).
Definition aorq_ok (aorq : R) : Prop := 0 < aorq.
Definition dm_ok (jform : Z) (dm : R) : Prop := jform = 1%Z -> 0 < dm.
(** the status for the first failing check; with valid arguments, 0 or -5 *)
Inductive el_status (jform : Z) (aorq e dm : R) : Z -> Prop :=
| st_jform : ~ form_ok jform -> el_status jform aorq e dm (-1)
| st_e : form_ok jform -> ~ e_ok jform e -> el_status jform aorq e dm (-2)
| st_aorq : form_ok jform -> e_ok jform e -> ~ aorq_ok aorq -> el_status jform aorq e dm (-3)
| st_dm : form_ok jform -> e_ok jform e -> aorq_ok aorq -> ~ dm_ok jform dm -> el_status jform aorq e dm (-4)
| st_num : form_ok jform -> e_ok jform e -> aorq_ok aorq -> dm_ok jform dm -> el_status jform aorq e dm (-5)
| st_ok : form_ok jform -> e_ok jform e -> aorq_ok aorq -> dm_ok jform dm -> el_status jform aorq e dm 0.
Lemma el_check_status : forall jform aorq e dm,
  (el_check (T := R) jform aorq e dm <> 0%Z /\ el_status jform aorq e dm (el_check jform aorq e dm)) \/
  (el_check jform aorq e dm = 0%Z /\ form_ok jform /\ e_ok jform e /\ aorq_ok aorq /\ dm_ok jform dm).
Proof.
  intros. unfold el_check. rops.
  destruct (Z.ltb_spec jform 1); [left; split; [easy|apply st_jform; unfold form_ok; lia]|].
  destruct (Z.ltb_spec 3 jform); [left; split; [easy|apply st_jform; unfold form_ok; lia]|]. cbn [orb].
  assert (F : form_ok jform) by (unfold form_ok; lia).
  replace (litR 0.0) with 0 by (rlit; lra). replace (litR 10.0) with 10 by (rlit; lra). replace (litR 1.0) with 1 by (rlit; lra).
  destruct (Rltb_spec e 0); [left; split; [easy|apply st_e; [easy|unfold e_ok; lra]]|].
  destruct (Rltb_spec 10 e); [left; split; [easy|apply st_e; [easy|unfold e_ok; lra]]|]. cbn [orb].
  destruct (Rleb_spec 1 e) as [H1|H1]; destruct (Z.eqb_spec jform 3) as [E3|E3]; cbn [negb andb];
    try (left; split; [easy|apply st_e; [easy|intros [_ [Q|Q]]; [lra|lia]]]).
  all: assert (Q : e_ok jform e) by (split; [lra|]; (now right) || (left; lra)).
  all: destruct (Rleb_spec aorq 0); [left; split; [easy|apply st_aorq; [easy|easy|unfold aorq_ok; lra]]|].
  all: assert (Q2 : aorq_ok aorq) by (unfold aorq_ok; lra).
  all: destruct (Z.eqb_spec jform 1) as [E1|E1]; cbn [andb];
    [|right; split; [easy|]; split; [exact F|]; split; [exact Q|]; split; [exact Q2|]; intros G; easy].
  all: try lia.
  all: destruct (Rleb_spec dm 0);
    [left; split; [easy|]; apply st_dm; [exact F|exact Q|exact Q2|]; intros G; specialize (G E1); lra
    |right; split; [easy|]; split; [exact F|]; split; [exact Q|]; split; [exact Q2|]; intros _; lra].
Qed.
(** palEl2ue reports the first failing check, writes elements exactly when the status is 0, and terminates. *)
Theorem C61_el2ue : forall hf date jform epoch orbinc anode perih aorq e aorl dm st o,
  palEl2ue (T := R) hf date jform epoch orbinc anode perih aorq e aorl dm = Some (st, o) ->
  el_status jform aorq e dm st /\ (st = 0%Z <-> exists u, o = Some u) /\ (st <> 0%Z <-> o = None).
Proof.
  intros hf date jform epoch orbinc anode perih aorq e aorl dm st o H.
  destruct (palEl2ue_cases _ _ _ _ _ _ _ _ _ _ _ _ H) as [[N E]|[N [E|[u E]]]]; injection E as -> ->;
    destruct (el_check_status jform aorq e dm) as [[M S]|(M & S1 & S2 & S3 & S4)]; try congruence.
  - split; [exact S|]. split; split; try easy. now intros [u E].
  - split; [now apply st_num|]. split; split; try easy. now intros [u E].
  - split; [now apply st_ok|]. split; split; try easy. eauto.
Qed.
Theorem C61_el2ue_terminates : forall date jform epoch orbinc anode perih aorq e aorl dm, exists hf x, forall hf', (hf <= hf')%nat ->
  palEl2ue (T := R) hf' date jform epoch orbinc anode perih aorq e aorl dm = Some x.
Proof.
  intros. destruct (palEl2ue_total date jform epoch orbinc anode perih aorq e aorl dm) as (hf & x & E).
  exists hf, x. intros. eapply palEl2ue_mono; eassumption.
Qed.
(** Undocumented: major-planet elements whose daily motion is slower than that of a massless body at the same mean distance
    are rejected with -5. *)
Theorem C61_el2ue_slow : forall hf date epoch orbinc anode perih aorq e aorl dm st o,
  0 <= e < 1 -> 0 < aorq -> 0 < dm -> dm * dm * (aorq * aorq * aorq) < 0.01720209895 * 0.01720209895 ->
  palEl2ue (T := R) hf date 1 epoch orbinc anode perih aorq e aorl dm = Some (st, o) -> st = (-5)%Z /\ o = None.
Proof.
  intros hf date epoch orbinc anode perih aorq e aorl dm st o He Ha Hd Hk H. unfold palEl2ue in H.
  destruct (el_check_status 1 aorq e dm) as [[M S]|(M & S1 & S2 & S3 & S4)].
  { exfalso. inversion S as [N E|N1 N E|N1 N2 N E|N1 N2 N3 N E|N1 N2 N3 N E|N1 N2 N3 N E].
    - apply N. unfold form_ok. lia.
    - apply N. unfold e_ok. split; [lra|left; lra].
    - apply N. exact Ha.
    - apply N. intros _. exact Hd.
    - destruct (el_check_cases (T := R) 1 aorq e dm) as [C|[C|[C|[C|C]]]]; lia.
    - congruence. }
  rewrite M in H. cbn [Z.eqb negb] in H. unfold el_std in H. cbn [Z.eqb Pos.eqb] in H.
  match type of H with match ?t with _ => _ end = _ => destruct t as [[[j ul] p]|] end; [|discriminate H].
  destruct (negb (j =? 0)%Z); [injection H as <- <-; auto|].
  assert (E : fst (palPv2ue p date (dm / GCON * (dm / GCON) * aorq * aorq * aorq - 1)) = (-1)%Z).
  { unfold palPv2ue, GCON. rn. rewrite Rltb_true; [reflexivity|].
    set (k := 1720209895 / 100000000000). assert (Kk : 0 < k) by (unfold k; lra).
    replace 0.01720209895 with k in Hk by (unfold k; lra). clearbody k.
    replace (dm / k * (dm / k) * aorq * aorq * aorq) with (dm * dm * (aorq * aorq * aorq) * / (k * k)) by (field; lra).
    assert (K2 : 0 < k * k) by (apply Rmult_lt_0_compat; easy).
    apply Rmult_lt_compat_r with (r := / (k * k)) in Hk; [|now apply Rinv_0_lt_compat]. rewrite Rinv_r in Hk by lra. lra. }
  rops. replace (litR 1.0) with 1 in H by (rlit; lra).
  destruct (palPv2ue p date _) as [j' o'] in H, E. cbn [fst] in E. subst j'. cbn [Z.eqb negb] in H. now injection H as <- <-.
Qed.
(** palPlanel: exactly the status of palEl2ue (its own second stage cannot fail), and on success the state vector of the
    orbit that palEl2ue set up at that date. *)
Theorem C61_planel : forall hf date jform epoch orbinc anode perih aorq e aorl dm,
  match palEl2ue (T := R) hf date jform epoch orbinc anode perih aorq e aorl dm with
  | Some (st, o) => exists p, palPlanel hf date jform epoch orbinc anode perih aorq e aorl dm = Some (st, p) /\
      (st = 0%Z <-> p <> None) /\
      forall u, o = Some u -> exists q, p = Some q /\ u_p0 u = pvp q /\ scale CD2S (u_v0 u) = pvv q /\ u_t0 u = date
  | None => True
  end.
Proof.
  intros. destruct (palEl2ue hf date jform epoch orbinc anode perih aorq e aorl dm) as [[st o]|] eqn:E; [|exact I].
  destruct (C61_el2ue _ _ _ _ _ _ _ _ _ _ _ _ _ E) as (_ & S0 & S1).
  unfold palPlanel. rewrite E. destruct (Z.eq_dec st 0) as [->|N].
  - destruct (proj1 S0 eq_refl) as [u ->].
    assert (K : exists p pm, palPv2ue (T := R) p date pm = (0%Z, Some u)).
    { unfold palEl2ue in E. destruct (negb (el_check jform aorq e dm =? 0)%Z) eqn:C; [now destruct (el_check jform aorq e dm)|].
      destruct (el_std jform epoch anode perih aorq e aorl dm) as [[[pht argph] q] cm].
      match type of E with match ?t with _ => _ end = _ => destruct t as [[[j ul] p]|] end; [|discriminate E].
      destruct (negb (j =? 0)%Z); [discriminate E|].
      destruct (palPv2ue p date (cm - #1.0)%num) as [j' o'] eqn:E3.
      destruct (Z.eqb_spec j' 0) as [->|]; cbn [negb] in E; [|discriminate E]. injection E as ->. eauto. }
    destruct K as (p & pm & K). rewrite (C59_roundtrip _ _ _ _ K). cbn [Z.eqb negb]. exists (Some p).
    split; [reflexivity|]. split; [easy|]. intros u' Q. injection Q as <-. exists p. split; [reflexivity|].
    unfold palPv2ue in K. rops.
    repeat match type of K with (if ?c then _ else _) = _ => destruct c; [discriminate K|] end.
    injection K as <-. cbn [u_p0 u_v0 u_t0]. assert (G := CD2S_pos). destruct p as [[x y z] [xd yd zd]]. cbn [pvp pvv vx vy vz].
    split; [reflexivity|]. split; [|reflexivity]. unfold scale. cbn [vx vy vz].
    replace (litR 1720209895e-11 / litR 864000e-1) with (CD2S (T := R)) by reflexivity. f_equal; field; lra.
  - rewrite (proj1 S1 N). exists None. destruct st; [easy| |]; (split; [reflexivity|]; split; [split; easy|intros u Q; discriminate Q]).
Qed.
(** palPlante: the same status; the prediction is made exactly when it is 0. *)
Theorem C61_plante : forall epv00 prenut gmst hf junk date elong phi jform epoch orbinc anode perih aorq e aorl dm,
  match palEl2ue (T := R) hf date jform epoch orbinc anode perih aorq e aorl dm with
  | Some (st, _) => exists out, palPlante epv00 prenut gmst hf junk date elong phi jform epoch orbinc anode perih aorq e aorl dm = Some (st, out) /\
      (st = 0%Z <-> out <> None)
  | None => True
  end.
Proof.
  intros. destruct (palEl2ue hf date jform epoch orbinc anode perih aorq e aorl dm) as [[st o]|] eqn:E; [|exact I].
  destruct (C61_el2ue _ _ _ _ _ _ _ _ _ _ _ _ _ E) as (_ & S0 & S1).
  assert (P := C61_planel hf date jform epoch orbinc anode perih aorq e aorl dm). rewrite E in P.
  destruct P as (p & P & P0 & P1). unfold palPlanel in P. unfold palPlante. rewrite E in P |- *.
  destruct (Z.eq_dec st 0) as [->|N].
  - destruct (proj1 S0 eq_refl) as [u ->].
    assert (U : exists u' q, palUe2pv hf date u junk = Some (0%Z, u', q)).
    { destruct (palUe2pv hf date u pv_junk) as [[[j u'] q]|] eqn:E2; [|discriminate P].
      destruct (Z.eqb_spec j 0) as [->|]; cbn [negb] in P; [|discriminate P].
      unfold palUe2pv in E2 |- *. match goal with |- context [match ?t with _ => _ end] => destruct t as [[?|s r psi']|] end; try discriminate E2; [|eauto].
      injection E2 as -> <- <-. eauto. }
    destruct U as (u' & q & U). unfold palPlantu. destruct (palEpv epv00 date) as [[[ph vh] ?] ?]. rewrite U.
    destruct (eraC2s _) as [ra dec]. eexists. split; [reflexivity|]. split; easy.
  - rewrite (proj1 S1 N). exists None. destruct st; [easy| |]; (split; [reflexivity|]; split; easy).
Qed.
(** palPertel: -1 for a form other than 2 and 3, otherwise the status of palEl2ue if that is not 0, otherwise a status of
    palPertue or -5; elements written whenever the perturbation succeeded and the final state is in range. *)
Theorem C61_pertel : forall plan94 epv00 moon hf n jform date0 date1 epoch0 orbi0 anode0 perih0 aorq0 e0 am0 st o,
  palPertel (T := R) plan94 epv00 moon hf n jform date0 date1 epoch0 orbi0 anode0 perih0 aorq0 e0 am0 = Some (st, o) ->
  (~ (2 <= jform <= 3)%Z /\ st = (-1)%Z /\ o = None) \/
  ((2 <= jform <= 3)%Z /\ st <> 0%Z /\ el_status jform aorq0 e0 0 st /\ o = None) \/
  ((2 <= jform <= 3)%Z /\ el_status jform aorq0 e0 0 0 /\
     (st = (-5)%Z \/ (st = 0 \/ 1 <= st <= 9 \/ st = 101 \/ st = 102)%Z /\ exists el, o = Some el /\ el_jform el = jform)).
Proof.
  intros plan94 epv00 moon hf n jform date0 date1 epoch0 orbi0 anode0 perih0 aorq0 e0 am0 st o H. unfold palPertel in H.
  destruct (Z.ltb_spec jform 2) as [A1|A1]; cbn [orb] in H; [injection H as <- <-; left; split; [lia|auto]|].
  destruct (Z.ltb_spec 3 jform) as [A2|A2]; [injection H as <- <-; left; split; [lia|auto]|]. right.
  rops. replace (litR 0.0) with 0 in H by (rlit; lra).
  destruct (palEl2ue hf date0 jform epoch0 orbi0 anode0 perih0 aorq0 e0 am0 0) as [[j ou]|] eqn:E; [|discriminate H].
  destruct (C61_el2ue _ _ _ _ _ _ _ _ _ _ _ _ _ E) as (S & S0 & S1).
  destruct (Z.eq_dec j 0) as [->|N].
  - destruct (proj1 S0 eq_refl) as [u ->]. right. split; [lia|]. split; [exact S|].
    unfold palPertue in H.
    match type of H with match match ?t with _ => _ end with _ => _ end = _ => destruct t as [s| |] eqn:EL end.
    + apply pt_loop_jstat in EL; [|unfold pt_init; cbn [ps_jstat]; match goal with |- context [if ?c then _ else _] => destruct c end; unfold ok_jstat; lia].
      destruct (Z.ltb_spec (ps_jstat s) 0); [left; now injection H|].
      destruct (palUe2el (ps_ul s) jform) as [j' [el|]]; [|left; now injection H].
      destruct (Z.eqb_spec (el_jform el) jform) as [F|F]; cbn [negb orb] in H; [|left; now injection H].
      destruct (Z.eqb_spec j' 0); cbn [negb] in H; [|left; now injection H].
      right. injection H as <- <-. split; [exact EL|]. eauto.
    + cbn in H. left. now injection H.
    + discriminate H.
  - left. split; [lia|]. rewrite (proj1 S1 N) in H. destruct j; [easy| |]; injection H as <- <-; auto.
Qed.
(** palPv2el and palUe2el: the documented checks, in order.  Positions in AU, velocities in AU/s for palPv2el; [ecl] is the
    rotation by the IAU 1976 obliquity (whose printed sine and cosine are used). *)
Definition ecl (v : vec R) : vec R := V (vx v) (vy v * 0.9174820620691818 + vz v * 0.3977771559319137)
  (- vy v * 0.3977771559319137 + vz v * 0.9174820620691818).
Lemma to_ecl_ecl : forall v, to_ecl v = ecl v.
Proof. intros [x y z]. unfold to_ecl, ecl, CE, SE. cbn [vx vy vz]. rn. f_equal; lra. Qed.
Definition pv_range_ok (p : pv R) : Prop := 1e-3 <= norm (ecl (pvp p)) /\ 1e-8 <= norm (scale 86400 (ecl (pvv p))).
Theorem C61_pv2el : forall p date pmass jformr, let '(st, o) := palPv2el (T := R) p date pmass jformr in
  (st = 0%Z <-> o <> None) /\
  (pmass < 0 -> st = (-1)%Z) /\
  (0 <= pmass -> ~ form_ok jformr -> st = (-2)%Z) /\
  (0 <= pmass -> form_ok jformr -> ~ pv_range_ok p -> st = (-3)%Z) /\
  (0 <= pmass -> form_ok jformr -> pv_range_ok p -> st = 0%Z).
Proof.
  intros p date pmass jformr. destruct (palPv2el p date pmass jformr) as [st o] eqn:E. unfold palPv2el in E. rops.
  rewrite !to_ecl_ecl in E. unfold pv_range_ok. replace (litR 0.0) with 0 in E by (rlit; lra).
  destruct (Rltb_spec pmass 0). { injection E as <- <-. repeat split; intros; easy || lra. }
  destruct (Z.ltb_spec jformr 1). { injection E as <- <-. cbn [orb]. repeat split; intros; try easy; try lra; unfold form_ok in *; lia. }
  destruct (Z.ltb_spec 3 jformr). { injection E as <- <-. cbn [orb]. repeat split; intros; try easy; try lra; unfold form_ok in *; lia. }
  cbn [orb] in E. unfold SPD in E. rops. replace (litR 86400.0) with 86400 in E by (rlit; lra).
  replace (litR 1e-3) with 1e-3 in E by (rlit; lra). replace (litR 1e-8) with 1e-8 in E by (rlit; lra).
  change (sqrtR (vx (ecl (pvp p)) * vx (ecl (pvp p)) + vy (ecl (pvp p)) * vy (ecl (pvp p)) + vz (ecl (pvp p)) * vz (ecl (pvp p))))
    with (norm (ecl (pvp p))) in E.
  cbn [vx vy vz] in E.
  match type of E with context [R_sqrt.sqrt ?a] => match a with 86400 * _ * _ + _ + _ => change (R_sqrt.sqrt a) with (norm (scale 86400 (ecl (pvv p)))) in E end end.
  destruct (Rltb_spec (norm (ecl (pvp p))) 1e-3). { injection E as <- <-. repeat split; intros; try easy; try lra; unfold form_ok in *; lia. }
  destruct (Rltb_spec (norm (scale 86400 (ecl (pvv p)))) 1e-8). { injection E as <- <-. repeat split; intros; try easy; try lra; unfold form_ok in *; lia. }
  cbn [orb] in E. injection E as <- <-. repeat split; intros; try easy; try lra; unfold form_ok in *; lia.
Qed.
Theorem C61_ue2el : forall u jformr, let '(st, o) := palUe2el (T := R) u jformr in
  (st = 0%Z <-> o <> None) /\
  (u_cm u < 1 -> st = (-1)%Z) /\
  (1 <= u_cm u -> ~ form_ok jformr -> st = (-2)%Z) /\
  (1 <= u_cm u -> form_ok jformr -> ~ pv_range_ok (PV (u_p0 u) (scale CD2S (u_v0 u))) -> st = (-3)%Z) /\
  (1 <= u_cm u -> form_ok jformr -> pv_range_ok (PV (u_p0 u) (scale CD2S (u_v0 u))) -> st = 0%Z).
Proof.
  intros u jformr. unfold palUe2el.
  replace (V (vx (u_v0 u) * CD2S)%num (vy (u_v0 u) * CD2S)%num (vz (u_v0 u) * CD2S)%num) with (scale CD2S (u_v0 u))
    by (unfold scale; rops; f_equal; ring).
  rops. replace (litR 1.0) with 1 by (rlit; lra).
  assert (H := C61_pv2el (PV (u_p0 u) (scale CD2S (u_v0 u))) (u_t0 u) (u_cm u - 1) jformr).
  destruct (palPv2el _ _ _ _) as [st o]. destruct H as (H0 & H1 & H2 & H3 & H4).
  repeat split; intros; try (apply H0; easy); try (apply H1; lra); try (apply H2; [lra|easy]); try (apply H3; [lra|easy|easy]); try (apply H4; [lra|easy|easy]).
Qed.
(** palPlanet: eraPlan94's status, with 2 (no convergence) reported as -2 *)
Theorem C61_planet : forall (T : Type) (A : Arith T) plan94 date np, let '(j, p) := plan94 MJD0 date np in
  (j = -1 \/ j = 0 \/ j = 1 \/ j = 2)%Z ->
  let st := fst (palPlanet plan94 date np) in
  (st = -2 <-> j = 2)%Z /\ (st = -1 <-> j = -1)%Z /\ (st = 0 <-> j = 0)%Z /\ (st = 1 <-> j = 1)%Z.
Proof.
  intros T A plan94 date np. unfold palPlanet. destruct (plan94 MJD0 date np) as [j p]. intros H. cbn [fst].
  destruct (Z.eqb_spec j 2); lia.
Qed.
(** Non-vacuity *)
Example C61_eg_invalid : forall hf, palEl2ue (T := R) hf 50000 2 50000 0 0 0 1 1.5 0 0 = Some ((-2)%Z, None).
Proof.
  intros hf. unfold palEl2ue, el_check. rn. cbn [Z.ltb Z.compare orb Z.eqb negb].
  rewrite (Rltb_false 1.5 (0 / 10)), (Rltb_false _ 1.5), (Rleb_true _ 1.5) by lra. reflexivity.
Qed.
Example C61_eg_pv : pv_range_ok pv_eg.
Proof.
  unfold pv_range_ok, pv_eg, norm, scale, ecl, dot. cbn [pvp pvv vx vy vz]. split; interval.
Qed.
Example C61_eg_slow : 0.01 * 0.01 * (1 * 1 * 1) < 0.01720209895 * 0.01720209895.
Proof. lra. Qed.

(** ** C62: the form of the elements returned by palPv2el *)
(** Heliocentric ecliptic position (AU) and velocity (AU/d) of a state vector, and the eccentricity of its orbit about a
    centre of gravitational parameter mu: the square of the eccentricity is 1 + 2 E h^2 / mu^2. *)
Definition epos (p : pv R) : vec R := ecl (pvp p).
Definition evel (p : pv R) : vec R := scale 86400 (ecl (pvv p)).
Definition mu_sun (pmass : R) : R := (1 + pmass) * (0.01720209895 * 0.01720209895).
Definition energy (mu : R) (p : pv R) : R := dot (evel p) (evel p) / 2 - mu / norm (epos p).
Definition angmom (p : pv R) : vec R := cross (epos p) (evel p).
Definition ecc_sq (mu : R) (p : pv R) : R := 1 + 2 * energy mu p * dot (angmom p) (angmom p) / (mu * mu).
(** the square of the eccentricity is the squared length of the Laplace-Runge-Lenz vector *)
Lemma ecc_sq_lrl : forall mu p, mu <> 0 -> epos p <> vzero -> ecc_sq mu p =
  let e := vsub (scale (/ mu) (cross (evel p) (angmom p))) (scale (/ norm (epos p)) (epos p)) in dot e e.
Proof.
  intros mu p Hmu Hp. unfold ecc_sq, energy, angmom. set (x := epos p) in *. set (v := evel p). clearbody x v.
  assert (Hr := norm_gt0 x Hp). assert (Hq := norm_sq x). set (r := norm x) in *. clearbody r. cbv zeta.
  assert (L1 : dot (cross v (cross x v)) (cross v (cross x v)) = dot v v * dot (cross x v) (cross x v)).
  { rewrite lagrange. replace (dot v (cross x v)) with 0; [ring|]. unfold dot, cross. cbn [vx vy vz]. ring. }
  assert (L2 : dot (cross v (cross x v)) x = dot (cross x v) (cross x v)).
  { unfold dot, cross. cbn [vx vy vz]. ring. }
  replace (dot (vsub (scale (/ mu) (cross v (cross x v))) (scale (/ r) x)) (vsub (scale (/ mu) (cross v (cross x v))) (scale (/ r) x)))
    with (/ mu * / mu * dot (cross v (cross x v)) (cross v (cross x v)) - 2 * (/ mu * / r) * dot (cross v (cross x v)) x + / r * / r * dot x x)
    by (unfold dot, vsub, scale; cbn [vx vy vz]; ring).
  rewrite L1, L2, <- Hq. field. split; lra.
Qed.
Lemma ecc_sq_pos : forall mu p, mu <> 0 -> epos p <> vzero -> 0 <= ecc_sq mu p.
Proof. intros. rewrite ecc_sq_lrl by easy. apply dot_pos. Qed.

(** the snapping of the eccentricity to 1 *)
Definition ecc_snap (e : R) : R := if Rltb (Rabs (e - 1)) 1e-8 then 1 else e.
Lemma mu_sun_eq : forall pmass, (litR 1.0 + pmass) * GCON * GCON = mu_sun pmass.
Proof. intros. unfold GCON, mu_sun. rn. lra. Qed.
Lemma norm_nz : forall x a, 0 < a -> a <= norm x -> x <> vzero.
Proof. intros x a Ha H ->. unfold norm, dot, vzero in H. cbn [vx vy vz] in H. replace (0 * 0 + 0 * 0 + 0 * 0) with 0 in H by ring. rewrite sqrt_0 in H. lra. Qed.
Definition econic (p : pv R) (mu : R) : conic := pv_conic (epos p) (evel p) (norm (epos p)) (dot (evel p) (evel p)) mu.
Lemma pv2el_val : forall p date pmass jformr, 0 <= pmass -> form_ok jformr -> pv_range_ok p ->
  palPv2el (T := R) p date pmass jformr = (0%Z, Some (pv_out date (mu_sun pmass) jformr (econic p (mu_sun pmass)))).
Proof.
  intros p date pmass jformr A1 A2 A3. unfold palPv2el.
  assert (E1 : (pmass <? #0.0)%num = false) by (rn; apply Rltb_false; lra). rewrite E1.
  assert (E2 : ((jformr <? 1)%Z || (3 <? jformr)%Z) = false) by (unfold form_ok in A2; lia). rewrite E2.
  rewrite !to_ecl_ecl. cbv zeta.
  replace (V (SPD * vx (ecl (pvv p)))%num (SPD * vy (ecl (pvv p)))%num (SPD * vz (ecl (pvv p)))%num) with (evel p).
  2: { unfold evel, scale, SPD. rops. replace (litR 86400.0) with 86400 by (rlit; lra). reflexivity. }
  fold (epos p). set (v := evel p) in *. set (x := epos p) in *.
  change (sqrt (vx x * vx x + vy x * vy x + vz x * vz x))%num with (norm x).
  change (vx v * vx v + vy v * vy v + vz v * vz v)%num with (dot v v). change (sqrt (dot v v)) with (norm v).
  destruct A3 as [A3 A4]. fold (epos p) in A3. fold (evel p) in A4. fold x in A3. fold v in A4.
  assert (E3 : ((norm x <? #1e-3) || (norm v <? #1e-8))%num = false).
  { rops. rewrite !Rltb_false by (rlit; lra). reflexivity. }
  rewrite E3. replace ((#1.0 + pmass) * GCON * GCON)%num with (mu_sun pmass) by (rops; now rewrite mu_sun_eq). reflexivity.
Qed.
Lemma pv2el_ok : forall p date pmass jformr el, palPv2el (T := R) p date pmass jformr = (0%Z, Some el) ->
  0 <= pmass /\ form_ok jformr /\ pv_range_ok p /\ el = pv_out date (mu_sun pmass) jformr (econic p (mu_sun pmass)).
Proof.
  intros p date pmass jformr el H. assert (S := C61_pv2el p date pmass jformr). rewrite H in S.
  destruct S as (_ & S1 & S2 & S3 & _).
  assert (A1 : 0 <= pmass) by (destruct (Rlt_dec pmass 0) as [L|L]; [specialize (S1 L); discriminate S1|lra]).
  assert (A2 : form_ok jformr).
  { unfold form_ok in *. destruct (Z_le_dec 1 jformr); [destruct (Z_le_dec jformr 3); [lia|]|]; specialize (S2 A1 ltac:(lia)); discriminate S2. }
  assert (A3 : pv_range_ok p).
  { unfold pv_range_ok in *. destruct (Rle_dec 1e-3 (norm (ecl (pvp p)))); [destruct (Rle_dec 1e-8 (norm (scale 86400 (ecl (pvv p))))); [lra|]|];
      specialize (S3 A1 A2 ltac:(lra)); discriminate S3. }
  split; [easy|]. split; [easy|]. split; [easy|]. rewrite pv2el_val in H by easy. congruence.
Qed.
Lemma pv2el_ecc : forall p date pmass jformr el, palPv2el (T := R) p date pmass jformr = (0%Z, Some el) ->
  0 <= pmass /\ form_ok jformr /\ pv_range_ok p /\
  el_e el = ecc_snap (sqrtR (ecc_sq (mu_sun pmass) p)) /\
  el_jform el = (if Rltb 1 (el_e el) then 3%Z else jformr).
Proof.
  intros p date pmass jformr el H. destruct (pv2el_ok _ _ _ _ _ H) as (A1 & A2 & A3 & ->). clear H.
  split; [easy|]. split; [easy|]. split; [easy|]. unfold econic.
  assert (Hm : mu_sun pmass <> 0) by (unfold mu_sun; nra).
  assert (Hp : epos p <> vzero) by (apply (norm_nz _ 1e-3); [lra|apply A3]).
  assert (E2 := ecc_sq_pos _ _ Hm Hp). set (v := evel p). set (x := epos p).
  set (k := pv_conic x v (norm x) (dot v v) (mu_sun pmass)).
  assert (K : k_ecc k = ecc_snap (sqrtR (ecc_sq (mu_sun pmass) p))).
  { unfold k, pv_conic, ecc_snap, DMAX. cbn [k_ecc]. rn. replace (10 / 10) with 1 by lra.
    replace (1 - (20 / 10 / norm x - dot v v / mu_sun pmass) *
      ((vy x * vz v - vz x * vy v) * (vy x * vz v - vz x * vy v) + (vz x * vx v - vx x * vz v) * (vz x * vx v - vx x * vz v) +
       (vx x * vy v - vy x * vx v) * (vx x * vy v - vy x * vx v)) / mu_sun pmass) with (ecc_sq (mu_sun pmass) p).
    2: { unfold ecc_sq, energy, angmom. fold x v. change (cross x v) with (V (vy x * vz v - vz x * vy v) (vz x * vx v - vx x * vz v) (vx x * vy v - vy x * vx v)).
         unfold dot at 2. cbn [vx vy vz]. field. split; [exact Hm|]. apply Rgt_not_eq, norm_gt0, Hp. }
    replace (0 / 10) with 0 by lra.
    replace (if Rltb 0 (ecc_sq (mu_sun pmass) p) then ecc_sq (mu_sun pmass) p else 0) with (ecc_sq (mu_sun pmass) p) by (rcase; lra).
    replace (10 / 1000000000) with 1e-8 by lra. reflexivity. }
  rewrite <- K. clearbody k. clear. unfold pv_out. rops. replace (litR 1.0) with 1 by (rlit; lra).
  destruct (pv_mean (mu_sun pmass) (k_ar k) (k_ecc k) (k_at k)) as [am dn].
  match goal with |- context [if ?c then _ else if ?d then _ else _] => destruct c end; [cbn [el_e el_jform]; auto|].
  match goal with |- context [if ?c then _ else _] => destruct c end; cbn [el_e el_jform]; auto.
Qed.

(** An ellipse (eccentricity at most 1 - 1e-8) is returned in the requested form, a hyperbola (at least 1 + 1e-8) in form 3. *)
Theorem C62_form : forall p date pmass jformr el, palPv2el (T := R) p date pmass jformr = (0%Z, Some el) ->
  let e := sqrtR (ecc_sq (mu_sun pmass) p) in
  (e <= 1 - 1e-8 -> el_jform el = jformr /\ el_e el = e) /\
  (1 + 1e-8 <= e -> el_jform el = 3%Z /\ el_e el = e) /\
  (1 - 1e-8 < e < 1 + 1e-8 -> el_jform el = jformr /\ el_e el = 1).
Proof.
  intros p date pmass jformr el H e. destruct (pv2el_ecc _ _ _ _ _ H) as (_ & _ & _ & E & F). fold e in E. unfold ecc_snap in E.
  clearbody e. clear H. revert E. rcase; intros E; rewrite E in F |- *.
  - rewrite Rltb_false in F by lra. apply Rabs_def2 in r. repeat split; intros; auto; lra.
  - assert (G : e <= 1 - 1e-8 \/ 1 + 1e-8 <= e).
    { unfold Rabs in n. destruct (Rcase_abs (e - 1)); lra. }
    revert F. rcase; intros F; repeat split; intros; auto; lra.
Qed.
(** The documented claim is false for a parabola: an orbit of zero energy is returned in form 1 (mean distance and mean
    longitude) when form 1 was requested. *)
Theorem C62_parabola_refuted : exists p el, energy (mu_sun 0) p = 0 /\
  palPv2el (T := R) p 50000 0 1 = (0%Z, Some el) /\ el_jform el = 1%Z.
Proof.
  set (c := 0.9174820620691818). set (s := 0.3977771559319137).
  set (w := sqrtR (2 * mu_sun 0 / (c * c + s * s)) / 86400).
  assert (B : 0 < c * c + s * s) by (unfold c, s; lra).
  assert (M : 0 < mu_sun 0) by (unfold mu_sun; lra).
  assert (Q : 0 <= 2 * mu_sun 0 / (c * c + s * s)) by (apply Rlt_le, Rdiv_lt_0_compat; lra).
  set (p := PV (V 1 0 0) (V 0 w 0)).
  assert (N1 : norm (epos p) = 1).
  { unfold norm, epos, ecl, p, dot. cbn [pvp vx vy vz]. match goal with |- sqrtR ?a = 1 => replace a with 1 by ring end. apply sqrt_1. }
  assert (D : dot (evel p) (evel p) = 2 * mu_sun 0).
  { unfold evel, ecl, scale, p, dot. cbn [pvv vx vy vz]. fold c s.
    transitivity ((c * c + s * s) * ((86400 * w) * (86400 * w))); [ring|].
    replace (86400 * w) with (sqrtR (2 * mu_sun 0 / (c * c + s * s))) by (unfold w; field).
    rewrite sqrt_sqrt by easy. field. lra. }
  assert (E : energy (mu_sun 0) p = 0) by (unfold energy; rewrite N1, D; field).
  assert (R0 : pv_range_ok p).
  { unfold pv_range_ok. fold (epos p) (evel p). rewrite N1. split; [lra|]. unfold norm. rewrite D. unfold mu_sun. interval. }
  assert (S := C61_pv2el p 50000 0 1). destruct (palPv2el p 50000 0 1) as [st o] eqn:P. destruct S as (S0 & _ & _ & _ & S4).
  specialize (S4 ltac:(lra) ltac:(unfold form_ok; lia) R0). subst st. destruct o as [el|]; [|now contradiction (proj1 S0 eq_refl)].
  exists p, el. split; [easy|]. split; [easy|].
  destruct (C62_form _ _ _ _ _ P) as (_ & _ & F). apply F.
  unfold ecc_sq. rewrite E. replace (1 + 2 * 0 * dot (angmom p) (angmom p) / (mu_sun 0 * mu_sun 0)) with 1 by (unfold Rdiv; ring).
  rewrite sqrt_1. lra.
Qed.
(** Non-vacuity of C62_form: an ellipse *)
Example C62_eg : exists el, palPv2el (T := R) pv_eg 50000 0 2 = (0%Z, Some el) /\ el_jform el = 2%Z /\ el_e el < 1.
Proof.
  assert (S := C61_pv2el pv_eg 50000 0 2). destruct (palPv2el pv_eg 50000 0 2) as [st o] eqn:P. destruct S as (S0 & _ & _ & _ & S4).
  specialize (S4 ltac:(lra) ltac:(unfold form_ok; lia) C61_eg_pv). subst st. destruct o as [el|]; [|now contradiction (proj1 S0 eq_refl)].
  exists el. split; [easy|]. destruct (C62_form _ _ _ _ _ P) as (F & _).
  assert (Q : sqrtR (ecc_sq (mu_sun 0) pv_eg) <= 1 - 1e-8).
  { assert (N : norm (epos pv_eg) = 1).
    { unfold norm, epos, ecl, pv_eg, dot. cbn [pvp vx vy vz]. match goal with |- sqrtR ?a = 1 => replace a with 1 by ring end. apply sqrt_1. }
    unfold ecc_sq, energy. rewrite N. unfold angmom, evel, epos, ecl, scale, cross, pv_eg, mu_sun, dot. cbn [pvp pvv vx vy vz]. interval. }
  destruct (F Q) as [F1 F2]. split; [easy|]. rewrite F2. lra.
Qed.

(** ** C63: palPertue *)
(** Number of steps: at least 0.01 day is covered by each step except possibly the last, so [n] steps suffice for a span of
    [0.01 n] days; with that many the function returns (for every planetary ephemeris). *)
Theorem C63_terminates : forall plan94 epv00 moon date u n, Rabs (date - u_t0 u) <= 0.01 * INR n ->
  exists hf x, forall hf' n', (hf <= hf')%nat -> (n <= n')%nat -> palPertue (T := R) plan94 epv00 moon hf' n' date u = Some x.
Proof.
  intros plan94 epv00 moon date u n L. unfold palPertue. rops.
  set (fb := DSIGN (litR 1.0) (date - u_t0 u)).
  assert (F : (fb = 1 \/ fb = -1) /\ fb * (date - u_t0 u) = Rabs (date - u_t0 u)).
  { unfold fb, DSIGN. rn. unfold Rabs. rcase; destruct (Rcase_abs (date - u_t0 u)); destruct (Rcase_abs (10 / 10)); try lra; (split; [|lra]); auto; lra. }
  destruct F as [F1 F2].
  destruct (pt_loop_total plan94 epv00 moon date fb n (pt_init date u) F1) as [hf H].
  { unfold pt_inv, pt_init. cbn [ps_tspan ps_t0 ps_tleft ps_rtn]. rn. split; lra. }
  { unfold pt_init. cbn [ps_tleft]. rops. rewrite F2. exact L. }
  exists hf. destruct (pt_loop plan94 epv00 moon hf n date fb (pt_init date u)) as [s| |] eqn:E; [eexists|eexists|easy]; intros hf' n' L1 L2;
    (rewrite (pt_loop_mono _ _ _ n hf); [rewrite E; reflexivity|rewrite E; discriminate|easy|easy]).
Qed.
(** Status codes, for every arithmetic: -1 with the elements untouched, or 0, 1-9, 101, 102. *)
Theorem C63_status : forall (T : Type) (A : Arith T) plan94 epv00 moon hf n date u st u',
  palPertue plan94 epv00 moon hf n date u = Some (st, u') ->
  (st = (-1)%Z /\ u' = u) \/ (st = 0 \/ 1 <= st <= 9 \/ st = 101 \/ st = 102)%Z.
Proof.
  intros T A plan94 epv00 moon hf n date u st u' H. unfold palPertue in H.
  match type of H with match ?t with _ => _ end = _ => destruct t as [s| |] eqn:EL end; [|left; injection H as <- <-; auto|discriminate H].
  right. injection H as <- _. eapply pt_loop_jstat; [|exact EL].
  unfold pt_init; cbn [ps_jstat]; match goal with |- context [if ?c then _ else _] => destruct c end; unfold ok_jstat; lia.
Qed.
(** The documented tenth body, the Moon, plays no part: neither the status nor the elements depend on where it is, and the
    status 10 (coincident with the Moon) is never returned. *)
Theorem C63_moon_refuted : forall (T : Type) (A : Arith T) plan94 epv00 moon moon' hf n date u,
  palPertue plan94 epv00 moon hf n date u = palPertue plan94 epv00 moon' hf n date u /\
  forall u', palPertue plan94 epv00 moon hf n date u <> Some (10%Z, u').
Proof.
  intros T A plan94 epv00 moon moon' hf n date u. split.
  - unfold palPertue. now rewrite (pt_loop_moon plan94 epv00 moon moon').
  - intros u' H. apply C63_status in H. lia.
Qed.
(** A null span leaves the elements alone. *)
Theorem C63_null : forall plan94 epv00 moon hf n u, palPertue (T := R) plan94 epv00 moon hf n (u_t0 u) u = Some (0%Z, u).
Proof.
  intros. unfold palPertue, pt_init, DSIGN. rn. set (t := u_t0 u). unfold Rminus. rewrite Rplus_opp_r.
  destruct n; cbn [pt_loop ps_tleft]; rops; rewrite Rmult_0_r, Rltb_false by (rlit; lra); rewrite Rabs_R0, Rltb_false by lra; reflexivity.
Qed.
(** Status 101 is provisionally set exactly when the span exceeds 36525 days (100 Julian years). *)
Theorem C63_span : forall date u, ps_jstat (pt_init (T := R) date u) = if Rlt_dec 36525 (Rabs (date - u_t0 u)) then 101%Z else 0%Z.
Proof.
  intros. unfold pt_init. cbn [ps_jstat]. rops. replace (litR 36525.0) with 36525 by (rlit; lra). unfold Rltb. destruct (Rlt_dec _ _); reflexivity.
Qed.
(** On success over a non-null span the new elements are those of a state vector osculating exactly at the final date (for
    a massless body), which palUe2pv reproduces. *)
Theorem C63_epoch : forall plan94 epv00 moon hf n date u st u', date <> u_t0 u ->
  palPertue (T := R) plan94 epv00 moon hf n date u = Some (st, u') -> st <> (-1)%Z ->
  u_t0 u' = date /\ u_cm u' = 1 /\ u_psi u' = 0 /\
  exists q, palPv2ue q date 0 = (0%Z, Some u') /\ forall hf' junk, palUe2pv hf' date u' junk = Some (0%Z, u', q).
Proof.
  intros plan94 epv00 moon hf n date u st u' Hd H Hs. unfold palPertue in H. rops.
  set (fb := DSIGN (litR 1.0) (date - u_t0 u)) in *.
  assert (F : (fb = 1 \/ fb = -1) /\ 0 < fb * (date - u_t0 u)).
  { unfold fb, DSIGN. rn. rcase; (unfold Rabs; destruct (Rcase_abs (10 / 10)); [lra|]); split; ((left; lra) || (right; lra) || lra). }
  destruct F as [F1 F2]. clearbody fb.
  match type of H with match ?t with _ => _ end = _ => destruct t as [s| |] eqn:EL end; [|congruence|discriminate H].
  injection H as <- <-.
  assert (I0 : pt_inv date (pt_init date u)) by (unfold pt_inv, pt_init; cbn [ps_tspan ps_t0 ps_tleft ps_rtn]; rn; split; lra).
  destruct (pt_loop_final _ _ _ _ _ _ _ _ _ F1 I0 F2 EL) as [q Q].
  assert (E : u_t0 (ps_ul s) = date /\ u_cm (ps_ul s) = 1 /\ u_psi (ps_ul s) = 0).
  { clear EL. set (u' := ps_ul s) in *. clearbody u'. unfold palPv2ue in Q. rops.
    repeat match type of Q with (if ?c then _ else _) = _ => destruct c; [discriminate Q|] end. injection Q as <-. cbn [u_t0 u_cm u_psi].
    rlit. repeat split; lra. }
  destruct E as (E1 & E2 & E3). split; [easy|]. split; [easy|]. split; [easy|].
  exists q. split; [exact Q|]. intros. eapply C59_roundtrip, Q.
Qed.
