(** * Theorems: palPertue integrates the perturbed equations of motion by Encke's method (C78) *)
From Coq Require Import Reals ZArith Lra Lia Psatz Bool List.
From Interval Require Import Tactic.
From Verif Require Import Num NumR Erfa Geom M_Sphere M_Time M_Place M_Orbit P_Orbit Props_Orbit Univ P_Univ P_Ue2pv.
Import ListNotations.
Local Open Scope R_scope.

(** ** Specification *)
(** the Gaussian gravitational constant; accelerations are in au per day squared *)
Definition kG : R := 0.01720209895.
(** [r / |r|^3] *)
Definition inv_sq (r : vec R) : vec R := scale (/ norm r ^ 3) r.
(** a perturbing body: number, Sun's mass in units of its mass, heliocentric position *)
Record body : Type := Body { b_num : Z; b_mass : R; b_pos : vec R }.
(** attraction of the body on a particle at [p], minus its attraction on the Sun *)
Definition attraction (p : vec R) (b : body) : vec R :=
  scale (kG ^ 2 / b_mass b) (vsub (inv_sq (vsub (b_pos b) p)) (inv_sq (b_pos b))).
(** bodies closer than 0.0001 au are left out *)
Definition touching (p : vec R) (b : body) : Prop := norm (vsub (b_pos b) p) < 0.0001.
Definition touching_dec p b : {touching p b} + {~ touching p b} := Rlt_dec _ _.
Definition vsum (l : list (vec R)) : vec R := fold_right vadd vzero l.
Definition keep (p : vec R) (l : list body) : list body := filter (fun b => if touching_dec p b then false else true) l.
Definition total_attraction (p : vec R) (l : list body) : vec R := vsum (map (attraction p) (keep p l)).
(** two-body acceleration *)
Definition solar (p : vec R) : vec R := scale (- kG ^ 2) (inv_sq p).
(** reciprocal masses of Mercury, Venus, the Earth-Moon system, Mars, Jupiter, Saturn, Uranus, Neptune *)
Definition planet_mass (n : nat) : R := nth n [6023600; 408523.5; 328900.5; 3098710; 1047.355; 3498.5; 22869; 19314] 0.
Definition earth_mass : R := 332946.038.
(** The bodies that perturb a particle at [p]: the eight planets or, when the Earth-Moon barycentre is nearer than 1 au, seven
    planets and, instead of the barycentre, the Earth (number 9) - but not the Moon, see C63_moon_refuted. *)
Definition planets (pos : list (vec R)) : list body :=
  map (fun n => Body (Z.of_nat (S n)) (planet_mass n) (nth n pos vzero)) (seq 0 8).
Definition perturbers (p : vec R) (pos : list (vec R)) (earth : vec R) : list body :=
  if Rlt_dec (norm (vsub (nth 2 pos vzero) p)) 1 then
    filter (fun b => negb (b_num b =? 3)%Z) (planets pos) ++ [Body 9 earth_mass earth]
  else planets pos.
(** the warning left behind: the number of the last body touched, otherwise what it was before *)
Definition warning (p : vec R) (l : list body) (before : Z) : Z :=
  fold_left (fun st b => if touching_dec p b then b_num b else st) l before.

Lemma norm3 : forall v : vec R, (sq3 v * sqrtR (sq3 v))%R = norm v ^ 3.
Proof.
  intro v. unfold norm. replace (sq3 v) with (dot v v) by (unfold sq3, dot; rn; lra).
  replace (sqrtR (dot v v) ^ 3) with (sqrtR (dot v v) * sqrtR (dot v v) * sqrtR (dot v v)) by ring. rewrite sqrt_sqrt by apply dot_pos. easy.
Qed.
Lemma norm1 : forall v : vec R, sqrtR (sq3 v) = norm v.
Proof. intro v. unfold norm. f_equal. unfold sq3, dot. rn. lra. Qed.
Lemma AMAS_pos : forall np, 0 < AMAS (T := R) np.
Proof. intros np. unfold AMAS. rops. destruct np as [|[[[|[]|]|[[]|[]|]|]|[[|[]|]|[[]|[]|]|]|]|]; rlit; lra. Qed.
(** one body *)
Definition pt_add (p : vec R) (fd : vec R) (b : body) : vec R :=
  if touching_dec p b then fd else vadd fd (scale (/ kG ^ 2) (attraction p b)).
Lemma pt_body_val : forall p np rho ne fd js, 
  pt_body (T := R) p np rho (ne, fd, js) =
    let b := Body np (AMAS np) rho in
    let ne' := if (np =? 3)%Z && (if Rlt_dec (norm (vsub rho p)) 1 then true else false) then true else ne in
    if ne' && (np =? 3)%Z then (ne', fd, js) else (ne', pt_add p fd b, warning p [b] js).
Proof.
  intros p np rho ne fd js. unfold pt_body. rops.
  change (eraPmp rho p) with (vsub rho p). rewrite norm1.
  replace (litR 1.0) with 1 by (rlit; lra). replace (litR 0.0001) with 0.0001 by (rlit; lra).
  cbv zeta. change (Rltb (norm (vsub rho p)) 1) with (if Rlt_dec (norm (vsub rho p)) 1 then true else false).
  set (ne' := if _ && _ then true else ne). destruct (ne' && (np =? 3)%Z); [easy|].
  unfold pt_add, warning. cbn [fold_left]. unfold touching_dec, touching. cbn [b_pos b_num]. unfold Rltb.
  destruct (Rlt_dec (norm (vsub rho p)) 0.0001); [easy|]. f_equal. f_equal.
  unfold attraction, inv_sq. cbn [b_mass b_pos]. assert (M := AMAS_pos np). set (m := AMAS np) in *. clearbody m.
  rewrite norm3. replace (sq3 (vsub rho p) * norm (vsub rho p)) with (norm (vsub rho p) ^ 3) by (rewrite <- (norm1 (vsub rho p)) at 2; now rewrite norm3).
  set (a := norm (vsub rho p) ^ 3). set (c := norm rho ^ 3). set (d := vsub rho p). clearbody a c d.
  assert (K : kG ^ 2 <> 0) by (unfold kG; apply pow_nonzero; lra). set (k := kG ^ 2) in *. clearbody k.
  unfold scale, vsub, vadd. cbn [vx vy vz].
  assert (Q : forall f x y, f + (x / a - y / c) / m = f + / k * (k / m * (/ a * x - / c * y))).
  { intros. unfold Rdiv. replace (/ k * (k * / m * (/ a * x - / c * y))) with (k * / k * / m * (/ a * x - / c * y)) by ring.
    rewrite Rinv_r by exact K. ring. }
  f_equal; apply Q.
Qed.
(** all bodies *)
Definition massed (b : body) : Prop := b_mass b = AMAS (b_num b).
Lemma vadd_zero_r : forall v : vec R, vadd v vzero = v.
Proof. intros [x y z]. unfold vadd, vzero. cbn [vx vy vz]. f_equal; ring. Qed.
Lemma pt_add_fold : forall p l fd, fold_left (pt_add p) l fd = vadd fd (scale (/ kG ^ 2) (total_attraction p l)).
Proof.
  intros p l. induction l as [|b l IH]; intro fd.
  - cbn [fold_left]. unfold total_attraction. cbn [keep filter map vsum fold_right]. destruct fd as [x y z]. unfold vadd, scale, vzero. cbn [vx vy vz]. f_equal; ring.
  - cbn [fold_left]. rewrite IH. unfold pt_add, total_attraction, keep. cbn [filter]. destruct (touching_dec p b); [easy|].
    cbn [map vsum fold_right]. fold (vsum (map (attraction p) (filter (fun b0 => if touching_dec p b0 then false else true) l))).
    generalize (vsum (map (attraction p) (filter (fun b0 => if touching_dec p b0 then false else true) l))) (attraction p b). intros u w.
    destruct fd as [a1 a2 a3], u as [b1 b2 b3], w as [c1 c2 c3]. unfold vadd, scale. cbn [vx vy vz]. f_equal; ring.
Qed.
(** a planet other than the third *)
Lemma pt_bodies_planet : forall (dat : list pldat) pe pm p dt np rest ne fd js d, (np <= 8)%Z -> np <> 3%Z -> nth_error dat (Z.to_nat (np - 1)) = Some d ->
  pt_bodies (T := R) (np :: rest) dat pe pm p dt (ne, fd, js) =
  pt_bodies rest dat pe pm p dt (ne, pt_add p fd (Body np (AMAS np) (pt_rho d dt)), warning p [Body np (AMAS np) (pt_rho d dt)] js).
Proof.
  intros dat pe pm p dt np rest ne fd js d L N E. cbn [pt_bodies]. rewrite (proj2 (Z.leb_le np 8) L), E, pt_body_val.
  rewrite (proj2 (Z.eqb_neq np 3) N). cbv zeta. rewrite andb_false_r. reflexivity.
Qed.
Lemma pt_bodies_emb : forall (dat : list pldat) pe pm p dt rest fd js d, nth_error dat 2 = Some d ->
  pt_bodies (T := R) (3%Z :: rest) dat pe pm p dt (false, fd, js) =
  if Rlt_dec (norm (vsub (pt_rho d dt) p)) 1 then pt_bodies rest dat pe pm p dt (true, fd, js)
  else pt_bodies rest dat pe pm p dt (false, pt_add p fd (Body 3 (AMAS 3) (pt_rho d dt)), warning p [Body 3 (AMAS 3) (pt_rho d dt)] js).
Proof.
  intros dat pe pm p dt rest fd js d E. cbn [pt_bodies]. change (3 <=? 8)%Z with true. change (Z.to_nat (3 - 1)) with 2%nat. rewrite E, pt_body_val.
  change (3 =? 3)%Z with true. cbv zeta. destruct (Rlt_dec _ 1); reflexivity.
Qed.
Lemma pt_bodies_earth : forall (dat : list pldat) pe pm p dt ne fd js,
  pt_bodies (T := R) [9%Z] dat pe pm p dt (ne, fd, js) =
  if ne then (ne, pt_add p fd (Body 9 (AMAS 9) pe), warning p [Body 9 (AMAS 9) pe] js) else (ne, fd, js).
Proof.
  intros dat pe pm p dt ne fd js. cbn [pt_bodies]. change (9 <=? 8)%Z with false. change (9 =? 9)%Z with true. cbv iota. cbn [fst].
  destruct ne; [|easy]. rewrite pt_body_val. reflexivity.
Qed.
Lemma planets_mass : forall d1 d2 d3 d4 d5 d6 d7 d8 : vec R, planets [d1; d2; d3; d4; d5; d6; d7; d8] =
  [Body 1 (AMAS 1) d1; Body 2 (AMAS 2) d2; Body 3 (AMAS 3) d3; Body 4 (AMAS 4) d4; Body 5 (AMAS 5) d5; Body 6 (AMAS 6) d6; Body 7 (AMAS 7) d7; Body 8 (AMAS 8) d8].
Proof.
  intros. unfold planets, planet_mass. cbn [map seq nth Z.of_nat Pos.of_succ_nat Pos.succ].
  assert (M : forall np m, AMAS np = m -> forall r, Body np m r = Body np (AMAS np) r) by (intros np m <-; easy).
  rewrite (M 1%Z), (M 2%Z), (M 3%Z), (M 4%Z), (M 5%Z), (M 6%Z), (M 7%Z), (M 8%Z) by (unfold AMAS; rn; lra). reflexivity.
Qed.
Lemma warning_cons : forall p b l js, warning p l (warning p [b] js) = warning p (b :: l) js.
Proof. reflexivity. Qed.
Lemma pt_bodies_val : forall p (dat : list pldat) pe pm dt js, length dat = 8%nat ->
  let pos := map (fun d => pt_rho d dt) dat in
  let l := perturbers p pos pe in
  pt_bodies (T := R) pt_range dat pe pm p dt (false, V (lit 0.0) (lit 0.0) (lit 0.0), js) =
    ((if Rlt_dec (norm (vsub (nth 2 pos vzero) p)) 1 then true else false),
     scale (/ kG ^ 2) (total_attraction p l), warning p l js).
Proof.
  intros p dat pe pm dt js L.
  destruct dat as [|d1 [|d2 [|d3 [|d4 [|d5 [|d6 [|d7 [|d8 [|d9 dat]]]]]]]]]; try discriminate L. clear L.
  cbv zeta. set (pos := map _ _). set (l := perturbers p pos pe).
  assert (Z0 : V (lit 0.0) (lit 0.0) (lit 0.0) = vzero) by (unfold vzero; rn; f_equal; lra). rewrite Z0.
  assert (S : scale (/ kG ^ 2) (total_attraction p l) = fold_left (pt_add p) l vzero).
  { rewrite pt_add_fold. destruct (scale (/ kG ^ 2) (total_attraction p l)) as [a1 a2 a3]. unfold vadd, vzero. cbn [vx vy vz]. f_equal; ring. }
  rewrite S. clear S Z0. unfold pt_range.
  rewrite (pt_bodies_planet _ _ _ _ _ 1 _ _ _ _ d1) by (lia || reflexivity).
  rewrite (pt_bodies_planet _ _ _ _ _ 2 _ _ _ _ d2) by (lia || reflexivity).
  rewrite (pt_bodies_emb _ _ _ _ _ _ _ _ d3) by reflexivity.
  unfold l, perturbers, pos. cbn [map nth]. rewrite planets_mass.
  replace (Body 9 earth_mass pe) with (Body 9 (AMAS 9) pe) by (f_equal; unfold AMAS, earth_mass; rn; lra).
  destruct (Rlt_dec (norm (vsub (pt_rho d3 dt) p)) 1) as [N|N].
  all: rewrite (pt_bodies_planet _ _ _ _ _ 4 _ _ _ _ d4) by (lia || reflexivity);
    rewrite (pt_bodies_planet _ _ _ _ _ 5 _ _ _ _ d5) by (lia || reflexivity);
    rewrite (pt_bodies_planet _ _ _ _ _ 6 _ _ _ _ d6) by (lia || reflexivity);
    rewrite (pt_bodies_planet _ _ _ _ _ 7 _ _ _ _ d7) by (lia || reflexivity);
    rewrite (pt_bodies_planet _ _ _ _ _ 8 _ _ _ _ d8) by (lia || reflexivity);
    rewrite pt_bodies_earth; cbn [filter b_num Z.eqb Pos.eqb negb app fold_left]; rewrite !warning_cons; reflexivity.
Qed.

(** ** Specification of a run *)
(** two element sets of one orbit (they differ only in the workspace entries that palUe2pv updates) *)
Definition same_orbit (u w : ue R) : Prop :=
  u_cm w = u_cm u /\ u_alpha w = u_alpha u /\ u_t0 w = u_t0 u /\ u_p0 w = u_p0 u /\ u_v0 w = u_v0 u /\ u_r0 w = u_r0 u /\ u_sigma0 w = u_sigma0 u.
(** motion over a few days from a position and velocity (au, au per day) *)
Definition extrapolate (p v : vec R) (dt : R) : vec R :=
  scale (1 - kG ^ 2 * dt ^ 2 / (2 * norm p ^ 3)) (vadd p (scale ((1 + norm (scale dt v) ^ 2 / (3 * norm p ^ 2)) * dt) v)).
(** [x] is the position of planet [n] at time [t]: extrapolated by at most 5 days from a position on the orbit that osculates
    palPlanet's prediction at an epoch at most 55 days away *)
Definition planet_pos (plan94 : R -> R -> Z -> Z * pv R) (hf : nat) (t : R) (n : Z) (x : vec R) : Prop :=
  exists tp te j q u0 u u' z, Rabs (t - tp) <= 5.000001 /\ Rabs (tp - te) <= 55.000001 /\ (j = 0 \/ j = 1)%Z /\
    palPlanet plan94 te n = (j, q) /\ palPv2ue q te 0 = (0%Z, Some u0) /\ same_orbit u0 u /\
    palUe2pv hf tp u pv_junk = Some (0%Z, u', z) /\ x = extrapolate (pvp z) (scale 86400 (pvv z)) (t - tp).
(** One step of the integration from [e] to [e'], where [p] is the position of the particle at mid step and [l] are the bodies
    that perturb it then.  The state: osculating elements, time reached, departure from the osculating orbit in position (au) and
    velocity (au per day), last perturbing acceleration, warning *)
Record estate : Type := ES { es_u : ue R; es_t : R; es_p : vec R; es_v : vec R; es_a : vec R; es_st : Z }.
Definition encke_step (plan94 : R -> R -> Z -> Z * pv R) (epv00 : R -> R -> pv R * pv R) (hf : nat) (sense tend : R)
    (p : vec R) (l : list body) (e e' : estate) : Prop :=
  exists h p0 v0 u1 pos js,
    (0.01 <= sense * h <= 10 \/ h = tend - es_t e) /\ 0 < sense * h /\ es_t e' = es_t e + h /\
    (* unperturbed and perturbed position at mid step *)
    palUe2pv hf (es_t e + h / 2) (es_u e) pv_junk = Some (0%Z, u1, PV p0 v0) /\
    Forall2 (planet_pos plan94 hf (es_t e + h / 2)) [1; 2; 3; 4; 5; 6; 7; 8]%Z pos /\
    p = vadd (vadd p0 (es_p e)) (scale (h / 2) (vadd (es_v e) (scale (h / 4) (es_a e)))) /\
    l = perturbers p pos (pvp (fst (epv00 2400000.5 (es_t e + h / 2)))) /\
    (* acceleration relative to the osculating orbit *)
    let acc := vsub (vadd (solar p) (total_attraction p l)) (solar p0) in
    let dp := vadd (es_p e) (vadd (scale h (es_v e)) (scale (h ^ 2 / 2) acc)) in
    let dv := vadd (es_v e) (scale h acc) in
    (js = es_st e \/ js = 102%Z) /\ es_st e' = warning p l js /\
    (* the osculating orbit is kept for 100 days at most, and not at the end *)
    ((es_u e' = u1 /\ Rabs (es_t e' - u_t0 u1) < 100 /\ es_t e' <> tend /\ es_p e' = dp /\ es_v e' = dv /\ es_a e' = acc) \/
     ((100 <= Rabs (es_t e' - u_t0 u1) \/ es_t e' = tend) /\
      exists u2 z, palUe2pv hf (es_t e') u1 pv_junk = Some (0%Z, u2, z) /\
        palPv2ue (PV (vadd (pvp z) dp) (vadd (pvv z) (scale (1 / 86400) dv))) (es_t e') 0 = (0%Z, Some (es_u e')) /\
        es_p e' = vzero /\ es_v e' = vzero /\ es_a e' = total_attraction p l)).
Inductive encke_run plan94 epv00 hf sense tend : estate -> estate -> Prop :=
| run_end : forall e, encke_run plan94 epv00 hf sense tend e e
| run_step : forall p l e e1 e2, encke_step plan94 epv00 hf sense tend p l e e1 -> encke_run plan94 epv00 hf sense tend e1 e2 ->
    encke_run plan94 epv00 hf sense tend e e2.

(** ** Refinement *)
Lemma same_orbit_refl : forall u, same_orbit u u. Proof. repeat split. Qed.
Lemma ue2pv_orbit : forall hf d u u' z, palUe2pv (T := R) hf d u pv_junk = Some (0%Z, u', z) -> same_orbit u u'.
Proof.
  intros hf d u u' z H. unfold palUe2pv in H.
  match type of H with match ?t with _ => _ end = _ => destruct t as [[]|]; [| |discriminate H] end;
    injection H; intros; subst; repeat split.
Qed.
Definition elems_ok plan94 te n u : Prop := exists j q u0, (j = 0 \/ j = 1)%Z /\ palPlanet plan94 te n = (j, q) /\
  palPv2ue (T := R) q te 0 = (0%Z, Some u0) /\ same_orbit u0 u.
Definition data_ok plan94 hf tp n (d : pldat) : Prop := exists te j q u0 u u' z, Rabs (tp - te) <= 55.000001 /\ (j = 0 \/ j = 1)%Z /\
  palPlanet plan94 te n = (j, q) /\ palPv2ue (T := R) q te 0 = (0%Z, Some u0) /\ same_orbit u0 u /\
  palUe2pv hf tp u pv_junk = Some (0%Z, u', z) /\ forall dt, pt_rho d dt = extrapolate (pvp z) (scale 86400 (pvv z)) dt.
Lemma pt_elements_ok : forall plan94 te nps js js' us, pt_elements (T := R) plan94 te nps js = Ok (js', us) ->
  Forall2 (elems_ok plan94 te) nps us /\ (js' = js \/ js' = 102%Z).
Proof.
  intros plan94 te nps. induction nps as [|np nps IH]; intros js js' us H; cbn [pt_elements] in H.
  - injection H as <- <-. auto.
  - destruct (palPlanet plan94 te np) as [j q] eqn:EP. destruct ((j =? 1)%Z || (j =? 0)%Z) eqn:EJ; [|discriminate H].
    replace (lit 0.0) with 0 in H by (rn; lra).
    destruct (palPv2ue q te 0) as [[] [u0|]] eqn:EU; try discriminate H.
    match type of H with rbind ?x _ = _ => destruct x as [[js2 us2]| |] eqn:E; cbn [rbind] in H; [|discriminate H|discriminate H] end.
    injection H as <- <-. destruct (IH _ _ _ E) as [F J]. split.
    + constructor; [|exact F]. exists j, q, u0. split; [|split; [exact EP|split; [exact EU|apply same_orbit_refl]]].
      apply orb_prop in EJ. destruct EJ as [EJ|EJ]; apply Z.eqb_eq in EJ; auto.
    + destruct (j =? 1)%Z; [|exact J]. destruct J; auto.
Qed.
Lemma pt_rho_val : forall (z : pv R) r2 dt, r2 = sq3 (pvp z) ->
  pt_rho (Pldat (PV (pvp z) (V (vx (pvv z) * SPD) (vy (pvv z) * SPD) (vz (pvv z) * SPD))%num) (r2 * lit 3.0) (GCON2 / (lit 2.0 * r2 * sqrtR r2)))%num dt =
  extrapolate (pvp z) (scale 86400 (pvv z)) dt.
Proof.
  intros z r2 dt ->. unfold pt_rho. cbn [pl_pv pl_r2x3 pl_gc pvp pvv vx vy vz].
  assert (S : SPD (T := R) = 86400) by (unfold SPD; rn; lra). rewrite S.
  assert (G : GCON2 (T := R) = kG ^ 2) by (unfold GCON2, GCON, kG; rn; lra). rewrite G.
  set (v := scale 86400 (pvv z)). rops. replace (V (vx (pvv z) * 86400 * dt) (vy (pvv z) * 86400 * dt) (vz (pvv z) * 86400 * dt)) with (scale dt v) by (unfold v, scale; cbn [vx vy vz]; f_equal; ring).
  set (p := pvp z). 
  assert (N2 : forall w : vec R, sq3 w = norm w ^ 2).
  { intro w. replace (norm w ^ 2) with (norm w * norm w) by ring. rewrite norm_sq. unfold sq3, dot. rn. lra. }
  unfold extrapolate. rewrite norm1. replace (litR 2.0 * sq3 p * norm p) with (2 * norm p ^ 3) by (rewrite N2; rlit; lra).
  rewrite !N2. replace (norm p ^ 2 * litR 3.0) with (3 * norm p ^ 2) by (rlit; lra). replace (litR 1.0) with 1 by (rlit; lra).
  set (A := norm (scale dt v) ^ 2 / (3 * norm p ^ 2)). set (B := 2 * norm p ^ 3). 
  replace (kG ^ 2 / B * (dt * dt)) with (kG ^ 2 * dt ^ 2 / B) by (unfold Rdiv; ring). set (C := kG ^ 2 * dt ^ 2 / B).
  unfold v. clearbody A C p. unfold scale, vadd. cbn [vx vy vz]. f_equal; ring.
Qed.
Lemma pt_motions_ok : forall plan94 hf te tp nps ups l, Rabs (tp - te) <= 55.000001 -> Forall2 (elems_ok plan94 te) nps ups ->
  pt_motions (T := R) hf tp ups = Ok l ->
  Forall2 (elems_ok plan94 te) nps (map fst l) /\ Forall2 (data_ok plan94 hf tp) nps (map snd l).
Proof.
  intros plan94 hf te tp nps ups l Ht F. revert l. induction F as [|np u nps ups (j & q & u0 & J & EP & EU & SO) F IH]; intros l H; cbn [pt_motions] in H.
  - injection H as <-. cbn [map]. auto.
  - destruct (palUe2pv hf tp u pv_junk) as [[[j2 u'] z]|] eqn:E; [|discriminate H].
    destruct (Z.eqb_spec j2 0) as [->|]; cbn [negb] in H; [|discriminate H].
    match type of H with rbind ?x _ = _ => destruct x as [ds| |] eqn:E2; cbn [rbind] in H; [|discriminate H|discriminate H] end.
    injection H as <-. destruct (IH _ eq_refl) as [F1 F2]. cbn [map fst snd].
    assert (SO' : same_orbit u0 u').
    { assert (Q := ue2pv_orbit _ _ _ _ _ E). unfold same_orbit in *. intuition congruence. }
    split; constructor; try assumption.
    + exists j, q, u0. auto.
    + exists te, j, q, u0, u, u', z. repeat (split; [assumption|]). intro dt. apply pt_rho_val. reflexivity.
Qed.
(** what holds between steps *)
Definition pert_inv plan94 hf (s : pstate) : Prop := u_t0 (ps_ul s) = ps_t0 s /\ (ps_first s = true \/
  (Forall2 (elems_ok plan94 (ps_tpel s)) [1; 2; 3; 4; 5; 6; 7; 8]%Z (ps_up s) /\
   Forall2 (data_ok plan94 hf (ps_tpmo s)) [1; 2; 3; 4; 5; 6; 7; 8]%Z (ps_pl s))).
Definition abs_state (s : pstate) : estate := ES (ps_ul s) (ps_t0 s + ps_rtn s) (ps_perp s) (ps_perv s) (ps_pera s) (ps_jstat s).
Lemma Forall2_length8 : forall X (P : Z -> X -> Prop) l, Forall2 P [1; 2; 3; 4; 5; 6; 7; 8]%Z l -> length l = 8%nat.
Proof.
  intros X P l F. assert (G : forall l1 l2, Forall2 P l1 l2 -> length l2 = length l1) by (intros l1 l2 H; induction H; cbn [length]; congruence).
  exact (G _ _ F).
Qed.
Lemma pert_step : forall plan94 epv00 moon hf tf fb s s', (fb = 1 \/ fb = -1) -> pt_inv tf s -> 0 < fb * ps_tleft s -> pert_inv plan94 hf s ->
  pt_step (T := R) plan94 epv00 moon hf tf fb s = Ok s' ->
  pert_inv plan94 hf s' /\ exists p l, encke_step plan94 epv00 hf fb tf p l (abs_state s) (abs_state s').
Proof.
  intros plan94 epv00 moon hf tf fb s s' Hfb [I1 I2] Hr [U0 PI0] H.
  destruct (pt_ts_bounds (ps_first s) fb (ps_fd s)) as (m & Hm & Em).
  unfold pt_step in H. rewrite Em in H. clear Em. rops.
  set (ts := if Rltb (Rabs (ps_tspan s - ps_rtn s)) (Rabs (m * fb)) then ps_tspan s - ps_rtn s else m * fb) in *.
  assert (Ets : (0.01 <= fb * ts <= 10 \/ ts = tf - (ps_t0 s + ps_rtn s)) /\ 0 < fb * ts /\ fb * ts <= fb * ps_tleft s).
  { unfold ts. rewrite <- I2. rcase.
    - split; [right; rewrite I2, I1; ring|split; [exact Hr|lra]].
    - rewrite Rabs_mult, (Rabs_pos_eq m) in n by lra.
      split; [left|]; destruct Hfb as [-> | ->]; try lra; split; try lra; unfold Rabs in n; destruct (Rcase_abs _) in n; destruct (Rcase_abs _) in n; lra. }
  clearbody ts. set (t := ps_t0 s + ps_rtn s + ts / litR 2.0) in *.
  assert (Et : t = ps_t0 s + ps_rtn s + ts / 2) by (unfold t; rlit; lra).
  match type of H with rbind ?x ?f = _ => destruct x as [[[tpel js] up]| |] eqn:E1; cbn [rbind] in H; [|discriminate H|discriminate H] end.
  match type of H with rbind ?x ?f = _ => destruct x as [[[tpmo up'] pl]| |] eqn:E3; cbn [rbind] in H; [|discriminate H|discriminate H] end.
  (* the planets *)
  assert (Fb : Rabs fb = 1) by (destruct Hfb as [-> | ->]; [apply Rabs_R1|rewrite Rabs_left; lra]).
  assert (G1 : Forall2 (elems_ok plan94 tpel) [1; 2; 3; 4; 5; 6; 7; 8]%Z up /\ Rabs (t - tpel) <= 50.000001 /\ (js = ps_jstat s \/ js = 102%Z)).
  { match type of E1 with (if ?c then _ else _) = _ => destruct c eqn:EC end.
    - match type of E1 with rbind ?x _ = _ => destruct x as [[js2 up2]| |] eqn:E2; cbn [rbind] in E1; [|discriminate E1|discriminate E1] end.
      injection E1 as <- <- <-. destruct (pt_elements_ok _ _ _ _ _ _ E2) as [F J]. split; [exact F|]. split; [|exact J].
      replace (t - (t + fb * litR 50.0)) with (- (fb * 50)) by (rlit; lra). rewrite Rabs_Ropp, Rabs_mult, Fb, Rabs_pos_eq by lra. lra.
    - injection E1 as <- <- <-. apply orb_false_elim in EC. destruct EC as [EF EC]. destruct PI0 as [X|[F _]]; [congruence|].
      split; [exact F|]. split; [|now left]. unfold Rleb in EC. destruct (Rle_dec _ _) as [X|X]; [discriminate EC|]. revert X. rlit. lra. }
  destruct G1 as (F1 & D1 & J1).
  assert (G2 : Forall2 (elems_ok plan94 tpel) [1; 2; 3; 4; 5; 6; 7; 8]%Z up' /\ Forall2 (data_ok plan94 hf tpmo) [1; 2; 3; 4; 5; 6; 7; 8]%Z pl /\ Rabs (t - tpmo) <= 5.000001).
  { match type of E3 with (if ?c then _ else _) = _ => destruct c eqn:EC end.
    - match type of E3 with rbind ?x _ = _ => destruct x as [l2| |] eqn:E2; cbn [rbind] in E3; [|discriminate E3|discriminate E3] end.
      injection E3 as <- <- <-. assert (T5 : Rabs (fb * litR 5.0) = 5) by (rewrite Rabs_mult, Fb; replace (litR 5.0) with 5 by (rlit; lra); rewrite Rabs_pos_eq; lra).
      assert (D2 : Rabs (t + fb * litR 5.0 - tpel) <= 55.000001).
      { replace (t + fb * litR 5.0 - tpel) with ((t - tpel) + fb * litR 5.0) by ring. eapply Rle_trans; [apply Rabs_triang|]. lra. }
      destruct (pt_motions_ok _ _ _ _ _ _ _ D2 F1 E2) as [A B]. split; [exact A|]. split; [exact B|].
      replace (t - (t + fb * litR 5.0)) with (- (fb * litR 5.0)) by ring. rewrite Rabs_Ropp, T5. lra.
    - injection E3 as <- <- <-. apply orb_false_elim in EC. destruct EC as [EF EC]. destruct PI0 as [X|[_ F]]; [congruence|].
      split; [exact F1|]. split; [exact F|]. unfold Rleb in EC. destruct (Rle_dec _ _) as [X|X]; [discriminate EC|]. revert X. rlit. lra. }
  destruct G2 as (F2 & F3 & D2). clear E1 E3 PI0.
  match type of H with match ?t with _ => _ end = _ => destruct t as [[[j u1] q0]|] eqn:EU1; [|discriminate H] end.
  destruct (Z.eqb_spec j 0) as [->|]; cbn [negb] in H; [|discriminate H]. destruct q0 as [p0 v0].
  set (P := pt_pos _ _ _ _ _) in H.
  assert (EP : P = vadd (vadd p0 (ps_perp s)) (scale (ts / 2) (vadd (ps_perv s) (scale (ts / 4) (ps_pera s))))).
  { unfold P, pt_pos. cbn [pvp]. rops. replace (litR 2.0) with 2 by (rlit; lra). unfold vadd, scale. cbn [vx vy vz]. f_equal; field. }
  destruct (palEpv epv00 t) as [[[pe x1] x2] x3] eqn:EE.
  assert (EPE : pe = pvp (fst (epv00 2400000.5 t))).
  { unfold palEpv in EE. replace (MJD0 (T := R)) with 2400000.5 in EE by (unfold MJD0; rn; lra). destruct (epv00 2400000.5 t) as [ph pb]. injection EE as <- _ _ _. reflexivity. }
  rewrite pt_bodies_val in H by (eapply Forall2_length8; exact F3). set (pos := map _ pl) in H. set (l := perturbers P pos pe) in H.
  set (jf := warning P l js) in H. cbv iota in H.
  assert (FP : Forall2 (planet_pos plan94 hf t) [1; 2; 3; 4; 5; 6; 7; 8]%Z pos).
  { unfold pos. clear - F3 D2. induction F3 as [|np d nps pl (te & j & q & u0 & u & u' & z & A1 & A2 & A3 & A4 & A5 & A6 & A7) F IH]; cbn [map]; constructor; [|exact IH].
    exists tpmo, te, j, q, u0, u, u', z. repeat (split; [assumption|]). apply A7. }
  assert (K : kG ^ 2 <> 0) by (unfold kG; apply pow_nonzero; lra).
  assert (G : GCON2 (T := R) = kG ^ 2) by (unfold GCON2, GCON, kG; rn; lra). rewrite G in H.
  set (TA := total_attraction P l) in H. set (acc := vsub (vadd (solar P) TA) (solar p0)).
  set (fi := pt_fi _ _) in H. 
  assert (EA : V ((vx fi + vx (scale (/ kG ^ 2) TA)) * kG ^ 2) ((vy fi + vy (scale (/ kG ^ 2) TA)) * kG ^ 2) ((vz fi + vz (scale (/ kG ^ 2) TA)) * kG ^ 2) = acc).
  { unfold acc, fi, pt_fi, solar, inv_sq. cbn [pvp]. rops. rewrite !norm3. set (a := norm p0 ^ 3). set (b := norm P ^ 3).
    clearbody TA a b P. destruct TA as [t1 t2 t3]. unfold scale, vadd, vsub. cbn [vx vy vz]. set (k := kG ^ 2) in *. clearbody k.
    assert (Q : forall x y w, (x / a - y / b + / k * w) * k = - k * (/ b * y) + w - - k * (/ a * x)).
    { intros. unfold Rdiv. replace ((x * / a - y * / b + / k * w) * k) with ((x * / a - y * / b) * k + / k * k * w) by ring. rewrite Rinv_l by exact K. ring. }
    f_equal; apply Q. }
  assert (TA2 : V (vx (scale (/ kG ^ 2) TA) * kG ^ 2) (vy (scale (/ kG ^ 2) TA) * kG ^ 2) (vz (scale (/ kG ^ 2) TA) * kG ^ 2) = TA).
  { clearbody TA. destruct TA as [t1 t2 t3]. unfold scale. cbn [vx vy vz]. f_equal; field; unfold kG; lra. }
  rewrite EA, TA2 in H. cbv zeta in H.
  set (dp := vadd (ps_perp s) (vadd (scale ts (ps_perv s)) (scale (ts ^ 2 / 2) acc))). set (dv := vadd (ps_perv s) (scale ts acc)).
  replace (litR 2.0) with 2 in H by (rlit; lra).
  match type of H with context [PS u1 _ _ _ _ _ ?x ?y _ _ _ _ _ _ _] => assert (EDP : x = dp); [|assert (EDV : y = dv); [|rewrite EDP, EDV in H]] end.
  { unfold dp, vadd, scale. cbn [vx vy vz]. f_equal; field. }
  { unfold dv, eraPpp, vadd, scale. cbn [vx vy vz]. rops. f_equal; ring. }
  assert (U1 : u_t0 u1 = ps_t0 s) by (destruct (ue2pv_orbit _ _ _ _ _ EU1) as (_ & _ & Q & _); rewrite Q; exact U0).
  assert (RT : ps_t0 s + (ps_rtn s + ts) - u_t0 u1 = ps_rtn s + ts) by (rewrite U1; ring).
  assert (PK : forall e', es_t e' = ps_t0 s + (ps_rtn s + ts) -> es_st e' = jf ->
    ((es_u e' = u1 /\ Rabs (es_t e' - u_t0 u1) < 100 /\ es_t e' <> tf /\ es_p e' = dp /\ es_v e' = dv /\ es_a e' = acc) \/
     ((100 <= Rabs (es_t e' - u_t0 u1) \/ es_t e' = tf) /\
      exists u2 z, palUe2pv hf (es_t e') u1 pv_junk = Some (0%Z, u2, z) /\
        palPv2ue (PV (vadd (pvp z) dp) (vadd (pvv z) (scale (1 / 86400) dv))) (es_t e') 0 = (0%Z, Some (es_u e')) /\
        es_p e' = vzero /\ es_v e' = vzero /\ es_a e' = TA)) ->
    encke_step plan94 epv00 hf fb tf P l (abs_state s) e').
  { intros e' A1 A2 A3. unfold encke_step, abs_state. cbn [es_u es_t es_p es_v es_a es_st].
    exists ts, p0, v0, u1, pos, js. destruct Ets as (B1 & B2 & _). split; [exact B1|]. split; [exact B2|]. split; [rewrite A1; ring|].
    rewrite <- Et, <- EPE. split; [exact EU1|]. split; [exact FP|]. rewrite <- EP. split; [reflexivity|]. split; [reflexivity|]. cbv zeta. fold TA. fold acc. fold dp. fold dv.
    split; [exact J1|]. split; [exact A2|]. exact A3. }
  assert (I3 : 0 <= fb * (ps_tspan s - (ps_rtn s + ts))).
  { replace (fb * (ps_tspan s - (ps_rtn s + ts))) with (fb * ps_tleft s - fb * ts) by (rewrite I2; ring). lra. }
  replace (litR 100.0) with 100 in H by (rlit; lra). replace (litR 0.0) with 0 in H by (rlit; lra).
  assert (F0 : forall x, fb * x = 0 -> x = 0) by (intros x Q; destruct Hfb as [-> | ->]; lra).
  clearbody acc dp dv.
  match type of H with context [if ?c then _ else _] => destruct c eqn:EC end.
  - match type of H with match ?t with _ => _ end = _ => destruct t as [[[j2 u2] z]|] eqn:EU2; [|discriminate H] end.
    destruct (Z.eqb_spec j2 0) as [->|]; cbn [negb] in H; [|discriminate H].
    replace (PV (eraPpp (pvp z) dp) (eraPpp (pvv z) (vdiv dv SPD))) with (PV (vadd (pvp z) dp) (vadd (pvv z) (scale (1 / 86400) dv))) in H.
    2:{ f_equal. unfold eraPpp, vadd, vdiv, scale. cbn [vx vy vz]. rops. replace (SPD (T := R)) with 86400 by (unfold SPD; rn; lra). f_equal; field. }
    match type of H with match ?t with _ => _ end = _ => destruct t as [[|?|?] [u3|]] eqn:EV; try discriminate H end.
    assert (U3 : u_t0 u3 = ps_t0 s + (ps_rtn s + ts)).
    { revert EV. generalize (PV (vadd (pvp z) dp) (vadd (pvv z) (scale (1 / 86400) dv))) (ps_t0 s + (ps_rtn s + ts)). clear. intros q t Q. unfold palPv2ue in Q. rops.
      repeat match type of Q with (if ?c then _ else _) = _ => destruct c; [discriminate Q|] end. injection Q as <-. reflexivity. }
    injection H as <-. split.
    + split; [exact U3|]. right. cbn [ps_tpel ps_up ps_tpmo ps_pl]. split; assumption.
    + exists P, l. assert (T0 : forall x, x + 0 = x) by (intro; ring). apply PK; [apply T0|reflexivity|]. right.
      cbn [es_u es_t es_p es_v es_a es_st abs_state ps_ul ps_t0 ps_rtn ps_perp ps_perv ps_pera]. rewrite T0, RT. split.
      * apply orb_prop in EC. destruct EC as [C|C]; unfold Rleb in C; destruct (Rle_dec _ _) as [C'|] in C; try discriminate C; [now left|right].
        assert (Q : ps_tspan s - (ps_rtn s + ts) = 0) by (apply F0; lra). rewrite I1 in Q. lra.
      * exists u2, z. split; [exact EU2|]. split; [exact EV|]. repeat split; reflexivity.
  - injection H as <-. split.
    + split; [exact U1|]. right. cbn [ps_tpel ps_up ps_tpmo ps_pl]. split; assumption.
    + exists P, l. apply PK; [reflexivity|reflexivity|]. left. cbn [es_u es_t es_p es_v es_a es_st abs_state ps_ul ps_t0 ps_rtn ps_perp ps_perv ps_pera].
      apply orb_false_elim in EC. destruct EC as [C1 C2]. unfold Rleb in C1, C2. destruct (Rle_dec _ _) as [|C1'] in C1; [discriminate C1|]. destruct (Rle_dec _ _) as [|C2'] in C2; [discriminate C2|].
      split; [easy|]. rewrite RT. split; [lra|]. split; [|auto]. intro Q. apply C2'. rewrite I1, <- Q. right. ring.
Qed.
Lemma pt_loop_run : forall plan94 epv00 moon hf tf fb n s s', (fb = 1 \/ fb = -1) -> pt_inv tf s -> 0 < fb * ps_tleft s -> pert_inv plan94 hf s ->
  pt_loop (T := R) plan94 epv00 moon hf n tf fb s = Ok s' ->
  encke_run plan94 epv00 hf fb tf (abs_state s) (abs_state s') /\ ps_t0 s' + ps_rtn s' = tf /\ ps_perp s' = vzero /\ ps_perv s' = vzero.
Proof.
  induction n; intros s s' Hfb I L PI H; cbn [pt_loop] in H; rops; rewrite Rltb_true in H by (rlit; lra); [discriminate H|].
  destruct (pt_step plan94 epv00 moon hf tf fb s) as [s2| |] eqn:E; cbn [rbind] in H; [|discriminate H|discriminate H].
  destruct (pt_step_progress _ _ _ _ _ _ _ _ Hfb I L E) as (I2 & P1 & P2 & P3).
  destruct (pert_step _ _ _ _ _ _ _ _ Hfb I L PI E) as (PI2 & p & l & ST).
  destruct (Rlt_dec 0 (fb * ps_tleft s2)) as [G|G].
  - destruct (IHn s2 s' Hfb I2 G PI2 H) as [R1 R2]. split; [|exact R2]. eapply run_step; eassumption.
  - assert (s' = s2) as ->. { destruct n; cbn [pt_loop] in H; rops; rewrite Rltb_false in H by (rlit; lra); injection H as <-; reflexivity. }
    split; [eapply run_step; [exact ST|apply run_end]|].
    destruct I2 as [J1 J2]. assert (Q : ps_tleft s2 = 0) by (destruct Hfb as [-> | ->]; lra). assert (Q2 : ps_t0 s2 + ps_rtn s2 = tf) by lra.
    split; [exact Q2|]. destruct ST as (h & p0 & v0 & u1 & pos & js & _ & _ & _ & _ & _ & _ & _ & _ & _ & [(_ & _ & C & _)|(_ & u2 & z & _ & _ & C1 & C2 & _)]).
    + elim C. exact Q2.
    + auto.
Qed.
(** ** C78 *)
(** A successful palPertue is a run of the integration from the given elements at their epoch to the final date; the elements
    returned are those of the state vector reached, departure zero. *)
Theorem C78_palPertue : forall plan94 epv00 moon hf n date u st u', date <> u_t0 u ->
  palPertue (T := R) plan94 epv00 moon hf n date u = Some (st, u') -> st <> (-1)%Z ->
  exists sense e, (sense = 1 \/ sense = -1) /\ 0 < sense * (date - u_t0 u) /\
    encke_run plan94 epv00 hf sense date
      (ES u (u_t0 u) vzero vzero vzero (if Rlt_dec 36525 (Rabs (date - u_t0 u)) then 101%Z else 0%Z)) e /\
    es_u e = u' /\ es_t e = date /\ es_p e = vzero /\ es_v e = vzero /\ es_st e = st.
Proof.
  intros plan94 epv00 moon hf n date u st u' Hd H Hs. unfold palPertue in H. rops.
  set (fb := DSIGN (litR 1.0) (date - u_t0 u)) in *.
  assert (F : (fb = 1 \/ fb = -1) /\ 0 < fb * (date - u_t0 u)).
  { unfold fb, DSIGN. rn. rcase; (unfold Rabs; destruct (Rcase_abs (10 / 10)); [lra|]); split; ((left; lra) || (right; lra) || lra). }
  destruct F as [F1 F2]. clearbody fb.
  match type of H with match ?t with _ => _ end = _ => destruct t as [s| |] eqn:EL end; [|congruence|discriminate H].
  injection H as <- <-.
  assert (I0 : pt_inv date (pt_init date u)) by (unfold pt_inv, pt_init; cbn [ps_tspan ps_t0 ps_tleft ps_rtn]; rn; split; lra).
  destruct (pt_loop_run plan94 epv00 moon hf date fb n (pt_init date u) s F1 I0 F2) as [A B]; [split; [reflexivity|now left]|exact EL|].
  exists fb, (abs_state s). split; [exact F1|]. split; [exact F2|]. split.
  - match goal with |- encke_run _ _ _ _ _ ?x _ => replace x with (abs_state (pt_init date u)); [exact A|] end.
    unfold abs_state, pt_init. cbn [ps_ul ps_t0 ps_rtn ps_perp ps_perv ps_pera ps_jstat]. rops.
    replace (litR 0.0) with 0 by (rlit; lra). replace (litR 36525.0) with 36525 by (rlit; lra). unfold Rltb. rewrite Rplus_0_r. destruct (Rlt_dec 36525 _); reflexivity.
  - cbn [abs_state es_u es_t es_p es_v es_st]. split; [easy|]. destruct B as (B1 & B2 & B3). auto.
Qed.
(** A warning status 1-9 means that at some step the particle was nearer than 0.0001 au to that body, which was then left out. *)
Theorem C78_warning : forall plan94 epv00 moon hf n date u st u',
  palPertue (T := R) plan94 epv00 moon hf n date u = Some (st, u') -> (1 <= st <= 9)%Z ->
  exists sense p l e1 e2 b, encke_step plan94 epv00 hf sense date p l e1 e2 /\ In b l /\ b_num b = st /\ touching p b /\
    encke_run plan94 epv00 hf sense date (ES u (u_t0 u) vzero vzero vzero (if Rlt_dec 36525 (Rabs (date - u_t0 u)) then 101%Z else 0%Z)) e1.
Proof.
  intros plan94 epv00 moon hf n date u st u' H Hst.
  destruct (Req_dec date (u_t0 u)) as [E|Hd].
  { subst date. rewrite C63_null in H. injection H as <- _. lia. }
  destruct (C78_palPertue _ _ _ _ _ _ _ _ _ Hd H ltac:(lia)) as (sense & e & _ & _ & RN & _ & _ & _ & _ & ST). exists sense.
  assert (W : forall p l js, warning p l js = js \/ exists b, In b l /\ touching p b /\ b_num b = warning p l js).
  { intros p l. unfold warning. induction l as [|b l IH]; intro js; cbn [fold_left]; [now left|].
    destruct (IH (if touching_dec p b then b_num b else js)) as [->|(b' & I & T & N)].
    - destruct (touching_dec p b); [right; exists b; split; [now left|auto]|now left].
    - right. exists b'. split; [now right|auto]. }
  set (e0 := ES _ _ _ _ _ _) in *.
  assert (N0 : es_st e0 <> st) by (unfold e0; cbn [es_st]; destruct (Rlt_dec _ _); lia).
  assert (G : forall e', encke_run plan94 epv00 hf sense date e' e -> es_st e' <> st -> encke_run plan94 epv00 hf sense date e0 e' ->
    exists p l e1 e2 b, encke_step plan94 epv00 hf sense date p l e1 e2 /\ In b l /\ b_num b = st /\ touching p b /\ encke_run plan94 epv00 hf sense date e0 e1).
  { intros e' RN'. induction RN' as [e|p l e' e1 e2 S RN' IH]; intros N B; [congruence|].
    destruct (Z.eq_dec (es_st e1) st) as [Q|Q].
    - assert (SS := S). destruct S as (h & p0 & v0 & u1 & pos & js & _ & _ & _ & _ & _ & _ & _ & J & WW & _).
      destruct (W p l js) as [W1|(b & I & T & NN)].
      + exfalso. rewrite WW, W1 in Q. destruct J as [J|J]; [congruence|lia].
      + exists p, l, e', e1, b. rewrite NN, <- WW. auto.
    - apply IH; try assumption. clear - B S. induction B; [eapply run_step; [exact S|apply run_end]|eapply run_step; [eassumption|]; auto]. }
  apply (G e0); [exact RN|exact N0|apply run_end].
Qed.
(** The masses are those of the planets to 0.6 per cent (IAU 2009 values). *)
Theorem C78_masses : Forall2 (fun m ref => Rabs (m / ref - 1) <= 0.006) (map planet_mass (seq 0 8) ++ [earth_mass])
  [6023600; 408523.719; 328900.5596; 3098703.59; 1047.348644; 3497.9018; 22902.98; 19412.26; 332946.0487].
Proof. unfold planet_mass, earth_mass. cbn [map seq nth app]. repeat constructor; interval. Qed.

(** ** Non-vacuity: eight planets together on a circular orbit of radius 1, a particle opposite them, 0.01 day *)
Definition circ (s t0 t psi : R) : ue R := UE 1 (-1) t0 (V s 0 0) (V 0 s 0) 1 0 t psi.
Definition sfun_circ (x : R) : R * R := (x * x * T2 (-1 * (x * x)), x * (x * x) * T3 (-1 * (x * x))).
Lemma GCON_k : GCON (T := R) = kG. Proof. unfold GCON, kG. rn. lra. Qed.
Lemma circ_ok : forall s t0 t psi date, psi + (date - t) * kG = (date - t0) * kG -> Rabs ((date - t0) * kG) <= 0.8 ->
  let x := (date - t0) * kG in let c := 1 - fst (sfun_circ x) in let d := x - snd (sfun_circ x) in
  palUe2pv (T := R) 0 date (circ s t0 t psi) pv_junk =
  Some (0%Z, circ s t0 date x, PV (V (s * c) (s * d) 0) (V (kG / 86400 * (- s * d)) (kG / 86400 * (s * c)) 0)).
Proof.
  intros s t0 t psi date Hp Hx x c d. unfold palUe2pv, circ. cbn [u_cm u_alpha u_t0 u_p0 u_v0 u_r0 u_sigma0 u_t u_psi]. rops.
  rewrite GCON_k. replace (psi + (date - t) * kG / 1) with x by (unfold x; rewrite <- Hp; field). fold x. fold x in Hx.
  rewrite NITMAX_S, ue_iter_S. generalize 24%nat; intros k24. unfold ue_sfun. rops. 
  cbn [ue_halve]. rops. rewrite Rltb_false.
  2:{ replace (-1 * (x * x)) with (- (x * x)) by ring. rewrite Rabs_Ropp, Rabs_mult. rlit. assert (0 <= Rabs x) by apply Rabs_pos. nra. }
  rewrite series_val. cbn [ue_double uf0 uf1 uf2 uf3]. cbv zeta. rops. 
  assert (EA : x * x * T2 (-1 * (x * x)) = fst (sfun_circ x)) by reflexivity. assert (EB : x * (x * x) * T3 (-1 * (x * x)) = snd (sfun_circ x)) by reflexivity.
  rewrite EA, EB. set (A := fst (sfun_circ x)) in *. set (B := snd (sfun_circ x)) in *. clearbody A B x.
  replace (1 * (x + -1 * B) + 0 * A + 1 * B - x) with 0 by ring. replace (1 * (1 + -1 * A) + 0 * (x + -1 * B) + 1 * A) with 1 by ring.
  replace (litR 0.0) with 0 by (rlit; lra). rewrite Rltb_false by lra. cbn [negb andb]. rewrite Reqb_false by lra.
  replace (0 / 1) with 0 by field. rewrite Rabs_R0, Rleb_false by (rlit; lra). unfold ue_project. cbn [uf0 uf1 uf2 uf3]. rops.
  assert (EC : CD2S (T := R) = kG / 86400) by (unfold CD2S, SPD; rewrite GCON_k; rn; f_equal; lra). rewrite EC.
  unfold c, d. cbn [vx vy vz]. replace (litR 1.0) with 1 by (rlit; lra). unfold circ.
  repeat match goal with |- Some _ = Some _ => f_equal | |- (_, _) = (_, _) => f_equal | |- UE _ _ _ _ _ _ _ _ _ = _ => f_equal | |- PV _ _ = _ => f_equal | |- V _ _ _ = _ => f_equal end;
    try reflexivity; try field.
Qed.
(** the planets *)
Definition plan_eg (a b : R) (n : Z) : Z * pv R := (0%Z, PV (V 1 0 0) (V 0 kG 0)).
Definition epv_eg (a b : R) : pv R * pv R := (PV (V 1 0 0) (V 0 kG 0), PV (V 1 0 0) (V 0 kG 0)).
Lemma circ_pv2ue : forall t, palPv2ue (T := R) (PV (V 1 0 0) (vdiv (V 0 kG 0) SPD)) t 0 = (0%Z, Some (circ 1 t t 0)).
Proof.
  intro t. unfold palPv2ue, vdiv. cbn [pvp pvv vx vy vz]. rops. 
  assert (EC : CD2S (T := R) = kG / 86400) by (unfold CD2S, SPD; rewrite GCON_k; rn; f_equal; lra). rewrite EC.
  replace (SPD (T := R)) with 86400 by (unfold SPD; rn; lra). assert (kG <> 0) by (unfold kG; lra).
  replace (kG / 86400 / (kG / 86400)) with 1 by (field; assumption). replace (0 / 86400 / (kG / 86400)) with 0 by (field; assumption).
  replace (1 * 1 + 0 * 0 + 0 * 0) with 1 by ring. replace (0 * 0 + 1 * 1 + 0 * 0) with 1 by ring. rewrite sqrt_1.
  rewrite !Rltb_false by (rlit; lra). unfold circ. do 3 f_equal; rlit; lra.
Qed.
Lemma circ_pv2ue' : forall t, palPv2ue (T := R) (PV (V 1 0 0) (vdiv (V 0 kG 0) SPD)) t (lit 0.0) = (0%Z, Some (circ 1 t t 0)).
Proof. intro t. replace (lit 0.0) with 0 by (rn; lra). apply circ_pv2ue. Qed.
Lemma elements_eg : forall te js, pt_elements (T := R) plan_eg te planets8 js = Ok (js, repeat (circ 1 te te 0) 8).
Proof.
  intros te js. unfold planets8. cbn [pt_elements]. unfold palPlanet, plan_eg. cbn [Z.eqb orb pvp pvv]. rewrite circ_pv2ue'. reflexivity.
Qed.


Lemma repeat_motions : forall hf tp u u' z n, palUe2pv (T := R) hf tp u pv_junk = Some (0%Z, u', z) ->
  exists d, pt_motions hf tp (repeat u n) = Ok (repeat (u', d) n) /\ forall dt, pt_rho d dt = extrapolate (pvp z) (scale 86400 (pvv z)) dt.
Proof.
  intros hf tp u u' z n E. eexists. split.
  - induction n; cbn [repeat pt_motions]; [reflexivity|]. rewrite E. cbn [Z.eqb negb]. rewrite IHn. reflexivity.
  - intro dt. apply pt_rho_val. reflexivity.
Qed.
(** bounds *)
Lemma sfun_bounds : forall x, Rabs x <= 0.1 -> Rabs (fst (sfun_circ x)) <= 0.01 /\ Rabs (snd (sfun_circ x)) <= 0.001.
Proof. intros x H. unfold sfun_circ, T2, T3. cbn [fst snd]. split; interval. Qed.
Lemma inv_sq_bound : forall v : vec R, 0.5 <= Rabs (vx v) -> Rabs (vx (inv_sq v)) <= 4 /\ Rabs (vy (inv_sq v)) <= 4 /\ Rabs (vz (inv_sq v)) <= 4.
Proof.
  intros v H. assert (N : forall a b c, Rabs a <= norm (V a b c) /\ Rabs b <= norm (V a b c) /\ Rabs c <= norm (V a b c)).
  { intros a b c. unfold norm, dot. cbn [vx vy vz]. rewrite <- !(sqrt_Rsqr_abs). unfold Rsqr. repeat split; apply sqrt_le_1_alt; nra. }
  destruct v as [a b c]. destruct (N a b c) as (N1 & N2 & N3). cbn [vx] in H. unfold inv_sq, scale. cbn [vx vy vz]. set (n := norm _) in *. clearbody n.
  assert (0.5 <= n) by lra. assert (I : 0 < / n <= 2). { split; [apply Rinv_0_lt_compat; lra|]. replace 2 with (/ 0.5) by lra. apply Rinv_le_contravar; lra. }
  assert (G : forall y, Rabs y <= n -> Rabs (/ n ^ 3 * y) <= 4).
  { intros y Hy. rewrite Rabs_mult, Rabs_pos_eq. 2:{ left. apply Rinv_0_lt_compat, pow_lt. lra. }
    apply Rle_trans with (/ n ^ 3 * n); [apply Rmult_le_compat_l; [left; apply Rinv_0_lt_compat, pow_lt; lra|exact Hy]|].
    replace (/ n ^ 3 * n) with (/ n * / n) by (field; lra). nra. }
  auto.
Qed.
Lemma attraction_bound : forall p b, 300 <= b_mass b -> 0.5 <= Rabs (vx (b_pos b)) -> 0.5 <= Rabs (vx (b_pos b) - vx p) ->
  let a := attraction p b in Rabs (vx a) <= 1e-5 /\ Rabs (vy a) <= 1e-5 /\ Rabs (vz a) <= 1e-5.
Proof.
  intros p b Hm H1 H2 a. destruct (inv_sq_bound _ H1) as (A1 & A2 & A3). destruct (inv_sq_bound (vsub (b_pos b) p) H2) as (B1 & B2 & B3).
  unfold a, attraction. set (u := inv_sq (b_pos b)) in *. set (w := inv_sq (vsub (b_pos b) p)) in *. clearbody u w.
  unfold scale, vsub. cbn [vx vy vz]. assert (G : forall x y, Rabs x <= 4 -> Rabs y <= 4 -> Rabs (kG ^ 2 / b_mass b * (x - y)) <= 1e-5).
  { intros x y Hx Hy. rewrite Rabs_mult. assert (0 < kG ^ 2 / b_mass b <= 1e-6).
    { assert (0 < / b_mass b <= / 300) by (split; [apply Rinv_0_lt_compat; lra|apply Rinv_le_contravar; lra]). unfold Rdiv, kG in *. split; nra. }
    rewrite (Rabs_pos_eq (kG ^ 2 / b_mass b)) by lra. assert (Rabs (x - y) <= 8) by (eapply Rle_trans; [apply Rabs_triang|]; rewrite Rabs_Ropp; lra).
    assert (0 <= Rabs (x - y)) by apply Rabs_pos. nra. }
  auto.
Qed.
Lemma total_bound : forall p l, Forall (fun b => 300 <= b_mass b /\ 0.5 <= Rabs (vx (b_pos b)) /\ 0.5 <= Rabs (vx (b_pos b) - vx p)) l ->
  let a := total_attraction p l in let B := 1e-5 * INR (length l) in Rabs (vx a) <= B /\ Rabs (vy a) <= B /\ Rabs (vz a) <= B.
Proof.
  intros p l F. induction F as [|b l (M & H1 & H2) F IH]; cbv zeta in *.
  - cbn. rewrite Rabs_R0. repeat split; lra.
  - destruct (attraction_bound p b M H1 H2) as (A1 & A2 & A3). destruct IH as (B1 & B2 & B3).
    cbn [length]. rewrite S_INR. unfold total_attraction, keep in *. cbn [filter]. destruct (touching_dec p b).
    + repeat split; lra.
    + cbn [map vsum fold_right]. fold (vsum (map (attraction p) (filter (fun b0 => if touching_dec p b0 then false else true) l))).
      set (u := vsum _) in *. set (w := attraction p b) in *. unfold vadd. cbn [vx vy vz]. repeat split; (eapply Rle_trans; [apply Rabs_triang|]; lra).
Qed.

Lemma norm_ge_x : forall v : vec R, Rabs (vx v) <= norm v.
Proof. intros [a b c]. unfold norm, dot. cbn [vx vy vz]. rewrite <- (sqrt_Rsqr_abs a). unfold Rsqr. apply sqrt_le_1_alt. nra. Qed.
Lemma no_warning : forall p l js, Forall (fun b => 0.5 <= Rabs (vx (b_pos b) - vx p)) l -> warning p l js = js.
Proof.
  intros p l js F. unfold warning. revert js. induction F as [|b l H F IH]; intro js; cbn [fold_left]; [reflexivity|].
  destruct (touching_dec p b) as [T|T]; [|apply IH]. exfalso. unfold touching in T. assert (Q := norm_ge_x (vsub (b_pos b) p)). unfold vsub in Q at 1. cbn [vx] in Q. lra.
Qed.
(** a state vector near a circular orbit is accepted *)
Lemma near_circ_ok : forall x y z a b c t, 0.9 <= Rabs x -> 0.9 <= Rabs b ->
  exists u, palPv2ue (T := R) (PV (V x y z) (V a (kG / 86400 * b) c)) t 0 = (0%Z, Some u).
Proof.
  intros x y z a b c t Hx Hb. unfold palPv2ue. cbn [pvp pvv vx vy vz]. rops.
  assert (EC : CD2S (T := R) = kG / 86400) by (unfold CD2S, SPD; rewrite GCON_k; rn; f_equal; lra). rewrite EC.
  replace (kG / 86400 * b / (kG / 86400)) with b by (field; unfold kG; lra).
  rewrite (Rltb_false 0) by (rlit; lra). 
  assert (N1 : 0.9 <= sqrtR (x * x + y * y + z * z)). { assert (Q := norm_ge_x (V x y z)). unfold norm, dot in Q. cbn [vx vy vz] in Q. lra. }
  rewrite (Rltb_false (sqrtR (x * x + y * y + z * z))) by (rlit; lra).
  set (a' := a / (kG / 86400)). set (c' := c / (kG / 86400)).
  assert (N2 : 0.9 <= sqrtR (a' * a' + b * b + c' * c')). { assert (Q := norm_ge_x (V b a' c')). unfold norm, dot in Q. cbn [vx vy vz] in Q. rewrite (Rplus_comm (a' * a')). lra. }
  rewrite Rltb_false by (rlit; lra). eexists. reflexivity.
Qed.
Example C78_eg : exists u', palPertue (T := R) plan_eg epv_eg (fun _ => vzero) 0 1 50000.008 (circ (-1) 50000 50000 0) = Some (0%Z, u').
Proof.
  unfold palPertue. set (u := circ (-1) 50000 50000 0). cbn [u_t0 circ u]. rops.
  replace (DSIGN (litR 1.0) (50000.008 - 50000)) with 1 by (unfold DSIGN; rn; rcase; unfold Rabs; destruct (Rcase_abs (10 / 10)); lra).
  cbn [pt_loop]. unfold pt_init at 1 3. cbn [ps_tleft]. rops. rewrite Rltb_true by (rlit; cbn [u_t0 u circ]; lra).
  unfold pt_step, pt_init. cbn [ps_ul ps_t0 ps_tspan ps_tleft ps_first ps_rtn ps_perp ps_perv ps_pera ps_fd ps_tpel ps_up ps_tpmo ps_pl ps_jstat orb]. rops.
  cbn [u_t0 u circ]. rewrite (Rltb_false (litR 36525.0)) by (rewrite Rabs_pos_eq by lra; rlit; lra).
  replace (litR 0.0) with 0 by (rlit; lra). set (z0 := V 0 0 0) in *. replace (litR 2.0) with 2 by (rlit; lra).
  replace (pt_ts true 1 z0) with 0.01 by (unfold pt_ts; rn; lra).
  rewrite (Rltb_true (Rabs _) (Rabs 0.01)) by (rewrite !Rabs_pos_eq; lra).
  replace (50000.008 - 50000 - 0) with 0.008 by lra.
  replace (50000 + 0 + 0.008 / 2 + 1 * litR 50.0) with 50050.004 by (rlit; lra). replace (50000 + 0 + 0.008 / 2 + 1 * litR 5.0) with 50005.004 by (rlit; lra).
  replace (50000 + 0 + 0.008 / 2) with 50000.004 by lra.
  rewrite elements_eg. cbn [rbind].
  assert (C1 := circ_ok 1 50050.004 50050.004 0 50005.004 ltac:(unfold kG; lra) ltac:(unfold kG; interval)). cbv zeta in C1.
  destruct (repeat_motions _ _ _ _ _ 8 C1) as (d & ED & ER). rewrite ED. cbn [rbind]. clear ED.
  assert (C2 := circ_ok (-1) 50000 50000 0 50000.004 ltac:(unfold kG; lra) ltac:(unfold kG; interval)). cbv zeta in C2. fold u in C2. rewrite C2. clear C1 C2.
  cbn [Z.eqb negb pvp]. change (map fst (repeat _ 8)) with (repeat (circ 1 50050.004 50005.004 ((50005.004 - 50050.004) * kG)) 8). 
  change (map snd (repeat _ 8)) with (repeat d 8).
  destruct (palEpv epv_eg 50000.004) as [[[pe x1] x2] x3].
  assert (EZ : z0 = V (lit 0.0) (lit 0.0) (lit 0.0)) by (unfold z0; f_equal; rn; lra).
  match goal with |- context [pt_bodies pt_range ?dat ?pe ?pm ?p ?dt (false, z0, ?js)] => assert (PB := pt_bodies_val p dat pe pm dt js eq_refl) end.
  rewrite <- EZ in PB. cbv zeta in PB. rewrite PB. clear PB.
  set (p0 := V (-1 * _) (-1 * _) 0).
  assert (EP : pt_pos p0 z0 z0 z0 (0.008 / 2) = p0). { unfold pt_pos, z0. cbn [vx vy vz]. rops. replace (litR 2.0) with 2 by (rlit; lra). destruct p0 as [q1 q2 q3]. cbn [vx vy vz]. f_equal; lra. }
  rewrite !EP. set (b := pt_rho d (50000.004 - 50005.004)).
  assert (Hb : 0.5 <= vx b <= 1).
  { unfold b. rewrite ER. unfold extrapolate. cbn [pvp pvv]. unfold norm, dot, scale, vadd. cbn [vx vy vz]. unfold sfun_circ, T2, T3, kG. cbn [fst snd]. split; interval. }
  assert (Hp : -1.01 <= vx p0 <= -0.99).
  { unfold p0. cbn [vx]. unfold sfun_circ, T2, kG. cbn [fst snd]. split; interval. }
  set (pos := map _ _). change pos with (repeat b 8). clear pos. clearbody b.
  assert (EPB : perturbers p0 (repeat b 8) pe = planets (repeat b 8)).
  { unfold perturbers. cbn [repeat nth]. destruct (Rlt_dec _ _) as [N|N]; [|reflexivity]. exfalso. assert (Q := norm_ge_x (vsub b p0)). unfold vsub in Q at 1. cbn [vx] in Q.
    rewrite Rabs_pos_eq in Q by lra. lra. }
  rewrite EPB. set (l := planets (repeat b 8)).
  assert (FL : Forall (fun b => 300 <= b_mass b /\ 0.5 <= Rabs (vx (b_pos b)) /\ 0.5 <= Rabs (vx (b_pos b) - vx p0)) l).
  { unfold l, planets, planet_mass. cbn [map seq repeat nth]. repeat (apply Forall_cons; [cbn [b_mass b_pos]; rewrite !Rabs_pos_eq by lra; repeat split; lra|]). apply Forall_nil. }
  rewrite no_warning by (eapply Forall_impl; [|exact FL]; cbv beta; tauto).
  destruct (total_bound _ _ FL) as (T1 & T2 & T3). change (length l) with 8%nat in *. replace (INR 8) with 8 in * by (cbn; lra).
  set (TA := total_attraction p0 l) in *. clearbody TA.
  assert (EF : pt_fi p0 p0 = z0) by (unfold pt_fi, z0; rops; f_equal; apply Rminus_diag_eq; reflexivity). rewrite EF.
  replace (GCON2 (T := R)) with (kG ^ 2) by (unfold GCON2, GCON, kG; rn; lra).
  assert (TA2 : V ((vx z0 + vx (scale (/ kG ^ 2) TA)) * kG ^ 2) ((vy z0 + vy (scale (/ kG ^ 2) TA)) * kG ^ 2) ((vz z0 + vz (scale (/ kG ^ 2) TA)) * kG ^ 2) = TA).
  { destruct TA as [t1 t2 t3]. unfold scale, z0. cbn [vx vy vz]. f_equal; field; unfold kG; lra. }
  rewrite TA2. 
  replace (Rleb (1 * (50000.008 - 50000 - (0 + 0.008))) 0) with true by (symmetry; unfold Rleb; destruct (Rle_dec _ _); [reflexivity|lra]).
  rewrite orb_true_r. replace (50000 + (0 + 0.008)) with 50000.008 by lra.
  assert (C3 := circ_ok (-1) 50000 50000.004 ((50000.004 - 50000) * kG) 50000.008 ltac:(unfold kG; lra) ltac:(unfold kG; interval)). cbv zeta in C3. rewrite C3. clear C3.
  cbn [Z.eqb negb]. match goal with |- context [palPv2ue ?q0 _ _] => set (q := q0) end.
  destruct (sfun_bounds ((50000.008 - 50000) * kG)) as (S1 & S2); [unfold kG; interval|].
  assert (Eq : q = PV (V (vx (pvp q)) (vy (pvp q)) (vz (pvp q))) (V (vx (pvv q)) (kG / 86400 * (vy (pvv q) / (kG / 86400))) (vz (pvv q)))).
  { clearbody q. destruct q as [[q1 q2 q3] [q4 q5 q6]]. cbn [pvp pvv vx vy vz]. do 2 f_equal. field. unfold kG. lra. }
  assert (SP : SPD (T := R) = 86400) by (unfold SPD; rn; lra).
  assert (Ab : forall x y, Rabs x <= y -> - y <= x <= y) by (intros x y Q; unfold Rabs in Q; destruct (Rcase_abs x); lra).
  apply Ab in S1, S2, T1, T2, T3.
  destruct (near_circ_ok (vx (pvp q)) (vy (pvp q)) (vz (pvp q)) (vx (pvv q)) (vy (pvv q) / (kG / 86400)) (vz (pvv q)) 50000.008) as [u' U].
  { unfold q, eraPpp, z0. cbn [pvp vx vy vz]. rops. rewrite Rabs_left; lra. }
  { unfold q, eraPpp, vdiv, z0. cbn [pvp pvv vx vy vz]. rops. rewrite SP.
    match goal with |- context [kG / 86400 * (-1 * ?c) + ?y / 86400] => replace ((kG / 86400 * (-1 * c) + y / 86400) / (kG / 86400)) with (- c + y / kG) by (field; unfold kG; lra) end.
    match goal with |- context [?y / kG] => assert (Hy : Rabs (y / kG) <= 0.01) by (unfold kG; apply Rabs_le; lra) end. apply Ab in Hy.
    rewrite Rabs_left; lra. }
  rewrite <- Eq in U. rewrite U. exists u'. cbn [rbind ps_tleft]. destruct (Rltb_spec 0 (1 * (50000.008 - 50000.008))); [lra|]. reflexivity.
Qed.
