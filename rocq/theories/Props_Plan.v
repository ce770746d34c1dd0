(** * Theorems: topocentric places of planets and minor bodies (C79) *)
From Coq Require Import Reals ZArith Lra Lia Psatz Bool List.
From Coquelicot Require Import Coquelicot.
From Interval Require Import Tactic.
From Verif Require Import Num NumR Erfa Geom M_Sphere P_Sphere P_Frames M_Time M_Place M_Kin M_Orbit P_Orbit Props_Kin.
Import ListNotations.
Local Open Scope R_scope.

(** ** Specification *)
(** seconds that light takes for one au *)
Definition light_au : R := 499.004782.
(** position and velocity (per second) of a body relative to another, or seen in rotated axes *)
Definition rel (a b : pv R) : pv R := PV (vsub (pvp a) (pvp b)) (vsub (pvv a) (pvv b)).
Definition turned (m : mat R) (a : pv R) : pv R := PV (mapp m (pvp a)) (mapp m (pvv a)).
Definition times (k : R) (a : pv R) : pv R := PV (scale k (pvp a)) (scale k (pvv a)).
(** where a body now at [pvp a] (au), of velocity [pvv a] (au/s), was when the light now seen at the origin left it *)
Definition seen (a : pv R) : vec R := vsub (pvp a) (scale (light_au * norm (pvp a)) (pvv a)).
(** [ra, dec] in their ranges and pointing along [w] *)
Definition points (ra dec : R) (w : vec R) : Prop :=
  0 <= ra < 2 * PI /\ - (PI / 2) <= dec <= PI / 2 /\ (w <> vzero -> dir ra dec = scale (1 / norm w) w).
(** daily to per-second velocities *)
Definition per_second (a : pv R) : pv R := PV (pvp a) (scale (1 / 86400) (pvv a)).
(** the observer: on the reference ellipsoid, at the local mean sidereal time, the UT being TT less palDt *)
Definition observer (gmst : R -> R) (date elong phi : R) : pv R :=
  palPvobs phi 0 (gmst (date - palDt (palEpj date) / 86400) + elong).

Lemma c2s_points : forall w, points (eraAnp (fst (eraC2s w))) (snd (eraC2s w)) w.
Proof. intro w. destruct (C2s_anp_range w) as [A B]. split; [exact A|]. split; [exact B|]. apply C2s_anp_dir. Qed.
Lemma pvsub_rel : forall a b, pvsub (T := R) a b = rel a b.
Proof. intros a b. unfold pvsub, rel, eraPmp, vsub. rops. reflexivity. Qed.
Lemma rxpv_turned : forall m a, eraRxpv (T := R) m a = turned m a.
Proof. intros. unfold eraRxpv, turned. now rewrite !eraRxp_mapp. Qed.
Lemma norm_xyz : forall v : vec R, sqrtR (vx v * vx v + vy v * vy v + vz v * vz v) = norm v.
Proof. reflexivity. Qed.
Lemma seen_val : forall a : pv R, 
  let tl := CR * norm (pvp a) in V (vx (pvp a) - tl * vx (pvv a)) (vy (pvp a) - tl * vy (pvv a)) (vz (pvp a) - tl * vz (pvv a)) = seen a.
Proof. intros a tl. unfold tl, seen, vsub, scale, light_au. replace (CR (T := R)) with 499.004782 by (unfold CR; rn; lra). cbn [vx vy vz]. reflexivity. Qed.

(** ** C79_palPlantu: the place is that of the body predicted by palUe2pv, as seen from the observer at the epoch the light left
    the body; the distance is the geometric distance from the observer. *)
Theorem C79_palPlantu : forall epv00 prenut gmst hf junk date elong phi u st ra dec r,
  palPlantu (T := R) epv00 prenut gmst hf junk date elong phi u = Some (st, (ra, dec, r)) ->
  exists u' body, palUe2pv hf date u junk = Some (st, u', body) /\
    let earth := per_second (fst (epv00 2400000.5 date)) in
    let a := rel (turned (prenut 2000 date) (rel body earth)) (observer gmst date elong phi) in
    points ra dec (seen a) /\ r = norm (pvp a).
Proof.
  intros epv00 prenut gmst hf junk date elong phi u st ra dec r H. unfold palPlantu in H.
  destruct (palEpv epv00 date) as [[[ph vh] x1] x2] eqn:EE.
  assert (EV : fst (epv00 2400000.5 date) = PV ph vh).
  { unfold palEpv in EE. replace (MJD0 (T := R)) with 2400000.5 in EE by (unfold MJD0; rn; lra). destruct (epv00 2400000.5 date) as [[p1 v1] pb].
    injection EE as <- <- _ _. reflexivity. }
  destruct (palUe2pv hf date u junk) as [[[st' u'] body]|] eqn:EU; [|discriminate H]. exists u', body.
  replace (SPD (T := R)) with 86400 in H by (unfold SPD; rn; lra). rops.
  replace (litR 2000.0) with 2000 in H by (rlit; lra). replace (litR 0.0) with 0 in H by (rlit; lra).
  rewrite !pvsub_rel, rxpv_turned in H.
  replace (PV ph (vdiv vh 86400)) with (per_second (PV ph vh)) in H
    by (unfold per_second, vdiv, scale; cbn [pvp pvv]; rops; f_equal; f_equal; field).
  rewrite <- EV in H. fold (observer gmst date elong phi) in H.
  set (a := rel (turned _ _) _) in *. rewrite norm_xyz in H. cbv zeta in H. rewrite seen_val in H.
  assert (Q := c2s_points (seen a)). destruct (eraC2s (seen a)) as [w1 w2]. cbn [fst snd] in Q. injection H as <- <- <- <-.
  split; [reflexivity|]. cbv zeta. split; [exact Q|reflexivity].
Qed.

(** ** C79_palPlante: from osculating elements: the body is that of the universal elements which palEl2ue makes of them for the
    same date, or there is no place and palEl2ue's non-zero status says why. *)
Theorem C79_palPlante : forall epv00 prenut gmst hf junk date elong phi jform epoch orbinc anode perih aorq e aorl dm st out,
  palPlante (T := R) epv00 prenut gmst hf junk date elong phi jform epoch orbinc anode perih aorq e aorl dm = Some (st, out) ->
  match out with
  | None => exists x, palEl2ue hf date jform epoch orbinc anode perih aorq e aorl dm = Some (st, x) /\ (st <> 0%Z \/ x = None)
  | Some (ra, dec, r) => exists u u' body,
      palEl2ue hf date jform epoch orbinc anode perih aorq e aorl dm = Some (0%Z, Some u) /\
      palUe2pv hf date u junk = Some (st, u', body) /\
      let earth := per_second (fst (epv00 2400000.5 date)) in
      let a := rel (turned (prenut 2000 date) (rel body earth)) (observer gmst date elong phi) in
      points ra dec (seen a) /\ r = norm (pvp a)
  end.
Proof.
  intros epv00 prenut gmst hf junk date elong phi jform epoch orbinc anode perih aorq e aorl dm st out H. unfold palPlante in H.
  destruct (palEl2ue hf date jform epoch orbinc anode perih aorq e aorl dm) as [[j x]|]; [|discriminate H].
  destruct j as [|q|q]; [destruct x as [u|]|..];
    try (injection H as <- <-; eexists; split; [reflexivity|]; first [now right | left; discriminate]).
  destruct (palPlantu epv00 prenut gmst hf junk date elong phi u) as [[j [[ra dec] r]]|] eqn:E; [|discriminate H]. injection H as <- <-.
  destruct (C79_palPlantu _ _ _ _ _ _ _ _ _ _ _ _ _ E) as [u' [body [E1 E2]]]. exists u, u', body. split; [reflexivity|]. split; [exact E1|exact E2].
Qed.

(** ** C79_palRdplan *)
(** the Moon's share of the mass of the Earth and Moon *)
Definition moon_share : R := 0.012150581.
(** equatorial radii (km): Sun, Mercury, Venus, Moon, Mars, Jupiter, Saturn, Uranus, Neptune *)
Definition radius (np : Z) : R := nth (Z.to_nat np) [696000; 2439.7; 6051.9; 1738; 3397; 71492; 60268; 25559; 24764] 0.
(** The bodies relative to the geocentre, true equator and equinox of date: [moon] in mean axes of date, which [nut] turns;
    [planet n] relative to the Sun in J2000 axes, which [prec] turns, the third being the Earth-Moon barycentre. *)
Definition geocentric (planet : Z -> pv R) (moon : pv R) (nut prec : mat R) (np : Z) : pv R :=
  let sun_earth := rel (turned prec (planet 3%Z)) (times moon_share (turned nut moon)) in
  if (np =? 3)%Z then turned nut moon
  else if ((1 <=? np) && (np <=? 8))%Z then rel (turned prec (planet np)) sun_earth
  else times (-1) sun_earth.
Theorem C79_palRdplan : forall plan94 dmoon nut prenut gmst date np elong phi ra dec diam,
  palRdplan (T := R) plan94 dmoon nut prenut gmst date np elong phi = (ra, dec, diam) ->
  let planet n := per_second (snd (plan94 2400000.5 date n)) in
  let a := rel (geocentric planet (dmoon date) (nut date) (prenut 2000 date) np) (observer gmst date elong phi) in
  points ra dec (seen a) /\
  (* seen as a disc of its radius at its geometric distance *)
  let n := if ((1 <=? np) && (np <=? 8))%Z then np else 0%Z in
  (radius n <= 149597870 * norm (pvp a) -> norm (pvp a) <> 0 ->
     0 <= diam <= PI /\ 149597870 * norm (pvp a) * sinR (diam / 2) = radius n).
Proof.
  intros plan94 dmoon nut prenut gmst date np elong phi ra dec diam H. cbv zeta. unfold palRdplan in H. rops.
  replace (litR 2000.0) with 2000 in H by (rlit; lra). replace (litR 0.0) with 0 in H by (rlit; lra). replace (litR 86400.0) with 86400 in H by (rlit; lra).
  set (planet := fun n => per_second (snd (plan94 2400000.5 date n))).
  assert (EPL : forall n, snd (palPlanet plan94 date n) = planet n).
  { intro n. unfold palPlanet, planet. replace (MJD0 (T := R)) with 2400000.5 by (unfold MJD0; rn; lra). destruct (plan94 2400000.5 date n) as [j q].
    cbn [snd]. unfold per_second, vdiv, scale. replace (SPD (T := R)) with 86400 by (unfold SPD; rn; lra). rops. f_equal. f_equal; field. }
  rewrite !EPL, !pvsub_rel, !rxpv_turned in H.
  set (n := if ((1 <=? np) && (np <=? 8))%Z then np else 0%Z).
  assert (En : (if ((np <? 0)%Z || (8 <? np)%Z)%bool then 0%Z else np) = n).
  { unfold n. clear. destruct (Z.ltb_spec np 0), (Z.ltb_spec 8 np), (Z.leb_spec 1 np), (Z.leb_spec np 8); cbn [orb andb]; try lia. }
  rewrite En in H. 
  set (g := geocentric planet (dmoon date) (nut date) (prenut 2000 date) np).
  match type of H with context [rel (if (n =? 3)%Z then ?x else ?y) _] => assert (Eg : (if (n =? 3)%Z then x else y) = g) end.
  { unfold g, geocentric. replace (litR 0.012150581) with moon_share by (unfold moon_share; rlit; lra).
    assert (Es : PV (eraPmp (pvp (turned (prenut 2000 date) (planet 3%Z))) (V (moon_share * vx (pvp (turned (nut date) (dmoon date)))) (moon_share * vy (pvp (turned (nut date) (dmoon date)))) (moon_share * vz (pvp (turned (nut date) (dmoon date))))))
       (eraPmp (pvv (turned (prenut 2000 date) (planet 3%Z))) (V (moon_share * vx (pvv (turned (nut date) (dmoon date)))) (moon_share * vy (pvv (turned (nut date) (dmoon date)))) (moon_share * vz (pvv (turned (nut date) (dmoon date))))))
       = rel (turned (prenut 2000 date) (planet 3%Z)) (times moon_share (turned (nut date) (dmoon date)))).
    { unfold rel, times, eraPmp, vsub, scale. rops. reflexivity. }
    rewrite Es. set (se := rel _ (times _ _)). unfold n. clear.
    destruct (Z.eqb_spec np 3) as [->|N3]; [reflexivity|]. destruct ((1 <=? np)%Z && (np <=? 8)%Z) eqn:E.
    - rewrite (proj2 (Z.eqb_neq np 3) N3). apply andb_prop in E. destruct E as [E1 E2]. apply Z.leb_le in E1. replace (np =? 0)%Z with false by (symmetry; apply Z.eqb_neq; lia).
      apply (pvsub_rel (turned (prenut 2000 date) (planet np)) se).
    - cbn [Z.eqb]. unfold times, scale. rops. f_equal; f_equal; ring. }
  rewrite Eg in H. clear Eg En EPL. fold (observer gmst date elong phi) in H. set (a := rel g (observer gmst date elong phi)) in *. clearbody a g planet.
  rewrite norm_xyz, seen_val in H. cbv zeta in H.
  assert (Q := c2s_points (seen a)). destruct (eraC2s (seen a)) as [w1 w2]. cbn [fst snd] in Q. injection H as <- <- <-.
  split; [exact Q|]. cbv zeta. assert (Er : EQRAU (T := R) n = radius n /\ 0 < radius n).
  { assert (Hn : (0 <= n <= 8)%Z) by (unfold n; destruct (Z.leb_spec 1 np), (Z.leb_spec np 8); cbn [andb]; lia). clearbody n. clear - Hn.
    assert (C : n = 0%Z \/ n = 1%Z \/ n = 2%Z \/ n = 3%Z \/ n = 4%Z \/ n = 5%Z \/ n = 6%Z \/ n = 7%Z \/ n = 8%Z) by lia.
    unfold EQRAU, radius. rops. 
    destruct C as [->|[->|[->|[->|[->|[->|[->|[->| ->]]]]]]]]; match goal with |- context [Z.to_nat ?k] => let v := eval compute in (Z.to_nat k) in change (Z.to_nat k) with v end; cbn [nth]; rlit; split; lra. }
  destruct Er as [Er Rp]. rewrite Er. clear Er. intros L N. set (d := norm (pvp a)) in *. assert (Hd : 0 <= d) by apply norm_pos.
  replace (litR 1.49597870e8) with 149597870 by (rlit; lra). replace (litR 2.0) with 2 by (rlit; lra).
  set (x := radius n / (d * 149597870)). assert (Hx : 0 < x <= 1).
  { unfold x. split; [apply Rdiv_lt_0_compat; lra|]. apply (Rmult_le_reg_r (d * 149597870)); [lra|]. unfold Rdiv. rewrite Rmult_assoc, Rinv_l by lra. lra. }
  assert (A := asin_bound x). assert (A0 : 0 <= Ratan.asin x). { destruct (Rle_dec 0 (Ratan.asin x)) as [|C]; [assumption|]. exfalso. assert (S := sin_asin x ltac:(lra)). assert (Rtrigo_def.sin (Ratan.asin x) < 0) by (apply sin_lt_0_var; assert (P := PI_RGT_0); lra). lra. } split; [lra|].
  replace (2 * Ratan.asin x / 2) with (Ratan.asin x) by field. rewrite sin_asin by lra. unfold x. field. lra.
Qed.

(** ** C79_light_time: [seen] is where the body was when the light left it, up to the change of its velocity on the way *)
Lemma back_linear : forall (X V : R -> R) t tau A, 0 <= tau ->
  (forall s : R, t - tau <= s <= t -> is_derive X s (V s)) ->
  (forall s : R, t - tau <= s <= t -> Rabs (V s - V t) <= A * (t - s)) ->
  Rabs (X (t - tau) - (X t - tau * V t)) <= A * tau ^ 2 / 2.
Proof.
  intros X V t tau A Ht D B. destruct (Req_dec tau 0) as [->|N].
  { rewrite Rminus_0_r. replace (X t - (X t - 0 * V t)) with 0 by ring. rewrite Rabs_R0. cbn [Rpow_def.pow]. lra. }
  assert (G : forall e : R, e = 1 \/ e = -1 -> e * (X (t - tau) - (X t - tau * V t)) <= A * tau ^ 2 / 2).
  { intros e He.
    destruct (MVT_gen (fun s => A * (t - s) ^ 2 / 2 - e * (X s - X t - (s - t) * V t)) (t - tau) t (fun s => - A * (t - s) - e * (V s - V t))) as [c [Hc E]].
    - intros s Hs. rewrite Rmin_left, Rmax_right in Hs by lra. assert (Ds := D s ltac:(lra)). auto_derive; [eexists; exact Ds|].
      rewrite (is_derive_unique (fun x : R => X x) s (V s) Ds). field.
    - intros s Hs. rewrite Rmin_left, Rmax_right in Hs by lra. assert (Ds := D s ltac:(lra)).
      apply derivable_continuous_pt. eexists. apply is_derive_Reals. instantiate (1 := - A * (t - s) - e * (V s - V t)).
      auto_derive; [eexists; exact Ds|]. rewrite (is_derive_unique (fun x : R => X x) s (V s) Ds). field.
    - rewrite Rmin_left, Rmax_right in Hc by lra. assert (Bc := B c ltac:(lra)).
      replace (t - (t - tau)) with tau in E by ring. replace (t - t) with 0 in E by ring. replace (t - tau - t) with (- tau) in E by ring.
      assert (Q : - A * (t - c) - e * (V c - V t) <= 0).
      { apply Rcomplements.Rabs_le_between in Bc. destruct He as [-> | ->]; lra. }
      assert (Q2 := Rmult_le_compat_r tau _ _ ltac:(lra) Q). cbn [Rpow_def.pow] in *. lra. }
  assert (G1 := G 1 (or_introl eq_refl)). assert (G2 := G (-1) (or_intror eq_refl)). apply Rabs_le. lra.
Qed.
(** [P]: the positions relative to the observer, [V] the velocities; [A] bounds the acceleration along each axis *)
Theorem C79_light_time : forall (P V : R -> vec R) t A,
  let tau := light_au * norm (P t) in
  (forall s : R, t - tau <= s <= t ->
     is_derive (fun x => vx (P x)) s (vx (V s)) /\ is_derive (fun x => vy (P x)) s (vy (V s)) /\ is_derive (fun x => vz (P x)) s (vz (V s))) ->
  (forall s : R, t - tau <= s <= t ->
     Rabs (vx (V s) - vx (V t)) <= A * (t - s) /\ Rabs (vy (V s) - vy (V t)) <= A * (t - s) /\ Rabs (vz (V s) - vz (V t)) <= A * (t - s)) ->
  let w := seen (PV (P t) (V t)) in
  Rabs (vx (P (t - tau)) - vx w) <= A * tau ^ 2 / 2 /\ Rabs (vy (P (t - tau)) - vy w) <= A * tau ^ 2 / 2 /\
  Rabs (vz (P (t - tau)) - vz w) <= A * tau ^ 2 / 2.
Proof.
  intros P V t A tau D B w. assert (Ht : 0 <= tau) by (unfold tau, light_au; apply Rmult_le_pos; [lra|apply norm_pos]).
  assert (Ew : w = Num.V (vx (P t) - tau * vx (V t)) (vy (P t) - tau * vy (V t)) (vz (P t) - tau * vz (V t))) by reflexivity.
  rewrite Ew. cbn [vx vy vz]. clear Ew w. clearbody tau. split; [|split].
  - apply (back_linear (fun s => vx (P s)) (fun s => vx (V s)) t tau A Ht); intros s Hs; [apply (D s Hs)|apply (B s Hs)].
  - apply (back_linear (fun s => vy (P s)) (fun s => vy (V s)) t tau A Ht); intros s Hs; [apply (D s Hs)|apply (B s Hs)].
  - apply (back_linear (fun s => vz (P s)) (fun s => vz (V s)) t tau A Ht); intros s Hs; [apply (D s Hs)|apply (B s Hs)].
Qed.

(** ** C79_constants: the figures that the places rest on, beside the IAU/IERS values: the light time of the au from the
    defining 149597870700 m and 299792458 m/s; the Moon's share of the mass from the ratio 0.0123000371; the mean or
    equatorial radii of the IAU working group on cartographic coordinates. *)
Definition iau_radius (np : Z) : R := nth (Z.to_nat np) [695700; 2440.53; 6051.8; 1737.4; 3396.19; 71492; 60268; 25559; 24764] 0.
Theorem C79_constants :
  Rabs (light_au - 149597870700 / 299792458) <= 3e-6 /\
  Rabs (moon_share - 0.0123000371 / (1 + 0.0123000371)) <= 5e-8 /\
  forall np, (0 <= np <= 8)%Z -> 0 < radius np /\ Rabs (radius np - iau_radius np) <= 0.0005 * iau_radius np.
Proof.
  unfold light_au, moon_share. split; [interval|]. split; [interval with (i_prec 80)|]. intros np H.
  assert (C : np = 0%Z \/ np = 1%Z \/ np = 2%Z \/ np = 3%Z \/ np = 4%Z \/ np = 5%Z \/ np = 6%Z \/ np = 7%Z \/ np = 8%Z) by lia.
  unfold iau_radius, radius.
  destruct C as [->|[->|[->|[->|[->|[->|[->|[->| ->]]]]]]]];
    repeat match goal with |- context [Z.to_nat ?k] => let v := eval compute in (Z.to_nat k) in change (Z.to_nat k) with v end; cbn [nth]; split; try lra; apply Rabs_le; lra.
Qed.

(** Non-vacuity: the Sun at 1 au on the axis seen from the equator is further than its radius. *)
Lemma pvobs_equator : forall st, vz (pvp (palPvobs (T := R) 0 0 st)) = 0.
Proof.
  intro st. unfold palPvobs. cbv zeta. cbn [pvp vz]. unfold eraGd2gc_wgs84. change (sin (T := R) 0) with (sinR 0). rewrite sin_0.
  cbv zeta. rops. match goal with |- context [if ?b then _ else _] => destruct b end; cbn [snd vz eraZp]; rops; rlit; unfold Rdiv; ring.
Qed.
Example C79_eg :
  let plan94 := fun (_ _ : R) (_ : Z) => (0%Z, PV (V 0 0 1) (V 0 0 0)) in
  let z := fun _ : R => PV (V 0 0 0) (V 0 0 0) in
  let a := rel (geocentric (fun n => per_second (snd (plan94 2400000.5 51544 n))) (z 51544) mid mid 0) (observer (fun _ => 0) 51544 0 0) in
  radius 0 <= 149597870 * norm (pvp a) /\ norm (pvp a) <> 0.
Proof.
  cbv zeta. set (a := rel _ _).
  assert (E : vz (pvp a) = -1).
  { unfold a, geocentric. cbn [Z.eqb Z.leb Z.compare andb]. unfold observer. match goal with |- context [palPvobs 0 0 ?x] => generalize x; intro st end.
    assert (O := pvobs_equator st). set (o := palPvobs 0 0 st) in *. clearbody o.
    unfold rel, times, turned, per_second, mapp, mid, vsub, scale, moon_share, dot. cbn [pvp pvv vx vy vz m0 m1 m2 fst snd]. rewrite O. lra. }
  assert (G : 1 <= norm (pvp a)).
  { assert (N := norm_sq (pvp a)). assert (P := norm_pos (pvp a)). unfold dot in N. rewrite E in N.
    destruct (Rle_dec 1 (norm (pvp a))) as [|C]; [assumption|]. exfalso.
    assert (0 <= vx (pvp a) * vx (pvp a)) by apply Rle_0_sqr. assert (0 <= vy (pvp a) * vy (pvp a)) by apply Rle_0_sqr. nra. }
  assert (radius 0 = 696000) by reflexivity. lra.
Qed.
