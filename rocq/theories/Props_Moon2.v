(** * Theorems: palDmoon puts the Moon where the Moon is (C77) *)
From Coq Require Import Reals ZArith Lra Lia Psatz Bool List.
From Flocq Require Import Core.Raux.
From Coquelicot Require Import Coquelicot.
From Interval Require Import Tactic.
From Verif Require Import Num NumR Erfa Geom MoonTable M_Moon P_Moon Props_Moon Props_Nut.
Import ListNotations.
Local Open Scope R_scope.

(** ** Specification: the largest inequalities of the Moon *)
Definition deg : R := PI / 180.
(** mean longitude of the Moon, mean anomalies of the Sun and the Moon, elongation and argument of latitude of the Moon (degrees,
    Chapront's values as in Meeus, Astronomical Algorithms, ch. 47; constant and rate), [t] Julian centuries from J2000 *)
Definition mL (t : R) : R := 218.3164477 + 481267.88123421 * t.
Definition mM (t : R) : R := 357.5291092 + 35999.0502909 * t.
Definition mM' (t : R) : R := 134.9633964 + 477198.8675055 * t.
Definition mD (t : R) : R := 297.8501921 + 445267.1114034 * t.
Definition mF (t : R) : R := 93.2720950 + 483202.0175233 * t.
(** multiples of M, M', D, F; coefficient in 1e-6 degree *)
Record mterm : Set := MT { tM : Z; tM' : Z; tD : Z; tF : Z; tC : Z }.
(** longitude: Meeus, Astronomical Algorithms, table 47.A *)
Definition moon_longitude_terms : list mterm := [
  MT 0 1 0 0 6288774;        (* equation of the centre *)
  MT 0 (-1) 2 0 1274027;     (* evection *)
  MT 0 0 2 0 658314;         (* variation *)
  MT 0 2 0 0 213618;
  MT 1 0 0 0 (-185116);      (* annual equation *)
  MT 0 0 0 2 (-114332);      (* reduction to the ecliptic *)
  MT 0 (-2) 2 0 58793;
  MT (-1) (-1) 2 0 57066;
  MT 0 1 2 0 53322;
  MT (-1) 0 2 0 45758;
  MT (-1) 1 0 0 40923;
  MT 0 0 1 0 (-34720);       (* parallactic inequality *)
  MT 1 1 0 0 (-30383) ].
(** latitude: table 47.B *)
Definition moon_latitude_terms : list mterm := [
  MT 0 0 0 1 5128122;
  MT 0 1 0 1 280602;
  MT 0 1 0 (-1) 277693;
  MT 0 0 2 (-1) 173237;
  MT 0 (-1) 2 1 55413;
  MT 0 (-1) 2 (-1) 46271;
  MT 0 0 2 1 32573 ].
(** horizontal parallax: the low-precision formula of the Astronomical Almanac *)
Definition moon_parallax_terms : list mterm := [
  MT 0 0 0 0 950800;
  MT 0 1 0 0 51800;
  MT 0 (-1) 2 0 9500;
  MT 0 0 2 0 7800;
  MT 0 2 0 0 2800 ].
Definition marg (t : R) (r : mterm) : R :=
  (IZR (tM r) * mM t + IZR (tM' r) * mM' t + IZR (tD r) * mD t + IZR (tF r) * mF t) * deg.
Definition mseries (g : R -> R) (t : R) (l : list mterm) : R := fold_right (fun r s => IZR (tC r) * 1e-6 * g (marg t r) + s) 0 l.
Definition moon_longitude (t : R) : R := mL t + mseries sinR t moon_longitude_terms.
Definition moon_latitude (t : R) : R := mseries sinR t moon_latitude_terms.
Definition moon_parallax (t : R) : R := mseries cosR t moon_parallax_terms.

(** ** The fundamental arguments *)
Record margs (t : R) (a : moonArgs) : Prop := {
  mg_L : nearly (0.0085 * deg) (fst (ma_ELP a)) (mL t * deg);
  mg_M : nearly (0.007 * deg) (fst (ma_EM a)) (mM t * deg);
  mg_M' : nearly (0.019 * deg) (fst (ma_EMP a)) (mM' t * deg);
  mg_D : nearly (0.012 * deg) (fst (ma_D a)) (mD t * deg);
  mg_F : nearly (0.041 * deg) (fst (ma_F a)) (mF t * deg);
  mg_E : Rabs (fst (ma_E a) - 1) <= 0.0051 /\ Rabs (fst (ma_ESQ a) - 1) <= 0.0101;
  mg_E1 : Rabs (fst (ma_E a)) <= 1 /\ Rabs (fst (ma_ESQ a)) <= 1 }.
Lemma near_intro : forall (k : Z) x u q, Rabs (x - u - IZR k * 360) <= q -> nearly (q * deg) (x * deg) (u * deg).
Proof.
  intros k x u q H. exists k, ((x - u - IZR k * 360) * deg). unfold deg. split; [field|].
  rewrite Rabs_mult, (Rabs_pos_eq (PI / 180)) by (assert (P := PI_RGT_0); lra). apply Rmult_le_compat_r; [assert (P := PI_RGT_0); lra|exact H].
Qed.
Ltac factor := match goal with
  | |- deg * ?a + deg * ?b = _ => replace (deg * a + deg * b) with ((a + b) * deg) by ring; reflexivity
  | |- deg * ?a + deg * ?b * ?c = _ => replace (deg * a + deg * b * c) with ((a + b * c) * deg) by ring; reflexivity end.
Lemma args_good : forall t, Rabs t <= 1 -> margs t (moon_args (fun x : R => x) (t + 1)).
Proof.
  intros t Ht. apply Rabs_le_inv in Ht.
  assert (E := moon_E_val (t + 1)). destruct E as [E1 E2]. 
  assert (B : 0.99 <= 1 - (0.002495 + 0.00000752 * (t + 1)) * (t + 1) <= 1) by nra.
  split; [| | | | |rewrite E1, E2; split; interval with (i_bisect t, i_taylor t)|rewrite E1, E2; split; apply Rabs_le; nra].
  all: clear E1 E2; unfold moon_args, moon_arg; cbn [ma_ELP ma_EM ma_EMP ma_D ma_F fst]; unfold DD2R; rops;
    repeat match goal with |- context [sinR ?x] => let u := fresh "u" in let H := fresh "S" in assert (H := SIN_bound x); set (u := sinR x) in *; clearbody u end;
    replace (PI / litR 180) with deg by (unfold deg; rlit; easy).
  - eapply nearly_weaken; [apply (near_intro 1337)|apply Rle_refl| |reflexivity]; [|symmetry; factor].
    unfold mL. rlit. interval with (i_taylor t).
  - eapply nearly_weaken; [apply (near_intro 100)|apply Rle_refl| |reflexivity]; [|symmetry; factor].
    unfold mM. rlit. interval with (i_taylor t).
  - eapply nearly_weaken; [apply (near_intro 1326)|apply Rle_refl| |reflexivity]; [|symmetry; factor].
    unfold mM'. rlit. interval with (i_taylor t).
  - eapply nearly_weaken; [apply (near_intro 1237)|apply Rle_refl| |reflexivity]; [|symmetry; factor].
    unfold mD. rlit. interval with (i_taylor t).
  - eapply nearly_weaken; [apply (near_intro 1342)|apply Rle_refl| |reflexivity]; [|symmetry; factor].
    unfold mF. rlit. interval with (i_taylor t).
Qed.

(** ** Leading rows and the rest *)
Definition mq (r : mterm) : R := IZR (7 * Z.abs (tM r) + 19 * Z.abs (tM' r) + 12 * Z.abs (tD r) + 41 * Z.abs (tF r)) / 1000 * deg.
(** how far one row of the table may be from one term *)
Definition mb (r : mterm) (row : moonRow) : R :=
  let '(c, _, i) := row in
  Rabs (litR c - IZR (tC r) / 1000000) + (if (i =? 0)%Z then 0 else Rabs (litR c) * 0.0101) + Rabs (IZR (tC r) / 1000000) * mq r.
Definition mult_of (r : mterm) : Z * Z * Z * Z := (tM r, tM' r, tD r, tF r).
Definition msc (cosine : bool) : R -> R := if cosine then Rtrigo_def.cos else Rtrigo_def.sin.
Lemma step_near : forall cosine t a acc r c i, margs t a ->
  Rabs (fst (moon_step cosine a acc (c, mult_of r, i)) - (fst acc + IZR (tC r) / 1000000 * msc cosine (marg t r))) <= mb r (c, mult_of r, i).
Proof.
  intros cosine t a [v dv] r c i [_ N1 N2 N3 N4 [E1 E2] _]. unfold moon_step, mult_of, mb. cbn [fst snd]. rops.
  set (th := _ + IZR (tF r) * fst (ma_F a)).
  assert (N : nearly (mq r) th (marg t r)).
  { assert (N := nearly_add _ _ _ _ _ _ (nearly_add _ _ _ _ _ _ (nearly_add _ _ _ _ _ _ 
      (nearly_mul _ (tM r) _ _ N1) (nearly_mul _ (tM' r) _ _ N2)) (nearly_mul _ (tD r) _ _ N3)) (nearly_mul _ (tF r) _ _ N4)).
    eapply nearly_weaken; [exact N| | |].
    - unfold mq. rewrite !plus_IZR, !mult_IZR. right. lra.
    - unfold th. ring.
    - unfold marg. ring. }
  assert (K : forall en u g, Rabs (en - 1) <= (if (i =? 0)%Z then 0 else 0.0101) -> Rabs u <= 1 -> Rabs (u - g) <= mq r ->
    Rabs (v + litR c * u * en - (v + IZR (tC r) / 1000000 * g)) <=
    Rabs (litR c - IZR (tC r) / 1000000) + (if (i =? 0)%Z then 0 else Rabs (litR c) * 0.0101) + Rabs (IZR (tC r) / 1000000) * mq r).
  { intros en u g He Hu Hg. set (C := IZR (tC r) / 1000000).
    replace (v + litR c * u * en - (v + C * g)) with ((litR c - C) * u + (litR c * (en - 1)) * u + C * (u - g)) by ring.
    assert (A1 := abs1 (litR c - C) u _ Hu (Rle_refl _)).
    assert (A2 : Rabs (litR c * (en - 1) * u) <= (if (i =? 0)%Z then 0 else Rabs (litR c) * 0.0101)).
    { apply abs1; [exact Hu|]. rewrite Rabs_mult. assert (P := Rabs_pos (litR c)). destruct (i =? 0)%Z.
      - assert (Q := Rabs_pos (en - 1)). assert (Z : Rabs (en - 1) = 0) by lra. rewrite Z. lra.
      - apply Rmult_le_compat_l; lra. }
    assert (A3 : Rabs (C * (u - g)) <= Rabs C * mq r) by (rewrite Rabs_mult; apply Rmult_le_compat_l; [apply Rabs_pos|exact Hg]).
    eapply Rle_trans; [apply Rabs_triang|]. assert (T := Rabs_triang ((litR c - C) * u) (litR c * (en - 1) * u)). lra. }
  assert (Bs : Rabs (sinR th) <= 1) by (apply Rabs_le, SIN_bound). assert (Bc : Rabs (cosR th) <= 1) by (apply Rabs_le, COS_bound).
  assert (Ns := nearly_sin _ _ _ N). assert (Nc := nearly_cos _ _ _ N). clearbody th.
  destruct (i =? 0)%Z eqn:Ei.
  - destruct cosine; cbn [fst msc]; apply K; try assumption; replace (litR 1.0 - 1) with 0 by (rlit; lra); rewrite Rabs_R0; lra.
  - destruct (i =? 1)%Z; [destruct (ma_E a) as [en den]|destruct (ma_ESQ a) as [en den]]; cbn [fst] in *;
      destruct cosine; cbn [fst msc]; apply K; try assumption; lra.
Qed.
Lemma steps_near : forall cosine t a (rows : list moonRow) terms acc, margs t a ->
  map (fun r => snd (fst r)) rows = map mult_of terms ->
  Rabs (fst (fold_right (fun r x => moon_step cosine a x r) acc rows) - (fst acc + mseries (msc cosine) t terms))
    <= fold_right Rplus 0 (zipmap mb terms rows).
Proof.
  intros cosine t a rows terms acc G. revert terms. induction rows as [|row rows IH]; intros terms E.
  - destruct terms; [|discriminate E]. cbn [fold_right zipmap mseries]. rewrite Rplus_0_r, Rminus_eq_0, Rabs_R0. lra.
  - destruct terms as [|r terms]; [discriminate E|]. cbn [map] in E. injection E as E0 E.
    specialize (IH terms E). cbn [fold_right zipmap]. unfold mseries. cbn [fold_right]. fold (mseries (msc cosine) t terms).
    set (x := fold_right (fun r x => moon_step cosine a x r) acc rows) in *. clearbody x.
    destruct row as [[c n] i]. cbn [fst snd] in E0. assert (En : n = mult_of r) by exact E0. subst n.
    assert (S := step_near cosine t a x r c i G). set (w := moon_step cosine a x (c, mult_of r, i)) in *. clearbody w.
    set (B := mb r (c, mult_of r, i)) in *. set (s := mseries (msc cosine) t terms) in *. set (B' := fold_right Rplus 0 (zipmap mb terms rows)) in *. clearbody B B' s.
    set (g := msc cosine (marg t r)) in *. clearbody g.
    match goal with |- Rabs ?b <= _ => replace b with ((fst w - (fst x + IZR (tC r) / 1000000 * g)) + (fst x - (fst acc + s))) by lra end.
    eapply Rle_trans; [apply Rabs_triang|]. lra.
Qed.
Lemma fold_rev_right : forall cosine (a : moonArgs) acc rows,
  fold_left (moon_step cosine a) (rev rows) acc = fold_right (fun r x => moon_step cosine a x r) acc rows.
Proof.
  intros. rewrite <- (rev_involutive rows) at 2. rewrite fold_left_rev_right.
  revert acc. induction (rev rows) as [|r l IH]; intro acc; [easy|]. cbn [fold_left]. now rewrite IH.
Qed.
Lemma series_near : forall cosine t a (table : list moonRow) (n : nat) terms b1 b2, margs t a ->
  map (fun r => snd (fst r)) (firstn n table) = map mult_of terms ->
  fold_right Rplus 0 (zipmap mb terms (firstn n table)) <= b1 -> sumabs (rev (skipn n table)) <= b2 ->
  Rabs (fst (moon_series cosine a table) - mseries (msc cosine) t terms) <= b1 + b2.
Proof.
  intros cosine t a table n terms b1 b2 G E B1 B2. unfold moon_series. rewrite fold_rev_right.
  rewrite <- (firstn_skipn n table), fold_right_app.
  assert (F := fold_bound cosine a 1 (rev (skipn n table)) (lit 0.0, lit 0.0) (Rle_refl 1) (proj1 (mg_E1 _ _ G)) (proj2 (mg_E1 _ _ G))).
  rewrite fold_rev_right in F. set (x := fold_right _ _ (skipn n table)) in *. clearbody x.
  assert (S := steps_near cosine t a _ terms x G E). set (y := fold_right _ x (firstn n table)) in *. clearbody y.
  cbn [fst] in F. replace (lit 0.0) with 0 in F by (rn; lra). apply Rabs_le_inv in F, S. apply Rabs_le. lra.
Qed.
Ltac mhead := cbn [firstn zipmap fold_right mb tC fst snd Z.eqb]; unfold mq, deg;
  cbn [tM tM' tD tF Z.abs Z.mul Z.add Pos.mul Pos.add Pos.succ]; rlit; interval.
Lemma lon_head : fold_right Rplus 0 (zipmap mb moon_longitude_terms (firstn 13 moonTL)) <= 0.0086.
Proof. unfold moon_longitude_terms, moonTL. mhead. Qed.
Lemma lon_rest : sumabs (rev (skipn 13 moonTL)) <= 0.1401.
Proof. unfold moonTL, skipn, rev, sumabs. cbn [app fold_right fst]. rlit. interval. Qed.
Lemma lat_head : fold_right Rplus 0 (zipmap mb moon_latitude_terms (firstn 7 moonTB)) <= 0.0049.
Proof. unfold moon_latitude_terms, moonTB. mhead. Qed.
Lemma lat_rest : sumabs (rev (skipn 7 moonTB)) <= 0.088.
Proof. unfold moonTB, skipn, rev, sumabs. cbn [app fold_right fst]. rlit. interval. Qed.
Lemma par_head : fold_right Rplus 0 (zipmap mb moon_parallax_terms (firstn 5 moonTP)) <= 0.00023.
Proof. unfold moon_parallax_terms, moonTP. mhead. Qed.
Lemma par_rest : sumabs (rev (skipn 5 moonTP)) <= 0.00411.
Proof. unfold moonTP, skipn, rev, sumabs. cbn [app fold_right fst]. rlit. interval. Qed.

(** ** C77 *)
(** Within a century of J2000 the position palDmoon returns is, in the mean equatorial frame of date, that of a body at an
    ecliptic longitude within 0.158 degree, a latitude within 0.1 degree and an equatorial horizontal parallax within 0.00435
    degree of the sums of the largest published inequalities. *)
Theorem C77_palDmoon : forall date, Rabs (cy2000 date) <= 1 -> exists lon lat r par,
  pvp (palDmoon date) = mapp (moon_frame date) (scale r (dir lon lat)) /\
  nearly (0.158 * deg) lon (moon_longitude (cy2000 date) * deg) /\
  Rabs (lat / deg - moon_latitude (cy2000 date)) <= 0.097 /\
  Rabs (par / deg - moon_parallax (cy2000 date)) <= 0.00435 /\
  Rabs (r * 149597870.7 * sinR par - 6378.137) <= 0.001.
Proof.
  intros date Ht. rewrite palDmoon_val. cbn [pvp]. unfold moon_ecliptic. rops. rewrite moonT_val.
  replace (moonT date) with (cy2000 date + 1) by (unfold moonT, cy2000; lra). set (t := cy2000 date) in *. clearbody t.
  assert (G := args_good t Ht). set (a := moon_args _ (t + 1)) in *. assert (HO := eq_refl (ma_OM a)). clearbody a.
  assert (P := PI_RGT_0). assert (Pd : 0 < deg) by (unfold deg; lra).
  assert (D : DD2R = deg) by (unfold DD2R, deg; rn; easy).
  assert (Q1 := series_near false t a moonTL 13 moon_longitude_terms _ _ G eq_refl lon_head lon_rest).
  assert (Q2 := series_near false t a moonTB 7 moon_latitude_terms _ _ G eq_refl lat_head lat_rest).
  assert (Q3 := series_near true t a moonTP 5 moon_parallax_terms _ _ G eq_refl par_head par_rest).
  assert (NL := mg_L _ _ G).
  exists (fst (moon_lon a)), (fst (moon_lat a)), (fst (moon_dist (moon_par a))), (fst (moon_par a)).
  split; [|split; [|split; [|split]]].
  - f_equal. unfold moon_ecl. destruct (moon_lon a), (moon_lat a), (moon_dist (moon_par a)). cbn [pvp fst].
    unfold scale, dir; cbn [vx vy vz]. rops. f_equal; ring.
  - unfold moon_lon. destruct (moon_series false a moonTL) as [v dv]. destruct (ma_ELP a) as [l dl]. cbn [fst] in *. rops. rewrite D.
    assert (NV : nearly (0.1487 * deg) (deg * v) (mseries sinR t moon_longitude_terms * deg)).
    { exists 0%Z, ((v - mseries sinR t moon_longitude_terms) * deg). split; [ring|]. rewrite Rabs_mult, (Rabs_pos_eq deg) by lra.
      apply Rmult_le_compat_r; [lra|]. cbn [msc] in Q1. lra. }
    eapply nearly_weaken; [exact (nearly_add _ _ _ _ _ _ NL NV)| |reflexivity|unfold moon_longitude; ring]. lra.
  - unfold moon_lat. destruct (moon_series false a moonTB) as [v dv]. destruct (ma_OM a) as [o o'], (ma_WOM a) as [w w']. cbn [fst] in *. rops. rewrite D.
    cbn [msc] in Q2. fold (moon_latitude t) in Q2.
    assert (B : Rabs (moon_latitude t) <= 6.1).
    { unfold moon_latitude, mseries, moon_latitude_terms. cbn [fold_right tC].
      repeat match goal with |- context [sinR ?x] => let u := fresh "u" in let H := fresh "S" in assert (H := SIN_bound x); set (u := sinR x) in *; clearbody u end.
      interval. }
    set (L := moon_latitude t) in *. clearbody L. clear Q1 Q3 NL. assert (C1 := COS_bound o). assert (C2 := COS_bound w).
    set (f := 1 - 0.0004664 * cosR o - 0.0000754 * cosR w).
    replace (deg * v * (litR 1.0 - litR 0.0004664 * cosR o - litR 0.0000754 * cosR w) / deg) with (v * f).
    2:{ unfold f. replace (litR 1.0) with 1 by (rlit; lra). replace (litR 0.0004664) with 0.0004664 by (rlit; lra). replace (litR 0.0000754) with 0.0000754 by (rlit; lra). field. lra. }
    assert (F : Rabs (f - 1) <= 0.000542) by (unfold f; apply Rabs_le; lra). clearbody f.
    assert (V : Rabs v <= 6.2) by (apply Rabs_le_inv in Q2, B; apply Rabs_le; lra).
    assert (W : Rabs (v * (f - 1)) <= 6.2 * 0.000542) by (rewrite Rabs_mult; apply Rmult_le_compat; try apply Rabs_pos; lra).
    apply Rabs_le_inv in W, Q2. apply Rabs_le. lra.
  - unfold moon_par. destruct (moon_series true a moonTP) as [v dv]. cbn [fst] in *. rops. rewrite D. cbn [msc] in Q3. fold (moon_parallax t) in Q3.
    replace (deg * v / deg) with v by (field; lra). lra.
  - unfold moon_dist. rops. cbn [fst].
    assert (S : 0 < sinR (fst (moon_par a))).
    { assert (B : Rabs (moon_parallax t - 0.9508) <= 0.0719).
      { unfold moon_parallax, mseries, moon_parallax_terms. cbn [fold_right tC].
        replace (cosR (marg t (MT 0 0 0 0 950800))) with 1 by (unfold marg; cbn [tM tM' tD tF]; rewrite <- cos_0; f_equal; ring).
        repeat match goal with |- context [cosR ?x] => let u := fresh "u" in let H := fresh "S" in assert (H := COS_bound x); set (u := cosR x) in *; clearbody u end.
        apply Rabs_le. lra. }
      unfold moon_par. destruct (moon_series true a moonTP) as [v dv]. cbn [fst] in *. rops. rewrite D. cbn [msc] in Q3. fold (moon_parallax t) in Q3.
      assert (V : 0.8 <= v <= 1.1) by (apply Rabs_le_inv in Q3, B; lra). apply sin_gt_0; unfold deg; nra. }
    set (s := sinR (fst (moon_par a))) in *. clearbody s.
    replace (litR 4.2635212653763e-5 / s * 149597870.7 * s) with (litR 4.2635212653763e-5 * 149597870.7) by (field; lra). rlit. interval.
Qed.
(** the hypothesis holds for any date of the twentieth and twenty-first centuries, e.g. that of the unit test *)
Example C77_dates : Rabs (cy2000 48634.4687174074) <= 1 /\ Rabs (cy2000 15020) <= 1 /\ Rabs (cy2000 88069) <= 1.
Proof. unfold cy2000. repeat split; apply Rabs_le; lra. Qed.
