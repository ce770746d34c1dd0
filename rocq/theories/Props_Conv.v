(** * Theorems: palUe2pv always succeeds near the epoch of the elements (C97) *)
From Coq Require Import Reals ZArith Lra Lia Psatz Bool List.
From Coquelicot Require Import Coquelicot.
From Interval Require Import Tactic.
From Verif Require Import Num NumR Erfa Geom P_Frames P_Eterms M_Place M_Orbit P_Orbit Props_Orbit Univ Uniq P_Univ P_Ue2pv Props_Kepler P_Conv.
Local Open Scope R_scope.

(** ** Specification *)
(** Semi-major axis, mean motion (radians per day), eccentricity squared of the orbit in a set of universal elements. *)
Definition axis (u : ue R) : R := - u_cm u / u_alpha u.
Definition mean_motion (u : ue R) : R := 0.01720209895 * R_sqrt.sqrt (u_cm u / axis u ^ 3).
Definition ecc2 (u : ue R) : R := 1 + u_alpha u * norm (cross (u_p0 u) (u_v0 u)) ^ 2 / u_cm u ^ 2.
(** An ellipse of eccentricity at most 0.2 (the bounds on the size, in AU per unit mass, are not a physical restriction). *)
Definition roundish (u : ue R) : Prop := consistent u /\ u_alpha u < 0 /\ ecc2 u <= 0.2 ^ 2 /\ 1e-20 * u_cm u <= axis u <= 1e30 * u_cm u.

(** ** The iteration *)
Section Iter.
  Variables (g h M k cm al r0 sg dt z : R) (hf : nat).
  Hypothesis Hgh : g * g + h * h <= 0.04.
  Hypothesis Hk : 0 < k. Hypothesis Hcm : 0 < cm.
  Hypothesis Eal : al = - (k * k). Hypothesis Er0 : r0 = cm / (k * k) * (1 - g). Hypothesis Esg : sg = cm / k * h. Hypothesis Edt : dt = cm / (k * k * k) * M.
  Notation f := (fk g h M). Notation rh := (rho g h).
  Lemma sfun_0 : forall psi, Rabs (k * psi) <= 0.8366 -> ue_sfun (T := R) hf al psi =
    Some (UF (cp (k * psi)) (sp (k * psi) / k) ((1 - cp (k * psi)) / (k * k)) ((k * psi - sp (k * psi)) / (k * k * k)), 1e-13).
  Proof.
    intros psi H. unfold ue_sfun. rops.
    assert (Hb : Rabs (al * (psi * psi)) <= 0.7).
    { rewrite Eal. replace (- (k * k) * (psi * psi)) with (- ((k * psi) * (k * psi))) by ring. rewrite Rabs_Ropp, Rabs_mult.
      apply Rle_trans with (0.8366 * 0.8366); [|lra]. apply Rmult_le_compat; try apply Rabs_pos; exact H. }
    assert (Eh : ue_halve (T := R) hf 0 (al * (psi * psi)) psi (psi * psi) = Some (0%nat, al * (psi * psi), psi, psi * psi)).
    { destruct hf; cbn [ue_halve]; rops; rewrite Rltb_false by (rlit; lra); reflexivity. }
    rewrite Eh, series_val. cbn [ue_double uf0 uf1 uf2 uf3]. replace (litR 1e-13) with 1e-13 by (rlit; lra). do 2 f_equal.
    replace (al * (psi * psi)) with (- (k * psi) ^ 2) by (rewrite Eal; ring). unfold cp, sp. rewrite Eal.
    set (t2 := T2 (- (k * psi) ^ 2)). set (t3 := T3 (- (k * psi) ^ 2)). clearbody t2 t3. f_equal; field; lra.
  Qed.
  Hypothesis Hz : Rabs z <= 0.8. Hypothesis Ez : f z = 0. Hypothesis Hkk : 1e-15 <= k.
  (** One round, from a point within [B1] of the solution, the previous one being within [B0]. *)
  Lemma round : forall left psi pl fl first B0 B1, Rabs (k * psi) <= 0.8366 -> Rabs (k * psi - z) <= B1 -> B1 <= B0 -> B0 <= 1.2 ->
    (first = false -> Rabs (k * pl) <= 0.8366 /\ Rabs (k * pl - z) <= B0 /\ fl = cm / (k * k * k) * f (k * pl)) ->
    let B2 := (if first then 0.2505 * B1 * B1 else 0.26 * B1 * B0) + 1.4e-14 * B1 in
    exists psi', Rabs (k * psi' - z) <= B2 /\ Rabs (k * psi' - z) <= 0.33 * Rabs (k * psi - z) /\
    (ue_iter (T := R) (S left) hf cm al r0 sg dt psi pl fl first = ue_iter left hf cm al r0 sg dt psi' psi (cm / (k * k * k) * f (k * psi)) false \/
     Rabs (k * psi' - z) <= 5e-14 * k /\ exists s r, ue_iter (T := R) (S left) hf cm al r0 sg dt psi pl fl first = Some (UDone s r psi')) /\
    (B1 + B2 < 1e-28 -> Rabs (k * psi' - z) <= 5e-14 * k /\ exists s r, ue_iter (T := R) (S left) hf cm al r0 sg dt psi pl fl first = Some (UDone s r psi')).
  Proof.
    intros left psi pl fl first B0 B1 Hx Hb HB HB0 Hf B2. rewrite ue_iter_S, (sfun_0 psi Hx). cbv zeta. cbn [uf0 uf1 uf2 uf3]. rops.
    replace (litR 0.0) with 0 by (rlit; lra). replace (litR 1e-13) with 1e-13 by (rlit; lra).
    set (x := k * psi) in *.
    assert (C3 : 0 < cm / (k * k * k)) by (apply Rdiv_lt_0_compat; [exact Hcm|]; repeat apply Rmult_lt_0_compat; exact Hk).
    assert (C2 : 0 < cm / (k * k)) by (apply Rdiv_lt_0_compat; [exact Hcm|]; repeat apply Rmult_lt_0_compat; exact Hk).
    assert (Ef : r0 * (sp x / k) + sg * ((1 - cp x) / (k * k)) + cm * ((x - sp x) / (k * k * k)) - dt = cm / (k * k * k) * f x).
    { rewrite Er0, Esg, Edt. unfold fk. field. lra. }
    assert (Er : r0 * cp x + sg * (sp x / k) + cm * ((1 - cp x) / (k * k)) = cm / (k * k) * rh x).
    { rewrite Er0, Esg. unfold rho. field. lra. }
    rewrite Ef, Er. assert (Rh := rho_bound g h Hgh x Hx). apply Rabs_le_between in Rh.
    assert (Rnz : cm / (k * k) * rh x <> 0) by (apply Rgt_not_eq, Rmult_lt_0_compat; lra).
    set (flast := if first then cm / (k * k * k) * f x else fl).
    assert (P1 := Rabs_pos (x - z)). assert (Hz' : Rabs z <= 0.8366) by lra.
    (* the step *)
    assert (W : exists w, (if Rltb (cm / (k * k * k) * f x * flast) 0 then cm / (k * k * k) * f x * (pl - psi) / (flast - cm / (k * k * k) * f x) else cm / (k * k * k) * f x / (cm / (k * k) * rh x)) = w /\
      Rabs (k * (psi - w) - z) <= 0.33 * Rabs (x - z) /\ Rabs (k * (psi - w) - z) <= B2).
    { eexists. split; [reflexivity|]. destruct (Rltb_spec (cm / (k * k * k) * f x * flast) 0) as [L|L].
      - destruct first.
        { exfalso. unfold flast in L. assert (S := Rle_0_sqr (cm / (k * k * k) * f x)). unfold Rsqr in S. lra. }
        destruct (Hf eq_refl) as (Hl & Hbl & El). unfold flast in *. subst fl. set (l := k * pl) in *.
        assert (Fs : f x * f l < 0).
        { apply Rmult_lt_reg_l with (cm / (k * k * k) * (cm / (k * k * k))); [apply Rmult_lt_0_compat; exact C3|]. rewrite Rmult_0_r. lra. }
        assert (S := secant_step g h M Hgh x l z Hx Hl Hz' Ez Fs).
        replace (k * (psi - cm / (k * k * k) * f x * (pl - psi) / (cm / (k * k * k) * f l - cm / (k * k * k) * f x)) - z) with (x - f x * (l - x) / (f l - f x) - z).
        2: { assert (f l - f x <> 0). { intros Z0. assert (Eq : f l = f x) by lra. rewrite Eq in Fs. assert (S' := Rle_0_sqr (f x)). unfold Rsqr in S'. lra. }
             unfold x, l. fold x l. replace (cm / (k * k * k) * f l - cm / (k * k * k) * f x) with (cm / (k * k * k) * (f l - f x)) by ring.
             replace (k * (psi - cm / (k * k * k) * f x * (pl - psi) / (cm / (k * k * k) * (f l - f x)))) with (k * psi - f x * (k * pl - k * psi) / (f l - f x)) by (field; repeat split; lra).
             reflexivity. }
        assert (P2 := Rabs_pos (l - z)). split.
        { eapply Rle_trans; [exact S|]. assert (Rabs (x - z) * Rabs (l - z) <= Rabs (x - z) * 1.2) by (apply Rmult_le_compat_l; lra). lra. }
        eapply Rle_trans; [exact S|]. unfold B2.
        assert (Rabs (x - z) * Rabs (l - z) <= B1 * B0) by (apply Rmult_le_compat; lra). lra.
      - replace (k * (psi - cm / (k * k * k) * f x / (cm / (k * k) * rh x)) - z) with (k * psi - f x / rh x - z) by (field; repeat split; lra).
        change (k * psi) with x. assert (Nw := newton g h M Hgh x z Hx Hz' Ez). split.
        { eapply Rle_trans; [exact Nw|]. rewrite Rmult_comm. apply Rmult_le_compat_r; lra. }
        eapply Rle_trans; [exact Nw|].
        assert (Q1 : Rabs (x - z) * Rabs (x - z) <= B1 * B1) by (apply Rmult_le_compat; lra).
        unfold B2. destruct first; [lra|]. assert (B1 * B1 <= B1 * B0) by (apply Rmult_le_compat_l; lra).
        assert (0 <= B1 * B0) by (apply Rmult_le_pos; lra). lra. }
    destruct W as (w & Ew & Hr & Hw). exists (psi - w). split; [exact Hw|]. split; [exact Hr|].
    assert (Fin : Rabs w < 1e-13 -> Rabs (k * (psi - w) - z) <= 5e-14 * k).
    { intros Hlt. assert (E : x - z = k * w + (k * (psi - w) - z)) by (unfold x; ring).
      assert (T := Rabs_triang (k * w) (k * (psi - w) - z)). rewrite <- E, Rabs_mult, (Rabs_pos_eq k) in T by lra.
      assert (k * Rabs w <= k * 1e-13) by (apply Rmult_le_compat_l; lra). lra. }
    rewrite (Reqb_false _ _ Rnz), andb_false_r. rewrite Ew.
    split.
    - destruct (Rleb_spec 1e-13 (Rabs w)) as [|Hlt]; [left; reflexivity|right; split; [apply Fin; lra|eauto]].
    - intros Hs. assert (Wb : k * Rabs w <= B1 + B2).
      { rewrite <- (Rabs_pos_eq k) at 1 by lra. rewrite <- Rabs_mult. replace (k * w) with ((x - z) + - (k * (psi - w) - z)) by (unfold x; ring).
        eapply Rle_trans; [apply Rabs_triang|]. rewrite Rabs_Ropp. lra. }
      assert (1e-15 * Rabs w <= k * Rabs w) by (apply Rmult_le_compat_r; [apply Rabs_pos|lra]).
      rewrite Rleb_false by lra. split; [apply Fin; lra|eauto].
  Qed.
  Lemma converge : forall psi, Rabs (k * psi) <= 0.8366 -> Rabs (k * psi - z) <= 1.2 -> Rabs z + 0.2506 * (Rabs (k * psi - z) * Rabs (k * psi - z)) <= 0.8366 ->
    exists s r psi', ue_iter (T := R) NITMAX hf cm al r0 sg dt psi 0 0 true = Some (UDone s r psi') /\ Rabs (k * psi' - z) <= 5e-14 * k.
  Proof.
    intros psi Hx Hb Hd. rewrite NITMAX_S.
    assert (Dm : forall p, Rabs z + Rabs (k * p - z) <= 0.8366 -> Rabs (k * p) <= 0.8366).
    { intros p Hp. replace (k * p) with (z + (k * p - z)) by ring. eapply Rle_trans; [apply Rabs_triang|exact Hp]. }
    assert (F : forall left psi pl fl B0 B1 B2, Rabs z + Rabs (k * psi - z) <= 0.8366 -> Rabs (k * psi - z) <= B1 -> B1 <= B0 -> B0 <= 1.2 ->
      Rabs (k * pl) <= 0.8366 /\ Rabs (k * pl - z) <= B0 /\ fl = cm / (k * k * k) * f (k * pl) -> 0.26 * B1 * B0 + 1.4e-14 * B1 <= B2 ->
      (B1 + B2 < 1e-28 \/ (forall psi', Rabs z + Rabs (k * psi' - z) <= 0.8366 -> Rabs (k * psi' - z) <= B2 -> 
        exists s r p, ue_iter (T := R) left hf cm al r0 sg dt psi' psi (cm / (k * k * k) * f (k * psi)) false = Some (UDone s r p) /\ Rabs (k * p - z) <= 5e-14 * k)) ->
      exists s r p, ue_iter (T := R) (S left) hf cm al r0 sg dt psi pl fl false = Some (UDone s r p) /\ Rabs (k * p - z) <= 5e-14 * k).
    { intros left ps pl fl B0 B1 B2 H1 H2 H3 H4 H5 H6 H7.
      destruct (round left ps pl fl false B0 B1 (Dm _ H1) H2 H3 H4 (fun _ => H5)) as (p & G1 & G2 & G3 & G4). cbv iota in *.
      assert (Pp := Rabs_pos (k * ps - z)).
      destruct H7 as [H7|H7].
      - destruct G4 as (G4 & s & r & G5); [lra|]. eauto 6.
      - destruct G3 as [G3|(G3 & s & r & G5)]; [|eauto 6]. rewrite G3. apply H7; lra. }
    destruct (round 24 psi 0 0 true 1.2 (Rabs (k * psi - z)) Hx (Rle_refl _) Hb ltac:(lra) ltac:(discriminate)) as (p & G1 & G2 & G3 & _). cbv iota in *.
    destruct G3 as [G3|(G3 & s & r & G5)]; [|eauto 6]. rewrite G3. clear G3.
    set (e0 := Rabs (k * psi - z)) in *. assert (P0 : 0 <= e0) by apply Rabs_pos.
    assert (E1 : Rabs (k * p - z) <= 0.37) by (assert (e0 * e0 <= 1.2 * 1.2) by (apply Rmult_le_compat; lra); lra).
    assert (D1 : Rabs z + Rabs (k * p - z) <= 0.8366).
    { destruct (Rle_lt_dec e0 0.1) as [Hs|Hs]; [lra|]. assert (1.4e-14 * e0 <= 0.0001 * (e0 * e0)); [|lra].
      replace (0.0001 * (e0 * e0)) with (0.0001 * e0 * e0) by ring. apply Rmult_le_compat_r; lra. }
    refine (F 23%nat p psi _ 1.2 0.37 0.12 D1 E1 ltac:(lra) ltac:(lra) (conj Hx (conj Hb eq_refl)) ltac:(lra) _). right. intros p2 D2 E2.
    refine (F 22%nat p2 p _ 0.37 0.12 0.012 D2 E2 ltac:(lra) ltac:(lra) (conj (Dm _ D1) (conj E1 eq_refl)) ltac:(lra) _). right. intros p3 D3 E3.
    refine (F 21%nat p3 p2 _ 0.12 0.012 4e-4 D3 E3 ltac:(lra) ltac:(lra) (conj (Dm _ D2) (conj E2 eq_refl)) ltac:(lra) _). right. intros p4 D4 E4.
    refine (F 20%nat p4 p3 _ 0.012 4e-4 2e-6 D4 E4 ltac:(lra) ltac:(lra) (conj (Dm _ D3) (conj E3 eq_refl)) ltac:(lra) _). right. intros p5 D5 E5.
    refine (F 19%nat p5 p4 _ 4e-4 2e-6 3e-10 D5 E5 ltac:(lra) ltac:(lra) (conj (Dm _ D4) (conj E4 eq_refl)) ltac:(lra) _). right. intros p6 D6 E6.
    refine (F 18%nat p6 p5 _ 2e-6 3e-10 2e-16 D6 E6 ltac:(lra) ltac:(lra) (conj (Dm _ D5) (conj E5 eq_refl)) ltac:(lra) _). right. intros p7 D7 E7.
    refine (F 17%nat p7 p6 _ 3e-10 2e-16 2e-26 D7 E7 ltac:(lra) ltac:(lra) (conj (Dm _ D6) (conj E6 eq_refl)) ltac:(lra) _). right. intros p8 D8 E8.
    refine (F 16%nat p8 p7 _ 2e-16 2e-26 1e-39 D8 E8 ltac:(lra) ltac:(lra) (conj (Dm _ D7) (conj E7 eq_refl)) ltac:(lra) _). right. intros p9 D9 E9.
    refine (F 15%nat p9 p8 _ 2e-26 1e-39 1e-52 D9 E9 ltac:(lra) ltac:(lra) (conj (Dm _ D8) (conj E8 eq_refl)) ltac:(lra) _). left. lra.
  Qed.
End Iter.

(** Data of an element set in the scaled variables *)
Definition kk (u : ue R) : R := R_sqrt.sqrt (- u_alpha u).
Definition gg (u : ue R) : R := 1 + u_alpha u * u_r0 u / u_cm u.
Definition hh (u : ue R) : R := u_sigma0 u * kk u / u_cm u.
Definition MM (u : ue R) (date : R) : R := mean_motion u * (date - u_t0 u).
Lemma scaled : forall u, roundish u -> let k := kk u in 1e-15 <= k <= 1e10 /\ k * k = - u_alpha u /\ 0 < u_cm u /\
  gg u * gg u + hh u * hh u <= 0.04 /\ u_r0 u = u_cm u / (k * k) * (1 - gg u) /\ u_sigma0 u = u_cm u / k * hh u /\
  (forall date, (date - u_t0 u) * 0.01720209895 = u_cm u / (k * k * k) * MM u date).
Proof.
  intros u ((Hcm & Er0 & Esg & Eal & Hh) & Hal & He & Ha1 & Ha2) k. set (cm := u_cm u) in *. set (al := u_alpha u) in *.
  assert (Hk : 0 < k) by (apply sqrt_lt_R0; fold al; lra). assert (Ek : k * k = - al) by (apply sqrt_sqrt; fold al; lra).
  unfold axis in *. fold cm al in Ha1, Ha2, He |- *.
  assert (Hcm' : cm <> 0) by lra. assert (Hal' : al <> 0) by lra.
  assert (Eax : - cm / al * - al = cm) by (field; lra). set (a := - cm / al) in *.
  assert (Bk1 : 1e-30 <= k * k).
  { rewrite Ek. apply Rmult_le_reg_l with (1e30 * cm); [lra|]. assert (a * - al <= 1e30 * cm * - al) by (apply Rmult_le_compat_r; lra). lra. }
  assert (Bk2 : k * k <= 1e20).
  { rewrite Ek. apply Rmult_le_reg_l with (1e-20 * cm); [lra|]. assert (1e-20 * cm * - al <= a * - al) by (apply Rmult_le_compat_r; lra). lra. }
  split; [split; apply Rnot_lt_le; intros L; [assert (k * k < 1e-15 * 1e-15) by (apply Rmult_le_0_lt_compat; lra)|assert (1e10 * 1e10 < k * k) by (apply Rmult_le_0_lt_compat; lra)]; lra|].
  split; [exact Ek|]. split; [exact Hcm|]. split; [|split; [|split]].
  - assert (I : gg u * gg u + hh u * hh u = ecc2 u).
    { unfold gg, hh, ecc2. fold cm al k. replace (norm (cross (u_p0 u) (u_v0 u)) ^ 2) with (norm (cross (u_p0 u) (u_v0 u)) * norm (cross (u_p0 u) (u_v0 u))) by ring. rewrite norm_sq.
      assert (Lg : dot (cross (u_p0 u) (u_v0 u)) (cross (u_p0 u) (u_v0 u)) = dot (u_p0 u) (u_p0 u) * dot (u_v0 u) (u_v0 u) - dot (u_p0 u) (u_v0 u) * dot (u_p0 u) (u_v0 u))
        by (unfold dot, cross; cbn; ring).
      rewrite Lg, <- Esg, <- (norm_sq (u_p0 u)), <- Er0. rewrite <- Er0 in Eal.
      assert (Hr0 : 0 < u_r0 u).
      { rewrite Er0. apply norm_gt0. intros Z. apply Hh. rewrite Z. unfold cross, vzero; cbn. f_equal; ring. }
      assert (Ev : dot (u_v0 u) (u_v0 u) = al + 2 * cm / u_r0 u) by lra. rewrite Ev.
      replace (u_sigma0 u * k / cm * (u_sigma0 u * k / cm)) with (u_sigma0 u * u_sigma0 u * (k * k) / (cm * cm)) by (field; lra). rewrite Ek. field. lra. }
    rewrite I. lra.
  - unfold gg. fold cm al. rewrite Ek. field. lra.
  - unfold hh. fold cm al k. field. lra.
  - intros date. unfold MM, mean_motion, axis. fold cm al a.
    replace (cm / a ^ 3) with ((k * k * k / cm) * (k * k * k / cm)).
    2: { replace (k * k * k / cm * (k * k * k / cm)) with ((k * k) ^ 3 / (cm * cm)) by (field; lra). rewrite Ek. unfold a. field. lra. }
    rewrite sqrt_square. 2: { apply Rmult_le_pos; [|left; apply Rinv_0_lt_compat; lra]. apply Rmult_le_pos; [apply Rmult_le_pos|]; lra. }
    set (G := 0.01720209895). clearbody G. field. lra.
Qed.
(** One call *)
Lemma one_call : forall u date z, roundish u -> fk (gg u) (hh u) (MM u date) z = 0 -> Rabs z <= 0.8 ->
  let x0 := kk u * (u_psi u + (date - u_t u) * 0.01720209895 / u_r0 u) in
  Rabs x0 <= 0.8366 -> Rabs (x0 - z) <= 1.2 -> Rabs z + 0.2506 * (Rabs (x0 - z) * Rabs (x0 - z)) <= 0.8366 ->
  exists u' pv1, (forall hf pv0, palUe2pv (T := R) hf date u pv0 = Some (0%Z, u', pv1)) /\ u_t u' = date /\ Rabs (kk u * u_psi u' - z) <= 5e-4.
Proof.
  intros u date z Hu Hz Bz x0 H1 H2 H3. destruct (scaled u Hu) as (Bk & Ek & Hcm & Hgh & Er & Es & Et). set (k := kk u) in *.
  assert (EG : GCON (T := R) = 0.01720209895) by (unfold GCON; rn; lra).
  destruct (converge (gg u) (hh u) (MM u date) k (u_cm u) (u_alpha u) (u_r0 u) (u_sigma0 u) ((date - u_t0 u) * 0.01720209895) z 0 Hgh) with (psi := u_psi u + (date - u_t u) * 0.01720209895 / u_r0 u)
    as (s & r & psi' & E & F); try assumption; try lra; [apply Et|].
  eexists _, _. split; [intros hf pv0|].
  - unfold palUe2pv. rops. rewrite EG. replace (litR 0.0) with 0 by (rlit; lra).
    rewrite (ue_iter_mono _ _ _ _ _ _ _ _ _ _ _ _ E hf (Nat.le_0_l _)). reflexivity.
  - cbn [u_t u_psi]. split; [reflexivity|]. lra.
Qed.
(** Starting values and solutions *)
Lemma quot_near : forall M x z p d, 0.7998 <= p <= 1.2002 -> 0.7998 <= d <= 1.2002 -> p * x = M -> d * z = M -> Rabs (x - z) <= 0.4175 * Rabs M.
Proof.
  intros M x z p d Hp Hd Ex Ez.
  assert (Q : forall y q, 0.7998 <= q <= 1.2002 -> q * y = M -> (0 <= M -> 0.833 * M <= y <= 1.2504 * M) /\ (M <= 0 -> 1.2504 * M <= y <= 0.833 * M)).
  { intros y q Hq E. split; intros HM; split; nra. }
  destruct (Q x p Hp Ex) as [X1 X2]. destruct (Q z d Hd Ez) as [Z1 Z2]. unfold Rabs. destruct (Rcase_abs (x - z)), (Rcase_abs M); lra.
Qed.
Lemma one_minus_g : forall u, roundish u -> 0.7998 <= 1 - gg u <= 1.2002.
Proof. intros u Hu. destruct (scaled u Hu) as (_ & _ & _ & Hgh & _). destruct (gh_abs _ _ Hgh) as [G _]. apply Rabs_le_between in G. lra. Qed.
Lemma start_val : forall u date, roundish u ->
  kk u * (u_psi u + (date - u_t u) * 0.01720209895 / u_r0 u) = kk u * u_psi u + (MM u date - MM u (u_t u)) / (1 - gg u).
Proof.
  intros u date Hu. destruct (scaled u Hu) as (Bk & Ek & Hcm & Hgh & Er & Es & Et). assert (G := one_minus_g u Hu).
  replace ((date - u_t u) * 0.01720209895) with ((date - u_t0 u) * 0.01720209895 - (u_t u - u_t0 u) * 0.01720209895) by ring.
  rewrite !Et, Er at 1. set (k := kk u) in *. field. repeat split; lra.
Qed.
Lemma quot_le : forall M z d, 0.7998 <= d <= 1.2002 -> d * z = M -> Rabs z <= 1.2504 * Rabs M.
Proof. intros M z d Hd <-. rewrite Rabs_mult, (Rabs_pos_eq d) by lra. assert (P := Rabs_pos z). nra. Qed.

(** The position returned is that of the two-body motion [X] at a time within a rounding-free tolerance of the requested one
    (times in units of 1/k days, [a] the semi-major axis, [s] the square root of a/cm, [w] the speed at the epoch). *)
Definition on_orbit (u : ue R) (X : R -> vec R) (date : R) (p : vec R) : Prop :=
  let a := axis u in let s := R_sqrt.sqrt (a / u_cm u) in let w := norm (u_v0 u) in let del := 4 * a * (1e-13 + 1.2e-14 * s) in
  exists tau, Rabs (tau - (date - u_t0 u) * 0.01720209895) <= del /\ norm (vsub p (X tau)) <= 4e-15 * a * (1 + s * w) + del * w.
(** [u] has just been made by palPv2ue (or equivalent): its starting anomaly is that of its own epoch. *)
Definition fresh (u : ue R) : Prop := u_psi u = 0 /\ u_t u = u_t0 u.
(** Successive calls for the given dates, each continuing from the element set left by the one before, all succeed with
    status 0, whatever the output array contained, and give positions on the orbit. *)
Fixpoint all_succeed (X : R -> vec R) (u : ue R) (dates : list R) : Prop :=
  match dates with
  | nil => True
  | date :: rest => exists u' pv1, (forall hf pv0, palUe2pv (T := R) hf date u pv0 = Some (0%Z, u', pv1)) /\
      on_orbit u X date (pvp pv1) /\ all_succeed X u' rest
  end.

Lemma accurate : forall u date pv0 u' pv1 X Vel, roundish u -> motion (u_cm u) X Vel -> X 0 = u_p0 u -> Vel 0 = u_v0 u ->
  palUe2pv (T := R) 0 date u pv0 = Some (0%Z, u', pv1) -> on_orbit u X date (pvp pv1).
Proof.
  intros u date pv0 u' pv1 X Vel (Hc & Hal & _) HM X0 V0 H.
  destruct (C68_ellipse 0 date u pv0 u' pv1 X Vel ltac:(lia) Hc Hal HM X0 V0 H) as (tau & A1 & A2). exists tau. fold (axis u) in A1, A2.
  cbn [Rpow_def.pow] in A1, A2. cbv zeta. set (s := R_sqrt.sqrt (axis u / u_cm u)) in *. set (w := norm (u_v0 u)) in *. set (a := axis u) in *. clearbody a s w.
  replace (4 * a * (1e-13 + 1.2e-14 * s)) with (4 * (1 * (1 * (1 * 1))) * a * (1e-13 + 3 * (4e-15 * 1) * 1 * s)) by lra.
  split; [exact A1|]. eapply Rle_trans; [exact A2|]. right. lra.
Qed.

(** ** C97_first: within a tenth of a revolution of the epoch, the first call always succeeds *)
Theorem C97_first : forall u date X Vel, roundish u -> fresh u -> Rabs (mean_motion u * (date - u_t0 u)) <= 2 * PI / 10 ->
  motion (u_cm u) X Vel -> X 0 = u_p0 u -> Vel 0 = u_v0 u -> all_succeed X u (date :: nil).
Proof.
  intros u date X Vel Hu (Hp & Ht) HM MX X0 V0. assert (BM : Rabs (MM u date) <= 0.6284).
  { eapply Rle_trans; [exact HM|]. assert (P := PI_RGT_0). Local Ltac pi_le := generalize PI_4; lra.
    assert (PI <= 3.142) by interval. lra. }
  destruct (scaled u Hu) as (Bk & Ek & Hcm & Hgh & _). assert (G := one_minus_g u Hu).
  destruct (root (gg u) (hh u) (MM u date) Hgh ltac:(lra)) as (z & d & Ez & Hd & EM).
  assert (Bz := quot_le _ _ _ Hd (eq_sym EM)).
  assert (S : kk u * (u_psi u + (date - u_t u) * 0.01720209895 / u_r0 u) = MM u date / (1 - gg u)).
  { rewrite (start_val u date Hu), Hp, Ht. replace (MM u (u_t0 u)) with 0 by (unfold MM; ring). field. lra. }
  set (x0 := MM u date / (1 - gg u)) in *. assert (Ex : (1 - gg u) * x0 = MM u date) by (unfold x0; field; lra).
  assert (Bx := quot_le _ _ _ G Ex). assert (Bd := quot_near _ _ _ _ _ G Hd Ex (eq_sym EM)).
  assert (P0 := Rabs_pos (x0 - z)). assert (Bd' : Rabs (x0 - z) <= 0.2624) by lra.
  assert (Sq : Rabs (x0 - z) * Rabs (x0 - z) <= 0.2624 * 0.2624) by (apply Rmult_le_compat; lra).
  destruct (one_call u date z Hu Ez) as (u' & pv1 & E & _).
  - lra.
  - rewrite S. lra.
  - rewrite S. lra.
  - rewrite S. lra.
  - exists u', pv1. split; [exact E|]. split; [|exact I]. eapply accurate; try eassumption. apply (E 0%nat pv_junk).
Qed.

(** ** C97_history: any sequence of dates within about a sixteenth of a revolution (0.4 rad of mean anomaly) of the epoch *)
Lemma history : forall dates u X Vel, roundish u -> motion (u_cm u) X Vel -> X 0 = u_p0 u -> Vel 0 = u_v0 u ->
  Rabs (MM u (u_t u)) <= 0.4 -> (exists z, fk (gg u) (hh u) (MM u (u_t u)) z = 0 /\ Rabs z <= 0.5002 /\ Rabs (kk u * u_psi u - z) <= 5e-4) ->
  List.Forall (fun date => Rabs (mean_motion u * (date - u_t0 u)) <= 0.4) dates -> all_succeed X u dates.
Proof.
  induction dates as [|date rest IH]; intros u X Vel Hu MX X0 V0 HM0 (z0 & E0 & B0 & D0) HF; [exact I|].
  inversion HF as [|? ? HM HF']; subst. fold (MM u date) in HM.
  destruct (scaled u Hu) as (Bk & Ek & Hcm & Hgh & _). assert (G := one_minus_g u Hu).
  destruct (root (gg u) (hh u) (MM u date) Hgh ltac:(lra)) as (z & d & Ez & Hd & EM).
  assert (Bz := quot_le _ _ _ Hd (eq_sym EM)).
  destruct (root_diff _ _ _ _ z0 z Hgh ltac:(lra) ltac:(lra) E0 Ez) as (d' & Hd' & EM').
  assert (S := start_val u date Hu). set (dM := MM u date - MM u (u_t u)) in *.
  assert (BdM : Rabs dM <= 0.8).
  { unfold dM. eapply Rle_trans; [apply Rabs_triang|]. rewrite Rabs_Ropp. lra. }
  set (dx := dM / (1 - gg u)) in *. assert (Ex : (1 - gg u) * dx = dM) by (unfold dx; field; lra).
  assert (Bd := quot_near _ _ _ _ _ G Hd' Ex (eq_sym EM')). clearbody dx dM.
  assert (Bd' : Rabs (dx - (z - z0)) <= 0.334) by lra.
  assert (E1 : kk u * u_psi u + dx - z = (kk u * u_psi u - z0) + (dx - (z - z0))) by ring.
  assert (B1 : Rabs (kk u * u_psi u + dx - z) <= 0.3345) by (rewrite E1; eapply Rle_trans; [apply Rabs_triang|]; lra).
  assert (B2 : Rabs (kk u * u_psi u + dx) <= 0.8366).
  { replace (kk u * u_psi u + dx) with (z + (kk u * u_psi u + dx - z)) by ring. eapply Rle_trans; [apply Rabs_triang|]. lra. }
  set (x0 := kk u * u_psi u + dx) in *. assert (P0 := Rabs_pos (x0 - z)).
  assert (Sq : Rabs (x0 - z) * Rabs (x0 - z) <= 0.3345 * 0.3345) by (apply Rmult_le_compat; lra).
  destruct (one_call u date z Hu Ez) as (u' & pv1 & E & Et & Ep); [lra|rewrite S; lra|rewrite S; lra|rewrite S; lra|].
  exists u', pv1. split; [exact E|]. split; [eapply accurate; try eassumption; apply (E 0%nat pv_junk)|].
  destruct (C60_untouched _ _ _ _ _ _ _ _ _ (E 0%nat pv_junk)) as [(_ & _ & Q1 & Q2 & Q3 & Q4 & Q5 & Q6 & Q7)|([Q|Q] & _)]; try discriminate Q.
  assert (Hk : consistent u') by (eapply C68_kept; [apply (E 0%nat pv_junk)|apply Hu]).
  apply (IH u' X Vel).
  - destruct Hu as (_ & U1 & U2 & U3). split; [exact Hk|]. unfold ecc2, axis in *. rewrite Q1, Q2, Q4, Q5. repeat split; lra.
  - rewrite Q1. exact MX.
  - rewrite Q4. exact X0.
  - rewrite Q5. exact V0.
  - unfold MM, mean_motion, axis. rewrite Q1, Q2, Q3, Et. exact HM.
  - exists z. unfold MM, mean_motion, axis, gg, hh, kk. rewrite Q1, Q2, Q3, Q6, Q7, Et. split; [exact Ez|]. split; [lra|exact Ep].
  - unfold mean_motion, axis in *. rewrite Q1, Q2, Q3. exact HF'.
Qed.
Theorem C97_history : forall u dates X Vel, roundish u -> fresh u -> motion (u_cm u) X Vel -> X 0 = u_p0 u -> Vel 0 = u_v0 u ->
  List.Forall (fun date => Rabs (mean_motion u * (date - u_t0 u)) <= 0.4) dates -> all_succeed X u dates.
Proof.
  intros u dates X Vel Hu (Hp & Ht) MX X0 V0 HF. assert (M0 : MM u (u_t u) = 0) by (unfold MM; rewrite Ht; ring).
  apply (history dates u X Vel Hu MX X0 V0); [rewrite M0, Rabs_R0; lra| |exact HF].
  exists 0. rewrite M0, Hp. split; [unfold fk, cp, sp; ring|]. rewrite Rmult_0_r, Rminus_0_r, Rabs_R0. lra.
Qed.
(** Elements made by palPv2ue are fresh. *)
Theorem C97_state : forall p date0 pmass u dates X Vel, palPv2ue (T := R) p date0 pmass = (0%Z, Some u) -> cross (pvp p) (pvv p) <> vzero ->
  u_alpha u < 0 -> ecc2 u <= 0.2 ^ 2 -> 1e-20 * u_cm u <= axis u <= 1e30 * u_cm u ->
  motion (1 + pmass) X Vel -> X 0 = pvp p -> Vel 0 = scale (86400 / 0.01720209895) (pvv p) ->
  List.Forall (fun date => Rabs (mean_motion u * (date - date0)) <= 0.4) dates -> all_succeed X u dates.
Proof.
  intros p date0 pmass u dates X Vel H Hc Ha He Hx MX X0 V0 HF. destruct (C68_pv2ue _ _ _ _ H Hc) as (C & E1 & E2 & E3 & E4).
  apply (C97_history u dates X Vel).
  - split; [exact C|]. split; [exact Ha|]. split; [exact He|exact Hx].
  - unfold fresh. unfold palPv2ue in H. rops. destruct (Rltb_spec pmass (litR 0.0)); [discriminate H|].
    repeat match type of H with context [if ?c then _ else _] => destruct c; [discriminate H|] end. injection H as <-. cbn. split; [rlit; lra|reflexivity].
  - rewrite E1. exact MX.
  - rewrite E3. exact X0.
  - rewrite E4. exact V0.
  - rewrite E2. exact HF.
Qed.

(** Non-vacuity: an orbit of eccentricity 0.1, at perihelion at the epoch, and three dates in no particular order *)
Definition u_ell : ue R := UE 1 (-1) 50000 (V 0.9 0 0) (V 0 (R_sqrt.sqrt (11/9)) 0) 0.9 0 50000 0.
Lemma u_ell_roundish : roundish u_ell /\ fresh u_ell /\ mean_motion u_ell = 0.01720209895.
Proof.
  assert (S : R_sqrt.sqrt (11/9) * R_sqrt.sqrt (11/9) = 11/9) by (apply sqrt_sqrt; lra).
  assert (N : norm (V 0.9 0 0) = 0.9). { unfold norm, dot; cbn [vx vy vz]. replace (0.9 * 0.9 + 0 * 0 + 0 * 0) with (0.9 * 0.9) by ring. apply sqrt_square. lra. }
  assert (C : cross (V 0.9 0 0) (V 0 (R_sqrt.sqrt (11/9)) 0) = V 0 0 (0.9 * R_sqrt.sqrt (11/9))) by (unfold cross; cbn; f_equal; ring).
  assert (Ax : axis u_ell = 1) by (unfold axis, u_ell; cbn; field).
  unfold roundish. rewrite Ax. split; [|split].
  - unfold consistent, ecc2, u_ell; cbn [u_cm u_alpha u_t0 u_p0 u_v0 u_r0 u_sigma0]. rewrite N, C. split; [|split; [lra|]].
    + split; [lra|]. split; [reflexivity|]. unfold dot; cbn [vx vy vz]. split; [lra|]. split; [lra|]. intros Z. injection Z as Z.
      assert (0 < R_sqrt.sqrt (11/9)) by (apply sqrt_lt_R0; lra). lra.
    + split; [|lra]. replace (norm (V 0 0 (0.9 * R_sqrt.sqrt (11/9))) ^ 2) with (norm (V 0 0 (0.9 * R_sqrt.sqrt (11/9))) * norm (V 0 0 (0.9 * R_sqrt.sqrt (11/9)))) by ring.
      rewrite norm_sq. unfold dot; cbn [vx vy vz]. lra.
  - split; reflexivity.
  - unfold mean_motion. rewrite Ax. unfold u_ell; cbn [u_cm]. replace (1 / 1 ^ 3) with 1 by field. rewrite sqrt_1. ring.
Qed.
Example C97_eg : exists X Vel, motion 1 X Vel /\ X 0 = u_p0 u_ell /\ all_succeed X u_ell (50010 :: 49980 :: 50023 :: nil) /\ all_succeed X u_ell (50036 :: nil).
Proof.
  destruct u_ell_roundish as (Hr & Hf & Hm). destruct (two_body_exists 1 (u_p0 u_ell) (u_v0 u_ell)) as (X & Vl & MX & X0 & V0 & _); [lra|apply Hr|].
  exists X, Vl. split; [exact MX|]. split; [exact X0|]. split.
  - apply (C97_history u_ell _ X Vl Hr Hf MX X0 V0). rewrite Hm. cbn [u_t0 u_ell]. repeat (constructor; [apply Rabs_le; lra|]). constructor.
  - apply (C97_first u_ell 50036 X Vl Hr Hf); try assumption. rewrite Hm. cbn [u_t0 u_ell]. rewrite Rabs_pos_eq by lra. assert (3.14 <= PI) by interval. lra.
Qed.
