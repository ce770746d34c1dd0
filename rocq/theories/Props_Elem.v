(** * Theorems: the meaning of osculating elements (C69, C70) *)
From Coq Require Import Reals ZArith Lra Lia Psatz Bool.
From Coquelicot Require Import Coquelicot.
From Interval Require Import Tactic.
From Verif Require Import Num NumR Erfa Geom P_Frames P_Eterms M_Place M_Orbit P_Orbit Props_Orbit Univ Uniq P_Univ P_Ue2pv Props_Kepler P_Elem.
Local Open Scope R_scope.
Local Notation c_ := Rtrigo_def.cos. Local Notation s_ := Rtrigo_def.sin.

(** ** Specification: what the three forms of elements mean (palPlanel.c:117-156, palPv2el.c:98-135).
    Form 1: L and longitude of perihelion, semi-major axis, daily motion; form 2: mean anomaly, argument of perihelion,
    semi-major axis; form 3: epoch of perihelion, argument of perihelion, perihelion distance. *)
Definition oget (o : option R) : R := match o with Some a => a | None => 0 end.
Definition el_dist (el : @elements R) : R := if (el_jform el =? 3)%Z then el_aorq el else el_aorq el * (1 - el_e el).
Definition el_arg (el : @elements R) : R := if (el_jform el =? 1)%Z then el_perih el - el_anode el else el_perih el.
(** mean daily motion in an orbit of semi-major axis [a] *)
Definition daily (mu a : R) : R := sqrtR (mu / (a * a * a)).
(** time since perihelion, days *)
Definition el_since (mu : R) (el : @elements R) (date : R) : R := (date - el_epoch el) +
  (if (el_jform el =? 1)%Z then (oget (el_aorl el) - el_perih el) / oget (el_dm el)
   else if (el_jform el =? 2)%Z then oget (el_aorl el) / daily mu (el_aorq el) else 0).
(** the state at perihelion that the elements describe (ecliptic frame, au, au/day) *)
Definition el_peri_pos (el : @elements R) : vec R := peri_pos (el_dist el) (el_orbinc el) (el_anode el) (el_arg el).
Definition el_peri_vel (mu : R) (el : @elements R) : vec R := peri_vel mu (el_dist el) (el_e el) (el_orbinc el) (el_anode el) (el_arg el).

Lemma odir_cong : forall i Om Om' th th', cong Om Om' -> cong th th' -> odir i Om th = odir i Om' th'.
Proof.
  intros i Om Om' th th' A B. unfold odir. rewrite (cong_sin _ _ A), (cong_cos _ _ A), (cong_sin _ _ B), (cong_cos _ _ B). reflexivity.
Qed.
Lemma cong_plus : forall a b c d, cong a b -> cong c d -> cong (a + c) (b + d).
Proof. intros a b c d [k ->] [m ->]. exists (k + m)%Z. rewrite plus_IZR. ring. Qed.
Lemma cong_minus : forall a b c d, cong a b -> cong c d -> cong (a - c) (b - d).
Proof. intros a b c d [k ->] [m ->]. exists (k - m)%Z. rewrite minus_IZR. ring. Qed.
Lemma odir_cong' : forall i Om Om' th th' , cong Om Om' -> cong th th' -> odir i Om (th + PI / 2) = odir i Om' (th' + PI / 2).
Proof. intros. apply odir_cong; [assumption|]. apply cong_plus; [assumption|apply cong_refl]. Qed.

Lemma ecc2_ecc_sq : forall p mu, 0 < mu -> 0 < norm (epos p) -> ecc2 (epos p) (evel p) mu = ecc_sq mu p.
Proof. intros p mu Hm Hr. unfold ecc2, ecc_sq, energy, angmom. field. lra. Qed.

(** ** C69: the elements returned by palPv2el are osculating: the two-body motion that starts at perihelion with the state
    they describe has the given position and velocity at the given date. *)
Theorem C69_osculating : forall p date pmass jformr el, palPv2el (T := R) p date pmass jformr = (0%Z, Some el) ->
  angmom p <> vzero -> let mu := mu_sun pmass in let e := sqrtR (ecc_sq mu p) in
  (1e-8 <= Rabs (e - 1) \/ (e = 1 /\ jformr = 3%Z)) ->
  forall X Vel, motion mu X Vel -> X 0 = el_peri_pos el -> Vel 0 = el_peri_vel mu el ->
  X (el_since mu el date) = epos p /\ Vel (el_since mu el date) = evel p.
Proof.
  intros p date pmass jformr el H Hh mu e He X Vel M X0 V0.
  destruct (pv2el_ecc _ _ _ _ _ H) as (_ & _ & _ & Ee & Ej).
  destruct (pv2el_ok _ _ _ _ _ H) as (Hpm & Hf & Hrg & Eel). fold mu in Ee, Eel. fold e in Ee. clear H.
  assert (Hmu : 0 < mu) by (unfold mu, mu_sun; nra).
  assert (Hr : 0 < norm (epos p)) by (destruct Hrg as [A _]; fold (epos p) in A; lra).
  assert (E2 := ecc2_ecc_sq p mu Hmu Hr).
  set (x := epos p) in *. set (v := evel p) in *. change (cross x v <> vzero) in Hh. unfold econic in Eel. fold x v in Eel.
  set (k := pv_conic x v (norm x) (dot v v) mu) in *.
  assert (Es : ecc_snap e = e).
  { unfold ecc_snap. destruct (Rltb_spec (Rabs (e - 1)) 1e-8) as [Q|Q]; [|reflexivity]. destruct He as [He|[He _]]; [lra|symmetry; exact He]. }
  rewrite Es in Ee.
  assert (Ke : k_ecc k = e).
  { rewrite <- Ee, Eel. unfold pv_out. destruct (pv_mean mu (k_ar k) (k_ecc k) (k_at k)) as [am dn].
    repeat match goal with |- context [if ?c then _ else _] => destruct c; cbn [el_e]; try reflexivity end. }
  assert (Ee' : e = sqrtR (ecc2 x v mu)) by (unfold e; rewrite E2; reflexivity).
  assert (Hq : per_q x v mu = k_h2 k / (mu * (e + 1))) by (rewrite Ee'; reflexivity).
  assert (He0 : 0 <= e) by apply sqrt_pos.
  (* the starting state, whatever the form *)
  assert (Start : el_dist el = per_q x v mu -> el_orbinc el = k_oi k -> cong (el_anode el) (k_bigom k) -> cong (el_arg el) (k_om k) ->
    X 0 = peri_pos (per_q x v mu) (k_oi k) (k_bigom k) (k_om k) /\
    Vel 0 = peri_vel mu (per_q x v mu) (sqrtR (ecc2 x v mu)) (k_oi k) (k_bigom k) (k_om k)).
  { intros D1 D2 D3 D4. rewrite X0, V0. unfold el_peri_pos, el_peri_vel, peri_pos, peri_vel. rewrite D1, D2, Ee, <- Ee'.
    rewrite (odir_cong _ _ _ _ _ D3 D4), (odir_cong' _ _ _ _ _ D3 D4). split; reflexivity. }
  assert (Hellq : e < 1 -> 1 / k_ar k * (1 - e) = per_q x v mu /\ 1 / k_ar k = per_q x v mu / (1 - e) /\ 0 < per_q x v mu).
  { intros L. assert (0 < per_q x v mu) by (apply per_q_pos; assumption).
    unfold k. rewrite (ar_ellipse x v mu Hr Hmu Hh) by (rewrite <- Ee'; exact L). rewrite <- Ee'. split; [|split; [|assumption]]; field; lra. }
  rewrite Ee in Ej. 
  revert Eel. unfold pv_out. rewrite Ke. rops. replace (litR 1.0) with 1 by (rlit; lra).
  destruct (pv_mean mu (k_ar k) e (k_at k)) as [am dn] eqn:EM.
  destruct (Z.eqb_spec (if Rltb 1 e then 3 else jformr) 1) as [J1|J1]; [|destruct (Z.eqb_spec (if Rltb 1 e then 3 else jformr) 3) as [J3|J3]]; intros Eel.
  - (* form 1 *)
    assert (L : e < 1).
    { destruct (Rltb_spec 1 e) as [Q|Q]; [discriminate|]. destruct He as [He|[_ He]]; [|congruence].
      destruct (Req_dec e 1) as [Z|Z]; [|lra]. rewrite Z in He. replace (1 - 1) with 0 in He by ring. rewrite Rabs_R0 in He. lra. }
    destruct (Hellq L) as (Q1 & Q2 & Qp).
    assert (MV := mean_val x v mu). fold k in MV. rewrite <- Ee' in MV. specialize (MV L). rewrite EM in MV. assert (MV1 := f_equal fst MV). assert (MV2 := f_equal snd MV). cbn [fst snd] in MV1, MV2. clear MV.
    unfold el_since, el_dist, el_arg in *. rewrite Eel in *. clear Eel. cbn [el_jform el_epoch el_orbinc el_anode el_perih el_aorq el_e el_aorl el_dm oget] in *.
    rewrite J1 in *. cbn [Z.eqb Pos.eqb] in *.
    destruct Start as [S1 S2]; [exact Q1|reflexivity|apply eraAnp_cong| |].
    { eapply cong_trans; [apply cong_minus; apply eraAnp_cong|]. replace (k_bigom k + k_om k - k_bigom k) with (k_om k) by ring. apply cong_refl. }
    destruct (reach_ellipse x v mu Hr Hmu Hh X Vel M S1 S2) with (m := eraAnp (k_bigom k + k_om k + am) - eraAnp (k_bigom k + k_om k)) as [G1 G2].
    + rewrite <- Ee'. exact L.
    + rewrite <- Ee'. fold k. rewrite <- MV1. eapply cong_trans; [apply cong_minus; apply eraAnp_cong|]. replace (k_bigom k + k_om k + am - (k_bigom k + k_om k)) with am by ring. apply cong_refl.
    + rewrite <- Ee' in G1, G2. rewrite MV2.
      replace (mu * k_ar k * k_ar k * k_ar k) with (mu / (per_q x v mu / (1 - e) * (per_q x v mu / (1 - e)) * (per_q x v mu / (1 - e)))).
      * replace (date - date) with 0 by ring. rewrite Rplus_0_l. split; assumption.
      * rewrite <- Q2. assert (k_ar k <> 0) by (intros Z; rewrite Z in Q1; unfold Rdiv in Q1; rewrite Rinv_0 in Q1; lra). field. assumption.
  - (* form 3 *)
    unfold el_since, el_dist, el_arg in *. rewrite Eel in *. clear Eel. cbn [el_jform el_epoch el_orbinc el_anode el_perih el_aorq el_e el_aorl el_dm oget] in *.
    rewrite J3 in *. cbn [Z.eqb Pos.eqb] in *.
    destruct Start as [S1 S2]; [symmetry; exact Hq|reflexivity|apply eraAnp_cong|apply eraAnp_cong|].
    assert (G := reach_tp x v mu Hr Hmu Hh X Vel M S1 S2 date). fold k in G. rewrite <- Ee', Ke in G. specialize (G eq_refl). rewrite EM in G.
    rewrite Rplus_0_r. exact G.
  - (* form 2 *)
    assert (L : e < 1 /\ (if Rltb 1 e then 3%Z else jformr) = 2%Z).
    { destruct (Rltb_spec 1 e) as [Q|Q]; [congruence|]. destruct Hf as [Hf1 Hf2]. split; [|lia]. destruct He as [He|[_ He]]; [|congruence].
      destruct (Req_dec e 1) as [Z|Z]; [|lra]. rewrite Z in He. replace (1 - 1) with 0 in He by ring. rewrite Rabs_R0 in He. lra. }
    destruct L as [L J2].
    destruct (Hellq L) as (Q1 & Q2 & Qp).
    assert (MV := mean_val x v mu). fold k in MV. rewrite <- Ee' in MV. specialize (MV L). rewrite EM in MV. assert (MV1 := f_equal fst MV). assert (MV2 := f_equal snd MV). cbn [fst snd] in MV1, MV2. clear MV.
    unfold el_since, el_dist, el_arg in *. rewrite Eel in *. clear Eel. cbn [el_jform el_epoch el_orbinc el_anode el_perih el_aorq el_e el_aorl el_dm oget] in *.
    rewrite J2 in *. cbn [Z.eqb Pos.eqb] in *.
    destruct Start as [S1 S2]; [exact Q1|reflexivity|apply eraAnp_cong|apply eraAnp_cong|].
    destruct (reach_ellipse x v mu Hr Hmu Hh X Vel M S1 S2) with (m := eraAnp am) as [G1 G2].
    + rewrite <- Ee'. exact L.
    + rewrite <- Ee'. fold k. rewrite <- MV1. apply eraAnp_cong.
    + rewrite <- Ee' in G1, G2. unfold daily. rewrite Q2. replace (date - date) with 0 by ring. rewrite Rplus_0_l. split; assumption.
Qed.

(** The state at perihelion: nonzero angular momentum; distance [q]; velocity at right angles; the eccentricity is [e]; and on
    every motion from it the distance is at least [q] at all times. *)
Lemma peri_geometry : forall mu q e i Om om, 0 < mu -> 0 < q -> 0 <= e ->
  let P := peri_pos q i Om om in let W := peri_vel mu q e i Om om in
  norm P = q /\ dot P W = 0 /\ cross P W <> vzero /\ dot W W - 2 * mu / q = mu * (e - 1) / q /\
  cross P W = scale (sqrtR (mu * q * (1 + e))) (opole i Om).
Proof.
  intros mu q e i Om om Hmu Hq He P W.
  set (h := sqrtR (mu * q * (1 + e))). assert (Hh2 : 0 < mu * q * (1 + e)) by (apply Rmult_lt_0_compat; [apply Rmult_lt_0_compat; assumption|lra]).
  assert (Hh : 0 < h) by (apply sqrt_lt_R0; exact Hh2). assert (Hhq : h * h = mu * q * (1 + e)) by (apply sqrt_sqrt; lra).
  assert (C := peri_cross mu q e h i Om om Hq Hh Hhq). fold P W in C.
  assert (A := peri_al mu q e h i Om om Hq Hh Hhq). fold P W in A. unfold tb_al in A.
  assert (R0 : norm P = q) by (apply (peri_r0 q i Om om Hq)). unfold tb_r0 in A. rewrite R0 in A.
  split; [exact R0|]. split; [apply (peri_sg mu q e i Om om)|]. split; [|split; [exact A|exact C]].
  rewrite C. intros Z. assert (D := opole_unit i Om). assert (Z2 : dot (scale h (opole i Om)) (scale h (opole i Om)) = 0) by (rewrite Z; unfold dot, vzero; cbn; ring).
  replace (dot (scale h (opole i Om)) (scale h (opole i Om))) with (h * h * dot (opole i Om) (opole i Om)) in Z2 by (unfold dot, scale; cbn [vx vy vz]; ring).
  rewrite D in Z2. nra.
Qed.
Lemma U2_pos : forall al s, 0 <= U2 al s.
Proof. intros. replace s with (2 * (s / 2)) by field. rewrite U2_double. assert (0 <= U1 al (s / 2) * U1 al (s / 2)) by apply Rle_0_sqr. lra. Qed.
Lemma peri_closest : forall mu q e i Om om, 0 < mu -> 0 < q -> 0 <= e -> forall X Vel, motion mu X Vel ->
  X 0 = peri_pos q i Om om -> Vel 0 = peri_vel mu q e i Om om -> forall t, q <= norm (X t).
Proof.
  intros mu q e i Om om Hmu Hq He X Vel M X0 V0 t.
  destruct (peri_geometry mu q e i Om om Hmu Hq He) as (G1 & G2 & G3 & G4 & _).
  set (P := peri_pos q i Om om) in *. set (W := peri_vel mu q e i Om om) in *.
  destruct (two_body_exists mu P W Hmu G3) as (Y & Z & MY & Y0 & Z0 & HY).
  destruct (motion_unique mu X Vel Y Z Hmu) with (t := t) as [E1 _]; [rewrite X0, V0; exact G3|exact M|exact MY|rewrite X0, Y0; reflexivity|rewrite V0, Z0; reflexivity|].
  rewrite E1. assert (Hh2 : 0 < tb_h2 P W) by (unfold tb_h2; rewrite <- norm_sq; assert (N := norm_gt0 _ G3); apply Rmult_lt_0_compat; exact N).
  assert (Hr0 : 0 < tb_r0 P) by (unfold tb_r0; rewrite G1; exact Hq).
  destruct (tb_t_surj mu P W Hr0 Hmu Hh2 t) as [s Hs]. rewrite <- Hs. destruct (HY s) as [HY1 _]. rewrite HY1, tb_norm by assumption.
  unfold tb_r. replace (tb_al mu P W) with (mu * (e - 1) / q) by (unfold tb_al, tb_r0; rewrite G1; symmetry; exact G4).
  unfold tb_r0, tb_sg. rewrite G1, G2, U0_U2. set (al := mu * (e - 1) / q). replace (q * (1 + al * U2 al s) + 0 * U1 al s + mu * U2 al s) with (q + e * mu * U2 al s) by (generalize (U2 al s) (U1 al s); intros; unfold al; field; lra).
  assert (0 <= e * mu * U2 al s) by (apply Rmult_le_pos; [apply Rmult_le_pos; lra|apply U2_pos]). lra.
Qed.

(** Ranges and consistency of the elements; existence of the motion they describe; its perihelion. *)
Theorem C69_elements : forall p date pmass jformr el, palPv2el (T := R) p date pmass jformr = (0%Z, Some el) ->
  angmom p <> vzero -> let mu := mu_sun pmass in let e := sqrtR (ecc_sq mu p) in
  (1e-8 <= Rabs (e - 1) \/ (e = 1 /\ jformr = 3%Z)) ->
  el_e el = e /\ 0 <= el_orbinc el <= PI /\ 0 <= el_anode el < 2 * PI /\ 0 <= el_perih el < 2 * PI /\ 0 < el_dist el /\
  (el_jform el = 3%Z -> el_aorl el = None /\ el_dm el = None) /\
  (el_jform el <> 3%Z -> el_epoch el = date /\ e < 1 /\ exists m, el_aorl el = Some m /\ 0 <= m < 2 * PI) /\
  (el_jform el = 1%Z -> el_dm el = Some (daily mu (el_aorq el))) /\ (el_jform el = 2%Z -> el_dm el = None) /\
  (exists X Vel, motion mu X Vel /\ X 0 = el_peri_pos el /\ Vel 0 = el_peri_vel mu el) /\
  (forall X Vel, motion mu X Vel -> X 0 = el_peri_pos el -> Vel 0 = el_peri_vel mu el ->
     norm (X 0) = el_dist el /\ dot (X 0) (Vel 0) = 0 /\ forall t, el_dist el <= norm (X t)).
Proof.
  intros p date pmass jformr el H Hh mu e He.
  destruct (pv2el_ecc _ _ _ _ _ H) as (_ & _ & _ & Ee & Ej).
  destruct (pv2el_ok _ _ _ _ _ H) as (Hpm & Hf & Hrg & Eel). fold mu in Ee, Eel. fold e in Ee. clear H.
  assert (Hmu : 0 < mu) by (unfold mu, mu_sun; nra).
  assert (Hr : 0 < norm (epos p)) by (destruct Hrg as [A _]; fold (epos p) in A; lra).
  assert (E2 := ecc2_ecc_sq p mu Hmu Hr).
  set (x := epos p) in *. set (v := evel p) in *. change (cross x v <> vzero) in Hh. unfold econic in Eel. fold x v in Eel.
  set (k := pv_conic x v (norm x) (dot v v) mu) in *.
  assert (Es : ecc_snap e = e).
  { unfold ecc_snap. destruct (Rltb_spec (Rabs (e - 1)) 1e-8) as [Q|Q]; [|reflexivity]. destruct He as [He|[He _]]; [lra|symmetry; exact He]. }
  rewrite Es in Ee. split; [exact Ee|].
  assert (Ke : k_ecc k = e).
  { rewrite <- Ee, Eel. unfold pv_out. destruct (pv_mean mu (k_ar k) (k_ecc k) (k_at k)) as [am dn].
    repeat match goal with |- context [if ?c then _ else _] => destruct c; cbn [el_e]; try reflexivity end. }
  assert (Ee' : e = sqrtR (ecc2 x v mu)) by (unfold e; rewrite E2; reflexivity).
  assert (Hq : per_q x v mu = k_h2 k / (mu * (e + 1))) by (rewrite Ee'; reflexivity).
  assert (Hqp : 0 < per_q x v mu) by (apply per_q_pos; assumption).
  assert (He0 : 0 <= e) by apply sqrt_pos.
  assert (Hoi : 0 <= k_oi k <= PI) by (apply (k_pole x v mu); assumption).
  rewrite Ee in Ej.
  assert (Hlt : (if Rltb 1 e then 3%Z else jformr) <> 3%Z -> e < 1).
  { destruct (Rltb_spec 1 e) as [Q|Q]; [congruence|]. intros N. destruct He as [He|[_ He]]; [|congruence].
    destruct (Req_dec e 1) as [Z|Z]; [|lra]. rewrite Z in He. replace (1 - 1) with 0 in He by ring. rewrite Rabs_R0 in He. lra. }
  assert (Hellq : e < 1 -> 1 / k_ar k * (1 - e) = per_q x v mu /\ k_ar k <> 0).
  { intros L. unfold k. rewrite (ar_ellipse x v mu Hr Hmu Hh) by (rewrite <- Ee'; exact L). rewrite <- Ee'. split; [field; lra|].
    apply Rinv_neq_0_compat. apply Rgt_not_eq, Rdiv_lt_0_compat; lra. }
  assert (Main : 0 <= el_orbinc el <= PI /\ 0 <= el_anode el < 2 * PI /\ 0 <= el_perih el < 2 * PI /\ el_dist el = per_q x v mu /\
    (el_jform el = 3%Z -> el_aorl el = None /\ el_dm el = None) /\
    (el_jform el <> 3%Z -> el_epoch el = date /\ e < 1 /\ exists m, el_aorl el = Some m /\ 0 <= m < 2 * PI) /\
    (el_jform el = 1%Z -> el_dm el = Some (daily mu (el_aorq el))) /\ (el_jform el = 2%Z -> el_dm el = None)).
  { unfold el_dist. rewrite Ej, Ee. revert Eel. unfold pv_out. rewrite Ke. rops. replace (litR 1.0) with 1 by (rlit; lra).
    destruct (pv_mean mu (k_ar k) e (k_at k)) as [am dn] eqn:EM.
    set (j := if Rltb 1 e then 3%Z else jformr) in *.
    destruct (Z.eqb_spec j 1) as [J1|J1]; [|destruct (Z.eqb_spec j 3) as [J3|J3]]; intros ->; cbn [el_jform el_epoch el_orbinc el_anode el_perih el_aorq el_e el_aorl el_dm].
    - assert (L := Hlt ltac:(lia)). destruct (Hellq L) as [Q1 Q2].
      assert (MV := mean_val x v mu). fold k in MV. rewrite <- Ee' in MV. specialize (MV L). rewrite EM in MV.
      assert (MV2 := f_equal snd MV). cbn [snd] in MV2. clear MV.
      split; [exact Hoi|]. split; [apply eraAnp_range|]. split; [apply eraAnp_range|].
      split; [rewrite J1; exact Q1|]. split; [lia|]. split; [|split; [|lia]].
      + intros _. split; [reflexivity|]. split; [exact L|]. eexists. split; [reflexivity|apply eraAnp_range].
      + intros _. f_equal. rewrite MV2. unfold daily. f_equal. field. exact Q2.
    - split; [exact Hoi|]. split; [apply eraAnp_range|]. split; [apply eraAnp_range|].
      split; [symmetry; exact Hq|]. split; [split; reflexivity|]. split; [congruence|]. split; [congruence|reflexivity].
    - assert (L := Hlt J3). destruct (Hellq L) as [Q1 Q2].
      split; [exact Hoi|]. split; [apply eraAnp_range|]. split; [apply eraAnp_range|].
      split; [exact Q1|]. split; [congruence|]. split; [|split; [congruence|reflexivity]].
      intros _. split; [reflexivity|]. split; [exact L|]. eexists. split; [reflexivity|apply eraAnp_range]. }
  destruct Main as (M1 & M2 & M3 & M4 & M5 & M6 & M7 & M8).
  assert (Hd : 0 < el_dist el) by (rewrite M4; exact Hqp).
  destruct (peri_geometry mu (el_dist el) (el_e el) (el_orbinc el) (el_anode el) (el_arg el) Hmu Hd) as (G1 & G2 & G3 & _); [rewrite Ee; exact He0|].
  split; [exact M1|]. split; [exact M2|]. split; [exact M3|]. split; [exact Hd|]. split; [exact M5|]. split; [exact M6|]. split; [exact M7|]. split; [exact M8|].
  split.
  - destruct (two_body_exists mu _ _ Hmu G3) as (Y & Z & MY & Y0 & Z0 & _). exists Y, Z. split; [exact MY|]. split; assumption.
  - intros X Vel M X0 V0. rewrite X0, V0. split; [exact G1|]. split; [exact G2|].
    apply (peri_closest mu (el_dist el) (el_e el) (el_orbinc el) (el_anode el) (el_arg el) Hmu Hd ltac:(rewrite Ee; exact He0) X Vel M X0 V0).
Qed.

(** Non-vacuity: an ellipse in each form, and a hyperbola *)
Definition pv_hyp : pv R := PV (V 1 0 0) (V 1e-7 4e-7 1e-7).
Lemma eg_norm : norm (epos pv_eg) = 1 /\ norm (epos pv_hyp) = 1.
Proof. split; (unfold norm, epos, ecl, pv_eg, pv_hyp, dot; cbn [pvp vx vy vz]; match goal with |- sqrtR ?a = 1 => replace a with 1 by ring end; apply sqrt_1). Qed.
Lemma eg_ok : forall p j, pv_range_ok p -> form_ok j -> exists el, palPv2el (T := R) p 50000 0 j = (0%Z, Some el).
Proof.
  intros p j Hp Hj. assert (S := C61_pv2el p 50000 0 j). destruct (palPv2el p 50000 0 j) as [st o] eqn:P. destruct S as (S0 & _ & _ & _ & S4).
  specialize (S4 ltac:(lra) Hj Hp). subst st. destruct o as [el|]; [|now contradiction (proj1 S0 eq_refl)]. exists el. reflexivity.
Qed.
Example C69_eg : forall j, form_ok j -> exists el X Vel, palPv2el (T := R) pv_eg 50000 0 j = (0%Z, Some el) /\ el_jform el = j /\
  angmom pv_eg <> vzero /\ 1e-8 <= Rabs (sqrtR (ecc_sq (mu_sun 0) pv_eg) - 1) /\
  motion (mu_sun 0) X Vel /\ X 0 = el_peri_pos el /\ Vel 0 = el_peri_vel (mu_sun 0) el /\ X (el_since (mu_sun 0) el 50000) = epos pv_eg.
Proof.
  intros j Hj. destruct (eg_ok pv_eg j C61_eg_pv Hj) as [el H].
  assert (N := proj1 eg_norm).
  assert (Q : sqrtR (ecc_sq (mu_sun 0) pv_eg) <= 1 - 1e-8).
  { unfold ecc_sq, energy. rewrite N. unfold angmom, evel, epos, ecl, scale, cross, pv_eg, mu_sun, dot. cbn [pvp pvv vx vy vz]. interval. }
  assert (Q' : 1e-8 <= Rabs (sqrtR (ecc_sq (mu_sun 0) pv_eg) - 1)) by (rewrite Rabs_left; lra).
  assert (A : angmom pv_eg <> vzero).
  { unfold angmom, epos, evel, ecl, scale, cross, pv_eg, vzero; cbn [pvp pvv vx vy vz]. intros Z. apply (f_equal vz) in Z. cbn [vz] in Z. lra. }
  destruct (C69_elements _ _ _ _ _ H A (or_introl Q')) as (_ & _ & _ & _ & _ & _ & _ & _ & _ & (X & Vel & M & X0 & V0) & _).
  destruct (C69_osculating _ _ _ _ _ H A (or_introl Q') X Vel M X0 V0) as [R1 _].
  exists el, X, Vel. split; [exact H|]. split; [destruct (C62_form _ _ _ _ _ H) as (F & _); apply F; exact Q|]. split; [exact A|]. split; [exact Q'|]. split; [exact M|]. split; [exact X0|]. split; assumption.
Qed.
Example C69_eg_hyperbola : exists el X Vel, palPv2el (T := R) pv_hyp 50000 0 1 = (0%Z, Some el) /\ el_jform el = 3%Z /\
  angmom pv_hyp <> vzero /\ 1 + 1e-8 <= sqrtR (ecc_sq (mu_sun 0) pv_hyp) /\
  motion (mu_sun 0) X Vel /\ X 0 = el_peri_pos el /\ Vel 0 = el_peri_vel (mu_sun 0) el /\ X (50000 - el_epoch el) = epos pv_hyp.
Proof.
  assert (N := proj2 eg_norm).
  destruct (eg_ok pv_hyp 1) as [el H].
  { unfold pv_range_ok. fold (epos pv_hyp). rewrite N. split; [lra|]. unfold norm, ecl, scale, pv_hyp, dot. cbn [pvv vx vy vz]. interval. }
  { unfold form_ok; lia. }
  assert (Q : 1 + 1e-8 <= sqrtR (ecc_sq (mu_sun 0) pv_hyp)).
  { unfold ecc_sq, energy. rewrite N. unfold angmom, evel, epos, ecl, scale, cross, pv_hyp, mu_sun, dot. cbn [pvp pvv vx vy vz]. interval. }
  assert (Q' : 1e-8 <= Rabs (sqrtR (ecc_sq (mu_sun 0) pv_hyp) - 1)) by (rewrite Rabs_right; lra).
  assert (A : angmom pv_hyp <> vzero).
  { unfold angmom, epos, evel, ecl, scale, cross, pv_hyp, vzero; cbn [pvp pvv vx vy vz]. intros Z. apply (f_equal vz) in Z. cbn [vz] in Z. lra. }
  destruct (C69_elements _ _ _ _ _ H A (or_introl Q')) as (_ & _ & _ & _ & _ & _ & _ & _ & _ & (X & Vel & M & X0 & V0) & _).
  destruct (C69_osculating _ _ _ _ _ H A (or_introl Q') X Vel M X0 V0) as [R1 _].
  assert (J : el_jform el = 3%Z) by (destruct (C62_form _ _ _ _ _ H) as (_ & F & _); apply F; exact Q).
  unfold el_since in R1. rewrite J in R1. cbn [Z.eqb Pos.eqb] in R1. rewrite Rplus_0_r in R1.
  exists el, X, Vel. split; [exact H|]. split; [exact J|]. split; [exact A|]. split; [exact Q|]. split; [exact M|]. split; [exact X0|]. split; assumption.
Qed.

(** ** C70: palPlanel and palEl2ue *)
(** Change of the unit of time *)
Lemma motion_units : forall k mu X Vel, 0 < k -> motion (k * k * mu) X Vel ->
  motion mu (fun t => X (t / k)) (fun t => scale (/ k) (Vel (t / k))).
Proof.
  intros k mu X Vel Hk M t. destruct (M (t / k)) as (M1 & M2 & M3).
  assert (D : is_derive (fun t : R => t / k) t (/ k)).
  { auto_derive; [lra|field; lra]. }
  split; [exact M1|]. split.
  - apply (vderiv_comp X (fun t => t / k) t (/ k)); assumption.
  - assert (D3 := vderiv_comp Vel (fun t => t / k) t (/ k) _ D M3). cbv beta in D3.
    set (r := norm (X (t / k))) in *.
    destruct D3 as (A1 & A2 & A3). unfold vderiv, scale in *; cbn [vx vy vz] in *.
    assert (K : forall z, / k * (/ k * (- (k * k * mu) / (r * r * r) * z)) = - mu / (r * r * r) * z) by (intros z; field; lra).
    split; [|split].
    + refine (is_derive_cong _ _ t _ _ (fun _ => eq_refl) (K _) (is_derive_scal _ t (/ k) _ A1)).
    + refine (is_derive_cong _ _ t _ _ (fun _ => eq_refl) (K _) (is_derive_scal _ t (/ k) _ A2)).
    + refine (is_derive_cong _ _ t _ _ (fun _ => eq_refl) (K _) (is_derive_scal _ t (/ k) _ A3)).
Qed.

(** ecliptic to equatorial with the constants of palEl2ue.c:183-184 *)
Definition equ (v : vec R) : vec R :=
  V (vx v) (vy v * 0.9174820620691818 - vz v * 0.3977771559319137) (vy v * 0.3977771559319137 + vz v * 0.9174820620691818).
Lemma equ_vsub : forall a b, equ (vsub a b) = vsub (equ a) (equ b).
Proof. intros [a1 a2 a3] [b1 b2 b3]. unfold equ, vsub; cbn [vx vy vz]. f_equal; ring. Qed.
Lemma equ_scale : forall k a, equ (scale k a) = scale k (equ a).
Proof. intros k [a1 a2 a3]. unfold equ, scale; cbn [vx vy vz]. f_equal; ring. Qed.
Lemma equ_norm : forall a, norm (equ a) <= norm a.
Proof.
  intros [a b c]. unfold norm. apply sqrt_le_1_alt. unfold equ, dot; cbn [vx vy vz].
  generalize (Rle_0_sqr b) (Rle_0_sqr c). unfold Rsqr. intros. nra.
Qed.
(** it is a rotation to 5e-17 *)
Lemma equ_near : forall a, norm a * (1 - 1e-16) <= norm (equ a).
Proof.
  intros [a b c]. unfold norm. replace (1 - 1e-16) with (sqrtR ((1 - 1e-16) * (1 - 1e-16))) by (apply sqrt_square; lra).
  rewrite <- sqrt_mult_alt. 2:{ unfold dot; cbn [vx vy vz]. generalize (Rle_0_sqr a) (Rle_0_sqr b) (Rle_0_sqr c). unfold Rsqr. lra. }
  apply sqrt_le_1_alt. unfold equ, dot; cbn [vx vy vz].
  generalize (Rle_0_sqr a) (Rle_0_sqr b) (Rle_0_sqr c). unfold Rsqr. intros.
  replace ((b * 0.9174820620691818 - c * 0.3977771559319137) * (b * 0.9174820620691818 - c * 0.3977771559319137) +
    (b * 0.3977771559319137 + c * 0.9174820620691818) * (b * 0.3977771559319137 + c * 0.9174820620691818)) with
   ((0.9174820620691818 * 0.9174820620691818 + 0.3977771559319137 * 0.3977771559319137) * (b * b + c * c)) by ring.
  nra.
Qed.

Lemma ue2pv_equ : forall hf date cm al t0 p w r0 sg t psi pv0 u' pv1,
  palUe2pv (T := R) hf date (UE cm al t0 (equ p) (equ w) r0 sg t psi) pv0 = Some (0%Z, u', pv1) ->
  exists u'' pv2, palUe2pv (T := R) hf date (UE cm al t0 p w r0 sg t psi) pv0 = Some (0%Z, u'', pv2) /\
    pvp pv1 = equ (pvp pv2) /\ pvv pv1 = equ (pvv pv2).
Proof.
  intros hf date cm al t0 p w r0 sg t psi pv0 u' pv1 H. unfold palUe2pv in *. cbn [u_cm u_alpha u_t0 u_p0 u_v0 u_r0 u_sigma0 u_t u_psi] in *.
  set (it := ue_iter NITMAX hf cm al r0 sg _ _ _ _ true) in *.
  destruct it as [[st|s r psi']|] eqn:E; [| |discriminate H].
  - apply (f_equal (fun o => match o with Some x => fst (fst x) | None => 7%Z end)) in H. cbn [fst] in H. subst st.
    unfold it in E. destruct (ue_iter_status _ _ _ _ _ _ _ _ _ _ _ _ E) as [K|K]; discriminate K.
  - apply (f_equal (fun o => match o with Some x => snd x | None => pv0 end)) in H. cbn [snd] in H. rewrite <- H.
    eexists; eexists. split; [reflexivity|]. unfold ue_project. generalize (CD2S (T := R)). intros c.
    set (f := (#1.0 - cm * uf2 s / r0)%num). set (g := ((date - t0) * GCON - cm * uf3 s)%num). set (fd := (- cm * uf1 s / (r0 * r))%num).
    set (gd := (#1.0 - cm * uf2 s / r)%num). clearbody f g fd gd. destruct p as [p1 p2 p3], w as [w1 w2 w3].
    unfold equ; cbn [pvp pvv vx vy vz]. rops. split; f_equal; ring.
Qed.
(** the state at perihelion that palEl2ue sets up *)
Lemma el_rot_equ : forall i Om w (x : R), el_rot i Om (x * c_ w) (x * s_ w) = equ (scale x (odir i Om w)).
Proof.
  intros. unfold el_rot, equ, odir, scale, CE, SE. cbn [vx vy vz]. rops.
  replace (litR 0.9174820620691818) with 0.9174820620691818 by (rlit; lra). replace (litR 0.3977771559319137) with 0.3977771559319137 by (rlit; lra).
  f_equal; ring.
Qed.
Lemma el_rot_equ' : forall i Om w (x : R), el_rot i Om (- x * s_ w) (x * c_ w) = equ (scale x (odir i Om (w + PI / 2))).
Proof.
  intros. rewrite <- el_rot_equ. f_equal; rewrite ?cos_plus, ?sin_plus, cos_PI2, sin_PI2; ring.
Qed.
Definition el_psi (date pht q e : R) : R := u_psi (el_peri date pht 0 q 1 0 0 e).
Lemma el_peri_val : forall date pht argph q cm i Om e, 0 < q -> el_peri date pht argph q cm i Om e =
  UE cm (cm * (e - 1) / q) pht (equ (peri_pos q i Om argph)) (equ (peri_vel cm q e i Om argph)) q 0 date (el_psi date pht q e).
Proof.
  intros. unfold el_psi, peri_pos, peri_vel. rewrite <- el_rot_equ, <- el_rot_equ'. unfold el_peri. cbn [u_psi]. rops.
  replace (litR 1.0) with 1 by (rlit; lra). replace (litR 2.0) with 2 by (rlit; lra). replace (litR 0.0) with 0 by (rlit; lra).
  replace (cm * (e - 1) / q + 2 * cm / q) with (cm * (1 + e) / q) by (field; lra). reflexivity.
Qed.

(** The steps of a successful palEl2ue *)
Lemma el2ue_inner : forall hf date jform epoch i Om perih aorq e aorl dm u,
  palEl2ue (T := R) hf date jform epoch i Om perih aorq e aorl dm = Some (0%Z, Some u) ->
  let '(pht, argph, q, cm) := el_std jform epoch Om perih aorq e aorl dm in
  exists ul p, palUe2pv (T := R) hf date (el_peri date pht argph q cm i Om e) pv_junk = Some (0%Z, ul, p) /\
    palPv2ue p date (cm - 1) = (0%Z, Some u) /\ palPlanel (T := R) hf date jform epoch i Om perih aorq e aorl dm = Some (0%Z, Some p).
Proof.
  intros hf date jform epoch i Om perih aorq e aorl dm u H.
  destruct (el_std jform epoch Om perih aorq e aorl dm) as [[[pht argph] q] cm] eqn:ES.
  assert (P : palPlanel (T := R) hf date jform epoch i Om perih aorq e aorl dm =
    match palUe2pv hf date u pv_junk with None => None | Some (j, u', p) => if negb (j =? 0)%Z then Some (-5, None)%Z else Some (0%Z, Some p) end)
    by (unfold palPlanel; rewrite H; reflexivity).
  unfold palEl2ue in H. destruct (Z.eqb_spec (el_check jform aorq e dm) 0) as [C|C]; cbn [negb] in H.
  2:{ apply (f_equal (fun o => match o with Some x => fst x | None => 7%Z end)) in H. cbn [fst] in H. congruence. }
  rewrite ES in H. destruct (palUe2pv hf date (el_peri date pht argph q cm i Om e) pv_junk) as [[[j ul] p]|] eqn:E1; [|discriminate H].
  destruct (Z.eqb_spec j 0) as [->|N]; cbn [negb] in H; [|discriminate H].
  replace (cm - #1.0)%num with (cm - 1) in H by (rops; rlit; lra).
  destruct (palPv2ue p date (cm - 1)) as [j' o] eqn:E2.
  destruct (Z.eqb_spec j' 0) as [->|N]; cbn [negb] in H; [|discriminate H].
  apply (f_equal (fun o => match o with Some x => snd x | None => None end)) in H. cbn [snd] in H. subst o.
  exists ul, p. split; [reflexivity|]. split; [exact E2|]. rewrite P, (C59_roundtrip _ _ _ _ E2). reflexivity.
Qed.
Lemma planel_inner : forall hf date jform epoch i Om perih aorq e aorl dm p,
  palPlanel (T := R) hf date jform epoch i Om perih aorq e aorl dm = Some (0%Z, Some p) ->
  exists u, palEl2ue (T := R) hf date jform epoch i Om perih aorq e aorl dm = Some (0%Z, Some u) /\
  form_ok jform /\ e_ok jform e /\ aorq_ok aorq /\ dm_ok jform dm /\
  let '(pht, argph, q, cm) := el_std jform epoch Om perih aorq e aorl dm in
  exists ul, palUe2pv (T := R) hf date (el_peri date pht argph q cm i Om e) pv_junk = Some (0%Z, ul, p).
Proof.
  intros hf date jform epoch i Om perih aorq e aorl dm p H.
  destruct (palEl2ue (T := R) hf date jform epoch i Om perih aorq e aorl dm) as [[st o]|] eqn:E.
  2:{ unfold palPlanel in H. rewrite E in H. discriminate H. }
  assert (E0 : st = 0%Z /\ exists u, o = Some u).
  { unfold palPlanel in H. rewrite E in H. destruct st; [|discriminate H|discriminate H]. destruct o as [u|]; [|discriminate H]. eauto. }
  destruct E0 as [-> [u ->]]. exists u. split; [reflexivity|].
  destruct (C61_el2ue _ _ _ _ _ _ _ _ _ _ _ _ _ E) as (S & _). inversion S as [| | | | |S1 S2 S3 S4].
  split; [exact S1|]. split; [exact S2|]. split; [exact S3|]. split; [exact S4|].
  assert (I := el2ue_inner _ _ _ _ _ _ _ _ _ _ _ _ E). destruct (el_std jform epoch Om perih aorq e aorl dm) as [[[pht argph] q] cm].
  destruct I as (ul & p1 & I1 & _ & I2). rewrite H in I2.
  apply (f_equal (fun o => match o with Some (_, Some x) => x | _ => p end)) in I2. subst p1. exists ul. exact I1.
Qed.

(** Gaussian constant; gravitational parameter (au^3/day^2) of the orbit that the arguments of palPlanel describe: in form 1
    it is given by Kepler's third law, otherwise it is the Sun's *)
Definition kG : R := 0.01720209895.
Definition mu_el (jform : Z) (aorq dm : R) : R := if (jform =? 1)%Z then dm * dm * (aorq * aorq * aorq) else kG * kG.
(** the arguments as a record *)
Definition args_el (jform : Z) (epoch i Om perih aorq e aorl dm : R) : @elements R := Elements jform epoch i Om perih aorq e (Some aorl) (Some dm).

Lemma sqrt3 : forall a, 0 < a -> sqrtR (a * a * a) = a * sqrtR a.
Proof. intros a Ha. rewrite sqrt_mult_alt by nra. rewrite sqrt_square by lra. reflexivity. Qed.
(** what palEl2ue.c:219-244 computes *)
Lemma el_std_val : forall jform epoch i Om perih aorq e aorl dm date, form_ok jform -> e_ok jform e -> aorq_ok aorq -> dm_ok jform dm ->
  let el := args_el jform epoch i Om perih aorq e aorl dm in let mu := mu_el jform aorq dm in
  let '(pht, argph, q, cm) := el_std (T := R) jform epoch Om perih aorq e aorl dm in
  date - pht = el_since mu el date /\ argph = el_arg el /\ q = el_dist el /\ mu = kG * kG * cm /\ 0 < cm /\ 0 < q.
Proof.
  intros jform epoch i Om perih aorq e aorl dm date Hf [He He1] Ha Hd el mu. unfold aorq_ok in Ha. unfold dm_ok in Hd. assert (Hk : 0 < kG) by (unfold kG; lra).
  assert (EG : GCON (T := R) = kG) by (unfold GCON, kG; rn; lra).
  unfold el_std. rops. rewrite EG. replace (litR 1.0) with 1 by (rlit; lra). unfold el_since, el_arg, el_dist, el, mu, args_el, mu_el.
  cbn [el_jform el_epoch el_orbinc el_anode el_perih el_aorq el_e el_aorl el_dm oget]. clear el mu.
  destruct (Z.eqb_spec jform 1) as [J1|J1]; [|destruct (Z.eqb_spec jform 2) as [J2|J2]].
  - specialize (Hd J1). subst jform. cbn [Z.eqb Pos.eqb]. destruct He1 as [He1|He1]; [|discriminate He1].
    split; [ring|]. split; [reflexivity|]. split; [reflexivity|]. split; [field; lra|]. split; [|apply Rmult_lt_0_compat; lra].
    assert (W : 0 < dm / kG) by (apply Rdiv_lt_0_compat; assumption). revert W. generalize (dm / kG). intros w W. repeat apply Rmult_lt_0_compat; assumption.
  - subst jform. cbn [Z.eqb Pos.eqb]. destruct He1 as [He1|He1]; [|discriminate He1].
    split; [|split; [reflexivity|]; split; [reflexivity|]; split; [ring|]; split; [lra|apply Rmult_lt_0_compat; lra]].
    unfold daily. replace (sqrtR (kG * kG / (aorq * aorq * aorq))) with (kG / sqrtR (aorq * aorq * aorq)).
    + assert (0 < sqrtR (aorq * aorq * aorq)) by (apply sqrt_lt_R0; repeat apply Rmult_lt_0_compat; assumption). field. lra.
    + rewrite sqrt_div_alt by (repeat apply Rmult_lt_0_compat; assumption). rewrite sqrt_square by lra. reflexivity.
  - replace jform with 3%Z by (unfold form_ok in Hf; lia). cbn [Z.eqb Pos.eqb].
    split; [ring|]. split; [reflexivity|]. split; [reflexivity|]. split; [ring|]. split; lra.
Qed.

(** The state vector returned by palPlanel is that of the two-body motion through the perihelion that the elements define, in
    each form, at the date (up to the explicit bounds on time, position and velocity established for palUe2pv).  [hf] bounds
    the number of angle halvings; [m] bounds the universal anomaly. *)
Theorem C70_planel : forall hf date jform epoch i Om perih aorq e aorl dm p X Vel, (hf <= 20)%nat ->
  palPlanel (T := R) hf date jform epoch i Om perih aorq e aorl dm = Some (0%Z, Some p) ->
  let el := args_el jform epoch i Om perih aorq e aorl dm in let mu := mu_el jform aorq dm in
  motion mu X Vel -> X 0 = el_peri_pos el -> Vel 0 = el_peri_vel mu el ->
  let q := el_dist el in let cm := mu / (kG * kG) in let al := cm * (e - 1) / q in
  exists m tau, 0 <= m /\ Rabs al * m ^ 2 <= 0.7 * 4 ^ hf /\
  let eta := 4e-15 * 4.1 ^ hf in
  let A := if Rle_dec al 0 then 1 else Rtrigo_def.cosh (sqrtR al * m) in
  let Rm := (q + cm * m ^ 2) * A in
  let del := 2 ^ hf * Rm * (1e-13 * (1 + eta) + 3 * eta * m) in
  let w := sqrtR (cm * (1 + e) / q) in
  kG * Rabs (tau - el_since mu el date) <= del /\
  norm (vsub (pvp p) (equ (X tau))) <= eta * A * cm * m ^ 2 * (1 + m * w) + del * w /\
  (eta * Rm <= norm (X tau) / 2 ->
   norm (vsub (scale 86400 (pvv p)) (equ (Vel tau))) <= kG * (2 * eta * A * cm * m * (1 + m * w) * (1 + Rm / norm (X tau)) / norm (X tau))).
Proof.
  intros hf date jform epoch i Om perih aorq e aorl dm p X Vel H20 H el mu M X0 V0 q cm al.
  destruct (planel_inner _ _ _ _ _ _ _ _ _ _ _ _ H) as (_ & _ & Hf & He & Ha & Hd & I).
  assert (SV := el_std_val jform epoch i Om perih aorq e aorl dm date Hf He Ha Hd). cbv zeta in SV. fold el mu in SV.
  destruct (el_std jform epoch Om perih aorq e aorl dm) as [[[pht argph] q'] cm'].
  destruct SV as (S1 & S2 & S3 & S4 & S5 & S6). destruct I as [ul I].
  assert (Hk : 0 < kG) by (unfold kG; lra).
  assert (Ecm : cm' = cm) by (unfold cm; rewrite S4; field; lra). rewrite Ecm in *. clear Ecm cm'.
  rewrite S3 in *. fold q in S6, I. clear S3. rewrite S2 in I. clear S2. assert (He0 : 0 <= e) by apply He.
  rewrite el_peri_val in I by exact S6. fold al in I.
  destruct (ue2pv_equ _ _ _ _ _ _ _ _ _ _ _ _ _ _ I) as (u'' & pv2 & E & Ep & Ev). clear I.
  set (P := peri_pos q i Om (el_arg el)) in *. set (W := peri_vel cm q e i Om (el_arg el)) in *.
  destruct (peri_geometry cm q e i Om (el_arg el) S5 S6 He0) as (G1 & G2 & G3 & G4 & _). fold P W in G1, G2, G3, G4.
  rewrite S4 in M. assert (M' := motion_units kG cm X Vel Hk M).
  destruct (C68_motion hf date (UE cm al pht P W q 0 date (el_psi date pht q e)) pv_junk u'' pv2 (fun t => X (t / kG)) (fun t => scale (/ kG) (Vel (t / kG))) H20)
    as (m & tau & Hm & Hm2 & B1 & B2 & B3).
  - unfold consistent. cbn [u_cm u_alpha u_t0 u_p0 u_v0 u_r0 u_sigma0 u_t u_psi].
    split; [exact S5|]. split; [symmetry; exact G1|]. split; [symmetry; exact G2|]. split; [rewrite G1; symmetry; exact G4|exact G3].
  - exact M'.
  - cbn [u_p0]. replace (0 / kG) with 0 by (field; lra). exact X0.
  - cbn [u_v0]. replace (0 / kG) with 0 by (field; lra). rewrite V0. unfold el_peri_vel, W, peri_vel. fold q.
    change (el_e el) with e. change (el_orbinc el) with i. change (el_anode el) with Om.
    replace (sqrtR (mu * (1 + e) / q)) with (kG * sqrtR (cm * (1 + e) / q)).
    + destruct (odir i Om (el_arg el + PI / 2)) as [o1 o2 o3]. unfold scale; cbn [vx vy vz]. f_equal; field; lra.
    + rewrite S4. replace (kG * kG * cm * (1 + e) / q) with (kG * kG * (cm * (1 + e) / q)) by (field; lra).
      rewrite (sqrt_mult_alt (kG * kG)) by nra. rewrite sqrt_square by lra. reflexivity.
  - exact E.
  - cbn [u_cm u_alpha u_t0 u_p0 u_v0 u_r0 u_sigma0 u_t u_psi] in *. rewrite Rabs_R0, Rmult_0_l, Rplus_0_r in B1, B2, B3.
    assert (NW : norm W = sqrtR (cm * (1 + e) / q)).
    { unfold norm. f_equal. replace (dot W W) with (cm * (e - 1) / q + 2 * cm / q) by lra. field. lra. }
    rewrite NW in B2, B3. exists m, (tau / kG). split; [exact Hm|]. split; [exact Hm2|]. cbv zeta.
    split; [|split].
    + rewrite <- S1. replace (kG * Rabs (tau / kG - (date - pht))) with (Rabs (tau - (date - pht) * kG)); [exact B1|].
      rewrite <- (Rabs_right kG) at 2 by lra. rewrite <- Rabs_mult. f_equal. field. lra.
    + rewrite Ep, <- equ_vsub. eapply Rle_trans; [apply equ_norm|exact B2].
    + intros C. specialize (B3 C). rewrite Ev, <- equ_scale, <- equ_vsub. eapply Rle_trans; [apply equ_norm|].
      replace (vsub (scale 86400 (pvv pv2)) (Vel (tau / kG))) with (scale kG (vsub (scale (86400 / kG) (pvv pv2)) (scale (/ kG) (Vel (tau / kG))))).
      * rewrite norm_scale by lra. apply Rmult_le_compat_l; [lra|exact B3].
      * destruct (pvv pv2) as [a1 a2 a3], (Vel (tau / kG)) as [b1 b2 b3]. unfold scale, vsub; cbn [vx vy vz]. f_equal; field; lra.
Qed.

(** palUe2pv at the epoch of the elements, with anomaly zero: the starting state, exactly *)
Local Opaque CD2S.
Lemma ue2pv_start : forall hf date cm al p w r0 sg junk, 0 < r0 ->
  palUe2pv (T := R) hf date (UE cm al date p w r0 sg date 0) junk = Some (0%Z, UE cm al date p w r0 sg date 0, PV p (scale CD2S w)).
Proof.
  intros hf date cm al [x y z] [xd yd zd] r0 sg junk Hr0.
  unfold palUe2pv. cbn [u_cm u_alpha u_t0 u_p0 u_v0 u_r0 u_sigma0 u_t u_psi]. rops.
  replace (litR 0.0) with 0 by (rlit; lra).
  replace (0 + (date - date) * GCON / r0) with 0 by (field; lra). replace ((date - date) * GCON) with 0 by ring.
  rewrite NITMAX_S, ue_iter_S. generalize 24%nat; intros k24. unfold ue_sfun. rops.
  match goal with |- context [ue_halve hf 0 ?b ?p ?q] => replace b with 0 by ring; replace q with 0 by ring end.
  assert (E : ue_halve hf 0 0 0 0 = Some (0%nat, 0, 0, 0)).
  { destruct hf; cbn [ue_halve]; rops; rewrite Rabs_R0, Rltb_false by (rlit; lra); reflexivity. }
  rewrite E, series_0. cbn [ue_double uf0 uf1 uf2 uf3]. cbv zeta.
  repeat (rewrite ?Rmult_0_l, ?Rmult_0_r, ?Rmult_1_r, ?Rplus_0_l, ?Rplus_0_r, ?Rminus_0_r).
  replace (litR 0.0) with 0 by (rlit; lra).
  rewrite Rltb_false by lra. cbn [negb andb]. rewrite Reqb_false by lra. replace (0 / r0) with 0 by (field; lra).
  rewrite Rabs_R0, Rleb_false by (rlit; lra).
  unfold ue_project. cbn [uf0 uf1 uf2 uf3 vx vy vz]. set (c := CD2S) in *. clearbody c. rops. replace (litR 1.0) with 1 by (rlit; lra).
  apply f_equal, f_equal2; [apply f_equal, f_equal2; [reflexivity|lra]|]. unfold scale; cbn [vx vy vz]. f_equal; f_equal. all: field; lra.
Qed.
Local Transparent CD2S.
(** the starting value of the anomaly at perihelion (palEl2ue.c:311-325) *)
Lemma el_psi_0 : forall date q e, 0 < q -> el_psi date date q e = 0.
Proof.
  intros date q e Hq. unfold el_psi, el_peri. cbn [u_psi]. rops.
  replace (litR 1.0) with 1 by (rlit; lra). replace (litR 2.0) with 2 by (rlit; lra). replace (litR 3.0) with 3 by (rlit; lra).
  replace (litR 8.0) with 8 by (rlit; lra). replace (litR 9.0) with 9 by (rlit; lra).
  replace ((date - date) * GCON) with 0 by ring.
  replace (9 * 0 * 0 + 8 * q * q * q) with ((2 * q) * (2 * q) * (2 * q)) by ring. rewrite Rmult_0_r, Rplus_0_l, sqrt3 by lra.
  set (s := sqrtR (2 * q)). assert (Hs : 0 < s) by (apply sqrt_lt_R0; lra). assert (Hss : s * s = 2 * q) by (apply sqrt_sqrt; lra). rewrite <- Hss.
  unfold powR. destruct (Rlt_dec 0 (s * s * s)) as [_|N]; [|exfalso; apply N; repeat apply Rmult_lt_0_compat; assumption].
  assert (E : Rpower (s * s * s) (1 / 3) = s).
  { replace (s * s * s) with (Rpower s 3).
    - rewrite Rpower_mult. replace (3 * (1 / 3)) with 1 by field. apply Rpower_1, Hs.
    - replace 3 with (INR 3) by (cbn; ring). rewrite Rpower_pow by exact Hs. cbn [Rpow_def.pow]. ring. }
  rewrite E. field. split; lra.
Qed.
(** At the epoch of perihelion (form 3) palPlanel returns exactly the perihelion state. *)
Theorem C70_at_perihelion : forall hf date i Om perih q e aorl dm, 0 <= e <= 10 -> 0 < q ->
  let P := peri_pos q i Om perih in let W := peri_vel (kG * kG) q e i Om perih in
  1e-3 <= norm (equ P) -> 1e-3 * kG <= norm (equ W) ->
  palPlanel (T := R) hf date 3 date i Om perih q e aorl dm = Some (0%Z, Some (PV (equ P) (scale (1 / 86400) (equ W)))).
Proof.
  intros hf date i Om perih q e aorl dm He Hq P W HP HW.
  assert (Hk : 0 < kG) by (unfold kG; lra).
  assert (EC : CD2S (T := R) = kG / 86400) by (unfold CD2S, GCON, SPD, kG; rn; lra).
  assert (S : palPlanel (T := R) hf date 3 date i Om perih q e aorl dm =
    match palPv2ue (PV (equ P) (scale (1 / 86400) (equ W))) date 0 with
    | (j, u) => if negb (j =? 0)%Z then Some (-5, None)%Z else match u with Some u => match palUe2pv hf date u pv_junk with None => None
        | Some (j, u', p) => if negb (j =? 0)%Z then Some (-5, None)%Z else Some (0%Z, Some p) end | None => Some (0%Z, None) end
    end).
  { unfold palPlanel, palEl2ue.
    assert (Ck : el_check (T := R) 3 q e dm = 0%Z).
    { destruct (el_check_status 3 q e dm) as [[C _]|[C _]]; [|exact C]. exfalso. apply C. unfold el_check. rops.
      replace (litR 0.0) with 0 by (rlit; lra). replace (litR 10.0) with 10 by (rlit; lra). replace (litR 1.0) with 1 by (rlit; lra).
      cbn [Z.ltb Z.eqb Z.compare Pos.compare Pos.compare_cont Pos.eqb orb andb negb].
      rewrite !Rltb_false by lra. cbn [orb]. rewrite andb_false_r. rewrite Rleb_false by lra. reflexivity. }
    rewrite Ck. cbn [negb Z.eqb]. unfold el_std. cbn [Z.eqb Pos.eqb]. rops. replace (litR 1.0) with 1 by (rlit; lra).
    rewrite el_peri_val by exact Hq. rewrite el_psi_0 by exact Hq. rewrite ue2pv_start by exact Hq. cbn [negb Z.eqb].
    replace (1 - 1) with 0 by ring.
    replace (scale CD2S (equ (peri_vel 1 q e i Om perih))) with (scale (1 / 86400) (equ W)).
    - fold P. destruct (palPv2ue (PV (equ P) (scale (1 / 86400) (equ W))) date 0) as [j u]. destruct (Z.eqb_spec j 0) as [->|N]; cbn [negb]; [destruct u; reflexivity|reflexivity].
    - rewrite EC, <- !equ_scale. f_equal. unfold W, peri_vel. set (o := odir i Om (perih + PI / 2)).
      replace (sqrtR (kG * kG * (1 + e) / q)) with (kG * sqrtR (1 * (1 + e) / q)).
      + destruct o as [a b c]. unfold scale; cbn [vx vy vz]. f_equal; field.
      + replace (kG * kG * (1 + e) / q) with (kG * kG * (1 * (1 + e) / q)) by (field; lra). rewrite (sqrt_mult_alt (kG * kG)) by nra. rewrite sqrt_square by lra. reflexivity. }
  rewrite S. destruct (palPv2ue (PV (equ P) (scale (1 / 86400) (equ W))) date 0) as [j u] eqn:E.
  assert (E0 : j = 0%Z /\ u <> None).
  { revert E. unfold palPv2ue. cbn [pvp pvv]. rops. replace (litR 0.0) with 0 by (rlit; lra). replace (litR 1e-3) with 1e-3 by (rlit; lra).
    rewrite (Rltb_false 0 0) by lra.
    change (sqrtR (vx (equ P) * vx (equ P) + vy (equ P) * vy (equ P) + vz (equ P) * vz (equ P))) with (norm (equ P)).
    rewrite (Rltb_false (norm (equ P))) by lra.
    replace (sqrtR (vx (scale (1 / 86400) (equ W)) / CD2S * (vx (scale (1 / 86400) (equ W)) / CD2S) + vy (scale (1 / 86400) (equ W)) / CD2S * (vy (scale (1 / 86400) (equ W)) / CD2S) +
       vz (scale (1 / 86400) (equ W)) / CD2S * (vz (scale (1 / 86400) (equ W)) / CD2S))) with (norm (equ W) / kG).
    - rewrite Rltb_false. + intros E. split; [congruence|]. intros N. rewrite N in E. discriminate E.
      + intros N. apply Rmult_lt_compat_r with (r := kG) in N; [|exact Hk]. replace (norm (equ W) / kG * kG) with (norm (equ W)) in N by (field; lra). lra.
    - rewrite EC. replace (norm (equ W) / kG) with (/ kG * norm (equ W)) by (field; lra). rewrite <- norm_scale by (left; apply Rinv_0_lt_compat, Hk).
      unfold norm, dot, scale; cbn [vx vy vz]. f_equal. field. lra. }
  destruct E0 as [-> Nu]. cbn [negb Z.eqb]. destruct u as [u|]; [|contradiction]. rewrite (C59_roundtrip _ _ _ _ E). reflexivity.
Qed.

(** palEl2ue delivers exactly the state that palPlanel returns, referred to the date, with the mass of the form *)
Theorem C70_el2ue : forall hf date jform epoch i Om perih aorq e aorl dm u,
  palEl2ue (T := R) hf date jform epoch i Om perih aorq e aorl dm = Some (0%Z, Some u) ->
  exists p, palPlanel (T := R) hf date jform epoch i Om perih aorq e aorl dm = Some (0%Z, Some p) /\
    u_p0 u = pvp p /\ scale (kG / 86400) (u_v0 u) = pvv p /\ u_t0 u = date /\ u_t u = date /\ u_psi u = 0 /\
    u_cm u = mu_el jform aorq dm / (kG * kG) /\ u_r0 u = norm (u_p0 u) /\ u_sigma0 u = dot (u_p0 u) (u_v0 u) /\
    u_alpha u = dot (u_v0 u) (u_v0 u) - 2 * u_cm u / norm (u_p0 u).
Proof.
  intros hf date jform epoch i Om perih aorq e aorl dm u H.
  destruct (C61_el2ue _ _ _ _ _ _ _ _ _ _ _ _ _ H) as (S & _). inversion S as [| | | | |S1 S2 S3 S4].
  assert (SV := el_std_val jform epoch i Om perih aorq e aorl dm date S1 S2 S3 S4). cbv zeta in SV.
  assert (I := el2ue_inner _ _ _ _ _ _ _ _ _ _ _ _ H). destruct (el_std jform epoch Om perih aorq e aorl dm) as [[[pht argph] q] cm].
  destruct SV as (_ & _ & _ & V4 & V5 & _). destruct I as (ul & p & _ & I2 & I3). exists p. split; [exact I3|].
  assert (Hk : 0 < kG) by (unfold kG; lra).
  assert (EC : CD2S (T := R) = kG / 86400) by (unfold CD2S, GCON, SPD, kG; rn; lra).
  clear - I2 V4 V5 Hk EC. revert I2. unfold palPv2ue. rops. rewrite EC.
  repeat match goal with |- (if ?c then _ else _) = _ -> _ => destruct c; [discriminate|] end.
  intros I2. apply (f_equal (fun o => match snd o with Some x => x | None => u end)) in I2. cbn [snd] in I2. rewrite <- I2.
  cbn [u_cm u_alpha u_t0 u_p0 u_v0 u_r0 u_sigma0 u_t u_psi]. replace (litR 1.0) with 1 by (rlit; lra). replace (litR 2.0) with 2 by (rlit; lra). replace (litR 0.0) with 0 by (rlit; lra).
  destruct p as [[x y z] [xd yd zd]]. cbn [pvp pvv vx vy vz].
  split; [reflexivity|]. split; [unfold scale; cbn [vx vy vz]; f_equal; field; lra|]. split; [reflexivity|]. split; [reflexivity|]. split; [reflexivity|].
  split; [rewrite V4; field; lra|]. split; [reflexivity|]. split; [reflexivity|]. reflexivity.
Qed.

(** For an ellipse: bounds in terms of the semi-major axis a (au) and the speed at perihelion only *)
Theorem C70_ellipse : forall hf date jform epoch i Om perih aorq e aorl dm p X Vel, (hf <= 20)%nat ->
  palPlanel (T := R) hf date jform epoch i Om perih aorq e aorl dm = Some (0%Z, Some p) -> e < 1 ->
  let el := args_el jform epoch i Om perih aorq e aorl dm in let mu := mu_el jform aorq dm in
  motion mu X Vel -> X 0 = el_peri_pos el -> Vel 0 = el_peri_vel mu el ->
  let q := el_dist el in let cm := mu / (kG * kG) in let a := q / (1 - e) in let k := sqrtR (a / cm) in
  let N := 2 ^ hf in let eta := 4e-15 * 4.1 ^ hf in let w := sqrtR (cm * (1 + e) / q) in
  let del := 4 * N ^ 3 * a * (1e-13 + 3 * eta * N * k) in
  exists tau, kG * Rabs (tau - el_since mu el date) <= del /\
    norm (vsub (pvp p) (equ (X tau))) <= eta * N ^ 2 * a * (1 + N * k * w) + del * w.
Proof.
  intros hf date jform epoch i Om perih aorq e aorl dm p X Vel H20 H He1 el mu M X0 V0 q cm a k N eta w del.
  destruct (planel_inner _ _ _ _ _ _ _ _ _ _ _ _ H) as (_ & _ & Hf & He & Ha & Hd & I).
  assert (SV := el_std_val jform epoch i Om perih aorq e aorl dm date Hf He Ha Hd). cbv zeta in SV. fold el mu in SV.
  destruct (el_std jform epoch Om perih aorq e aorl dm) as [[[pht argph] q'] cm'].
  destruct SV as (S1 & S2 & S3 & S4 & S5 & S6). destruct I as [ul I].
  assert (Hk : 0 < kG) by (unfold kG; lra).
  assert (Ecm : cm' = cm) by (unfold cm; rewrite S4; field; lra). rewrite Ecm in *. clear Ecm cm'.
  rewrite S3 in *. fold q in S6, I. clear S3. rewrite S2 in I. clear S2. assert (He0 : 0 <= e) by apply He.
  rewrite el_peri_val in I by exact S6.
  destruct (ue2pv_equ _ _ _ _ _ _ _ _ _ _ _ _ _ _ I) as (u'' & pv2 & E & Ep & Ev). clear I.
  set (P := peri_pos q i Om (el_arg el)) in *. set (W := peri_vel cm q e i Om (el_arg el)) in *.
  destruct (peri_geometry cm q e i Om (el_arg el) S5 S6 He0) as (G1 & G2 & G3 & G4 & _). fold P W in G1, G2, G3, G4.
  rewrite S4 in M. assert (M' := motion_units kG cm X Vel Hk M).
  destruct (C68_ellipse hf date (UE cm (cm * (e - 1) / q) pht P W q 0 date (el_psi date pht q e)) pv_junk u'' pv2 (fun t => X (t / kG)) (fun t => scale (/ kG) (Vel (t / kG))) H20)
    as (tau & B1 & B2).
  - unfold consistent. cbn [u_cm u_alpha u_t0 u_p0 u_v0 u_r0 u_sigma0 u_t u_psi].
    split; [exact S5|]. split; [symmetry; exact G1|]. split; [symmetry; exact G2|]. split; [rewrite G1; symmetry; exact G4|exact G3].
  - cbn [u_alpha]. replace (cm * (e - 1) / q) with (- (cm * (1 - e) / q)) by (field; lra). apply Ropp_lt_gt_0_contravar, Rdiv_lt_0_compat; [apply Rmult_lt_0_compat; lra|exact S6].
  - exact M'.
  - cbn [u_p0]. replace (0 / kG) with 0 by (field; lra). exact X0.
  - cbn [u_v0]. replace (0 / kG) with 0 by (field; lra). rewrite V0. unfold el_peri_vel, W, peri_vel. fold q.
    change (el_e el) with e. change (el_orbinc el) with i. change (el_anode el) with Om.
    replace (sqrtR (mu * (1 + e) / q)) with (kG * sqrtR (cm * (1 + e) / q)).
    + destruct (odir i Om (el_arg el + PI / 2)) as [o1 o2 o3]. unfold scale; cbn [vx vy vz]. f_equal; field; lra.
    + rewrite S4. replace (kG * kG * cm * (1 + e) / q) with (kG * kG * (cm * (1 + e) / q)) by (field; lra).
      rewrite (sqrt_mult_alt (kG * kG)) by nra. rewrite sqrt_square by lra. reflexivity.
  - exact E.
  - cbn [u_cm u_alpha u_t0 u_p0 u_v0 u_r0 u_sigma0 u_t u_psi] in *.
    replace (- cm / (cm * (e - 1) / q)) with a in B1, B2 by (unfold a; field; lra). fold k in B1, B2. fold N in B1, B2. fold eta in B1, B2.
    assert (NW : norm W = w).
    { unfold norm, w. f_equal. replace (dot W W) with (cm * (e - 1) / q + 2 * cm / q) by lra. field. lra. }
    rewrite NW in B2. exists (tau / kG). split.
    + rewrite <- S1. replace (kG * Rabs (tau / kG - (date - pht))) with (Rabs (tau - (date - pht) * kG)); [exact B1|].
      rewrite <- (Rabs_right kG) at 2 by lra. rewrite <- Rabs_mult. f_equal. field. lra.
    + rewrite Ep, <- equ_vsub. eapply Rle_trans; [apply equ_norm|exact B2].
Qed.

(** From a state vector to elements (palPv2el, form 1 with any mass, or any form with none) and on to another date
    (palPlanel): the result lies on the two-body motion through the given state. *)
Theorem C70_roundtrip : forall p date pmass jformr el hf date2 p2 X Vel, (hf <= 20)%nat ->
  palPv2el (T := R) p date pmass jformr = (0%Z, Some el) -> angmom p <> vzero ->
  let mu := mu_sun pmass in let e := sqrtR (ecc_sq mu p) in
  (1e-8 <= Rabs (e - 1) \/ (e = 1 /\ jformr = 3%Z)) -> (el_jform el = 1%Z \/ pmass = 0) ->
  palPlanel (T := R) hf date2 (el_jform el) (el_epoch el) (el_orbinc el) (el_anode el) (el_perih el) (el_aorq el) (el_e el)
    (oget (el_aorl el)) (oget (el_dm el)) = Some (0%Z, Some p2) ->
  motion mu X Vel -> X 0 = epos p -> Vel 0 = evel p ->
  let q := el_dist el in let cm := mu / (kG * kG) in let al := cm * (e - 1) / q in
  exists m tau, 0 <= m /\ Rabs al * m ^ 2 <= 0.7 * 4 ^ hf /\
  let eta := 4e-15 * 4.1 ^ hf in
  let A := if Rle_dec al 0 then 1 else Rtrigo_def.cosh (sqrtR al * m) in
  let Rm := (q + cm * m ^ 2) * A in
  let del := 2 ^ hf * Rm * (1e-13 * (1 + eta) + 3 * eta * m) in
  let w := sqrtR (cm * (1 + e) / q) in
  kG * Rabs (tau - (date2 - date)) <= del /\
  norm (vsub (pvp p2) (equ (X tau))) <= eta * A * cm * m ^ 2 * (1 + m * w) + del * w.
Proof.
  intros p date pmass jformr el hf date2 p2 X Vel H20 H Hh mu e He Hm HP M X0 V0 q cm al.
  destruct (C69_elements _ _ _ _ _ H Hh He) as (E1 & _ & _ & _ & _ & E6 & E7 & E8 & E9 & (Y & W & MY & Y0 & W0) & _). fold mu in E1, E8, MY, W0. fold e in E1.
  assert (OS := C69_osculating _ _ _ _ _ H Hh He Y W MY Y0 W0). fold mu in OS.
  destruct (planel_inner _ _ _ _ _ _ _ _ _ _ _ _ HP) as (_ & _ & Hf & _ & Ha & Hd & _).
  set (el' := args_el (el_jform el) (el_epoch el) (el_orbinc el) (el_anode el) (el_perih el) (el_aorq el) (el_e el) (oget (el_aorl el)) (oget (el_dm el))).
  assert (Emu : mu_el (el_jform el) (el_aorq el) (oget (el_dm el)) = mu).
  { unfold mu_el. destruct (Z.eqb_spec (el_jform el) 1) as [J|J].
    - rewrite (E8 J). cbn [oget]. unfold daily. set (a := el_aorq el) in *. unfold aorq_ok in Ha.
      assert (0 < a * a * a) by (repeat apply Rmult_lt_0_compat; assumption). rewrite sqrt_sqrt; [field; lra|].
      destruct (pv2el_ok _ _ _ _ _ H) as (Hpm & _). left. apply Rdiv_lt_0_compat; [unfold mu, mu_sun; nra|assumption].
    - destruct Hm as [Hm|Hm]; [contradiction|]. unfold mu, mu_sun, kG. rewrite Hm. ring. }
  assert (Ed : el_dist el' = el_dist el) by reflexivity.
  assert (Ep : el_peri_pos el' = el_peri_pos el) by reflexivity. assert (Ev : el_peri_vel mu el' = el_peri_vel mu el) by reflexivity.
  assert (Es : forall d, el_since mu el' d = el_since mu el d) by reflexivity.
  destruct (C70_planel hf date2 _ _ _ _ _ _ _ _ _ p2 Y W H20 HP) as (m & tau & Hm0 & Hm2 & B1 & B2 & _); fold el'; rewrite ?Emu, ?Ep, ?Ev; try assumption.
  fold el' in Hm2, B1, B2. rewrite Ed in Hm2, B1, B2. rewrite E1, Emu in Hm2, B1, B2. fold q cm al in Hm2, B1, B2. rewrite Es in B1.
  exists m, (tau - el_since mu el date). split; [exact Hm0|]. split; [exact Hm2|]. cbv zeta in *. split.
  - replace (tau - el_since mu el date - (date2 - date)) with (tau - el_since mu el date2); [exact B1|]. unfold el_since. ring.
  - (* the motion from perihelion and the motion from the state are the same, shifted *)
    assert (Hmu : 0 < mu).
    { destruct (pv2el_ok _ _ _ _ _ H) as (Hpm & _). unfold mu, mu_sun; nra. }
    set (T0 := el_since mu el date) in *.
    assert (MS : motion mu (fun t => Y (t + T0)) (fun t => W (t + T0))).
    { intros t. destruct (MY (t + T0)) as (M1 & M2 & M3). assert (D : is_derive (fun t : R => t + T0) t 1) by (auto_derive; [exact I|ring]).
      assert (S1 : forall v : vec R, scale 1 v = v) by (intros [v1 v2 v3]; unfold scale; cbn [vx vy vz]; f_equal; ring).
      split; [exact M1|]. split.
      - rewrite <- (S1 (W (t + T0))). apply (vderiv_comp Y (fun t => t + T0) t 1); assumption.
      - rewrite <- S1. apply (vderiv_comp W (fun t => t + T0) t 1); assumption. }
    destruct (motion_unique mu X Vel (fun t => Y (t + T0)) (fun t => W (t + T0)) Hmu) with (t := tau - T0) as [K _].
    + rewrite X0, V0. exact Hh.
    + exact M.
    + exact MS.
    + rewrite X0, Rplus_0_l. symmetry. apply OS.
    + rewrite V0, Rplus_0_l. symmetry. apply OS.
    + rewrite K. replace (tau - T0 + T0) with tau by ring. exact B2.
Qed.

(** Non-vacuity: success at perihelion for an inclined eccentric orbit, and for a hyperbola *)
Example C70_eg : exists p X Vel, palPlanel (T := R) 0 50000 3 50000 0.1 1 2 1 0.5 0 0 = Some (0%Z, Some p) /\
  motion (kG * kG) X Vel /\ X 0 = peri_pos 1 0.1 1 2 /\ Vel 0 = peri_vel (kG * kG) 1 0.5 0.1 1 2 /\ pvp p = equ (X 0).
Proof.
  assert (Hk : 0 < kG * kG) by (unfold kG; lra).
  destruct (peri_geometry (kG * kG) 1 0.5 0.1 1 2 Hk) as (G1 & G2 & G3 & G4 & _); [lra|lra|].
  destruct (two_body_exists (kG * kG) _ _ Hk G3) as (X & Vel & M & X0 & V0 & _).
  exists (PV (equ (peri_pos 1 0.1 1 2)) (scale (1 / 86400) (equ (peri_vel (kG * kG) 1 0.5 0.1 1 2)))), X, Vel.
  split; [|split; [exact M|split; [exact X0|split; [exact V0|rewrite X0; reflexivity]]]].
  apply C70_at_perihelion; [lra|lra| |].
  - eapply Rle_trans; [|apply equ_near]. rewrite G1. lra.
  - eapply Rle_trans; [|apply equ_near].
    replace (norm (peri_vel (kG * kG) 1 0.5 0.1 1 2)) with (sqrtR (kG * kG * (0.5 - 1) / 1 + 2 * (kG * kG) / 1)) by (unfold norm; f_equal; lra).
    unfold kG. interval.
Qed.
