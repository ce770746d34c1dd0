(** * Theorems: palDmoon (C58) *)
From Coq Require Import Reals ZArith Lra Lia Psatz Bool List.
From Flocq Require Import Core.Raux.
From Coquelicot Require Import Coquelicot.
From Interval Require Import Tactic.
From Verif Require Import Num NumR Erfa Geom MoonTable M_Moon P_Moon.
Local Open Scope R_scope.

(** ** Specification *)
(** Julian centuries from J2000 *)
Definition cy2000 (date : R) : R := (date - 51544.5) / 36525.
(** IAU 1976 mean obliquity of the ecliptic, radians *)
Definition obl76 (date : R) : R := let t := cy2000 date in
  (84381.448 - 46.8150 * t - 0.00059 * (t * t) + 0.001813 * (t * t * t)) / 3600 * (PI / 180).
(** Fricke (1982) equinox correction, radians: 0.035 s at B1950, 0.085 s per century *)
Definition fricke (date : R) : R := (0.035 + 0.00085 * (2000 + 100 * cy2000 date - 1949.9997904423)) / 3600 * (PI / 12).
(** ecliptic (mean of date) to equatorial FK5, first order in the equinox correction *)
Definition moon_frame (date : R) : mat R :=
  let q := fricke date in let e := obl76 date in
  M (V 1 (- (q * cosR e)) (q * sinR e)) (V q (cosR e) (- sinR e)) (V 0 (sinR e) (cosR e)).
(** [within n date]: within n Julian centuries of 1900 January 0.5 *)
Definition within (n date : R) : Prop := Rabs (date - 15019.5) <= n * 36525.

Lemma moon_equ_val : forall date e, moon_equ date e =
  PV (mapp (moon_frame date) (pvp e)) (mapp (moon_frame date) (pvv e)).
Proof.
  intros date [[x y z] [xd yd zd]]. unfold moon_equ, moon_frame, mapp, dot, fricke, obl76, cy2000, DS2R, DAS2R.
  cbn [pvp pvv vx vy vz m0 m1 m2]. rn.
  set (t := (date - 515445 / 10) / (365250 / 10)). replace ((date - 51544.5) / 36525) with t by (unfold t; lra). clearbody t.
  replace (PI / 43200 * (35 / 1000 + 85 / 100000 * (20000 / 10 + t * (1000 / 10) - 19499997904423 / 10000000000)))
    with ((0.035 + 0.00085 * (2000 + 100 * t - 1949.9997904423)) / 3600 * (PI / 12)) by lra.
  replace (PI / 648000 * (84381448 / 1000 + (- (468150 / 10000) + (- (59 / 100000) + 1813 / 1000000 * t) * t) * t))
    with ((84381.448 - 46.8150 * t - 0.00059 * (t * t) + 0.001813 * (t * t * t)) / 3600 * (PI / 180)) by lra.
  f_equal; f_equal; ring.
Qed.
Lemma palDmoon_val : forall date, palDmoon date =
  PV (mapp (moon_frame date) (pvp (moon_ecliptic (fun x : R => x) date))) (mapp (moon_frame date) (pvv (moon_ecliptic (fun x : R => x) date))).
Proof. intros. unfold palDmoon. rops. rewrite moon_gen_red. apply moon_equ_val. Qed.
Lemma within_T : forall n date, within n date -> Rabs (moonT date) <= n.
Proof.
  intros n date H. unfold within in H. unfold moonT. apply Rabs_le_inv in H. apply Rabs_le. lra.
Qed.
Lemma par_sin : forall date, within 100 date -> sinR (fst (moon_par (moon_args (fun x : R => x) (moonT date)))) <> 0.
Proof.
  intros date H. destruct (moon_par_bounds (moonT date)) as [Q _]. specialize (Q (within_T _ _ H)).
  apply Rgt_not_eq, sin_gt_0; assert (P := PI_RGT_0); lra.
Qed.

(** ** The velocity is the derivative of the ecliptic position *)
(** There is an ecliptic position such that the returned position and velocity are, in the equatorial frame of the same
    date, that position and its exact time derivative (per second); the rotation of the frame is not differentiated. *)
Theorem C58_velocity : exists ecl : R -> vec R, forall date, within 100 date ->
  exists vel, vderive ecl date vel /\
    pvp (palDmoon date) = mapp (moon_frame date) (ecl date) /\
    pvv (palDmoon date) = mapp (moon_frame date) (scale (1 / 86400) vel).
Proof.
  exists (fun d => pvp (moon_ecliptic (fun x : R => x) d)). intros date H.
  exists (scale 86400 (pvv (moon_ecliptic (fun x : R => x) date))). split; [|split].
  - apply moon_ecliptic_rd, par_sin, H.
  - now rewrite palDmoon_val.
  - rewrite palDmoon_val. cbn [pvv]. f_equal. rewrite scale_scale. replace (1 / 86400 * 86400) with 1 by field. now rewrite scale_1.
Qed.
(** in particular the position is a continuous, differentiable function of the date although the fundamental
    arguments are reduced modulo a revolution; and the returned velocity is its derivative up to 6e-9 radian per day
    times the distance *)
Definition dframe (date : R) : mat R :=
  let q := fricke date in let e := obl76 date in
  let q' := 0.085 / 3600 * (PI / 12) / 36525 in
  let t := cy2000 date in
  let e' := (- 46.8150 - 2 * 0.00059 * t + 3 * 0.001813 * (t * t)) / 3600 * (PI / 180) / 36525 in
  M (V 0 (- (q' * cosR e) + q * sinR e * e') (q' * sinR e + q * cosR e * e'))
    (V q' (- sinR e * e') (- cosR e * e')) (V 0 (cosR e * e') (- sinR e * e')).
Lemma frame_derive : forall (e : R -> vec R) date v, vderive e date v ->
  vderive (fun d => mapp (moon_frame d) (e d)) date (vadd (mapp (moon_frame date) v) (mapp (dframe date) (e date))).
Proof.
  intros e date v (H1 & H2 & H3).
  assert (Dq : is_derive fricke date (0.085 / 3600 * (PI / 12) / 36525)).
  { unfold fricke, cy2000. auto_derive; [exact I|]. lra. }
  assert (De : is_derive obl76 date ((- 46.8150 - 2 * 0.00059 * cy2000 date + 3 * 0.001813 * (cy2000 date * cy2000 date)) / 3600 * (PI / 180) / 36525)).
  { unfold obl76, cy2000. auto_derive; [exact I|]. set (t := (date + - (51544.5)) * / 36525).
    replace ((date - 51544.5) / 36525) with t by (unfold t; lra). clearbody t. lra. }
  set (x := fun d => vx (e d)). set (y := fun d => vy (e d)). set (z := fun d => vz (e d)).
  change (is_derive x date (vx v)) in H1; change (is_derive y date (vy v)) in H2; change (is_derive z date (vz v)) in H3. unfold dframe. set (q' := 0.085 / 3600 * (PI / 12) / 36525) in *.
  set (e' := _ / 3600 * (PI / 180) / 36525) in *.
  assert (Hx : vx (e date) = x date) by reflexivity. assert (Hy : vy (e date) = y date) by reflexivity. assert (Hz : vz (e date) = z date) by reflexivity.
  unfold vderive. unfold moon_frame, mapp, dot, vadd; cbn [m0 m1 m2 vx vy vz]. rewrite Hx, Hy, Hz.
  change (is_derive (fun t => 1 * x t + - (fricke t * cosR (obl76 t)) * y t + fricke t * sinR (obl76 t) * z t) date
    (1 * vx v + - (fricke date * cosR (obl76 date)) * vy v + fricke date * sinR (obl76 date) * vz v +
     (0 * x date + (- (q' * cosR (obl76 date)) + fricke date * sinR (obl76 date) * e') * y date +
      (q' * sinR (obl76 date) + fricke date * cosR (obl76 date) * e') * z date)) /\
   is_derive (fun t => fricke t * x t + cosR (obl76 t) * y t + - sinR (obl76 t) * z t) date
    (fricke date * vx v + cosR (obl76 date) * vy v + - sinR (obl76 date) * vz v +
     (q' * x date + - sinR (obl76 date) * e' * y date + - cosR (obl76 date) * e' * z date)) /\
   is_derive (fun t => 0 * x t + sinR (obl76 t) * y t + cosR (obl76 t) * z t) date
    (0 * vx v + sinR (obl76 date) * vy v + cosR (obl76 date) * vz v +
     (0 * x date + cosR (obl76 date) * e' * y date + - sinR (obl76 date) * e' * z date))).
  generalize dependent fricke. generalize dependent obl76. intros ob De fr Dq. clearbody x y z q' e'.
  uniq x date (vx v) H1 T1. uniq y date (vy v) H2 T2. uniq z date (vz v) H3 T3. uniq fr date q' Dq T4. uniq ob date e' De T5.
  split; [|split]; (auto_derive; [repeat split; eexists; eassumption|]); rewrite ?T1, ?T2, ?T3, ?T4, ?T5; ring.
Qed.
Lemma mapp_small : forall m v e, 0 <= e ->
  (Rabs (vx (m0 m)) <= e /\ Rabs (vy (m0 m)) <= e /\ Rabs (vz (m0 m)) <= e) ->
  (Rabs (vx (m1 m)) <= e /\ Rabs (vy (m1 m)) <= e /\ Rabs (vz (m1 m)) <= e) ->
  (Rabs (vx (m2 m)) <= e /\ Rabs (vy (m2 m)) <= e /\ Rabs (vz (m2 m)) <= e) ->
  norm (mapp m v) <= 3 * e * norm v.
Proof.
  intros m v e He H0 H1 H2.
  assert (Q : forall r : vec R, Rabs (vx r) <= e /\ Rabs (vy r) <= e /\ Rabs (vz r) <= e -> dot r v * dot r v <= 3 * e * e * dot v v).
  { intros r (A & B & C). assert (K := cauchy r v). 
    assert (S : forall s, Rabs s <= e -> s * s <= e * e) by (intros s Hs; apply Rabs_le_inv in Hs; nra).
    apply S in A, B, C. assert (D := dot_pos v). assert (dot r r <= 3 * e * e) by (unfold dot; lra). nra. }
  unfold norm. apply Rsqr_incr_0_var; [|apply Rmult_le_pos; [lra|apply sqrt_pos]].
  unfold Rsqr. rewrite sqrt_sqrt by apply dot_pos.
  replace (3 * e * sqrtR (dot v v) * (3 * e * sqrtR (dot v v))) with (9 * e * e * (sqrtR (dot v v) * sqrtR (dot v v))) by ring.
  rewrite sqrt_sqrt by apply dot_pos. unfold mapp. unfold dot at 1; cbn [vx vy vz].
  apply Q in H0, H1, H2. lra.
Qed.
Lemma frame_norm : forall date v, norm v <= norm (mapp (moon_frame date) v) /\
  (within 10 date -> norm (mapp (moon_frame date) v) <= (1 + 1e-8) * norm v).
Proof.
  intros date [x y z]. set (q := fricke date). set (u := cosR (obl76 date) * y - sinR (obl76 date) * z).
  assert (E : dot (mapp (moon_frame date) (V x y z)) (mapp (moon_frame date) (V x y z)) = dot (V x y z) (V x y z) + q * q * (x * x + u * u)).
  { unfold moon_frame, mapp, dot; cbn [m0 m1 m2 vx vy vz]. fold q. assert (S := sc2 (obl76 date)). unfold u.
    set (s := sinR (obl76 date)) in *. set (c := cosR (obl76 date)) in *.
    transitivity (x * x + (s * s + c * c) * (y * y + z * z) + q * q * (x * x + (c * y - s * z) * (c * y - s * z))); [ring|rewrite S; ring]. }
  assert (U : x * x + u * u <= dot (V x y z) (V x y z)).
  { unfold dot, u; cbn [vx vy vz]. assert (S := sc2 (obl76 date)).
    set (s := sinR (obl76 date)) in *. set (c := cosR (obl76 date)) in *.
    assert (0 <= (s * y + c * z) * (s * y + c * z)) by apply Rle_0_sqr.
    replace (x * x + y * y + z * z) with (x * x + (s * s + c * c) * (y * y + z * z)) by (rewrite S; ring). nra. }
  assert (0 <= x * x + u * u) by nra. assert (0 <= q * q) by nra.
  assert (N := norm_sq (V x y z)). assert (N' := norm_sq (mapp (moon_frame date) (V x y z))).
  assert (P := norm_pos (V x y z)). assert (P' := norm_pos (mapp (moon_frame date) (V x y z))).
  split.
  - apply Rsqr_incr_0_var; [|easy]. unfold Rsqr. rewrite N, N', E. nra.
  - intros W. assert (Hq : q * q <= 1e-8).
    { assert (-1e-4 <= q <= 1e-4); [|nra]. unfold q, fricke, cy2000. unfold within in W. apply Rabs_le_inv in W. assert (-350231 <= date <= 380270) by lra. interval with (i_prec 60). }
    apply Rsqr_incr_0_var; [|apply Rmult_le_pos; lra]. unfold Rsqr. rewrite N', E.
    replace ((1 + 1e-8) * norm (V x y z) * ((1 + 1e-8) * norm (V x y z))) with ((1 + 1e-8) * (1 + 1e-8) * dot (V x y z) (V x y z)) by (rewrite <- N; ring).
    assert (q * q * (x * x + u * u) <= 1e-8 * dot (V x y z) (V x y z)) by (apply Rmult_le_compat; lra).
    assert (D := dot_pos (V x y z)). nra.
Qed.
Theorem C58_derivative : forall date, within 10 date ->
  exists w, vderive (fun d => pvp (palDmoon d)) date w /\
    norm (vsub w (scale 86400 (pvv (palDmoon date)))) <= 2e-8 * norm (pvp (palDmoon date)).
Proof.
  intros date W. assert (W' : within 100 date) by (unfold within in *; lra).
  assert (D := moon_ecliptic_rd date (par_sin _ W')).
  set (e := fun d => pvp (moon_ecliptic (fun x : R => x) d)) in *. set (v := scale 86400 _) in D.
  exists (vadd (mapp (moon_frame date) v) (mapp (dframe date) (e date))). split.
  - destruct (frame_derive e date v D) as (A & B & C).
    split; [|split]; (eapply is_derive_ext; [|eassumption]); intros d; rewrite palDmoon_val; reflexivity.
  - rewrite palDmoon_val. cbn [pvp pvv]. unfold v. fold (e date).
    rewrite mapp_scale. 
    replace (vsub (vadd (scale 86400 (mapp (moon_frame date) (pvv (moon_ecliptic (fun x : R => x) date)))) (mapp (dframe date) (e date)))
       (scale 86400 (mapp (moon_frame date) (pvv (moon_ecliptic (fun x : R => x) date)))))
      with (mapp (dframe date) (e date)) by (generalize (mapp (dframe date) (e date)) (mapp (moon_frame date) (pvv (moon_ecliptic (fun x : R => x) date))); intros; vring).
    destruct (frame_norm date (e date)) as [N _].
    eapply Rle_trans; [apply (mapp_small _ _ 6.5e-9); [lra| | |]|].
    4:{ assert (P := norm_pos (e date)). lra. }
    all: unfold dframe; cbn [m0 m1 m2 vx vy vz]; unfold within in W; apply Rabs_le_inv in W; assert (-350231 <= date <= 380270) by lra.
    all: assert (Hq : -1e-4 <= fricke date <= 1e-4) by (unfold fricke, cy2000; interval with (i_prec 60)).
    all: assert (Ht : -12 <= cy2000 date <= 12) by (unfold cy2000; lra).
    all: assert (S := sin_bounds (obl76 date)); assert (C := cos_bounds (obl76 date)).
    all: generalize dependent (fricke date); generalize dependent (cy2000 date);
      generalize dependent (sinR (obl76 date)); generalize dependent (cosR (obl76 date)); intros c C s S t Ht q Hq.
    all: split; [|split]; interval with (i_prec 60).
Qed.
(** ** Where the Moon is *)
(** The ecliptic position is at a distance between 0.00236 and 0.00282 au (353 000 to 422 000 km) within ten
    centuries of 1900, and at most 8.8 degrees from the ecliptic within a hundred. *)
Theorem C58_distance : forall date, within 10 date -> 0.00236 <= norm (pvp (palDmoon date)) <= 0.00282.
Proof.
  intros date W. rewrite palDmoon_val. cbn [pvp].
  destruct (frame_norm date (pvp (moon_ecliptic (fun x : R => x) date))) as [N1 N2]. specialize (N2 W).
  assert (E : norm (pvp (moon_ecliptic (fun x : R => x) date)) = Rabs (4.2635212653763e-5 / sinR (fst (moon_par (moon_args (fun x : R => x) (moonT date)))))).
  { unfold moon_ecliptic. rops. rewrite moonT_val. set (a := moon_args _ (moonT date)).
    unfold moon_ecl. destruct (moon_lon a) as [l dl], (moon_lat a) as [b db]. unfold moon_dist. rops. cbn [pvp].
    set (r := litR 4.2635212653763e-5 / sinR (fst (moon_par a))).
    replace (4.2635212653763e-5 / sinR (fst (moon_par a))) with r by (unfold r; rlit; f_equal; lra).
    clearbody r. unfold norm, dot; cbn [vx vy vz].
    replace (r * cosR b * cosR l * (r * cosR b * cosR l) + r * cosR b * sinR l * (r * cosR b * sinR l) + r * sinR b * (r * sinR b))
      with (Rsqr r); [apply sqrt_Rsqr_abs|]. unfold Rsqr. assert (S := sc2 l). assert (S' := sc2 b).
    transitivity (r * r * (sinR b * sinR b + cosR b * cosR b * (sinR l * sinR l + cosR l * cosR l))); [rewrite S; transitivity (r * r * (sinR b * sinR b + cosR b * cosR b)); [rewrite S'; ring|ring]|ring]. }
  destruct (moon_par_bounds (moonT date)) as [_ Q]. specialize (Q (within_T _ _ W)).
  set (p := fst (moon_par (moon_args (fun x : R => x) (moonT date)))) in *.
  assert (0.002366 <= 4.2635212653763e-5 / sinR p <= 0.00281).
  { assert (0.0151 <= p <= 0.0181) by (assert (P := PI_RGT_0); split; [|]; interval_intro (PI / 180) with (i_prec 60) as HP; lra).
    assert (B1 : sinR (0.87 * (PI / 180)) <= sinR p) by (apply sin_incr_1; interval_intro PI with (i_prec 40); lra).
    assert (B2 : sinR p <= sinR (1.032 * (PI / 180))) by (apply sin_incr_1; interval_intro PI with (i_prec 40); lra).
    assert (B3 : 0.01518 <= sinR (0.87 * (PI / 180))) by interval with (i_prec 60).
    assert (B4 : sinR (1.032 * (PI / 180)) <= 0.018011) by interval with (i_prec 60).
    assert (B : 0.01518 <= sinR p <= 0.018011) by lra. clear - B. generalize dependent (sinR p). intros s B. split; interval with (i_prec 60). }
  rewrite E in N1, N2. rewrite Rabs_pos_eq in N1, N2 by lra. lra.
Qed.
Theorem C58_latitude : forall date, within 100 date -> exists lon lat r,
  pvp (palDmoon date) = mapp (moon_frame date) (scale r (dir lon lat)) /\ Rabs lat <= 8.8 * (PI / 180) /\ 0 < r.
Proof.
  intros date W. rewrite palDmoon_val. cbn [pvp]. unfold moon_ecliptic. rops. rewrite moonT_val.
  set (a := moon_args _ (moonT date)).
  exists (fst (moon_lon a)), (fst (moon_lat a)), (fst (moon_dist (moon_par a))).
  split; [|split].
  - f_equal. unfold moon_ecl. destruct (moon_lon a), (moon_lat a), (moon_dist (moon_par a)). cbn [pvp fst].
    unfold scale, dir; cbn [vx vy vz]. rops. f_equal; ring.
  - apply moon_lat_bound, within_T, W.
  - destruct (moon_par_bounds (moonT date)) as [Q _]. specialize (Q (within_T _ _ W)). fold a in Q.
    unfold moon_dist. rops. cbn [fst]. rlit. apply Rdiv_lt_0_compat; [lra|]. apply sin_gt_0; assert (P := PI_RGT_0); lra.
Qed.
Example C58_dates : within 10 48634.4687174074 /\ within 10 (-50000) /\ within 100 (-3000000).
Proof. unfold within. repeat split; apply Rabs_le; lra. Qed.
