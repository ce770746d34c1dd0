(** * Proofs: gnomonic projection, Euler angles. *)
From Coq Require Import Reals ZArith Lra Lia Psatz Bool Ascii String List.
From Verif Require Import Num NumR Erfa Geom M_Sphere P_Sphere.
Import ListNotations.
Local Open Scope R_scope.
Notation sinR := Rtrigo_def.sin. Notation cosR := Rtrigo_def.cos. Notation sqrtR := R_sqrt.sqrt.

(** Specification.  The star in direction (ra,dec) is seen at the
    tangent-plane coordinates (xi,eta) relative to the tangent point (raz,decz):
    it lies on the same side of the sphere as the tangent point and the central
    projection of the star onto the tangent plane is (xi,eta) along east and north. *)
Definition projects (ra dec raz decz xi eta : R) : Prop :=
  let s := dir ra dec in
  0 < dot s (dir raz decz) /\
  dot s (east raz) = xi * dot s (dir raz decz) /\
  dot s (north raz decz) = eta * dot s (dir raz decz).

Lemma tp_dot_t : forall ra dec raz decz, dot (dir ra dec) (dir raz decz) =
  sinR dec * sinR decz + cosR dec * cosR decz * cosR (ra - raz).
Proof. intros. unfold dot, dir; cbn [vx vy vz]. rewrite cos_minus. ring. Qed.
Lemma tp_dot_e : forall ra dec raz, dot (dir ra dec) (east raz) = cosR dec * sinR (ra - raz).
Proof. intros. unfold dot, dir, east; cbn [vx vy vz]. rewrite sin_minus. ring. Qed.
Lemma tp_dot_n : forall ra dec raz decz, dot (dir ra dec) (north raz decz) =
  sinR dec * cosR decz - cosR dec * sinR decz * cosR (ra - raz).
Proof. intros. unfold dot, dir, north; cbn [vx vy vz]. rewrite cos_minus. ring. Qed.

(** the triple east, north, outward is orthonormal *)
Lemma tp_expand : forall a b v,
  vadd (vadd (scale (dot v (east a)) (east a)) (scale (dot v (north a b)) (north a b)))
       (scale (dot v (dir a b)) (dir a b)) = v.
Proof.
  intros a b [x y z]. unfold east, north, dir, dot, scale, vadd; cbn [vx vy vz].
  generalize (sc2 a) (sc2 b). set (sa := sinR a); set (ca := cosR a); set (sb := sinR b); set (cb := cosR b).
  intros H1 H2. assert (E1 : sa * sa = 1 - ca * ca) by lra. assert (E2 : sb * sb = 1 - cb * cb) by lra.
  f_equal; ring [E1 E2].
Qed.
Lemma tp_orth : forall a b,
  dot (east a) (east a) = 1 /\ dot (north a b) (north a b) = 1 /\ dot (east a) (north a b) = 0 /\
  dot (east a) (dir a b) = 0 /\ dot (north a b) (dir a b) = 0.
Proof.
  intros a b. unfold east, north, dir, dot; cbn [vx vy vz].
  generalize (sc2 a) (sc2 b). set (sa := sinR a); set (ca := cosR a); set (sb := sinR b); set (cb := cosR b).
  intros H1 H2. assert (E1 : sa * sa = 1 - ca * ca) by lra. assert (E2 : sb * sb = 1 - cb * cb) by lra.
  repeat split; ring [E1 E2].
Qed.

Lemma palDs2tp_unf : forall ra dec raz decz,
  palDs2tp ra dec raz decz =
  let s := dir ra dec in let D := dot s (dir raz decz) in
  let '(j, d) := if Rltb (1 / 1000000) D then (0%Z, D)
                 else if Rleb 0 D then (1%Z, 1 / 1000000)
                 else if Rltb (- (1 / 1000000)) D then (2%Z, - (1 / 1000000))
                 else (3%Z, D) in
  (dot s (east raz) / d, dot s (north raz decz) / d, j).
Proof.
  intros. cbv zeta. rewrite tp_dot_t, tp_dot_e, tp_dot_n. unfold palDs2tp. rn. reflexivity.
Qed.

Definition tp_xi (o : R * R * Z) := fst (fst o).
Definition tp_eta (o : R * R * Z) := snd (fst o).
Definition tp_j (o : R * R * Z) := snd o.

Lemma palDs2tp_status : forall ra dec raz decz,
  let D := dot (dir ra dec) (dir raz decz) in
  let j := tp_j (palDs2tp ra dec raz decz) in
  (j = 0%Z <-> 1 / 1000000 < D) /\ (j = 1%Z <-> 0 <= D <= 1 / 1000000) /\
  (j = 2%Z <-> - (1 / 1000000) < D < 0) /\ (j = 3%Z <-> D <= - (1 / 1000000)).
Proof.
  intros. unfold j. rewrite palDs2tp_unf. cbv zeta. fold D. clearbody D.
  repeat rcase; unfold tp_j; cbn [snd]; repeat split; intros; try discriminate; try lra; try lia.
Qed.
Lemma palDs2tp_ok : forall ra dec raz decz xi eta,
  palDs2tp ra dec raz decz = (xi, eta, 0%Z) -> projects ra dec raz decz xi eta.
Proof.
  intros ra dec raz decz xi eta. rewrite palDs2tp_unf. cbv zeta.
  unfold projects. cbv zeta. set (D := dot (dir ra dec) (dir raz decz)). clearbody D.
  repeat rcase; intros E; inversion E. subst. split; [lra|]. split; field; lra.
Qed.
Lemma palDs2tp_of_projects : forall ra dec raz decz xi eta,
  projects ra dec raz decz xi eta -> 1 / 1000000 < dot (dir ra dec) (dir raz decz) ->
  palDs2tp ra dec raz decz = (xi, eta, 0%Z).
Proof.
  intros ra dec raz decz xi eta (H & H1 & H2) HD. rewrite palDs2tp_unf. cbv zeta.
  rewrite H1, H2. rewrite Rltb_true by easy. set (D := dot (dir ra dec) (dir raz decz)) in *. clearbody D.
  f_equal. f_equal; field; lra.
Qed.

(** ** palDtp2s *)
Lemma projects_iff : forall ra dec raz decz xi eta,
  projects ra dec raz decz xi eta <->
  exists k, 0 < k /\ dir ra dec =
    scale k (vadd (vadd (scale xi (east raz)) (scale eta (north raz decz))) (dir raz decz)).
Proof.
  intros. destruct (tp_orth raz decz) as (Oee & Onn & Oen & Oet & Ont).
  assert (Ott := dir_unit raz decz). unfold unitv in Ott.
  split.
  - intros (H & H1 & H2). set (D := dot (dir ra dec) (dir raz decz)) in *. exists D. split; [easy|].
    rewrite <- (tp_expand raz decz (dir ra dec)). rewrite H1, H2. fold D.
    destruct (east raz), (north raz decz), (dir raz decz). unfold scale, vadd; cbn. vsplit; ring.
  - intros (k & Hk & E). unfold projects. cbv zeta. rewrite E.
    rewrite !dot_scale_l. set (e := east raz) in *. set (n := north raz decz) in *. set (t := dir raz decz) in *.
    assert (Ot : dot (vadd (vadd (scale xi e) (scale eta n)) t) t = 1).
    { transitivity (xi * dot e t + eta * dot n t + dot t t);
        [destruct e, n, t; unfold dot, vadd, scale; cbn; ring|rewrite Oet, Ont, Ott; ring]. }
    assert (Oe : dot (vadd (vadd (scale xi e) (scale eta n)) t) e = xi).
    { transitivity (xi * dot e e + eta * dot e n + dot e t);
        [destruct e, n, t; unfold dot, vadd, scale; cbn; ring|rewrite Oee, Oen, Oet; ring]. }
    assert (On : dot (vadd (vadd (scale xi e) (scale eta n)) t) n = eta).
    { transitivity (xi * dot e n + eta * dot n n + dot n t);
        [destruct e, n, t; unfold dot, vadd, scale; cbn; ring|rewrite Onn, Oen, Ont; ring]. }
    rewrite Ot, Oe, On. lra.
Qed.
Lemma projects_cos : forall ra dec raz decz xi eta, projects ra dec raz decz xi eta ->
  dot (dir ra dec) (dir raz decz) = 1 / sqrtR (1 + xi * xi + eta * eta).
Proof.
  intros ra dec raz decz xi eta (H & H1 & H2).
  set (D := dot (dir ra dec) (dir raz decz)) in *.
  assert (E : 1 = D * D * (1 + xi * xi + eta * eta)).
  { assert (U := dir_unit ra dec). unfold unitv in U.
    assert (X := tp_expand raz decz (dir ra dec)). fold D in X. rewrite H1, H2 in X.
    destruct (tp_orth raz decz) as (Oee & Onn & Oen & Oet & Ont).
    assert (Ott := dir_unit raz decz). unfold unitv in Ott.
    rewrite <- U at 1. rewrite <- X. clear U. clearbody D. clear X H1 H2. set (e := east raz) in *. set (n := north raz decz) in *. set (t := dir raz decz) in *.
    transitivity (D * D * (xi * xi * dot e e + eta * eta * dot n n + dot t t + 2 * xi * eta * dot e n + 2 * xi * dot e t + 2 * eta * dot n t));
      [destruct e, n, t; unfold dot, vadd, scale; cbn; ring|rewrite Oee, Onn, Oen, Oet, Ont, Ott; ring]. }
  assert (Hq : 0 < sqrtR (1 + xi * xi + eta * eta)) by (apply sqrt_lt_R0; nra).
  assert (Hqq : sqrtR (1 + xi * xi + eta * eta) * sqrtR (1 + xi * xi + eta * eta) = 1 + xi * xi + eta * eta)
    by (apply sqrt_sqrt; nra).
  set (q := sqrtR _) in *. apply (Rmult_eq_reg_r q); [|lra].
  replace (1 / q * q) with 1 by (field; lra).
  rewrite <- Hqq in E. assert (Z : (D * q - 1) * (D * q + 1) = 0) by nra.
  apply Rmult_integral in Z. destruct Z; [lra|nra].
Qed.
Lemma palDtp2s_spec : forall xi eta raz decz,
  let o := palDtp2s xi eta raz decz in
  0 <= fst o < 2 * PI /\ - (PI / 2) <= snd o <= PI / 2 /\
  projects (fst o) (snd o) raz decz xi eta.
Proof.
  intros. unfold o, palDtp2s. rn. cbv zeta. cbn [fst snd].
  set (sz := sinR decz). set (cz := cosR decz). set (d := cz - eta * sz). set (w := sz + eta * cz).
  split; [apply eraAnp_range|]. split; [apply atan2_half, sqrt_pos|].
  apply projects_iff.
  set (r := sqrtR (xi * xi + d * d)).
  assert (Hrr : r * r = xi * xi + d * d) by (apply sqrt_sqrt; nra).
  assert (Hr : 0 <= r) by apply sqrt_pos.
  assert (S2 : sz * sz + cz * cz = 1) by apply sc2.
  assert (Eq : r * r + w * w = 1 + xi * xi + eta * eta).
  { rewrite Hrr. unfold d, w. transitivity (xi * xi + (sz * sz + cz * cz) * (1 + eta * eta)); [ring|rewrite S2; ring]. }
  set (q := sqrtR (r * r + w * w)).
  assert (Hq : 0 < q) by (apply sqrt_lt_R0; nra).
  exists (1 / q). split; [apply Rdiv_lt_0_compat; lra|].
  assert (C1 : cosR (atan2R w r) = r / q) by (apply atan2_cos; nra).
  assert (C2 : sinR (atan2R w r) = w / q) by (apply atan2_sin; nra).
  set (t := atan2R xi d).
  destruct (atan2_polar xi d) as [P1 P2]. fold t in P1, P2.
  replace (d * d + xi * xi) with (xi * xi + d * d) in P1, P2 by ring. fold r in P1, P2.
  assert (A := eraAnp_cong (t + raz)).
  unfold dir. rewrite C1, C2, (cong_cos _ _ A), (cong_sin _ _ A), cos_plus, sin_plus.
  unfold east, north, vadd, scale; cbn [vx vy vz]. fold sz cz.
  f_equal.
  - transitivity (((r * cosR t) * cosR raz - (r * sinR t) * sinR raz) / q); [field; lra|].
    rewrite <- P1, <- P2. unfold d. field. lra.
  - transitivity (((r * sinR t) * cosR raz + (r * cosR t) * sinR raz) / q); [field; lra|].
    rewrite <- P1, <- P2. unfold d. field. lra.
  - unfold w. field. lra.
Qed.

(** the same direction is the same (ra,dec) up to the pole/2pi ambiguity *)
Lemma projects_unique : forall ra dec ra' dec' raz decz xi eta,
  projects ra dec raz decz xi eta -> projects ra' dec' raz decz xi eta -> dir ra dec = dir ra' dec'.
Proof.
  intros ra dec ra' dec' raz decz xi eta H H'.
  assert (E := projects_cos _ _ _ _ _ _ H). assert (E' := projects_cos _ _ _ _ _ _ H').
  destruct H as (_ & A & B), H' as (_ & A' & B').
  rewrite <- (tp_expand raz decz (dir ra dec)), <- (tp_expand raz decz (dir ra' dec')).
  rewrite A, B, A', B', E, E'. easy.
Qed.

(** ** palDtps2c *)
Section Tps2c.
  Variables xi eta ra dec : R.
  Hypothesis Hdec : - (PI / 2) <= dec <= PI / 2.
  Let sd := sinR dec. Let cd := cosR dec.
  Let q := sqrtR (xi * xi + 1 + eta * eta).
  Let sdf := sd * q.
  Let r2 := cd * cd * (eta * eta + 1) - sd * sd * (xi * xi).
  Lemma tps_cd : 0 <= cd. Proof. apply cos_ge_0; lra. Qed.
  Lemma tps_sc : sd * sd + cd * cd = 1. Proof. apply sc2. Qed.
  Lemma tps_q : 0 < q /\ q * q = xi * xi + 1 + eta * eta.
  Proof. split; [apply sqrt_lt_R0; nra|apply sqrt_sqrt; nra]. Qed.
  Lemma tps_r2 : r2 = 1 + eta * eta - sdf * sdf.
  Proof.
    destruct tps_q as [_ Hq]. unfold r2, sdf.
    replace (sd * q * (sd * q)) with (sd * sd * (q * q)) by ring. rewrite Hq.
    replace (cd * cd) with (1 - sd * sd) by (generalize tps_sc; lra). ring.
  Qed.
  (* both branches, rho = +r or -r *)
  Lemma tps_branch : forall rho dz raz, rho * rho = r2 -> 
    cosR dz = (sdf * eta + rho) / (1 + eta * eta) -> sinR dz = (sdf - eta * rho) / (1 + eta * eta) ->
    cd * q * cosR (ra - raz) = rho -> cd * q * sinR (ra - raz) = xi ->
    projects ra dec raz dz xi eta.
  Proof.
    intros rho dz raz Hrho C S Cr Sr.
    destruct tps_q as [Hq Hqq]. assert (Hy : 0 < 1 + eta * eta) by nra.
    assert (Er := tps_r2). rewrite <- Hrho in Er.
    assert (Cr' : cd * cosR (ra - raz) = rho / q) by (rewrite <- Cr; field; lra).
    assert (Sr' : cd * sinR (ra - raz) = xi / q) by (rewrite <- Sr; field; lra).
    assert (Ht : dot (dir ra dec) (dir raz dz) = 1 / q).
    { rewrite tp_dot_t. fold sd cd.
      replace (cd * cosR dz * cosR (ra - raz)) with (cosR dz * (cd * cosR (ra - raz))) by ring.
      rewrite Cr', C, S. unfold sdf in *.
      transitivity ((sd * q * (sd * q) + rho * rho) / (q * (1 + eta * eta))); [field; lra|].
      rewrite Er. field. lra. }
    assert (He : dot (dir ra dec) (east raz) = xi / q) by (rewrite tp_dot_e; fold cd; easy).
    assert (Hn : dot (dir ra dec) (north raz dz) = eta / q).
    { rewrite tp_dot_n. fold sd cd.
      replace (cd * sinR dz * cosR (ra - raz)) with (sinR dz * (cd * cosR (ra - raz))) by ring.
      rewrite Cr', C, S. unfold sdf in *.
      transitivity (eta * (sd * q * (sd * q) + rho * rho) / (q * (1 + eta * eta))); [field; lra|].
      rewrite Er. field. lra. }
    unfold projects. cbv zeta. rewrite Ht, He, Hn. split; [apply Rdiv_lt_0_compat; lra|].
    split; field; lra.
  Qed.
  Lemma tps_dz : forall rho, rho * rho = r2 ->
    let dz := atan2R (sdf - eta * rho) (sdf * eta + rho) in
    cosR dz = (sdf * eta + rho) / (1 + eta * eta) /\ sinR dz = (sdf - eta * rho) / (1 + eta * eta).
  Proof.
    intros rho Hrho dz. assert (Er := tps_r2). rewrite <- Hrho in Er.
    assert (Hy : 0 < 1 + eta * eta) by nra.
    assert (E : (sdf * eta + rho) * (sdf * eta + rho) + (sdf - eta * rho) * (sdf - eta * rho) = (1 + eta * eta) * (1 + eta * eta)).
    { transitivity ((1 + eta * eta) * (sdf * sdf + rho * rho)); [ring|rewrite Er; ring]. }
    assert (N : sdf * eta + rho <> 0 \/ sdf - eta * rho <> 0).
    { destruct (Req_dec (sdf * eta + rho) 0) as [Z|Z]; [right|left; easy]. intros Z'. rewrite Z, Z' in E. nra. }
    unfold dz. rewrite atan2_cos, atan2_sin by easy. rewrite E, sqrt_square by lra. easy.
  Qed.
  Lemma tps_az : forall rho, rho * rho = r2 -> 0 < cd ->
    let raz := eraAnp (ra - atan2R xi rho) in
    cd * q * cosR (ra - raz) = rho /\ cd * q * sinR (ra - raz) = xi.
  Proof.
    intros rho Hrho Hc raz. destruct tps_q as [Hq Hqq]. assert (Er := tps_r2). rewrite <- Hrho in Er.
    assert (A : cong (ra - raz) (atan2R xi rho)).
    { unfold raz. destruct (eraAnp_cong (ra - atan2R xi rho)) as [k Hk]. exists (- k)%Z. rewrite Hk, opp_IZR. ring. }
    rewrite (cong_cos _ _ A), (cong_sin _ _ A).
    assert (H : sqrtR (rho * rho + xi * xi) = cd * q).
    { rewrite Er. unfold sdf. replace (1 + eta * eta - sd * q * (sd * q) + xi * xi) with ((cd * q) * (cd * q)).
      - apply sqrt_square. nra.
      - replace (cd * q * (cd * q)) with ((cd * cd) * (q * q)) by ring. 
        replace (cd * cd) with (1 - sd * sd) by (generalize tps_sc; lra).
        transitivity (q * q - sd * q * (sd * q)); [ring|]. rewrite Hqq at 1. ring. }
    destruct (atan2_polar xi rho) as [P1 P2]. rewrite H in P1, P2. split; symmetry; easy.
  Qed.

  Lemma palDtps2c_unf : palDtps2c xi eta ra dec =
    if Rleb 0 r2 then
      let r := sqrtR r2 in
      let r' := if Reqb xi 0 && Reqb r 0 then 1 else r in
      ((if Rltb (Rabs sdf) 1 then 1%Z else 2%Z),
       Some ((eraAnp (ra - atan2R xi r'), atan2R (sdf - eta * r) (sdf * eta + r)),
             (eraAnp (ra - atan2R xi (- r')), atan2R (sdf - eta * - r') (sdf * eta + - r'))))
    else (0%Z, None).
  Proof. unfold palDtps2c. rn. fold sd cd. fold q. fold sdf. fold r2. reflexivity. Qed.

  Lemma tps_first : forall n raz1 decz1 s2, palDtps2c xi eta ra dec = (n, Some ((raz1, decz1), s2)) ->
    projects ra dec raz1 decz1 xi eta.
  Proof.
    intros n raz1 decz1 s2. rewrite palDtps2c_unf. cbv zeta. destruct (Rleb_spec 0 r2) as [r|r]; [|easy].
    assert (Hr : sqrtR r2 * sqrtR r2 = r2) by (apply sqrt_sqrt; easy).
    set (rr := sqrtR r2) in *. intros E. inversion E. clear E.
    destruct (tps_dz rr Hr) as [C S].
    destruct (Rle_lt_or_eq_dec _ _ tps_cd) as [Hc|Hc].
    - destruct (tps_az rr Hr Hc) as [Cr Sr].
      assert (Hb : Reqb xi 0 && Reqb rr 0 = false).
      { destruct (Reqb_spec xi 0), (Reqb_spec rr 0); cbn; try easy. exfalso.
        unfold r2 in Hr. rewrite e, e0 in Hr. clear -Hr Hc. nra. }
      rewrite Hb. now apply (tps_branch rr).
    - assert (Hx : xi = 0 /\ rr = 0).
      { assert (HH := r). unfold r2 in HH. rewrite <- Hc in HH.
        assert (Hsd : sd * sd = 1) by (generalize tps_sc; rewrite <- Hc; lra). rewrite Hsd in HH.
        assert (HX : xi = 0) by nra. split; [easy|]. unfold r2 in Hr. rewrite <- Hc, Hsd, HX in Hr. nra. }
      destruct Hx as [Hx Hrr]. apply (tps_branch rr); try easy.
      + rewrite <- Hc. rewrite Hrr. ring.
      + rewrite <- Hc, Hx. ring.
  Qed.
  Lemma tps_second : forall n raz2 decz2 s1, palDtps2c xi eta ra dec = (n, Some (s1, (raz2, decz2))) ->
    cosR dec <> 0 -> projects ra dec raz2 decz2 xi eta.
  Proof.
    intros n raz2 decz2 s1. rewrite palDtps2c_unf. cbv zeta. destruct (Rleb_spec 0 r2) as [r|r]; [|easy].
    assert (Hr : sqrtR r2 * sqrtR r2 = r2) by (apply sqrt_sqrt; easy).
    set (rr := sqrtR r2) in *. intros E Hn. inversion E. clear E.
    assert (Hc : 0 < cd) by (generalize tps_cd; fold cd in Hn; lra).
    assert (Hb : Reqb xi 0 && Reqb rr 0 = false).
    { destruct (Reqb_spec xi 0), (Reqb_spec rr 0); cbn; try easy. exfalso.
      unfold r2 in Hr. rewrite e, e0 in Hr. clear -Hr Hc. nra. }
    rewrite Hb. assert (Hr' : - rr * - rr = r2) by (rewrite <- Hr; ring).
    destruct (tps_dz (- rr) Hr') as [C S]. destruct (tps_az (- rr) Hr' Hc) as [Cr Sr].
    now apply (tps_branch (- rr)).
  Qed.
  (** every tangent point is one of the two *)
  Lemma tps_complete : forall raz decz, projects ra dec raz decz xi eta ->
    exists n s1 s2, palDtps2c xi eta ra dec = (n, Some (s1, s2)) /\ (1 <= n <= 2)%Z /\
    (cosR dec <> 0 -> (cong raz (fst s1) /\ cong decz (snd s1)) \/ (cong raz (fst s2) /\ cong decz (snd s2))).
  Proof.
    intros raz decz H. destruct tps_q as [Hq Hqq]. assert (Hy : 0 < 1 + eta * eta) by nra.
    assert (Ht := projects_cos _ _ _ _ _ _ H).
    replace (1 + xi * xi + eta * eta) with (xi * xi + 1 + eta * eta) in Ht by ring. fold q in Ht.
    destruct H as (_ & He & Hn). rewrite Ht in He, Hn.
    rewrite tp_dot_t in Ht. rewrite tp_dot_e in He. rewrite tp_dot_n in Hn. fold sd cd in Ht, He, Hn.
    set (D := cosR (ra - raz)) in *. set (S := sinR (ra - raz)) in *.
    assert (W := sc2 decz). set (sz := sinR decz) in *. set (cz := cosR decz) in *.
    (* sd = (sz + eta cz)/q ; cd D = (cz - eta sz)/q *)
    assert (H1 : sdf = sz + eta * cz).
    { unfold sdf. transitivity (((sd * sz + cd * cz * D) * sz + (sd * cz - cd * sz * D) * cz) * q).
      - transitivity (sd * q * (sz * sz + cz * cz)); [rewrite W; ring|ring].
      - rewrite Ht, Hn. field. lra. }
    assert (H2 : cd * q * D = cz - eta * sz).
    { transitivity (((sd * sz + cd * cz * D) * cz - (sd * cz - cd * sz * D) * sz) * q).
      - transitivity (cd * q * D * (sz * sz + cz * cz)); [rewrite W; ring|ring].
      - rewrite Ht, Hn. field. lra. }
    assert (H3 : cd * q * S = xi) by (replace (cd * q * S) with (cd * S * q) by ring; rewrite He; field; lra).
    assert (Hr2 : r2 = (cz - eta * sz) * (cz - eta * sz)).
    { rewrite tps_r2, H1. transitivity ((1 + eta * eta) * (sz * sz + cz * cz) - (sz + eta * cz) * (sz + eta * cz)); [rewrite W; ring|ring]. }
    rewrite palDtps2c_unf. cbv zeta. rewrite Rleb_true by (rewrite Hr2; apply Rle_0_sqr).
    eexists _, _, _. split; [reflexivity|]. split; [destruct (Rltb (Rabs sdf) 1); lia|]. intros Hne. cbn [fst snd].
    assert (Hc : 0 < cd) by (generalize tps_cd; fold cd in Hne; lra).
    assert (Hr : sqrtR r2 * sqrtR r2 = r2) by (apply sqrt_sqrt; rewrite Hr2; apply Rle_0_sqr).
    assert (Hr0 := sqrt_pos r2). set (rr := sqrtR r2) in *.
    assert (Hb : Reqb xi 0 && Reqb rr 0 = false).
    { destruct (Reqb_spec xi 0), (Reqb_spec rr 0); cbn; try easy. exfalso.
      unfold r2 in Hr. rewrite e, e0 in Hr. clear -Hr Hc. nra. }
    rewrite Hb.
    assert (G : forall rho, rho = cz - eta * sz -> rho * rho = r2 ->
       cong raz (eraAnp (ra - atan2R xi rho)) /\ cong decz (atan2R (sdf - eta * rho) (sdf * eta + rho))).
    { intros rho E1 E2. destruct (tps_dz rho E2) as [C1 S1]. destruct (tps_az rho E2 Hc) as [C2 S2].
      split.
      - assert (Q : 0 < cd * q) by nra.
        assert (K : cong (ra - raz) (ra - eraAnp (ra - atan2R xi rho))).
        { apply same_sc_cong.
          - apply (Rmult_eq_reg_l (cd * q)); [|lra]. fold D. rewrite H2, C2. easy.
          - apply (Rmult_eq_reg_l (cd * q)); [|lra]. fold S. rewrite H3, S2. easy. }
        destruct K as [k K]. exists (- k)%Z. rewrite opp_IZR. lra.
      - apply same_sc_cong.
        + rewrite C1, H1, E1. fold cz. field. lra.
        + rewrite S1, H1, E1. fold sz. field. lra. }
    destruct (Rle_dec 0 (cz - eta * sz)).
    - left. apply G; [|easy]. assert (Z : (rr - (cz - eta * sz)) * (rr + (cz - eta * sz)) = 0) by nra.
      apply Rmult_integral in Z. destruct Z; lra.
    - right. apply G; [|nra]. assert (Z : (rr - (cz - eta * sz)) * (rr + (cz - eta * sz)) = 0) by nra.
      apply Rmult_integral in Z. destruct Z; lra.
  Qed.
  Lemma tps_none : forall n, palDtps2c xi eta ra dec = (n, None) -> n = 0%Z.
  Proof. intros n. rewrite palDtps2c_unf. cbv zeta. destruct (Rleb_spec 0 r2) as [r|r]; intros E; inversion E. easy. Qed.
  Lemma tps_one : forall s1 s2, palDtps2c xi eta ra dec = (1%Z, Some (s1, s2)) ->
    0 < cosR (snd s1) /\ cosR (snd s2) < 0 /\ 0 <= fst s1 < 2 * PI /\ 0 <= fst s2 < 2 * PI.
  Proof.
    intros s1 s2. rewrite palDtps2c_unf. cbv zeta. destruct (Rleb_spec 0 r2) as [r|r]; [|easy].
    assert (Hr : sqrtR r2 * sqrtR r2 = r2) by (apply sqrt_sqrt; easy).
    assert (Hr0 := sqrt_pos r2). set (rr := sqrtR r2) in *.
    rcase; intros E; inversion E. clear E. cbn [fst snd].
    assert (Hy : 0 < 1 + eta * eta) by nra.
    assert (E2 := tps_r2). apply Rabs_def2 in r0.
    assert (Hs : sdf * sdf < 1) by nra.
    assert (Hp : eta * eta < r2) by lra.
    assert (Hrr : rr <> 0) by nra.
    rewrite (Reqb_false rr 0) by easy. rewrite andb_false_r.
    destruct (tps_dz rr Hr) as [C1 _]. assert (Hr' : - rr * - rr = r2) by (rewrite <- Hr; ring).
    destruct (tps_dz (- rr) Hr') as [C2 _]. rewrite C1, C2.
    assert (Hi : 0 < / (1 + eta * eta)) by now apply Rinv_0_lt_compat.
    assert (B : - rr < sdf * eta < rr).
    { assert (sdf * eta * (sdf * eta) <= eta * eta) by nra. split; nra. }
    repeat split; try apply eraAnp_range.
    - apply Rmult_lt_0_compat; lra.
    - replace ((sdf * eta + - rr) / (1 + eta * eta)) with (- ((rr - sdf * eta) * / (1 + eta * eta))) by (field; lra).
      assert (0 < (rr - sdf * eta) * / (1 + eta * eta)) by (apply Rmult_lt_0_compat; lra). lra.
  Qed.
  Lemma tps_two : forall s1 s2, palDtps2c xi eta ra dec = (2%Z, Some (s1, s2)) -> cosR dec <> 0 ->
    0 <= cosR (snd s1) * cosR (snd s2) /\ 0 <= fst s1 < 2 * PI /\ 0 <= fst s2 < 2 * PI.
  Proof.
    intros s1 s2. rewrite palDtps2c_unf. cbv zeta. destruct (Rleb_spec 0 r2) as [r|r]; [|easy].
    assert (Hr : sqrtR r2 * sqrtR r2 = r2) by (apply sqrt_sqrt; easy).
    assert (Hr0 := sqrt_pos r2). set (rr := sqrtR r2) in *.
    destruct (Rltb_spec (Rabs sdf) 1) as [n0|n0]; intros E; inversion E. clear E. intros Hne. cbn [fst snd].
    assert (Hc : 0 < cd) by (generalize tps_cd; fold cd in Hne; lra).
    assert (Hb : Reqb xi 0 && Reqb rr 0 = false).
    { destruct (Reqb_spec xi 0), (Reqb_spec rr 0); cbn; try easy. exfalso.
      unfold r2 in Hr. rewrite e, e0 in Hr. clear -Hr Hc. nra. }
    rewrite Hb.
    assert (Hy : 0 < 1 + eta * eta) by nra.
    assert (E2 := tps_r2).
    assert (Hs : 1 <= sdf * sdf).
    { apply Rnot_lt_le in n0. generalize (Rabs_pos sdf). intros. 
      replace (sdf * sdf) with (Rabs sdf * Rabs sdf) by (rewrite <- Rabs_mult; apply Rabs_pos_eq; nra). nra. }
    destruct (tps_dz rr Hr) as [C1 _]. assert (Hr' : - rr * - rr = r2) by (rewrite <- Hr; ring).
    destruct (tps_dz (- rr) Hr') as [C2 _]. rewrite C1, C2.
    repeat split; try apply eraAnp_range.
    replace ((sdf * eta + rr) / (1 + eta * eta) * ((sdf * eta + - rr) / (1 + eta * eta)))
      with ((sdf * sdf - 1) * (/ (1 + eta * eta))).
    - apply Rmult_le_pos; [lra|]. left. now apply Rinv_0_lt_compat.
    - transitivity ((sdf * sdf * (eta * eta) - rr * rr) / ((1 + eta * eta) * (1 + eta * eta))); [rewrite Hr, E2|]; field; lra.
  Qed.
End Tps2c.

(** ** palDeuler *)
(** the axes named by the longest valid prefix of at most [n] characters *)
Fixpoint euler_axes (n : nat) (s : string) : list axis :=
  match n, s with
  | S n', String c s' => match axis_of c with Some a => a :: euler_axes n' s' | None => nil end
  | _, _ => nil
  end.
Definition axis_rot (a : axis) : R -> mat R := match a with AX => rotx | AY => roty | AZ => rotz end.
(** successive rotations: the first listed is applied first *)
Definition euler_product (l : list (axis * R)) : mat R :=
  fold_left (fun m p => mmul (axis_rot (fst p) (snd p)) m) l mid.
Lemma deuler_loop_spec : forall rot order m,
  deuler_loop order rot m =
  fold_left (fun m p => mmul (axis_rot (fst p) (snd p)) m) (combine (euler_axes (List.length rot) order) rot) m.
Proof.
  induction rot as [|t rot IH]; intros order m; [destruct order; easy|].
  destruct order as [|c order]; [easy|]. cbn [deuler_loop euler_axes List.length].
  destruct (axis_of c) as [a|]; [|easy]. cbn [combine fold_left fst snd]. rewrite IH. do 2 f_equal.
  destruct a; cbn [era_rot axis_rot]; [apply eraRx_mmul|apply eraRy_mmul|apply eraRz_mmul].
Qed.
Lemma palDeuler_product : forall order phi theta psi,
  palDeuler order phi theta psi =
  euler_product (combine (euler_axes 3 order) [phi; theta; psi]).
Proof. intros. unfold palDeuler. rewrite deuler_loop_spec. reflexivity. Qed.
Lemma euler_product_rot : forall l, rotation (euler_product l).
Proof.
  intros l. unfold euler_product. assert (H := rotation_mid). revert H. generalize mid.
  induction l as [|[a t] l IH]; intros m H; [easy|]. cbn [fold_left fst snd]. apply IH.
  apply rotation_mmul; [|easy]. destruct a; [apply rotx_rot|apply roty_rot|apply rotz_rot].
Qed.
