(** * Osculating elements: geometry of the conic, time of perihelion *)
From Coq Require Import Reals ZArith Lra Lia Psatz Bool.
From Coquelicot Require Import Coquelicot.
From Verif Require Import Num NumR Erfa Geom P_Frames P_Eterms M_Place M_Orbit P_Orbit Props_Orbit Univ Uniq.
Local Open Scope R_scope.
Local Notation c_ := Rtrigo_def.cos. Local Notation s_ := Rtrigo_def.sin.

(** ** Specification: directions in the orbital plane *)
(** [odir i Om th]: unit vector in the plane of inclination [i] and ascending node [Om], at angle [th] from the node *)
Definition odir (i Om th : R) : vec R :=
  V (c_ Om * c_ th - s_ Om * c_ i * s_ th) (s_ Om * c_ th + c_ Om * c_ i * s_ th) (s_ i * s_ th).
(** unit vector along the angular momentum *)
Definition opole (i Om : R) : vec R := V (s_ i * s_ Om) (- (s_ i * c_ Om)) (c_ i).
(** state at perihelion: distance [q], eccentricity [e], gravitational parameter [mu], argument of perihelion [om] *)
Definition peri_pos (q i Om om : R) : vec R := scale q (odir i Om om).
Definition peri_vel (mu q e i Om om : R) : vec R := scale (R_sqrt.sqrt (mu * (1 + e) / q)) (odir i Om (om + PI / 2)).

Lemma odir_add : forall i Om a b, odir i Om (a + b) = vadd (scale (c_ b) (odir i Om a)) (scale (s_ b) (odir i Om (a + PI / 2))).
Proof.
  intros. unfold odir, vadd, scale; cbn [vx vy vz]. rewrite !cos_plus, !sin_plus, cos_PI2, sin_PI2. f_equal; ring.
Qed.
Lemma odir_quad : forall i Om a, odir i Om (a + PI / 2) = V (- c_ Om * s_ a - s_ Om * c_ i * c_ a) (- s_ Om * s_ a + c_ Om * c_ i * c_ a) (s_ i * c_ a).
Proof. intros. unfold odir. rewrite cos_plus, sin_plus, cos_PI2, sin_PI2. f_equal; ring. Qed.
Lemma odir_unit : forall i Om a, dot (odir i Om a) (odir i Om a) = 1.
Proof.
  intros. unfold odir, dot; cbn [vx vy vz]. generalize (sc2 i) (sc2 Om) (sc2 a). intros A B C.
  transitivity (c_ a * c_ a * (s_ Om * s_ Om + c_ Om * c_ Om) + s_ a * s_ a * (c_ i * c_ i * (s_ Om * s_ Om + c_ Om * c_ Om) + s_ i * s_ i)); [ring|].
  rewrite B, Rmult_1_r, Rmult_1_r. replace (c_ i * c_ i + s_ i * s_ i) with 1 by lra. lra.
Qed.
Lemma odir_orth : forall i Om a, dot (odir i Om a) (odir i Om (a + PI / 2)) = 0.
Proof.
  intros. rewrite odir_quad. unfold odir, dot; cbn [vx vy vz]. generalize (sc2 i) (sc2 Om). intros A B.
  transitivity (c_ a * s_ a * ((c_ i * c_ i - 1) * (s_ Om * s_ Om + c_ Om * c_ Om) + s_ i * s_ i)); [ring|]. rewrite B. 
  replace ((c_ i * c_ i - 1) * 1 + s_ i * s_ i) with 0 by lra. ring.
Qed.
Lemma odir_cross : forall i Om a, cross (odir i Om a) (odir i Om (a + PI / 2)) = opole i Om.
Proof.
  intros. rewrite odir_quad. unfold odir, opole, cross; cbn [vx vy vz]. generalize (sc2 a) (sc2 Om). intros A B.
  f_equal.
  - transitivity (s_ i * s_ Om * (s_ a * s_ a + c_ a * c_ a)); [ring|rewrite A; ring].
  - transitivity (- (s_ i * c_ Om) * (s_ a * s_ a + c_ a * c_ a)); [ring|rewrite A; ring].
  - transitivity (c_ i * (s_ a * s_ a + c_ a * c_ a) * (s_ Om * s_ Om + c_ Om * c_ Om)); [ring|rewrite A, B; ring].
Qed.
(** the three vectors form an orthonormal basis *)
Lemma obasis : forall i Om a x, x = vadd (vadd (scale (dot x (odir i Om a)) (odir i Om a)) (scale (dot x (odir i Om (a + PI / 2))) (odir i Om (a + PI / 2))))
  (scale (dot x (opole i Om)) (opole i Om)).
Proof.
  intros. rewrite odir_quad. unfold odir, opole, vadd, scale, dot; destruct x as [x y z]; cbn [vx vy vz].
  generalize (sc2 i) (sc2 Om) (sc2 a). intros A B C.
  set (ci := c_ i) in *. set (si := s_ i) in *. set (cO := c_ Om) in *. set (sO := s_ Om) in *. set (ca := c_ a) in *. set (sa := s_ a) in *.
  clearbody ci si cO sO ca sa.
  assert (A' : si * si = 1 - ci * ci) by lra. assert (B' : sO * sO = 1 - cO * cO) by lra. assert (C' : sa * sa = 1 - ca * ca) by lra.
  f_equal.
  - transitivity (x * (cO * cO * (ca * ca + sa * sa) + sO * sO * (ci * ci * (ca * ca + sa * sa) + si * si)) +
      y * cO * sO * ((ca * ca + sa * sa) * (1 - ci * ci) - si * si) + z * sO * si * ci * (1 - (ca * ca + sa * sa))); [|ring].
    rewrite A', B', C'. ring.
  - transitivity (y * (sO * sO * (ca * ca + sa * sa) + cO * cO * (ci * ci * (ca * ca + sa * sa) + si * si)) +
      x * cO * sO * ((ca * ca + sa * sa) * (1 - ci * ci) - si * si) + z * cO * si * ci * ((ca * ca + sa * sa) - 1)); [|ring].
    rewrite A', B', C'. ring.
  - transitivity (z * (si * si * (ca * ca + sa * sa) + ci * ci) + x * sO * si * ci * (1 - (ca * ca + sa * sa)) + y * cO * si * ci * ((ca * ca + sa * sa) - 1)); [|ring].
    rewrite A', C'. ring.
Qed.

Lemma opole_unit : forall i Om, dot (opole i Om) (opole i Om) = 1.
Proof.
  intros. unfold opole, dot; cbn [vx vy vz]. generalize (sc2 i) (sc2 Om). intros S1 S2.
  transitivity (s_ i * s_ i * (s_ Om * s_ Om + c_ Om * c_ Om) + c_ i * c_ i); [ring|]. rewrite S2. lra.
Qed.
(** ** What pv_conic computes *)
Section Conic.
  Variables (x v : vec R) (mu : R).
  Hypotheses (Hr : 0 < norm x) (Hmu : 0 < mu) (Hh : cross x v <> vzero).
  Let r := norm x. Let k := pv_conic x v (norm x) (dot v v) mu.
  Let h2 := dot (cross x v) (cross x v). Let h := norm (cross x v).
  Definition ecc2 : R := 1 + (dot v v - 2 * mu / norm x) * dot (cross x v) (cross x v) / (mu * mu).
  Lemma h_pos : 0 < h. Proof. apply norm_gt0, Hh. Qed.
  Lemma h_h2 : h * h = h2. Proof. apply norm_sq. Qed.
  Lemma rr : r * r = dot x x. Proof. apply norm_sq. Qed.
  Lemma k_h2_val : k_h2 k = h2. Proof. unfold k, pv_conic; cbn [k_h2]. rops. unfold h2, dot, cross; cbn [vx vy vz]. ring. Qed.
  Lemma k_h_val : k_h k = h. Proof. unfold k, pv_conic; cbn [k_h]. rops. unfold h, norm, dot, cross; cbn [vx vy vz]. reflexivity. Qed.
  Lemma k_pole : cross x v = scale h (opole (k_oi k) (k_bigom k)) /\ 0 <= k_oi k <= PI.
  Proof.
    unfold k, pv_conic; cbn [k_oi k_bigom]. rops. replace (litR 0.0) with 0 by (rlit; lra).
    assert (Hx := h_h2). unfold h2 in Hx. assert (P := h_pos).
    set (a := vy x * vz v - vz x * vy v). set (b := vz x * vx v - vx x * vz v). set (c := vx x * vy v - vy x * vx v).
    change (cross x v) with (V a b c) in *. unfold dot in Hx; cbn [vx vy vz] in Hx.
    clearbody a b c. unfold opole, scale; cbn [vx vy vz].
    destruct (atan2_polar (R_sqrt.sqrt (a * a + b * b)) c) as [Pc Ps].
    assert (S : R_sqrt.sqrt (a * a + b * b) * R_sqrt.sqrt (a * a + b * b) = a * a + b * b) by (apply sqrt_sqrt; nra).
    replace (R_sqrt.sqrt (c * c + R_sqrt.sqrt (a * a + b * b) * R_sqrt.sqrt (a * a + b * b))) with h in Pc, Ps.
    2:{ rewrite S. replace (c * c + (a * a + b * b)) with (h * h) by lra. rewrite sqrt_square; lra. }
    set (oi := atan2R (R_sqrt.sqrt (a * a + b * b)) c) in *.
    split.
    - assert (Q : a = R_sqrt.sqrt (a * a + b * b) * s_ (if negb (Reqb a 0) || negb (Reqb b 0) then atan2R a (- b) else 0) /\
        - b = R_sqrt.sqrt (a * a + b * b) * c_ (if negb (Reqb a 0) || negb (Reqb b 0) then atan2R a (- b) else 0)).
      { destruct (Reqb_spec a 0) as [Za|Za], (Reqb_spec b 0) as [Zb|Zb]; cbn [negb orb].
        - rewrite Za, Zb. replace (0 * 0 + 0 * 0) with 0 by ring. rewrite sqrt_0. split; ring.
        - destruct (atan2_polar a (- b)) as [Q1 Q2]. replace (- b * - b + a * a) with (a * a + b * b) in Q1, Q2 by ring. split; assumption.
        - destruct (atan2_polar a (- b)) as [Q1 Q2]. replace (- b * - b + a * a) with (a * a + b * b) in Q1, Q2 by ring. split; assumption.
        - destruct (atan2_polar a (- b)) as [Q1 Q2]. replace (- b * - b + a * a) with (a * a + b * b) in Q1, Q2 by ring. split; assumption. }
      destruct Q as [Q1 Q2]. set (Om := if negb (Reqb a 0) || negb (Reqb b 0) then atan2R a (- b) else 0) in *.
      f_equal; [rewrite Q1 at 1; rewrite Ps; ring|replace b with (- (- b)) at 1 by ring; rewrite Q2 at 1; rewrite Ps; ring|exact Pc].
    - assert (G := atan2_range (R_sqrt.sqrt (a * a + b * b)) c). fold oi in G. split; [|lra].
      destruct (Rle_lt_dec 0 oi) as [L|L]; [exact L|exfalso].
      assert (s_ oi < 0) by (apply sin_lt_0_var; lra). assert (0 <= R_sqrt.sqrt (a * a + b * b)) by apply sqrt_pos. nra.
  Qed.
  Let i := k_oi k. Let Om := k_bigom k. Let nu := k_at k. Let om := k_om k.
  Lemma x_pole : dot x (opole i Om) = 0.
  Proof.
    destruct k_pole as [K _]. fold i Om in K. assert (Z : dot x (cross x v) = 0) by (unfold dot, cross; cbn [vx vy vz]; ring).
    rewrite K in Z. assert (P := h_pos). unfold dot, scale in *; cbn [vx vy vz] in *. apply Rmult_eq_reg_l with h; lra.
  Qed.
  Lemma v_pole : dot v (opole i Om) = 0.
  Proof.
    destruct k_pole as [K _]. fold i Om in K. assert (Z : dot v (cross x v) = 0) by (unfold dot, cross; cbn [vx vy vz]; ring).
    rewrite K in Z. assert (P := h_pos). unfold dot, scale in *; cbn [vx vy vz] in *. apply Rmult_eq_reg_l with h; lra.
  Qed.
  Lemma k_pos : x = scale r (odir i Om (om + nu)).
  Proof.
    assert (B := obasis i Om 0 x). rewrite x_pole in B.
    set (A0 := dot x (odir i Om 0)) in *. set (A1 := dot x (odir i Om (0 + PI / 2))) in *.
    assert (Eu : om + nu = atan2R A1 A0).
    { unfold om, nu, k, pv_conic; cbn [k_om k_at]. rops. fold i Om. 
      match goal with |- atan2R ?a ?b - ?t + ?t = _ => transitivity (atan2R a b); [ring|] end.
      unfold A0, A1. rewrite odir_quad. unfold odir, dot; cbn [vx vy vz]. rewrite cos_0, sin_0.
      f_equal; unfold i, Om, k, pv_conic; cbn [k_oi k_bigom]; rops; ring. }
    rewrite Eu. destruct (atan2_polar A1 A0) as [Q1 Q2].
    assert (N : R_sqrt.sqrt (A0 * A0 + A1 * A1) = r).
    { replace (A0 * A0 + A1 * A1) with (dot x x).
      - reflexivity.
      - rewrite B. unfold A0, A1. rewrite odir_quad. unfold odir. rewrite cos_0, sin_0. unfold vadd, scale, dot; cbn [vx vy vz].
        generalize (sc2 i) (sc2 Om). intros S1 S2.
        assert (S1' : s_ i * s_ i = 1 - c_ i * c_ i) by lra. assert (S2' : s_ Om * s_ Om = 1 - c_ Om * c_ Om) by lra.
        set (a := vx x * (c_ Om * 1 - s_ Om * c_ i * 0) + vy x * (s_ Om * 1 + c_ Om * c_ i * 0) + vz x * (s_ i * 0)).
        set (b := vx x * (- c_ Om * 0 - s_ Om * c_ i * 1) + vy x * (- s_ Om * 0 + c_ Om * c_ i * 1) + vz x * (s_ i * 1)).
        clearbody a b.
        transitivity (a * a * (c_ Om * c_ Om + s_ Om * s_ Om) + b * b * (c_ i * c_ i * (c_ Om * c_ Om + s_ Om * s_ Om) + s_ i * s_ i)); [ring|].
        rewrite S1', S2'. ring. }
    rewrite N in Q1, Q2. set (t := atan2R A1 A0) in *. clearbody t A0 A1. clear Eu N.
    assert (O := odir_add i Om 0 t). replace (0 + t) with t in O by ring. rewrite O, B, Q1, Q2.
    unfold vadd, scale; cbn [vx vy vz]. f_equal; ring.
  Qed.
  Lemma k_vel : v = vadd (scale (dot x v / r) (odir i Om (om + nu))) (scale (h / r) (odir i Om (om + nu + PI / 2))).
  Proof.
    assert (B := obasis i Om (om + nu) v). rewrite v_pole in B. assert (K := k_pos). set (u := odir i Om (om + nu)) in *.
    set (w := odir i Om (om + nu + PI / 2)) in *. assert (P : 0 < r) by exact Hr.
    assert (E1 : dot v u = dot x v / r).
    { apply Rmult_eq_reg_l with r; [|lra]. transitivity (dot (scale r u) v); [unfold dot, scale; cbn [vx vy vz]; ring|]. rewrite <- K. field. lra. }
    assert (E2 : dot v w = h / r).
    { apply Rmult_eq_reg_l with r; [|lra]. replace (r * (h / r)) with h by (field; lra).
      destruct k_pole as [Kp _]. fold i Om in Kp. rewrite K in Kp at 1.
      assert (C := odir_cross i Om (om + nu)). fold u w in C.
      assert (Up : dot (opole i Om) (opole i Om) = 1).
      { unfold opole, dot; cbn [vx vy vz]. generalize (sc2 i) (sc2 Om). intros S1 S2.
        transitivity (s_ i * s_ i * (s_ Om * s_ Om + c_ Om * c_ Om) + c_ i * c_ i); [ring|]. rewrite S2. lra. }
      transitivity (dot (cross (scale r u) v) (opole i Om)).
      - rewrite B at 2. rewrite <- C. assert (Uu := odir_unit i Om (om + nu)). fold u in Uu. assert (Ww := odir_unit i Om (om + nu + PI / 2)). fold w in Ww.
        assert (Uw := odir_orth i Om (om + nu)). fold u w in Uw.
        transitivity (r * dot v w * (dot u u * dot w w - dot u w * dot u w)); [rewrite Uu, Ww, Uw; ring|].
        generalize (dot v u) (dot v w). intros c1 c2. unfold cross, vadd, scale, dot; cbn [vx vy vz]. ring.
      - rewrite Kp. transitivity (h * dot (opole i Om) (opole i Om)); [unfold dot, scale; cbn [vx vy vz]; ring|]. rewrite Up. ring. }
    etransitivity; [exact B|]. rewrite E1, E2. unfold vadd, scale; cbn [vx vy vz]. f_equal; ring.
  Qed.
  (** eccentricity and true anomaly *)
  Lemma rdv_sq : dot x v * dot x v = r * r * dot v v - h2.
  Proof. rewrite rr. unfold h2, dot, cross; cbn [vx vy vz]. ring. Qed.
  Let e := R_sqrt.sqrt ecc2.
  Lemma ecc2_id : h2 * (dot x v * dot x v) + (h2 - r * mu) * (h2 - r * mu) = (mu * r) * (mu * r) * ecc2.
  Proof. rewrite rdv_sq. unfold ecc2. fold r h2. assert (P : 0 < r) by exact Hr. field. lra. Qed.
  Lemma ecc2_pos : 0 <= ecc2.
  Proof.
    assert (P : 0 < r) by exact Hr. assert (Q : 0 < mu * r) by (apply Rmult_lt_0_compat; assumption).
    assert (Id := ecc2_id). assert (0 <= h2) by (unfold h2; apply dot_pos).
    assert (0 <= h2 * (dot x v * dot x v)) by (apply Rmult_le_pos; [assumption|apply Rle_0_sqr]).
    assert (0 <= (h2 - r * mu) * (h2 - r * mu)) by apply Rle_0_sqr.
    apply Rmult_le_reg_l with ((mu * r) * (mu * r)); [apply Rmult_lt_0_compat; assumption|]. lra.
  Qed.
  Lemma k_anom : mu * r * e * c_ nu = h2 - r * mu /\ mu * r * e * s_ nu = h * dot x v.
  Proof.
    unfold nu, k, pv_conic; cbn [k_at]. rops. replace (litR 0.0) with 0 by (rlit; lra).
    change (sqrtR ((vy x * vz v - vz x * vy v) * (vy x * vz v - vz x * vy v) + (vz x * vx v - vx x * vz v) * (vz x * vx v - vx x * vz v) +
      (vx x * vy v - vy x * vx v) * (vx x * vy v - vy x * vx v))) with h.
    change (vx x * vx v + vy x * vy v + vz x * vz v) with (dot x v). fold r.
    change ((vy x * vz v - vz x * vy v) * (vy x * vz v - vz x * vy v) + (vz x * vx v - vx x * vz v) * (vz x * vx v - vx x * vz v) +
      (vx x * vy v - vy x * vx v) * (vx x * vy v - vy x * vx v)) with h2.
    assert (N : R_sqrt.sqrt ((h2 - r * mu) * (h2 - r * mu) + h * dot x v * (h * dot x v)) = mu * r * e).
    { replace ((h2 - r * mu) * (h2 - r * mu) + h * dot x v * (h * dot x v)) with ((mu * r) * (mu * r) * ecc2).
      - assert (P : 0 < r) by exact Hr. rewrite sqrt_mult; [|apply Rle_0_sqr|apply ecc2_pos]. rewrite sqrt_square; [reflexivity|]. left. apply Rmult_lt_0_compat; assumption.
      - rewrite <- ecc2_id. rewrite <- h_h2. ring. }
    destruct (Reqb_spec (h * dot x v) 0) as [Z1|Z1], (Reqb_spec (h2 - r * mu) 0) as [Z2|Z2]; cbn [negb orb].
    - rewrite <- N. rewrite Z1, Z2. replace (0 * 0 + 0 * 0) with 0 by ring. rewrite sqrt_0. split; ring.
    - rewrite <- N. destruct (atan2_polar (h * dot x v) (h2 - r * mu)) as [Q1 Q2]. split; symmetry; assumption.
    - rewrite <- N. destruct (atan2_polar (h * dot x v) (h2 - r * mu)) as [Q1 Q2]. split; symmetry; assumption.
    - rewrite <- N. destruct (atan2_polar (h * dot x v) (h2 - r * mu)) as [Q1 Q2]. split; symmetry; assumption.
  Qed.
  Lemma k_radius : r * (1 + e * c_ nu) = h2 / mu.
  Proof. destruct k_anom as [A _]. apply Rmult_eq_reg_l with mu; [|lra]. replace (mu * (h2 / mu)) with h2 by (field; lra). lra. Qed.
End Conic.

(** ** Motion from perihelion *)
Section Peri.
  Variables (mu q e h i Om om : R).
  Hypotheses (Hmu : 0 < mu) (Hq : 0 < q) (He : 0 <= e) (Hh : 0 < h) (Hhq : h * h = mu * q * (1 + e)).
  Let P := peri_pos q i Om om. Let W := peri_vel mu q e i Om om. Let al := mu * (e - 1) / q.
  Lemma peri_speed : R_sqrt.sqrt (mu * (1 + e) / q) = h / q.
  Proof.
    replace (mu * (1 + e) / q) with (h / q * (h / q)) by (apply Rmult_eq_reg_r with (q * q); [|nra]; field_simplify; [|lra|lra]; nra).
    apply sqrt_square. left. apply Rdiv_lt_0_compat; assumption.
  Qed.
  Lemma peri_r0 : tb_r0 P = q.
  Proof.
    unfold tb_r0, norm, P, peri_pos. replace (dot (scale q (odir i Om om)) (scale q (odir i Om om))) with (q * q * dot (odir i Om om) (odir i Om om))
      by (unfold dot, scale; cbn [vx vy vz]; ring). rewrite odir_unit, Rmult_1_r. apply sqrt_square. lra.
  Qed.
  Lemma peri_sg : tb_sg P W = 0.
  Proof.
    unfold tb_sg, P, W, peri_pos, peri_vel. generalize (R_sqrt.sqrt (mu * (1 + e) / q)). intros w.
    transitivity (q * w * dot (odir i Om om) (odir i Om (om + PI / 2))); [unfold dot, scale; cbn [vx vy vz]; ring|]. rewrite odir_orth. ring.
  Qed.
  Lemma peri_al : tb_al mu P W = al.
  Proof.
    unfold tb_al. rewrite peri_r0. unfold W, peri_vel. rewrite peri_speed.
    replace (dot (scale (h / q) (odir i Om (om + PI / 2))) (scale (h / q) (odir i Om (om + PI / 2)))) with
      (h / q * (h / q) * dot (odir i Om (om + PI / 2)) (odir i Om (om + PI / 2))) by (unfold dot, scale; cbn [vx vy vz]; ring).
    rewrite odir_unit. unfold al. replace (h / q * (h / q) * 1) with (h * h / (q * q)) by (field; lra). rewrite Hhq. field. lra.
  Qed.
  Lemma peri_cross : cross P W = scale h (opole i Om).
  Proof.
    unfold P, W, peri_pos, peri_vel. rewrite peri_speed.
    transitivity (scale (q * (h / q)) (cross (odir i Om om) (odir i Om (om + PI / 2)))).
    - unfold cross, scale; cbn [vx vy vz]. f_equal; ring.
    - rewrite odir_cross. f_equal. field. lra.
  Qed.
  Variables (r nu s : R).
  Hypotheses (Hr : 0 < r) (Hrad : r * (1 + e * c_ nu) = q * (1 + e)).
  Hypotheses (A2 : mu * U2 al s = q - r * c_ nu) (A1 : h * U1 al s = r * s_ nu).
  Lemma peri_D : 0 < 1 + e * c_ nu.
  Proof.
    destruct (Rlt_le_dec 0 (1 + e * c_ nu)) as [L|L]; [exact L|exfalso].
    assert (0 < q * (1 + e)) by (apply Rmult_lt_0_compat; lra). assert (0 <= r * - (1 + e * c_ nu)) by (apply Rmult_le_pos; lra). lra.
  Qed.
  Lemma peri_tb_r : tb_r mu P W s = r.
  Proof.
    unfold tb_r. rewrite peri_al, peri_r0, peri_sg, U0_U2. unfold al at 1.
    replace (q * (1 + mu * (e - 1) / q * U2 al s) + 0 * U1 al s + mu * U2 al s) with (q + e * (mu * U2 al s)) by (field; lra).
    rewrite A2. lra.
  Qed.
  Lemma peri_tb_t : tb_t mu P W s = q * U1 al s + mu * U3 al s.
  Proof. unfold tb_t. rewrite peri_al, peri_r0, peri_sg. ring. Qed.
  Lemma peri_tb_pos : tb_pos mu P W s = scale r (odir i Om (om + nu)).
  Proof.
    unfold tb_pos. rewrite peri_al, peri_r0, peri_sg. unfold P, W, peri_pos, peri_vel. rewrite peri_speed, (odir_add i Om om nu).
    set (u := odir i Om om). set (w := odir i Om (om + PI / 2)).
    assert (B1 : (1 - mu * U2 al s / q) * q = r * c_ nu) by (replace ((1 - mu * U2 al s / q) * q) with (q - mu * U2 al s) by (field; lra); lra).
    assert (B2 : (q * U1 al s + 0 * U2 al s) * (h / q) = r * s_ nu) by (rewrite <- A1; field; lra).
    revert B1 B2. generalize (1 - mu * U2 al s / q) (q * U1 al s + 0 * U2 al s) (h / q). intros a b c B1 B2.
    unfold vadd, scale; cbn [vx vy vz]. rewrite !Rmult_plus_distr_l, <- !Rmult_assoc, B1, B2. reflexivity.
  Qed.
  Lemma peri_tb_vel : tb_vel mu P W s = vadd (scale (mu * e * s_ nu / h) (odir i Om (om + nu))) (scale (h / r) (odir i Om (om + nu + PI / 2))).
  Proof.
    unfold tb_vel. rewrite peri_tb_r, peri_al, peri_r0. unfold P, W, peri_pos, peri_vel. rewrite peri_speed.
    replace (om + nu + PI / 2) with (om + (nu + PI / 2)) by ring. rewrite (odir_add i Om om nu), (odir_add i Om om (nu + PI / 2)).
    set (u := odir i Om om). set (w := odir i Om (om + PI / 2)).
    assert (D := peri_D). rewrite cos_plus, sin_plus, cos_PI2, sin_PI2.
    assert (Hsc := sc2 nu). set (c := c_ nu) in *. set (sn := s_ nu) in *.
    assert (EU1 : U1 al s = r * sn / h) by (rewrite <- A1; field; lra). rewrite EU1.
    assert (B0 : mu * r * (1 + e * c) = h * h) by (rewrite Hhq; transitivity (mu * (r * (1 + e * c))); [ring|rewrite Hrad; ring]).
    assert (Er : h / r = mu * (1 + e * c) / h).
    { apply Rmult_eq_reg_r with (h * r); [|apply Rgt_not_eq, Rmult_lt_0_compat; assumption].
      replace (h / r * (h * r)) with (h * h) by (field; lra). replace (mu * (1 + e * c) / h * (h * r)) with (mu * r * (1 + e * c)) by (field; lra). lra. }
    assert (B1 : - mu * (r * sn / h) / (q * r) * q = mu * e * sn / h * c - h / r * sn) by (rewrite Er; field; lra).
    assert (B2 : (1 - mu * U2 al s / r) * (h / q) = mu * e * sn / h * sn + h / r * c).
    { rewrite A2, Er. transitivity (mu * (e + c) / h).
      - apply Rmult_eq_reg_r with (h * r * q); [|apply Rgt_not_eq; repeat apply Rmult_lt_0_compat; assumption].
        replace ((1 - (q - r * c) / r) * (h / q) * (h * r * q)) with ((r - q + r * c) * (h * h)) by (field; lra).
        replace (mu * (e + c) / h * (h * r * q)) with (mu * r * (q * (e + c))) by (field; lra). rewrite <- B0.
        replace ((r - q + r * c) * (mu * r * (1 + e * c))) with (mu * r * ((1 + c) * (r * (1 + e * c)) - q * (1 + e * c))) by ring. rewrite Hrad. ring.
      - transitivity (mu * (e * (sn * sn + c * c) + c) / h); [rewrite Hsc; field; lra|field; lra]. }
    revert B1 B2. generalize (- mu * (r * sn / h) / (q * r)) (1 - mu * U2 al s / r) (h / q) (mu * e * sn / h) (h / r). intros a b d f g B1 B2.
    unfold vadd, scale; cbn [vx vy vz].
    f_equal; [transitivity (a * q * vx u + b * d * vx w)|transitivity (a * q * vy u + b * d * vy w)|transitivity (a * q * vz u + b * d * vz w)];
      try ring; rewrite B1, B2; ring.
  Qed.
End Peri.

(** ** The anomaly at which the state is reached *)
Section Anomaly.
  Variables (mu q e h r nu : R).
  Hypotheses (Hmu : 0 < mu) (Hq : 0 < q) (He : 0 <= e) (Hh : 0 < h) (Hhq : h * h = mu * q * (1 + e)).
  Hypotheses (Hr : 0 < r) (Hrad : r * (1 + e * c_ nu) = q * (1 + e)).
  Let al := mu * (e - 1) / q. Let C := c_ (nu / 2). Let S := s_ (nu / 2). Let D := 1 + e * c_ nu.
  Lemma half_D : D = (1 + e) * (C * C) + (1 - e) * (S * S).
  Proof.
    unfold D, C, S. replace nu with (nu / 2 + nu / 2) at 1 by field. rewrite cos_plus. generalize (sc2 (nu / 2)). intros H.
    transitivity (s_ (nu / 2) * s_ (nu / 2) + c_ (nu / 2) * c_ (nu / 2) + e * (c_ (nu / 2) * c_ (nu / 2) - s_ (nu / 2) * s_ (nu / 2))); [rewrite H; reflexivity|ring].
  Qed.
  Lemma half_anomaly : forall s', U0 al s' = C * R_sqrt.sqrt ((1 + e) / D) -> U1 al s' = S * R_sqrt.sqrt (q / (mu * D)) ->
    mu * U2 al (2 * s') = q - r * c_ nu /\ h * U1 al (2 * s') = r * s_ nu.
  Proof.
    intros s' E0 E1. assert (HD : 0 < D) by (apply (peri_D q e Hq He r nu Hr Hrad)).
    assert (Er : r = q * (1 + e) / D) by (rewrite <- Hrad; unfold D; field; unfold D in HD; lra).
    assert (SC : S * S + C * C = 1) by (unfold S, C; apply sc2).
    assert (Ec : c_ nu = C * C - S * S) by (unfold C, S; rewrite <- cos_plus; f_equal; field).
    assert (Es : s_ nu = 2 * S * C) by (unfold C, S; replace nu with (nu / 2 + nu / 2) at 1 by field; rewrite sin_plus; ring).
    assert (K : R_sqrt.sqrt (q / (mu * D)) * R_sqrt.sqrt (q / (mu * D)) = q / (mu * D)).
    { apply sqrt_sqrt. left. apply Rdiv_lt_0_compat; [assumption|apply Rmult_lt_0_compat; assumption]. }
    assert (HDv := half_D). clearbody C S. 
    split.
    - rewrite U2_double, E1.
      transitivity (2 * mu * (S * S) * (R_sqrt.sqrt (q / (mu * D)) * R_sqrt.sqrt (q / (mu * D)))); [ring|]. rewrite K.
      transitivity (2 * q * (S * S) / D); [field; lra|]. rewrite Er, Ec.
      transitivity (q * (D - (1 + e) * (C * C - S * S)) / D); [|field; lra]. rewrite HDv at 2. field. lra.
    - rewrite U1_double, E0, E1.
      assert (K2 : R_sqrt.sqrt ((1 + e) / D) * R_sqrt.sqrt (q / (mu * D)) = h / (mu * D)).
      { rewrite <- sqrt_mult; [|left; apply Rdiv_lt_0_compat; lra|left; apply Rdiv_lt_0_compat; [assumption|apply Rmult_lt_0_compat; assumption]].
        replace ((1 + e) / D * (q / (mu * D))) with (h / (mu * D) * (h / (mu * D))).
        - apply sqrt_square. left. apply Rdiv_lt_0_compat; [assumption|apply Rmult_lt_0_compat; assumption].
        - transitivity (h * h / (mu * D * (mu * D))); [field; lra|]. rewrite Hhq. field. lra. }
      transitivity (2 * h * (S * C) * (R_sqrt.sqrt ((1 + e) / D) * R_sqrt.sqrt (q / (mu * D)))); [ring|]. rewrite K2.
      transitivity (2 * (S * C) * (h * h) / (mu * D)); [field; lra|]. rewrite Hhq, Er, Es. field. lra.
  Qed.
  (** ellipse *)
  Lemma anom_ellipse : e < 1 -> let H := atan2R (R_sqrt.sqrt (- (e - 1)) * S) (R_sqrt.sqrt (e + 1) * C) in
    let w := R_sqrt.sqrt (- al) in U0 al (H / w) = C * R_sqrt.sqrt ((1 + e) / D) /\ U1 al (H / w) = S * R_sqrt.sqrt (q / (mu * D)) /\ 0 < w.
  Proof.
    intros He1 H w. assert (HD : 0 < D) by (apply (peri_D q e Hq He r nu Hr Hrad)).
    assert (Hal : al < 0).
    { unfold al. replace (mu * (e - 1) / q) with (- (mu * (1 - e) / q)) by (field; lra). apply Ropp_lt_gt_0_contravar. apply Rdiv_lt_0_compat; [apply Rmult_lt_0_compat; lra|assumption]. }
    assert (Hw : 0 < w) by (apply sqrt_lt_R0; lra).
    destruct (atan2_polar (R_sqrt.sqrt (- (e - 1)) * S) (R_sqrt.sqrt (e + 1) * C)) as [Pc Ps]. fold H in Pc, Ps.
    assert (Q1 : R_sqrt.sqrt (- (e - 1)) * R_sqrt.sqrt (- (e - 1)) = 1 - e) by (rewrite sqrt_sqrt; lra).
    assert (Q2 : R_sqrt.sqrt (e + 1) * R_sqrt.sqrt (e + 1) = 1 + e) by (rewrite sqrt_sqrt; lra).
    replace (R_sqrt.sqrt (e + 1) * C * (R_sqrt.sqrt (e + 1) * C) + R_sqrt.sqrt (- (e - 1)) * S * (R_sqrt.sqrt (- (e - 1)) * S)) with D in Pc, Ps.
    2:{ rewrite half_D. transitivity (R_sqrt.sqrt (e + 1) * R_sqrt.sqrt (e + 1) * (C * C) + R_sqrt.sqrt (- (e - 1)) * R_sqrt.sqrt (- (e - 1)) * (S * S)); [rewrite Q1, Q2; reflexivity|ring]. }
    assert (HsD : 0 < R_sqrt.sqrt D) by (apply sqrt_lt_R0; assumption).
    unfold U0, U1. destruct (Rlt_dec al 0) as [_|N]; [|lra]. fold w. replace (w * (H / w)) with H by (field; lra).
    split; [|split; [|exact Hw]].
    - rewrite sqrt_div_alt by assumption. replace (1 + e) with (e + 1) by ring. apply Rmult_eq_reg_l with (R_sqrt.sqrt D); [|lra]. rewrite <- Pc. field. lra.
    - apply Rmult_eq_reg_l with (R_sqrt.sqrt D); [|lra].
      replace (R_sqrt.sqrt D * (s_ H / w)) with (R_sqrt.sqrt D * s_ H / w) by (field; lra). rewrite <- Ps.
      rewrite sqrt_div_alt by (apply Rmult_lt_0_compat; assumption). rewrite sqrt_mult by lra.
      assert (Ew : w = R_sqrt.sqrt mu * R_sqrt.sqrt (- (e - 1)) / R_sqrt.sqrt q).
      { unfold w. replace (- al) with (mu * - (e - 1) / q) by (unfold al; field; lra). rewrite sqrt_div_alt by assumption. rewrite sqrt_mult by lra. reflexivity. }
      rewrite Ew.
      assert (0 < R_sqrt.sqrt mu) by (apply sqrt_lt_R0; assumption). assert (0 < R_sqrt.sqrt q) by (apply sqrt_lt_R0; assumption).
      assert (0 < R_sqrt.sqrt (- (e - 1))) by (apply sqrt_lt_R0; lra). field. lra.
  Qed.
  (** parabola *)
  Lemma anom_parabola : e = 1 -> 0 <= C -> U0 al (h * (S / C) / mu / 2) = C * R_sqrt.sqrt ((1 + e) / D) /\
    U1 al (h * (S / C) / mu / 2) = S * R_sqrt.sqrt (q / (mu * D)) /\ C <> 0.
  Proof.
    intros He1 HC. assert (HD : 0 < D) by (apply (peri_D q e Hq He r nu Hr Hrad)). assert (HDv := half_D). rewrite He1 in HDv.
    assert (HCp : 0 < C) by (destruct HC as [HC|HC]; [exact HC|rewrite <- HC in HDv; lra]).
    assert (Hal : al = 0) by (unfold al; rewrite He1; field; lra).
    unfold U0, U1. rewrite Hal. destruct (Rlt_dec 0 0) as [N|_]; [lra|].
    assert (ED : D = 2 * (C * C)) by (rewrite HDv; ring).
    split; [|split; [|lra]].
    - rewrite ED, He1. replace ((1 + 1) / (2 * (C * C))) with (/ C * / C) by (field; lra). rewrite sqrt_square; [field; lra|]. left. apply Rinv_0_lt_compat. lra.
    - rewrite ED. replace (q / (mu * (2 * (C * C)))) with (h / (2 * mu * C) * (h / (2 * mu * C))).
      + rewrite sqrt_square; [field; lra|]. left. apply Rdiv_lt_0_compat; [assumption|]. repeat apply Rmult_lt_0_compat; lra.
      + transitivity (h * h / (4 * mu * mu * (C * C))); [field; lra|]. rewrite Hhq, He1. field. lra.
  Qed.
  (** hyperbola *)
  Lemma anom_hyperbola : 1 < e -> 0 <= C -> let t := R_sqrt.sqrt ((e - 1) / (e + 1)) * (S / C) in
    let F := Rpower.ln (1 + t) - Rpower.ln (1 - t) in let w := R_sqrt.sqrt al in
    U0 al (F / w / 2) = C * R_sqrt.sqrt ((1 + e) / D) /\ U1 al (F / w / 2) = S * R_sqrt.sqrt (q / (mu * D)) /\ 0 < w /\ C <> 0 /\ -1 < t < 1.
  Proof.
    intros He1 HC t F w. assert (HD : 0 < D) by (apply (peri_D q e Hq He r nu Hr Hrad)). assert (HDv := half_D).
    assert (HCp : 0 < C).
    { destruct HC as [HC|HC]; [exact HC|]. rewrite <- HC in HDv. assert (0 <= (e - 1) * (S * S)) by (apply Rmult_le_pos; [lra|apply Rle_0_sqr]). lra. }
    assert (Hal : 0 < al) by (unfold al; apply Rdiv_lt_0_compat; [apply Rmult_lt_0_compat; lra|assumption]).
    assert (Hw : 0 < w) by (apply sqrt_lt_R0; exact Hal).
    assert (Tt : 1 - t * t = D / ((e + 1) * (C * C))).
    { unfold t. replace (R_sqrt.sqrt ((e - 1) / (e + 1)) * (S / C) * (R_sqrt.sqrt ((e - 1) / (e + 1)) * (S / C))) with
        (R_sqrt.sqrt ((e - 1) / (e + 1)) * R_sqrt.sqrt ((e - 1) / (e + 1)) * (S / C * (S / C))) by ring.
      rewrite sqrt_sqrt by (left; apply Rdiv_lt_0_compat; lra). rewrite HDv. field. lra. }
    assert (Tp : 0 < 1 - t * t) by (rewrite Tt; apply Rdiv_lt_0_compat; [assumption|apply Rmult_lt_0_compat; [lra|apply Rmult_lt_0_compat; assumption]]).
    assert (Tr : -1 < t < 1) by (split; nra).
    (* exp (F/2) *)
    set (X := Rtrigo_def.exp (F / 2)).
    assert (HX : 0 < X) by apply exp_pos.
    assert (XX : X * X = (1 + t) / (1 - t)).
    { unfold X. rewrite <- exp_plus. replace (F / 2 + F / 2) with (Rpower.ln (1 + t) + - Rpower.ln (1 - t)) by (unfold F; field).
      rewrite exp_plus, exp_Ropp, !exp_ln by lra. reflexivity. }
    assert (Y : Rtrigo_def.exp (- (F / 2)) = X * (1 - t) / (1 + t)).
    { rewrite exp_Ropp. fold X. apply Rmult_eq_reg_l with X; [|lra]. rewrite Rinv_r by lra.
      transitivity (X * X * (1 - t) / (1 + t)); [rewrite XX; field; lra|field; lra]. }
    assert (XD : X = (1 + t) * (C * R_sqrt.sqrt ((1 + e) / D))).
    { apply Rsqr_inj; [lra| |].
      - apply Rmult_le_pos; [lra|]. apply Rmult_le_pos; [lra|apply sqrt_pos].
      - unfold Rsqr. rewrite XX. transitivity ((1 + t) * (1 + t) * (C * C) * (R_sqrt.sqrt ((1 + e) / D) * R_sqrt.sqrt ((1 + e) / D))); [|ring].
        rewrite sqrt_sqrt by (left; apply Rdiv_lt_0_compat; lra).
        assert (ED : D = (1 - t) * (1 + t) * ((e + 1) * (C * C))) by (replace ((1 - t) * (1 + t)) with (1 - t * t) by ring; rewrite Tt; field; lra).
        rewrite ED. field. lra. }
    unfold U0, U1. destruct (Rlt_dec al 0) as [N|_]; [lra|]. destruct (Rlt_dec 0 al) as [_|N]; [|lra]. fold w.
    replace (w * (F / w / 2)) with (F / 2) by (field; lra). unfold Rtrigo_def.cosh, Rtrigo_def.sinh. rewrite Y. fold X.
    split; [|split; [|split; [exact Hw|split; [lra|exact Tr]]]].
    - rewrite XD. field. lra.
    - rewrite XD. set (K := R_sqrt.sqrt ((1 + e) / D)).
      transitivity (t * C * K / w); [field; lra|]. unfold t, K, w. 
      replace (R_sqrt.sqrt ((e - 1) / (e + 1)) * (S / C) * C) with (R_sqrt.sqrt ((e - 1) / (e + 1)) * S) by (field; lra).
      apply Rmult_eq_reg_r with (R_sqrt.sqrt al); [|fold w; lra].
      replace (R_sqrt.sqrt ((e - 1) / (e + 1)) * S * R_sqrt.sqrt ((1 + e) / D) / R_sqrt.sqrt al * R_sqrt.sqrt al) with
        (S * (R_sqrt.sqrt ((e - 1) / (e + 1)) * R_sqrt.sqrt ((1 + e) / D))) by (field; fold w; lra).
      rewrite Rmult_assoc. f_equal. rewrite <- !sqrt_mult_alt.
      + f_equal. unfold al. field. lra.
      + left. apply Rdiv_lt_0_compat; [assumption|apply Rmult_lt_0_compat; assumption].
      + left. apply Rdiv_lt_0_compat; lra.
  Qed.
  (** the corresponding times since perihelion *)
  Lemma time_ellipse : e < 1 -> forall E, let w := R_sqrt.sqrt (- al) in let a := q / (1 - e) in
    q * U1 al (E / w) + mu * U3 al (E / w) = (E - e * s_ E) / R_sqrt.sqrt (mu / (a * a * a)).
  Proof.
    intros He1 E w a.
    assert (Ha : 0 < a) by (apply Rdiv_lt_0_compat; lra). assert (Eal : al = - (mu / a)) by (unfold al, a; field; lra).
    assert (Hal : al < 0) by (rewrite Eal; apply Ropp_lt_gt_0_contravar; apply Rdiv_lt_0_compat; assumption).
    assert (Hw : 0 < w) by (apply sqrt_lt_R0; lra).
    assert (Ew : R_sqrt.sqrt (mu / (a * a * a)) = w / a).
    { unfold w. rewrite Eal, Ropp_involutive. replace (mu / (a * a * a)) with (mu / a / (a * a)) by (field; lra).
      rewrite sqrt_div_alt by nra. rewrite sqrt_square by lra. reflexivity. }
    unfold U3. destruct (Req_EM_T al 0) as [N|_]; [lra|]. unfold U1. destruct (Rlt_dec al 0) as [_|N]; [|lra]. fold w.
    replace (w * (E / w)) with E by (field; lra). rewrite Ew, Eal. replace q with (a * (1 - e)) by (unfold a; field; lra). field. lra.
  Qed.
  Lemma time_parabola : e = 1 -> forall t, q * U1 al (h * t / mu) + mu * U3 al (h * t / mu) = t * (1 + t * t / 3) * h * (h * h) / (2 * mu * mu).
  Proof.
    intros He1 t. assert (Hal : al = 0) by (unfold al; rewrite He1; field; lra). unfold U3, U1. rewrite Hal.
    destruct (Req_EM_T 0 0) as [_|N]; [|lra]. destruct (Rlt_dec 0 0) as [N|_]; [lra|].
    assert (Eq : q = h * h / (2 * mu)) by (rewrite Hhq, He1; field; lra). rewrite Eq. field. lra.
  Qed.
  Lemma time_hyperbola : 1 < e -> forall F, let w := R_sqrt.sqrt al in let a := q / (e - 1) in
    q * U1 al (F / w) + mu * U3 al (F / w) = (e * Rtrigo_def.sinh F - F) / R_sqrt.sqrt (mu / (a * a * a)).
  Proof.
    intros He1 F w a.
    assert (Ha : 0 < a) by (apply Rdiv_lt_0_compat; lra). assert (Eal : al = mu / a) by (unfold al, a; field; lra).
    assert (Hal : 0 < al) by (rewrite Eal; apply Rdiv_lt_0_compat; assumption).
    assert (Hw : 0 < w) by (apply sqrt_lt_R0; lra).
    assert (Ew : R_sqrt.sqrt (mu / (a * a * a)) = w / a).
    { unfold w. rewrite Eal. replace (mu / (a * a * a)) with (mu / a / (a * a)) by (field; lra).
      rewrite sqrt_div_alt by nra. rewrite sqrt_square by lra. reflexivity. }
    unfold U3. destruct (Req_EM_T al 0) as [N|_]; [lra|]. unfold U1. destruct (Rlt_dec al 0) as [N|_]; [lra|]. destruct (Rlt_dec 0 al) as [_|N]; [|lra]. fold w.
    replace (w * (F / w)) with F by (field; lra). rewrite Ew, Eal. replace q with (a * (e - 1)) by (unfold a; field; lra). field. lra.
  Qed.
End Anomaly.

(** ** Every motion through the perihelion state reaches (x, v) *)
Section Reach.
  Variables (x v : vec R) (mu : R).
  Hypotheses (Hr : 0 < norm x) (Hmu : 0 < mu) (Hh : cross x v <> vzero).
  Let k := pv_conic x v (norm x) (dot v v) mu. Let e := R_sqrt.sqrt (ecc2 x v mu). Let h := norm (cross x v).
  Definition per_q : R := k_h2 (pv_conic x v (norm x) (dot v v) mu) / (mu * (R_sqrt.sqrt (ecc2 x v mu) + 1)).
  Let q := per_q. Let al := mu * (e - 1) / q.
  Lemma per_e : 0 <= e. Proof. apply sqrt_pos. Qed.
  Lemma per_ee : e * e = ecc2 x v mu. Proof. apply sqrt_sqrt, ecc2_pos; assumption. Qed.
  Lemma per_h : 0 < h. Proof. apply h_pos, Hh. Qed.
  Lemma per_hq : h * h = mu * q * (1 + e).
  Proof. unfold q, per_q. fold e. rewrite (k_h2_val x v mu). fold h. assert (A := h_h2 x v). fold h in A. rewrite A. assert (P := per_e). field. lra. Qed.
  Lemma per_q_pos : 0 < q.
  Proof.
    assert (E := per_hq). assert (P := per_e). assert (H := per_h). unfold q, per_q. fold e. rewrite (k_h2_val x v mu), <- h_h2. fold h.
    apply Rdiv_lt_0_compat; apply Rmult_lt_0_compat; lra.
  Qed.
  Lemma per_rad : norm x * (1 + e * c_ (k_at k)) = q * (1 + e).
  Proof.
    assert (A := k_radius x v mu Hr Hmu). fold k e in A. unfold k. fold k. etransitivity; [exact A|].
    assert (B := h_h2 x v). fold h in B. rewrite <- B, per_hq. field. lra.
  Qed.
  Lemma reach : forall X Vel, motion mu X Vel -> X 0 = peri_pos q (k_oi k) (k_bigom k) (k_om k) ->
    Vel 0 = peri_vel mu q e (k_oi k) (k_bigom k) (k_om k) ->
    forall s, mu * U2 al s = q - norm x * c_ (k_at k) -> h * U1 al s = norm x * s_ (k_at k) ->
    X (q * U1 al s + mu * U3 al s) = x /\ Vel (q * U1 al s + mu * U3 al s) = v.
  Proof.
    intros X Vel M X0 V0 s A2 A1. assert (Hq := per_q_pos). assert (He := per_e). assert (Hp := per_h). assert (Hhq := per_hq). assert (Hrad := per_rad).
    set (i := k_oi k) in *. set (Om := k_bigom k) in *. set (om := k_om k) in *. set (nu := k_at k) in *.
    assert (Cr : cross (peri_pos q i Om om) (peri_vel mu q e i Om om) = scale h (opole i Om)).
    { apply peri_cross; assumption. }
    assert (Nz : cross (peri_pos q i Om om) (peri_vel mu q e i Om om) <> vzero).
    { rewrite Cr. intros Z. apply Hh. rewrite <- Z. apply k_pole; assumption. }
    destruct (two_body_exists mu _ _ Hmu Nz) as (Y & W & MY & Y0 & W0 & HY). specialize (HY s).
    rewrite (peri_tb_t mu q e h i Om om Hq Hp Hhq) in HY. fold al in HY.
    rewrite (peri_tb_pos mu q e h i Om om Hq Hp Hhq (norm x) nu s A2 A1) in HY.
    rewrite (peri_tb_vel mu q e h i Om om Hq He Hp Hhq (norm x) nu s Hr Hrad A2 A1) in HY.
    destruct (motion_unique mu X Vel Y W Hmu) with (t := q * U1 al s + mu * U3 al s) as [E1 E2].
    - rewrite X0, V0. exact Nz.
    - exact M.
    - exact MY.
    - rewrite X0, Y0. reflexivity.
    - rewrite V0, W0. reflexivity.
    - rewrite E1, E2. destruct HY as [H1 H2]. rewrite H1, H2. split.
      + symmetry. apply (k_pos x v mu); assumption.
      + rewrite (k_vel x v mu Hr Hh) at 1. fold k i Om om nu h. f_equal. f_equal. destruct (k_anom x v mu Hr Hmu) as [_ A]. fold k nu e h in A.
        apply Rmult_eq_reg_l with (h * norm x); [|apply Rgt_not_eq, Rmult_lt_0_compat; assumption].
        replace (h * norm x * (mu * e * s_ nu / h)) with (mu * norm x * e * s_ nu) by (field; lra). rewrite A. field. lra.
  Qed.
  Lemma at_half : 0 <= c_ (k_at k / 2).
  Proof.
    assert (G : - PI < k_at k <= PI).
    { unfold k, pv_conic; cbn [k_at]. rops. assert (P := PI_RGT_0). replace (litR 0.0) with 0 by (rlit; lra). match goal with |- _ < (if ?b then _ else _) <= _ => destruct b end; [apply atan2_range|lra]. }
    apply cos_ge_0; lra.
  Qed.
  Lemma per_ar : k_ar k = (1 - e * e) * mu / (h * h).
  Proof.
    rewrite per_ee. unfold k, pv_conic; cbn [k_ar]. rops. replace (litR 2.0) with 2 by (rlit; lra). unfold ecc2.
    assert (B := h_h2 x v). fold h in B. rewrite <- B. assert (P := per_h). field. lra.
  Qed.
End Reach.


(** ** Times computed by pv_mean and pv_tp *)
Section Times.
  Variables (x v : vec R) (mu : R).
  Hypotheses (Hr : 0 < norm x) (Hmu : 0 < mu) (Hh : cross x v <> vzero).
  Let k := pv_conic x v (norm x) (dot v v) mu. Let e := R_sqrt.sqrt (ecc2 x v mu). Let h := norm (cross x v). Let q := per_q x v mu.
  Variables (X Vel : R -> vec R).
  Hypotheses (M : motion mu X Vel) (X0 : X 0 = peri_pos q (k_oi k) (k_bigom k) (k_om k))
    (V0 : Vel 0 = peri_vel mu q e (k_oi k) (k_bigom k) (k_om k)).
  Definition ecc_anom : R := 2 * atan2R (R_sqrt.sqrt (- (e - 1)) * s_ (k_at k / 2)) (R_sqrt.sqrt (e + 1) * c_ (k_at k / 2)).
  Lemma mean_val : e < 1 -> pv_mean mu (k_ar k) e (k_at k) = (ecc_anom - e * s_ ecc_anom, R_sqrt.sqrt (mu * k_ar k * k_ar k * k_ar k)).
  Proof.
    intros L. unfold pv_mean. rops. replace (litR 1.0) with 1 by (rlit; lra). replace (litR 2.0) with 2 by (rlit; lra).
    rewrite Rltb_true by exact L. reflexivity.
  Qed.
  Lemma ar_ellipse : e < 1 -> k_ar k = / (q / (1 - e)).
  Proof.
    intros L. unfold k. rewrite (per_ar x v mu) by assumption. fold e h. assert (E : h * h = mu * q * (1 + e)) by (apply per_hq; assumption). rewrite E.
    assert (Hq : 0 < q) by (apply per_q_pos; assumption). assert (He : 0 <= e) by (apply per_e; assumption). field. repeat split; lra.
  Qed.
  Lemma reach_ellipse : e < 1 -> forall m, cong m (ecc_anom - e * s_ ecc_anom) -> let a := q / (1 - e) in
    X (m / R_sqrt.sqrt (mu / (a * a * a))) = x /\ Vel (m / R_sqrt.sqrt (mu / (a * a * a))) = v.
  Proof.
    intros L m [z Hz] a.
    assert (Hq : 0 < q) by (apply per_q_pos; assumption). assert (He : 0 <= e) by (apply per_e; assumption). assert (Hp : 0 < h) by (apply per_h; assumption).
    assert (Hhq : h * h = mu * q * (1 + e)) by (apply per_hq; assumption). assert (Hrad : norm x * (1 + e * c_ (k_at k)) = q * (1 + e)) by (apply per_rad; assumption).
    destruct (anom_ellipse mu q e (norm x) (k_at k) Hmu Hq He Hr Hrad L) as (A0 & A1 & Hw).
    set (al := mu * (e - 1) / q) in *. set (w := R_sqrt.sqrt (- al)) in *. set (H := atan2R (R_sqrt.sqrt (- (e - 1)) * s_ (k_at k / 2)) (R_sqrt.sqrt (e + 1) * c_ (k_at k / 2))) in *.
    destruct (half_anomaly mu q e h (norm x) (k_at k) Hmu Hq He Hp Hhq Hr Hrad _ A0 A1) as [B2 B1]. fold al in B1, B2.
    assert (EE : 2 * (H / w) = ecc_anom / w) by (unfold ecc_anom; fold H; field; lra). rewrite EE in B1, B2.
    set (E' := ecc_anom + IZR z * (2 * PI)).
    assert (Hs : s_ E' = s_ ecc_anom) by (apply cong_sin; exists z; reflexivity).
    assert (Hc : c_ E' = c_ ecc_anom) by (apply cong_cos; exists z; reflexivity).
    assert (Hal : al < 0).
    { unfold al. replace (mu * (e - 1) / q) with (- (mu * (1 - e) / q)) by (field; lra). apply Ropp_lt_gt_0_contravar. apply Rdiv_lt_0_compat; [apply Rmult_lt_0_compat; lra|assumption]. }
    assert (P1 : U1 al (E' / w) = U1 al (ecc_anom / w)).
    { unfold U1. destruct (Rlt_dec al 0) as [_|N]; [|lra]. fold w. replace (w * (E' / w)) with E' by (field; lra). replace (w * (ecc_anom / w)) with ecc_anom by (field; lra).
      rewrite Hs. reflexivity. }
    assert (P2 : U2 al (E' / w) = U2 al (ecc_anom / w)).
    { unfold U2. destruct (Req_EM_T al 0) as [N|_]; [lra|]. unfold U0. destruct (Rlt_dec al 0) as [_|N]; [|lra]. fold w. replace (w * (E' / w)) with E' by (field; lra).
      replace (w * (ecc_anom / w)) with ecc_anom by (field; lra). rewrite Hc. reflexivity. }
    assert (T := time_ellipse mu q e Hmu Hq L E'). cbv zeta in T. fold al w a in T.
    assert (Em : m = E' - e * s_ E') by (rewrite Hs; unfold E'; rewrite Hz; ring). rewrite Em, <- T.
    apply (reach x v mu Hr Hmu Hh X Vel M X0 V0); fold e q al h; [rewrite P2; exact B2|rewrite P1; exact B1].
  Qed.
  Lemma reach_tp : forall date, k_ecc k = e -> let '(am, dn) := pv_mean mu (k_ar k) (k_ecc k) (k_at k) in
    X (date - pv_tp date mu k am dn) = x /\ Vel (date - pv_tp date mu k am dn) = v.
  Proof.
    intros date Ke. rewrite Ke.
    assert (Hq : 0 < q) by (apply per_q_pos; assumption). assert (He : 0 <= e) by (apply per_e; assumption). assert (Hp : 0 < h) by (apply per_h; assumption).
    assert (Hhq : h * h = mu * q * (1 + e)) by (apply per_hq; assumption). assert (Hrad : norm x * (1 + e * c_ (k_at k)) = q * (1 + e)) by (apply per_rad; assumption).
    assert (HC := at_half x v mu). fold k in HC.
    assert (Kh : k_h k = h) by (apply (k_h_val x v mu)). assert (Kh2 : k_h2 k = h * h) by (unfold k; rewrite (k_h2_val x v mu); symmetry; apply h_h2).
    destruct (Rlt_le_dec e 1) as [L|L].
    - rewrite mean_val by exact L. unfold pv_tp. rops. rewrite Ke. replace (litR 1.0) with 1 by (rlit; lra). rewrite Rltb_true by exact L.
      destruct (reach_ellipse L (ecc_anom - e * s_ ecc_anom) (cong_refl _)) as [R1 R2].
      replace (date - (date - (ecc_anom - e * s_ ecc_anom) / sqrtR (mu * k_ar k * k_ar k * k_ar k))) with
        ((ecc_anom - e * s_ ecc_anom) / sqrtR (mu / (q / (1 - e) * (q / (1 - e)) * (q / (1 - e))))); [split; assumption|].
      rewrite ar_ellipse by exact L. set (a := q / (1 - e)). assert (0 < a) by (apply Rdiv_lt_0_compat; lra).
      replace (mu * / a * / a * / a) with (mu / (a * a * a)) by (field; lra). ring.
    - destruct (pv_mean mu (k_ar k) e (k_at k)) as [am dn]. unfold pv_tp. rops. rewrite Ke, Kh, Kh2.
      replace (litR 1.0) with 1 by (rlit; lra). replace (litR 2.0) with 2 by (rlit; lra). replace (litR 3.0) with 3 by (rlit; lra).
      rewrite Rltb_false by lra. set (C := c_ (k_at k / 2)) in *. set (S := s_ (k_at k / 2)) in *.
      destruct (Reqb_spec e 1) as [E1|E1].
      + destruct (anom_parabola mu q e h (norm x) (k_at k) Hmu Hq He Hp Hhq Hr Hrad E1 HC) as (A0 & A1 & HC0). fold C S in A0, A1, HC0.
        set (al := mu * (e - 1) / q) in *.
        destruct (half_anomaly mu q e h (norm x) (k_at k) Hmu Hq He Hp Hhq Hr Hrad _ A0 A1) as [B2 B1]. fold al in B1, B2.
        assert (EE : 2 * (h * (S / C) / mu / 2) = h * (S / C) / mu) by (field; lra). rewrite EE in B1, B2.
        assert (T := time_parabola mu q e h Hmu Hq Hhq E1 (S / C)). fold al in T.
        match goal with |- X ?t = x /\ _ => replace t with (q * U1 al (h * (S / C) / mu) + mu * U3 al (h * (S / C) / mu)) by (rewrite T; ring) end.
        apply (reach x v mu Hr Hmu Hh X Vel M X0 V0); assumption.
      + assert (L1 : 1 < e) by lra.
        destruct (anom_hyperbola mu q e (norm x) (k_at k) Hmu Hq He Hr Hrad L1 HC) as (A0 & A1 & Hw & HC0 & Ht). fold C S in A0, A1, HC0, Ht.
        set (al := mu * (e - 1) / q) in *. set (w := R_sqrt.sqrt al) in *.
        set (t := R_sqrt.sqrt ((e - 1) / (e + 1)) * (S / C)) in *. set (F := Rpower.ln (1 + t) - Rpower.ln (1 - t)) in *.
        destruct (half_anomaly mu q e h (norm x) (k_at k) Hmu Hq He Hp Hhq Hr Hrad _ A0 A1) as [B2 B1]. fold al in B1, B2.
        assert (EE : 2 * (F / w / 2) = F / w) by (field; lra). rewrite EE in B1, B2.
        assert (T := time_hyperbola mu q e Hmu Hq L1 F). cbv zeta in T. fold al w in T.
        match goal with |- X ?t = x /\ _ => replace t with (q * U1 al (F / w) + mu * U3 al (F / w)) end.
        { apply (reach x v mu Hr Hmu Hh X Vel M X0 V0); assumption. }
        rewrite T. replace (- (mu * k_ar k * k_ar k * k_ar k)) with (mu / (q / (e - 1) * (q / (e - 1)) * (q / (e - 1)))); [ring|].
        unfold k at 1 2 3. rewrite (per_ar x v mu) by assumption. fold e h. rewrite Hhq. field. repeat split; lra.
  Qed.
End Times.
