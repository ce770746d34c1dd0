(** * Proofs: aberration and light deflection, forward and iterated inverse. *)
From Coq Require Import Reals ZArith Lra Lia Psatz Bool.
From Verif Require Import Num NumR Erfa Geom M_Sphere P_Sphere M_Frames P_Frames M_Place.
From Interval Require Import Tactic.
Local Open Scope R_scope.

(** ** normalising a vector close to a unit vector loses next to nothing *)
Lemma unit_close_tight : forall w u, unitv u -> norm (vsub w u) <= 1/10 ->
  norm (vsub (unit_of w) u) <= norm (vsub w u) * (1 + 2 * norm (vsub w u)).
Proof.
  intros w u Hu He. set (h := norm (vsub w u)) in *.
  assert (H0 : 0 <= h) by apply norm_pos.
  assert (Nu : norm u = 1) by now apply norm_unit.
  assert (L := norm_triangle_sub u w). rewrite (norm_sub_sym u w) in L. fold h in L. rewrite Nu in L.
  assert (Wp : 0 < norm w) by lra. set (n := norm w) in *.
  assert (W2 : dot w w = n * n) by (unfold n; rewrite norm_sq; easy).
  assert (H2 : h * h = n * n - 2 * dot w u + 1).
  { unfold h. rewrite norm_sq. rewrite <- W2, <- Hu. vring. }
  set (c := dot w u) in *.
  assert (C0 : 0 < c) by nra.
  assert (X : c * c + (n * n - c * c) = n * n) by ring.
  assert (S : n * n - c * c <= h * h).
  { assert (Q := dot_pos (cross (vsub w u) u)). rewrite lagrange in Q. rewrite Hu in Q.
    assert (Q2 : dot (vsub w u) (vsub w u) = h * h) by (unfold h; rewrite norm_sq; easy).
    assert (Q3 : dot (vsub w u) u = c - 1).
    { unfold c. replace 1 with (dot u u) by exact Hu. vring. }
    nra. }
  assert (D2 : norm (vsub (unit_of w) u) * norm (vsub (unit_of w) u) = 2 - 2 * (c / n)).
  { rewrite norm_sq. transitivity ((1 / n) * (1 / n) * dot w w - 2 * (1 / n) * dot w u + dot u u).
    - unfold unit_of. fold n. vring.
    - rewrite W2, Hu. fold c. field. lra. }
  assert (D0 : 0 <= norm (vsub (unit_of w) u)) by apply norm_pos.
  set (d := norm (vsub (unit_of w) u)) in *.
  assert (B : d * d <= (h * (1 + 2 * h)) * (h * (1 + 2 * h))).
  { rewrite D2.
    (* c/n >= 1 - a/2 where a = (h (1+2h))^2 *)
    set (a := h * (1 + 2 * h) * (h * (1 + 2 * h))).
    assert (Ha : 0 <= a <= 1/50) by (unfold a; split; nra).
    assert (K : (1 - a / 2) <= c / n); [|lra].
    apply Rmult_le_reg_r with n; [easy|]. unfold Rdiv. rewrite Rmult_assoc, Rinv_l, Rmult_1_r by lra.
    apply Rsqr_incr_0_var; [|lra]. unfold Rsqr.
    (* (1-a/2)^2 n^2 <= c^2 *)
    apply Rle_trans with (n * n - h * h); [|lra].
    assert (N2 : (1 - h) * (1 - h) <= n * n) by nra.
    assert (A2 : h * h <= (a - a * a / 4) * ((1 - h) * (1 - h))).
    { unfold a. set (y := h * h). replace (h * (1 + 2 * h) * (h * (1 + 2 * h))) with (y * (1 + 2 * h) * (1 + 2 * h)) by (unfold y; ring).
      assert (Y : 0 <= y <= 1/100) by (unfold y; nra).
      assert (G : 1 <= ((1 + 2 * h) * (1 + 2 * h) - y * ((1 + 2 * h) * (1 + 2 * h) * ((1 + 2 * h) * (1 + 2 * h))) / 4) * ((1 - h) * (1 - h))).
      { unfold y. assert (H1 : 0 <= h <= 1/10) by lra. clear - H1.
        destruct (Req_dec h 0) as [->|N]; [lra|].
        assert (Hp : 0 < h) by lra.
        assert (R : 0 <= 2 - 3.25 * h - 9 * h * h - 4 * h * h * h).
        { nra. }
        assert (Z : 0 <= h * h) by nra. assert (Z3 : 0 <= h * h * h) by nra. assert (Z4 : 0 <= h * h * h * h) by nra.
        assert (Z5 : 0 <= h * (h * h * h * h) <= h * h * h * h) by nra.
        assert (Z6 : 0 <= h * h * (h * h * h * h) <= h * h * h * h) by nra.
        nra. }
      nra. }
    assert (A3 : (a - a * a / 4) * ((1 - h) * (1 - h)) <= (a - a * a / 4) * (n * n)).
    { apply Rmult_le_compat_l; [nra|easy]. }
    nra. }
  assert (0 <= h * (1 + 2 * h)) by nra.
  apply Rsqr_incr_0_var; [|easy]. exact B.
Qed.

Lemma norm_scale_abs : forall k a, norm (scale k a) = Rabs k * norm a.
Proof.
  intros k a. unfold norm at 1. rewrite dot_scale_l, dot_scale_r.
  replace (k * (k * dot a a)) with (Rabs k * Rabs k * dot a a) by (rewrite <- Rabs_mult, Rabs_pos_eq by nra; ring).
  rewrite sqrt_mult_alt by (apply Rmult_le_pos; apply Rabs_pos). rewrite sqrt_square by apply Rabs_pos. reflexivity.
Qed.
Lemma unit_of_unitv : forall w, w <> vzero -> unitv (unit_of w).
Proof. intros w H. now apply scale_unit. Qed.
Lemma norm_zero : norm vzero = 0.
Proof. unfold norm, dot, vzero. cbn. replace (0 * 0 + 0 * 0 + 0 * 0) with 0 by ring. apply sqrt_0. Qed.
Lemma norm_nz : forall w, 0 < norm w -> w <> vzero.
Proof. intros w H E. rewrite E, norm_zero in H. lra. Qed.

(** ** the code's vectors as vector expressions *)
Definition aber (b : R) (v pd p : vec R) : vec R := vadd (scale b p) (scale (1 + dot pd v / (b + 1)) v).
Lemma mq_aberr_val : forall b v pd p, mq_aberr b v pd p = aber b v pd p.
Proof.
  intros b [a1 a2 a3] [d1 d2 d3] [p1 p2 p3]. unfold mq_aberr, aber, eraPdp, vadd, scale, dot. cbn [vx vy vz]. cbv zeta.
  replace (@lit R RA 1.0) with 1 by (rn; lra). rops. reflexivity.
Qed.
Definition defl (g : R) (e p : vec R) : vec R :=
  let c := dot p e in vadd p (scale (g / Rmax (c + 1) (1/100000)) (vsub e (scale c p))).
Lemma mq_deflect_val : forall g e p, mq_deflect g e p = defl g e p.
Proof.
  intros g [a1 a2 a3] [p1 p2 p3]. unfold mq_deflect, defl, eraPdp, vadd, vsub, scale, dot. cbn [vx vy vz]. cbv zeta.
  replace (@lit R RA 1.0) with 1 by (rn; lra). replace (@lit R RA 1.0e-5) with (1/100000) by (rn; lra).
  rops. unfold Rltb.
  match goal with |- context [Rlt_dec ?a ?b] => destruct (Rlt_dec a b) as [L|L] end.
  - rewrite Rmax_left by lra. reflexivity.
  - rewrite Rmax_right by lra. reflexivity.
Qed.
Lemma eraPn_unit : forall w, w <> vzero -> snd (eraPn w) = unit_of w.
Proof. intros w H. now rewrite eraPn_nz. Qed.

Ltac vd u := let a := fresh "q" in let b := fresh "q" in let c := fresh "q" in destruct u as [a b c].
Lemma exp_sum : forall k w u v, dot (vadd (scale k u) (scale w v)) (vadd (scale k u) (scale w v))
  = k * k * dot u u + 2 * k * w * dot u v + w * w * dot v v.
Proof. intros; vring. Qed.
Lemma exp_defl : forall k c e p, dot (vadd p (scale k (vsub e (scale c p)))) (vadd p (scale k (vsub e (scale c p))))
  = dot p p + 2 * k * (dot p e - c * dot p p) + k * k * (dot e e - 2 * c * dot p e + c * c * dot p p).
Proof. intros; vring. Qed.
Lemma exp_perp : forall k c e p, dot (scale k (vsub e (scale c p))) (scale k (vsub e (scale c p)))
  = k * k * (dot e e - 2 * c * dot p e + c * c * dot p p).
Proof. intros; vring. Qed.
Lemma exp_add : forall k a e, dot (vadd a (scale k e)) (vadd a (scale k e)) = dot a a + 2 * k * dot a e + k * k * dot e e.
Proof. intros; vring. Qed.
Lemma exp_de : forall k c e p, dot (vadd p (scale k (vsub e (scale c p)))) e = dot p e + k * (dot e e - c * dot p e).
Proof. intros; vring. Qed.
Lemma sub_add_self : forall p x, vsub (vadd p x) p = x. Proof. intros; vring. Qed.
Lemma sub_split : forall a b c, vsub a c = vadd (vsub a b) (vsub b c). Proof. intros; vring. Qed.
Lemma dot_sub_l : forall a b c, dot (vsub a b) c = dot a c - dot b c. Proof. intros; vring. Qed.

Lemma Rabs_le_inv : forall a b, Rabs a <= b -> - b <= a <= b.
Proof. intros a b H. unfold Rabs in H. destruct (Rcase_abs a); lra. Qed.
(** ** aberration *)
Definition Gab (b : R) (v s x : vec R) : vec R :=
  scale (1 / b) (vsub (scale (1 + dot x v) s) (scale (1 + dot x v / (b + 1)) v)).
Lemma aq_aberr_val : forall b v s x, Gab b v s x <> vzero -> aq_aberr b v s x = unit_of (Gab b v s x).
Proof.
  intros b v s x H. unfold aq_aberr. cbv zeta.
  replace (@lit R RA 1.0) with 1 by (rn; lra). rops.
  match goal with |- snd (eraPn ?w) = _ => replace w with (Gab b v s x) end.
  - now apply eraPn_unit.
  - vd v; vd s; vd x. unfold Gab, eraPdp, vsub, scale, dot. cbn [vx vy vz]. rops. unfold Rdiv. f_equal; ring.
Qed.

Section Aberration.
  Variables (b : R) (v : vec R).
  Hypothesis Hb : b * b = 1 - dot v v.
  Hypothesis Hb0 : 0 < b.
  Hypothesis HN : norm v <= 11 / 100000.
  Lemma b_bounds : 1 - 2 / 100000000 <= b <= 1.
  Proof. assert (Q := norm_sq v). assert (P := norm_pos v). split; nra. Qed.
  Lemma pv_bound : forall u, unitv u -> Rabs (dot u v) <= 11 / 100000.
  Proof. intros u Hu. assert (C := cauchy_abs u v). rewrite (norm_unit u Hu) in C. lra. Qed.
  Lemma aber_sq : forall u, unitv u -> dot (aber b v u u) (aber b v u u) = (1 + dot u v) * (1 + dot u v).
  Proof.
    intros u Hu. unfold aber. set (c := dot u v). set (w := 1 + c / (b + 1)).
    rewrite exp_sum, Hu. fold c. replace (dot v v) with (1 - b * b) by lra. unfold w. field. lra.
  Qed.
  Lemma aber_norm : forall u, unitv u -> norm (aber b v u u) = 1 + dot u v.
  Proof.
    intros u Hu. unfold norm. rewrite aber_sq by easy. apply sqrt_square.
    assert (Q := pv_bound u Hu). apply Rabs_le_inv in Q. lra.
  Qed.
  Lemma aber_unit : forall u, unitv u -> unit_of (aber b v u u) = scale (1 / (1 + dot u v)) (aber b v u u).
  Proof. intros u Hu. unfold unit_of. now rewrite aber_norm. Qed.
  Lemma aber_away : forall u, unitv u -> norm (vsub (unit_of (aber b v u u)) u) <= 23 / 100000.
  Proof.
    intros u Hu. rewrite aber_unit by easy. assert (C := pv_bound u Hu). apply Rabs_le_inv in C.
    set (c := dot u v) in *.
    replace (vsub (scale (1 / (1 + c)) (aber b v u u)) u)
      with (scale (1 / (1 + c)) (vadd (scale (b - 1 - c) u) (scale (1 + c / (b + 1)) v))).
    2:{ unfold aber. fold c. vd u; vd v. unfold scale, vadd, vsub. cbn [vx vy vz]. f_equal; field; lra. }
    rewrite norm_scale_abs, Rabs_pos_eq by (left; apply Rdiv_lt_0_compat; lra).
    assert (B := b_bounds). assert (N0 := norm_pos v).
    assert (T : norm (vadd (scale (b - 1 - c) u) (scale (1 + c / (b + 1)) v)) <= 22004 / 100000000).
    { eapply Rle_trans; [apply norm_triangle|]. rewrite !norm_scale_abs, (norm_unit u Hu).
      assert (Rabs (b - 1 - c) <= 11002 / 100000000) by (apply Rabs_le; lra).
      assert (CB : - (11/100000) <= c / (b + 1) <= 11 / 100000).
      { assert (H1 : / (b + 1) <= 1). { rewrite <- Rinv_1. apply Rinv_le_contravar; lra. }
        assert (H2 : 0 < / (b + 1)) by (apply Rinv_0_lt_compat; lra). unfold Rdiv. split; nra. }
      rewrite (Rabs_pos_eq (1 + _)) by lra. nra. }
    assert (I : 1 / (1 + c) <= 10002 / 10000).
    { apply Rmult_le_reg_r with (1 + c); [lra|]. unfold Rdiv. rewrite Rmult_assoc, Rinv_l by lra. lra. }
    assert (I0 : 0 < 1 / (1 + c)) by (apply Rdiv_lt_0_compat; lra).
    assert (T0 := norm_pos (vadd (scale (b - 1 - c) u) (scale (1 + c / (b + 1)) v))). nra.
  Qed.
  Lemma aber_fix : forall u, unitv u -> Gab b v (unit_of (aber b v u u)) u = u.
  Proof.
    intros u Hu. rewrite aber_unit by easy. assert (C := pv_bound u Hu). apply Rabs_le_inv in C.
    unfold Gab, aber. set (c := dot u v) in *. destruct u as [u1 u2 u3], v as [v1 v2 v3].
    unfold scale, vadd, vsub. cbn [vx vy vz]. f_equal; field; repeat split; lra.
  Qed.
  Lemma Gab_step : forall u s0 x e e1, unitv u -> unitv s0 ->
    norm (vsub s0 (unit_of (aber b v u u))) <= e1 -> norm (vsub x u) <= e ->
    norm (vsub (Gab b v s0 x) u) <= 111 / 1000000 * e + 1001 / 1000 * e1.
  Proof.
    intros u s0 x e e1 Hu Hs H1 He. set (s := unit_of (aber b v u u)) in *.
    assert (F := aber_fix u Hu). fold s in F.
    assert (B := b_bounds). assert (N0 := norm_pos v). assert (C := pv_bound u Hu). apply Rabs_le_inv in C.
    replace (vsub (Gab b v s0 x) u)
      with (scale (1 / b) (vadd (scale (dot (vsub x u) v) (vsub s0 (scale (1 / (b + 1)) v))) (scale (1 + dot u v) (vsub s0 s)))).
    2:{ transitivity (vsub (Gab b v s0 x) (Gab b v s u)); [|now rewrite F].
        unfold Gab. clear - B; vd u; vd v; vd s0; vd s; vd x. unfold scale, vadd, vsub, dot. cbn [vx vy vz]. f_equal; field; lra. }
    rewrite norm_scale_abs, Rabs_pos_eq by (left; apply Rdiv_lt_0_compat; lra).
    assert (T : norm (vadd (scale (dot (vsub x u) v) (vsub s0 (scale (1 / (b + 1)) v))) (scale (1 + dot u v) (vsub s0 s)))
      <= 11003 / 100000000 * e + 10002 / 10000 * e1).
    { eapply Rle_trans; [apply norm_triangle|]. rewrite !norm_scale_abs. apply Rplus_le_compat.
      - assert (Q := cauchy_abs (vsub x u) v). assert (Q0 := norm_pos (vsub x u)).
        assert (W : norm (vsub s0 (scale (1 / (b + 1)) v)) <= 10002/10000).
        { replace (vsub s0 (scale (1 / (b + 1)) v)) with (vadd s0 (scale (- (1 / (b + 1))) v)) by (vd s0; vd v; unfold vsub, vadd, scale; cbn [vx vy vz]; f_equal; ring).
          eapply Rle_trans; [apply norm_triangle|]. rewrite (norm_unit s0 Hs), norm_scale_abs, Rabs_Ropp.
          assert (I : 0 <= 1 / (b + 1) <= 1).
          { split; [left; apply Rdiv_lt_0_compat; lra|]. apply Rmult_le_reg_r with (b + 1); [lra|].
            unfold Rdiv. rewrite Rmult_assoc, Rinv_l by lra. lra. }
          rewrite Rabs_pos_eq by lra. nra. }
        assert (W0 := norm_pos (vsub s0 (scale (1 / (b + 1)) v))). assert (A0 := Rabs_pos (dot (vsub x u) v)).
        assert (Z : Rabs (dot (vsub x u) v) <= e * (11/100000)) by (eapply Rle_trans; [exact Q|]; apply Rmult_le_compat; lra).
        assert (E0 : 0 <= e) by lra. apply Rle_trans with (e * (11/100000) * (10002/10000)); [apply Rmult_le_compat; lra|lra].
      - rewrite Rabs_pos_eq by lra. assert (Q0 := norm_pos (vsub s0 s)). nra. }
    assert (I : 0 < 1 / b <= 1 + 3 / 100000000).
    { split; [apply Rdiv_lt_0_compat; lra|]. apply Rmult_le_reg_r with b; [lra|].
      unfold Rdiv. rewrite Rmult_assoc, Rinv_l by lra. nra. }
    assert (E0 : 0 <= e) by (eapply Rle_trans; [apply norm_pos|exact He]).
    assert (E1 : 0 <= e1) by (eapply Rle_trans; [apply norm_pos|exact H1]).
    assert (T0 := norm_pos (vadd (scale (dot (vsub x u) v) (vsub s0 (scale (1 / (b + 1)) v))) (scale (1 + dot u v) (vsub s0 s)))).
    nra.
  Qed.
  Lemma aq_step : forall u s0 x e e1, unitv u -> unitv s0 ->
    norm (vsub s0 (unit_of (aber b v u u))) <= e1 -> norm (vsub x u) <= e -> e <= 1/1000 -> e1 <= 1/1000000 ->
    unitv (aq_aberr b v s0 x) /\
    norm (vsub (aq_aberr b v s0 x) u) <= 112 / 1000000 * e + 1002 / 1000 * e1.
  Proof.
    intros u s0 x e e1 Hu Hs H1 He Le L1. assert (G := Gab_step u s0 x e e1 Hu Hs H1 He).
    assert (E0 : 0 <= e) by (eapply Rle_trans; [apply norm_pos|exact He]).
    assert (E1 : 0 <= e1) by (eapply Rle_trans; [apply norm_pos|exact H1]).
    assert (Nz : Gab b v s0 x <> vzero).
    { apply norm_nz. assert (Q := norm_triangle_sub u (Gab b v s0 x)). rewrite norm_sub_sym, (norm_unit u Hu) in Q. lra. }
    rewrite aq_aberr_val by easy. split; [now apply unit_of_unitv|].
    eapply Rle_trans; [apply unit_close_tight; [easy|lra]|].
    assert (G0 := norm_pos (vsub (Gab b v s0 x) u)). nra.
  Qed.
  (** the two steps of palAmpqk *)
  Lemma aq_two : forall u s0 e1, unitv u -> unitv s0 ->
    norm (vsub s0 (unit_of (aber b v u u))) <= e1 -> e1 <= 1/1000000 ->
    let x := repeat_n 2 (aq_aberr b v s0) s0 in
    unitv x /\ norm (vsub x u) <= 29 / 10 ^ 13 + 1003 / 1000 * e1.
  Proof.
    intros u s0 e1 Hu Hs H1 L1 x.
    assert (E1 : 0 <= e1) by (eapply Rle_trans; [apply norm_pos|exact H1]).
    assert (A0 : norm (vsub s0 u) <= 23/100000 + e1).
    { rewrite (sub_split s0 (unit_of (aber b v u u)) u).
      eapply Rle_trans; [apply norm_triangle|]. assert (Q := aber_away u Hu). lra. }
    destruct (aq_step u s0 s0 _ e1 Hu Hs H1 A0 ltac:(lra) L1) as [U1 A1].
    destruct (aq_step u s0 _ _ e1 Hu Hs H1 A1 ltac:(lra) L1) as [U2 A2].
    split; [exact U2|]. unfold x. cbn [repeat_n]. lra.
  Qed.
End Aberration.

(** ** light deflection *)
Definition Gdf (g : R) (e q x : vec R) : vec R :=
  let t := dot x e in scale (1 / (1 + t - g * t)) (vsub (scale (1 + t) q) (scale g e)).
Lemma aq_deflect_val : forall g e q x, Gdf g e q x <> vzero -> aq_deflect g e q x = unit_of (Gdf g e q x).
Proof.
  intros g e q x H. unfold aq_deflect. cbv zeta.
  replace (@lit R RA 1.0) with 1 by (rn; lra). rops.
  match goal with |- snd (eraPn ?w) = _ => replace w with (Gdf g e q x) end.
  - now apply eraPn_unit.
  - unfold Gdf. cbv zeta. change (eraPdp x e) with (dot x e). generalize (dot x e). intros t.
    vd e; vd q. unfold vsub, scale. cbn [vx vy vz]. unfold Rdiv. f_equal; ring.
Qed.

Section Deflection.
  Variables (g : R) (e p : vec R).
  Hypothesis Hg : 0 <= g <= 21 / 10 ^ 9.
  Hypothesis He : unitv e.
  Hypothesis Hp : unitv p.
  Hypothesis HD : 1 / 10000 <= 1 + dot p e.
  Let c := dot p e.
  Let D := 1 + c.
  Lemma c_bounds : -1 <= c <= 1.
  Proof.
    assert (Q := cauchy_abs p e). rewrite (norm_unit p Hp), (norm_unit e He) in Q. apply Rabs_le_inv in Q.
    unfold c. lra.
  Qed.
  Lemma defl_val : defl g e p = vadd p (scale (g / D) (vsub e (scale c p))).
  Proof. unfold defl. cbv zeta. fold c. rewrite Rmax_left; [|unfold c; lra]. unfold D. now rewrite (Rplus_comm c). Qed.
  Lemma defl_sq : dot (defl g e p) (defl g e p) = 1 + g * g * (1 - c) / D.
  Proof.
    rewrite defl_val. set (k := g / D).
    rewrite exp_defl, Hp, He. fold c. unfold k. unfold D. field. unfold D, c. lra.
  Qed.
  Lemma gD : 0 <= g / D <= 21 / 10 ^ 5.
  Proof.
    assert (I : 0 < / D <= 10000).
    { split; [apply Rinv_0_lt_compat; unfold D, c; lra|]. replace 10000 with (/ (1/10000)) by field.
      apply Rinv_le_contravar; unfold D, c; lra. }
    unfold Rdiv. split; nra.
  Qed.
  Lemma lam_bounds : 1 <= norm (defl g e p) <= 1 + 45 / 10 ^ 13.
  Proof.
    assert (C := c_bounds). assert (K := gD).
    assert (S : 0 <= g * g * (1 - c) / D <= 9 / 10 ^ 12).
    { replace (g * g * (1 - c) / D) with (g / D * (g * (1 - c))) by (unfold Rdiv; ring).
      assert (0 <= g * (1 - c) <= 42 / 10 ^ 9) by (split; nra). split; nra. }
    assert (Q := norm_sq (defl g e p)). rewrite defl_sq in Q. assert (P := norm_pos (defl g e p)). split; nra.
  Qed.
  Lemma defl_away : norm (vsub (defl g e p) p) <= 3 / 10 ^ 6.
  Proof.
    assert (C := c_bounds). assert (K := gD).
    replace (vsub (defl g e p) p) with (scale (g / D) (vsub e (scale c p))) by (rewrite defl_val, sub_add_self; reflexivity).
    assert (S : norm (scale (g / D) (vsub e (scale c p))) * norm (scale (g / D) (vsub e (scale c p))) = g / D * (g * (1 - c))).
    { rewrite norm_sq, exp_perp, Hp, He. fold c. unfold D. field. unfold D, c. lra. }
    assert (P := norm_pos (scale (g / D) (vsub e (scale c p)))).
    assert (0 <= g * (1 - c) <= 42 / 10 ^ 9) by (split; nra).
    assert (g / D * (g * (1 - c)) <= 882 / 10 ^ 14) by nra. nra.
  Qed.
  Lemma defl_fix : Gdf g e (defl g e p) p = p.
  Proof.
    rewrite defl_val. unfold Gdf. cbv zeta. fold c. assert (C := c_bounds).
    assert (L0 : 1 / 10000 <= 1 + c) by (unfold c; lra).
    assert (N1 : 0 < D - g * c) by (unfold D; nra). unfold D in *.
    assert (N2 : 0 < 1 + c) by (unfold c; lra).
    clearbody c. vd e; vd p. unfold vsub, vadd, scale. cbn [vx vy vz]. f_equal; field; repeat split; lra.
  Qed.
  Lemma defl_sum : norm (vadd (defl g e p) (scale (1 - g) e)) <= 146 * (D - g * c).
  Proof.
    assert (C := c_bounds). assert (K := gD).
    assert (S : norm (vadd (defl g e p) (scale (1 - g) e)) * norm (vadd (defl g e p) (scale (1 - g) e))
      = 1 + g * g * (1 - c) / D + (1 - g) * (1 - g) + 2 * (1 - g) * (c + g * (1 - c))).
    { rewrite norm_sq. rewrite <- defl_sq.
      assert (Q : dot (defl g e p) e = c + g * (1 - c)).
      { rewrite defl_val, exp_de, He. fold c. unfold D. field. unfold c; lra. }
      rewrite exp_add, Q, He. ring. }
    assert (T : 0 <= g * g * (1 - c) / D <= 9 / 10 ^ 12).
    { replace (g * g * (1 - c) / D) with (g / D * (g * (1 - c))) by (unfold Rdiv; ring).
      assert (0 <= g * (1 - c) <= 42 / 10 ^ 9) by (split; nra). split; nra. }
    assert (U : norm (vadd (defl g e p) (scale (1 - g) e)) * norm (vadd (defl g e p) (scale (1 - g) e)) <= 21 / 10 * D).
    { rewrite S. unfold D in *. assert (1 / 10000 <= 1 + c) by (unfold c; lra). nra. }
    assert (W : 999 / 1000 * D <= D - g * c). { unfold D in *. assert (1 / 10000 <= 1 + c) by (unfold c; lra). nra. }
    assert (P := norm_pos (vadd (defl g e p) (scale (1 - g) e))).
    assert (L : 1 / 10000 <= D) by (unfold D, c; lra).
    apply Rsqr_incr_0_var; [|nra]. unfold Rsqr. eapply Rle_trans; [exact U|]. 
    apply Rle_trans with (146 * (999 / 1000 * D) * (146 * (999 / 1000 * D))); [nra|].
    apply Rmult_le_compat; nra.
  Qed.
  Lemma Gdf_step : forall q x d d1, norm (vsub q (defl g e p)) <= d1 -> norm (vsub x p) <= d -> d <= 1 / 20000 ->
    norm (vsub (Gdf g e q x) p) <= 628 / 10000 * d + 10005 / 10000 * d1.
  Proof.
    intros q x d d1 H1 H2 Hd. assert (C := c_bounds).
    assert (E0 : 0 <= d) by (eapply Rle_trans; [apply norm_pos|exact H2]).
    assert (E1 : 0 <= d1) by (eapply Rle_trans; [apply norm_pos|exact H1]).
    set (t := dot x e).
    assert (Ht : Rabs (t - c) <= norm (vsub x p)).
    { replace (t - c) with (dot (vsub x p) e) by (unfold t, c; apply dot_sub_l).
      assert (Q := cauchy_abs (vsub x p) e). rewrite (norm_unit e He) in Q. lra. }
    assert (Ht' : Rabs (t - c) <= d) by lra. apply Rabs_le_inv in Ht'.
    assert (L : 1 / 10000 <= D) by (unfold D, c; lra).
    assert (T1 : 1 / 20000 <= 1 + t) by (unfold D in L; lra).
    assert (W1 : 49 / 1000000 <= 1 + t - g * t) by nra.
    assert (W2 : 0 < D - g * c) by (unfold D in *; nra).
    assert (F := defl_fix). set (f := defl g e p) in *.
    replace (vsub (Gdf g e q x) p)
      with (vadd (scale ((1 + t) / (1 + t - g * t)) (vsub q f))
                 (scale (g * (t - c) / ((1 + t - g * t) * (D - g * c))) (vadd f (scale (1 - g) e)))).
    2:{ transitivity (vsub (Gdf g e q x) (Gdf g e f p)); [|now rewrite F].
        unfold Gdf. cbv zeta. fold t c. clear - W1 W2. unfold D in *. clearbody t c f.
        vd q; vd f; vd e. unfold vsub, vadd, scale. cbn [vx vy vz]. f_equal; field; lra. }
    eapply Rle_trans; [apply norm_triangle|]. rewrite !norm_scale_abs.
    assert (K1 : 0 <= (1 + t) / (1 + t - g * t) <= 10005 / 10000).
    { split; [left; apply Rdiv_lt_0_compat; lra|]. apply Rmult_le_reg_r with (1 + t - g * t); [lra|].
      unfold Rdiv. rewrite Rmult_assoc, Rinv_l by lra. nra. }
    rewrite (Rabs_pos_eq (_ / _)) by lra.
    assert (S := defl_sum). fold f in S. set (m := norm (vadd f (scale (1 - g) e))) in *.
    assert (K2 : Rabs (g * (t - c) / ((1 + t - g * t) * (D - g * c))) * m <= 628 / 10000 * d).
    { unfold Rdiv. rewrite !Rabs_mult, (Rabs_pos_eq g), (Rabs_pos_eq (/ _)) by (try lra; left; apply Rinv_0_lt_compat; nra).
      rewrite Rinv_mult.
      assert (I1 : 0 < / (1 + t - g * t) <= 1000000/49).
      { split; [apply Rinv_0_lt_compat; lra|]. replace (1000000/49) with (/ (49/1000000)) by field. apply Rinv_le_contravar; lra. }
      assert (I2 : / (D - g * c) * m <= 146).
      { apply Rmult_le_reg_l with (D - g * c); [easy|]. rewrite <- Rmult_assoc, Rinv_r by lra. lra. }
      assert (I3 : 0 < / (D - g * c)) by (apply Rinv_0_lt_compat; easy).
      assert (M0 : 0 <= m) by apply norm_pos.
      assert (A0 := Rabs_pos (t - c)). assert (A1 : Rabs (t - c) <= d) by lra.
      replace (g * Rabs (t - c) * (/ (1 + t - g * t) * / (D - g * c)) * m)
        with ((g * / (1 + t - g * t)) * (/ (D - g * c) * m) * Rabs (t - c)) by ring.
      set (i2 := / (D - g * c) * m) in *. assert (0 <= i2) by (unfold i2; nra).
      set (i1 := / (1 + t - g * t)) in *. clearbody i1 i2.
      assert (J : g * i1 <= 43 / 100000) by nra. assert (0 <= g * i1) by nra.
      assert (J2 : g * i1 * i2 <= 43 / 100000 * 146) by (apply Rmult_le_compat; lra).
      assert (0 <= g * i1 * i2) by nra. 
      apply Rle_trans with (43 / 100000 * 146 * d); [|lra]. apply Rmult_le_compat; lra. }
    assert (K3 : (1 + t) / (1 + t - g * t) * norm (vsub q f) <= 10005 / 10000 * d1).
    { apply Rmult_le_compat; try lra. apply norm_pos. }
    lra.
  Qed.
  Lemma df_step : forall q x d d1, norm (vsub q (defl g e p)) <= d1 -> norm (vsub x p) <= d -> d <= 1 / 20000 -> d1 <= 1 / 10^9 ->
    unitv (aq_deflect g e q x) /\
    norm (vsub (aq_deflect g e q x) p) <= 629 / 10000 * d + 1001 / 1000 * d1.
  Proof.
    intros q x d d1 H1 H2 Hd Hd1. assert (G := Gdf_step q x d d1 H1 H2 Hd).
    assert (E0 : 0 <= d) by (eapply Rle_trans; [apply norm_pos|exact H2]).
    assert (E1 : 0 <= d1) by (eapply Rle_trans; [apply norm_pos|exact H1]).
    assert (Nz : Gdf g e q x <> vzero).
    { apply norm_nz. assert (Q := norm_triangle_sub p (Gdf g e q x)). rewrite norm_sub_sym, (norm_unit p Hp) in Q. lra. }
    rewrite aq_deflect_val by easy. split; [now apply unit_of_unitv|].
    eapply Rle_trans; [apply unit_close_tight; [easy|lra]|].
    assert (G0 := norm_pos (vsub (Gdf g e q x) p)).
    assert (Z : norm (vsub (Gdf g e q x) p) <= 4 / 10 ^ 6) by lra. nra.
  Qed.
  (** the five steps of palAmpqk, from an approximation [q] of the deflected direction *)
  Lemma df_five : forall q d1, norm (vsub q (defl g e p)) <= d1 -> d1 <= 1 / 10 ^ 9 ->
    let x := repeat_n 5 (aq_deflect g e q) q in
    unitv x /\ norm (vsub x p) <= 30 / 10 ^ 13 + 107 / 100 * d1.
  Proof.
    intros q d1 H1 L1 x.
    assert (E1 : 0 <= d1) by (eapply Rle_trans; [apply norm_pos|exact H1]).
    assert (A0 : norm (vsub q p) <= 3 / 10 ^ 6 + d1).
    { rewrite (sub_split q (defl g e p) p).
      eapply Rle_trans; [apply norm_triangle|]. assert (Q := defl_away). lra. }
    destruct (df_step q _ _ d1 H1 A0 ltac:(lra) L1) as [U1 A1].
    destruct (df_step q _ _ d1 H1 A1 ltac:(lra) L1) as [U2 A2].
    destruct (df_step q _ _ d1 H1 A2 ltac:(lra) L1) as [U3 A3].
    destruct (df_step q _ _ d1 H1 A3 ltac:(lra) L1) as [U4 A4].
    destruct (df_step q _ _ d1 H1 A4 ltac:(lra) L1) as [U5 A5].
    split; [exact U5|]. unfold x. cbn [repeat_n]. lra.
  Qed.
End Deflection.

(** ** assembling palMapqkz and palAmpqk *)
Lemma norm_rot : forall m w, rotation m -> norm (mapp m w) = norm w.
Proof. intros m w H. unfold norm. f_equal. rewrite dot_mapp, <- mapp_mmul, rotation_tr, mapp_mid by easy. reflexivity. Qed.
Lemma unit_of_rot : forall m w, rotation m -> unit_of (mapp m w) = mapp m (unit_of w).
Proof. intros m w H. unfold unit_of. rewrite norm_rot by easy. symmetry. apply mapp_scale. Qed.
Lemma mapp_vsub : forall m u v, mapp m (vsub u v) = vsub (mapp m u) (mapp m v). Proof. intros; vring. Qed.
Lemma mq_radec_dir : forall m w, rotation m -> 0 < norm w ->
  dir (fst (mq_radec m w)) (snd (mq_radec m w)) = mapp m (unit_of w).
Proof.
  intros m w H Hw. unfold mq_radec. rewrite eraRxp_mapp, (surjective_pairing (eraC2s _)). cbn [fst snd].
  rewrite C2s_anp_dir by (apply norm_nz; rewrite norm_rot by easy; easy).
  change (scale (1 / norm (mapp m w)) (mapp m w)) with (unit_of (mapp m w)). now apply unit_of_rot.
Qed.
Lemma mq_radec_range : forall m w, 0 <= fst (mq_radec m w) < 2 * PI /\ - (PI/2) <= snd (mq_radec m w) <= PI/2.
Proof. intros m w. unfold mq_radec. rewrite (surjective_pairing (eraC2s _)). cbn [fst snd]. apply C2s_anp_range. Qed.

(** aberration of a vector that is only nearly unit: [w] = [defl ...], and [pd] dotted in place of it *)
Lemma aber_near : forall b v u pd l r, b * b = 1 - dot v v -> 0 < b -> norm v <= 11 / 100000 -> unitv u ->
  1 <= l <= 1 + 1 / 10 ^ 9 -> norm (vsub pd (scale l u)) <= r -> r <= 1 / 5 ->
  norm (aber b v pd (scale l u)) <> 0 /\
  norm (vsub (unit_of (aber b v pd (scale l u))) (unit_of (aber b v u u))) <= 63 / 10^10 * r + 12 / 10 ^ 5 * (l - 1).
Proof.
  intros b v u pd l r Hb Hb0 HN Hu Hl Hr Lr.
  assert (R0 : 0 <= r) by (eapply Rle_trans; [apply norm_pos|exact Hr]).
  assert (B := b_bounds b v Hb Hb0 HN). assert (C := pv_bound v HN u Hu). apply Rabs_le_inv in C.
  assert (N0 := norm_pos v).
  assert (AU := aber_unit b v Hb Hb0 HN u Hu). set (c := dot u v) in *.
  set (s := unit_of (aber b v u u)) in *.
  assert (Us : unitv s).
  { apply unit_of_unitv, norm_nz. rewrite aber_norm by easy. fold c. lra. }
  set (w := aber b v pd (scale l u)).
  assert (K : 0 < l * (1 + c)) by nra.
  assert (Kb : 1 / (l * (1 + c)) <= 10002 / 10000).
  { apply Rmult_le_reg_r with (l * (1 + c)); [easy|]. unfold Rdiv. rewrite Rmult_assoc, Rinv_l by lra. nra. }
  assert (K0 : 0 < 1 / (l * (1 + c))) by (apply Rdiv_lt_0_compat; lra).
  set (w' := scale (1 / (l * (1 + c))) w).
  assert (E : vsub w' s = scale (1 / (l * (1 + c))) (vadd (scale (dot (vsub pd (scale l u)) v / (b + 1)) v) (scale (1 - l) v))).
  { rewrite AU. unfold w', w, aber.
    replace (dot pd v) with (dot (vsub pd (scale l u)) v + l * c) by (rewrite dot_sub_l, dot_scale_l; unfold c; ring).
    fold c. generalize (dot (vsub pd (scale l u)) v). intros z. clear - B C Hl K.
    vd u; vd v. unfold vadd, vsub, scale. cbn [vx vy vz]. f_equal; field; repeat split; nra. }
  assert (Q := cauchy_abs (vsub pd (scale l u)) v).
  assert (Z : Rabs (dot (vsub pd (scale l u)) v) <= r * (11/100000)). { assert (P := norm_pos (vsub pd (scale l u))). eapply Rle_trans; [exact Q|]. apply Rmult_le_compat; lra. }
  assert (I : 0 < / (b + 1) <= 50001 / 100000).
  { split; [apply Rinv_0_lt_compat; lra|]. replace (50001/100000) with (/ (100000/50001)) by field. apply Rinv_le_contravar; lra. }
  assert (H : norm (vsub w' s) <= 62 / 10 ^ 10 * r + 11005 / 10 ^ 8 * (l - 1)).
  { rewrite E, norm_scale_abs, Rabs_pos_eq by lra.
    assert (T : norm (vadd (scale (dot (vsub pd (scale l u)) v / (b + 1)) v) (scale (1 - l) v)) <= 61 / 10 ^ 10 * r + 11/100000 * (l - 1)).
    { eapply Rle_trans; [apply norm_triangle|]. rewrite !norm_scale_abs. rewrite (Rabs_minus_sym 1 l), (Rabs_pos_eq (l - 1)) by lra.
      unfold Rdiv. rewrite Rabs_mult, (Rabs_pos_eq (/ (b + 1))) by lra.
      assert (A0 := Rabs_pos (dot (vsub pd (scale l u)) v)).
      assert (Z1 : Rabs (dot (vsub pd (scale l u)) v) * / (b + 1) <= r * (11/100000) * (50001/100000)) by (apply Rmult_le_compat; lra).
      assert (Z2 : Rabs (dot (vsub pd (scale l u)) v) * / (b + 1) * norm v <= r * (11/100000) * (50001/100000) * (11/100000)).
      { apply Rmult_le_compat; try lra. apply Rmult_le_pos; lra. }
      nra. }
    assert (T0 := norm_pos (vadd (scale (dot (vsub pd (scale l u)) v / (b + 1)) v) (scale (1 - l) v))). nra. }
  assert (Wnz : 0 < norm w').
  { assert (L := norm_triangle_sub s w'). rewrite norm_sub_sym, (norm_unit s Us) in L. nra. }
  split.
  { intros Z0. unfold w' in Wnz. rewrite norm_scale in Wnz by lra. fold w in Z0. rewrite Z0 in Wnz. lra. }
  replace (unit_of w) with (unit_of w') by (unfold w'; apply unit_of_scale; lra).
  eapply Rle_trans; [apply unit_close_tight; [easy|nra]|].
  assert (H0 := norm_pos (vsub w' s)). nra.
Qed.

(** the deflected vector is [norm * unit]; close to [p] everywhere *)
Lemma defl_scale : forall g e p, 0 < norm (defl g e p) -> defl g e p = scale (norm (defl g e p)) (unit_of (defl g e p)).
Proof.
  intros g e p H. set (w := defl g e p) in *. unfold unit_of. rewrite scale_scale.
  replace (norm w * (1 / norm w)) with 1 by (field; lra). now rewrite scale_1.
Qed.
Lemma defl_any : forall g e p, 0 <= g <= 21 / 10 ^ 9 -> unitv e -> unitv p ->
  1 <= norm (defl g e p) <= 1 + 5 / 10 ^ 11 /\ norm (vsub (defl g e p) p) <= 1 / 10 ^ 5.
Proof.
  intros g e p Hg He Hp. assert (C : -1 <= dot p e <= 1).
  { assert (Q := cauchy_abs p e). rewrite (norm_unit p Hp), (norm_unit e He) in Q. apply Rabs_le_inv in Q. lra. }
  set (c := dot p e) in *.
  set (m := Rmax (c + 1) (1 / 100000)). assert (M1 := Rmax_l (c + 1) (1 / 100000)). assert (M2 := Rmax_r (c + 1) (1/100000)). fold m in M1, M2.
  set (k := g / m).
  assert (I : 0 < / m <= 100000).
  { split; [apply Rinv_0_lt_compat; lra|]. replace 100000 with (/ (1/100000)) by field. apply Rinv_le_contravar; lra. }
  assert (K : 0 <= k) by (unfold k, Rdiv; nra).
  assert (KM : k * m = g) by (unfold k; field; lra).
  assert (KB : k <= 21/10^4) by (unfold k, Rdiv; nra).
  assert (V : defl g e p = vadd p (scale k (vsub e (scale c p)))) by reflexivity.
  assert (Ec : dot p e = c) by reflexivity. clearbody k m. clearbody c.
  assert (S : k * k * (1 - c * c) <= 882 / 10 ^ 13).
  { (* k^2 (1-c)(1+c) <= k^2 * 2 m = 2 g k *)
    assert (A1 : 1 - c * c <= 2 * m) .
    { assert (A0 := Rle_0_sqr (1 + c)). unfold Rsqr in A0. lra. }
    apply Rle_trans with (k * k * (2 * m)); [apply Rmult_le_compat_l; [nra|easy]|].
    replace (k * k * (2 * m)) with (2 * (k * m) * k) by ring. rewrite KM.
    apply Rle_trans with (2 * (21 / 10 ^ 9) * (21 / 10 ^ 4)); [|lra]. apply Rmult_le_compat; lra. }
  assert (S0 : 0 <= k * k * (1 - c * c)) by (replace (k * k * (1 - c * c)) with (k * k * ((1 - c) * (1 + c))) by ring; apply Rmult_le_pos; apply Rmult_le_pos; lra).
  split.
  - assert (Q := norm_sq (defl g e p)). assert (P := norm_pos (defl g e p)).
    assert (Z : dot (defl g e p) (defl g e p) = 1 + k * k * (1 - c * c)).
    { rewrite V, exp_defl, Hp, He, Ec. ring. }
    rewrite Z in Q. set (n := norm (defl g e p)) in *. clearbody n.
    split.
    + apply Rnot_lt_le. intros L. assert (n * n < 1 * 1) by (apply Rmult_le_0_lt_compat; lra). lra.
    + apply Rnot_lt_le. intros L. assert ((1 + 5 / 10 ^ 11) * (1 + 5 / 10 ^ 11) < n * n) by (apply Rmult_le_0_lt_compat; lra). lra.
  - replace (vsub (defl g e p) p) with (scale k (vsub e (scale c p))) by (rewrite V, sub_add_self; reflexivity).
    assert (Z : norm (scale k (vsub e (scale c p))) * norm (scale k (vsub e (scale c p))) = k * k * (1 - c * c)).
    { rewrite norm_sq, exp_perp, Hp, He, Ec. ring. }
    assert (P := norm_pos (scale k (vsub e (scale c p)))). set (n := norm (scale k (vsub e (scale c p)))) in *. clearbody n.
    apply Rnot_lt_le. intros L. assert (1 / 10 ^ 5 * (1 / 10 ^ 5) < n * n) by (apply Rmult_le_0_lt_compat; lra). lra.
Qed.
