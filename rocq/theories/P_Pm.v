(** * Proofs about the space motion of stars: the loop of starpv.c and the light-time equation of starpm.c *)
From Coq Require Import Reals ZArith Lra Lia Psatz Bool List.
From Coquelicot Require Import Coquelicot.
From Interval Require Import Tactic.
From Verif Require Import Num NumR Erfa Geom M_Sphere M_Frames M_Kin M_Misc M_Pm.
Import ListNotations.
Local Open Scope R_scope.

Lemma Rleb_le : forall x y, Rleb x y = true -> x <= y.
Proof. intros x y. destruct (Rleb_spec x y); [easy|discriminate]. Qed.

(** ** The loop *)
Definition g (r t : R) : R := R_sqrt.sqrt (1 - (r * r + t * t)) - 1.
Lemma g_del : forall r t, r * r + t * t <= 1 -> - (r * r + t * t) / (R_sqrt.sqrt (1 - (r * r + t * t)) + 1) = g r t.
Proof.
  intros r t H. unfold g. set (w := r * r + t * t) in *. assert (S := sqrt_sqrt (1 - w) ltac:(lra)). assert (P := sqrt_pos (1 - w)).
  set (q := R_sqrt.sqrt (1 - w)) in *. apply (Rmult_eq_reg_r (q + 1)); [|lra]. unfold Rdiv. rewrite Rmult_assoc, Rinv_l by lra. nra.
Qed.
Definition reg (r t : R) : Prop := Rabs r <= 0.14 /\ Rabs t <= 0.14.
Lemma reg_w : forall r t, reg r t -> 0 <= r * r + t * t <= 0.0392.
Proof. intros r t [A B]. apply Rcomplements.Rabs_le_between in A. apply Rcomplements.Rabs_le_between in B. nra. Qed.
Lemma sq98 : forall w, 0 <= w <= 0.0392 -> 0.98 <= R_sqrt.sqrt (1 - w) <= 1.
Proof.
  intros w H. split.
  - rewrite <- (sqrt_Rsqr 0.98) by lra. apply sqrt_le_1; unfold Rsqr; lra.
  - rewrite <- sqrt_1 at 2. apply sqrt_le_1; lra.
Qed.
Lemma g_lip : forall r t r' t', reg r t -> reg r' t' -> Rabs (g r t - g r' t') <= 0.15 * (Rabs (r - r') + Rabs (t - t')).
Proof.
  intros r t r' t' H H'. assert (W := reg_w r t H). assert (W' := reg_w r' t' H'). unfold g.
  set (w := r * r + t * t) in *. set (w' := r' * r' + t' * t') in *.
  assert (S := sqrt_sqrt (1 - w) ltac:(lra)). assert (S' := sqrt_sqrt (1 - w') ltac:(lra)).
  assert (Q := sq98 w W). assert (Q' := sq98 w' W'). set (q := R_sqrt.sqrt (1 - w)) in *. set (q' := R_sqrt.sqrt (1 - w')) in *.
  replace (q - 1 - (q' - 1)) with ((w' - w) / (q + q')).
  2:{ apply (Rmult_eq_reg_r (q + q')); [|lra]. unfold Rdiv. rewrite Rmult_assoc, Rinv_l by lra. nra. }
  unfold Rdiv. rewrite Rabs_mult, (Rabs_pos_eq (/ (q + q'))) by (left; apply Rinv_0_lt_compat; lra).
  assert (I : / (q + q') <= / 1.96) by (apply Rinv_le_contravar; lra). assert (I0 : 0 < / (q + q')) by (apply Rinv_0_lt_compat; lra).
  assert (B : Rabs (w' - w) <= 0.28 * (Rabs (r - r') + Rabs (t - t'))).
  { unfold w, w'. replace (r' * r' + t' * t' - (r * r + t * t)) with (- ((r - r') * (r + r') + (t - t') * (t + t'))) by ring. rewrite Rabs_Ropp.
    eapply Rle_trans; [apply Rabs_triang|]. rewrite !Rabs_mult. destruct H as [A1 A2], H' as [A3 A4].
    assert (Rabs (r + r') <= 0.28) by (eapply Rle_trans; [apply Rabs_triang|lra]). assert (Rabs (t + t') <= 0.28) by (eapply Rle_trans; [apply Rabs_triang|lra]).
    assert (P1 := Rabs_pos (r - r')). assert (P2 := Rabs_pos (t - t')).
    assert (Rabs (r - r') * Rabs (r + r') <= Rabs (r - r') * 0.28) by (apply Rmult_le_compat_l; lra).
    assert (Rabs (t - t') * Rabs (t + t') <= Rabs (t - t') * 0.28) by (apply Rmult_le_compat_l; lra). lra. }
  assert (P := Rabs_pos (w' - w)). assert (P1 := Rabs_pos (r - r')). assert (P2 := Rabs_pos (t - t')). set (e := Rabs (r - r') + Rabs (t - t')) in *.
  apply Rle_trans with ((0.28 * e) * / 1.96); [apply Rmult_le_compat; lra|]. lra.
Qed.
Lemma g_range : forall r t, reg r t -> -0.02 <= g r t <= 0.
Proof. intros r t H. assert (Q := sq98 _ (reg_w r t H)). unfold g. lra. Qed.

Section Loop.
  Variables sr st : R.
  Hypothesis Hs : Rabs sr <= 0.1. Hypothesis Ht : Rabs st <= 0.1.
  Let F1 r t := (1 + r) * sr + g r t.
  Let F2 (r : R) := (1 + r) * st.
  Lemma reg_step : forall r t, reg r t -> reg (F1 r t) (F2 r).
  Proof.
    intros r t H. assert (G := g_range r t H). destruct H as [A B]. unfold F1, F2.
    assert (E : Rabs (1 + r) <= 1.14) by (eapply Rle_trans; [apply Rabs_triang|]; rewrite (Rabs_pos_eq 1) by lra; lra).
    assert (P := Rabs_pos (1 + r)). assert (P1 := Rabs_pos sr). assert (P2 := Rabs_pos st). split.
    - eapply Rle_trans; [apply Rabs_triang|]. rewrite Rabs_mult. rewrite (Rabs_left1 (g r t)) by lra.
      assert (Rabs (1 + r) * Rabs sr <= 1.14 * 0.1) by (apply Rmult_le_compat; lra). lra.
    - rewrite Rabs_mult. assert (Rabs (1 + r) * Rabs st <= 1.14 * 0.1) by (apply Rmult_le_compat; lra). lra.
  Qed.
  Lemma F_lip : forall r t r' t', reg r t -> reg r' t' ->
    Rabs (F1 r t - F1 r' t') + Rabs (F2 r - F2 r') <= 0.35 * (Rabs (r - r') + Rabs (t - t')).
  Proof.
    intros r t r' t' H H'. assert (G := g_lip r t r' t' H H'). unfold F1, F2.
    replace ((1 + r) * sr + g r t - ((1 + r') * sr + g r' t')) with ((r - r') * sr + (g r t - g r' t')) by ring.
    replace ((1 + r) * st - (1 + r') * st) with ((r - r') * st) by ring.
    assert (T := Rabs_triang ((r - r') * sr) (g r t - g r' t')). rewrite !Rabs_mult in *.
    assert (P := Rabs_pos (r - r')). assert (P1 := Rabs_pos (t - t')).
    assert (Rabs (r - r') * Rabs sr <= Rabs (r - r') * 0.1) by (apply Rmult_le_compat_l; lra).
    assert (Rabs (r - r') * Rabs st <= Rabs (r - r') * 0.1) by (apply Rmult_le_compat_l; lra). lra.
  Qed.
  (** one turn *)
  Lemma loop_S : forall n i s, b_r s * b_r s + b_t s * b_t s <= 1 ->
    starpv_loop (T := R) (S n) i sr st s =
    let d := 1 + b_r s in let del := g (b_r s) (b_t s) in
    if (1 <? i)%Z && Rleb (b_odd s) (Rabs (d - b_od s)) && Rleb (b_oddel s) (Rabs (del - b_odel s)) then (d, del, true)
    else starpv_loop n (i + 1) sr st
      (Betas (F1 (b_r s) (b_t s)) (F2 (b_r s)) d del d del
        (if (0 <? i)%Z then Rabs (d - b_od s) else b_odd s) (if (0 <? i)%Z then Rabs (del - b_odel s) else b_oddel s)).
  Proof.
    intros n i s H. cbn [starpv_loop]. rops. replace (litR 1.0) with 1 by (rlit; lra). rewrite (g_del _ _ H).
    cbv zeta. destruct (_ && _ && _); [reflexivity|]. destruct (0 <? i)%Z; reflexivity.
  Qed.
  (** [r0 t0]: the previous pair; [r1 t1] = F of it *)
  Lemma loop_ok : forall n k i s r0 t0 e, reg r0 t0 -> (1 <= i)%Z -> 0 <= e ->
    b_d s = 1 + r0 -> b_del s = g r0 t0 -> b_od s = 1 + r0 -> b_odel s = g r0 t0 -> b_r s = F1 r0 t0 -> b_t s = F2 r0 ->
    Rabs (F1 r0 t0 - r0) + Rabs (F2 r0 - t0) <= e ->
    ((1 < i)%Z -> exists r00 t00, reg r00 t00 /\ r0 = F1 r00 t00 /\ t0 = F2 r00 /\ b_odd s = Rabs (r0 - r00) /\ b_oddel s = Rabs (g r0 t0 - g r00 t00)) ->
    k = n ->
    let '(d, del, _) := starpv_loop (T := R) n i sr st s in
    exists r t, reg r t /\ d = 1 + r /\ del = g r t /\ Rabs (F1 r t - r) + Rabs (F2 r - t) <= e * 0.35 ^ k.
  Proof.
    induction n as [|n IH]; intros k i s r0 t0 e Hr Hi He Ed Edel Eod Eodel Er Et Hc Hp ->.
    - cbn [starpv_loop]. exists r0, t0. cbn [Rpow_def.pow]. rewrite Ed, Edel. split; [exact Hr|]. split; [reflexivity|]. split; [reflexivity|]. lra.
    - assert (Hr1 : reg (b_r s) (b_t s)) by (rewrite Er, Et; apply reg_step; exact Hr).
      rewrite loop_S by (assert (W := reg_w _ _ Hr1); lra). cbv zeta.
      assert (L := F_lip _ _ _ _ Hr1 Hr).
      destruct ((1 <? i)%Z && Rleb (b_odd s) (Rabs (1 + b_r s - b_od s)) && Rleb (b_oddel s) (Rabs (g (b_r s) (b_t s) - b_odel s))) eqn:E.
      + apply andb_prop in E. destruct E as [E E3]. apply andb_prop in E. destruct E as [E1 E2]. apply Z.ltb_lt in E1. apply Rleb_le in E2. apply Rleb_le in E3.
        destruct (Hp E1) as [r00 [t00 [Hr0 [H1 [H2 [H3 H4]]]]]]. rewrite H3, Eod in E2. rewrite H4, Eodel in E3.
        assert (G1 := g_lip _ _ _ _ Hr1 Hr).
        assert (X1 : Rabs (b_r s - r0) <= 0.1 * Rabs (r0 - r00) + Rabs (g r0 t0 - g r00 t00)).
        { rewrite Er. replace (F1 r0 t0 - r0) with ((r0 - r00) * sr + (g r0 t0 - g r00 t00)) by (transitivity (F1 r0 t0 - F1 r00 t00); [unfold F1; ring|now rewrite <- H1]).
          eapply Rle_trans; [apply Rabs_triang|]. rewrite Rabs_mult. assert (P := Rabs_pos (r0 - r00)).
          assert (Rabs (r0 - r00) * Rabs sr <= Rabs (r0 - r00) * 0.1) by (apply Rmult_le_compat_l; lra). lra. }
        assert (X2 : Rabs (b_t s - t0) <= 0.1 * Rabs (r0 - r00)).
        { rewrite Et. replace (F2 r0 - t0) with ((r0 - r00) * st) by (transitivity (F2 r0 - F2 r00); [unfold F2; ring|now rewrite <- H2]). rewrite Rabs_mult. assert (P := Rabs_pos (r0 - r00)).
          assert (Rabs (r0 - r00) * Rabs st <= Rabs (r0 - r00) * 0.1) by (apply Rmult_le_compat_l; lra). lra. }
        replace (1 + b_r s - (1 + r0)) with (b_r s - r0) in E2 by ring.
        assert (P := Rabs_pos (b_r s - r0)). assert (Z1 : Rabs (b_r s - r0) = 0) by lra. rewrite Z1 in *.
        assert (P2 := Rabs_pos (r0 - r00)). assert (P3 := Rabs_pos (b_t s - t0)). assert (Z2 : Rabs (b_t s - t0) = 0) by lra. rewrite Z2 in *.
        exists (b_r s), (b_t s). split; [exact Hr1|]. split; [reflexivity|]. split; [reflexivity|].
        assert (Y1 : b_r s = r0). { destruct (Req_dec (b_r s - r0) 0) as [|N]; [lra|]. apply Rabs_no_R0 in N. contradiction. }
        assert (Y2 : b_t s = t0). { destruct (Req_dec (b_t s - t0) 0) as [|N]; [lra|]. apply Rabs_no_R0 in N. contradiction. }
        rewrite Y1, Y2. rewrite <- Er, <- Et. rewrite Y1, Y2. rewrite !Rminus_eq_0, !Rabs_R0. rewrite Rplus_0_r. apply Rmult_le_pos; [exact He|]. apply pow_le. lra.
      + specialize (IH n (i + 1)%Z (Betas (F1 (b_r s) (b_t s)) (F2 (b_r s)) (1 + b_r s) (g (b_r s) (b_t s)) (1 + b_r s) (g (b_r s) (b_t s))
          (if (0 <? i)%Z then Rabs (1 + b_r s - b_od s) else b_odd s) (if (0 <? i)%Z then Rabs (g (b_r s) (b_t s) - b_odel s) else b_oddel s))
          (b_r s) (b_t s) (0.35 * e) Hr1 ltac:(lia) ltac:(lra) eq_refl eq_refl eq_refl eq_refl eq_refl eq_refl).
        assert (IHn := IH).
        destruct (starpv_loop n (i + 1) sr st _) as [[d del] b].
        destruct IHn as [r [t [A [B [C D]]]]].
        * rewrite Er, Et in *. lra.
        * intros _. exists r0, t0. split; [exact Hr|]. split; [exact Er|]. split; [exact Et|]. cbn [b_odd b_oddel].
          replace (0 <? i)%Z with true by (symmetry; apply Z.ltb_lt; lia). rewrite Eod, Eodel. split; [f_equal; ring|reflexivity].
        * reflexivity.
        * exists r, t. split; [exact A|]. split; [exact B|]. split; [exact C|]. cbn [Rpow_def.pow]. lra.
  Qed.
  Lemma starpv_loop_gen : forall n d del b, starpv_loop (T := R) (S n) 0 sr st (Betas sr st 0 0 0 0 0 0) = (d, del, b) ->
    let r := d * sr + del in let t := d * st in
    reg r t /\ Rabs (1 + r - d) <= 0.35 ^ n /\ Rabs (g r t - del) <= 0.35 ^ n.
  Proof.
    intros n d del b E. assert (Hr : reg sr st) by (split; lra). 
    rewrite loop_S in E by (assert (W := reg_w _ _ Hr); cbn [b_r b_t]; lra). cbv zeta in E. cbn [b_r b_t b_od b_odel b_odd b_oddel Z.ltb Z.compare andb Z.add] in E.
    assert (L := loop_ok n n 1 (Betas (F1 sr st) (F2 sr) (1 + sr) (g sr st) (1 + sr) (g sr st) 0 0) sr st 1 Hr ltac:(lia) ltac:(lra)
      eq_refl eq_refl eq_refl eq_refl eq_refl eq_refl).
    rewrite E in L. destruct L as [r [t [A [B [C D]]]]].
    - destruct (reg_step sr st Hr) as [A1 A2]. destruct Hr as [A3 A4].
      assert (T1 := Rabs_triang (F1 sr st) (- sr)). assert (T2 := Rabs_triang (F2 sr) (- st)). rewrite Rabs_Ropp in T1, T2. unfold Rminus. lra.
    - intro C. lia.
    - reflexivity.
    - cbv zeta. subst d del. fold (F1 r t) (F2 r). assert (R1 := reg_step r t A). assert (G := g_lip _ _ _ _ R1 A).
      assert (P1 := Rabs_pos (F1 r t - r)). assert (P2 := Rabs_pos (F2 r - t)).
      split; [exact R1|]. split.
      + replace (1 + F1 r t - (1 + r)) with (F1 r t - r) by ring. lra.
      + lra.
  Qed.
  Lemma starpv_loop_ok : forall n d del b, (100 <= n)%nat -> starpv_loop (T := R) n 0 sr st (Betas sr st 0 0 0 0 0 0) = (d, del, b) ->
    let r := d * sr + del in let t := d * st in
    reg r t /\ Rabs (1 + r - d) <= 1e-40 /\ Rabs (g r t - del) <= 1e-40.
  Proof.
    intros n d del b Hn E. destruct n as [|m]; [lia|]. destruct (starpv_loop_gen m d del b E) as [A [B C]]. cbv zeta.
    assert (X : 0.35 ^ m <= 1e-40). { replace m with (99 + (m - 99))%nat by lia. rewrite pow_add. assert (X0 : 0.35 ^ 99 <= 1e-40) by interval.
      assert (X1 : 0.35 ^ (m - 99) <= 1) by (rewrite <- (pow1 (m - 99)); apply pow_incr; lra).
      assert (0 <= 0.35 ^ (m - 99)) by (apply pow_le; lra). assert (0 <= 0.35 ^ 99) by (apply pow_le; lra). nra. }
    split; [exact A|]. split; lra.
  Qed.
End Loop.

(** ** The light-time equation *)
Definition along (P V : vec R) (s : R) : vec R := vadd P (scale s V).
Definition tl2 (c : R) (p V : vec R) : R :=
  (- dot p V + R_sqrt.sqrt (dot p V * dot p V + (c * c - dot V V) * dot p p)) / (c * c - dot V V).
Lemma light_solve : forall c p V, 0 < c -> dot V V < c * c ->
  0 <= tl2 c p V /\ norm (along p V (- tl2 c p V)) = c * tl2 c p V.
Proof.
  intros c p V Hc Hv. assert (Pp := dot_pos p). set (m := c * c - dot V V). assert (Hm : 0 < m) by (unfold m; lra).
  set (b := dot p V). set (r2 := dot p p) in *. assert (W : 0 <= b * b + m * r2) by nra.
  assert (S := sqrt_sqrt _ W). assert (Sp := sqrt_pos (b * b + m * r2)). unfold tl2. fold b m r2. set (q := R_sqrt.sqrt (b * b + m * r2)) in *.
  assert (B : b <= q). { destruct (Rle_dec b q) as [|N]; [assumption|]. exfalso. assert (q * q < b * b) by nra. nra. }
  set (x := (- b + q) / m). assert (Ex : m * x = - b + q) by (unfold x; field; lra).
  assert (X0 : 0 <= x) by (unfold x; apply Rmult_le_pos; [lra|left; apply Rinv_0_lt_compat; lra]).
  split; [exact X0|].
  assert (E : dot (along p V (- x)) (along p V (- x)) = c * x * (c * x)).
  { replace (dot (along p V (- x)) (along p V (- x))) with (r2 - 2 * x * b + x * x * dot V V) by (unfold r2, b, along; destruct p, V; vnorm; ring).
    replace (dot V V) with (c * c - m) by (unfold m; ring).
    assert (m * (m * x * x + 2 * x * b - r2) = 0). { replace (m * (m * x * x + 2 * x * b - r2)) with ((m * x) * (m * x) + 2 * b * (m * x) - m * r2) by ring. rewrite Ex. nra. }
    assert (m * x * x + 2 * x * b - r2 = 0) by (apply Rmult_integral in H; destruct H; [lra|assumption]). nra. }
  rewrite <- norm_sq in E. assert (N := norm_pos (along p V (- x))). assert (0 <= c * x) by nra.
  assert ((norm (along p V (- x)) - c * x) * (norm (along p V (- x)) + c * x) = 0) by nra.
  apply Rmult_integral in H0. destruct H0; [lra|]. lra.
Qed.
(** uniqueness: one emission time for each arrival time *)
Lemma light_unique : forall c P V s s' T, 0 < c -> dot V V < c * c ->
  s + norm (along P V s) / c = T -> s' + norm (along P V s') / c = T -> s = s'.
Proof.
  intros c P V s s' T Hc Hv H H'.
  assert (N := norm_sq (along P V s)). assert (N' := norm_sq (along P V s')). set (n := norm (along P V s)) in *. set (n' := norm (along P V s')) in *.
  assert (Hn : 0 <= n) by apply norm_pos. assert (Hn' : 0 <= n') by apply norm_pos.
  assert (E : n = c * (T - s)) by (rewrite <- H; field; lra). assert (E' : n' = c * (T - s')) by (rewrite <- H'; field; lra).
  (* both roots of the same quadratic in T - s *)
  set (q := along P V T). set (x := T - s) in *. set (x' := T - s') in *.
  assert (A : along P V s = along q V (- x)) by (unfold q, along, x; destruct P, V; vnorm; f_equal; ring).
  assert (A' : along P V s' = along q V (- x')) by (unfold q, along, x'; destruct P, V; vnorm; f_equal; ring).
  rewrite A in N. rewrite A' in N'. clear A A'.
  assert (D : forall y, dot (along q V (- y)) (along q V (- y)) = dot q q - 2 * y * dot q V + y * y * dot V V) by (intro y; unfold along; destruct q, V; vnorm; ring).
  rewrite D in N, N'. rewrite E in N. rewrite E' in N'. assert (X : 0 <= x) by (assert (0 <= c * x) by lra; nra). assert (X' : 0 <= x') by (assert (0 <= c * x') by lra; nra).
  set (m := c * c - dot V V). assert (Hm : 0 < m) by (unfold m; lra). set (b := dot q V) in *. assert (Q := dot_pos q). set (a := dot q q) in *.
  assert (R1 : m * x * x + 2 * b * x = a) by (unfold m; nra). assert (R2 : m * x' * x' + 2 * b * x' = a) by (unfold m; nra).
  assert (G : (x - x') * (m * (x + x') + 2 * b) = 0) by nra. apply Rmult_integral in G. destruct G as [G|G]; [unfold x, x' in G; lra|].
  (* otherwise the product of the roots is -a/m <= 0 *)
  assert (G2 : m * (x * x') = - a) by nra. assert (0 <= x * x') by nra. assert (a = 0) by nra. assert (x * x' = 0) by nra.
  assert (q = vzero) by (apply dot_zero; exact H1). assert (b = 0) by (unfold b; rewrite H3; destruct V; vnorm; ring).
  assert (x = 0) by nra. assert (x' = 0) by nra. unfold x, x' in *. lra.
Qed.

(** ** starpv.c *)
Definition lightspeed : R := 86400 * 299792458 / 149597870700.
Lemma DC_val : ERFA_DC (T := R) = lightspeed.
Proof. unfold ERFA_DC, ERFA_AULT, ERFA_DAYSEC, ERFA_CMPS, ERFA_DAU, lightspeed. rn. field. Qed.
Lemma lightspeed_pos : 173 < lightspeed < 174. Proof. unfold lightspeed. lra. Qed.
(** unit vectors to the east and to the north *)
Definition east (ra : R) : vec R := V (- sinR ra) (cosR ra) 0.
Definition north (ra dec : R) : vec R := V (- sinR dec * cosR ra) (- sinR dec * sinR ra) (cosR dec).
Lemma S2pv_val : forall a b r td pd rd, eraS2pv (T := R) a b r td pd rd =
  PV (scale r (dir a b)) (vadd (scale rd (dir a b)) (scale r (vadd (scale (td * cosR b) (east a)) (scale pd (north a b))))).
Proof.
  intros a b r td pd rd. unfold eraS2pv, dir, east, north. rops. change (sin (T := R)) with sinR. change (cos (T := R)) with cosR.
  f_equal; vnorm; cbn [vx vy vz]; f_equal; ring.
Qed.
Lemma perp_dir : forall a b x y, dot (dir a b) (vadd (scale x (east a)) (scale y (north a b))) = 0.
Proof.
  intros a b x y. unfold dir, east, north. vnorm. assert (A := sin2_cos2 a). assert (B := sin2_cos2 b). unfold Rsqr in A, B. 
  replace (cosR a * cosR b * (x * - sinR a + y * (- sinR b * cosR a)) + sinR a * cosR b * (x * cosR a + y * (- sinR b * sinR a)) + sinR b * (x * 0 + y * cosR b))
    with (y * cosR b * sinR b * (1 - (sinR a * sinR a + cosR a * cosR a))) by ring. rewrite A. ring.
Qed.
(** the observed velocity: radial part and tangential vector *)
Lemma starpv_val : forall old ra dec pmr pmd px rv iw p,
  eraStarpv (T := R) old ra dec pmr pmd px rv = (iw, p) -> 1e-7 <= px ->
  let u := dir ra dec in
  let dist := 648000 / PI / px in
  let vr := 86400 * rv * 1000 / 149597870700 in
  let vt := scale dist (vadd (scale (pmr / 365.25 * cosR dec) (east ra)) (scale (pmd / 365.25) (north ra dec))) in
  vr * vr + dot vt vt <= (0.1 * lightspeed) * (0.1 * lightspeed) -> old = false \/ rv <> 0 ->
  pvp p = scale dist u /\ exists r d, pvv p = vadd (scale (lightspeed * r) u) (scale d vt) /\
    let t := d * (norm vt / lightspeed) in
    reg r t /\ Rabs (1 + r - d) <= 1e-40 /\ Rabs (g r t - (r - d * (vr / lightspeed))) <= 1e-40.
Proof.
  intros old ra dec pmr pmd px rv iw p H Hp u dist vr vt Hv Hold. unfold eraStarpv in H. rops.
  replace (litR 1e-7) with 1e-7 in H by (rlit; lra). rewrite Rleb_true in H by exact Hp.
  rewrite DC_val in H. rewrite S2pv_val in H. cbn [pvp pvv] in H.
  assert (Pi := PI_RGT_0). assert (D0 : 0 < dist) by (unfold dist; repeat apply Rdiv_lt_0_compat; lra).
  replace (DR2AS / px) with dist in H by (unfold dist, DR2AS; rn; reflexivity).
  replace (DJY (T := R)) with 365.25 in H by (unfold DJY; rn; lra).
  replace (ERFA_DAYSEC * rv * litR 1e3 / ERFA_DAU) with vr in H by (unfold vr, ERFA_DAYSEC, ERFA_DAU; rn; field).
  fold u in H. fold vt in H.
  assert (Ut : dot u vt = 0) by (unfold vt; rewrite dot_scale_r; unfold u; rewrite perp_dir; ring).
  assert (Uu : dot u u = 1) by apply dir_unit.
  assert (Hold' : old = false \/ vr <> 0) by (destruct Hold as [|N]; [now left|right; unfold vr; intro E; apply N; lra]). clear Hold.
  assert (C := lightspeed_pos). set (c := lightspeed) in *. clearbody vt vr u. clearbody dist. clearbody c.
  assert (Un : u <> vzero). { intro E. rewrite E in Uu. revert Uu. vnorm. lra. }
  assert (Pn : snd (eraPn (T := R) (scale dist u)) = u).
  { rewrite eraPn_nz. { cbn [snd]. rewrite norm_scale by lra. rewrite (norm_unit u Uu). rewrite scale_scale. replace (1 / (dist * 1) * dist) with 1 by (field; lra). apply scale_1. }
    intro E. apply Un. rewrite <- (scale_1 u). replace 1 with (/ dist * dist) by (field; lra). rewrite <- scale_scale, E. vnorm. f_equal; ring. }
  set (obs := vadd (scale vr u) (scale 1 vt)). replace (vadd (scale vr u) vt) with obs in H by (unfold obs; now rewrite scale_1).
  assert (Oo : dot obs obs = vr * vr + dot vt vt).
  { unfold obs. transitivity (vr * vr * dot u u + 2 * vr * dot u vt + dot vt vt); [destruct u as [u1 u2 u3], vt as [t1 t2 t3]; vnorm; ring|]. rewrite Uu, Ut. ring. }
  rewrite eraPm_norm in H.
  assert (No : norm obs <= 0.1 * c). { assert (N := norm_sq obs). assert (N0 := norm_pos obs). destruct (Rle_dec (norm obs) (0.1 * c)) as [|Q]; [assumption|]. exfalso. nra. }
  replace (litR 0.5) with 0.5 in H by (rlit; lra).
  rewrite (Rltb_false 0.5 (norm obs / c)) in H.
  2:{ intro Q. assert (norm obs / c <= 0.1). { apply (Rmult_le_reg_r c); [lra|]. unfold Rdiv. rewrite Rmult_assoc, Rinv_l by lra. lra. } lra. }
  rewrite Pn in H. rewrite !eraPdp_dot in H.
  assert (Du : dot u obs = vr). { unfold obs. transitivity (vr * dot u u + dot u vt); [destruct u as [u1 u2 u3], vt as [t1 t2 t3]; vnorm; ring|]. rewrite Uu, Ut. ring. }
  rewrite Du in H. rewrite !eraSxp_scale in H.
  assert (Et : eraPmp (T := R) obs (scale vr u) = vt). { unfold eraPmp, obs. rops. destruct u as [u1 u2 u3], vt as [t1 t2 t3]; vnorm; cbn [vx vy vz]; f_equal; ring. }
  rewrite Et in H. rewrite eraPm_norm in H.
  replace (litR 0.0) with 0 in H by (rlit; lra). replace (litR 1.0) with 1 in H by (rlit; lra).
  destruct (starpv_loop 100 0 (vr / c) (norm vt / c) (Betas (vr / c) (norm vt / c) 0 0 0 0 0 0)) as [[d del] b] eqn:EL.
  assert (N0 := norm_pos vt). assert (N2 := norm_sq vt).
  assert (A1 : Rabs (vr / c) <= 0.1).
  { apply (Rmult_le_reg_r c); [lra|]. rewrite <- (Rabs_pos_eq c) at 2 by lra. rewrite <- Rabs_mult. replace (vr / c * c) with vr by (field; lra).
    apply Rabs_le. assert (P := dot_pos vt). split; nra. }
  assert (A2 : Rabs (norm vt / c) <= 0.1).
  { rewrite Rabs_pos_eq by (apply Rmult_le_pos; [lra|left; apply Rinv_0_lt_compat; lra]). apply (Rmult_le_reg_r c); [lra|]. replace (norm vt / c * c) with (norm vt) by (field; lra). nra. }
  assert (L := starpv_loop_ok (vr / c) (norm vt / c) A1 A2 100 d del b ltac:(lia) EL). cbv zeta in L.
  assert (H2 := f_equal snd H). cbn [snd] in H2. subst p. cbn [pvp pvv]. clear H EL. split; [reflexivity|].
  exists (d * (vr / c) + del), d. cbv zeta. replace (d * (vr / c) + del - d * (vr / c)) with del by ring. split; [|exact L].
  unfold eraPpp. rops.
  match goal with |- context [if old then ?a else ?b] => assert (Eu : (if old then a else b) = scale (c * (d * (vr / c) + del)) u) end.
  { destruct old; rewrite eraSxp_scale; [|reflexivity]. rewrite scale_scale. f_equal. destruct Hold' as [|Hr]; [discriminate|].
    assert (vr / c <> 0). { intro Q. apply Hr. replace vr with (vr / c * c) by (field; lra). rewrite Q. ring. }
    rewrite (Reqb_false (vr / c) 0) by assumption. field. lra. }
  rewrite Eu. reflexivity.
Qed.

(** ** pvstar.c and starpm.c *)
Lemma pv2s_val : forall Q w, Q <> vzero -> fst (eraPv2s (T := R) (PV Q w)) = (fst (eraC2s Q), snd (eraC2s Q), norm Q).
Proof.
  intros [x y z] w HQ. unfold eraPv2s. cbn [pvp pvv vx vy vz]. rops. replace (litR 0.0) with 0 by (rlit; lra).
  assert (N := norm_gt0 _ HQ). change (norm (V x y z)) with (sqrtR (x * x + y * y + z * z)) in N |- *.
  rewrite (Reqb_false (sqrtR (x * x + y * y + z * z)) 0) by lra.
  unfold eraC2s. cbn [fst snd vx vy vz]. rops. replace (litR 0) with 0 by (rlit; lra).
  destruct (Reqb_spec (x * x + y * y) 0) as [E|E]; cbn [negb].
  - destruct (Reqb_spec z 0) as [Ez|Ez]; cbn [negb fst]; reflexivity.
  - cbn [fst]. destruct (Reqb_spec z 0) as [->|Ez]; [|reflexivity]. 
    assert (Sx : 0 < sqrtR (x * x + y * y)).
    { apply sqrt_lt_R0. assert (0 <= x * x) by apply Rle_0_sqr. assert (0 <= y * y) by apply Rle_0_sqr. lra. }
    unfold atan2R. destruct (Rlt_dec 0 (sqrtR (x * x + y * y))); [|lra]. unfold Rdiv. rewrite Rmult_0_l, atan_0. reflexivity.
Qed.
Lemma pv2s_zero : forall w, snd (fst (eraPv2s (T := R) (PV vzero w))) = 0.
Proof.
  intro w. unfold eraPv2s. cbn [pvp pvv vx vy vz vzero]. rops. replace (0 * 0 + 0 * 0 + 0 * 0) with 0 by ring. change (sqrtR 0) with (R_sqrt.sqrt 0). rewrite sqrt_0.
  replace (litR 0.0) with 0 by (rlit; lra). rewrite (Reqb_true 0 0) by reflexivity.
  destruct (negb (Reqb (vx w * vx w + vy w * vy w) 0)); cbn [fst snd]; reflexivity.
Qed.
Lemma vdec : forall v : vec R, v = vzero \/ v <> vzero.
Proof.
  intro v. destruct (Req_dec (dot v v) 0) as [E|E]; [left; now apply dot_zero|right]. intros ->. apply E. vnorm. ring.
Qed.
Lemma pvstar_val : forall Q V, dot V V < lightspeed * lightspeed ->
  (Q <> vzero -> eraPvstar (T := R) (PV Q V) = (0%Z, Some (eraAnp (fst (eraC2s Q)), snd (eraC2s Q)))) /\
  (Q = vzero -> snd (eraPvstar (T := R) (PV Q V)) = None).
Proof.
  intros Q V Hv. assert (C := lightspeed_pos). unfold eraPvstar. cbn [pvp pvv]. rewrite DC_val. rops. rewrite !eraPdp_dot, !eraPm_norm, !eraSxp_scale.
  replace (litR 1.0) with 1 by (rlit; lra). replace (litR 0.0) with 0 by (rlit; lra). set (c := lightspeed) in *. clearbody c. split.
  - intro HQ. rewrite (eraPn_nz Q HQ). cbn [snd]. set (x := scale (1 / norm Q) Q). assert (N := norm_gt0 _ HQ).
    assert (Ux : dot x x = 1). { unfold x. rewrite dot_scale_l, dot_scale_r, <- norm_sq. field. lra. } clearbody x.
    set (vr := dot x V). set (ut := eraPmp (T := R) V (scale vr x)).
    assert (E : vr * vr + dot ut ut = dot V V).
    { unfold ut, eraPmp. rops. transitivity (dot V V - 2 * vr * dot x V + vr * vr * dot x x + vr * vr); [destruct x as [x1 x2 x3], V as [v1 v2 v3]; vnorm; cbn [vx vy vz]; ring|].
      rewrite Ux. fold vr. ring. }
    assert (Nt := norm_sq ut). assert (Pt := dot_pos ut).
    assert (Bd : - c < vr < c) by (split; nra).
    rewrite (Reqb_false (1 + vr / c) 0).
    2:{ intro Z. assert (c + vr = 0) by (replace (c + vr) with (c * (1 + vr / c)) by (field; lra); rewrite Z; ring). lra. }
    rewrite (Rltb_false 1 _).
    2:{ intro Z. apply (Rmult_lt_compat_l (c * c)) in Z; [|nra]. 
        replace (c * c * (vr / c * (vr / c) + norm ut / c * (norm ut / c))) with (vr * vr + norm ut * norm ut) in Z by (field; lra). lra. }
    cbn [orb]. assert (PV2 := pv2s_val Q eraZp HQ). destruct (eraPv2s (PV Q eraZp)) as [q1 q2]. cbn [fst] in PV2. subst q1.
    rewrite (Reqb_false (norm Q) 0) by lra. reflexivity.
  - intros ->. assert (PZ := pv2s_zero eraZp). destruct (_ || _); [reflexivity|]. destruct (eraPv2s (PV vzero eraZp)) as [[[a d] r] q2]. cbn [fst snd] in PZ. subst r.
    rewrite (Reqb_true 0 0) by reflexivity. reflexivity.
Qed.

(** the emission time (after that of the light seen at the first epoch) of the light seen [dt] later *)
Definition emission (P V : vec R) (dt : R) : R :=
  let tl1 := norm P / lightspeed in dt + (tl1 - tl2 lightspeed (along P V (dt + tl1)) V).
Lemma along_along : forall P V s t, along (along P V s) V t = along P V (s + t).
Proof. intros P V s t. unfold along. destruct P as [p1 p2 p3], V as [v1 v2 v3]. vnorm. f_equal; ring. Qed.
Lemma emission_ok : forall P V dt, dot V V < lightspeed * lightspeed ->
  emission P V dt + norm (along P V (emission P V dt)) / lightspeed = dt + norm P / lightspeed.
Proof.
  intros P V dt Hv. assert (C := lightspeed_pos). unfold emission. set (tl1 := norm P / lightspeed). set (p := along P V (dt + tl1)).
  destruct (light_solve lightspeed p V ltac:(lra) Hv) as [_ E]. set (x := tl2 lightspeed p V) in *.
  unfold p in E. rewrite along_along in E. replace (dt + tl1 + - x) with (dt + (tl1 - x)) in E by ring. rewrite E. field. lra.
Qed.
Lemma emission_0 : forall P V, dot V V < lightspeed * lightspeed -> emission P V 0 = 0.
Proof.
  intros P V Hv. assert (C := lightspeed_pos). apply (light_unique lightspeed P V _ _ (norm P / lightspeed)); [lra|exact Hv| |].
  - rewrite (emission_ok P V 0 Hv). ring.
  - replace (along P V 0) with P by (unfold along; destruct P as [p1 p2 p3], V as [v1 v2 v3]; vnorm; f_equal; ring). ring.
Qed.
Lemma pm_val : forall old r0 d0 pr pd px rv ep0 ep1 iw P V,
  eraStarpv (T := R) old r0 d0 pr pd px rv = (iw, PV P V) -> dot V V < lightspeed * lightspeed ->
  let Q := along P V (emission P V (365.25 * (ep1 - ep0))) in
  (Q <> vzero -> palPm (T := R) old r0 d0 pr pd px rv ep0 ep1 = Some (eraAnp (fst (eraC2s Q)), snd (eraC2s Q))) /\
  (Q = vzero -> palPm (T := R) old r0 d0 pr pd px rv ep0 ep1 = None).
Proof.
  intros old r0 d0 pr pd px rv ep0 ep1 iw P V E Hv Q. unfold palPm, eraEpj2jd, eraStarpm. rewrite E. cbn [pvp pvv].
  set (dt := 365.25 * (ep1 - ep0)) in *. rewrite !eraPdp_dot, !eraPm_norm. rops. rewrite !DC_val.
  replace (litR 2400000.5 - litR 2400000.5 + (litR 51544.5 + (ep1 - litR 2000) * DJY - (litR 51544.5 + (ep0 - litR 2000) * DJY))) with dt
    by (unfold dt; replace (DJY (T := R)) with 365.25 by (unfold DJY; rn; lra); ring).
  assert (Up : forall x, eraPvup (T := R) x (PV P V) = along P V x) by (intro x; unfold eraPvup, along; cbn [pvp pvv]; rops; destruct P as [p1 p2 p3], V as [v1 v2 v3]; vnorm; reflexivity).
  rewrite !Up. replace (litR 0.0) with 0 by (rlit; lra). rewrite Rleb_false by lra.
  match goal with |- context [eraPvstar (PV (along P V ?x) V)] => replace x with (emission P V dt) by reflexivity end. fold Q.
  destruct (pvstar_val Q V Hv) as [A B]. split.
  - intro N. rewrite (A N). reflexivity.
  - intro Z. specialize (B Z). destruct (eraPvstar (PV Q V)) as [j o]. cbn [snd] in B. subst o. reflexivity.
Qed.
