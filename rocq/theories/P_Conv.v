(** * Convergence of palUe2pv's refinement near the epoch: the polynomials it iterates on *)
From Coq Require Import Reals ZArith Lra Lia Psatz Bool.
From Coquelicot Require Import Coquelicot.
From Interval Require Import Tactic.
From Verif Require Import Num NumR Erfa Geom P_Frames P_Eterms M_Place M_Orbit P_Orbit Props_Orbit Univ Uniq P_Univ P_Ue2pv.
Local Open Scope R_scope.

(** The truncated series of palUe2pv, scaled: without halving S0 = cp x, S1 = sp x / k, S2 = (1 - cp x) / k^2,
    S3 = (x - sp x) / k^3 with x = k psi, k = sqrt (-alpha). *)
Definition cp (x : R) : R := 1 - x ^ 2 * T2 (- x ^ 2).
Definition sp (x : R) : R := x - x ^ 3 * T3 (- x ^ 2).
Definition Dp (x : R) : R := x ^ 15 / 1307674368000.
Lemma sp_d : forall x : R, is_derive sp x (cp x).
Proof. intros. unfold sp, cp, T3, T2. auto_derive; [easy|req; field]. Qed.
Lemma cp_d : forall x : R, is_derive cp x (- sp x - Dp x).
Proof. intros. unfold sp, cp, Dp, T3, T2. auto_derive; [easy|req; field]. Qed.
Lemma cs_bound : forall x, Rabs x <= 0.8366 -> cp x ^ 2 + sp x ^ 2 <= 1.0001.
Proof. intros x H. apply Rabs_le_between in H. unfold cp, sp, T2, T3. interval with (i_bisect x, i_taylor x, i_degree 10). Qed.
Lemma D_bound : forall x, Rabs x <= 0.8366 -> Rabs (Dp x) <= 5.3e-14.
Proof. intros x H. apply Rabs_le_between in H. unfold Dp. interval. Qed.
Lemma D_d : forall x : R, is_derive Dp x (x ^ 14 / 87178291200).
Proof. intros. unfold Dp. auto_derive; [easy|req; field]. Qed.
Lemma D'_bound : forall x, Rabs x <= 0.8366 -> Rabs (x ^ 14 / 87178291200) <= 1e-12.
Proof. intros x H. apply Rabs_le_between in H. interval. Qed.

Section Conv.
  Variables g h M : R.
  Hypothesis Hgh : g * g + h * h <= 0.04.
  Definition rho (x : R) : R := 1 - g * cp x + h * sp x.
  Definition fk (x : R) : R := x - g * sp x + h * (1 - cp x) - M.
  Definition fd (x : R) : R := rho x + h * Dp x.
  Lemma fk_d : forall x : R, is_derive fk x (fd x).
  Proof.
    intros. unfold fk, fd, rho, cp, sp, Dp, T2, T3. auto_derive; [easy|req; field].
  Qed.
  Definition fdd (x : R) : R := g * sp x + h * cp x + g * Dp x + h * (x ^ 14 / 87178291200).
  Lemma fd_d : forall x : R, is_derive fd x (fdd x).
  Proof.
    intros. unfold fd, fdd, rho, cp, sp, Dp, T2, T3. auto_derive; [easy|req; field].
  Qed.
  Lemma gh_abs : Rabs g <= 0.2 /\ Rabs h <= 0.2.
  Proof. assert (G := Rle_0_sqr g). assert (K := Rle_0_sqr h). unfold Rsqr in *. split; apply Rabs_le; split; nra. Qed.
  Lemma lin_bound : forall c s, c ^ 2 + s ^ 2 <= 1.0001 -> Rabs (g * c + h * s) <= 0.2001.
  Proof.
    intros c s H. apply Rsqr_incr_0_var; [|lra]. rewrite <- Rsqr_abs. unfold Rsqr.
    assert (I : (g * c + h * s) * (g * c + h * s) + (g * s - h * c) * (g * s - h * c) = (g * g + h * h) * (c ^ 2 + s ^ 2)) by ring.
    assert (J := Rle_0_sqr (g * s - h * c)). unfold Rsqr in J.
    assert (0 <= c ^ 2 + s ^ 2) by (assert (A := pow2_ge_0 c); assert (B := pow2_ge_0 s); lra).
    assert ((g * g + h * h) * (c ^ 2 + s ^ 2) <= 0.04 * 1.0001).
    { apply Rmult_le_compat; try lra. assert (A := Rle_0_sqr g); assert (B := Rle_0_sqr h); unfold Rsqr in *; lra. }
    lra.
  Qed.
  Lemma rho_bound : forall x, Rabs x <= 0.8366 -> Rabs (rho x - 1) <= 0.2001.
  Proof.
    intros x H. assert (B := cs_bound x H). unfold rho. replace (1 - g * cp x + h * sp x - 1) with (- (g * cp x + h * (- sp x))) by ring.
    rewrite Rabs_Ropp. apply lin_bound. replace ((- sp x) ^ 2) with (sp x ^ 2) by ring. exact B.
  Qed.
  Lemma hD : forall x, Rabs x <= 0.8366 -> Rabs (h * Dp x) <= 1.06e-14.
  Proof. intros x H. rewrite Rabs_mult. replace 1.06e-14 with (0.2 * 5.3e-14) by lra. apply Rmult_le_compat; try apply Rabs_pos; [apply gh_abs|apply D_bound, H]. Qed.
  Lemma fd_bound : forall x, Rabs x <= 0.8366 -> 0.7998 <= fd x <= 1.2002.
  Proof. intros x H. assert (A := rho_bound x H). assert (B := hD x H). unfold fd. apply Rabs_le_between in A. apply Rabs_le_between in B. lra. Qed.
  Lemma fdd_bound : forall x, Rabs x <= 0.8366 -> Rabs (fdd x) <= 0.2002.
  Proof.
    intros x H. unfold fdd. assert (A := lin_bound (sp x) (cp x)). assert (B := cs_bound x H). assert (C := D_bound x H). assert (E := D'_bound x H).
    assert (A' : Rabs (g * sp x + h * cp x) <= 0.2001) by (apply A; lra).
    assert (C1 : Rabs (g * Dp x) <= 0.2 * 5.3e-14) by (rewrite Rabs_mult; apply Rmult_le_compat; try apply Rabs_pos; [apply gh_abs|exact C]).
    assert (C2 : Rabs (h * (x ^ 14 / 87178291200)) <= 0.2 * 1e-12) by (rewrite Rabs_mult; apply Rmult_le_compat; try apply Rabs_pos; [apply gh_abs|exact E]).
    eapply Rle_trans; [apply Rabs_triang|]. assert (T := Rabs_triang (g * sp x + h * cp x) (g * Dp x)). lra.
  Qed.
  Lemma mvt : forall (F dF : R -> R) x y, (forall z : R, is_derive F z (dF z)) -> Rabs x <= 0.8366 -> Rabs y <= 0.8366 ->
    exists c, Rabs c <= 0.8366 /\ Rmin x y <= c <= Rmax x y /\ F y - F x = dF c * (y - x).
  Proof.
    intros F dF x y D Hx Hy. destruct (MVT_gen F x y dF) as (c & Hc & E).
    - intros; apply D.
    - intros w _. apply derivable_continuous_pt. exists (dF w). apply is_derive_Reals, D.
    - exists c. split; [|split; [exact Hc|exact E]]. apply Rabs_le_between in Hx. apply Rabs_le_between in Hy. apply Rabs_le. revert Hc. unfold Rmin, Rmax. destruct (Rle_dec x y); lra.
  Qed.
  Lemma fd_lip : forall x y, Rabs x <= 0.8366 -> Rabs y <= 0.8366 -> Rabs (fd y - fd x) <= 0.2002 * Rabs (y - x).
  Proof.
    intros x y Hx Hy. destruct (mvt fd fdd x y fd_d Hx Hy) as (c & Hc & _ & ->). rewrite Rabs_mult. apply Rmult_le_compat_r; [apply Rabs_pos|]. apply fdd_bound, Hc.
  Qed.
  (** one Newton step *)
  Lemma newton : forall x z, Rabs x <= 0.8366 -> Rabs z <= 0.8366 -> fk z = 0 ->
    Rabs (x - fk x / rho x - z) <= Rabs (x - z) * (0.2505 * Rabs (x - z) + 1.4e-14).
  Proof.
    intros x z Hx Hz Ez. destruct (mvt fk fd z x fk_d Hz Hx) as (c & Hc & Hcc & E). rewrite Ez, Rminus_0_r in E.
    assert (R1 := rho_bound x Hx). apply Rabs_le_between in R1. assert (L := fd_lip c x Hc Hx). assert (HD := hD x Hx).
    assert (Hd : Rabs (x - c) <= Rabs (x - z)).
    { revert Hcc. unfold Rmin, Rmax, Rabs. destruct (Rle_dec z x), (Rcase_abs (x - c)), (Rcase_abs (x - z)); lra. }
    rewrite E. replace (x - fd c * (x - z) / rho x - z) with ((x - z) * ((rho x - fd c) / rho x)) by (field; lra).
    rewrite Rabs_mult. apply Rmult_le_compat_l; [apply Rabs_pos|]. unfold Rdiv. rewrite Rabs_mult, Rabs_inv, (Rabs_pos_eq (rho x)) by lra.
    apply Rmult_le_reg_r with (rho x); [lra|]. replace (Rabs (rho x - fd c) * / rho x * rho x) with (Rabs (rho x - fd c)) by (field; lra).
    replace (rho x - fd c) with ((fd x - fd c) + - (h * Dp x)) by (unfold fd; ring).
    assert (T := Rabs_triang (fd x - fd c) (- (h * Dp x))). rewrite Rabs_Ropp in T. assert (P := Rabs_pos (x - z)).
    set (w := Rabs (x - z)) in *. clearbody w.
    assert ((0.2505 * w + 1.4e-14) * 0.7999 <= (0.2505 * w + 1.4e-14) * rho x) by (apply Rmult_le_compat_l; lra). lra.
  Qed.
  (** one step of the rule of false position *)
  Lemma secant_step : forall x l z, Rabs x <= 0.8366 -> Rabs l <= 0.8366 -> Rabs z <= 0.8366 -> fk z = 0 -> fk x * fk l < 0 ->
    Rabs (x - fk x * (l - x) / (fk l - fk x) - z) <= 0.26 * Rabs (x - z) * Rabs (l - z).
  Proof.
    intros x l z Hx Hl Hz Ez Hs. destruct (mvt fk fd z x fk_d Hz Hx) as (c1 & Hc1 & Hcc1 & E1). destruct (mvt fk fd z l fk_d Hz Hl) as (c2 & Hc2 & Hcc2 & E2).
    rewrite Ez, Rminus_0_r in E1, E2. assert (B1 := fd_bound c1 Hc1). assert (B2 := fd_bound c2 Hc2). assert (L := fd_lip c1 c2 Hc1 Hc2).
    set (d1 := fd c1) in *. set (d2 := fd c2) in *. clearbody d1 d2.
    assert (Dc : Rabs (c2 - c1) <= Rabs (x - z) + Rabs (l - z)).
    { revert Hcc1 Hcc2. unfold Rmin, Rmax, Rabs. destruct (Rle_dec z x), (Rle_dec z l), (Rcase_abs (c2 - c1)), (Rcase_abs (x - z)), (Rcase_abs (l - z)); lra. }
    assert (Ns : fk l - fk x <> 0). { intros Z. assert (Eq : fk l = fk x) by lra. rewrite Eq in Hs. assert (S := Rle_0_sqr (fk x)). unfold Rsqr in S. lra. }
    assert (Ab : 0.7998 * (Rabs (x - z) + Rabs (l - z)) <= Rabs (fk l - fk x)).
    { rewrite E1, E2 in *. set (e := x - z) in *. set (k := l - z) in *. clearbody e k.
      assert (Hd : 0 < d1 * d2) by nra. assert (e * k < 0) by (replace (d1 * e * (d2 * k)) with (d1 * d2 * (e * k)) in Hs by ring; nra). unfold Rabs. destruct (Rcase_abs e), (Rcase_abs k), (Rcase_abs (d2 * k - d1 * e)); nra. }
    replace (x - fk x * (l - x) / (fk l - fk x) - z) with ((x - z) * (l - z) * ((d2 - d1) / (fk l - fk x))).
    2: { rewrite E1, E2 in *. field. exact Ns. }
    rewrite !Rabs_mult. replace (0.26 * Rabs (x - z) * Rabs (l - z)) with (Rabs (x - z) * Rabs (l - z) * 0.26) by ring.
    apply Rmult_le_compat_l; [apply Rmult_le_pos; apply Rabs_pos|]. unfold Rdiv. rewrite Rabs_mult, Rabs_inv.
    assert (0 < Rabs (fk l - fk x)) by (apply Rabs_pos_lt, Ns). set (q := Rabs (fk l - fk x)) in *. clearbody q.
    apply Rmult_le_reg_r with q; [easy|]. replace (Rabs (d2 - d1) * / q * q) with (Rabs (d2 - d1)) by (field; lra). lra.
  Qed.
  (** the solution *)
  Lemma root : Rabs M <= 0.65 -> exists z d, fk z = 0 /\ 0.7998 <= d <= 1.2002 /\ M = d * z.
  Proof.
    intros HM. assert (Cf : continuity fk) by (intros x; apply derivable_continuous_pt; exists (fd x); apply is_derive_Reals, fk_d).
    assert (F0 : fk 0 = - M) by (unfold fk, cp, sp; ring).
    assert (Z0 : Rabs 0 <= 0.8366) by (rewrite Rabs_R0; lra). apply Rabs_le_between in HM.
    assert (Fp : 0 < fk 0.83). { destruct (mvt fk fd 0 0.83 fk_d Z0 ltac:(rewrite Rabs_pos_eq; lra)) as (c & Hc & _ & E). assert (B := fd_bound c Hc). lra. }
    assert (Fm : fk (-0.83) < 0). { destruct (mvt fk fd 0 (-0.83) fk_d Z0 ltac:(rewrite Rabs_left; lra)) as (c & Hc & _ & E). assert (B := fd_bound c Hc). lra. }
    destruct (IVT fk (-0.83) 0.83 Cf ltac:(lra) Fm Fp) as (z & Hz & Ez).
    destruct (mvt fk fd 0 z fk_d Z0 ltac:(apply Rabs_le; lra)) as (c & Hc & _ & E). assert (B := fd_bound c Hc). rewrite Ez, F0, Rminus_0_r in E.
    exists z, (fd c). split; [exact Ez|]. split; [exact B|lra].
  Qed.
End Conv.
(** the solutions for two times *)
Lemma root_diff : forall g h M M' z z', g * g + h * h <= 0.04 -> Rabs z <= 0.8366 -> Rabs z' <= 0.8366 -> fk g h M z = 0 -> fk g h M' z' = 0 ->
  exists d, 0.7998 <= d <= 1.2002 /\ M' - M = d * (z' - z).
Proof.
  intros g h M M' z z' H Hz Hz' E E'. destruct (mvt (fk g h M) (fd g h) z z' (fk_d g h M) Hz Hz') as (c & Hc & _ & D).
  exists (fd g h c). split; [apply fd_bound; assumption|]. rewrite <- D, E. unfold fk in *. lra.
Qed.
