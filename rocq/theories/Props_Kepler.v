(** * Theorems: palUe2pv follows the two-body motion (C68) *)
From Coq Require Import Reals ZArith Lra Lia Psatz Bool.
From Coquelicot Require Import Coquelicot.
From Verif Require Import Num NumR Erfa Geom P_Frames P_Eterms M_Place M_Orbit P_Orbit Props_Orbit Univ Uniq P_Univ P_Ue2pv.
Local Open Scope R_scope.

(** ** Specification *)
(** A set of universal elements is consistent when its redundant entries agree with the position and velocity it contains
    (canonical units: AU, and 1/k days with k the Gaussian constant), and the motion is not rectilinear. *)
Definition consistent (u : ue R) : Prop := 0 < u_cm u /\ u_r0 u = norm (u_p0 u) /\ u_sigma0 u = dot (u_p0 u) (u_v0 u) /\
  u_alpha u = dot (u_v0 u) (u_v0 u) - 2 * u_cm u / norm (u_p0 u) /\ cross (u_p0 u) (u_v0 u) <> vzero.

(** ** C68_functions: the series, halving and doubling compute the universal functions U0..U3, i.e. (for energy parameter
    alpha < 0) cos (k psi), sin (k psi) / k, (U0 - 1)/alpha, (U1 - psi)/alpha with k = sqrt (-alpha), cosh and sinh for
    alpha > 0, and 1, psi, psi^2/2, psi^3/6 for alpha = 0. *)
Theorem C68_functions : forall hf al psi s tol, (hf <= 20)%nat -> ue_sfun (T := R) hf al psi = Some (s, tol) ->
  exists n, (n <= hf)%nat /\ Rabs (al * (psi * psi)) <= 0.7 * 4 ^ n /\ tol = 1e-13 * 2 ^ n /\
  let K := 4e-15 * 4.1 ^ n * (if Rle_dec al 0 then 1 else Rtrigo_def.cosh (R_sqrt.sqrt al * psi)) in
  Rabs (uf0 s - U0 al psi) <= K /\ Rabs (uf1 s - U1 al psi) <= K * Rabs psi /\
  Rabs (uf2 s - U2 al psi) <= K * Rabs psi ^ 2 /\ Rabs (uf3 s - U3 al psi) <= K * Rabs psi ^ 3.
Proof.
  intros hf al psi s tol H20 H. destruct (ue_sfun_near hf al psi s tol H20 H) as (n & N1 & N2 & N3 & (A0 & A1 & A2 & A3)).
  exists n. split; [exact N1|]. split; [exact N2|]. split; [rewrite N3; ring|]. intros K.
  assert (E : 4.1 ^ n * 4e-15 * amp al psi = K) by (unfold K, amp; ring). rewrite E in *. clearbody K.
  replace (Rabs psi ^ 2) with (Rabs psi * Rabs psi) by ring. replace (Rabs psi ^ 3) with (Rabs psi * Rabs psi * Rabs psi) by ring.
  rewrite <- !Rmult_assoc. auto.
Qed.

(** ** The residual *)
Lemma time_err : forall hf date u pv0 u' pv1, (hf <= 20)%nat -> consistent u ->
  palUe2pv (T := R) hf date u pv0 = Some (0%Z, u', pv1) ->
  let P := u_p0 u in let W := u_v0 u in let cm := u_cm u in let al := tb_al cm P W in
  exists x m s n, (n <= hf)%nat /\ Rabs x <= m /\ Rabs (al * (m * m)) <= 0.7 * 4 ^ hf /\ near_U al x (4.1 ^ n * 4e-15) s /\
    pv1 = ue_project cm (tb_r0 P) ((date - u_t0 u) * GCON) P W s (kepler_r (T := R) cm (tb_r0 P) (tb_sg P W) s) /\
    Rabs (u_psi u' - x) <= 1e-13 * 2 ^ hf /\
    Rabs (tb_t cm P W x - (date - u_t0 u) * GCON) <= 2 ^ hf * Rsize cm P W m * (1e-13 * (1 + ueta hf) + 3 * ueta hf * m).
Proof.
  intros hf date u pv0 u' pv1 H20 (Hcm & Er0 & Esg & Eal & Hh) H P W cm al.
  destruct (C60_at_most_26 _ _ _ _ _ _ _ _ _ H) as (k & o & _ & R1 & K). destruct o as [j|s r psi].
  { exfalso. destruct K as [K1 [K2|K2]]; rewrite <- K1 in K2; discriminate K2. }
  destruct K as (_ & Kpsi & Kpv). rops.
  assert (Ea : u_alpha u = al) by (rewrite Eal; reflexivity).
  change (norm (u_p0 u)) with (tb_r0 P) in Er0. change (dot (u_p0 u) (u_v0 u)) with (tb_sg P W) in Esg.
  rewrite Er0, Esg, Ea in *. fold P W cm in R1, Kpv, Hcm. set (dt := (date - u_t0 u) * GCON) in *.
  assert (Hr0 : 0 < tb_r0 P).
  { unfold tb_r0. apply norm_gt0. intros Z. apply Hh. fold P W. rewrite Z. unfold cross, vzero; cbn. f_equal; ring. }
  destruct (residual_cases _ _ _ _ _ _ _ _ _ _ _ R1 eq_refl) as (x & tol & Es & Er & Dpsi & C).
  destruct (ue_sfun_near hf al x s tol H20 Es) as (n & N1 & N2 & N3 & N4).
  assert (Pw : 1 <= 2 ^ n <= 2 ^ hf) by (split; [apply pow_R1_Rle; lra|apply Rle_pow; [lra|exact N1]]).
  assert (Pw4 : forall n, (n <= hf)%nat -> 4 ^ n <= 4 ^ hf) by (intros; apply Rle_pow; [lra|assumption]).
  assert (Htol : 0 < tol <= 1e-13 * 2 ^ hf) by (rewrite N3; lra).
  assert (U0' := ueta_pos hf).
  (* the largest of the two last iterates *)
  assert (G : exists m, Rabs x <= m /\ Rabs (al * (m * m)) <= 0.7 * 4 ^ hf /\
    Rabs (kepler_ff (T := R) cm (tb_r0 P) (tb_sg P W) dt s) <= 2 ^ hf * Rsize cm P W m * (1e-13 * (1 + ueta hf) + 2 * ueta hf * m)).
  { destruct C as [C|(pl & sl & toll & S1 & S2 & S3 & S4)].
    - exists (Rabs x). split; [lra|]. split.
      { rewrite <- Rabs_mult, Rabs_mult, Rabs_Rabsolu, <- Rabs_mult. eapply Rle_trans; [exact N2|]. apply Rmult_le_compat_l; [lra|apply Pw4, N1]. }
      eapply Rle_trans; [exact C|]. assert (Er' := r_err hf cm P W (Rabs x) Hcm Hr0 x s n N1 (Rle_refl _) N4).
      assert (Sz := tb_r_size cm P W (Rabs x) Hcm Hr0 x (Rle_refl _)). rewrite <- Er in Er'.
      assert (Rr : Rabs r <= Rsize cm P W (Rabs x) * (1 + ueta hf)).
      { replace r with ((r - tb_r cm P W x) + tb_r cm P W x) by ring. eapply Rle_trans; [apply Rabs_triang|]. lra. }
      assert (Rp := Rsize_pos cm P W (Rabs x) Hcm Hr0 (Rabs_pos x)). set (Sx := Rsize cm P W (Rabs x)) in *. clearbody Sx.
      apply Rle_trans with (1e-13 * 2 ^ hf * (Sx * (1 + ueta hf))); [apply Rmult_le_compat; try lra; apply Rabs_pos|].
      assert (0 <= 2 ^ hf * Sx * (2 * ueta hf * Rabs x)) by (apply Rmult_le_pos; [apply Rmult_le_pos; lra|]; apply Rmult_le_pos; [lra|apply Rabs_pos]). lra.
    - destruct (ue_sfun_near hf al pl sl toll H20 S1) as (n' & N1' & N2' & N3' & N4').
      exists (Rmax (Rabs x) (Rabs pl)). set (m := Rmax (Rabs x) (Rabs pl)).
      assert (Hx : Rabs x <= m) by apply Rmax_l. assert (Hp : Rabs pl <= m) by apply Rmax_r. split; [exact Hx|].
      assert (Hm : 0 <= m) by (generalize (Rabs_pos x); lra). split.
      { assert (Q : forall y k, (k <= hf)%nat -> Rabs (al * (y * y)) <= 0.7 * 4 ^ k -> Rabs (al * (Rabs y * Rabs y)) <= 0.7 * 4 ^ hf).
        { intros y k' Hk' Hy. rewrite <- Rabs_mult, Rabs_mult, Rabs_Rabsolu, <- Rabs_mult. eapply Rle_trans; [exact Hy|]. apply Rmult_le_compat_l; [lra|apply Pw4, Hk']. }
        unfold m, Rmax. destruct (Rle_dec (Rabs x) (Rabs pl)); [apply (Q pl n')|apply (Q x n)]; assumption. }
      assert (Rp := Rsize_pos cm P W m Hcm Hr0 Hm).
      assert (T1 := t_err hf cm P W m Hcm Hr0 x s n N1 Hx N4 dt). assert (T2 := t_err hf cm P W m Hcm Hr0 pl sl n' N1' Hp N4' dt).
      assert (Mv : Rabs (tb_t cm P W pl - tb_t cm P W x) <= Rsize cm P W m * Rabs (pl - x)).
      { destruct (MVT_gen (tb_t cm P W) x pl (tb_r cm P W)) as (c & Hc & E).
        - intros; apply is_derive_tb_t.
        - intros y _. apply derivable_continuous_pt. exists (tb_r cm P W y). apply is_derive_Reals, is_derive_tb_t.
        - rewrite E, Rabs_mult. apply Rmult_le_compat_r; [apply Rabs_pos|]. apply tb_r_size; [exact Hcm|exact Hr0|].
          apply Rabs_le_between in Hx. apply Rabs_le_between in Hp. apply Rabs_le. revert Hc. unfold Rmin, Rmax. destruct (Rle_dec x pl); lra. }
      set (f := kepler_ff (T := R) cm (tb_r0 P) (tb_sg P W) dt s) in *. set (fl := kepler_ff (T := R) cm (tb_r0 P) (tb_sg P W) dt sl) in *.
      set (Sx := Rsize cm P W m) in *. set (tx := tb_t cm P W x) in *. set (tp := tb_t cm P W pl) in *. clearbody f fl Sx tx tp.
      assert (D : Rabs (fl - f) <= Sx * Rabs (pl - x) + 2 * (ueta hf * Sx * m)).
      { replace (fl - f) with ((tp - tx) + ((fl - (tp - dt)) + - (f - (tx - dt)))) by ring. eapply Rle_trans; [apply Rabs_triang|].
        assert (Z := Rabs_triang (fl - (tp - dt)) (- (f - (tx - dt)))). rewrite Rabs_Ropp in Z. lra. }
      assert (Pl : 1e-13 <= toll). { rewrite N3'. assert (1 <= 2 ^ n') by (apply pow_R1_Rle; lra). lra. }
      set (d := Rabs (pl - x)) in *. assert (Hd : 1e-13 <= d) by lra. clearbody d.
      eapply Rle_trans; [exact S4|].
      assert (Es0 : 0 <= ueta hf * Sx * m) by (apply Rmult_le_pos; [apply Rmult_le_pos; lra|lra]).
      apply Rle_trans with (tol * ((Sx * d + 2 * (ueta hf * Sx * m)) / d)).
      { apply Rmult_le_compat_l; [lra|]. unfold Rdiv. apply Rmult_le_compat_r; [left; apply Rinv_0_lt_compat; lra|exact D]. }
      replace ((Sx * d + 2 * (ueta hf * Sx * m)) / d) with (Sx + 2 * (ueta hf * Sx * m) * / d) by (field; lra).
      assert (I : 0 < / d <= 1e13).
      { split; [apply Rinv_0_lt_compat; lra|]. replace 1e13 with (/ 1e-13) by (field; lra). apply Rinv_le_contravar; lra. }
      apply Rle_trans with (1e-13 * 2 ^ hf * (Sx + 2 * (ueta hf * Sx * m) * 1e13)).
      { assert (0 <= 2 * (ueta hf * Sx * m) * / d <= 2 * (ueta hf * Sx * m) * 1e13) by (split; [apply Rmult_le_pos; lra|apply Rmult_le_compat_l; lra]).
        apply Rmult_le_compat; lra. }
      assert (0 <= 2 ^ hf * Sx * ueta hf) by (apply Rmult_le_pos; [apply Rmult_le_pos; lra|lra]). lra. }
  destruct G as (m & Hx & Ham & G). assert (Hm : 0 <= m) by (generalize (Rabs_pos x); lra).
  exists x, m, s, n. split; [exact N1|]. split; [exact Hx|]. split; [exact Ham|]. split; [exact N4|].
  split; [rewrite Kpv, Er; reflexivity|]. split; [rewrite Kpsi; lra|].
  assert (T := t_err hf cm P W m Hcm Hr0 x s n N1 Hx N4 dt). assert (Rp := Rsize_pos cm P W m Hcm Hr0 Hm).
  set (Sx := Rsize cm P W m) in *. set (f := kepler_ff (T := R) cm (tb_r0 P) (tb_sg P W) dt s) in *. clearbody Sx f.
  replace (tb_t cm P W x - dt) with (f + - (f - (tb_t cm P W x - dt))) by ring. eapply Rle_trans; [apply Rabs_triang|]. rewrite Rabs_Ropp.
  assert (0 <= ueta hf * Sx * m) by (apply Rmult_le_pos; [apply Rmult_le_pos; lra|lra]).
  assert (ueta hf * Sx * m <= 2 ^ hf * (ueta hf * Sx * m)) by (rewrite <- (Rmult_1_l (ueta hf * Sx * m)) at 1; apply Rmult_le_compat_r; lra). lra.
Qed.

(** ** C68_motion: the position and velocity returned by palUe2pv with status 0 are those of the two-body motion through
    the position and velocity in [u], at a time tau within [del] of the requested one.  [hf] bounds the number of halvings
    used (at most 20); times are in units of 1/k days.  The bounds are explicit; [m] bounds the universal anomaly. *)
Theorem C68_motion : forall hf date u pv0 u' pv1 X Vel, (hf <= 20)%nat -> consistent u ->
  motion (u_cm u) X Vel -> X 0 = u_p0 u -> Vel 0 = u_v0 u ->
  palUe2pv (T := R) hf date u pv0 = Some (0%Z, u', pv1) ->
  exists m tau, 0 <= m /\ Rabs (u_alpha u) * m ^ 2 <= 0.7 * 4 ^ hf /\
  let cm := u_cm u in let eta := 4e-15 * 4.1 ^ hf in
  let A := if Rle_dec (u_alpha u) 0 then 1 else Rtrigo_def.cosh (R_sqrt.sqrt (u_alpha u) * m) in
  let Rm := (u_r0 u + Rabs (u_sigma0 u) * m + cm * m ^ 2) * A in
  let del := 2 ^ hf * Rm * (1e-13 * (1 + eta) + 3 * eta * m) in
  let w := norm (u_v0 u) in
  Rabs (tau - (date - u_t0 u) * 0.01720209895) <= del /\
  norm (vsub (pvp pv1) (X tau)) <= eta * A * cm * m ^ 2 * (1 + m * w) + del * w /\
  (eta * Rm <= norm (X tau) / 2 ->
   norm (vsub (scale (86400 / 0.01720209895) (pvv pv1)) (Vel tau)) <=
     2 * eta * A * cm * m * (1 + m * w) * (1 + Rm / norm (X tau)) / norm (X tau)).
Proof.
  intros hf date u pv0 u' pv1 X Vel H20 C MX X0 V0 H.
  destruct (time_err hf date u pv0 u' pv1 H20 C H) as (x & m & s & n & N1 & Hx & Hm2 & Ns & Epv & _ & Ht).
  destruct C as (Hcm & Er0 & Esg & Eal & Hh).
  set (P := u_p0 u) in *. set (W := u_v0 u) in *. set (cm := u_cm u) in *.
  assert (Ea : u_alpha u = tb_al cm P W) by (rewrite Eal; reflexivity).
  assert (Hm : 0 <= m) by (generalize (Rabs_pos x); lra).
  assert (Hr0 : 0 < tb_r0 P).
  { unfold tb_r0. apply norm_gt0. intros Z. apply Hh. rewrite Z. unfold cross, vzero; cbn. f_equal; ring. }
  assert (Hh2 : 0 < tb_h2 P W).
  { unfold tb_h2. rewrite <- norm_sq. assert (Nh := norm_gt0 _ Hh). apply Rmult_lt_0_compat; exact Nh. }
  destruct (two_body_exists cm P W Hcm Hh) as (X' & V' & M' & X0' & V0' & S').
  assert (U : forall t, X t = X' t /\ Vel t = V' t).
  { apply motion_unique with (mu := cm); try assumption; [|rewrite X0, X0'; reflexivity|rewrite V0, V0'; reflexivity].
    rewrite X0, V0. exact Hh. }
  exists m, (tb_t cm P W x). split; [exact Hm|]. split.
  { rewrite Ea. rewrite Rabs_mult, (Rabs_pos_eq (m * m)) in Hm2 by (apply Rmult_le_pos; lra). replace (m ^ 2) with (m * m) by ring. exact Hm2. }
  assert (EA : (if Rle_dec (u_alpha u) 0 then 1 else Rtrigo_def.cosh (R_sqrt.sqrt (u_alpha u) * m)) = amp (tb_al cm P W) m) by (rewrite Ea; reflexivity).
  cbv zeta. rewrite EA. assert (Ee : 4e-15 * 4.1 ^ hf = ueta hf) by (unfold ueta; ring). rewrite Ee. rewrite Er0, Esg. clear EA Ee.
  fold W in X0, V0. change (norm P) with (tb_r0 P). change (dot P W) with (tb_sg P W).
  assert (ERm : (tb_r0 P + Rabs (tb_sg P W) * m + cm * m ^ 2) * amp (tb_al cm P W) m = Rsize cm P W m) by (unfold Rsize; ring).
  rewrite ERm. clear ERm. set (Rm := Rsize cm P W m) in *.
  assert (EG : GCON (T := R) = 0.01720209895) by (unfold GCON; rn; lra). rewrite EG in *.
  assert (EC : / CD2S (T := R) = 86400 / 0.01720209895).
  { unfold CD2S. rops. rewrite EG. assert (ES : SPD (T := R) = 86400) by (unfold SPD; rn; lra). rewrite ES. set (g := 0.01720209895).
    assert (0 < g) by (unfold g; lra). clearbody g. field. lra. }
  split; [exact Ht|]. destruct (U (tb_t cm P W x)) as [UX UV]. destruct (S' x) as [SX SV]. rewrite UX, UV, SX, SV. split.
  - rewrite Epv. assert (Pe := pos_err hf cm P W m Hcm Hr0 x s n N1 Hx Ns _ _ Ht). cbv zeta in Pe.
    eapply Rle_trans; [exact Pe|]. right. ring.
  - intros Hs. rewrite (tb_norm cm P W Hr0 Hcm Hh2) in *.
    assert (Hrho : 0 < tb_r cm P W x) by (generalize (tb_r_lower cm P W Hr0 Hcm Hh2 x) (tb_q_pos cm P W Hcm Hh2); lra).
    assert (Ve := vel_err hf cm P W m Hcm Hr0 Hm x s n N1 Hx Ns ((date - u_t0 u) * 0.01720209895) Hrho Hs). cbv zeta in Ve.
    rewrite Epv, <- EC. eapply Rle_trans; [exact Ve|]. right. fold Rm. field. lra.
Qed.

(** ** The same for an ellipse, in terms of the semi-major axis [a] = -cm/alpha and the speed at the epoch only *)
Theorem C68_ellipse : forall hf date u pv0 u' pv1 X Vel, (hf <= 20)%nat -> consistent u -> u_alpha u < 0 ->
  motion (u_cm u) X Vel -> X 0 = u_p0 u -> Vel 0 = u_v0 u ->
  palUe2pv (T := R) hf date u pv0 = Some (0%Z, u', pv1) ->
  let a := - u_cm u / u_alpha u in let k := R_sqrt.sqrt (a / u_cm u) in let N := 2 ^ hf in let eta := 4e-15 * 4.1 ^ hf in
  let w := norm (u_v0 u) in let del := 4 * N ^ 3 * a * (1e-13 + 3 * eta * N * k) in
  exists tau, Rabs (tau - (date - u_t0 u) * 0.01720209895) <= del /\ norm (vsub (pvp pv1) (X tau)) <= eta * N ^ 2 * a * (1 + N * k * w) + del * w.
Proof.
  intros hf date u pv0 u' pv1 X Vel H20 C Hal MX X0 V0 H a k N eta w del.
  destruct (C68_motion _ _ _ _ _ _ _ _ H20 C MX X0 V0 H) as (m & tau & Hm & Hm2 & A1 & A2 & _).
  destruct C as (Hcm & Er0 & Esg & Eal & Hh). set (cm := u_cm u) in *. set (al := u_alpha u) in *. cbv zeta in A1, A2.
  destruct (Rle_dec al 0) as [Hl|Hl]; [|lra].
  assert (Hr0 : 0 < u_r0 u).
  { rewrite Er0. apply norm_gt0. intros Z. apply Hh. rewrite Z. unfold cross, vzero; cbn. f_equal; ring. }
  assert (Ha : 0 < a) by (unfold a; apply Rmult_lt_reg_r with (- al); [lra|]; replace (- cm / al * - al) with cm by (field; lra); lra).
  assert (Eaa : al = - cm / a) by (unfold a; field; lra).
  assert (N1 : 1 <= N) by (apply pow_R1_Rle; lra).
  assert (NN : 4 ^ hf = N * N) by (unfold N; rewrite <- Rpow_mult_distr; f_equal; lra).
  assert (Hk : 0 <= k) by apply sqrt_pos. assert (Hkk : k * k = a / cm) by (unfold k; apply sqrt_sqrt; left; apply Rdiv_lt_0_compat; lra).
  assert (E0 : 0 < eta <= 0.05).
  { unfold eta. assert (0 < 4.1 ^ hf) by (apply pow_lt; lra). assert (4.1 ^ hf <= 4.1 ^ 20) by (apply Rle_pow; [lra|exact H20]).
    assert (4.1 ^ 20 * 4e-15 <= 0.05) by lra. lra. }
  (* the anomaly *)
  assert (Mk2 : cm * (m * m) <= 0.7 * (N * N) * a).
  { rewrite (Rabs_left al) in Hm2 by lra. rewrite NN in Hm2. rewrite Eaa in Hm2. apply Rmult_le_reg_r with (/ a); [apply Rinv_0_lt_compat; lra|].
    replace (cm * (m * m) * / a) with (- (- cm / a) * m ^ 2) by (field; lra). replace (0.7 * (N * N) * a * / a) with (0.7 * (N * N)) by (field; lra). exact Hm2. }
  assert (Mk : m <= 0.84 * N * k).
  { apply Rsqr_incr_0_var; [|apply Rmult_le_pos; [lra|exact Hk]]. unfold Rsqr.
    replace (0.84 * N * k * (0.84 * N * k)) with (0.7056 * (N * N) * (k * k)) by lra. rewrite Hkk.
    apply Rmult_le_reg_l with cm; [exact Hcm|]. replace (cm * (0.7056 * (N * N) * (a / cm))) with (0.7056 * (N * N) * a) by (field; lra).
    assert (0 <= (N * N) * a) by (apply Rmult_le_pos; [apply Rmult_le_pos; lra|lra]). lra. }
  (* radius and r.v *)
  assert (Sq : forall v : vec R, 0 <= dot v v) by (intros v; rewrite <- norm_sq; apply Rmult_le_pos; apply norm_pos).
  assert (Area : u_sigma0 u * u_sigma0 u <= cm * (2 * u_r0 u - u_r0 u * u_r0 u / a)).
  { assert (I : dot (cross (u_p0 u) (u_v0 u)) (cross (u_p0 u) (u_v0 u)) = dot (u_p0 u) (u_p0 u) * dot (u_v0 u) (u_v0 u) - dot (u_p0 u) (u_v0 u) * dot (u_p0 u) (u_v0 u))
      by (unfold dot, cross; cbn; ring).
    assert (S := Sq (cross (u_p0 u) (u_v0 u))). rewrite I in S. rewrite <- norm_sq, <- Er0, <- Esg in S.
    rewrite <- Er0 in Eal. assert (Ev : dot (u_v0 u) (u_v0 u) = - cm / a + 2 * cm / u_r0 u) by (rewrite <- Eaa; lra). rewrite Ev in S.
    replace (u_r0 u * u_r0 u * (- cm / a + 2 * cm / u_r0 u)) with (cm * (2 * u_r0 u - u_r0 u * u_r0 u / a)) in S by (field; lra). lra. }
  set (r := u_r0 u) in *. set (sg := u_sigma0 u) in *.
  assert (R2a : r <= 2 * a).
  { destruct (Rle_lt_dec r (2 * a)) as [L|L]; [exact L|exfalso]. assert (S := Rle_0_sqr sg). unfold Rsqr in S.
    assert (0 <= 2 * r - r * r / a). { apply Rmult_le_reg_l with cm; [exact Hcm|]. rewrite Rmult_0_r. lra. }
    assert (r * (r / a - 2) <= 0) by lra. assert (2 < r / a) by (apply Rmult_lt_reg_r with a; [lra|]; replace (r / a * a) with r by (field; lra); lra). nra. }
  assert (Sg : Rabs sg * m <= 0.84 * N * a).
  { apply Rsqr_incr_0_var; [|apply Rmult_le_pos; [lra|lra]]. unfold Rsqr.
    replace (Rabs sg * m * (Rabs sg * m)) with (Rabs sg * Rabs sg * (m * m)) by ring. rewrite <- Rabs_mult, (Rabs_pos_eq (sg * sg)) by apply Rle_0_sqr.
    assert (S1 : sg * sg <= cm * a).
    { eapply Rle_trans; [exact Area|]. apply Rmult_le_compat_l; [lra|]. assert (S := Rle_0_sqr (r - a)). unfold Rsqr in S.
      apply Rmult_le_reg_r with a; [lra|]. replace ((2 * r - r * r / a) * a) with (2 * r * a - r * r) by (field; lra). lra. }
    apply Rle_trans with (cm * a * (m * m)); [apply Rmult_le_compat_r; [apply Rmult_le_pos; lra|exact S1]|].
    replace (cm * a * (m * m)) with (a * (cm * (m * m))) by ring.
    apply Rle_trans with (a * (0.7 * (N * N) * a)); [apply Rmult_le_compat_l; lra|].
    assert (0 <= a * (N * N) * a) by (apply Rmult_le_pos; [apply Rmult_le_pos; [lra|apply Rmult_le_pos; lra]|lra]). lra. }
  assert (Na : a <= N * a) by (rewrite <- (Rmult_1_l a) at 1; apply Rmult_le_compat_r; lra).
  assert (NNa : N * a <= N * N * a) by (rewrite Rmult_assoc; rewrite <- (Rmult_1_l (N * a)) at 1; apply Rmult_le_compat_r; [apply Rmult_le_pos; lra|lra]).
  set (Rm := (r + Rabs sg * m + cm * m ^ 2) * 1) in *.
  assert (HRm : 0 <= Rm <= 3.54 * (N * N * a)).
  { unfold Rm. replace (cm * m ^ 2) with (cm * (m * m)) by ring. assert (0 <= Rabs sg * m) by (apply Rmult_le_pos; [apply Rabs_pos|lra]).
    assert (0 <= cm * (m * m)) by (apply Rmult_le_pos; [lra|apply Rmult_le_pos; lra]). lra. }
  assert (Nk : 0 <= N * k) by (apply Rmult_le_pos; lra).
  fold eta in A1, A2.
  assert (EmNk : eta * m <= eta * (0.84 * N * k)) by (apply Rmult_le_compat_l; lra).
  assert (Em0 : 0 <= eta * m) by (apply Rmult_le_pos; lra).
  assert (D : 2 ^ hf * Rm * (1e-13 * (1 + eta) + 3 * eta * m) <= del).
  { fold N. unfold del. apply Rle_trans with (N * (3.54 * (N * N * a)) * (1.05 * (1e-13 + 3 * eta * N * k))).
    - apply Rmult_le_compat; [apply Rmult_le_pos; lra|lra|apply Rmult_le_compat_l; lra|].
      assert (0 <= eta * (N * k)) by (apply Rmult_le_pos; lra). lra.
    - replace (N * (3.54 * (N * N * a)) * (1.05 * (1e-13 + 3 * eta * N * k))) with (3.717 * (N ^ 3 * a * (1e-13 + 3 * eta * N * k))) by lra.
      replace (4 * N ^ 3 * a * (1e-13 + 3 * eta * N * k)) with (4 * (N ^ 3 * a * (1e-13 + 3 * eta * N * k))) by ring.
      assert (0 <= N ^ 3 * a * (1e-13 + 3 * eta * N * k)); [|lra].
      apply Rmult_le_pos; [apply Rmult_le_pos; [apply pow_le; lra|lra]|]. assert (0 <= eta * (N * k)) by (apply Rmult_le_pos; lra). lra. }
  exists tau. split; [lra|]. assert (Hw : 0 <= w) by apply norm_pos. fold w in A2.
  eapply Rle_trans; [exact A2|]. apply Rplus_le_compat; [|apply Rmult_le_compat_r; assumption].
  replace (eta * 1 * cm * m ^ 2 * (1 + m * w)) with (eta * (cm * (m * m)) * (1 + m * w)) by ring.
  replace (eta * N ^ 2 * a * (1 + N * k * w)) with (eta * (N * N * a) * (1 + N * k * w)) by ring.
  assert (Z1 : 0 <= cm * (m * m)) by (apply Rmult_le_pos; [lra|apply Rmult_le_pos; lra]).
  assert (Z2 : 0 <= m * w <= N * k * w) by (split; [apply Rmult_le_pos; lra|apply Rmult_le_compat_r; lra]).
  apply Rmult_le_compat; [apply Rmult_le_pos; lra|lra|apply Rmult_le_compat_l; lra|lra].
Qed.

(** ** Elements produced by palPv2ue are consistent, and palUe2pv keeps them so *)
Theorem C68_pv2ue : forall p date pmass u, palPv2ue (T := R) p date pmass = (0%Z, Some u) ->
  cross (pvp p) (pvv p) <> vzero -> consistent u /\ u_cm u = 1 + pmass /\ u_t0 u = date /\ u_p0 u = pvp p /\    u_v0 u = scale (86400 / 0.01720209895) (pvv p).
Proof.
  intros [[x y z] [xd yd zd]] date pmass u H Hc. unfold palPv2ue in H. cbn [pvp pvv vx vy vz] in *. 
  assert (HC := CD2S_pos). assert (EC : CD2S (T := R) = 0.01720209895 / 86400) 
  by (unfold CD2S; rops; replace (GCON (T := R)) with 0.01720209895 by (unfold GCON; rn; lra);
    replace (SPD (T := R)) with 86400 by (unfold SPD; rn; lra); reflexivity).
  set (c := CD2S (T := R)) in *. clearbody c. rops.
  destruct (Rltb_spec pmass (litR 0.0)) as [|Hp]; [discriminate H|].
  destruct (Rltb_spec (sqrtR (x * x + y * y + z * z)) (litR 1e-3)) as [|Hr]; [discriminate H|].
  destruct (Rltb_spec (sqrtR (xd / c * (xd / c) + yd / c * (yd / c) + zd / c * (zd / c))) (litR 1e-3)) as [|Hv]; [discriminate H|].
  injection H as <-. unfold consistent. cbn [u_cm u_alpha u_t0 u_p0 u_v0 u_r0 u_sigma0].
  replace (litR 1.0) with 1 by (rlit; lra). replace (litR 2.0) with 2 by (rlit; lra). replace (litR 0.0) with 0 in Hp by (rlit; lra).
  split; [|split; [reflexivity|split; [reflexivity|split; [reflexivity|]]]].
  - split; [lra|]. split; [reflexivity|]. split; [reflexivity|]. split; [reflexivity|].
    intros Z. apply Hc. unfold cross, vzero in *. cbn [vx vy vz] in *. injection Z as Z1 Z2 Z3.
    f_equal; apply Rmult_eq_reg_r with (/ c); try (apply Rinv_neq_0_compat; lra); unfold Rdiv in *; lra.
  - unfold scale. cbn [vx vy vz]. rewrite EC. set (g := 0.01720209895). assert (0 < g) by (unfold g; lra). clearbody g. f_equal; field; lra.
Qed.
Theorem C68_kept : forall hf date u pv0 st u' pv1, palUe2pv (T := R) hf date u pv0 = Some (st, u', pv1) -> consistent u -> consistent u'.
Proof.
  intros hf date u pv0 st u' pv1 H C. destruct (C60_untouched _ _ _ _ _ _ _ _ _ H) as [(_ & _ & E1 & E2 & _ & E3 & E4 & E5 & E6)|(_ & E & _)].
  - unfold consistent in *. rewrite E1, E2, E3, E4, E5, E6. exact C.
  - now rewrite E.
Qed.

(** Non-vacuity: a circular orbit 30 days after the epoch *)
Definition u_circ : ue R := UE 1 (-1) 50000 (V 1 0 0) (V 0 1 0) 1 0 50000 0.
Lemma u_circ_consistent : consistent u_circ.
Proof.
  unfold consistent, u_circ, norm, dot, cross, vzero; cbn [u_cm u_alpha u_t0 u_p0 u_v0 u_r0 u_sigma0 vx vy vz].
  replace (1 * 1 + 0 * 0 + 0 * 0) with 1 by ring. rewrite sqrt_1. repeat split; try lra. intros Z. injection Z. lra.
Qed.
Lemma circ_motion : motion 1 (fun t => V (Rtrigo_def.cos t) (Rtrigo_def.sin t) 0) (fun t => V (- Rtrigo_def.sin t) (Rtrigo_def.cos t) 0).
Proof.
  intros t. assert (N : norm (V (Rtrigo_def.cos t) (Rtrigo_def.sin t) 0) = 1).
  { unfold norm, dot; cbn [vx vy vz]. rewrite <- sqrt_1. f_equal. assert (S := sin2_cos2 t). unfold Rsqr in S. lra. }
  rewrite N. split; [lra|]. unfold vderiv, scale; cbn [vx vy vz]. split; (split; [|split]).
  - apply is_derive_Reals, derivable_pt_lim_cos.
  - apply is_derive_Reals, derivable_pt_lim_sin.
  - auto_derive; [easy|req; ring].
  - apply is_derive_cong with (fun t => - Rtrigo_def.sin t) (- Rtrigo_def.cos t); [easy|field|]. apply (is_derive_opp Rtrigo_def.sin). apply is_derive_Reals, derivable_pt_lim_sin.
  - apply is_derive_cong with (fun t => Rtrigo_def.cos t) (- Rtrigo_def.sin t); [easy|field|]. apply is_derive_Reals, derivable_pt_lim_cos.
  - apply is_derive_cong with (fun t => 0) 0; [easy|field|]. auto_derive; [easy|req; ring].
Qed.
Lemma u_circ_ok : exists u' pv1, palUe2pv (T := R) 0 50030 u_circ pv_junk = Some (0%Z, u', pv1).
Proof.
  unfold palUe2pv, u_circ. cbn [u_cm u_alpha u_t0 u_p0 u_v0 u_r0 u_sigma0 u_t u_psi]. rops.
  assert (EG : GCON (T := R) = 0.01720209895) by (unfold GCON; rn; lra). rewrite EG.
  replace (0 + (50030 - 50000) * 0.01720209895 / 1) with 0.5160629685 by lra. replace ((50030 - 50000) * 0.01720209895) with 0.5160629685 by lra.
  rewrite NITMAX_S, ue_iter_S. generalize 24%nat; intros k24. unfold ue_sfun. rops.
  cbn [ue_halve]. rops. rewrite Rltb_false by (rewrite Rabs_left by lra; rlit; lra).
  rewrite series_val. cbn [ue_double uf0 uf1 uf2 uf3]. cbv zeta. rops. set (x := 0.5160629685). set (A := x * x * T2 (-1 * (x * x))). set (B := x * (x * x) * T3 (-1 * (x * x))).
  replace (1 * (x + -1 * B) + 0 * A + 1 * B - x) with 0 by ring. replace (1 * (1 + -1 * A) + 0 * (x + -1 * B) + 1 * A) with 1 by ring.
  replace (litR 0.0) with 0 by (rlit; lra). rewrite Rltb_false by lra. cbn [negb andb]. rewrite Reqb_false by lra.
  replace (0 / 1) with 0 by field. rewrite Rabs_R0, Rleb_false by (rlit; lra). eauto.
Qed.
Example C68_eg : exists u' pv1 tau, palUe2pv (T := R) 0 50030 u_circ pv_junk = Some (0%Z, u', pv1) /\
  Rabs (tau - 30 * 0.01720209895) <= 1e-12 /\ norm (vsub (pvp pv1) (V (Rtrigo_def.cos tau) (Rtrigo_def.sin tau) 0)) <= 1e-12.
Proof.
  destruct u_circ_ok as (u' & pv1 & E). exists u', pv1.
  destruct (C68_ellipse 0 50030 u_circ pv_junk u' pv1 (fun t => V (Rtrigo_def.cos t) (Rtrigo_def.sin t) 0) (fun t => V (- Rtrigo_def.sin t) (Rtrigo_def.cos t) 0))
    as (tau & A1 & A2); try exact E.
  - lia.
  - apply u_circ_consistent.
  - cbn. lra.
  - apply circ_motion.
  - cbn. rewrite cos_0, sin_0. reflexivity.
  - cbn. rewrite cos_0, sin_0. f_equal. lra.
  - exists tau. split; [exact E|]. unfold u_circ in A1, A2. cbn [u_cm u_alpha u_t0 u_p0 u_v0 u_r0 u_sigma0 u_t u_psi Rpow_def.pow] in A1, A2.
    replace (- (1) / -1 / 1) with 1 in * by field. replace (- (1) / -1) with 1 in * by field. rewrite sqrt_1 in *.
    assert (N1 : norm (V 0 1 0) = 1). { unfold norm, dot; cbn [vx vy vz]. replace (0 * 0 + 1 * 1 + 0 * 0) with 1 by ring. apply sqrt_1. }
    rewrite N1 in A2. replace (50030 - 50000) with 30 in A1 by lra. cbv beta in A2. split; lra.
Qed.
