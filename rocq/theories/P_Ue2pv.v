(** * palUe2pv: residual of the universal Kepler equation at exit, and the error of the projection. *)
From Coq Require Import Reals ZArith Lra Lia Psatz Bool.
From Coquelicot Require Import Coquelicot.
From Verif Require Import Num NumR Erfa Geom P_Frames P_Eterms M_Place M_Orbit P_Orbit Props_Orbit Univ P_Univ.
Local Open Scope R_scope.

(** ** What the loop leaves behind *)
Section Loop2.
  Variables (hf : nat) (cm al r0 sg dt : R).
  Notation ff := (kepler_ff (T := R) cm r0 sg dt).
  Definition seen (c : uconf (T := R)) : Prop := uc_nit c = 1%nat \/
    exists s tol, ue_sfun hf al (uc_plast c) = Some (s, tol) /\ uc_flast c = ff s /\ tol <= Rabs (uc_plast c - uc_psi c).
  Lemma runs_done_seen : forall n c o, ue_runs hf cm al r0 sg dt n c o -> (1 <= uc_nit c)%nat -> seen c -> forall s r psi, o = UDone s r psi ->
    exists c' tol w, ue_sfun hf al (uc_psi c') = Some (s, tol) /\ kepler_w cm r0 sg dt c' s = Some w /\
      Rabs w < tol /\ r = kepler_r cm r0 sg s /\ psi = uc_psi c' - w /\ seen c'.
  Proof.
    induction 1 as [c s tol E W|c s tol w E W N|c s tol w E W N D|c s tol w n o E W N D R1 IH]; intros H1 S s' r' psi' Eq; try discriminate Eq.
    - injection Eq as <- <- <-. exists c, tol, w. rops. do 2 (split; [assumption|]). split; [|auto].
      revert D. rcase; [discriminate|]. intros; lra.
    - apply IH; [cbn [uc_nit]; lia| |assumption]. right. exists s, tol. cbn [uc_plast uc_psi uc_flast]. split; [exact E|]. split; [reflexivity|].
      rops. revert D. rcase; [|discriminate]. intros _. replace (uc_psi c - (uc_psi c - w)) with w by ring. lra.
  Qed.
  (** at exit the residual is small compared with the correction: Newton or secant *)
  Lemma residual_cases : forall n s r psi c, ue_runs hf cm al r0 sg dt n c (UDone s r psi) -> uc_nit c = 1%nat ->
    exists ps tol, ue_sfun hf al ps = Some (s, tol) /\ r = kepler_r cm r0 sg s /\ Rabs (psi - ps) < tol /\
      (Rabs (ff s) <= tol * Rabs r \/
       exists pl sl toll, ue_sfun hf al pl = Some (sl, toll) /\ 0 < toll /\ toll <= Rabs (pl - ps) /\
         Rabs (ff s) <= tol * (Rabs (ff sl - ff s) / Rabs (pl - ps)) ).
  Proof.
    intros n s r psi c R1 N1. destruct (runs_done_seen _ _ _ R1 ltac:(lia) ltac:(left; exact N1) s r psi eq_refl) as (c' & tol & w & E & W & D & Er & Ep & S).
    exists (uc_psi c'), tol. split; [exact E|]. split; [exact Er|]. split; [rewrite Ep; replace (uc_psi c' - w - uc_psi c') with (- w) by ring; now rewrite Rabs_Ropp|].
    unfold kepler_w in W. rops. replace (litR 0.0) with 0 in W by (rlit; lra).
    destruct (Rltb_spec (ff s * kepler_fl cm r0 sg dt c' s) 0) as [L|L].
    - right. apply (f_equal (fun o => match o with Some x => x | None => w end)) in W; cbv beta iota in W. destruct S as [S|(sl & toll & S1 & S2 & S3)].
      + exfalso. unfold kepler_fl in L. rewrite S in L. cbn [Nat.eqb] in L. generalize (Rle_0_sqr (ff s)). unfold Rsqr. lra.
      + assert (F : kepler_fl cm r0 sg dt c' s = ff sl).
        { unfold kepler_fl in *. destruct (Nat.eqb (uc_nit c') 1); [|exact S2]. exfalso. generalize (Rle_0_sqr (ff s)). unfold Rsqr. lra. }
        rewrite F in *. exists (uc_plast c'), sl, toll.
        assert (T0 : 0 < toll).
        { clear - S1. unfold ue_sfun in S1. rops. match type of S1 with match ?h with _ => _ end = _ => destruct h as [[[[n b] x] x2]|] end; [|discriminate S1].
          injection S1 as S1. assert (G : forall n s x tol s' tol', 0 < tol -> ue_double (T := R) n s x tol = (s', tol') -> 0 < tol').
          { induction n0; intros s x0 t s' t' Ht H; cbn [ue_double] in H; [injection H as _ <-; exact Ht|]. rops. eapply IHn0; [|exact H]. lra. }
          eapply G; [|exact S1]. rlit. lra. }
        split; [exact S1|]. split; [exact T0|]. split; [exact S3|].
        assert (Hp : 0 < Rabs (uc_plast c' - uc_psi c')) by lra.
        assert (Hd : ff sl - ff s <> 0) by (intros Q; assert (ff sl = ff s) by lra; rewrite H in L; generalize (Rle_0_sqr (ff s)); unfold Rsqr; lra).
        assert (A1 : Rabs w * Rabs (ff sl - ff s) = Rabs (ff s) * Rabs (uc_plast c' - uc_psi c')).
        { rewrite <- !Rabs_mult. f_equal. rewrite <- W. field. exact Hd. }
        replace (Rabs (ff s)) with (Rabs w * Rabs (ff sl - ff s) / Rabs (uc_plast c' - uc_psi c')) by (rewrite A1; field; lra).
        unfold Rdiv. rewrite <- Rmult_assoc. apply Rmult_le_compat_r; [left; apply Rinv_0_lt_compat, Hp|].
        apply Rmult_le_compat_r; [apply Rabs_pos|lra].
    - left. destruct (Reqb_spec (kepler_r cm r0 sg s) 0) as [Z|Z]; [discriminate W|]. apply (f_equal (fun o => match o with Some x => x | None => w end)) in W; cbv beta iota in W. rewrite Er.
      replace (ff s) with (w * kepler_r cm r0 sg s) by (rewrite <- W; field; exact Z). rewrite Rabs_mult.
      apply Rmult_le_compat_r; [apply Rabs_pos|lra].
  Qed.
End Loop2.

(** ** Bounds uniform over the iterates *)
Lemma near_U_le : forall al x eta s E m, near_U al x eta s -> 0 <= eta <= E -> Rabs x <= m -> let K := E * amp al m in
  Rabs (uf0 s - U0 al x) <= K /\ Rabs (uf1 s - U1 al x) <= K * m /\
  Rabs (uf2 s - U2 al x) <= K * m * m /\ Rabs (uf3 s - U3 al x) <= K * m * m * m.
Proof.
  intros al x eta s E m (N0 & N1 & N2 & N3) He Hx K.
  assert (X := Rabs_pos x). assert (A1 := amp_ge_1 al x).
  assert (Am : amp al x <= amp al m) by (apply amp_mono; rewrite (Rabs_pos_eq m); lra).
  assert (HK : 0 <= eta * amp al x <= K) by (unfold K; split; [apply Rmult_le_pos; lra|apply Rmult_le_compat; lra]).
  set (k := eta * amp al x) in *. clearbody k K. set (y := Rabs x) in *. clearbody y.
  assert (B1 : 0 <= k * y <= K * m) by (split; [apply Rmult_le_pos; lra|apply Rmult_le_compat; lra]).
  assert (B2 : 0 <= k * y * y <= K * m * m) by (split; [apply Rmult_le_pos; lra|apply Rmult_le_compat; lra]).
  assert (B3 : 0 <= k * y * y * y <= K * m * m * m) by (split; [apply Rmult_le_pos; lra|apply Rmult_le_compat; lra]).
  split; [lra|]. split; [lra|]. split; lra.
Qed.
Lemma U_le : forall al x m, Rabs x <= m -> let M := amp al m in
  Rabs (U0 al x) <= M /\ Rabs (U1 al x) <= M * m /\ Rabs (U2 al x) <= M * m * m /\ Rabs (U3 al x) <= M * m * m * m.
Proof.
  intros al x m Hx M. assert (X := Rabs_pos x). assert (A1 := amp_ge_1 al m). fold M in A1.
  assert (Hm : Rabs x <= Rabs m) by (rewrite (Rabs_pos_eq m); lra).
  assert (B0 := U0_amp al x m Hm). destruct (U_amp al x m Hm) as (B1 & B2 & B3). fold M in B0, B1, B2, B3.
  clearbody M. set (y := Rabs x) in *. clearbody y.
  assert (C1 : 0 <= M * y <= M * m) by (split; [apply Rmult_le_pos; lra|apply Rmult_le_compat; lra]).
  assert (C2 : 0 <= M * y * y <= M * m * m) by (split; [apply Rmult_le_pos; lra|apply Rmult_le_compat; lra]).
  assert (C3 : 0 <= M * y * y * y <= M * m * m * m) by (split; [apply Rmult_le_pos; lra|apply Rmult_le_compat; lra]).
  split; [lra|]. split; [lra|]. split; lra.
Qed.
Lemma abs3 : forall a b c A B C, Rabs a <= A -> Rabs b <= B -> Rabs c <= C -> Rabs (a + b + c) <= A + B + C.
Proof. intros. eapply Rle_trans; [apply Rabs_triang|]. assert (T := Rabs_triang a b). lra. Qed.
Lemma abs_mul : forall a b B, Rabs b <= B -> Rabs (a * b) <= Rabs a * B.
Proof. intros. rewrite Rabs_mult. apply Rmult_le_compat_l; [apply Rabs_pos|easy]. Qed.

(** the truncation error after at most [hf] halvings, relative to the size of the functions *)
Definition ueta (hf : nat) : R := 4.1 ^ hf * 4e-15.
Lemma ueta_pos : forall hf, 0 < ueta hf.
Proof. intros. unfold ueta. assert (0 < 4.1 ^ hf) by (apply pow_lt; lra). lra. Qed.
Lemma ueta_mono : forall n hf, (n <= hf)%nat -> 0 <= 4.1 ^ n * 4e-15 <= ueta hf.
Proof.
  intros n hf H. assert (0 < 4.1 ^ n) by (apply pow_lt; lra). assert (4.1 ^ n <= 4.1 ^ hf) by (apply Rle_pow; [lra|lia]).
  unfold ueta. lra.
Qed.

Section Errors.
  Variables (hf : nat) (cm : R) (P W : vec R).
  Notation al := (tb_al cm P W). Notation r0 := (tb_r0 P). Notation sg := (tb_sg P W).
  Variable m : R.
  Hypotheses (H20 : (hf <= 20)%nat) (Hcm : 0 < cm) (Hr0 : 0 < r0) (Hm : 0 <= m).
  Definition Rsize : R := (r0 + Rabs sg * m + cm * m * m) * amp al m.
  Lemma Rsize_pos : 0 < Rsize.
  Proof.
    unfold Rsize. assert (A := amp_ge_1 al m). assert (0 <= Rabs sg * m) by (apply Rmult_le_pos; [apply Rabs_pos|lra]).
    assert (0 <= cm * m * m) by (repeat (apply Rmult_le_pos; try lra)). apply Rmult_lt_0_compat; lra.
  Qed.
  Lemma tb_r_size : forall x, Rabs x <= m -> Rabs (tb_r cm P W x) <= Rsize.
  Proof.
    intros x Hx. destruct (U_le al x m Hx) as (B0 & B1 & B2 & B3). unfold tb_r.
    eapply Rle_trans; [apply abs3; [apply abs_mul, B0|apply abs_mul, B1|apply abs_mul, B2]|].
    rewrite (Rabs_pos_eq r0), (Rabs_pos_eq cm) by lra. right. unfold Rsize. ring.
  Qed.
  Variables (x : R) (s : ufun R) (n : nat).
  Hypotheses (Hn : (n <= hf)%nat) (Hx : Rabs x <= m) (Ns : near_U al x (4.1 ^ n * 4e-15) s).
  Lemma r_err : Rabs (kepler_r (T := R) cm r0 sg s - tb_r cm P W x) <= ueta hf * Rsize.
  Proof.
    destruct (near_U_le _ _ _ _ (ueta hf) m Ns (ueta_mono _ _ Hn) Hx) as (B0 & B1 & B2 & B3).
    unfold kepler_r, tb_r. rops.
    match goal with |- Rabs ?a <= _ => replace a with (r0 * (uf0 s - U0 al x) + sg * (uf1 s - U1 al x) + cm * (uf2 s - U2 al x)) by ring end.
    eapply Rle_trans; [apply abs3; [apply abs_mul, B0|apply abs_mul, B1|apply abs_mul, B2]|].
    rewrite (Rabs_pos_eq r0), (Rabs_pos_eq cm) by lra. right. unfold Rsize. ring.
  Qed.
  Lemma t_err : forall dt, Rabs (kepler_ff (T := R) cm r0 sg dt s - (tb_t cm P W x - dt)) <= ueta hf * Rsize * m.
  Proof.
    intros dt. destruct (near_U_le _ _ _ _ (ueta hf) m Ns (ueta_mono _ _ Hn) Hx) as (B0 & B1 & B2 & B3).
    unfold kepler_ff, tb_t. rops.
    match goal with |- Rabs ?a <= _ => replace a with (r0 * (uf1 s - U1 al x) + sg * (uf2 s - U2 al x) + cm * (uf3 s - U3 al x)) by ring end.
    eapply Rle_trans; [apply abs3; [apply abs_mul, B1|apply abs_mul, B2|apply abs_mul, B3]|].
    rewrite (Rabs_pos_eq r0), (Rabs_pos_eq cm) by lra. right. unfold Rsize. ring.
  Qed.
  (** position *)
  Lemma pos_err : forall dt r, Rabs (tb_t cm P W x - dt) <= r -> let K := ueta hf * amp al m in
    norm (vsub (pvp (ue_project (T := R) cm r0 dt P W s (kepler_r (T := R) cm r0 sg s))) (tb_pos cm P W x)) <=
    cm * K * m * m * (1 + m * norm W) + r * norm W.
  Proof.
    intros dt r Hr K. destruct (near_U_le _ _ _ _ (ueta hf) m Ns (ueta_mono _ _ Hn) Hx) as (B0 & B1 & B2 & B3). fold K in B0, B1, B2, B3.
    unfold ue_project. cbn [pvp]. rops. replace (litR 1.0) with 1 by (rlit; lra).
    match goal with |- norm ?a <= _ => replace a with (vadd (scale (- (cm / r0 * (uf2 s - U2 al x))) P) (scale (- (tb_t cm P W x - dt) - cm * (uf3 s - U3 al x)) W)) end.
    - eapply Rle_trans; [apply norm_triangle|]. rewrite !norm_scale_abs. change (norm P) with r0.
      assert (NW := norm_pos W).
      assert (A1 : Rabs (- (cm / r0 * (uf2 s - U2 al x))) * r0 <= cm * K * m * m).
      { rewrite Rabs_Ropp, Rabs_mult. rewrite (Rabs_pos_eq (cm / r0)) by (left; apply Rdiv_lt_0_compat; lra).
        replace (cm / r0 * Rabs (uf2 s - U2 al x) * r0) with (cm * Rabs (uf2 s - U2 al x)) by (field; lra).
        apply Rle_trans with (cm * (K * m * m)); [apply Rmult_le_compat_l; lra|right; ring]. }
      assert (A2 : Rabs (- (tb_t cm P W x - dt) - cm * (uf3 s - U3 al x)) <= r + cm * K * m * m * m).
      { unfold Rminus at 1. eapply Rle_trans; [apply Rabs_triang|]. rewrite !Rabs_Ropp. rewrite (Rabs_mult cm), (Rabs_pos_eq cm) by lra.
        apply Rplus_le_compat; [exact Hr|]. apply Rle_trans with (cm * (K * m * m * m)); [apply Rmult_le_compat_l; lra|right; ring]. }
      assert (A3 := Rmult_le_compat_r _ _ _ NW A2). lra.
    - unfold tb_pos, tb_t, vsub, vadd, scale. cbn [vx vy vz]. f_equal; field; lra.
  Qed.
  (** velocity *)
  Lemma vel_err : forall dt, 0 < tb_r cm P W x -> ueta hf * Rsize <= tb_r cm P W x / 2 -> let K := ueta hf * amp al m in let rho := tb_r cm P W x in
    norm (vsub (scale (/ CD2S) (pvv (ue_project (T := R) cm r0 dt P W s (kepler_r (T := R) cm r0 sg s)))) (tb_vel cm P W x)) <=
    2 * cm * K * m * (1 + m * norm W) * (1 + Rsize / rho) / rho.
  Proof.
    intros dt Hp Hs K rho. destruct (near_U_le _ _ _ _ (ueta hf) m Ns (ueta_mono _ _ Hn) Hx) as (B0 & B1 & B2 & B3). fold K in B0, B1, B2, B3.
    destruct (U_le al x m Hx) as (C0 & C1 & C2 & C3). assert (Er := r_err). set (rt := kepler_r cm r0 sg s) in *.
    assert (HC := CD2S_pos). unfold ue_project. cbn [pvv]. set (cd := CD2S (T := R)) in *. clearbody cd. rops. replace (litR 1.0) with 1 by (rlit; lra).
    fold rho in Hp, Hs, Er. unfold tb_vel. fold rho. set (M := amp al m) in *.
    assert (M1 : 1 <= M) by apply amp_ge_1. assert (E0 := ueta_pos hf).
    assert (Rt : rho / 2 <= rt) by (apply Rabs_le_between' in Er; lra).
    assert (Q : forall (c u B k : R), Rabs (c - u) <= K * B -> Rabs u <= M * B -> 0 <= B ->
      Rabs (c / rt - u / rho) <= 2 * K * B * (1 + Rsize / rho) / rho).
    { intros c u B _ HB HM HB0. replace (c / rt - u / rho) with (((c - u) * rho - u * (rt - rho)) / (rt * rho)) by (field; lra).
      unfold Rdiv at 1. rewrite Rabs_mult. rewrite (Rabs_pos_eq (/ (rt * rho))) by (left; apply Rinv_0_lt_compat, Rmult_lt_0_compat; lra).
      assert (N1 : Rabs ((c - u) * rho - u * (rt - rho)) <= K * B * rho + M * B * (ueta hf * Rsize)).
      { unfold Rminus at 1. eapply Rle_trans; [apply Rabs_triang|]. rewrite Rabs_Ropp, !Rabs_mult, (Rabs_pos_eq rho) by lra.
        apply Rplus_le_compat; [apply Rmult_le_compat_r; lra|]. apply Rmult_le_compat; auto using Rabs_pos. }
      assert (I : / (rt * rho) <= / (rho / 2 * rho)).
      { apply Rinv_le_contravar; [apply Rmult_lt_0_compat; lra|]. apply Rmult_le_compat_r; lra. }
      eapply Rle_trans; [apply Rmult_le_compat; [apply Rabs_pos|left; apply Rinv_0_lt_compat, Rmult_lt_0_compat; lra|exact N1|exact I]|].
      right. unfold K. field. lra. }
    assert (Q1 := Q (uf1 s) (U1 al x) m 0 B1 C1 Hm).
    assert (Hmm : 0 <= m * m) by (apply Rmult_le_pos; lra).
    assert (Q2 := Q (uf2 s) (U2 al x) (m * m) 0). rewrite <- !Rmult_assoc in Q2. specialize (Q2 B2 C2 Hmm).
    match goal with |- norm ?a <= _ => replace a with (vadd (scale (- (cm / r0 * (uf1 s / rt - U1 al x / rho))) P) (scale (- (cm * (uf2 s / rt - U2 al x / rho))) W)) end.
    - eapply Rle_trans; [apply norm_triangle|]. rewrite !norm_scale_abs, !Rabs_Ropp. change (norm P) with r0.
      assert (NW := norm_pos W). rewrite !Rabs_mult, (Rabs_pos_eq cm) by lra.
      rewrite (Rabs_pos_eq (cm / r0)) by (left; apply Rdiv_lt_0_compat; lra).
      replace (cm / r0 * Rabs (uf1 s / rt - U1 al x / rho) * r0) with (cm * Rabs (uf1 s / rt - U1 al x / rho)) by (field; lra).
      assert (Z1 := Rmult_le_compat_l cm _ _ ltac:(lra) Q1).
      assert (Z2 := Rmult_le_compat_r _ _ _ NW (Rmult_le_compat_l cm _ _ ltac:(lra) Q2)).
      eapply Rle_trans; [apply Rplus_le_compat; [exact Z1|exact Z2]|]. right. field. lra.
    - unfold vsub, vadd, scale. cbn [vx vy vz]. f_equal; field; repeat split; lra.
  Qed.
End Errors.
