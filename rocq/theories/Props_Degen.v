(** * C99: degenerate arguments on binary64 *)
From Coq Require Import Reals ZArith Lra Lia Psatz Bool List String.
From Flocq Require Import Core IEEE754.BinarySingleNaN.
From Interval Require Import Tactic.
From Verif Require Import Num NumR NumD NumF NumDE Geom Erfa M_Sphere M_Time M_Frames P_Sphere Props_Dangle Props_Dsep Props_Dsph Props_Dhor Props_Dtan Props_Dbear
  Props_Dvec Props_Deul Props_Depo Props_Dgal Props_Ieee Props_Ieee2.
Local Open Scope R_scope.

(** What ISO C (Annex F) adds for zero arguments: sin is zero, cos is one *)
Record libm_zero (F : FLibm) : Prop := {
  lz_sin : forall a, fval a = 0 -> ffin a = true -> ffin (f_sin F a) = true /\ fval (f_sin F a) = 0;
  lz_cos : forall a, fval a = 0 -> ffin a = true -> ffin (f_cos F a) = true /\ fval (f_cos F a) = 1 }.

Section F.
Variables (F : FLibm) (e : R).
Hypothesis OK : libm_ok F e.
Hypothesis He : 2.3e-16 <= e <= 0.1.
Hypothesis LZ : libm_zero F.
Let L := libm_of F.
Ltac fb := lazymatch goal with
  | H : repb ?a _ _ |- repb ?a _ _ => exact H
  | |- repb (Bplus _ _ _) _ _ => eapply rb_add; [fb|fb|fz]
  | |- repb (Bminus _ _ _) _ _ => eapply rb_sub; [fb|fb|fz]
  | |- repb (Bmult _ _ _) _ _ => eapply rb_mul; [fb|fb|fz]
  | |- repb (Bopp _) _ _ => eapply rb_opp; fb
  | |- repb (Babs _) _ _ => eapply rb_abs; fb
  | |- repb (f_sin _ _) _ _ => eapply (ag_sin F e OK); fr
  | |- repb (f_cos _ _) _ _ => eapply (ag_sin F e OK); fr
  | |- repb (flit ?d) _ _ => apply (rb_lit d 60); [rlit; apply Rabs_le; cbn; lra|lia]
  | |- repb fpi _ _ => apply rb_pi
  | H : rep ?a _ |- repb ?a _ _ => apply rb_any; exact H
  end
  with fr := lazymatch goal with
  | H : rep ?a _ |- rep ?a _ => exact H
  | H : repb ?a _ _ |- rep ?a _ => exact (proj1 H)
  | |- rep _ _ => eapply rb_rep; fb
  end
  with fz := first [split; [vm_compute; discriminate|vm_compute; reflexivity]|lia].
Ltac fops := cbn [add sub mul div opp ltb leb eqb fabs sqrt sin cos tan asin atan atan2
       exp log sinh pow fmod floor ceil ofZ toZ lit pi DA FA].
Ltac fp := lazymatch goal with
  | |- posb (Bmult _ ?a ?a) _ _ => eapply ps_sq; [fb|fz]
  | |- posb (Bplus _ _ _) _ _ => eapply ps_add; [fp|fp|fz]
  | |- posb (Bsqrt _ _) _ _ => eapply ps_sqrt; fp
  end.
(** a vector all of whose components are zero, of either sign *)
Definition vz0 (v : vec f64) : Prop := vfin v /\ fvec v = vzero.
Lemma vz0_rep : forall v, vz0 v -> rvecb v vzero 0.
Proof.
  intros v [(A & B & C) E]. unfold fvec, vzero in E. injection E as E1 E2 E3.
  unfold rvecb, vzero; cbn [vx vy vz]. repeat split; try assumption; rewrite Rabs_R0; apply bpow_ge_0.
Qed.
Lemma rd00 : rd (0 * 0) = 0. Proof. now rewrite Rmult_0_l, rd_0. Qed.
Lemma rd0p : rd (0 + 0) = 0. Proof. now rewrite Rplus_0_l, rd_0. Qed.
Theorem C99_palDvn : forall v, vz0 v -> let '(uv, vm) := @palDvn f64 (FA F) v in vz0 uv /\ ffin vm = true /\ fval vm = 0.
Proof.
  intros v H. destruct (vz0_rep v H) as (A1 & A2 & A3). unfold vzero in A1, A2, A3. cbn [vx vy vz] in A1, A2, A3.
  unfold palDvn, eraPn, eraPm, eraZp. fops. cbv zeta. cbn [fst snd].
  set (wf := Bsqrt _ _). assert (Hw : exists p, posb wf (rd (sqrtR (rd (rd (rd (0 * 0) + rd (0 * 0)) + rd (0 * 0))))) p) by (eexists; unfold wf; fp).
  destruct Hw as (p & Hw & _). rewrite !rd00, !rd0p, sqrt_0, rd_0 in Hw. clearbody wf.
  assert (E0 := rep_eqb wf (flit 0) 0 (rd 0) (proj1 Hw) fz0). rewrite rd_0 in E0. rewrite E0. destruct (Reqb_spec 0 0) as [_|N]; [|easy]. cbn [fst snd].
  destruct Hw as [[W1 W2] _]. split; [|now split]. split; [repeat split|reflexivity].
Qed.
Theorem C99_palDav2m : forall v, vz0 v -> let r := @palDav2m f64 (FA F) v in mfin r /\ fmat r = mid.
Proof.
  intros v H r. destruct (vz0_rep v H) as (A1 & A2 & A3). unfold vzero in A1, A2, A3. cbn [vx vy vz] in A1, A2, A3.
  unfold r, palDav2m, eraRv2m. fops. cbv zeta. clear r.
  set (wf := Bsqrt _ _). assert (Hw : exists p, posb wf (rd (sqrtR (rd (rd (rd (0 * 0) + rd (0 * 0)) + rd (0 * 0))))) p) by (eexists; unfold wf; fp).
  destruct Hw as (p & Hw & _). rewrite !rd00, !rd0p, sqrt_0, rd_0 in Hw. clearbody wf.
  assert (E0 := rep_ltb (flit 0) wf (rd 0) 0 fz0 (proj1 Hw)). rewrite rd_0 in E0. rewrite E0. destruct (Rltb_spec 0 0) as [N|_]; [lra|]. cbn [vx vy vz].
  destruct Hw as [[W1 W2] _]. assert (S := lz_sin F LZ wf W2 W1). assert (C := lz_cos F LZ wf W2 W1). set (s := f_sin F wf) in *. set (c := f_cos F wf) in *. clearbody s c.
  assert (S' : repb s 0 0) by (split; [exact S|rewrite Rabs_R0; apply bpow_ge_0]). assert (C' : repb c 1 0) by (split; [exact C|rewrite Rabs_R1; change (bpow radix2 0) with 1; lra]).
  assert (Z1 : repb (flit 1) (rd (litR 1)) 0) by (apply (rb_lit 1 0); [replace (litR 1) with 1 by (rlit; lra); rewrite Rabs_R1; change (bpow radix2 0) with 1; lra|lia]).
  replace (litR 1) with 1 in Z1 by (rlit; lra). rewrite (rdZ 1) in Z1 by (cbn; lia).
  assert (F1 := rb_sub _ _ _ _ _ _ Z1 C' ltac:(cbn; lia)). replace (1 - 1) with 0 in F1 by ring. rewrite rd_0 in F1. set (f := Bminus mode_NE (flit 1) c) in *. clearbody f.
  assert (R1 : rd 1 = 1) by (apply (rdZ 1); cbn; lia).
  match goal with |- mfin ?m /\ _ => assert (K : rmatb m mid 10) end.
  { unfold rmatb, rvecb, mid. cbn [m0 m1 m2 vx vy vz].
    assert (P : forall x y, repb x 0 0 -> repb y 0 0 -> repb (Bmult mode_NE (Bmult mode_NE x y) f) 0 1).
    { intros x y X Y. assert (M1 := rb_mul _ _ _ _ _ _ X Y ltac:(cbn; lia)). rewrite rd00 in M1. assert (M2 := rb_mul _ _ _ _ _ _ M1 F1 ltac:(cbn; lia)). rewrite rd00 in M2. eapply rb_weak; [exact M2|cbn; lia]. }
    assert (Q : forall x, repb x 0 0 -> repb (Bmult mode_NE x s) 0 0).
    { intros x X. assert (M1 := rb_mul _ _ _ _ _ _ X S' ltac:(cbn; lia)). now rewrite rd00 in M1. }
    assert (D : forall x y, repb x 0 0 -> repb y 0 0 -> repb (Bplus mode_NE (Bmult mode_NE (Bmult mode_NE x y) f) c) 1 10).
    { intros x y X Y. assert (M1 := rb_add _ _ _ _ _ _ (P x y X Y) C' ltac:(cbn; lia)). rewrite Rplus_0_l, R1 in M1. eapply rb_weak; [exact M1|cbn; lia]. }
    assert (O1 : forall x y w, repb x 0 0 -> repb y 0 0 -> repb w 0 0 -> repb (Bplus mode_NE (Bmult mode_NE (Bmult mode_NE x y) f) (Bmult mode_NE w s)) 0 10).
    { intros x y w X Y W. assert (M1 := rb_add _ _ _ _ _ _ (P x y X Y) (Q w W) ltac:(cbn; lia)). rewrite rd0p in M1. eapply rb_weak; [exact M1|cbn; lia]. }
    assert (O2 : forall x y w, repb x 0 0 -> repb y 0 0 -> repb w 0 0 -> repb (Bminus mode_NE (Bmult mode_NE (Bmult mode_NE x y) f) (Bmult mode_NE w s)) 0 10).
    { intros x y w X Y W. assert (M1 := rb_sub _ _ _ _ _ _ (P x y X Y) (Q w W) ltac:(cbn; lia)). rewrite Rminus_0_r, rd_0 in M1. eapply rb_weak; [exact M1|cbn; lia]. }
    split; [|split]; (split; [|split]); first [now apply D|now apply O1|now apply O2]. }
  apply (rmatb_fin e He) in K. exact K.
Qed.
Definition fsym (m : mat f64) : Prop := fval (vy (m0 m)) = fval (vx (m1 m)) /\ fval (vz (m0 m)) = fval (vx (m2 m)) /\ fval (vz (m1 m)) = fval (vy (m2 m)).
(** no axis can be told from a symmetric matrix: a null vector comes back, for every finite symmetric matrix *)
Theorem C99_palDm2av : forall m, mfin m -> fsym m -> vz0 (@palDm2av f64 (FA F) m).
Proof.
  intros m ((A1 & A2 & A3) & (B1 & B2 & B3) & (C1 & C2 & C3)) (S1 & S2 & S3). unfold palDm2av, eraRm2v. fops. cbv zeta.
  assert (G : forall x y, ffin x = true -> ffin y = true -> fval x = fval y -> repb (Bminus mode_NE x y) 0 0).
  { intros x y X Y E. assert (K := rep_sub x y _ _ (conj X eq_refl) (conj Y eq_refl)). rewrite E, Rminus_diag_eq, rd_0, Rabs_R0 in K by easy.
    split; [apply K; apply bpow_gt_0|rewrite Rabs_R0; apply bpow_ge_0]. }
  assert (G1 := G _ _ B3 C2 S3). assert (G2 := G _ _ C1 A3 ltac:(easy)). assert (G3 := G _ _ A2 B1 S1).
  set (x := Bminus mode_NE (vz (m1 m)) _) in *. set (y := Bminus mode_NE (vx (m2 m)) _) in *. set (z := Bminus mode_NE (vy (m0 m)) _) in *. clearbody x y z.
  set (wf := Bsqrt _ _). assert (Hw : exists p, posb wf (rd (sqrtR (rd (rd (rd (0 * 0) + rd (0 * 0)) + rd (0 * 0))))) p) by (eexists; unfold wf; fp).
  destruct Hw as (p & Hw & _). rewrite !rd00, !rd0p, sqrt_0, rd_0 in Hw. clearbody wf.
  assert (E0 := rep_ltb (flit 0) wf (rd 0) 0 fz0 (proj1 Hw)). rewrite rd_0 in E0. rewrite E0. destruct (Rltb_spec 0 0) as [N|_]; [lra|].
  split; [repeat split|reflexivity].
Qed.
Theorem C99_palDcc2s : forall v, vz0 v -> let '(a, b) := @palDcc2s f64 (FA F) v in ffin a = true /\ fval a = 0 /\ ffin b = true /\ fval b = 0.
Proof.
  intros v H. destruct (vz0_rep v H) as (A1 & A2 & A3). unfold vzero in A1, A2, A3. cbn [vx vy vz] in A1, A2, A3.
  unfold palDcc2s, eraC2s. fops. cbv zeta.
  set (df := Bplus _ _ _). assert (Hd : exists p, posb df (rd (rd (0 * 0) + rd (0 * 0))) p) by (eexists; unfold df; fp). destruct Hd as (p & Hd & _).
  rewrite !rd00, !rd0p in Hd. clearbody df. assert (E0 := rep_eqb df (flit 0) 0 (rd 0) (proj1 Hd) fz0). assert (E1 := rep_eqb _ (flit 0) 0 (rd 0) (proj1 A3) fz0).
  rewrite rd_0 in E0, E1. rewrite E0, E1. destruct (Reqb_spec 0 0) as [_|N]; [|easy]. repeat split; reflexivity.
Qed.
(** the separation of a point from itself is exactly zero, and so is its bearing *)
Theorem C99_palDsep_self : forall a b, ffin a = true -> ffin b = true -> let r := @palDsep f64 (FA F) a b a b in ffin r = true /\ fval r = 0.
Proof.
  intros a b A B. assert (Ha : rep a (fval a)) by now split. assert (Hb : rep b (fval b)) by now split.
  cbv zeta. unfold palDsep, eraSeps. set (w := ddir L (fval a) (fval b)).
  assert (S : rvecb (@eraS2c f64 (FA F) a b) w 4).
  { unfold eraS2c, rvecb, w, ddir. fops. cbn [vx vy vz]. split; [|split]; (eapply rb_weak; [fb|cbn; lia]). }
  assert (E1 := ddir_err L (ag_trig_acc F e OK) (fval a) (fval b) (rep_fmt _ _ Ha) (rep_fmt _ _ Hb)). fold L w in E1.
  assert (N := norm_diff (dir (fval a) (fval b)) w). rewrite (norm_unit (dir (fval a) (fval b))) in N by apply dir_unit.
  assert (D1 := ddot_err w w). assert (N2 := norm_sq w). set (n := norm w) in *.
  assert (Pn : 0.9 <= n <= 1.1) by (apply Rabs_le_inv in N; unfold u53 in E1; lra). assert (E0 := eta_small). assert (E2 := eta_pos).
  assert (PD : 0 < ddot w w) by (apply Rabs_le_inv in D1; unfold u53 in D1; nra). clear D1 N2 E1 N Pn n.
  clearbody w. set (v := @eraS2c f64 (FA F) a b) in *. clearbody v. destruct S as (S1 & S2 & S3).
  unfold eraSepp, eraPm, eraPxp, eraPdp. fops. cbn [vx vy vz]. cbv zeta.
  set (sf := Bsqrt _ _). set (cf := Bplus _ _ _).
  assert (Hc : rep cf (ddot w w)) by (unfold cf, ddot; eapply rb_rep; fb). clearbody cf.
  assert (Hs : exists p, posb sf 0 p).
  { assert (Q : forall x y p q, repb x p 4 -> repb y q 4 -> repb (Bminus mode_NE (Bmult mode_NE x y) (Bmult mode_NE y x)) 0 10).
    { intros x y p q X Y. assert (M1 := rb_mul _ _ _ _ _ _ X Y ltac:(lia)). assert (M2 := rb_mul _ _ _ _ _ _ Y X ltac:(lia)). rewrite (Rmult_comm q p) in M2.
      assert (M3 := rb_sub _ _ _ _ _ _ M1 M2 ltac:(lia)). rewrite Rminus_diag_eq, rd_0 in M3 by easy. eapply rb_weak; [exact M3|lia]. }
    assert (Q1 := Q _ _ _ _ S2 S3). assert (Q2 := Q _ _ _ _ S3 S1). assert (Q3 := Q _ _ _ _ S1 S2).
    assert (K : exists p, posb sf (rd (sqrtR (rd (rd (rd (0 * 0) + rd (0 * 0)) + rd (0 * 0))))) p).
    { eexists. unfold sf. set (c1 := Bminus mode_NE (Bmult mode_NE (vy v) (vz v)) _) in *. set (c2 := Bminus mode_NE (Bmult mode_NE (vz v) (vx v)) _) in *. set (c3 := Bminus mode_NE (Bmult mode_NE (vx v) (vy v)) _) in *.
      clearbody c1 c2 c3. fp. }
    destruct K as [p K]. rewrite !rd00, !rd0p, sqrt_0, rd_0 in K. now exists p. }
  clearbody sf. destruct Hs as (p & (Hs & _) & _ & Sg).
  assert (Ez : sf = Zero false) by (destruct (rep_zero sf Hs) as [->| ->]; [discriminate|reflexivity]). subst sf.
  rewrite (rep_eqb _ _ _ _ Hc fz0), rd_0. destruct (Reqb_spec (ddot w w) 0) as [Z|_]; [lra|]. rewrite orb_true_r.
  destruct Hc as [C1 C2]. split; [now apply (lo_at_fin F e OK)|]. apply (lo_at_pos F e OK); [exact C1|now rewrite C2].
Qed.
Theorem C99_palDbear_self : forall a b, ffin a = true -> ffin b = true -> let r := @palDbear f64 (FA F) a b a b in ffin r = true /\ fval r = 0.
Proof.
  intros a b A B r. assert (Hb : rep b (fval b)) by now split. unfold r, palDbear, eraPas. fops. cbv zeta. clear r.
  set (dl := Bminus mode_NE a a). assert (Hd : rep dl 0).
  { assert (K := rep_sub a a _ _ (conj A eq_refl) (conj A eq_refl)). rewrite Rminus_diag_eq, rd_0, Rabs_R0 in K by easy. apply K, bpow_gt_0. }
  clearbody dl. destruct Hd as [D1 D2]. assert (S0 := lz_sin F LZ dl D2 D1). assert (C0 := lz_cos F LZ dl D2 D1).
  set (sd := f_sin F dl) in *. set (cd := f_cos F dl) in *. clearbody sd cd.
  assert (S' : repb sd 0 0) by (split; [exact S0|rewrite Rabs_R0; apply bpow_ge_0]). assert (C' : repb cd 1 0) by (split; [exact C0|rewrite Rabs_R1; change (bpow radix2 0) with 1; lra]).
  destruct (ag_sin F e OK b _ Hb) as [SB CB]. set (sb := f_sin F b) in *. set (cb := f_cos F b) in *. set (sv := l_sin _ _) in *. set (cv := l_cos _ _) in *. clearbody sb cb sv cv.
  assert (Y := rb_mul _ _ _ _ _ _ S' CB ltac:(lia)). rewrite Rmult_0_l, rd_0 in Y.
  assert (M1 := rb_mul _ _ _ _ _ _ SB CB ltac:(lia)). assert (M2 := rb_mul _ _ _ _ _ _ CB SB ltac:(lia)). rewrite (Rmult_comm cv sv) in M2.
  assert (M3 := rb_mul _ _ _ _ _ _ M2 C' ltac:(lia)). rewrite Rmult_1_r in M3. rewrite (rd_id (rd (sv * cv))) in M3 by apply fmt_rd.
  assert (X := rb_sub _ _ _ _ _ _ M1 M3 ltac:(lia)). rewrite Rminus_diag_eq, rd_0 in X by easy.
  rewrite (rep_eqb _ _ _ _ (proj1 X) fz0), (rep_eqb _ _ _ _ (proj1 Y) fz0), rd_0. destruct (Reqb_spec 0 0) as [_|N]; [|easy]. cbn [negb orb]. split; reflexivity.
Qed.
(** the position angle with a null vector is exactly zero *)
Theorem C99_palDpav : forall v w, vz0 v -> let r := @palDpav f64 (FA F) v w in ffin r = true /\ fval r = 0.
Proof.
  intros v w H r. unfold r, palDpav, eraPap. clear r.
  destruct (@eraPn f64 (FA F) v) as [am au] eqn:EP.
  assert (A : fval am = 0 /\ ffin am = true).
  { assert (K := C99_palDvn v H). unfold palDvn in K. rewrite EP in K. cbn [fst snd] in K. tauto. }
  cbn [fst snd]. fops. cbv zeta.
  rewrite (rep_eqb am (flit 0) 0 (rd 0) (conj (proj2 A) (proj1 A)) fz0), rd_0. destruct (Reqb_spec 0 0) as [_|N]; [|easy]. cbn [orb].
  assert (V1 : fval (flit 1) = 1).
  { destruct (rb_lit 1 1) as [[_ K] _]; [rlit; apply Rabs_le; cbn; lra|lia|]. rewrite K. replace (litR 1) with 1 by (rlit; lra). apply rdZ. cbn. lia. }
  split; [now apply (lo_at_fin F e OK)|]. apply (lo_at_pos F e OK); [reflexivity|rewrite V1; lra].
Qed.
End F.

(** the correctly rounding libm of C94 qualifies, and there are null vectors of mixed signs *)
Lemma Fcr_zero : libm_zero Fcr.
Proof.
  constructor; intros a Z A; unfold Fcr, f_sin, f_cos, cr1; rewrite A, Z.
  - rewrite sin_0, rd_0. exact (of_real_rep 0 double0).
  - rewrite cos_0, (rdZ 1) by (cbn; lia). apply (of_real_rep 1). assert (K := rb_lit 1 1). replace (litR 1) with 1 in K by (rlit; lra). rewrite (rdZ 1) in K by (cbn; lia).
    eapply rep_double, K; [rewrite Rabs_R1; change (bpow radix2 1) with 2; lra|lia].
Qed.
Example C99_eg : let v := V (Zero true) (Zero false) (Zero true) in vz0 v /\ fmat (@palDav2m f64 (FA Fcr) v) = mid /\
  fval (@palDbear f64 (FA Fcr) (flit 1) fpi (flit 1) fpi) = 0.
Proof.
  intros v. assert (H : vz0 v) by (split; [repeat split|reflexivity]). split; [exact H|].
  split; [apply (C99_palDav2m Fcr 2.3e-16 ltac:(lra) Fcr_zero v H)|apply (C99_palDbear_self Fcr 2.3e-16 Fcr_ok Fcr_zero); reflexivity].
Qed.
