(** * Exact algebra of binary64: commutativity, signs *)
From Coq Require Import Reals ZArith Lra Lia Bool.
From Flocq Require Import Core IEEE754.BinarySingleNaN.
From Verif Require Import Num NumR NumD NumF.
Local Open Scope Z_scope.

(** the same datum, but for the sign of a zero *)
Definition eq0 (a b : f64) : Prop := a = b \/ exists s t, a = Zero s /\ b = Zero t.
Lemma eq0_refl : forall a, eq0 a a. Proof. now left. Qed.
Lemma eq0_sym : forall a b, eq0 a b -> eq0 b a.
Proof. intros a b [->|(s & t & -> & ->)]; [now left|right; now exists t, s]. Qed.
Lemma eq0_trans : forall a b c, eq0 a b -> eq0 b c -> eq0 a c.
Proof. intros a b c [->|(s & t & -> & ->)] H; [easy|]. destruct H as [<-|(s' & t' & E & ->)]; right; [now exists s, t|now exists s, t']. Qed.
Lemma eq0_val : forall a b, eq0 a b -> fval a = fval b /\ ffin a = ffin b.
Proof. intros a b [->|(s & t & -> & ->)]; now split. Qed.

Lemma SF2B_eq : forall x y Hx Hy, x = y -> @SF2B 53 1024 x Hx = SF2B y Hy.
Proof. intros x y Hx Hy E. apply B2SF_inj. now rewrite !B2SF_SF2B. Qed.
Lemma round_opp : forall s m e l, @binary_round_aux 53 1024 mode_NE (negb s) m e l = SpecFloat.SFopp (@binary_round_aux 53 1024 mode_NE s m e l).
Proof.
  intros s m e l. unfold binary_round_aux. destruct (SpecFloat.shr_fexp _ _ m e l) as [r1 e1]. unfold choice_mode. destruct (SpecFloat.shr_fexp _ _ _ e1 _) as [r2 e2].
  destruct (SpecFloat.shr_m r2) as [|p|p]; [reflexivity| |reflexivity]. unfold binary_fit_aux, binary_overflow, overflow_to_inf. destruct (Z.leb _ _); reflexivity.
Qed.
Lemma SF2B_opp : forall x y Hx Hy, x = SpecFloat.SFopp y -> @SF2B 53 1024 x Hx = Bopp (SF2B y Hy).
Proof. intros x y Hx Hy E. apply B2SF_inj. rewrite B2SF_SF2B, E. destruct y as [s|s| |s m e]; reflexivity. Qed.

Lemma fmul_comm : forall a b : f64, Bmult mode_NE a b = Bmult mode_NE b a.
Proof.
  intros [s|s| |s m e h] [s'|s'| |s' m' e' h']; [try reflexivity; cbn; now rewrite xorb_comm..|].
  apply SF2B_eq. rewrite xorb_comm, Pos.mul_comm, Z.add_comm. reflexivity.
Qed.
Lemma fadd_comm : forall a b : f64, Bplus mode_NE a b = Bplus mode_NE b a.
Proof.
  intros [s|s| |s m e h] [s'|s'| |s' m' e' h']; [try reflexivity; destruct s, s'; reflexivity..|].
  unfold Bplus. cbv zeta. rewrite (Z.min_comm e' e). f_equal. unfold Fplus_naive. apply Z.add_comm.
Qed.
Lemma fsub_opp : forall a b : f64, Bminus mode_NE a b = Bplus mode_NE a (Bopp b).
Proof. intros [s|s| |s m e h] [s'|s'| |s' m' e' h']; reflexivity. Qed.
Lemma fopp_invol : forall a : f64, Bopp (Bopp a) = a.
Proof. intros [s|s| |s m e h]; cbn; rewrite ?negb_involutive; reflexivity. Qed.
Lemma fmul_opp_l : forall a b : f64, Bmult mode_NE (Bopp a) b = Bopp (Bmult mode_NE a b).
Proof.
  intros [s|s| |s m e h] [s'|s'| |s' m' e' h']; [try reflexivity; cbn; now destruct s, s'..|].
  apply SF2B_opp. rewrite <- round_opp. f_equal. now destruct s, s'.
Qed.
Lemma fmul_opp_r : forall a b : f64, Bmult mode_NE a (Bopp b) = Bopp (Bmult mode_NE a b).
Proof. intros a b. now rewrite fmul_comm, fmul_opp_l, fmul_comm. Qed.
Lemma fmul_opp_opp : forall a b : f64, Bmult mode_NE (Bopp a) (Bopp b) = Bmult mode_NE a b.
Proof. intros a b. now rewrite fmul_opp_l, fmul_opp_r, fopp_invol. Qed.
Lemma fdiv_opp_l : forall a b : f64, Bdiv mode_NE (Bopp a) b = Bopp (Bdiv mode_NE a b).
Proof.
  intros [s|s| |s m e h] [s'|s'| |s' m' e' h']; [try reflexivity; cbn; now destruct s, s'..|].
  apply SF2B_opp. destruct (SpecFloat.SFdiv_core_binary _ _ _ _ _ _) as [[q e1] l]. rewrite <- round_opp. f_equal. now destruct s, s'.
Qed.
Lemma fdiv_opp_r : forall a b : f64, Bdiv mode_NE a (Bopp b) = Bopp (Bdiv mode_NE a b).
Proof.
  intros [s|s| |s m e h] [s'|s'| |s' m' e' h']; [try reflexivity; cbn; now destruct s, s'..|].
  apply SF2B_opp. destruct (SpecFloat.SFdiv_core_binary _ _ _ _ _ _) as [[q e1] l]. rewrite <- round_opp. f_equal. now destruct s, s'.
Qed.
Lemma norm_opp : forall m e z, m <> 0 -> binary_normalize 53 1024 p53 lt_emax mode_NE (- m) e z = Bopp (binary_normalize 53 1024 p53 lt_emax mode_NE m e z).
Proof.
  intros [|p|p] e z H; [easy| |]; cbn [Z.opp binary_normalize]; apply SF2B_opp; unfold binary_round; destruct (shl_align_fexp _ _ _ _) as [q e1]; [exact (round_opp false _ _ _)|exact (round_opp true _ _ _)].
Qed.
(** the sum of opposites is the opposite of the sum, unless the sum is an exact zero *)
Lemma fadd_opp : forall a b : f64, eq0 (Bplus mode_NE (Bopp a) (Bopp b)) (Bopp (Bplus mode_NE a b)).
Proof.
  intros [s|s| |s m e h] [s'|s'| |s' m' e' h']; [try (left; reflexivity); destruct s, s'; (left; reflexivity) || (right; eexists; eexists; split; reflexivity)..|].
  change (Bopp (B754_finite s m e h)) with (@B754_finite 53 1024 (negb s) m e h). change (Bopp (B754_finite s' m' e' h')) with (@B754_finite 53 1024 (negb s') m' e' h'). unfold Bplus. cbv zeta. unfold Fplus_naive. set (x := Z.pos (fst _)). set (y := Z.pos (fst _)).
  assert (N : forall (b : bool) k, cond_Zopp (negb b) k = - cond_Zopp b k) by (intros [] k; cbn; lia). rewrite !N.
  replace (- cond_Zopp s x + - cond_Zopp s' y) with (- (cond_Zopp s x + cond_Zopp s' y)) by lia. generalize (cond_Zopp s x + cond_Zopp s' y) as k. intros k.
  destruct (Z.eq_dec k 0) as [->|H]; [right; cbn; repeat eexists|left; now apply norm_opp].
Qed.
Lemma eq0_opp : forall a b, eq0 a b -> eq0 (Bopp a) (Bopp b).
Proof. intros a b [->|(s & t & -> & ->)]; [now left|right; now exists (negb s), (negb t)]. Qed.
Lemma eq0_add : forall a a' b b', eq0 a a' -> eq0 b b' -> eq0 (Bplus mode_NE a b) (Bplus mode_NE a' b').
Proof.
  assert (K : forall a b b', eq0 b b' -> eq0 (Bplus mode_NE a b) (Bplus mode_NE a b')).
  { intros a b b' [->|(s & t & -> & ->)]; [now left|]. destruct a as [u|u| |u m e h]; try (now left). right. unfold Zero. cbn. destruct u, s, t; repeat eexists. }
  intros a a' b b' Ha Hb. apply eq0_trans with (Bplus mode_NE a b'); [now apply K|]. rewrite (fadd_comm a), (fadd_comm a'). now apply K.
Qed.
Lemma eq0_mul : forall a a' b b', eq0 a a' -> eq0 b b' -> eq0 (Bmult mode_NE a b) (Bmult mode_NE a' b').
Proof.
  assert (K : forall a b b', eq0 b b' -> eq0 (Bmult mode_NE a b) (Bmult mode_NE a b')).
  { intros a b b' [->|(s & t & -> & ->)]; [now left|]. destruct a as [u|u| |u m e h]; try (now left); right; unfold Zero; cbn; repeat eexists. }
  intros a a' b b' Ha Hb. apply eq0_trans with (Bmult mode_NE a b'); [now apply K|]. rewrite (fmul_comm a), (fmul_comm a'). now apply K.
Qed.
Lemma eq0_sub : forall a a' b b', eq0 a a' -> eq0 b b' -> eq0 (Bminus mode_NE a b) (Bminus mode_NE a' b').
Proof. intros. rewrite !fsub_opp. apply eq0_add; [easy|now apply eq0_opp]. Qed.
(** a quotient depends on the sign of a zero only when the divisor is zero *)
Lemma eq0_div : forall a a' b, eq0 a a' -> eq0 (Bdiv mode_NE a b) (Bdiv mode_NE a' b).
Proof. intros a a' b [->|(s & t & -> & ->)]; [now left|]. destruct b as [u|u| |u m e h]; unfold Zero; cbn; (now left) || (right; repeat eexists). Qed.
Lemma fsub_swap : forall a b : f64, eq0 (Bminus mode_NE b a) (Bopp (Bminus mode_NE a b)).
Proof. intros a b. rewrite !fsub_opp. apply eq0_trans with (Bplus mode_NE (Bopp a) (Bopp (Bopp b))); [|apply fadd_opp]. rewrite fopp_invol, fadd_comm. now left. Qed.
Lemma fsub_opp_opp : forall a b : f64, eq0 (Bminus mode_NE (Bopp a) (Bopp b)) (Bopp (Bminus mode_NE a b)).
Proof. intros a b. rewrite !fsub_opp. apply fadd_opp. Qed.
(** squares *)
Lemma sqr_eq0 : forall a b, eq0 a b -> Bmult mode_NE a a = Bmult mode_NE b b.
Proof. intros a b [->|(s & t & -> & ->)]; [easy|]. now destruct s, t. Qed.
Lemma sqr_opp : forall a b, eq0 a (Bopp b) -> Bmult mode_NE a a = Bmult mode_NE b b.
Proof. intros a b H. rewrite (sqr_eq0 _ _ H). apply fmul_opp_opp. Qed.
(** comparisons do not see the sign of zero *)
Lemma eqb_eq0 : forall a b c : f64, eq0 a b -> Beqb a c = Beqb b c.
Proof. intros a b c [->|(s & t & -> & ->)]; [easy|]. now destruct c. Qed.
Lemma eqb0_opp : forall (a : f64) s, Beqb (Bopp a) (Zero s) = Beqb a (Zero s).
Proof. intros [u|u| |u m e h] s; try reflexivity; now destruct u. Qed.
Lemma ltb_opp : forall a b : f64, Bltb (Bopp a) (Bopp b) = Bltb b a.
Proof.
  intros a b. destruct (is_finite a) eqn:Fa; [destruct (is_finite b) eqn:Fb|].
  - rewrite !Bltb_correct by (rewrite ?is_finite_Bopp; assumption). rewrite !B2R_Bopp. apply Rlt_bool_opp.
  - destruct a as [s|s| |s m e h], b as [s'|s'| |s' m' e' h']; try discriminate; try reflexivity; now destruct s, s'.
  - destruct a as [s|s| |s m e h], b as [s'|s'| |s' m' e' h']; try discriminate; try reflexivity; now destruct s, s'.
Qed.
Lemma fmod_opp : forall a b : f64, ffmod (Bopp a) b = Bopp (ffmod a b).
Proof.
  intros [s|s| |s m e h] [s'|s'| |s' m' e' h']; [reflexivity..|]. change (Bopp (B754_finite s m e h)) with (@B754_finite 53 1024 (negb s) m e h). unfold ffmod. cbv zeta.
  assert (N : forall (b : bool) k, cond_Zopp (negb b) k = - cond_Zopp b k) by (intros [] k; cbn; lia). rewrite N.
  rewrite Z.mul_opp_l. rewrite Z.rem_opp_l'. destruct (Z.eq_dec (Z.rem (cond_Zopp s (Z.pos m) * 2 ^ (e - Z.min e e')) (cond_Zopp s' (Z.pos m') * 2 ^ (e' - Z.min e e'))) 0) as [->|H].
  - reflexivity.
  - rewrite <- norm_opp by easy. destruct (Z.rem _ _); [easy|reflexivity..].
Qed.
Lemma fabs_opp : forall a : f64, Babs (Bopp a) = Babs a.
Proof. now intros []. Qed.
Lemma fopp_nan : forall a : f64, ffin a = false -> ffin (Bopp a) = false.
Proof. now intros []. Qed.
