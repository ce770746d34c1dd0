(** * C102: symmetries that hold to the last bit on binary64, for every datum *)
From Coq Require Import Reals ZArith Lra Lia Bool Ascii String List.
From Flocq Require Import Core IEEE754.BinarySingleNaN.
From Verif Require Import Num NumR NumD NumF NumFSym Geom Erfa M_Sphere M_Linear M_Time M_Refr.
From Verif Require Props_Ieee.

(** ** Specification *)
Notation fvec3 := (vec f64). Notation fmat3 := (mat f64).
Definition neg3 (v : fvec3) : fvec3 := V (Bopp (vx v)) (Bopp (vy v)) (Bopp (vz v)).
Definition flipx (v : fvec3) : fvec3 := V (Bopp (vx v)) (vy v) (vz v).
Definition flipy (v : fvec3) : fvec3 := V (vx v) (Bopp (vy v)) (vz v).
Definition flipz (v : fvec3) : fvec3 := V (vx v) (vy v) (Bopp (vz v)).
Definition swapxy (v : fvec3) : fvec3 := V (vy v) (vx v) (vz v).
Definition transp (m : fmat3) : fmat3 :=
  M (V (vx (m0 m)) (vx (m1 m)) (vx (m2 m))) (V (vy (m0 m)) (vy (m1 m)) (vy (m2 m))) (V (vz (m0 m)) (vz (m1 m)) (vz (m2 m))).
(** equal but for the signs of zeros *)
Definition veq0 (v w : fvec3) : Prop := eq0 (vx v) (vx w) /\ eq0 (vy v) (vy w) /\ eq0 (vz v) (vz w).
(** a libm whose sin is odd, cos even and atan2 odd in its first argument, to the last bit *)
Record libm_sym (F : FLibm) : Prop := {
  ls_sin : forall x, f_sin F (Bopp x) = Bopp (f_sin F x);
  ls_cos : forall x, f_cos F (Bopp x) = f_cos F x;
  ls_atan2 : forall y x, f_atan2 F (Bopp y) x = Bopp (f_atan2 F y x) }.

Ltac fops := cbn [add sub mul div opp ltb leb eqb fabs sqrt sin cos tan asin atan atan2 exp log sinh pow fmod floor ceil ofZ toZ lit pi FA].
Ltac fopsin H := cbn [add sub mul div opp ltb leb eqb fabs sqrt sin cos tan asin atan atan2 exp log sinh pow fmod floor ceil ofZ toZ lit pi FA] in H.
Lemma fadd_sub_opp : forall a b : f64, Bplus mode_NE a (Bopp b) = Bminus mode_NE a b. Proof. intros. now rewrite fsub_opp. Qed.
Lemma fsub_opp_r : forall a b : f64, Bminus mode_NE a (Bopp b) = Bplus mode_NE a b. Proof. intros. now rewrite fsub_opp, fopp_invol. Qed.
Ltac fsym := rewrite ?fmul_opp_l, ?fmul_opp_r, ?fdiv_opp_l, ?fopp_invol, ?fabs_opp, ?fadd_sub_opp, ?fsub_opp_r.

Local Strategy 1000 [eraSepp eraS2c].
Local Strategy 2000 [Bmult Bplus Bminus Bdiv Bsqrt flit ffmod Bltb Beqb].
Section AnyLibm.
Context (F : FLibm).
Notation A := (FA F).

(** the scalar product, the angle between two directions and the separation of two points do not depend on the order *)
Theorem C102_palDvdv : forall a b : fvec3, @palDvdv f64 A a b = @palDvdv f64 A b a.
Proof. intros a b. unfold palDvdv, eraPdp. fops. now rewrite (fmul_comm (vx a)), (fmul_comm (vy a)), (fmul_comm (vz a)). Qed.
Lemma pxp_swap : forall a b : fvec3, veq0 (@eraPxp f64 A b a) (neg3 (@eraPxp f64 A a b)).
Proof.
  intros a b. unfold veq0, eraPxp, neg3. cbn [vx vy vz]. fops. rewrite (fmul_comm (vy b)), (fmul_comm (vz b)), (fmul_comm (vx b)), (fmul_comm (vz b)), (fmul_comm (vx b)), (fmul_comm (vy b)).
  repeat split; apply fsub_swap.
Qed.
Theorem C102_palDvxv : forall a b : fvec3, veq0 (@palDvxv f64 A b a) (neg3 (@palDvxv f64 A a b)).
Proof. exact pxp_swap. Qed.
Lemma pm_neg : forall v w : fvec3, veq0 v (neg3 w) -> @eraPm f64 A v = @eraPm f64 A w.
Proof. intros v w (H1 & H2 & H3). unfold eraPm. fops. cbn [neg3 vx vy vz] in *. now rewrite (sqr_opp _ _ H1), (sqr_opp _ _ H2), (sqr_opp _ _ H3). Qed.
Lemma sepp_sym : forall v w : fvec3, @eraSepp f64 A v w = @eraSepp f64 A w v.
Proof.
  intros v w. unfold eraSepp. cbv zeta. rewrite (pm_neg _ _ (pxp_swap w v)). change (@eraPdp f64 A v w) with (@palDvdv f64 A v w).
  rewrite C102_palDvdv. reflexivity.
Qed.
Theorem C102_palDsepv : forall v w : fvec3, @palDsepv f64 A v w = @palDsepv f64 A w v.
Proof. exact sepp_sym. Qed.
Theorem C102_palDsep : forall a1 b1 a2 b2 : f64, @palDsep f64 A a1 b1 a2 b2 = @palDsep f64 A a2 b2 a1 b1.
Proof. intros a1 b1 a2 b2. exact (sepp_sym (@eraS2c f64 A a1 b1) (@eraS2c f64 A a2 b2)). Qed.
(** nor does the angle change when both directions are reversed or mirrored *)
Theorem C102_palDsepv_neg : forall v w : fvec3, @palDsepv f64 A (neg3 v) (neg3 w) = @palDsepv f64 A v w /\
  @palDsepv f64 A (flipx v) (flipx w) = @palDsepv f64 A v w /\ @palDsepv f64 A (flipy v) (flipy w) = @palDsepv f64 A v w /\ @palDsepv f64 A (flipz v) (flipz w) = @palDsepv f64 A v w.
Proof.
  assert (S : forall v w v' w' : fvec3, @eraPdp f64 A v' w' = @eraPdp f64 A v w -> @eraPm f64 A (@eraPxp f64 A v' w') = @eraPm f64 A (@eraPxp f64 A v w) -> @palDsepv f64 A v' w' = @palDsepv f64 A v w).
  { intros v w v' w' H1 H2. unfold palDsepv, eraSepp. cbv zeta. now rewrite H1, H2. }
  assert (N : forall p q : f64, Bmult mode_NE (Bminus mode_NE (Bopp p) (Bopp q)) (Bminus mode_NE (Bopp p) (Bopp q)) = Bmult mode_NE (Bminus mode_NE p q) (Bminus mode_NE p q)) by (intros; apply sqr_opp, fsub_opp_opp).
  intros v w. repeat split; apply S; unfold eraPdp, eraPm, eraPxp, neg3, flipx, flipy, flipz; cbn [vx vy vz]; fops; rewrite ?fmul_opp_opp, ?fmul_opp_l, ?fmul_opp_r, ?fopp_invol, ?N; reflexivity.
Qed.
(** the unit vector of the reversed vector is reversed, its modulus the same *)
Theorem C102_palDvn : forall v : fvec3, let '(u, m) := @palDvn f64 A v in let '(u', m') := @palDvn f64 A (neg3 v) in m' = m /\ veq0 u' (neg3 u).
Proof.
  intros v. unfold palDvn, eraPn. cbv zeta. rewrite (pm_neg (neg3 v) v) by (repeat split; apply eq0_refl).
  set (w := @eraPm f64 A v). destruct (@eqb f64 A w _); cbn [fst snd]; (split; [reflexivity|]).
  - unfold veq0, eraZp, neg3. cbn [vx vy vz]. repeat split; right; eexists; eexists; split; reflexivity.
  - unfold veq0, eraSxp, neg3. cbn [vx vy vz]. fops. rewrite !fmul_opp_r. repeat split; apply eq0_refl.
Qed.
(** a matrix applied to the reversed vector gives the reversed result *)
Lemma row_dot_neg : forall r v : fvec3, eq0 (@row_dot f64 A r (neg3 v)) (Bopp (@row_dot f64 A r v)).
Proof.
  intros r v. unfold row_dot, neg3. cbn [vx vy vz]. fops. rewrite !fmul_opp_r.
  eapply eq0_trans; [|apply fadd_opp]. apply eq0_add; [|apply eq0_refl]. eapply eq0_trans; [|apply fadd_opp]. apply eq0_add; [|apply eq0_refl].
  eapply eq0_trans; [|apply fadd_opp]. apply eq0_add; [|apply eq0_refl]. right. eexists. eexists. split; reflexivity.
Qed.
Theorem C102_palDmxv : forall (m : fmat3) (v : fvec3), veq0 (@palDmxv f64 A m (neg3 v)) (neg3 (@palDmxv f64 A m v)) /\ veq0 (@palDimxv f64 A m (neg3 v)) (neg3 (@palDimxv f64 A m v)).
Proof. intros m v. unfold palDimxv, eraTrxp, palDmxv, eraRxp. repeat split; apply row_dot_neg. Qed.
(** the transpose of a product is the product of the transposes; palDimxv is palDmxv of the transpose *)
Theorem C102_palDmxm : forall a b : fmat3, @palDmxm f64 A (transp b) (transp a) = transp (@palDmxm f64 A a b).
Proof.
  intros [[a b c] [d e f] [g h i]] [[a' b' c'] [d' e' f'] [g' h' i']]. unfold palDmxm, eraRxr, row_mul, transp. cbn [vx vy vz m0 m1 m2]. fops.
  assert (C := fmul_comm). f_equal; f_equal; (f_equal; [|apply C]); (f_equal; [|apply C]); f_equal; apply C.
Qed.
Theorem C102_palDimxv : forall (m : fmat3) (v : fvec3), @palDimxv f64 A m v = @palDmxv f64 A (transp m) v.
Proof. reflexivity. Qed.
(** the rotation matrix of the reversed rotation vector is the transpose; the rotation vector of the transpose is reversed *)
Lemma pm_negv : forall x y z : f64, Bsqrt mode_NE (Bplus mode_NE (Bplus mode_NE (Bmult mode_NE (Bopp x) (Bopp x)) (Bmult mode_NE (Bopp y) (Bopp y))) (Bmult mode_NE (Bopp z) (Bopp z))) =
  Bsqrt mode_NE (Bplus mode_NE (Bplus mode_NE (Bmult mode_NE x x) (Bmult mode_NE y y)) (Bmult mode_NE z z)).
Proof. intros. now rewrite !fmul_opp_opp. Qed.
Theorem C102_palDav2m : forall v : fvec3, @palDav2m f64 A (neg3 v) = transp (@palDav2m f64 A v).
Proof.
  intros [x y z]. unfold palDav2m, eraRv2m, neg3, transp. cbn [vx vy vz]. fops. rewrite pm_negv. set (phi := Bsqrt _ _). cbv zeta. cbn [m0 m1 m2].
  assert (E : (if Bltb (flit 0) phi then V (Bdiv mode_NE (Bopp x) phi) (Bdiv mode_NE (Bopp y) phi) (Bdiv mode_NE (Bopp z) phi) else V (Bopp x) (Bopp y) (Bopp z)) =
    neg3 (if Bltb (flit 0) phi then V (Bdiv mode_NE x phi) (Bdiv mode_NE y phi) (Bdiv mode_NE z phi) else V x y z)).
  { destruct (Bltb _ _); unfold neg3; cbn [vx vy vz]; rewrite ?fdiv_opp_l; reflexivity. }
  rewrite E. clear E. set (u := if Bltb (flit 0) phi then V (Bdiv mode_NE x phi) (Bdiv mode_NE y phi) (Bdiv mode_NE z phi) else V x y z). clearbody u. destruct u as [p q r]. unfold neg3. cbn [vx vy vz]. rewrite !fmul_opp_opp, !fmul_opp_l, !fadd_sub_opp, !fsub_opp_r.
  rewrite (fmul_comm q p), (fmul_comm r p), (fmul_comm r q). reflexivity.
Qed.
Theorem C102_palDm2av : forall r : fmat3, veq0 (@palDm2av f64 A (transp r)) (neg3 (@palDm2av f64 A r)).
Proof.
  intros [[a b c] [d e f] [g h i]]. unfold palDm2av, eraRm2v, transp. cbn [vx vy vz m0 m1 m2]. fops. cbv zeta.
  rewrite (sqr_opp _ _ (fsub_swap f h)), (sqr_opp _ _ (fsub_swap g c)), (sqr_opp _ _ (fsub_swap b d)). destruct (Bltb _ _).
  - unfold veq0, neg3. cbn [vx vy vz]. rewrite <- !fmul_opp_l. repeat split; (apply eq0_mul; [apply fsub_swap|apply eq0_refl]).
  - unfold veq0, neg3. cbn [vx vy vz]. repeat split; right; eexists; eexists; split; reflexivity.
Qed.
(** the angle reduced to +-pi is odd *)
Lemma pi_excl : forall w : f64, Bltb fpi w = true -> Bltb w (Bopp fpi) = false.
Proof.
  intros w H. destruct (is_finite w) eqn:Fw.
  - rewrite Bltb_correct in * by (easy || reflexivity). rewrite B2R_Bopp. apply Rlt_bool_false. destruct (Rlt_bool_spec (B2R fpi) (B2R w)) as [K|]; [|discriminate].
    assert (P : (0 < fval fpi)%R) by (destruct rep_pi as [_ ->]; rewrite rd_PI; unfold PI64; lra). unfold fval in P. lra.
  - destruct w as [s|s| |s m e h]; try discriminate. now destruct s.
Qed.
Theorem C102_palDrange : forall a : f64, eq0 (@palDrange f64 A (Bopp a)) (Bopp (@palDrange f64 A a)).
Proof.
  intros a. unfold palDrange. fops. rewrite fmod_opp. set (w := ffmod a _). clearbody w. cbv zeta. set (T := @D2PI f64 A). clearbody T.
  assert (L1 : Bltb fpi (Bopp w) = Bltb w (Bopp fpi)) by (rewrite <- (fopp_invol fpi) at 1; apply ltb_opp).
  rewrite L1, ltb_opp. destruct (Bltb fpi w) eqn:E1.
  - rewrite (pi_excl w E1). rewrite fsub_opp. eapply eq0_trans; [|apply fadd_opp]. rewrite fopp_invol. apply eq0_refl.
  - destruct (Bltb w (Bopp fpi)); [|apply eq0_refl]. rewrite fsub_opp. apply fadd_opp.
Qed.
(** the air mass is even in the zenith distance *)
Theorem C102_palAirmas : forall z : f64, @palAirmas f64 A (Bopp z) = @palAirmas f64 A z.
Proof. intros z. unfold palAirmas. fops. now rewrite fabs_opp. Qed.
(** radial distortion commutes with the reversal of either axis and with their exchange *)
Theorem C102_palPcd : forall k x y : f64, let '(p, q) := @palPcd f64 A k x y in
  @palPcd f64 A k (Bopp x) y = (Bopp p, q) /\ @palPcd f64 A k x (Bopp y) = (p, Bopp q) /\ @palPcd f64 A k y x = (q, p).
Proof.
  intros k x y. unfold palPcd. fops. cbv zeta. rewrite !fmul_opp_opp, !fmul_opp_l. rewrite (fadd_comm (Bmult mode_NE y y)). now repeat split.
Qed.
(** refraction has no preferred azimuth: it commutes with the reversal of either horizontal axis and with their exchange *)
Theorem C102_palRefv : forall (v : fvec3) (a b : f64), let r := @palRefv f64 A v a b in
  @palRefv f64 A (flipx v) a b = flipx r /\ @palRefv f64 A (flipy v) a b = flipy r /\ @palRefv f64 A (swapxy v) a b = swapxy r.
Proof.
  intros [x y z] a b r. unfold r, palRefv, flipx, flipy, swapxy. cbn [vx vy vz]. fops. cbv zeta. cbn [vx vy vz]. rewrite !fmul_opp_opp, !fmul_opp_l, (fadd_comm (Bmult mode_NE y y)). now repeat split.
Qed.
(** sexagesimal fields do not depend on the sign; the sign is that of a non-zero argument *)
Theorem C102_palDd2tf : forall (n : Z) (d : f64), snd (@palDd2tf f64 A n (Bopp d)) = snd (@palDd2tf f64 A n d) /\
  snd (@palDr2tf f64 A n (Bopp d)) = snd (@palDr2tf f64 A n d) /\ snd (@palDr2af f64 A n (Bopp d)) = snd (@palDr2af f64 A n d) /\
  (fval d <> 0%R -> fst (@palDd2tf f64 A n (Bopp d)) = negb (fst (@palDd2tf f64 A n d))).
Proof.
  intros n d. unfold palDr2tf, palDr2af, eraA2tf, eraA2af, palDd2tf.
  assert (S : forall x : f64, snd (@eraD2tf f64 A n (Bopp x)) = snd (@eraD2tf f64 A n x)) by (intros x; unfold eraD2tf; cbv zeta; cbn [snd fabs FA]; now rewrite fabs_opp).
  cbn [div mul FA]. rewrite fdiv_opp_l, fmul_opp_l. repeat split; try apply S. intros N. unfold eraD2tf. cbv zeta. cbn [fst leb lit FA].
  destruct d as [s|s| |s m e h]; try (now elim N). now destruct s.
Qed.
End AnyLibm.

(** the difference of opposites is exactly opposite when the arguments are not equal *)
Lemma fsub_opp_ne : forall a b : f64, Beqb a b = false -> Bminus mode_NE (Bopp a) (Bopp b) = Bopp (Bminus mode_NE a b).
Proof.
  intros [s|s| |s m e h] [s'|s'| |s' m' e' h'] H; [try reflexivity; try discriminate; destruct s, s'; try reflexivity; discriminate..|].
  change (Bopp (B754_finite s m e h)) with (@B754_finite 53 1024 (negb s) m e h). change (Bopp (B754_finite s' m' e' h')) with (@B754_finite 53 1024 (negb s') m' e' h').
  unfold Bminus. cbv zeta. assert (K := Fplus_naive_correct s m e (negb s') m' e' (Z.min e e') (Z.le_min_l _ _) (Z.le_min_r _ _)). cbv zeta in K.
  assert (E : Fplus_naive (negb s) m e (negb (negb s')) m' e' (Z.min e e') = (- Fplus_naive s m e (negb s') m' e' (Z.min e e'))%Z).
  { unfold Fplus_naive. assert (N : forall (b : bool) k, cond_Zopp (negb b) k = (- cond_Zopp b k)%Z) by (intros [] k; cbn; lia). rewrite !N. lia. }
  rewrite E. apply norm_opp. intros Z0. rewrite Z0, F2R_0 in K. rewrite Beqb_correct in H by reflexivity. unfold B2R in H. 
  assert (N : F2R (Float radix2 (cond_Zopp (negb s') (Z.pos m')) e') = (- F2R (Float radix2 (cond_Zopp s' (Z.pos m')) e'))%R) by (rewrite <- F2R_Zopp; f_equal; f_equal; now destruct s').
  rewrite N in K. destruct (Req_bool_spec (F2R (Float radix2 (cond_Zopp s (Z.pos m)) e)) (F2R (Float radix2 (cond_Zopp s' (Z.pos m')) e'))) as [|D]; [discriminate|]. lra.
Qed.

Section SymLibm.
Context (F : FLibm) (HF : libm_sym F).
Notation A := (FA F).
Ltac lsym := rewrite ?(ls_sin F HF), ?(ls_cos F HF), ?(ls_atan2 F HF).

Ltac nrm := repeat first [rewrite fmul_opp_l | rewrite fmul_opp_r | rewrite fdiv_opp_l | rewrite fopp_invol | rewrite (ls_atan2 F HF)].
(** direction cosines *)
Theorem C102_palDcs2c : forall a b : f64, @palDcs2c f64 A (Bopp a) b = flipy (@palDcs2c f64 A a b) /\ @palDcs2c f64 A a (Bopp b) = flipz (@palDcs2c f64 A a b).
Proof. intros a b. unfold palDcs2c, eraS2c, flipy, flipz. cbn [vx vy vz]. fops. cbv zeta. cbn [vx vy vz]. lsym. rewrite fmul_opp_l. now split. Qed.
(** the separation is the same in a mirror *)
Theorem C102_palDsep_mirror : forall a1 b1 a2 b2 : f64, @palDsep f64 A (Bopp a1) b1 (Bopp a2) b2 = @palDsep f64 A a1 b1 a2 b2 /\
  @palDsep f64 A a1 (Bopp b1) a2 (Bopp b2) = @palDsep f64 A a1 b1 a2 b2.
Proof.
  intros a1 b1 a2 b2. destruct (C102_palDcs2c a1 b1) as [E1 E2]. destruct (C102_palDcs2c a2 b2) as [E3 E4]. unfold palDcs2c in *.
  destruct (C102_palDsepv_neg F (@eraS2c f64 A a1 b1) (@eraS2c f64 A a2 b2)) as (_ & _ & K1 & K2). unfold palDsepv in *. unfold palDsep, eraSeps.
  rewrite E1, E2, E3, E4. split; [exact K1|exact K2].
Qed.
(** spherical coordinates of a mirrored vector *)
Theorem C102_palDcc2s : forall v : fvec3, let '(a, b) := @palDcc2s f64 A v in
  (eq0 (fst (@palDcc2s f64 A (flipy v))) (Bopp a) /\ snd (@palDcc2s f64 A (flipy v)) = b) /\
  (fst (@palDcc2s f64 A (flipz v)) = a /\ eq0 (snd (@palDcc2s f64 A (flipz v))) (Bopp b)).
Proof.
  intros [x y z]. unfold palDcc2s, eraC2s, flipy, flipz. cbn [vx vy vz]. fops. cbv zeta. cbn [fst snd]. lsym. rewrite !fmul_opp_opp. change (flit 0) with (Zero false). rewrite eqb0_opp.
  assert (Z0 : eq0 (Zero false) (Bopp (Zero false))) by (right; eexists; eexists; split; reflexivity).
  repeat split; [destruct (Beqb (Bplus _ _ _) _)|destruct (Beqb z _)]; try exact Z0; apply eq0_refl.
Qed.
(** the parallactic angle is odd in the hour angle *)
Theorem C102_palPa : forall h d p : f64, @palPa f64 A (Bopp h) d p = Bopp (@palPa f64 A h d p).
Proof.
  intros h d p. unfold palPa. fops. cbv zeta. lsym. rewrite !fmul_opp_r. change (flit 0) with (Zero false). rewrite eqb0_opp. lsym. reflexivity.
Qed.
(** the elevation is even in the hour angle, the declination even and the hour angle odd in the azimuth *)
Theorem C102_palDe2h : forall h d p : f64, snd (@palDe2h f64 A (Bopp h) d p) = snd (@palDe2h f64 A h d p).
Proof. intros h d p. unfold palDe2h. fops. cbv zeta. cbn [snd]. lsym. nrm. reflexivity. Qed.
Theorem C102_palDh2e : forall a e p : f64, snd (@palDh2e f64 A (Bopp a) e p) = snd (@palDh2e f64 A a e p) /\
  eq0 (fst (@palDh2e f64 A (Bopp a) e p)) (Bopp (fst (@palDh2e f64 A a e p))).
Proof.
  intros a e p. unfold palDh2e. fops. cbv zeta. cbn [fst snd]. lsym. nrm. split; [reflexivity|].
  change (flit 0) with (Zero false). destruct (Beqb _ _); [right; eexists; eexists; split; reflexivity|]. nrm. apply eq0_refl.
Qed.
(** so do the rates and accelerations of palAltaz: the elevation, azimuth rate, elevation acceleration and rate of the
    parallactic angle are even in the hour angle, the others odd *)
Theorem C102_palAltaz : forall h d p : f64, let r := @palAltaz f64 A h d p in let r' := @palAltaz f64 A (Bopp h) d p in
  aa_el r' = aa_el r /\ aa_azd r' = aa_azd r /\ aa_eldd r' = aa_eldd r /\ aa_pad r' = aa_pad r /\
  aa_eld r' = Bopp (aa_eld r) /\ aa_azdd r' = Bopp (aa_azdd r) /\ aa_padd r' = Bopp (aa_padd r).
Proof.
  intros h d p r r'. unfold r, r', palAltaz. fops. cbv zeta. lsym. generalize (f_sin F h) (f_cos F h) (f_sin F d) (f_cos F d) (f_sin F p) (f_cos F p). clear r r'. intros sh ch sd cd sp cp.
  set (x := Bplus mode_NE (Bmult mode_NE (Bopp (Bmult mode_NE ch cd)) sp) _). set (z := Bplus mode_NE (Bmult mode_NE (Bmult mode_NE ch cd) cp) _). clearbody x z. rewrite !(fmul_opp_l (Bopp sh)), !fmul_opp_opp. set (y := Bmult mode_NE (Bopp sh) cd). clearbody y.
  destruct (Bltb _ (flit 1e-30)); cbn [aa_el aa_azd aa_eldd aa_pad aa_eld aa_azdd aa_padd]; rewrite ?(fmul_opp_r cp y), ?fdiv_opp_l, ?fdiv_opp_l, ?(fmul_opp_l (Bdiv _ _ _)); repeat split.
Qed.
(** the bearing of one point from another is reversed in a mirror *)
Theorem C102_palDbear : forall a1 b1 a2 b2 : f64, Beqb a2 a1 = false -> eq0 (@palDbear f64 A (Bopp a1) b1 (Bopp a2) b2) (Bopp (@palDbear f64 A a1 b1 a2 b2)).
Proof.
  intros a1 b1 a2 b2 N. unfold palDbear, eraPas. fops. cbv zeta. rewrite fsub_opp_ne by exact N. lsym. rewrite fmul_opp_l. change (flit 0) with (Zero false). rewrite eqb0_opp.
  destruct (_ || _); [lsym; apply eq0_refl|right; eexists; eexists; split; reflexivity].
Qed.
(** tangent plane: mirrored in right ascension, and in declination *)
Theorem C102_palDs2tp : forall ra dec raz decz : f64, let '(xi, eta, j) := @palDs2tp f64 A ra dec raz decz in
  (Beqb ra raz = false -> @palDs2tp f64 A (Bopp ra) dec (Bopp raz) decz = (Bopp xi, eta, j)) /\
  (let '(xi', eta', j') := @palDs2tp f64 A ra (Bopp dec) raz (Bopp decz) in xi' = xi /\ eq0 eta' (Bopp eta) /\ j' = j).
Proof.
  intros ra dec raz decz. unfold palDs2tp. fops. cbv zeta. lsym. rewrite !fmul_opp_opp, !fmul_opp_l.
  set (den := Bplus _ _ _). destruct (if Bltb (flit 1e-6) den then _ else _) as [j dn] eqn:E. split.
  - intros N. rewrite fsub_opp_ne by exact N. lsym. fold den. rewrite E. now rewrite fmul_opp_r, fdiv_opp_l.
  - rewrite !fmul_opp_r, fmul_opp_l. split; [reflexivity|split; [|reflexivity]]. rewrite <- fdiv_opp_l. apply eq0_div. apply fsub_opp_opp.
Qed.
(** geocentric coordinates of a place at the opposite latitude *)
Theorem C102_palGeoc : forall p h : f64, fst (@palGeoc f64 A (Bopp p) h) = fst (@palGeoc f64 A p h) /\ eq0 (snd (@palGeoc f64 A (Bopp p) h)) (Bopp (snd (@palGeoc f64 A p h))).
Proof.
  intros p h. unfold palGeoc, eraGd2gc_wgs84. fops. cbv zeta. lsym. rewrite !fmul_opp_r, !fmul_opp_l, fopp_invol.
  destruct (Bltb _ _); cbn [fst snd vx vy vz eraZp]; (split; [reflexivity|]).
  - rewrite <- fdiv_opp_l. apply eq0_refl.
  - rewrite <- fdiv_opp_l. apply eq0_div. right. eexists. eexists. split; reflexivity.
Qed.
End SymLibm.

(** ** Such libms exist, and the symmetries are not vacuous *)
Definition Fsym : FLibm :=
  let G := Props_Ieee.Fcr in
  MkFLibm (fun x => if Bsign x then Bopp (f_sin G (Bopp x)) else f_sin G x) (fun x => if Bsign x then f_cos G (Bopp x) else f_cos G x) (f_tan G) (f_asin G) (f_atan G)
    (fun y x => if Bsign y then Bopp (f_atan2 G (Bopp y) x) else f_atan2 G y x) (f_exp G) (f_log G) (f_sinh G) (f_pow G).
Lemma Fsym_sym : libm_sym Fsym.
Proof.
  constructor; intros x; [| |intros z; rename x into y; rename z into x].
  - cbn [Fsym f_sin]. destruct x as [s|s| |s m e h]; [..|]; try (cbn [Bopp Bsign]; destruct s; cbn [negb]; rewrite ?fopp_invol; reflexivity). reflexivity.
  - cbn [Fsym f_cos]. destruct x as [s|s| |s m e h]; [..|]; try (cbn [Bopp Bsign]; destruct s; cbn [negb]; rewrite ?fopp_invol; reflexivity). reflexivity.
  - cbn [Fsym f_atan2]. destruct y as [s|s| |s m e h]; [..|]; try (cbn [Bopp Bsign]; destruct s; cbn [negb]; rewrite ?fopp_invol; reflexivity). reflexivity.
Qed.
Example C102_eg : libm_sym Fsym /\ Beqb (flit 1) (flit 0) = false /\
  @palPa f64 (FA Fsym) (Bopp (flit 1)) (flit 0.5) (flit 0.7) = Bopp (@palPa f64 (FA Fsym) (flit 1) (flit 0.5) (flit 0.7)) /\
  B2SF (vz (@palDvxv f64 (FA Fsym) (V (flit 1) (flit 0) (flit 0)) (V (flit 0) (flit 3) (flit 0)))) = B2SF (flit 3) /\
  B2SF (vz (@palDvxv f64 (FA Fsym) (V (flit 0) (flit 3) (flit 0)) (V (flit 1) (flit 0) (flit 0)))) = B2SF (Bopp (flit 3)).
Proof.
  split; [exact Fsym_sym|]. split; [vm_compute; reflexivity|]. split; [apply C102_palPa; exact Fsym_sym|]. split; vm_compute; reflexivity.
Qed.
