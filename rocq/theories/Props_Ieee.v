(** * C94: the double-precision theorems hold of IEEE 754 binary64 itself: no overflow, no NaN *)
From Coq Require Import Reals ZArith Lra Lia Psatz Bool.
From Flocq Require Import Core IEEE754.BinarySingleNaN.
From Interval Require Import Tactic.
From Verif Require Import Num NumR NumD NumF NumDE Geom Erfa M_Sphere P_Sphere Props_Dangle Props_Dsep Props_Dsph Props_Dhor Props_Dtan Props_Dbear.
Local Open Scope R_scope.

(** ** What is asked of libm: finite arguments give finite results; sine and cosine within half a unit in the last place of
    1, the arctangent within [e]; zeros as the C standard has them (atan2 (-0, x) = - atan2 (+0, x)) *)
Record libm_ok (F : FLibm) (e : R) : Prop := {
  lo_sin : forall a, ffin a = true -> ffin (f_sin F a) = true /\ Rabs (fval (f_sin F a) - sinR (fval a)) <= u53;
  lo_cos : forall a, ffin a = true -> ffin (f_cos F a) = true /\ Rabs (fval (f_cos F a) - cosR (fval a)) <= u53;
  lo_trig0 : fval (f_sin F (Zero true)) = fval (f_sin F (Zero false)) /\ fval (f_cos F (Zero true)) = fval (f_cos F (Zero false));
  lo_at_fin : forall y x, ffin y = true -> ffin x = true -> ffin (f_atan2 F y x) = true;
  lo_at : forall y x, ffin y = true -> ffin x = true -> fval y <> 0 \/ y = Zero false /\ fval x <> 0 ->
    Rabs (fval (f_atan2 F y x) - atan2R (fval y) (fval x)) <= e;
  lo_at_x0 : forall y, fval y <> 0 -> fval (f_atan2 F y (Zero true)) = fval (f_atan2 F y (Zero false));
  lo_at_y0 : forall x, fval x <> 0 -> fval (f_atan2 F (Zero true) x) = - fval (f_atan2 F (Zero false) x);
  lo_at_pos : forall x, ffin x = true -> 0 < fval x -> fval (f_atan2 F (Zero false) x) = 0
}.

(** ** The binary64 datum of a value *)
Definition of_real (x : R) : f64 := binary_normalize 53 1024 p53 lt_emax mode_NE (Ztrunc (scaled_mantissa radix2 d64 x)) (cexp radix2 d64 x) false.
Lemma of_real_rep : forall x, is_double x -> rep (of_real x) x.
Proof.
  intros x D. assert (Fx := double_fmt x D). destruct D as [_ B].
  assert (E : x = IZR (Ztrunc (scaled_mantissa radix2 d64 x)) * bpow radix2 (cexp radix2 d64 x)) by exact Fx.
  assert (K := rep_norm (Ztrunc (scaled_mantissa radix2 d64 x)) (cexp radix2 d64 x) false). rewrite <- E in K. rewrite rd_id in K by easy.
  apply K. exact B.
Qed.
Lemma of_real_0 : of_real 0 = Zero false.
Proof. unfold of_real. rewrite scaled_mantissa_0. now rewrite Ztrunc_IZR. Qed.
Lemma rep_inj : forall a x, rep a x -> x <> 0 -> a = of_real x.
Proof.
  intros a x H N. assert (D := rep_double a x H). destruct (of_real_rep x D) as [F2 E2]. destruct H as [F1 E1].
  assert (St : forall b : f64, fval b = x -> ffin b = true -> is_finite_strict b = true).
  { intros b Eb Fb. destruct b as [s|s| |s m f h]; try discriminate; [|easy]. exfalso. apply N. now rewrite <- Eb. }
  apply B2R_inj; [now apply St|now apply St|]. unfold fval in *. congruence.
Qed.
Lemma rep_zero : forall a, rep a 0 -> a = Zero true \/ a = Zero false.
Proof.
  intros a [F E]. destruct a as [s|s| |s m f h]; try discriminate; [destruct s; tauto|].
  exfalso. unfold fval, B2R in E. apply eq_0_F2R in E. destruct s; discriminate.
Qed.
Lemma double0 : is_double 0. Proof. exact (rep_double (Zero false) 0 ltac:(now split)). Qed.

(** The real-valued libm behind a binary64 one (beyond the largest double, anything accurate) *)
Definition dbl_dec (x : R) : bool := if Rlt_dec (Rabs x) (bpow radix2 1024) then true else false.
Definition libm_of (F : FLibm) : Libm := MkLibm
  (fun x => if dbl_dec x then fval (f_sin F (of_real x)) else rd (sinR x))
  (fun x => if dbl_dec x then fval (f_cos F (of_real x)) else rd (cosR x))
  (fun x => fval (f_tan F (of_real x))) (fun x => fval (f_asin F (of_real x))) (fun x => fval (f_atan F (of_real x)))
  (fun y x => if dbl_dec x && dbl_dec y then fval (f_atan2 F (of_real y) (of_real x)) else rd (atan2R y x))
  (fun x => fval (f_exp F (of_real x))) (fun x => fval (f_log F (of_real x))) (fun x => fval (f_sinh F (of_real x)))
  (fun x y => fval (f_pow F (of_real x) (of_real y))).
Lemma dbl_true : forall x, is_double x -> dbl_dec x = true.
Proof. intros x [_ H]. unfold dbl_dec. now destruct (Rlt_dec _ _). Qed.
Lemma fmt_dbl : forall x, fmt x -> dbl_dec x = true -> is_double x.
Proof. intros x F H. unfold dbl_dec in H. destruct (Rlt_dec _ _) as [K|]; [|discriminate]. split; [now apply FLT_format_generic|easy]. Qed.

Section F.
Variables (F : FLibm) (e : R).
Hypothesis OK : libm_ok F e.
Hypothesis He : 2.3e-16 <= e <= 0.1.
Let L := libm_of F.
Lemma ag_sin : forall a x, rep a x -> repb (f_sin F a) (l_sin L x) 1 /\ repb (f_cos F a) (l_cos L x) 1.
Proof.
  intros a x H. assert (D := rep_double a x H). assert (T := dbl_true x D).
  assert (G : rep (f_sin F a) (l_sin L x) /\ rep (f_cos F a) (l_cos L x)).
  { unfold L, libm_of; cbn [l_sin l_cos]. rewrite T. destruct (Req_dec x 0) as [->|N].
    - rewrite of_real_0. destruct (lo_trig0 F e OK) as [Z1 Z2]. destruct (rep_zero a H) as [->| ->]; (split; [split; [now apply (lo_sin F e OK)|easy]|split; [now apply (lo_cos F e OK)|easy]]).
    - rewrite <- (rep_inj a x H N). destruct H as [H _]. split; (split; [|easy]); [now apply (lo_sin F e OK)|now apply (lo_cos F e OK)]. }
  destruct G as [[F1 E1] [F2 E2]].
  assert (B : forall z w, Rabs (z - w) <= u53 -> -1 <= w <= 1 -> Rabs z <= bpow radix2 1).
  { intros z w K W. apply Rabs_le_inv in K. change (bpow radix2 1) with 2. unfold u53 in K. apply Rabs_le. lra. }
  destruct H as [H Ex]. split; (split; [now split|]); [rewrite <- E1|rewrite <- E2].
  - destruct (lo_sin F e OK a H) as [_ K]. apply (B _ _ K). apply SIN_bound.
  - destruct (lo_cos F e OK a H) as [_ K]. apply (B _ _ K). apply COS_bound.
Qed.
Lemma ag_trig_acc : trig_acc L u53.
Proof.
  intros x Fx. unfold L, libm_of; cbn [l_sin l_cos]. destruct (dbl_dec x) eqn:T.
  - assert (D := fmt_dbl x Fx T). destruct (of_real_rep x D) as [H1 H2]. split.
    + destruct (lo_sin F e OK _ H1) as [_ K]. now rewrite H2 in K.
    + destruct (lo_cos F e OK _ H1) as [_ K]. now rewrite H2 in K.
  - split; apply (Lcr_trig x Fx).
Qed.
Lemma ag_atan2_acc : atan2_acc L e.
Proof.
  intros y x Fy Fx N. unfold L, libm_of; cbn [l_atan2]. destruct (dbl_dec x) eqn:T1; [destruct (dbl_dec y) eqn:T2|]; cbn [andb].
  - assert (D1 := fmt_dbl x Fx T1). assert (D2 := fmt_dbl y Fy T2). destruct (of_real_rep x D1) as [X1 X2]. destruct (of_real_rep y D2) as [Y1 Y2].
    assert (K := lo_at F e OK _ _ Y1 X1). rewrite X2, Y2 in K. apply K. destruct (Req_dec y 0) as [->|Ny]; [|now left].
    right. split; [apply of_real_0|]. destruct N as [N|N]; [now destruct N|easy].
  - eapply Rle_trans; [apply (Lcr_atan2 y x Fy Fx N)|lra].
  - eapply Rle_trans; [apply (Lcr_atan2 y x Fy Fx N)|lra].
Qed.
Lemma ag_atan2_dbl : atan2_dbl L.
Proof.
  intros y x Fy Fx. unfold L, libm_of; cbn [l_atan2]. destruct (_ && _)%bool; [apply generic_format_B2R|apply fmt_rd].
Qed.
Lemma ag_trig_dbl : trig_dbl L.
Proof.
  intros x Fx. unfold L, libm_of; cbn [l_sin l_cos]. destruct (dbl_dec x); split; try apply generic_format_B2R; apply fmt_rd.
Qed.
(** The arctangent of two data is that of their values, except that a negative zero changes the sign of pi *)
Lemma ag_atan2 : forall a b y x, rep a y -> rep b x -> (y <> 0 \/ x <> 0) ->
  rep (f_atan2 F a b) (l_atan2 L y x) \/ (y = 0 /\ x < 0 /\ a = Zero true /\ rep (f_atan2 F a b) (- l_atan2 L y x)).
Proof.
  intros a b y x Ha Hb N. assert (D1 := dbl_true y (rep_double a y Ha)). assert (D2 := dbl_true x (rep_double b x Hb)).
  unfold L, libm_of; cbn [l_atan2]. rewrite D1, D2. cbn [andb].
  assert (Fn : ffin (f_atan2 F a b) = true) by (apply (lo_at_fin F e OK); [apply Ha|apply Hb]).
  destruct (Req_dec y 0) as [->|Ny].
  - destruct N as [N|Nx]; [now destruct N|]. rewrite of_real_0, <- (rep_inj b x Hb Nx). destruct (rep_zero a Ha) as [->| ->]; [|left; now split].
    assert (Vx : fval b <> 0) by (destruct Hb as [_ ->]; easy). assert (K := lo_at_y0 F e OK b Vx).
    destruct (Rlt_or_le x 0) as [C|C].
    + right. repeat split; easy.
    + left. split; [easy|]. rewrite K. rewrite (lo_at_pos F e OK b); [ring|apply Hb|destruct Hb as [_ ->]; lra].
  - left. rewrite <- (rep_inj a y Ha Ny). split; [easy|]. destruct (Req_dec x 0) as [->|Nx].
    + rewrite of_real_0. destruct (rep_zero b Hb) as [->| ->]; [|easy]. apply (lo_at_x0 F e OK). destruct Ha as [_ ->]. exact Ny.
    + now rewrite <- (rep_inj b x Hb Nx).
Qed.
(** with a first argument that is not a negative zero, or a second that is not negative *)
Lemma ag_atan2_std : forall a b y x, rep a y -> rep b x -> (y <> 0 \/ x <> 0) -> (y = 0 -> 0 <= x) -> rep (f_atan2 F a b) (l_atan2 L y x).
Proof. intros a b y x Ha Hb N P. destruct (ag_atan2 a b y x Ha Hb N) as [K|(E & C & _)]; [easy|]. specialize (P E). lra. Qed.

(** ** Evaluation: carry [repb] through an expression *)
Lemma rb_rep : forall a x p, repb a x p -> rep a x. Proof. now intros a x p []. Qed.
Ltac fz := first [split; [vm_compute; discriminate|vm_compute; reflexivity]|lia].
Ltac fb := lazymatch goal with
  | H : repb ?a _ _ |- repb ?a _ _ => exact H
  | |- repb (Bplus _ _ _) _ _ => eapply rb_add; [fb|fb|fz]
  | |- repb (Bminus _ _ _) _ _ => eapply rb_sub; [fb|fb|fz]
  | |- repb (Bmult _ _ _) _ _ => eapply rb_mul; [fb|fb|fz]
  | |- repb (Bopp _) _ _ => eapply rb_opp; fb
  | |- repb (Babs _) _ _ => eapply rb_abs; fb
  | |- repb (f_sin _ _) _ _ => eapply ag_sin; fr
  | |- repb (f_cos _ _) _ _ => eapply ag_sin; fr
  | |- repb (flit ?d) _ _ => apply (rb_lit d 60); [rlit; apply Rabs_le; cbn; lra|lia]
  | |- repb fpi _ _ => apply rb_pi
  | H : rep ?a _ |- repb ?a _ _ => apply rb_any; exact H
  end
  with fr := lazymatch goal with
  | H : rep ?a _ |- rep ?a _ => exact H
  | H : repb ?a _ _ |- rep ?a _ => exact (proj1 H)
  | |- rep _ _ => eapply rb_rep; fb
  end.
Ltac fops := cbn [add sub mul div opp ltb leb eqb fabs sqrt sin cos tan asin atan atan2
       exp log sinh pow fmod floor ceil ofZ toZ lit pi DA FA].

Ltac fp := lazymatch goal with
  | |- posb (Bmult _ ?a ?a) _ _ => eapply ps_sq; [fb|fz]
  | |- posb (Bplus _ _ _) _ _ => eapply ps_add; [fp|fp|fz]
  | |- posb (Bsqrt _ _) _ _ => eapply ps_sqrt; fp
  end.
Lemma fz0 : rep (flit 0) (rd 0).
Proof. assert (K := rb_lit 0 1). change (litR 0) with 0 in K. apply K; [rewrite Rabs_R0; apply bpow_ge_0|lia]. Qed.
Lemma fz0' : flit 0 = Zero false. Proof. reflexivity. Qed.
(** the arctangent of a root and a number, guarded against (0, 0) as ERFA has it *)
Lemma at0 : forall sf cf sd cd p q, posb sf sd p -> repb cf cd q ->
  rep (if negb (Beqb sf (flit 0)) || negb (Beqb cf (flit 0)) then f_atan2 F sf cf else flit 0)
      (if negb (Reqb sd (rd 0)) || negb (Reqb cd (rd 0)) then l_atan2 L sd cd else rd 0).
Proof.
  intros sf cf sd cd p q (Hs & Ps & Ss) Hc. rewrite (rep_eqb sf (flit 0) sd (rd 0) (proj1 Hs) fz0), (rep_eqb cf (flit 0) cd (rd 0) (proj1 Hc) fz0).
  rewrite rd_0. destruct (Reqb_spec sd 0) as [E|E]; [destruct (Reqb_spec cd 0) as [E2|E2]|]; cbn [negb orb]; [rewrite <- rd_0; apply fz0| |].
  - destruct (ag_atan2 sf cf sd cd (proj1 Hs) (proj1 Hc) ltac:(now right)) as [K|(_ & _ & K & _)]; [easy|]. rewrite K in Ss. discriminate.
  - destruct (ag_atan2 sf cf sd cd (proj1 Hs) (proj1 Hc) ltac:(now left)) as [K|(K & _)]; [easy|]. now rewrite K in E.
Qed.

Definition FD := FA F.
Definition rvec (v : vec f64) (w : vec R) : Prop := rep (vx v) (vx w) /\ rep (vy v) (vy w) /\ rep (vz v) (vz w).
Definition fvec (v : vec f64) : vec R := V (fval (vx v)) (fval (vy v)) (fval (vz v)).
Definition vfin (v : vec f64) : Prop := ffin (vx v) = true /\ ffin (vy v) = true /\ ffin (vz v) = true.
Lemma vfin_rep : forall v, vfin v -> rvec v (fvec v).
Proof. intros v (A & B & C). repeat split; easy. Qed.


(** ** Angles *)
Lemma f_D2PI : repb (@D2PI f64 FD) (@D2PI R (DA L)) 3.
Proof.
  unfold FD. assert (K : rep (@D2PI f64 (FA F)) (@D2PI R (DA L))) by (unfold D2PI; fops; fr).
  split; [exact K|]. rewrite D2PI_D. rewrite Rabs_pos_eq by (unfold PI64; lra). change (bpow radix2 3) with 8. unfold PI64. lra.
Qed.
Lemma rb_of : forall a x p, rep a x -> Rabs x <= bpow radix2 p -> repb a x p. Proof. now split. Qed.
Lemma f_fmod2pi : forall a x, rep a x -> repb (ffmod a (@D2PI f64 FD)) (fmodR x (@D2PI R (DA L))) 3.
Proof.
  intros a x H. destruct f_D2PI as [K _]. assert (Q := PI64_pos). split.
  - apply rep_fmod; [easy|easy|]. rewrite D2PI_D. lra.
  - rewrite D2PI_D. change (bpow radix2 3) with 8. assert (B := fmodR_bound x (2 * PI64) ltac:(lra)). lra.
Qed.
Ltac fif := match goal with
  | |- repb (if Bltb _ _ then _ else _) (if Rltb _ _ then _ else _) _ => apply (if_rel _ _ (fun u v => repb u v _)); [apply rep_ltb; fr|intros ?|intros ?]
  | |- rep (if Bltb _ _ then _ else _) (if Rltb _ _ then _ else _) => apply (if_rel _ _ rep); [apply rep_ltb; fr|intros ?|intros ?]
  | |- rep (if Bleb _ _ then _ else _) (if Rleb _ _ then _ else _) => apply (if_rel _ _ rep); [apply rep_leb; fr|intros ?|intros ?]
  | |- rep (if Beqb _ _ then _ else _) (if Reqb _ _ then _ else _) => apply (if_rel _ _ rep); [apply rep_eqb; fr|intros ?|intros ?]
  end.
Lemma f_drange : forall a x, rep a x -> rep (@palDrange f64 FD a) (@palDrange R (DA L) x).
Proof.
  intros a x H. unfold palDrange. assert (W := f_fmod2pi a x H). assert (P := f_D2PI). cbv zeta.
  change (@fmod f64 FD a D2PI) with (ffmod a (@D2PI f64 FD)). change (@fmod R (DA L) x D2PI) with (fmodR x (@D2PI R (DA L))).
  set (w := ffmod a (@D2PI f64 FD)) in *. set (v := fmodR x (@D2PI R (DA L))) in *.
  set (t := @D2PI f64 FD) in *. set (u := @D2PI R (DA L)) in *. clearbody w v t u. unfold FD. fops.
  fif; [fr|]. fif; [fr|fr].
Qed.
Lemma f_anp : forall a x, rep a x -> rep (@eraAnp f64 FD a) (@eraAnp R (DA L) x).
Proof.
  intros a x H. unfold eraAnp. assert (W := f_fmod2pi a x H). assert (P := f_D2PI). cbv zeta.
  change (@fmod f64 FD a D2PI) with (ffmod a (@D2PI f64 FD)). change (@fmod R (DA L) x D2PI) with (fmodR x (@D2PI R (DA L))).
  set (w := ffmod a (@D2PI f64 FD)) in *. set (v := fmodR x (@D2PI R (DA L))) in *.
  set (t := @D2PI f64 FD) in *. set (u := @D2PI R (DA L)) in *. clearbody w v t u. unfold FD. fops.
  fif; fr.
Qed.
(** ** Directions and separations *)
Lemma f_dcs2c : forall a b x y, rep a x -> rep b y -> rvec (@palDcs2c f64 FD a b) (@palDcs2c R (DA L) x y).
Proof.
  intros a b x y Ha Hb. unfold palDcs2c, eraS2c, rvec, FD. fops. cbn [vx vy vz]. split; [|split]; fr.
Qed.
Definition rvecb (v : vec f64) (w : vec R) (p : Z) : Prop := repb (vx v) (vx w) p /\ repb (vy v) (vy w) p /\ repb (vz v) (vz w) p.
Lemma f_dsepv : forall v1 v2 w1 w2, rvecb v1 w1 250 -> rvecb v2 w2 250 -> rep (@palDsepv f64 FD v1 v2) (@palDsepv R (DA L) w1 w2).
Proof.
  intros v1 v2 w1 w2 (A1 & A2 & A3) (B1 & B2 & B3). unfold palDsepv, eraSepp, eraPm, eraPxp, eraPdp, FD. fops. cbn [vx vy vz]. cbv zeta.
  change (litR 0) with 0. set (sf := Bsqrt _ _). set (cf := Bplus _ (Bplus _ _ (Bmult _ (vy v1) (vy v2))) _).
  set (cd := rd (rd (rd (vx w1 * vx w2) + _) + _)). set (sd := rd (sqrtR _)).
  assert (Hc : exists p, repb cf cd p) by (eexists; unfold cf, cd; fb). destruct Hc as [pc Hc].
  assert (Hs : exists p, posb sf sd p) by (eexists; unfold sf, sd; fp). destruct Hs as [ps Hs].
  clearbody cf cd sf sd. apply (at0 sf cf sd cd ps pc Hs Hc).
Qed.
Lemma f_dsep : forall a1 b1 a2 b2 x1 y1 x2 y2, rep a1 x1 -> rep b1 y1 -> rep a2 x2 -> rep b2 y2 ->
  rep (@palDsep f64 FD a1 b1 a2 b2) (@palDsep R (DA L) x1 y1 x2 y2).
Proof.
  intros a1 b1 a2 b2 x1 y1 x2 y2 H1 H2 H3 H4. apply f_dsepv; (split; [|split]); unfold eraS2c, FD; fops; cbn [vx vy vz];
    (eapply rb_weak; [fb|vm_compute; discriminate]).
Qed.
(** ** Longitudes: the same up to whole turns, and to [2 e] because a negative zero makes atan2 return about -pi for pi *)
Definition lonrep (a : f64) (l d : R) : Prop := ffin a = true /\ exists k : Z, Rabs (fval a - (l + IZR k * (2 * PI))) <= d.
Lemma lon_rep : forall a l d, rep a l -> 0 <= d -> lonrep a l d.
Proof. intros a l d [A <-] H. split; [easy|]. exists 0%Z. rewrite Rmult_0_l, Rplus_0_r, Rminus_diag_eq, Rabs_R0; [lra|easy]. Qed.
Lemma lon_trans : forall a l d t d', lonrep a l d -> (exists k : Z, Rabs (l - (t + IZR k * (2 * PI))) <= d') -> lonrep a t (d' + d).
Proof.
  intros a l d t d' [A [k Hk]] [j Hj]. split; [easy|]. exists (k + j)%Z. rewrite plus_IZR.
  replace (fval a - (t + (IZR k + IZR j) * (2 * PI))) with ((l - (t + IZR j * (2 * PI))) + (fval a - (l + IZR k * (2 * PI)))) by ring.
  eapply Rle_trans; [apply Rabs_triang|]. lra.
Qed.
Lemma lat0 : forall yf xf y x, rep yf y -> rep xf x -> (y <> 0 \/ x <> 0) -> lonrep (f_atan2 F yf xf) (l_atan2 L y x) (2 * e).
Proof.
  intros yf xf y x Hy Hx N. destruct (ag_atan2 yf xf y x Hy Hx N) as [K|(E & C & _ & K)]; [apply lon_rep; [easy|lra]|].
  assert (A := ag_atan2_acc y x (rep_fmt _ _ Hy) (rep_fmt _ _ Hx) N). rewrite E in A at 2.
  assert (P : atan2R 0 x = PI).
  { unfold atan2R. destruct (Rlt_dec 0 x) as [|_]; [lra|]. destruct (Rlt_dec x 0) as [_|]; [|lra]. destruct (Rle_dec 0 0) as [_|]; [|lra].
    unfold Rdiv. rewrite Rmult_0_l, atan_0. ring. }
  rewrite P in A.
  destruct K as [Kf Kv]. split; [easy|]. exists (-1)%Z. rewrite Kv. apply Rabs_le_inv in A. apply Rabs_le. lra.
Qed.
Lemma f_dcc2s : forall v w, rvecb v w 250 ->
  lonrep (fst (@palDcc2s f64 FD v)) (fst (@palDcc2s R (DA L) w)) (2 * e) /\ rep (snd (@palDcc2s f64 FD v)) (snd (@palDcc2s R (DA L) w)).
Proof.
  intros v w (A1 & A2 & A3). unfold palDcc2s, eraC2s, FD. fops. cbv zeta. cbn [fst snd]. change (litR 0) with 0.
  set (df := Bplus _ _ _). set (dd := rd (rd (vx w * vx w) + _)).
  assert (Hd : exists p, posb df dd p) by (eexists; unfold df, dd; fp). destruct Hd as [p Hd].
  assert (X0 : dd <> 0 -> vy w <> 0 \/ vx w <> 0).
  { intros N. destruct (Req_dec (vy w) 0) as [Ey|]; [right|now left]. intros Ex. apply N. unfold dd. rewrite Ex, Ey, !Rmult_0_l, rd_0, Rplus_0_l. apply rd_0. }
  clearbody df dd. destruct Hd as ((Hd & _) & Pd & _). split.
  - apply (if_rel _ _ (fun u v => lonrep u v (2 * e))); [rewrite (rep_eqb df (flit 0) dd (rd 0)); [easy|easy|apply fz0]| |].
    + intros _. apply lon_rep; [apply fz0|lra].
    + rewrite rd_0. intros B. apply lat0; [apply A2|apply A1|]. apply X0. destruct (Reqb_spec dd 0); [discriminate|easy].
  - apply (if_rel _ _ rep); [apply rep_eqb; [apply A3|apply fz0]|intros _; apply fz0|]. rewrite rd_0. intros B.
    destruct (Reqb_spec (vz w) 0) as [|N]; [discriminate|]. apply ag_atan2_std; [apply A3|now apply rep_sqrt|now left|]. intros; easy.
Qed.
Lemma f_hyp : forall xf yf x y p q, repb xf x p -> repb yf y q -> (-500 <= p <= 500)%Z -> (-500 <= q <= 500)%Z ->
  exists s, posb (Bsqrt mode_NE (Bplus mode_NE (Bmult mode_NE xf xf) (Bmult mode_NE yf yf))) (rd (sqrtR (rd (rd (x * x) + rd (y * y))))) s.
Proof. intros xf yf x y p q Hx Hy Hp Hq. eexists. eapply ps_sqrt, ps_add; [eapply ps_sq; [exact Hx|lia]|eapply ps_sq; [exact Hy|lia]|lia]. Qed.
(** horizon coordinates: the direction (x, y, z) and its polar coordinates *)
Lemma f_hor : forall xf yf zf x y z p q, repb xf x p -> repb yf y q -> rep zf z -> (-500 <= p <= 500)%Z -> (-500 <= q <= 500)%Z ->
  let rf := Bsqrt mode_NE (Bplus mode_NE (Bmult mode_NE xf xf) (Bmult mode_NE yf yf)) in
  let r := rd (sqrtR (rd (rd (x * x) + rd (y * y)))) in
  (z <> 0 \/ r <> 0) ->
  lonrep (if Beqb rf (flit 0) then flit 0 else f_atan2 F yf xf) (if Reqb r (rd 0) then rd 0 else l_atan2 L y x) (2 * e) /\
  rep (f_atan2 F zf rf) (l_atan2 L z r).
Proof.
  intros xf yf zf x y z p q Hx Hy Hz Hp Hq rf r NZ. destruct (f_hyp xf yf x y p q Hx Hy Hp Hq) as (s & (Hr & _) & Pr & _).
  assert (X0 : r <> 0 -> y <> 0 \/ x <> 0).
  { intros N. destruct (Req_dec y 0) as [Ey|]; [right|now left]. intros Ex. apply N. unfold r. rewrite Ex, Ey, !Rmult_0_l, rd_0, Rplus_0_l, rd_0, sqrt_0. apply rd_0. }
  fold rf in Hr. fold r in Hr, Pr. clearbody rf r. split.
  - apply (if_rel _ _ (fun u v => lonrep u v (2 * e))); [rewrite (rep_eqb rf (flit 0) r (rd 0)); [easy|easy|apply fz0]| |].
    + intros _. apply lon_rep; [apply fz0|lra].
    + rewrite rd_0. intros B. apply lat0; [apply Hy|apply Hx|]. apply X0. destruct (Reqb_spec r 0); [discriminate|easy].
  - apply ag_atan2_std; [easy|easy|easy|intros; easy].
Qed.
Lemma f_dh2e : forall af bf cf a b c, rep af a -> rep bf b -> rep cf c ->
  (vz (dhv L a b c) <> 0 \/ dhyp (vx (dhv L a b c)) (vy (dhv L a b c)) <> 0) ->
  lonrep (fst (@palDh2e f64 FD af bf cf)) (fst (dh2e L a b c)) (2 * e) /\ rep (snd (@palDh2e f64 FD af bf cf)) (snd (dh2e L a b c)).
Proof.
  intros af bf cf a b c A B C NZ. unfold dh2e, palDh2e, FD. fops. cbv zeta. cbn [fst snd]. change (litR 0) with 0. unfold dhv, dhyp in NZ. cbn [vx vy vz] in NZ.
  assert (A' := ag_sin af a A). assert (B' := ag_sin bf b B). assert (C' := ag_sin cf c C).
  destruct A' as [A1 A2], B' as [B1 B2], C' as [C1 C2]. fold L in NZ.
  change (f_sin (F) af) with (f_sin F af) in *.
  eapply f_hor; [fb|fb|fr|fz|fz|exact NZ].
Qed.
Lemma at_bound : forall yf xf y x, rep yf y -> rep xf x -> (y <> 0 \/ x <> 0) -> ffin (f_atan2 F yf xf) = true /\ -4 <= fval (f_atan2 F yf xf) <= 4.
Proof.
  intros yf xf y x Hy Hx N. assert (A := ag_atan2_acc y x (rep_fmt _ _ Hy) (rep_fmt _ _ Hx) N). assert (B := atan2_range y x).
  assert (P : 3 < PI < 3.2) by (split; interval). apply Rabs_le_inv in A.
  destruct (ag_atan2 yf xf y x Hy Hx N) as [[K1 K2]|(_ & _ & _ & [K1 K2])]; (split; [exact K1|]); rewrite K2; lra.
Qed.
(** azimuths, put in the range 0 to 2pi *)
Lemma f_wrap : forall af a d, lonrep af a d -> -4 <= fval af <= 4 ->
  let w := if Bltb af (flit 0) then Bplus mode_NE af (@D2PI f64 FD) else af in
  0 <= fval w < 2 * PI /\ lonrep w a (7e-16 + d).
Proof.
  intros af a d [A [k Hk]] B. assert (H : repb af (fval af) 3).
  { split; [now split|]. change (bpow radix2 3) with 8. apply Rabs_le. lra. }
  assert (G : rep (if Bltb af (flit 0) then Bplus mode_NE af (@D2PI f64 FD) else af) (if Rltb (fval af) 0 then rd (fval af + 2 * PI64) else fval af)).
  { apply (if_rel _ _ rep).
    - assert (K := rep_ltb af (flit 0) (fval af) (rd 0) (proj1 H) fz0). now rewrite rd_0 in K.
    - intros _. assert (P := f_D2PI). rewrite D2PI_D in P. eapply rb_rep. apply (rb_add _ _ _ _ 3 3 H P). lia.
    - intros _. apply H. }
  destruct (wrap (fval af) (proj1 B) (proj2 B) (rep_fmt _ _ (proj1 H))) as (R0 & _ & j & Hj).
  intros w. fold w in G. clearbody w. destruct G as [Gf Gv]. rewrite Gv. split; [exact R0|]. split; [exact Gf|]. exists (j + k)%Z. rewrite Gv, plus_IZR.
  apply Rabs_le_inv in Hj, Hk. apply Rabs_le. lra.
Qed.
Lemma f_de2h : forall af bf cf a b c, rep af a -> rep bf b -> rep cf c ->
  (vz (dhv L a b c) <> 0 \/ dhyp (vx (dhv L a b c)) (vy (dhv L a b c)) <> 0) ->
  0 <= fval (fst (@palDe2h f64 FD af bf cf)) < 2 * PI /\
  lonrep (fst (@palDe2h f64 FD af bf cf)) (fst (dh2e L a b c)) (7e-16 + 2 * e) /\ rep (snd (@palDe2h f64 FD af bf cf)) (snd (dh2e L a b c)).
Proof.
  intros af bf cf a b c A B C NZ. destruct (f_dh2e af bf cf a b c A B C NZ) as [K1 K2].
  assert (E : @palDe2h f64 FD af bf cf = let '(x, y) := @palDh2e f64 FD af bf cf in
    (if Bltb x (flit 0) then Bplus mode_NE x (@D2PI f64 FD) else x, y)) by reflexivity. rewrite E. clear E.
  assert (BD : -4 <= fval (fst (@palDh2e f64 FD af bf cf)) <= 4).
  { unfold palDh2e, FD. fops. cbv zeta. cbn [fst]. set (xf := Bplus _ _ (Bmult _ (f_sin F bf) (f_cos F cf))). set (yf := Bmult _ (Bopp _) _).
    assert (Hx : exists x p, repb xf x p /\ (-500 <= p <= 500)%Z).
    { do 2 eexists. split; [unfold xf; eapply rb_add; [eapply rb_mul; [eapply rb_mul; [eapply rb_opp|..]|..]|eapply rb_mul|]; try (eapply ag_sin; eassumption); cbn; lia|cbn; lia]. }
    assert (Hy : exists y p, repb yf y p /\ (-500 <= p <= 500)%Z).
    { do 2 eexists. split; [unfold yf; eapply rb_mul; [eapply rb_opp|..]; try (eapply ag_sin; eassumption); cbn; lia|cbn; lia]. }
    destruct Hx as (x & p & Hx & Hp), Hy as (y & q & Hy & Hq). destruct (f_hyp xf yf x y p q Hx Hy Hp Hq) as (s & (Hr & _) & _).
    rewrite (rep_eqb _ _ _ _ Hr fz0). rewrite rd_0. destruct (Reqb_spec (rd (sqrtR (rd (rd (x * x) + rd (y * y))))) 0) as [E0|N].
    - destruct fz0 as [_ ->]. rewrite rd_0. lra.
    - apply (at_bound yf xf y x); [apply Hy|apply Hx|]. destruct (Req_dec y 0) as [Ey|]; [right|now left]. intros Ex. apply N.
      rewrite Ex, Ey, !Rmult_0_l, rd_0, Rplus_0_l, rd_0, sqrt_0. apply rd_0. }
  destruct (@palDh2e f64 FD af bf cf) as [x y]. cbn [fst snd] in *. destruct (f_wrap x _ _ K1 BD) as [W1 W2]. tauto.
Qed.
(** bearings: east and north components *)
Lemma f_num : forall rf df zf wf ra dec raz decz, rep rf ra -> rep df dec -> rep zf raz -> rep wf decz -> Rabs (ra - raz) <= 7 ->
  let dr := Bminus mode_NE rf zf in
  rvecb (V (Bmult mode_NE (f_cos F df) (f_sin F dr))
    (Bminus mode_NE (Bmult mode_NE (f_sin F df) (f_cos F wf)) (Bmult mode_NE (Bmult mode_NE (f_cos F df) (f_sin F wf)) (f_cos F dr)))
    (Bplus mode_NE (Bmult mode_NE (f_sin F df) (f_sin F wf)) (Bmult mode_NE (Bmult mode_NE (f_cos F df) (f_cos F wf)) (f_cos F dr))))
   (let '(x, y, z) := s2tp_num L ra dec raz decz in V x y z) 10.
Proof.
  intros rf df zf wf ra dec raz decz H1 H2 H3 H4 B dr.
  assert (Hd : rep dr (rd (ra - raz))).
  { apply rep_sub; [easy|easy|]. eapply (bp_lt 3); [lia|]. apply rd_le_bpow; [lia|]. change (bpow radix2 3) with 8. lra. }
  clearbody dr. unfold s2tp_num. cbv zeta. unfold rvecb. cbn [vx vy vz].
  assert (K1 := ag_sin df dec H2). assert (K2 := ag_sin wf decz H4). assert (K3 := ag_sin dr _ Hd).
  destruct K1 as [S1 C1], K2 as [S2 C2], K3 as [S3 C3].
  split; [|split]; (eapply rb_weak; [fb|cbn; lia]).
Qed.
Lemma f_numy : forall rf df zf wf ra dec raz decz, rep rf ra -> rep df dec -> rep zf raz -> rep wf decz -> Rabs (ra - raz) <= 7 ->
  repb (Bmult mode_NE (f_sin F (Bminus mode_NE rf zf)) (f_cos F df)) (fst (fst (s2tp_num L ra dec raz decz))) 10.
Proof.
  intros rf df zf wf ra dec raz decz H1 H2 H3 H4 B. set (dr := Bminus mode_NE rf zf).
  assert (Hd : rep dr (rd (ra - raz))).
  { apply rep_sub; [easy|easy|]. eapply (bp_lt 3); [lia|]. apply rd_le_bpow; [lia|]. change (bpow radix2 3) with 8. lra. }
  clearbody dr. unfold s2tp_num. cbv zeta. cbn [fst].
  assert (K1 := ag_sin df dec H2). assert (K3 := ag_sin dr _ Hd). destruct K1 as [S1 C1], K3 as [S3 C3]. rewrite Rmult_comm.
  eapply rb_weak; [fb|cbn; lia].
Qed.
Lemma f_dbear : forall af bf cf df a b c d, rep af a -> rep bf b -> rep cf c -> rep df d -> Rabs (c - a) <= 7 ->
  lonrep (@palDbear f64 FD af bf cf df) (dbear L a b c d) (2 * e).
Proof.
  intros af bf cf df a b c d H1 H2 H3 H4 B. rewrite dbear_unf. unfold palDbear, eraPas, FD. fops. cbv zeta.
  assert (K := f_num cf df af bf c d a b H3 H4 H1 H2 B). assert (Ky := f_numy cf df af bf c d a b H3 H4 H1 H2 B). cbv zeta in K.
  destruct (s2tp_num L c d a b) as [[y x] z]. destruct K as (_ & Kx & _). cbn [vx vy vz fst snd] in Ky, Kx.
  rewrite (rep_eqb _ _ _ _ (proj1 Ky) fz0), (rep_eqb _ _ _ _ (proj1 Kx) fz0), rd_0.
  destruct (Reqb_spec x 0) as [Ex|Ex]; [destruct (Reqb_spec y 0) as [Ey|Ey]|]; cbn [negb orb].
  - apply lon_rep; [rewrite <- rd_0; apply fz0|lra].
  - apply lat0; [apply Ky|apply Kx|now left].
  - apply lat0; [apply Ky|apply Kx|now right].
Qed.

(** ** C94: the theorems *)
(** every finite binary64 angle, of any size, is reduced to a finite one in the documented range *)
Theorem C94_palDrange : forall a, ffin a = true -> let r := @palDrange f64 (FA F) a in
  ffin r = true /\ - PI < fval r < PI /\
  (exists k : Z, fval r = fval a - IZR k * (2 * PI64) /\ Rabs (fval r - (fval a - IZR k * (2 * PI))) <= 8e-17 * Rabs (fval a)) /\
  (Rabs (fval a) < PI -> fval r = fval a).
Proof.
  intros a A r. assert (H : rep a (fval a)) by now split. destruct (f_drange a _ H) as [K1 K2]. fold FD in r. change (@palDrange f64 FD a) with r in K1, K2.
  destruct (C81_palDrange L (fval a) (rep_double _ _ H)) as (_ & D). unfold drange in D. rewrite <- K2 in D. tauto.
Qed.
Theorem C94_palDranrm : forall a, ffin a = true -> let r := @palDranrm f64 (FA F) a in
  ffin r = true /\ 0 <= fval r < 2 * PI /\ (0 <= fval a < 2 * PI64 -> fval r = fval a) /\
  exists k : Z, Rabs (fval r - (fval a - IZR k * (2 * PI))) <= 4e-17 * Rabs (fval a) + 7e-16.
Proof.
  intros a A r. assert (H : rep a (fval a)) by now split. destruct (f_anp a _ H) as [K1 K2]. change (@eraAnp f64 FD a) with r in K1, K2.
  destruct (C81_palDranrm L (fval a) (rep_double _ _ H)) as (_ & D1 & D2 & k & _ & _ & D3). change (dranrm L (fval a)) with (@eraAnp R (DA L) (fval a)) in *.
  rewrite <- K2 in D1, D2, D3. split; [easy|]. split; [easy|]. split; [easy|]. now exists k.
Qed.
Theorem C94_palDcs2c : forall a b, ffin a = true -> ffin b = true -> let v := @palDcs2c f64 (FA F) a b in
  vfin v /\ norm (vsub (dir (fval a) (fval b)) (fvec v)) <= 5e-16.
Proof.
  intros a b A B v. assert (Ha : rep a (fval a)) by now split. assert (Hb : rep b (fval b)) by now split.
  destruct (f_dcs2c a b _ _ Ha Hb) as ([X1 X2] & [Y1 Y2] & [Z1 Z2]). change (@palDcs2c f64 FD a b) with v in X1, X2, Y1, Y2, Z1, Z2. split; [split; [|split]; easy|].
  assert (K := C85_palDcs2c L (fval a) (fval b) ag_trig_acc (rep_double _ _ Ha) (rep_double _ _ Hb)). unfold fvec. rewrite X2, Y2, Z2. exact K.
Qed.
Theorem C94_palDsep : forall a1 b1 a2 b2 t, ffin a1 = true -> ffin b1 = true -> ffin a2 = true -> ffin b2 = true ->
  0 <= t <= PI -> cosR t = dot (dir (fval a1) (fval b1)) (dir (fval a2) (fval b2)) ->
  let r := @palDsep f64 (FA F) a1 b1 a2 b2 in ffin r = true /\ Rabs (fval r - t) <= 1.8e-15 + e.
Proof.
  intros a1 b1 a2 b2 t A1 B1 A2 B2 Ht Hc r.
  assert (H1 : rep a1 (fval a1)) by now split. assert (H2 : rep b1 (fval b1)) by now split.
  assert (H3 : rep a2 (fval a2)) by now split. assert (H4 : rep b2 (fval b2)) by now split.
  destruct (f_dsep _ _ _ _ _ _ _ _ H1 H2 H3 H4) as [K1 K2]. change (FA F) with FD in r. fold r in K1, K2. split; [exact K1|]. rewrite K2.
  apply (C84_palDsep L e); try easy; [apply ag_atan2_acc|apply ag_trig_acc|..]; eapply rep_double; eassumption.
Qed.
Lemma big_small : forall v x, / 10 ^ 65 <= norm v <= 10 ^ 65 -> Rabs x <= norm v -> Rabs x <= bpow radix2 250.
Proof.
  intros v x H K. apply Rle_trans with (10 ^ 65); [lra|]. assert (E : 10 ^ 65 = IZR (10 ^ Z.of_nat 65)) by exact (pow_IZR 10 65). rewrite E. change (bpow radix2 250) with (IZR (2 ^ 250)).
  apply IZR_le. vm_compute. discriminate.
Qed.
Lemma comp_norm : forall v, Rabs (vx v) <= norm v /\ Rabs (vy v) <= norm v /\ Rabs (vz v) <= norm v.
Proof.
  intros v. assert (S := norm_sq v). assert (P := norm_pos v). unfold dot in S.
  assert (G : forall x, x * x <= norm v * norm v -> Rabs x <= norm v).
  { intros x H. apply Rsqr_le_abs_0 in H. now rewrite (Rabs_pos_eq (norm v)) in H. }
  assert (Sx := Rle_0_sqr (vx v)). assert (Sy := Rle_0_sqr (vy v)). assert (Sz := Rle_0_sqr (vz v)). unfold Rsqr in *.
  split; [|split]; apply G; lra.
Qed.
Lemma fvec_b : forall v, vfin v -> / 10 ^ 65 <= norm (fvec v) <= 10 ^ 65 -> rvecb v (fvec v) 250.
Proof.
  intros v (A & B & C) H. destruct (comp_norm (fvec v)) as (K1 & K2 & K3).
  split; [|split]; (split; [now split|]); eapply big_small; eassumption.
Qed.
Theorem C94_palDsepv : forall v w t, vfin v -> vfin w -> / 10 ^ 65 <= norm (fvec v) <= 10 ^ 65 -> / 10 ^ 65 <= norm (fvec w) <= 10 ^ 65 ->
  0 <= t <= PI -> cosR t = dot (fvec v) (fvec w) / (norm (fvec v) * norm (fvec w)) ->
  let r := @palDsepv f64 (FA F) v w in ffin r = true /\ Rabs (fval r - t) <= 8e-16 + e.
Proof.
  intros v w t V W Nv Nw Ht Hc r. destruct (f_dsepv _ _ _ _ (fvec_b v V Nv) (fvec_b w W Nw)) as [K1 K2]. change (FA F) with FD in r. fold r in K1, K2.
  split; [exact K1|]. rewrite K2. apply (C84_palDsepv L e); try easy. apply ag_atan2_acc.
Qed.
Theorem C94_palDcc2s : forall v a b, vfin v -> / 10 ^ 65 <= norm (fvec v) <= 10 ^ 65 ->
  - (PI / 2) <= b <= PI / 2 -> fvec v = scale (norm (fvec v)) (dir a b) ->
  let '(lon, lat) := @palDcc2s f64 (FA F) v in
  ffin lon = true /\ ffin lat = true /\ Rabs (fval lat - b) <= 3.3e-16 + e /\
  (/ 10 ^ 30 <= cosR b -> exists k : Z, Rabs (fval lon - (a + IZR k * (2 * PI))) <= 3 * e).
Proof.
  intros v a b V N Hb Hv. destruct (f_dcc2s _ _ (fvec_b v V N)) as [K1 [K2 K3]]. fold FD.
  destruct (@palDcc2s f64 FD v) as [lon lat]. cbn [fst snd] in *. split; [apply K1|]. split; [exact K2|].
  destruct (C85_palDcc2s L e (fvec v) a b ag_atan2_acc ltac:(lra)) as [C1 C2]; try easy.
  { destruct V as (V1 & V2 & V3). unfold fmtv, fvec; cbn [vx vy vz]. split; [|split]; apply generic_format_B2R. }
  split; [rewrite K3; exact C1|]. intros C. destruct (lon_trans _ _ _ _ _ K1 (C2 C)) as [_ [k Hk]]. exists k. lra.
Qed.
Theorem C94_palDh2e : forall az el phi H D, ffin az = true -> ffin el = true -> ffin phi = true ->
  - (PI / 2) <= D <= PI / 2 -> dir H D = hvec (fval az) (fval el) (fval phi) ->
  let '(ha, dec) := @palDh2e f64 (FA F) az el phi in
  ffin ha = true /\ ffin dec = true /\ Rabs (fval dec - D) <= 1.8e-15 + e /\
  (1e-8 <= cosR D -> exists k : Z, Rabs (fval ha - (H + IZR k * (2 * PI))) <= 1.5e-15 / cosR D + 3 * e).
Proof.
  intros az el phi H D A B C HD HV.
  assert (H1 : rep az (fval az)) by now split. assert (H2 : rep el (fval el)) by now split. assert (H3 : rep phi (fval phi)) by now split.
  assert (NZ : vz (dhv L (fval az) (fval el) (fval phi)) <> 0 \/ dhyp (vx (dhv L (fval az) (fval el) (fval phi))) (vy (dhv L (fval az) (fval el) (fval phi))) <> 0).
  { assert (K := dhv_err L ag_trig_acc _ _ _ (rep_fmt _ _ H1) (rep_fmt _ _ H2) (rep_fmt _ _ H3)). rewrite <- HV in K.
    eapply (near_core _ 1 H D 1.46e-15); [lra|easy|rewrite scale_1; lra|lra]. }
  destruct (f_dh2e _ _ _ _ _ _ H1 H2 H3 NZ) as [K1 [K2 K3]]. fold FD.
  destruct (@palDh2e f64 FD az el phi) as [ha dec]. cbn [fst snd] in *. split; [apply K1|]. split; [exact K2|].
  destruct (C86_palDh2e L e (fval az) (fval el) (fval phi) H D ag_atan2_acc ltac:(lra) ag_trig_acc) as [C1 C2]; try easy; try (eapply rep_double; eassumption).
  split; [rewrite K3; exact C1|]. intros Cc. destruct (lon_trans _ _ _ _ _ K1 (C2 Cc)) as [_ [k Hk]]. exists k. lra.
Qed.
Theorem C94_palDe2h : forall ha dec phi A E, ffin ha = true -> ffin dec = true -> ffin phi = true ->
  - (PI / 2) <= E <= PI / 2 -> dir A E = hvec (fval ha) (fval dec) (fval phi) ->
  let '(az, el) := @palDe2h f64 (FA F) ha dec phi in
  ffin az = true /\ ffin el = true /\ 0 <= fval az < 2 * PI /\ Rabs (fval el - E) <= 1.8e-15 + e /\
  (1e-8 <= cosR E -> exists k : Z, Rabs (fval az - (A + IZR k * (2 * PI))) <= 1.5e-15 / cosR E + 7e-16 + 3 * e).
Proof.
  intros az el phi H D A B C HD HV.
  assert (H1 : rep az (fval az)) by now split. assert (H2 : rep el (fval el)) by now split. assert (H3 : rep phi (fval phi)) by now split.
  assert (NZ : vz (dhv L (fval az) (fval el) (fval phi)) <> 0 \/ dhyp (vx (dhv L (fval az) (fval el) (fval phi))) (vy (dhv L (fval az) (fval el) (fval phi))) <> 0).
  { assert (K := dhv_err L ag_trig_acc _ _ _ (rep_fmt _ _ H1) (rep_fmt _ _ H2) (rep_fmt _ _ H3)). rewrite <- HV in K.
    eapply (near_core _ 1 H D 1.46e-15); [lra|easy|rewrite scale_1; lra|lra]. }
  destruct (f_de2h _ _ _ _ _ _ H1 H2 H3 NZ) as (R0 & K1 & [K2 K3]). fold FD.
  destruct (@palDe2h f64 FD az el phi) as [ha dec]. cbn [fst snd] in *. split; [apply K1|]. split; [exact K2|]. split; [exact R0|].
  destruct (C86_palDh2e L e (fval az) (fval el) (fval phi) H D ag_atan2_acc ltac:(lra) ag_trig_acc) as [C1 C2]; try easy; try (eapply rep_double; eassumption).
  split; [rewrite K3; exact C1|]. intros Cc. destruct (lon_trans _ _ _ _ _ K1 (C2 Cc)) as [_ [k Hk]]. exists k. lra.
Qed.
Theorem C94_palDbear : forall a1 b1 a2 b2 S t, ffin a1 = true -> ffin b1 = true -> ffin a2 = true -> ffin b2 = true ->
  Rabs (fval a2 - fval a1) <= 7 -> 1e-8 <= S -> bearing (fval a1) (fval b1) (fval a2) (fval b2) S t ->
  let r := @palDbear f64 (FA F) a1 b1 a2 b2 in
  ffin r = true /\ exists k : Z, Rabs (fval r - (t + IZR k * (2 * PI))) <= (1.42e-15 + 1.58e-16 * Rabs (fval a2 - fval a1)) / S + 3 * e.
Proof.
  intros a1 b1 a2 b2 S t A1 B1 A2 B2 Hr HS HB r.
  assert (H1 : rep a1 (fval a1)) by now split. assert (H2 : rep b1 (fval b1)) by now split.
  assert (H3 : rep a2 (fval a2)) by now split. assert (H4 : rep b2 (fval b2)) by now split.
  assert (K := f_dbear _ _ _ _ _ _ _ _ H1 H2 H3 H4 Hr). change (FA F) with FD in r. fold r in K.
  assert (C := C92_palDbear L e (fval a1) (fval b1) (fval a2) (fval b2) S t ag_atan2_acc ag_trig_acc
    (rep_double _ _ H1) (rep_double _ _ H2) (rep_double _ _ H3) (rep_double _ _ H4) Hr HS HB).
  destruct (lon_trans _ _ _ _ _ K C) as [K1 [k Hk]]. split; [exact K1|]. exists k. lra.
Qed.
End F.

(** ** Non-vacuity: a libm that rounds the exact functions correctly meets [libm_ok] *)
Definition cr1 (f : R -> R) (a : f64) : f64 := if ffin a then of_real (rd (f (fval a))) else NaN.
Definition cr_atan2 (y x : f64) : f64 :=
  if ffin y && ffin x then
    if Reqb (fval y) 0 then if Rltb 0 (fval x) then y else if Rltb (fval x) 0 then (if Bsign y then Bopp fpi else fpi) else y
    else of_real (rd (atan2R (fval y) (fval x)))
  else NaN.
Definition Fcr : FLibm := MkFLibm (cr1 sinR) (cr1 cosR) (cr1 Rtrigo1.tan) (cr1 Ratan.asin) (cr1 Ratan.atan) cr_atan2 (cr1 Rtrigo_def.exp) (cr1 Rpower.ln) (cr1 Rtrigo_def.sinh) (fun _ _ => NaN).
Lemma cr_small : forall x p, (-1074 <= p < 1024)%Z -> Rabs x <= bpow radix2 p -> rep (of_real (rd x)) (rd x).
Proof.
  intros x p Hp H. apply of_real_rep. split; [apply FLT_format_generic; [now unfold Prec_gt_0|apply fmt_rd]|].
  eapply Rle_lt_trans; [apply rd_le_bpow; [|exact H]; lia|]. apply bpow_lt. lia.
Qed.
Lemma Fcr_ok : libm_ok Fcr 2.3e-16.
Proof.
  assert (T : forall a, ffin a = true -> fmt (fval a)) by (intros; apply generic_format_B2R).
  assert (B1 : forall x, -1 <= x <= 1 -> Rabs x <= bpow radix2 0) by (intros x H; change (bpow radix2 0) with 1; apply Rabs_le; lra).
  assert (A2 : forall y x, Rabs (atan2R y x) <= bpow radix2 2).
  { intros y x. change (bpow radix2 2) with 4. assert (K := atan2_range y x). assert (P := PI_4). apply Rabs_le. lra. }
  constructor; cbn [Fcr f_sin f_cos f_atan2].
  - intros a A. unfold cr1. rewrite A. destruct (cr_small (sinR (fval a)) 0 ltac:(lia) (B1 _ (SIN_bound _))) as [K1 ->]. split; [exact K1|]. apply (Lcr_trig _ (T a A)).
  - intros a A. unfold cr1. rewrite A. destruct (cr_small (cosR (fval a)) 0 ltac:(lia) (B1 _ (COS_bound _))) as [K1 ->]. split; [exact K1|]. apply (Lcr_trig _ (T a A)).
  - split; reflexivity.
  - intros y x Hy Hx. unfold cr_atan2. rewrite Hy, Hx. cbn [andb]. destruct (Reqb (fval y) 0).
    + destruct (Rltb 0 (fval x)); [easy|]. destruct (Rltb (fval x) 0); [|easy]. destruct (Bsign y); reflexivity.
    + apply (cr_small _ 2 ltac:(lia) (A2 _ _)).
  - intros y x Hy Hx N. unfold cr_atan2. rewrite Hy, Hx. cbn [andb].
    assert (NZ : fval y <> 0 \/ fval x <> 0) by tauto. assert (K := Lcr_atan2 _ _ (T y Hy) (T x Hx) NZ). cbn [Lcr l_atan2] in K.
    destruct (Reqb_spec (fval y) 0) as [E|E].
    + destruct N as [N|[-> N]]; [tauto|]. cbn [Bsign Zero]. change (fval (Zero false)) with 0 in *.
      assert (P0 : atan2R 0 (fval x) = if Rltb (fval x) 0 then PI else 0).
      { unfold atan2R. unfold Rdiv. rewrite Rmult_0_l, atan_0. destruct (Rltb_spec (fval x) 0) as [C|C].
        - destruct (Rlt_dec 0 (fval x)) as [|_]; [lra|]. destruct (Rlt_dec (fval x) 0) as [_|]; [|lra]. destruct (Rle_dec 0 0) as [_|]; lra.
        - destruct (Rlt_dec 0 (fval x)) as [_|]; lra. }
      rewrite P0 in *. destruct (Rltb_spec 0 (fval x)) as [C|C].
      * destruct (Rltb_spec (fval x) 0); [lra|]. change (fval (Zero false)) with 0. rewrite Rminus_0_r, Rabs_R0. lra.
      * destruct (Rltb_spec (fval x) 0) as [_|]; [|lra]. destruct rep_pi as [_ ->]. exact K.
    + destruct (cr_small _ 2 ltac:(lia) (A2 (fval y) (fval x))) as [_ ->]. exact K.
  - intros y N. unfold cr_atan2. destruct (Reqb_spec (fval y) 0); [tauto|]. reflexivity.
  - intros x N. unfold cr_atan2. destruct (ffin x) eqn:Ex; cbn [ffin is_finite Zero andb].
    + change (fval (Zero true)) with 0. change (fval (Zero false)) with 0. destruct (Reqb_spec 0 0); [|lra].
      destruct (Rltb 0 (fval x)); [cbn; ring|]. destruct (Rltb (fval x) 0); [|cbn; ring]. change (Bsign (Zero true)) with true. change (Bsign (Zero false)) with false. cbv iota.
      destruct (rep_opp _ _ rep_pi) as [_ ->]. now destruct rep_pi as [_ ->].
    + destruct x; try discriminate; exfalso; now apply N.
  - intros x Hx P. unfold cr_atan2. rewrite Hx. cbn [ffin is_finite Zero andb]. change (fval (Zero false)) with 0. destruct (Reqb_spec 0 0); [|lra].
    destruct (Rltb_spec 0 (fval x)); [reflexivity|lra].
Qed.
(** e.g. the separation of the points (pi, 0) and (1, 0), on binary64 data with a correctly rounding libm *)
Example C94_eg : let r := @palDsep f64 (FA Fcr) fpi (flit 0) (flit 1) (flit 0) in
  ffin r = true /\ Rabs (fval r - (PI64 - 1)) <= 2.1e-15.
Proof.
  intros r. assert (V1 : fval (flit 1) = 1).
  { destruct (rb_lit 1 1) as [[_ K] _]; [rlit; apply Rabs_le; cbn; lra|lia|]. rewrite K. replace (litR 1) with 1 by (rlit; lra). apply rdZ. cbn. lia. }
  assert (V0 : fval (flit 0) = 0) by reflexivity. assert (VP : fval fpi = PI64) by (destruct rep_pi as [_ ->]; apply rd_PI).
  assert (K := C94_palDsep Fcr 2.3e-16 Fcr_ok ltac:(lra) fpi (flit 0) (flit 1) (flit 0) (PI64 - 1)). rewrite V1, V0, VP in K.
  assert (C := PI64_close). assert (P := PI64_pos).
  destruct K as [K1 K2]; try reflexivity.
  - unfold PI64 in *. lra.
  - unfold dot, dir. cbn [vx vy vz]. rewrite cos_minus, cos_0, sin_0. ring.
  - fold r in K1, K2. split; [exact K1|lra].
Qed.
