(** * C95, C96: exceptional values (NaN, infinities) and the loops they meet, in IEEE 754 binary64 *)
From Coq Require Import Reals ZArith Lra Lia Psatz Bool.
From Flocq Require Import Core IEEE754.BinarySingleNaN.
From Verif Require Import Num NumR NumD NumF Erfa Geom M_Sphere M_Time M_Refr M_Orbit P_Orbit Props_Refr Props_Ieee.
Local Open Scope R_scope.

(** ** NaN goes through every operation *)
Lemma nan_add_l : forall a, Bplus mode_NE NaN a = NaN. Proof. reflexivity. Qed.
Lemma nan_add_r : forall a, Bplus mode_NE a NaN = NaN. Proof. now intros []. Qed.
Lemma nan_sub_l : forall a, Bminus mode_NE NaN a = NaN. Proof. reflexivity. Qed.
Lemma nan_sub_r : forall a, Bminus mode_NE a NaN = NaN. Proof. now intros []. Qed.
Lemma nan_mul_l : forall a, Bmult mode_NE NaN a = NaN. Proof. reflexivity. Qed.
Lemma nan_mul_r : forall a, Bmult mode_NE a NaN = NaN. Proof. now intros []. Qed.
Lemma nan_div_l : forall a, Bdiv mode_NE NaN a = NaN. Proof. reflexivity. Qed.
Lemma nan_div_r : forall a, Bdiv mode_NE a NaN = NaN. Proof. now intros []. Qed.
Lemma nan_lt_r : forall a : f64, Bltb a NaN = false. Proof. now intros []. Qed.
Lemma nan_le_r : forall a : f64, Bleb a NaN = false. Proof. now intros []. Qed.
Lemma nan_eq_r : forall a : f64, Beqb a NaN = false. Proof. now intros []. Qed.
Lemma nan_lt_l : forall a : f64, Bltb NaN a = false. Proof. reflexivity. Qed.
Lemma nan_le_l : forall a : f64, Bleb NaN a = false. Proof. reflexivity. Qed.
Lemma nan_eq_l : forall a : f64, Beqb NaN a = false. Proof. reflexivity. Qed.
Lemma nan_opp : Bopp NaN = NaN. Proof. reflexivity. Qed.
Lemma nan_abs : Babs NaN = NaN. Proof. reflexivity. Qed.
Ltac nan := rewrite ?nan_opp, ?nan_abs; repeat (first [rewrite nan_add_l|rewrite nan_add_r|rewrite nan_sub_l|rewrite nan_sub_r|rewrite nan_mul_l|rewrite nan_mul_r
   |rewrite nan_div_l|rewrite nan_div_r|rewrite nan_lt_r|rewrite nan_le_r|rewrite nan_eq_r|rewrite nan_lt_l|rewrite nan_le_l|rewrite nan_eq_l|rewrite nan_opp|rewrite nan_abs]).
Ltac fops := cbn [add sub mul div opp ltb leb eqb fabs sqrt sin cos tan asin atan atan2
       exp log sinh pow fmod floor ceil ofZ toZ lit pi FA].

Local Transparent NITMAX.
Section F.
Variable F : FLibm.

(** ** C95: angles.  Infinities and NaN are never turned into ordinary angles *)
Lemma fmod_nonfin : forall a b, ffin a = false -> ffmod a b = NaN.
Proof. intros a b H. destruct a as [s|s| |s m e h]; try discriminate; now destruct b. Qed.
Theorem C95_palDrange : forall a, ffin a = false -> @palDrange f64 (FA F) a = NaN /\ @palDranrm f64 (FA F) a = NaN.
Proof.
  intros a H. unfold palDrange, palDranrm, eraAnp. fops. cbv zeta. rewrite fmod_nonfin by easy. nan. split; reflexivity.
Qed.

(** ** C95: palRefro replaces every NaN by a bound of the documented range: a result is always returned, and a NaN in the weather
    or in the zenith distance is not visible in it *)
Notation lit64 := (@lit f64 (FA F)).
Lemma max_nan : forall x : f64, @DMAX f64 (FA F) NaN x = x.
Proof. intros x. unfold DMAX. fops. now nan. Qed.
Lemma max_same : forall x : f64, @DMAX f64 (FA F) x x = x.
Proof. intros x. unfold DMAX. now destruct (ltb x x). Qed.
Lemma lit_drange : @palDrange f64 (FA F) (lit64 1.623156204) = lit64 1.623156204.
Proof. apply B2SF_inj. vm_compute. reflexivity. Qed.
Theorem C95_palRefro_nan : forall zobs hm tdk pmb rh wl phi tlr eps,
  let refro := @palRefro f64 (FA F) in
  (ffin zobs = false -> refro zobs hm tdk pmb rh wl phi tlr eps = refro (lit64 1.623156204) hm tdk pmb rh wl phi tlr eps) /\
  refro zobs NaN tdk pmb rh wl phi tlr eps = refro zobs (lit64 (-1e3)) tdk pmb rh wl phi tlr eps /\
  refro zobs hm NaN pmb rh wl phi tlr eps = refro zobs hm (lit64 100.0) pmb rh wl phi tlr eps /\
  refro zobs hm tdk NaN rh wl phi tlr eps = refro zobs hm tdk (lit64 0.0) rh wl phi tlr eps /\
  refro zobs hm tdk pmb NaN wl phi tlr eps = refro zobs hm tdk pmb (lit64 0.0) wl phi tlr eps /\
  refro zobs hm tdk pmb rh NaN phi tlr eps = refro zobs hm tdk pmb rh (lit64 0.1) phi tlr eps /\
  refro zobs hm tdk pmb rh wl phi NaN eps = refro zobs hm tdk pmb rh wl phi (lit64 0.001) eps /\
  refro zobs hm tdk pmb rh wl phi tlr NaN = refro zobs hm tdk pmb rh wl phi tlr (lit64 1e-12).
Proof.
  intros zobs hm tdk pmb rh wl phi tlr eps refro. unfold refro, palRefro, palRefro_fuel. cbv zeta.
  split; [|split; [|split; [|split; [|split; [|split; [|split]]]]]].
  - intros H. destruct (C95_palDrange zobs H) as [-> _].  rewrite lit_drange.
    assert (E1 : @DMIN f64 (FA F) (@fabs f64 (FA F) NaN) (@rfD93 f64 (FA F)) = @DMIN f64 (FA F) (@fabs f64 (FA F) (lit64 1.623156204)) (@rfD93 f64 (FA F))) by (apply B2SF_inj; vm_compute; reflexivity).
    assert (E2 : @ltb f64 (FA F) NaN (lit64 0.0) = @ltb f64 (FA F) (lit64 1.623156204) (lit64 0.0)) by (vm_compute; reflexivity).
    rewrite E1, E2. reflexivity.
  - assert (E : @opp f64 (FA F) (lit64 1e3) = lit64 (-1e3)) by (apply B2SF_inj; vm_compute; reflexivity).
    rewrite E, max_nan, max_same. reflexivity.
  - rewrite max_nan, max_same. reflexivity.
  - rewrite max_nan, max_same. reflexivity.
  - rewrite max_nan, max_same. reflexivity.
  - rewrite max_nan, max_same. reflexivity.
  - assert (E : @DMAX f64 (FA F) (@fabs f64 (FA F) NaN) (lit64 0.001) = @DMAX f64 (FA F) (@fabs f64 (FA F) (lit64 0.001)) (lit64 0.001)) by (apply B2SF_inj; vm_compute; reflexivity).
    rewrite E. reflexivity.
  - assert (E : @DMAX f64 (FA F) (@fabs f64 (FA F) NaN) (lit64 1e-12) = @DMAX f64 (FA F) (@fabs f64 (FA F) (lit64 1e-12)) (lit64 1e-12)) by (apply B2SF_inj; vm_compute; reflexivity).
    rewrite E. reflexivity.
Qed.

(** ** C96: palUe2pv.  The angle-halving loop ends within 513 rounds, or never *)
Lemma four : rep (flit 4.0) 4.
Proof. destruct (rb_lit 4.0 2) as [K _]; [rlit; rewrite Rabs_pos_eq by lra; change (bpow radix2 2) with 4; lra|lia|]. replace (litR 4.0) with 4 in K by (rlit; lra). rewrite (rdZ 4) in K by (cbn; lia). exact K. Qed.
Lemma half_ok : Bltb (flit 0.7) (Inf false) = true. Proof. vm_compute. reflexivity. Qed.
Lemma inf_four : forall s, Bdiv mode_NE (Inf s) (flit 4.0) = Inf s.
Proof. intros []; apply B2SF_inj; vm_compute; reflexivity. Qed.
Lemma halve_inf : forall hf n s psj psj2, @ue_halve f64 (FA F) hf n (Inf s) psj psj2 = None.
Proof.
  induction hf as [|hf IH]; intros n s psj psj2; cbn [ue_halve]; fops; change (Babs (Inf s)) with (Inf false); rewrite half_ok; [reflexivity|].
  rewrite inf_four. apply IH.
Qed.
Lemma halve_fin : forall k hf n beta b psj psj2, (k <= hf)%nat -> (k <= 513)%nat -> repb beta b (2 * Z.of_nat k - 1) -> exists x, @ue_halve f64 (FA F) hf n beta psj psj2 = Some x.
Proof.
  induction k as [|k IH]; intros hf n beta b psj psj2 Hk Hk6 H.
  - assert (E : Bltb (flit 0.7) (Babs beta) = false).
    { destruct (rb_lit 0.7 0) as [K _]; [rlit; rewrite Rabs_pos_eq by lra; change (bpow radix2 0) with 1; lra|lia|].
      rewrite (rep_ltb _ _ _ _ K (rep_abs _ _ (proj1 H))). destruct H as [_ H]. change (bpow radix2 (2 * Z.of_nat 0 - 1)) with (/ 2) in H.
      assert (/ 2 <= rd (litR 0.7)).
      { apply rd_ge; [|rlit; lra]. change (/ 2) with (bpow radix2 (-1)). apply generic_format_bpow. unfold d64, FLT_exp. lia. }
      destruct (Rltb_spec (rd (litR 0.7)) (Rabs b)); [lra|easy]. }
    destruct hf; cbn [ue_halve]; fops; rewrite E; eauto.
  - destruct hf as [|hf]; [lia|]. cbn [ue_halve]. fops. destruct (Bltb (flit 0.7) (Babs beta)); [|eauto].
    apply (IH hf _ _ (rd (b / 4))); [lia|lia|]. replace (2 * Z.of_nat k - 1)%Z with (2 * Z.of_nat (S k) - 1 - 2)%Z by lia.
    apply rb_div; [easy|apply four| |lia]. rewrite Rabs_pos_eq by lra. change (bpow radix2 2) with 4. lra.
Qed.
Lemma halve_nan : forall hf n psj psj2, @ue_halve f64 (FA F) hf n NaN psj psj2 = Some (n, NaN, psj, psj2).
Proof. intros [|hf] n psj psj2; cbn [ue_halve]; fops; nan; reflexivity. Qed.
Lemma halve_cases : forall beta, (exists s, beta = Inf s) \/ forall n psj psj2 hf, (513 <= hf)%nat -> exists x, @ue_halve f64 (FA F) hf n beta psj psj2 = Some x.
Proof.
  intros beta. destruct (ffin beta) eqn:E.
  - right. intros n psj psj2 hf H. apply (halve_fin 513 hf n beta (fval beta)); [lia|lia|]. apply (rb_weak _ _ 1024); [|lia]. apply rb_any. now split.
  - destruct beta as [s|s| |s m e h]; try discriminate; [left; now exists s|]. right. intros n psj psj2 hf _. exists (n, NaN, psj, psj2). apply halve_nan.
Qed.
Lemma sfun_cases : forall al psi, (forall hf, @ue_sfun f64 (FA F) hf al psi = None) \/ exists x, forall hf, (513 <= hf)%nat -> @ue_sfun f64 (FA F) hf al psi = Some x.
Proof.
  intros al psi. set (b := @mul f64 (FA F) al (@mul f64 (FA F) psi psi)). destruct (halve_cases b) as [[s E]|H].
  - left. intros hf. unfold ue_sfun. fold b. rewrite E, halve_inf. reflexivity.
  - right. destruct (H 0%nat psi (@mul f64 (FA F) psi psi) 513%nat (le_n _)) as [[[[n beta] pj] pj2] E].
    eexists. intros hf Hf. unfold ue_sfun. fold b. rewrite (ue_halve_mono _ _ _ _ _ _ E _ Hf). reflexivity.
Qed.
Lemma iter_cases : forall left cm al r0 sg dt psi pl fl first,
  (forall hf, (513 <= hf)%nat -> @ue_iter f64 (FA F) left hf cm al r0 sg dt psi pl fl first = None) \/
  exists x, forall hf, (513 <= hf)%nat -> @ue_iter f64 (FA F) left hf cm al r0 sg dt psi pl fl first = Some x.
Proof.
  induction left as [|k IH]; intros cm al r0 sg dt psi pl fl first; (destruct (sfun_cases al psi) as [N|[[s tol] E]];
    [left; intros hf _; cbn [ue_iter]; now rewrite N|]).
  - right. eexists. intros hf Hf. cbn [ue_iter]. rewrite (E hf Hf). 
    match goal with |- (if ?c then ?p else ?q) = _ => instantiate (1 := if c then UFail _ else UFail _); destruct c; reflexivity end.
  - cbv beta. 
    set (ff := @sub f64 (FA F) (@add f64 (FA F) (@add f64 (FA F) (@mul f64 (FA F) r0 (uf1 s)) (@mul f64 (FA F) sg (uf2 s))) (@mul f64 (FA F) cm (uf3 s))) dt).
    set (r := @add f64 (FA F) (@add f64 (FA F) (@mul f64 (FA F) r0 (uf0 s)) (@mul f64 (FA F) sg (uf1 s))) (@mul f64 (FA F) cm (uf2 s))).
    set (fl' := if first then ff else fl). set (sec := @ltb f64 (FA F) (@mul f64 (FA F) ff fl') (@lit f64 (FA F) 0.0)).
    set (w := if sec then @div f64 (FA F) (@mul f64 (FA F) ff (@sub f64 (FA F) pl psi)) (@sub f64 (FA F) fl' ff) else @div f64 (FA F) ff r).
    assert (U : forall hf, (513 <= hf)%nat -> @ue_iter f64 (FA F) (S k) hf cm al r0 sg dt psi pl fl first =
      if (negb sec && @eqb f64 (FA F) r (@lit f64 (FA F) 0.0))%bool then Some (UFail (-1)) else
      if @leb f64 (FA F) tol (@fabs f64 (FA F) w) then @ue_iter f64 (FA F) k hf cm al r0 sg dt (@sub f64 (FA F) psi w) psi ff false else Some (UDone s r (@sub f64 (FA F) psi w))).
    { intros hf Hf. cbn [ue_iter]. rewrite (E hf Hf). reflexivity. }
    destruct (negb sec && _)%bool; [right; eexists; intros hf Hf; now rewrite (U hf Hf)|].
    destruct (leb _ _); [|right; eexists; intros hf Hf; now rewrite (U hf Hf)].
    destruct (IH cm al r0 sg dt (@sub f64 (FA F) psi w) psi ff false) as [N|[x Hx]].
    + left. intros hf Hf. rewrite (U hf Hf). now apply N.
    + right. exists x. intros hf Hf. rewrite (U hf Hf). now apply Hx.
Qed.
(** C96: on any binary64 data whatever, palUe2pv either returns, having halved the angle at most 513 times in each of its at
    most 26 rounds, or never returns *)
Theorem C96_returns_or_never : forall date u pv0,
  (forall hf, @palUe2pv f64 (FA F) hf date u pv0 = None) \/
  exists x, forall hf, (513 <= hf)%nat -> @palUe2pv f64 (FA F) hf date u pv0 = Some x.
Proof.
  intros date u pv0.
  assert (G : (forall hf, (513 <= hf)%nat -> @palUe2pv f64 (FA F) hf date u pv0 = None) \/
    exists x, forall hf, (513 <= hf)%nat -> @palUe2pv f64 (FA F) hf date u pv0 = Some x).
  { unfold palUe2pv. cbv zeta.
    match goal with |- context [@ue_iter f64 (FA F) NITMAX _ ?a ?b ?c ?d ?e ?f ?g ?h ?i] => destruct (iter_cases NITMAX a b c d e f g h i) as [N|[x H]] end.
    - left. intros hf Hf. now rewrite (N hf Hf).
    - right. destruct x as [st|s r psi]; eexists; intros hf Hf; rewrite (H hf Hf); reflexivity. }
  destruct G as [G|G]; [left|now right]. intros hf. destruct (palUe2pv hf date u pv0) as [x|] eqn:E; [|easy].
  assert (K := palUe2pv_mono _ _ _ _ _ E (Nat.max hf 513) ltac:(lia)). rewrite G in K by lia. discriminate.
Qed.
(** C96: an infinite date, for any body on an elliptic or hyperbolic orbit, is one of the cases in which it never returns *)
Lemma inf_add : forall s a, ffin a = true -> Bplus mode_NE a (Inf s) = Inf s.
Proof. intros s a H. now destruct a. Qed.
Lemma inf_sub : forall s a, ffin a = true -> Bminus mode_NE (Inf s) a = Inf s.
Proof. intros s a H. now destruct a. Qed.
Lemma inf_mul : forall s a, ffin a = true -> fval a <> 0 -> exists s', Bmult mode_NE (Inf s) a = Inf s' /\ Bmult mode_NE a (Inf s) = Inf s'.
Proof. intros s a H N. destruct a as [sa|sa| |sa m e h]; try discriminate; [exfalso; now apply N|]. eexists. split; [reflexivity|]. cbn. unfold Inf. f_equal. apply xorb_comm. Qed.
Lemma inf_div : forall s a, ffin a = true -> exists s', Bdiv mode_NE (Inf s) a = Inf s'.
Proof. intros s a H. destruct a; try discriminate; eexists; reflexivity. Qed.
Theorem C96_infinite_date : forall s u pv0, ffin (u_psi u) = true -> ffin (u_t u) = true -> ffin (u_r0 u) = true ->
  ffin (u_alpha u) = true -> fval (u_alpha u) <> 0 -> forall hf, @palUe2pv f64 (FA F) hf (Inf s) u pv0 = None.
Proof.
  intros s u pv0 H1 H2 H3 H4 H5 hf. unfold palUe2pv. cbv zeta. fops. rewrite (inf_sub s _ H2).
  assert (G : ffin (@GCON f64 (FA F)) = true /\ fval (@GCON f64 (FA F)) <> 0).
  { unfold GCON. fops. destruct (rb_lit 0.01720209895 0) as [[K1 K2] _]; [rlit; rewrite Rabs_pos_eq by lra; change (bpow radix2 0) with 1; lra|lia|].
    split; [exact K1|]. rewrite K2. assert (bpow radix2 (-6) <= rd (litR 0.01720209895)); [|assert (0 < bpow radix2 (-6)) by apply bpow_gt_0; lra].
    apply rd_ge; [apply generic_format_bpow; unfold d64, FLT_exp; lia|]. change (bpow radix2 (-6)) with (/ 64). rlit. lra. }
  destruct G as [G1 G2]. destruct (inf_mul s _ G1 G2) as (s1 & -> & _). destruct (inf_div s1 _ H3) as (s2 & ->). rewrite (inf_add s2 _ H1).
  assert (K : forall hf, @ue_sfun f64 (FA F) hf (u_alpha u) (Inf s2) = None).
  { intros hf'. unfold ue_sfun. fops. cbv zeta. change (Bmult mode_NE (Inf s2) (Inf s2)) with (Inf (xorb s2 s2)).
    destruct (inf_mul (xorb s2 s2) _ H4 H5) as (s3 & _ & E). rewrite E, halve_inf. reflexivity. }
  change NITMAX with (S 24). generalize 24%nat. intros k. cbn [ue_iter]. now rewrite K.
Qed.
(** C95: with a NaN date it returns with status 0 and six NaNs *)
Theorem C95_palUe2pv_nan : forall hf u pv0, exists u', @palUe2pv f64 (FA F) hf NaN u pv0 =
  Some (0%Z, u', PV (V NaN NaN NaN) (V NaN NaN NaN)).
Proof.
  intros hf u pv0. unfold palUe2pv. cbv zeta. fops. nan.
  assert (K : @ue_sfun f64 (FA F) hf (u_alpha u) NaN = Some (UF NaN NaN NaN NaN, @lit f64 (FA F) 1e-13)).
  { unfold ue_sfun. fops. cbv zeta. nan. rewrite halve_nan. cbn [ue_double]. unfold ue_series. fops. cbv zeta. nan. reflexivity. }
  change NITMAX with (S 24). generalize 24%nat. intros k. cbn [ue_iter]. rewrite K. cbn [uf0 uf1 uf2 uf3]. fops. nan. cbn [negb andb]. nan. eexists. unfold ue_project. fops. cbn [uf0 uf1 uf2 uf3]. nan. reflexivity.
Qed.
Theorem C96_palPlantu_infinite_date : forall epv00 prenut gmst hf junk s elong phi u,
  ffin (u_psi u) = true -> ffin (u_t u) = true -> ffin (u_r0 u) = true -> ffin (u_alpha u) = true -> fval (u_alpha u) <> 0 ->
  @palPlantu f64 (FA F) epv00 prenut gmst hf junk (Inf s) elong phi u = None.
Proof.
  intros epv00 prenut gmst hf junk s elong phi u H1 H2 H3 H4 H5. unfold palPlantu. match goal with |- (let (_, _) := ?t in _) = _ => destruct t as [[[ph vh] x] y] end.
  now rewrite (C96_infinite_date s u junk H1 H2 H3 H4 H5).
Qed.
(** C95: the validity checks of palPv2ue let NaN through *)
Theorem C95_palPv2ue_nan : forall v date pmass x y z, (x = NaN \/ y = NaN \/ z = NaN) ->
  Bltb pmass (flit 0.0) = false ->
  fst (@palPv2ue f64 (FA F) (PV (V x y z) v) date pmass) = (-3)%Z \/
  exists u, @palPv2ue f64 (FA F) (PV (V x y z) v) date pmass = (0%Z, Some u) /\ u_r0 u = NaN /\ u_alpha u = NaN.
Proof.
  intros v date pmass x y z H P. unfold palPv2ue. fops. rewrite P. cbv zeta. cbn [pvp pvv vx vy vz].
  set (r2 := Bplus _ (Bplus _ _ _) (Bmult _ z z)). assert (R2 : r2 = NaN) by (unfold r2; destruct H as [->|[->| ->]]; nan; reflexivity).
  rewrite R2. change (Bsqrt mode_NE NaN) with NaN. nan. destruct (Bltb _ (flit 1e-3)); [now left|]. right. eexists. split; [reflexivity|]. cbn [u_r0 u_alpha]. nan. tauto.
Qed.
(** and those of palDjcl: status 0, and the conversion of a NaN to int, which C leaves undefined *)
Theorem C95_palDjcl_nan : fst (@palDjcl f64 (FA F) NaN) = 0%Z.
Proof. unfold palDjcl, eraJd2cal. fops. nan. cbn [orb]. reflexivity. Qed.

(** ** C95: a libm that knows about NaN and infinities (C99 Annex F) *)
Record libm_nan : Prop := {
  ln_sin : forall a, ffin a = false -> f_sin F a = NaN; ln_cos : forall a, ffin a = false -> f_cos F a = NaN;
  ln_at_l : forall x, f_atan2 F NaN x = NaN; ln_at_r : forall y, f_atan2 F y NaN = NaN }.
Hypothesis LN : libm_nan.
Lemma notfin_sub : forall a b, ffin a = false \/ ffin b = false -> ffin (Bminus mode_NE a b) = false.
Proof.
  intros a b H. destruct a as [sa|sa| |sa ma ea ha], b as [sb|sb| |sb mb eb hb]; destruct H as [H|H]; try discriminate; try reflexivity.
  destruct sa, sb; reflexivity. destruct sa, sb; reflexivity.
Qed.
Ltac nans := repeat match goal with H : ffin ?a = false |- _ => progress rewrite ?(ln_sin LN a H), ?(ln_cos LN a H) end; nan; rewrite ?(ln_at_l LN), ?(ln_at_r LN); nan.
Ltac tr := match goal with H : _ \/ _ |- _ => destruct H as [H|H]; [|tr] | _ => idtac end.
Ltac each := repeat match goal with H : _ \/ _ |- _ => destruct H as [H|H] end.
Lemma sqrt_nan : Bsqrt mode_NE NaN = NaN. Proof. reflexivity. Qed.
Theorem C95_palDsep : forall a b c d, ffin a = false \/ ffin b = false \/ ffin c = false \/ ffin d = false -> @palDsep f64 (FA F) a b c d = NaN.
Proof.
  intros a b c d H. unfold palDsep, eraSeps, eraSepp, eraS2c, eraPm, eraPxp, eraPdp. fops. cbn [vx vy vz]. cbv zeta.
  each; nans; rewrite ?sqrt_nan; nans; cbn [negb orb]; rewrite ?orb_true_r; nans; reflexivity.
Qed.
Theorem C95_palDbear : forall a b c d, ffin a = false \/ ffin b = false \/ ffin c = false \/ ffin d = false -> @palDbear f64 (FA F) a b c d = NaN.
Proof.
  intros a b c d H. unfold palDbear, eraPas. fops. cbv zeta.
  each; try (assert (K := notfin_sub c a ltac:(tauto))); nans; cbn [negb orb]; rewrite ?orb_true_r; nans; reflexivity.
Qed.
Theorem C95_palDe2h : forall a b c, ffin a = false \/ ffin b = false \/ ffin c = false ->
  @palDe2h f64 (FA F) a b c = (NaN, NaN) /\ @palDh2e f64 (FA F) a b c = (NaN, NaN).
Proof.
  intros a b c H. unfold palDe2h, palDh2e. fops. cbv zeta. each; nans; rewrite ?sqrt_nan; nans; split; reflexivity.
Qed.
(** palDs2tp says "antistar too far from the axis" *)
Theorem C95_palDs2tp : forall a b c d, ffin a = false \/ ffin b = false \/ ffin c = false \/ ffin d = false ->
  @palDs2tp f64 (FA F) a b c d = (NaN, NaN, 3%Z).
Proof.
  intros a b c d H. unfold palDs2tp. fops. cbv zeta.
  each; try (assert (K := notfin_sub a c ltac:(tauto))); nans; reflexivity.
Qed.
Theorem C95_palAirmas : @palAirmas f64 (FA F) NaN = NaN /\ forall s, @palAirmas f64 (FA F) (Inf s) = @palAirmas f64 (FA F) (@mul f64 (FA F) (@lit f64 (FA F) 87) (@DD2R f64 (FA F))).
Proof.
  split; [unfold palAirmas; fops; cbv zeta; nan; rewrite (ln_cos LN NaN) by reflexivity; now nan|]. intros s. unfold palAirmas. cbv zeta. set (m := @mul f64 (FA F) (@lit f64 (FA F) 87) DD2R).
  assert (E1 : @ltb f64 (FA F) m (@fabs f64 (FA F) (Inf s)) = true) by (change (@fabs f64 (FA F) (Inf s)) with (Inf false); vm_compute; reflexivity).
  assert (E2 : @fabs f64 (FA F) m = m) by (apply B2SF_inj; vm_compute; reflexivity).
  rewrite E1, E2. destruct (ltb m m); reflexivity.
Qed.
End F.

(** ** Non-vacuity *)
(** the Earth's orbit, asked for the date 1e200: finite, and palUe2pv does not return *)
Definition u_earth : ue f64 := UE (flit 1) (flit (-1)) (flit 51544.5) (V (flit 1) (flit 0) (flit 0)) (V (flit 0) (flit 1) (flit 0)) (flit 1) (flit 0) (flit 51544.5) (flit 0).
Theorem C96_finite_date : forall F hf pv0, ffin (flit 1e200) = true /\ @palUe2pv f64 (FA F) hf (flit 1e200) u_earth pv0 = None.
Proof.
  intros F hf pv0. split; [vm_compute; reflexivity|]. unfold palUe2pv. cbv zeta.
  set (psi := @add f64 (FA F) (u_psi u_earth) _).
  assert (E : @mul f64 (FA F) (u_alpha u_earth) (@mul f64 (FA F) psi psi) = Inf true) by (apply B2SF_inj; vm_compute; reflexivity).
  assert (K : @ue_sfun f64 (FA F) hf (u_alpha u_earth) psi = None) by (unfold ue_sfun; rewrite E, halve_inf; reflexivity).
  change NITMAX with (S 24). generalize 24%nat. intros k. cbn [ue_iter]. now rewrite K.
Qed.
Example C96_eg : (forall F hf pv0, @palUe2pv f64 (FA F) hf (Inf false) u_earth pv0 = None).
Proof.
  intros. apply C96_infinite_date; try (vm_compute; reflexivity). destruct (rb_lit (-1) 1) as [[_ K] _]; [rlit; apply Rabs_le; change (bpow radix2 1) with 2; lra|lia|].
  unfold u_earth; cbn [u_alpha]. rewrite K. replace (litR (-1)) with (-1) by (rlit; lra). rewrite (rdZ (-1)) by (cbn; lia). lra.
Qed.
Example C96_eg2 : forall F, exists x, @palUe2pv f64 (FA F) 513 (flit 51600) u_earth (PV (V NaN NaN NaN) (V NaN NaN NaN)) = Some x /\ fst (fst x) = 0%Z.
Proof.
  intros F. destruct (palUe2pv 513 (flit 51600) u_earth _) as [[[st u] p]|] eqn:E.
  - eexists. split; [reflexivity|]. cbn [fst].
    assert (K : option_map (fun x => fst (fst x)) (@palUe2pv f64 (FA F) 513 (flit 51600) u_earth (PV (V NaN NaN NaN) (V NaN NaN NaN))) = Some 0%Z) by (vm_compute; reflexivity).
    rewrite E in K. now injection K.
  - exfalso. assert (K : match @palUe2pv f64 (FA F) 513 (flit 51600) u_earth (PV (V NaN NaN NaN) (V NaN NaN NaN)) with None => true | _ => false end = false) by (vm_compute; reflexivity).
    rewrite E in K. discriminate.
Qed.
Example C95_eg : libm_nan Props_Ieee.Fcr /\ @palDsep f64 (FA Props_Ieee.Fcr) NaN (flit 1) (flit 2) (flit 1) = NaN /\
  @palDs2tp f64 (FA Props_Ieee.Fcr) (Inf true) (flit 1) (flit 2) (flit 1) = (NaN, NaN, 3%Z).
Proof.
  assert (N : libm_nan Props_Ieee.Fcr).
  { constructor; cbn [Props_Ieee.Fcr f_sin f_cos f_atan2]; unfold Props_Ieee.cr1, Props_Ieee.cr_atan2.
    - intros a H. now rewrite H.
    - intros a H. now rewrite H.
    - reflexivity.
    - intros y. now destruct (ffin y). }
  split; [exact N|]. split; [apply (C95_palDsep _ N); now left|apply (C95_palDs2tp _ N); now left].
Qed.
