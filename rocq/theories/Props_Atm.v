(** * Theorems: the model atmosphere of palRefro (C71) *)
From Coq Require Import Reals ZArith Lra Lia Psatz Bool.
From Coquelicot Require Import Coquelicot.
From Interval Require Import Tactic.
From Verif Require Import Num NumR Geom M_Sphere M_Refr P_Refr Univ.
Local Open Scope R_scope.

(** ** Specification of the atmosphere (palRefro.c:57-99, pal1Atmt.c:40-70, pal1Atms.c:36-60): observer at distance [r0] from
    the centre of the Earth, pressure [p0] mb, temperature [t0] K, lapse rate [al] K/m; gravity [g]; dry air of molecular
    weight 28.9644, water vapour 18.0152, gas constant 8314.32. *)
Definition temp_at (r0 t0 al r : R) : R := t0 - al * (r - r0).
(** water vapour pressure falls as the 18.36th power of the temperature *)
Definition vapour (r0 t0 al pw r : R) : R := pw * Rpower (temp_at r0 t0 al r / t0) 18.36.
Definition gravity (phi h : R) : R := 9.784 * (1 - 0.0026 * cosR (2 * phi) - 0.00000028 * h).
(** density of moist air of total pressure [p], vapour pressure [pw], temperature [t] *)
Definition density (p pw t : R) : R := (28.9644 * (p - pw) + 18.0152 * pw) / (8314.32 * t).
(** water vapour pressure at the observer: relative humidity [rh], pressure [p] *)
Definition psat (t p : R) : R :=
  let c := t - 273.15 in powR 10 ((0.7859 + 0.03477 * c) / (1 + 0.00412 * c)) * (1 + p * (4.5e-6 + 6e-10 * c * c)).
Definition vapour0 (t p rh : R) : R := if Rlt_dec 0 p then rh * psat t p / (1 - (1 - rh) * psat t p / p) else 0.
(** refractivity: optical/IR below 100 micron, radio above *)
Definition refractivity (wl p pw t : R) : R :=
  if Rlt_dec wl 100 then
    ((287.6155 + (1.62887 + 0.01360 / (wl * wl)) / (wl * wl)) * 273.15e-6 / 1013.25 * p - 11.2684e-6 * pw) / t
  else (77.6890e-6 * p - 6.3938e-6 * pw) / t + 0.375463 * pw / (t * t).

Lemma powR_pos : forall x y, 0 < x -> powR x y = Rpower x y.
Proof. intros. unfold powR. destruct (Rlt_dec 0 x); [reflexivity|contradiction]. Qed.
Lemma Rpower_step : forall x y, 0 < x -> Rpower x y = Rpower x (y - 1) * x.
Proof. intros x y Hx. rewrite <- (Rpower_1 x Hx) at 3. rewrite <- Rpower_plus. f_equal. ring. Qed.
Lemma is_derive_temp : forall r0 t0 al (r : R), is_derive (temp_at r0 t0 al) r (- al).
Proof. intros. unfold temp_at. auto_derive; [exact I|ring]. Qed.
Lemma is_derive_tpow : forall r0 t0 al y (r : R), 0 < t0 -> 0 < temp_at r0 t0 al r ->
  is_derive (fun r => Rpower (temp_at r0 t0 al r / t0) y) r (- al / t0 * (y * Rpower (temp_at r0 t0 al r / t0) (y - 1))).
Proof.
  intros r0 t0 al y r Ht0 Ht.
  assert (D1 : is_derive (fun r : R => temp_at r0 t0 al r / t0) r (- al / t0)).
  { unfold temp_at. auto_derive; [lra|field; lra]. }
  assert (P : 0 < temp_at r0 t0 al r / t0) by (apply Rdiv_lt_0_compat; assumption).
  assert (D2 : is_derive (fun x : R => Rpower x y) (temp_at r0 t0 al r / t0) (y * Rpower (temp_at r0 t0 al r / t0) (y - 1))).
  { apply is_derive_Reals. apply derivable_pt_lim_power. exact P. }
  assert (D := is_derive_comp (fun x : R => Rpower x y) (fun r => temp_at r0 t0 al r / t0) r _ _ D2 D1).
  exact D.
Qed.

Section Atm.
  Variables (hm t0 p0 rh wl phi al : R).
  Hypotheses (Ht0 : 0 < t0) (Hal : 0 < al) (Hp0 : 0 <= p0).
  Let g := gravity phi hm. Let a := rf_atm (T := R) hm t0 p0 rh wl phi al.
  Let r0 := 6378120 + hm. Let pw0 := vapour0 t0 p0 rh.
  (** ratio of the scale heights; palRefro divides by 18.36 - gam *)
  Let gam := g * 28.9644 / 8314.32 / al.
  Hypothesis Hgam : gam <> 18.36.
  Definition atm_w : R := vapour0 t0 p0 rh * (1 - 18.0152 / 28.9644) * (gravity phi hm * 28.9644 / 8314.32 / al) / (18.36 - gravity phi hm * 28.9644 / 8314.32 / al).
  Let w := atm_w. Let T := temp_at r0 t0 al. Let tau r := T r / t0.
  Lemma atm_pw0 : rf_pwo t0 p0 rh = pw0.
  Proof.
    unfold rf_pwo, pw0, vapour0, psat. rops. replace (litR 0.0) with 0 by (rlit; lra). replace (litR 1.0) with 1 by (rlit; lra).
    replace (litR 273.15) with 273.15 by (rlit; lra). replace (litR 10.0) with 10 by (rlit; lra). replace (litR 0.7859) with 0.7859 by (rlit; lra).
    replace (litR 0.03477) with 0.03477 by (rlit; lra). replace (litR 0.00412) with 0.00412 by (rlit; lra). replace (litR 4.5e-6) with 4.5e-6 by (rlit; lra).
    replace (litR 6.0e-10) with 6e-10 by (rlit; lra).
    destruct (Rltb_spec 0 p0), (Rlt_dec 0 p0); try contradiction; reflexivity.
  Qed.
  Definition ref_a : R := if Rlt_dec wl 100 then (287.6155 + (1.62887 + 0.01360 / (wl * wl)) / (wl * wl)) * 273.15e-6 / 1013.25 else 77.6890e-6.
  Definition ref_b : R := if Rlt_dec wl 100 then 11.2684e-6 else 6.3938e-6.
  Definition ref_c : R := if Rlt_dec wl 100 then 0 else 0.375463.
  Lemma atm_vals : ra_alpha a = al /\ ra_gamal a = gam * al /\ ra_gamm2 a = gam - 2 /\ ra_delm2 a = 18.36 - 2 /\
    ra_c1 a = ref_a * (p0 + w) / t0 /\ ra_c2 a = (ref_a * w + ref_b * pw0) / t0 /\ ra_c5 a = ref_c * pw0 / t0 /\
    ra_c3 a = (gam - 1) * al * (ref_a * (p0 + w) / t0) / t0 /\ ra_c4 a = (18.36 - 1) * al * ((ref_a * w + ref_b * pw0) / t0) / t0 /\
    ra_c6 a = ref_c * pw0 / t0 * (18.36 - 2) * al / (t0 * t0).
  Proof.
    unfold a, rf_atm. cbn [ra_alpha ra_gamal ra_gamm2 ra_delm2 ra_c1 ra_c2 ra_c3 ra_c4 ra_c5 ra_c6]. rewrite !atm_pw0.
    assert (Eg : (#9.784 * (#1.0 - #0.0026 * cos (phi + phi) - #0.00000028 * hm) * rfDMD / rfGCR)%num = gam * al).
    { unfold gam, g, gravity, rfDMD, rfGCR. rops. replace (2 * phi) with (phi + phi) by ring.
      replace (litR 9.784) with 9.784 by (rlit; lra). replace (litR 1.0) with 1 by (rlit; lra). replace (litR 0.0026) with 0.0026 by (rlit; lra).
      replace (litR 0.00000028) with 0.00000028 by (rlit; lra). replace (litR 28.9644) with 28.9644 by (rlit; lra). replace (litR 8314.32) with 8314.32 by (rlit; lra).
      field. lra. }
    rewrite !Eg. clear Eg. unfold rf_optic, rf_a, rf_optic, rfDELTA, rfDMW, rfDMD. rops.
    replace (litR 18.36) with 18.36 by (rlit; lra). replace (litR 1.0) with 1 by (rlit; lra). replace (litR 2.0) with 2 by (rlit; lra). replace (litR 0.0) with 0 by (rlit; lra).
    replace (litR 18.0152) with 18.0152 by (rlit; lra). replace (litR 28.9644) with 28.9644 by (rlit; lra).
    replace (litR 100.0) with 100 by (rlit; lra).
    replace (gam * al / al) with gam by (field; lra). change (pw0 * (1 - 18.0152 / 28.9644) * gam / (18.36 - gam)) with w.
    unfold ref_a, ref_b, ref_c.
    destruct (Rltb_spec wl 100) as [L|L], (Rlt_dec wl 100) as [L'|L']; try contradiction.
    - replace (litR 287.6155) with 287.6155 by (rlit; lra). replace (litR 1.62887) with 1.62887 by (rlit; lra).
      replace (litR 0.01360) with 0.01360 by (rlit; lra). replace (litR 273.15e-6) with 273.15e-6 by (rlit; lra). replace (litR 1013.25) with 1013.25 by (rlit; lra).
      set (ra := (287.6155 + (1.62887 + 0.01360 / (wl * wl)) / (wl * wl)) * 273.15e-6 / 1013.25).
      replace (litR 11.2684e-6) with 11.2684e-6 by (rlit; lra).
      repeat (split; [first [reflexivity|field; lra]|]). field. lra.
    - replace (litR 77.6890e-6) with 77.6890e-6 by (rlit; lra). replace (litR 6.3938e-6) with 6.3938e-6 by (rlit; lra). replace (litR 375463e-6) with 0.375463 by (rlit; lra).
      repeat (split; [first [reflexivity|field; lra]|]). field. lra.
  Qed.
  Lemma refractivity_abc : forall p pw t, refractivity wl p pw t = (ref_a * p - ref_b * pw) / t + ref_c * pw / (t * t).
  Proof.
    intros. unfold refractivity, ref_a, ref_b, ref_c. destruct (Rlt_dec wl 100).
    - unfold Rdiv. ring.
    - reflexivity.
  Qed.
  (** pressure at distance [r] *)
  Definition pressure (r : R) : R :=
    (p0 + atm_w) * Rpower (temp_at (6378120 + hm) t0 al r / t0) (gravity phi hm * 28.9644 / 8314.32 / al)
    - atm_w * Rpower (temp_at (6378120 + hm) t0 al r / t0) 18.36.
  Lemma tau_pos : forall r, 0 < T r -> 0 < T r / t0. Proof. intros. apply Rdiv_lt_0_compat; assumption. Qed.
  Lemma layt_fst : forall r, 100 <= T r <= 320 ->
    fst (rf_layt a r0 t0 r) = 1 + (ra_c1 a * Rpower (T r / t0) (ra_gamm2 a) - (ra_c2 a - ra_c5 a / T r) * Rpower (T r / t0) (ra_delm2 a)) * (T r / t0).
  Proof.
    intros r Ht. unfold rf_layt, pal1Atmt. cbn [fst]. replace (ra_alpha a) with al by (symmetry; apply atm_vals).
    change (t0 - al * (r - r0))%num with (T r).
    replace (DMAX (DMIN (T r) #320.0) #100.0)%num with (T r).
    2:{ rops. rlit. unfold DMIN, DMAX. rops. rlit. destruct (Rltb_spec (T r) (3200/10)) as [L|L]; destruct (Rltb_spec (1000/10) (T r)) as [L2|L2]; try lra;
        match goal with |- context [Rltb ?x ?y] => destruct (Rltb_spec x y); lra end. }
    rops. rewrite !powR_pos by (apply tau_pos; lra). rlit. lra.
  Qed.
  Lemma T_pos : forall r, 100 <= T r -> 0 < T r. Proof. intros. lra. Qed.
  Lemma layt_snd : forall r, 100 <= T r <= 320 ->
    snd (rf_layt a r0 t0 r) = r * (- ra_c3 a * Rpower (T r / t0) (ra_gamm2 a) + (ra_c4 a - ra_c6 a / (T r / t0)) * Rpower (T r / t0) (ra_delm2 a)).
  Proof.
    intros r Ht. unfold rf_layt, pal1Atmt. cbn [snd]. replace (ra_alpha a) with al by (symmetry; apply atm_vals).
    change (t0 - al * (r - r0))%num with (T r).
    replace (DMAX (DMIN (T r) #320.0) #100.0)%num with (T r).
    2:{ rops. rlit. unfold DMIN, DMAX. rops. rlit. destruct (Rltb_spec (T r) (3200/10)) as [L|L]; destruct (Rltb_spec (1000/10) (T r)) as [L2|L2]; try lra;
        match goal with |- context [Rltb ?x ?y] => destruct (Rltb_spec x y); lra end. }
    rops. rewrite !powR_pos by (apply tau_pos; lra). reflexivity.
  Qed.
  Lemma layt_index : forall r, 100 <= T r <= 320 ->
    fst (rf_layt a r0 t0 r) = 1 + refractivity wl (pressure r) (vapour r0 t0 al pw0 r) (T r).
  Proof.
    intros r Ht. rewrite layt_fst by exact Ht. rewrite refractivity_abc. unfold pressure, vapour. fold g. fold gam. fold r0. fold w.
    change (temp_at r0 t0 al r) with (T r).
    destruct atm_vals as [_ [_ [E1 [E2 [E3 [E4 [E5 _]]]]]]]. rewrite E1, E2, E3, E4, E5. clear E1 E2 E3 E4 E5.
    assert (Hp := tau_pos r ltac:(lra)).
    rewrite (Rpower_step (T r / t0) gam), (Rpower_step (T r / t0) (gam - 1)), (Rpower_step (T r / t0) 18.36), (Rpower_step (T r / t0) (18.36 - 1)) by exact Hp.
    replace (gam - 1 - 1) with (gam - 2) by ring. replace (18.36 - 1 - 1) with (18.36 - 2) by ring.
    generalize (Rpower (T r / t0) (gam - 2)) (Rpower (T r / t0) (18.36 - 2)). intros X Y. generalize ref_a ref_b ref_c w pw0. intros.
    field. lra.
  Qed.
  Lemma layt_derive : forall r, 100 < T r < 320 -> r <> 0 ->
    is_derive (fun r => fst (rf_layt a r0 t0 r)) r (snd (rf_layt a r0 t0 r) / r).
  Proof.
    intros r Ht Hr. rewrite layt_snd by lra.
    assert (Hp := tau_pos r ltac:(lra)).
    assert (D : is_derive (fun s : R => 1 + (ra_c1 a * Rpower (T s / t0) (gam - 1) - ra_c2 a * Rpower (T s / t0) (18.36 - 1) + ra_c5 a / t0 * Rpower (T s / t0) (18.36 - 2))) r
      (ra_c1 a * (- al / t0 * ((gam - 1) * Rpower (T r / t0) (gam - 1 - 1))) - ra_c2 a * (- al / t0 * ((18.36 - 1) * Rpower (T r / t0) (18.36 - 1 - 1)))
       + ra_c5 a / t0 * (- al / t0 * ((18.36 - 2) * Rpower (T r / t0) (18.36 - 2 - 1))))).
    { assert (D1 := is_derive_tpow r0 t0 al (gam - 1) r Ht0 ltac:(apply T_pos; lra)).
      assert (D2 := is_derive_tpow r0 t0 al (18.36 - 1) r Ht0 ltac:(apply T_pos; lra)).
      assert (D3 := is_derive_tpow r0 t0 al (18.36 - 2) r Ht0 ltac:(apply T_pos; lra)).
      fold T in D1, D2, D3.
      set (f1 := fun s : R => Rpower (T s / t0) (gam - 1)) in *. set (f2 := fun s : R => Rpower (T s / t0) (18.36 - 1)) in *. set (f3 := fun s : R => Rpower (T s / t0) (18.36 - 2)) in *.
      assert (X := is_derive_plus _ _ r _ _ (is_derive_minus _ _ r _ _ (is_derive_scal f1 r (ra_c1 a) _ D1) (is_derive_scal f2 r (ra_c2 a) _ D2)) (is_derive_scal f3 r (ra_c5 a / t0) _ D3)).
      assert (Y := is_derive_plus (fun _ => 1) _ r _ _ (is_derive_const 1 r) X).
      refine (is_derive_cong _ _ r _ _ (fun _ => eq_refl) _ Y). unfold plus, minus, opp, zero. cbn -[Rpower]. unfold plus, opp; cbn -[Rpower]. ring. }
    assert (Hloc : locally r (fun s : R => 1 + (ra_c1 a * Rpower (T s / t0) (gam - 1) - ra_c2 a * Rpower (T s / t0) (18.36 - 1) + ra_c5 a / t0 * Rpower (T s / t0) (18.36 - 2)) = fst (rf_layt a r0 t0 s))).
    { assert (C : continuous T r) by (apply (ex_derive_continuous (V := R_NormedModule)); exists (- al); apply is_derive_temp).
      assert (L1 : locally r (fun s => 100 < T s)) by (apply (C (fun y => 100 < y)); apply (open_gt 100); lra).
      assert (L2 : locally r (fun s => T s < 320)) by (apply (C (fun y => y < 320)); apply (open_lt 320); lra).
      generalize (filter_and _ _ L1 L2). apply filter_imp. intros s [S1 S2].
      rewrite layt_fst by lra. assert (Hs := tau_pos s ltac:(lra)).
      destruct atm_vals as [_ [_ [E1 [E2 _]]]]. rewrite E1, E2.
      rewrite (Rpower_step (T s / t0) (gam - 1)), (Rpower_step (T s / t0) (18.36 - 1)) by exact Hs.
      replace (gam - 1 - 1) with (gam - 2) by ring. replace (18.36 - 1 - 1) with (18.36 - 2) by ring.
      generalize (Rpower (T s / t0) (gam - 2)) (Rpower (T s / t0) (18.36 - 2)). intros. field. lra. }
    apply (is_derive_ext_loc _ _ r _ Hloc).
    refine (is_derive_cong _ _ r _ _ (fun _ => eq_refl) _ D).
    destruct atm_vals as [_ [_ [E1 [E2 [E3 [E4 [E5 [E6 [E7 E8]]]]]]]]]. rewrite E1, E2, E3, E4, E5, E6, E7, E8. clear E1 E2 E3 E4 E5 E6 E7 E8.
    rewrite (Rpower_step (T r / t0) (18.36 - 2)) by exact Hp.
    replace (gam - 1 - 1) with (gam - 2) by ring. replace (18.36 - 1 - 1) with (18.36 - 2) by ring.
    rewrite (Rpower_step (T r / t0) (18.36 - 2)) by exact Hp.
    generalize (Rpower (T r / t0) (gam - 2)) (Rpower (T r / t0) (18.36 - 2 - 1)). intros X Y. generalize ref_a ref_b ref_c w pw0. intros.
    field. lra.
  Qed.
  Lemma pressure_surface : pressure r0 = p0.
  Proof.
    unfold pressure. fold r0. replace (temp_at r0 t0 al r0 / t0) with 1 by (unfold temp_at; field; lra).
    unfold Rpower. rewrite ln_1, !Rmult_0_r, exp_0. ring.
  Qed.
  Lemma pressure_hydro : forall r, 0 < T r ->
    is_derive pressure r (- (g * density (pressure r) (vapour r0 t0 al pw0 r) (T r))).
  Proof.
    intros r Ht. assert (Hp := tau_pos r Ht).
    assert (D1 := is_derive_tpow r0 t0 al gam r Ht0 Ht). assert (D2 := is_derive_tpow r0 t0 al 18.36 r Ht0 Ht).
    assert (X := is_derive_minus _ _ r _ _ (is_derive_scal _ r (p0 + w) _ D1) (is_derive_scal _ r w _ D2)).
    refine (is_derive_cong _ _ r _ _ (fun _ => eq_refl) _ X). unfold minus, opp, plus. cbn -[Rpower]. unfold plus, opp; cbn -[Rpower].
    unfold pressure, vapour, density. fold g. fold gam. fold r0. fold w. change (temp_at r0 t0 al r) with (T r).
    rewrite (Rpower_step (T r / t0) gam), (Rpower_step (T r / t0) 18.36) by exact Hp.
    assert (Ew : w * (18.36 - gam) = pw0 * (1 - 18.0152 / 28.9644) * gam).
    { unfold w, atm_w. fold g. fold gam. fold pw0. field. lra. }
    assert (Egl : g * 28.9644 / 8314.32 = gam * al) by (unfold gam; field; lra).
    transitivity (- (g * 28.9644 / 8314.32) * (((p0 + w) * (Rpower (T r / t0) (gam - 1) * (T r / t0)) - w * (Rpower (T r / t0) (18.36 - 1) * (T r / t0))
      - (1 - 18.0152 / 28.9644) * (pw0 * (Rpower (T r / t0) (18.36 - 1) * (T r / t0)))) / T r)).
    2:{ generalize (Rpower (T r / t0) (gam - 1)) (Rpower (T r / t0) (18.36 - 1)). intros. field. lra. }
    rewrite Egl. generalize (Rpower (T r / t0) (gam - 1)) (Rpower (T r / t0) (18.36 - 1)). intros Z2 Z1.
    assert (Ek : 18.36 * w = w * gam + pw0 * (1 - 18.0152 / 28.9644) * gam) by lra.
    set (K := 1 - 18.0152 / 28.9644) in *. clearbody K.
    transitivity (- al / t0 * ((p0 + w) * gam * Z2 - (18.36 * w) * Z1)); [field; lra|]. rewrite Ek. field. lra.
  Qed.
End Atm.

(** ** C71 *)
(** Below the tropopause: there is a pressure profile with the observer's pressure at the observer, in hydrostatic equilibrium
    with the moist air of the model, such that the refractive index the code uses is that of the air at that pressure, vapour
    pressure and temperature; and the second number the code uses is exactly r dn/dr. *)
Theorem C71_troposphere : forall hm t0 p0 rh wl phi al : R, 0 < t0 -> 0 < al -> 0 <= p0 ->
  gravity phi hm * 28.9644 / 8314.32 / al <> 18.36 ->
  let r0 := 6378120 + hm in let T := temp_at r0 t0 al in let Pw := vapour r0 t0 al (vapour0 t0 p0 rh) in
  let lay := rf_layt (rf_atm hm t0 p0 rh wl phi al) r0 t0 in
  exists P : R -> R, P r0 = p0 /\
    (forall r, 0 < T r -> is_derive P r (- (gravity phi hm * density (P r) (Pw r) (T r)))) /\
    (forall r, 100 <= T r <= 320 -> fst (lay r) = 1 + refractivity wl (P r) (Pw r) (T r)) /\
    (forall r, 100 < T r < 320 -> r <> 0 -> is_derive (fun r => fst (lay r)) r (snd (lay r) / r)).
Proof.
  intros hm t0 p0 rh wl phi al H1 H2 H3 H4 r0 T Pw lay. exists (pressure hm t0 p0 rh phi al).
  split; [|split; [|split]].
  - apply pressure_surface; assumption.
  - intros r Hr. apply pressure_hydro; assumption.
  - intros r Hr. apply layt_index; assumption.
  - intros r Hr Hr0. apply layt_derive; assumption.
Qed.
(** the temperature is linear in height, limited to 100 K .. 320 K *)
Theorem C71_temperature : forall hm t0 p0 rh wl phi al r : R,
  rf_tt (rf_atm hm t0 p0 rh wl phi al) (6378120 + hm) t0 r = Rmax (Rmin (temp_at (6378120 + hm) t0 al r) 320) 100.
Proof.
  intros. unfold rf_tt, pal1Atmt. rewrite DMAX_R, DMIN_R. unfold rf_atm. cbn [ra_alpha]. rops.
  replace (litR 320.0) with 320 by (rlit; lra). replace (litR 100.0) with 100 by (rlit; lra). reflexivity.
Qed.
(** at the observer: the refractivity of air in the conditions given *)
Theorem C71_surface : forall hm t0 p0 rh wl phi al : R, 100 <= t0 <= 320 -> 0 < al -> 0 <= p0 ->
  gravity phi hm * 28.9644 / 8314.32 / al <> 18.36 ->
  fst (rf_layt (rf_atm hm t0 p0 rh wl phi al) (6378120 + hm) t0 (6378120 + hm)) = 1 + refractivity wl p0 (vapour0 t0 p0 rh) t0.
Proof.
  intros hm t0 p0 rh wl phi al H1 H2 H3 H4.
  assert (ET : temp_at (6378120 + hm) t0 al (6378120 + hm) = t0) by (unfold temp_at; ring).
  rewrite layt_index; try first [lra|exact H2|exact H4].
  rewrite ET, pressure_surface; try first [lra|exact H2|exact H4]. unfold vapour. rewrite ET.
  replace (t0 / t0) with 1 by (field; lra). unfold Rpower. rewrite ln_1, Rmult_0_r, exp_0, Rmult_1_r. reflexivity.
Qed.
(** Above it: isothermal dry air.  The index is continuous at the tropopause, index minus one is proportional to the hydrostatic
    pressure of dry air at the tropopause temperature, and the second number is exactly r dn/dr. *)
Theorem C71_stratosphere : forall hm t0 p0 rh wl phi al rt tt dnt : R, 0 < tt ->
  let lay := pal1Atms rt tt dnt (ra_gamal (rf_atm hm t0 p0 rh wl phi al)) in
  fst (lay rt) = dnt /\
  (forall r, r <> 0 -> is_derive (fun r => fst (lay r)) r (snd (lay r) / r)) /\
  forall pt, 0 < pt -> exists P : R -> R, P rt = pt /\
    (forall r, is_derive P r (- (gravity phi hm * density (P r) 0 tt))) /\
    (forall r, fst (lay r) - 1 = (dnt - 1) * (P r / pt)) /\
    (dnt = 1 + refractivity wl pt 0 tt -> forall r, fst (lay r) = 1 + refractivity wl (P r) 0 tt).
Proof.
  intros hm t0 p0 rh wl phi al rt tt dnt Htt lay.
  set (b := gravity phi hm * 28.9644 / 8314.32 / tt).
  assert (L : forall r, lay r = (1 + (dnt - 1) * Rtrigo_def.exp (- b * (r - rt)), - r * b * ((dnt - 1) * Rtrigo_def.exp (- b * (r - rt))))).
  { intro r. unfold lay, pal1Atms, rf_atm. cbn [ra_gamal]. unfold rfDMD, rfGCR. rops.
    replace (litR 9.784) with 9.784 by (rlit; lra). replace (litR 1.0) with 1 by (rlit; lra). replace (litR 0.0026) with 0.0026 by (rlit; lra).
    replace (litR 0.00000028) with 0.00000028 by (rlit; lra). replace (litR 28.9644) with 28.9644 by (rlit; lra). replace (litR 8314.32) with 8314.32 by (rlit; lra).
    unfold b, gravity. replace (2 * phi) with (phi + phi) by ring. reflexivity. }
  assert (De : forall k (r : R), is_derive (fun s : R => k * Rtrigo_def.exp (- b * (s - rt))) r (- b * (k * Rtrigo_def.exp (- b * (r - rt))))).
  { intros k r. clearbody b. auto_derive; [exact I|]. replace (- b * (r + - rt)) with (- b * (r - rt)) by ring. generalize (Rtrigo_def.exp (- b * (r - rt))). intro. ring. }
  split; [|split].
  - rewrite L. cbn [fst]. replace (- b * (rt - rt)) with 0 by ring. rewrite exp_0. ring.
  - intros r Hr. rewrite L. cbn [snd].
    apply (is_derive_ext (fun s : R => 1 + (dnt - 1) * Rtrigo_def.exp (- b * (s - rt)))); [intro s; rewrite L; reflexivity|].
    assert (Y := is_derive_plus (fun _ => 1) _ r _ _ (is_derive_const 1 r) (De (dnt - 1) r)).
    refine (is_derive_cong _ _ r _ _ (fun _ => eq_refl) _ Y). unfold plus, zero. cbn. field. exact Hr.
  - intros pt Hpt. exists (fun r => pt * Rtrigo_def.exp (- b * (r - rt))). split; [|split; [|split]].
    + replace (- b * (rt - rt)) with 0 by ring. rewrite exp_0. ring.
    + intro r. refine (is_derive_cong _ _ r _ _ (fun _ => eq_refl) _ (De pt r)). unfold density, b. field. lra.
    + intro r. rewrite L. cbn [fst]. field. lra.
    + intros Hd r. rewrite L. cbn [fst]. rewrite Hd. unfold refractivity. destruct (Rlt_dec wl 100); unfold Rdiv; ring.
Qed.
(** The exception is real: for every height and latitude there is a lapse rate, inside the range palRefro accepts, for which
    it divides by zero (palRefro.c:268, [w = pwo*(1-dmw/dmd)*gamma/(delta-gamma)]). *)
Theorem C71_lapse_exception : forall phi hm : R, -1000 <= hm <= 80000 ->
  exists al, 0.001 < al < 0.01 /\ gravity phi hm * 28.9644 / 8314.32 / al = 18.36.
Proof.
  intros phi hm Hh. exists (gravity phi hm * 28.9644 / 8314.32 / 18.36).
  assert (G : 9.5 < gravity phi hm < 9.9).
  { unfold gravity. generalize (COS_bound (2 * phi)). change (Rtrigo_def.cos (2 * phi)) with (cosR (2 * phi)). generalize (cosR (2 * phi)). intros c Hc. split; lra. }
  split; [split; lra|]. field. lra.
Qed.
Example C71_eg : let hm := 0 in let al := 0.0065 in
  gravity 0 hm * 28.9644 / 8314.32 / al <> 18.36 /\ 100 < temp_at (6378120 + hm) 280 al (6378120 + 5000) < 320.
Proof.
  cbv zeta. split.
  - unfold gravity. replace (2 * 0) with 0 by ring. change cosR with Rtrigo_def.cos. rewrite cos_0. lra.
  - unfold temp_at. lra.
Qed.
