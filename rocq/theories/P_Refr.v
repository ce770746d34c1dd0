(** * Lemmas about the refraction models. *)
From Coq Require Import Reals ZArith Lra Lia Psatz Bool.
From Verif Require Import Num NumR Geom M_Sphere P_Sphere M_Refr.
Local Open Scope R_scope.

(** ** Termination of palRefro's loops, for any arithmetic *)
Section Term.
  Context {T : Type} {A : Arith T}.
  (** more fuel than needed changes nothing *)
  Lemma rf_pass_more : forall fuel k lay sk0 z0 h is n i r fo fe v,
    rf_pass fuel lay sk0 z0 h is n i r fo fe = Some v ->
    rf_pass (fuel + k) lay sk0 z0 h is n i r fo fe = Some v.
  Proof.
    induction fuel as [|fuel IH]; intros k lay sk0 z0 h is n i r fo fe v H; [discriminate|].
    cbn [rf_pass plus] in *. destruct (i <? is)%Z; [|exact H].
    destruct (lay _) as [dn rdndr]. destruct ((n =? 1)%Z && (i mod 2 =? 0)%Z)%bool; apply IH; exact H.
  Qed.
  Lemma rf_pass_some : forall fuel lay sk0 z0 h is n i r fo fe,
    (1 <= n)%Z -> (0 < fuel)%nat -> (is - i < Z.of_nat fuel)%Z ->
    exists v, rf_pass fuel lay sk0 z0 h is n i r fo fe = Some v.
  Proof.
    induction fuel as [|fuel IH]; intros lay sk0 z0 h is n i r fo fe Hn H0 Hf; [lia|].
    cbn [rf_pass]. destruct (Z.ltb_spec i is); [|now eexists].
    destruct (lay _) as [dn rdndr]. destruct ((n =? 1)%Z && (i mod 2 =? 0)%Z)%bool; apply IH; lia.
  Qed.
  Lemma rf_loop_more : forall fuel k pf pk lay sk0 z0 zr fb ff r0 tol is n fo fe ro v,
    rf_loop fuel pf lay sk0 z0 zr fb ff r0 tol is n fo fe ro = Some v ->
    rf_loop (fuel + k) (pf + pk) lay sk0 z0 zr fb ff r0 tol is n fo fe ro = Some v.
  Proof.
    induction fuel as [|fuel IH]; intros k pf pk lay sk0 z0 zr fb ff r0 tol is n fo fe ro v H; [discriminate|].
    cbn [rf_loop plus] in *.
    destruct (rf_pass pf lay sk0 z0 _ is n 1 r0 fo fe) as [[[r fo'] fe']|] eqn:E; [|discriminate].
    rewrite (rf_pass_more _ pk _ _ _ _ _ _ _ _ _ _ _ E).
    destruct ((_ <? _)%num && (is <? rfISMAX)%Z)%bool; [apply IH; exact H|exact H].
  Qed.
  Lemma rf_loop_some : forall fuel pf lay sk0 z0 zr fb ff r0 tol is n fo fe ro,
    (1 <= n)%Z -> (0 < is <= 16384)%Z -> (16384 <= Z.of_nat pf)%Z -> (0 < fuel)%nat ->
    (16384 <= is * 2 ^ (Z.of_nat fuel - 1))%Z -> (exists j, 0 <= j /\ is * 2 ^ j = 16384)%Z ->
    exists v, rf_loop fuel pf lay sk0 z0 zr fb ff r0 tol is n fo fe ro = Some v.
  Proof.
    induction fuel as [|fuel IH]; intros pf lay sk0 z0 zr fb ff r0 tol is n fo fe ro Hn His Hp H0 Hf (j & Hj0 & Hj); [lia|].
    cbn [rf_loop].
    assert (H1 : (0 < pf)%nat) by lia. assert (H2 : (is - 1 < Z.of_nat pf)%Z) by lia.
    destruct (rf_pass_some pf lay sk0 z0 (zr / ofZ is)%num is n 1 r0 fo fe Hn H1 H2) as [[[r fo'] fe'] E].
    rewrite E. destruct (_ <? _)%num; [|now eexists]. cbn [andb]. unfold rfISMAX.
    destruct (Z.ltb_spec is 16384) as [Hlt|Hge]; [|now eexists].
    assert (j <> 0)%Z by (intros ->; lia).
    assert (E1 : (is * 2 ^ j = (is + is) * 2 ^ (j - 1))%Z).
    { replace j with (Z.succ (j - 1)) at 1 by lia. rewrite Z.pow_succ_r by lia. lia. }
    assert (Hub : (is + is <= 16384)%Z).
    { assert (Hq : (0 < 2 ^ (j - 1))%Z) by (apply Z.pow_pos_nonneg; lia).
      rewrite E1 in Hj. revert Hq Hj. generalize (2 ^ (j - 1))%Z. clear -His. intros q Hq Hj.
      assert ((is + is) * 1 <= (is + is) * q)%Z by (apply Z.mul_le_mono_nonneg_l; lia). lia. }
    apply IH; try lia.
    - destruct fuel; [cbn in Hf; lia|lia].
    - destruct fuel; [cbn in Hf; lia|].
      replace (Z.of_nat (S (S fuel)) - 1)%Z with (Z.succ (Z.of_nat (S fuel) - 1)) in Hf by lia.
      rewrite Z.pow_succ_r in Hf by lia. lia.
    - exists (j - 1)%Z. split; lia.
  Qed.
  Lemma rf_loop_start : forall lay sk0 z0 zr fb ff r0 tol fo fe ro,
    exists v, rf_loop 12 (Z.to_nat rfISMAX) lay sk0 z0 zr fb ff r0 tol 8 1 fo fe ro = Some v.
  Proof.
    intros. apply rf_loop_some; try (unfold rfISMAX; lia). exists 11%Z. lia.
  Qed.
  Lemma rf_core_some : forall z hm tdk pmb rh wl phi al tol,
    exists v, rf_core 12 (Z.to_nat rfISMAX) z hm tdk pmb rh wl phi al tol = Some v.
  Proof.
    intros. unfold rf_core. cbv zeta.
    destruct (rf_layt _ _ _ _) as [dn0 rd0]. destruct (rf_layt _ _ _ _) as [dnt rdt].
    destruct (pal1Atms _ _ _ _ _) as [dnts rdts]. destruct (pal1Atms _ _ _ _ _) as [dns rds].
    match goal with |- context [match ?l with _ => _ end] => destruct (ltac:(apply rf_loop_start) : exists v, l = Some v) as [a ->] end.
    match goal with |- context [match ?l with _ => _ end] => destruct (ltac:(apply rf_loop_start) : exists v, l = Some v) as [b ->] end.
    now eexists.
  Qed.
  Lemma rf_core_more : forall k pk z hm tdk pmb rh wl phi al tol v,
    rf_core 12 (Z.to_nat rfISMAX) z hm tdk pmb rh wl phi al tol = Some v ->
    rf_core (12 + k) (Z.to_nat rfISMAX + pk) z hm tdk pmb rh wl phi al tol = Some v.
  Proof.
    intros k pk z hm tdk pmb rh wl phi al tol v. unfold rf_core. cbv zeta.
    destruct (rf_layt _ _ _ _) as [dn0 rd0]. destruct (rf_layt _ _ _ _) as [dnt rdt].
    destruct (pal1Atms _ _ _ _ _) as [dnts rdts]. destruct (pal1Atms _ _ _ _ _) as [dns rds].
    match goal with |- context [match ?l with _ => _ end = Some v -> _] => destruct l as [a|] eqn:Ea; [|discriminate] end.
    match goal with |- context [match ?l with _ => _ end = Some v -> _] => destruct l as [b|] eqn:Eb; [|discriminate] end.
    rewrite (rf_loop_more _ k _ pk _ _ _ _ _ _ _ _ _ _ _ _ _ _ Ea), (rf_loop_more _ k _ pk _ _ _ _ _ _ _ _ _ _ _ _ _ _ Eb). easy.
  Qed.
  Lemma palRefro_total : forall fuel pf zobs hm tdk pmb rh wl phi tlr eps,
    (12 <= fuel)%nat -> (16384 <= Z.of_nat pf)%Z ->
    palRefro_fuel fuel pf zobs hm tdk pmb rh wl phi tlr eps =
      Some (palRefro zobs hm tdk pmb rh wl phi tlr eps).
  Proof.
    intros fuel pf zobs hm tdk pmb rh wl phi tlr eps Hf Hp.
    replace fuel with (12 + (fuel - 12))%nat by lia.
    replace pf with (Z.to_nat rfISMAX + (pf - Z.to_nat rfISMAX))%nat by (unfold rfISMAX; lia).
    generalize (fuel - 12)%nat (pf - Z.to_nat rfISMAX)%nat. intros k pk.
    unfold palRefro, palRefro_fuel. cbv zeta.
    match goal with |- context [rf_core 12 (Z.to_nat rfISMAX) ?z ?a ?b ?c ?d ?e ?f ?g ?h] =>
      destruct (rf_core_some z a b c d e f g h) as [v E]; rewrite E, (rf_core_more k pk _ _ _ _ _ _ _ _ _ _ E) end.
    reflexivity.
  Qed.
End Term.

(** ** Facts at the reals *)
Definition clampR (lo hi x : R) : R := Rmin (Rmax x lo) hi.
Lemma DMAX_R : forall a b : R, DMAX a b = Rmax a b.
Proof. intros. unfold DMAX, Rmax. rn. rcase; destruct (Rle_dec a b); lra. Qed.
Lemma DMIN_R : forall a b : R, DMIN a b = Rmin a b.
Proof. intros. unfold DMIN, Rmin. rn. rcase; destruct (Rle_dec a b); lra. Qed.
Lemma clampR_idem : forall lo hi x, lo <= hi -> clampR lo hi (clampR lo hi x) = clampR lo hi x.
Proof. intros lo hi x H. unfold clampR, Rmin, Rmax. repeat destruct (Rle_dec _ _); lra. Qed.
Lemma clampR_range : forall lo hi x, lo <= hi -> lo <= clampR lo hi x <= hi.
Proof. intros lo hi x H. unfold clampR, Rmin, Rmax. repeat destruct (Rle_dec _ _); lra. Qed.
Definition core (z hm tdk pmb rh wl phi al tol : R) : R :=
  match rf_core 12 (Z.to_nat rfISMAX) z hm tdk pmb rh wl phi al tol with Some v => v | None => 0 end.
Lemma rf_core_core : forall z hm tdk pmb rh wl phi al tol,
  rf_core 12 (Z.to_nat rfISMAX) z hm tdk pmb rh wl phi al tol = Some (core z hm tdk pmb rh wl phi al tol).
Proof. intros. unfold core. destruct (rf_core_some z hm tdk pmb rh wl phi al tol) as [v ->]. easy. Qed.
Lemma palRefro_val : forall zobs hm tdk pmb rh wl phi tlr eps,
  palRefro zobs hm tdk pmb rh wl phi tlr eps =
  let c := core (Rmin (Rabs (palDrange zobs)) 1.623156204) (clampR (-1000) 80000 hm) (clampR 100 500 tdk)
    (clampR 0 10000 pmb) (clampR 0 1 rh) (Rmax wl (1/10)) phi (clampR (1/1000) (1/100) (Rabs tlr))
    (clampR (1 / 1000000000000) (1/10) (Rabs eps) / 2) in
  if Rlt_dec (palDrange zobs) 0 then - c else c.
Proof.
  intros. unfold palRefro, palRefro_fuel. cbv zeta. rewrite rf_core_core.
  unfold clampR. rewrite <- !DMAX_R, <- !DMIN_R. unfold rfD93, rfHS.
  replace (@lit R RA 1.623156204) with 1.623156204 by (rn; lra).
  replace (@opp R RA #1e3)%num with (-1000) by (rn; lra).
  replace (@lit R RA 80000) with 80000 by (rn; lra). replace (@lit R RA 100.0) with 100 by (rn; lra).
  replace (@lit R RA 500.0) with 500 by (rn; lra). replace (@lit R RA 10000.0) with 10000 by (rn; lra).
  replace (@lit R RA 0.1) with (1/10) by (rn; lra). replace (@lit R RA 1.0) with 1 by (rn; lra).
  replace (@lit R RA 0.0) with 0 by (rn; lra). replace (@lit R RA 0.001) with (1/1000) by (rn; lra).
  replace (@lit R RA 0.01) with (1/100) by (rn; lra). replace (@lit R RA 1e-12) with (1/1000000000000) by (rn; lra).
  replace (@lit R RA 2.0) with 2 by (rn; lra).
  change (@ltb R RA) with Rltb. change (@fabs R RA) with Rabs. change (@div R RA) with Rdiv. change (@opp R RA) with Ropp.
  unfold Rltb. destruct (Rlt_dec (palDrange zobs) 0); reflexivity.
Qed.

(** a zero range of integration contributes nothing *)
Lemma rf_loop_zero : forall fuel pf lay sk0 z0 fb ff r0 tol is n fo fe ro v,
  rf_loop fuel pf lay sk0 z0 0 fb ff r0 tol is n fo fe ro = Some v -> v = 0.
Proof.
  induction fuel as [|fuel IH]; intros pf lay sk0 z0 fb ff r0 tol is n fo fe ro v H; [discriminate|].
  cbn [rf_loop] in H. destruct (rf_pass _ _ _ _ _ _ _ _ _ _ _) as [[[r fo'] fe']|]; [|discriminate].
  destruct (_ && _)%bool; [eapply IH; exact H|]. injection H as <-. rops. unfold Rdiv. ring.
Qed.
Lemma rf_zd_0 : forall r dn : R, rf_zd 0 r dn = 0.
Proof.
  intros. unfold rf_zd. cbv zeta. rops. replace (0 / (r * dn)) with 0 by (unfold Rdiv; ring).
  rewrite DMAX_R. unfold atan2R. rlit. replace (10 / 10) with 1 by lra. replace (0 / 10) with 0 by lra.
  replace (Rmax (1 - 0 * 0) 0) with 1 by (unfold Rmax; destruct (Rle_dec _ _); lra). rewrite sqrt_1.
  destruct (Rlt_dec 0 1); [|lra]. replace (0 / 1) with 0 by lra. apply atan_0.
Qed.
Lemma core_zenith : forall hm tdk pmb rh wl phi al tol, core 0 hm tdk pmb rh wl phi al tol = 0.
Proof.
  intros. assert (K := rf_core_core 0 hm tdk pmb rh wl phi al tol). revert K. generalize (core 0 hm tdk pmb rh wl phi al tol).
  intros c. unfold rf_core. cbv zeta.
  destruct (rf_layt _ _ _ _) as [dn0 rd0]. destruct (rf_layt _ _ _ _) as [dnt rdt].
  destruct (pal1Atms _ _ _ _ _) as [dnts rdts]. destruct (pal1Atms _ _ _ _ _) as [dns rds].
  match goal with |- context [mul (mul dn0 ?r) (sin 0)] => replace (mul (mul dn0 r) (sin 0)) with 0 by (rops; rewrite sin_0; ring) end.
  rewrite !rf_zd_0. replace (@sub R RA 0 0) with 0 by (rops; ring).
  match goal with |- context [match ?l with _ => _ end] => destruct l as [a|] eqn:Ea; [|discriminate] end.
  match goal with |- context [match ?l with _ => _ end] => destruct l as [b|] eqn:Eb; [|discriminate] end.
  apply rf_loop_zero in Ea. apply rf_loop_zero in Eb. subst. intros E; injection E as <-. rops. ring.
Qed.
(** a layer of refractive index 1 everywhere contributes nothing *)
Lemma rf_pass_null : forall fuel lay sk0 z0 h is n i r v,
  (forall r, refi (fst (lay r)) (snd (lay r)) = 0) ->
  rf_pass fuel lay sk0 z0 h is n i r 0 0 = Some v -> snd (fst v) = 0 /\ snd v = 0.
Proof.
  induction fuel as [|fuel IH]; intros lay sk0 z0 h is n i r v HL H; [discriminate|].
  cbn [rf_pass] in H. destruct (i <? is)%Z; [|injection H as <-; easy].
  match type of H with context [lay ?x] => generalize (HL x); destruct (lay x) as [dn rd]; cbn [fst snd]; intros E end.
  rewrite E in H. replace (@add R RA 0 0) with 0 in H by (rops; ring).
  destruct (_ && _)%bool; eapply IH; eassumption.
Qed.
Lemma rf_loop_null : forall fuel pf lay sk0 z0 zr r0 tol is n ro v,
  (forall r, refi (fst (lay r)) (snd (lay r)) = 0) ->
  rf_loop fuel pf lay sk0 z0 zr 0 0 r0 tol is n 0 0 ro = Some v -> v = 0.
Proof.
  induction fuel as [|fuel IH]; intros pf lay sk0 z0 zr r0 tol is n ro v HL H; [discriminate|].
  cbn [rf_loop] in H. destruct (rf_pass _ _ _ _ _ _ _ _ _ _ _) as [[[r fo'] fe']|] eqn:E; [|discriminate].
  apply rf_pass_null in E; [|exact HL]. cbn [fst snd] in E. destruct E as [-> ->].
  replace (@lit R RA 0.0) with 0 in H by (rn; lra). replace (@add R RA 0 0) with 0 in H by (rops; ring).
  destruct (_ && _)%bool; [eapply IH; [exact HL|exact H]|]. injection H as <-. rops. unfold Rdiv. ring.
Qed.
Lemma rf_atm_vacuum : forall hm tdk rh wl phi al, let a := rf_atm hm tdk 0 rh wl phi al in
  ra_c1 a = 0 /\ ra_c2 a = 0 /\ ra_c3 a = 0 /\ ra_c4 a = 0 /\ ra_c5 a = 0 /\ ra_c6 a = 0.
Proof.
  intros hm tdk rh wl phi al a.
  assert (P : rf_pwo tdk 0 rh = 0). { unfold rf_pwo. cbv zeta. rn. rewrite Rltb_false by lra. lra. }
  unfold a, rf_atm. cbv zeta. rewrite P. cbn [ra_c1 ra_c2 ra_c3 ra_c4 ra_c5 ra_c6]. rops.
  destruct (rf_optic wl); unfold Rdiv; rlit; repeat split; (ring || lra).
Qed.
Lemma core_vacuum : forall z hm tdk rh wl phi al tol, core z hm tdk 0 rh wl phi al tol = 0.
Proof.
  intros. assert (K := rf_core_core z hm tdk 0 rh wl phi al tol). revert K. generalize (core z hm tdk 0 rh wl phi al tol).
  intros c. unfold rf_core. cbv zeta.
  assert (LT : forall r0 r, rf_layt (rf_atm hm tdk 0 rh wl phi al) r0 tdk r = (1, 0)).
  { intros r0 r. generalize (rf_atm_vacuum hm tdk rh wl phi al). cbv zeta.
    destruct (rf_atm hm tdk 0 rh wl phi al) as [q0 q1 q2 q3 q4 q5 q6 q7 q8 q9]. cbn [ra_c1 ra_c2 ra_c3 ra_c4 ra_c5 ra_c6].
    intros (-> & -> & -> & -> & -> & ->). unfold rf_layt, pal1Atmt. cbv zeta. cbn [ra_c1 ra_c2 ra_c3 ra_c4 ra_c5 ra_c6].
    replace (@lit R RA 1.0) with 1 by (rn; lra). rops. unfold Rdiv. apply f_equal2; ring. }
  rewrite !LT. assert (LS : forall rt tt g r, pal1Atms rt tt 1 g r = (1, 0)).
  { intros. unfold pal1Atms. cbv zeta. replace (@lit R RA 1.0) with 1 by (rn; lra). rops. apply f_equal2; ring. }
  rewrite !LS. assert (F : refi 1 0 = 0) by (unfold refi; rops; unfold Rdiv; ring). rewrite F.
  replace (@lit R RA 0.0) with 0 by (rn; lra).
  match goal with |- context [match ?l with _ => _ end] => destruct l as [a|] eqn:Ea; [|discriminate] end.
  match goal with |- context [match ?l with _ => _ end] => destruct l as [b|] eqn:Eb; [|discriminate] end.
  apply rf_loop_null in Ea; [|intros; rewrite LT; exact F]. apply rf_loop_null in Eb; [|intros; rewrite LS; exact F].
  subst. intros E; injection E as <-. rops. ring.
Qed.
