(** * Proofs: palDmoon *)
From Coq Require Import Reals ZArith Lra Lia Psatz Bool List.
From Flocq Require Import Core.Raux.
From Coquelicot Require Import Coquelicot.
From Interval Require Import Tactic.
From Verif Require Import Num NumR Erfa Geom MoonTable M_Moon.
Import ListNotations.
Local Open Scope R_scope.

(** ** The reductions to one revolution do not matter *)
Definition agree (x y : R * R) : Prop := cong (fst x) (fst y) /\ snd x = snd y.
Record aargs (a b : moonArgs (T := R)) : Prop := AArgs {
  aa_ELP : agree (ma_ELP a) (ma_ELP b); aa_EM : agree (ma_EM a) (ma_EM b); aa_EMP : agree (ma_EMP a) (ma_EMP b);
  aa_D : agree (ma_D a) (ma_D b); aa_F : agree (ma_F a) (ma_F b); aa_OM : agree (ma_OM a) (ma_OM b);
  aa_WOM : agree (ma_WOM a) (ma_WOM b); aa_E : ma_E a = ma_E b; aa_ESQ : ma_ESQ a = ma_ESQ b }.
Notation redC := (fun x : R => fmodR x (litR 360.0)).
Notation rid := (fun x : R => x).
Lemma cong_mulZ : forall n a b, cong a b -> cong (IZR n * a) (IZR n * b).
Proof. intros n a b [k H]. exists (n * k)%Z. rewrite mult_IZR, H. ring. Qed.
Lemma red_cong : forall x, cong (DD2R * redC x) (DD2R * x).
Proof.
  intros x. exists (- Ztrunc (x / 360))%Z. unfold fmodR, DD2R. rn. replace (3600 / 10) with 360 by lra.
  rewrite opp_IZR. field.
Qed.
Lemma moon_arg_agree : forall c0 c1 c2 c3 t, agree (moon_arg redC c0 c1 c2 c3 t) (moon_arg rid c0 c1 c2 c3 t).
Proof. intros. split; [apply red_cong|reflexivity]. Qed.
Lemma cong_addr : forall a b c, cong a b -> cong (a + c) (b + c).
Proof. intros. apply cong_add; [easy|apply cong_refl]. Qed.
Lemma moon_args_agree : forall t, aargs (moon_args redC t) (moon_args rid t).
Proof.
  intros t. unfold moon_args.
  pose proof (fun c0 c1 c2 c3 => moon_arg_agree c0 c1 c2 c3 t) as Q.
  repeat match goal with |- context [moon_arg redC ?a ?b ?c ?d t] =>
    pose proof (Q a b c d); destruct (moon_arg redC a b c d t) as [? ?], (moon_arg rid a b c d t) as [? ?] end.
  clear Q. repeat match goal with H : agree (_, _) (_, _) |- _ => destruct H; cbn [fst snd] in *; subst end.
  rops.
  match goal with H : cong ?a ?b |- context [Rtrigo_def.sin ?a] => rewrite !(cong_sin a b H), !(cong_cos a b H) end.
  match goal with |- context [Rtrigo_def.sin (?a + ?d)] =>
    match goal with H : cong a ?b |- _ => 
      rewrite !(cong_sin (a + d) (b + d) (cong_addr _ _ _ H)), !(cong_cos (a + d) (b + d) (cong_addr _ _ _ H)) end end.
  constructor; cbn [ma_ELP ma_EM ma_EMP ma_D ma_F ma_OM ma_WOM ma_E ma_ESQ]; try reflexivity;
    (split; cbn [fst snd]; [try apply cong_addr; assumption|reflexivity]).
Qed.
Lemma moon_step_agree : forall c a b acc row, aargs a b -> moon_step c a acc row = moon_step c b acc row.
Proof.
  intros c a b [v dv] [[cf [[[m m'] d] f]] i] [_ [H1 H1'] [H2 H2'] [H3 H3'] [H4 H4'] _ _ H5 H6]. unfold moon_step. rops.
  rewrite H1', H2', H3', H4', H5, H6.
  assert (C : cong (IZR m * fst (ma_EM a) + IZR m' * fst (ma_EMP a) + IZR d * fst (ma_D a) + IZR f * fst (ma_F a))
    (IZR m * fst (ma_EM b) + IZR m' * fst (ma_EMP b) + IZR d * fst (ma_D b) + IZR f * fst (ma_F b)))
    by (repeat apply cong_add; apply cong_mulZ; assumption).
  now rewrite (cong_sin _ _ C), (cong_cos _ _ C).
Qed.
Lemma moon_series_agree : forall c a b rows, aargs a b -> moon_series c a rows = moon_series c b rows.
Proof.
  intros c a b rows H. unfold moon_series. generalize (rev rows) (lit (MkDec 00 (-1)) : R, lit (MkDec 00 (-1)) : R).
  induction l as [|r l IH]; intros acc; [easy|]. cbn [fold_left]. rewrite (moon_step_agree _ _ _ _ _ H). apply IH.
Qed.
Lemma moon_gen_red : forall date, moon_gen redC date = moon_gen rid date.
Proof.
  intros date. unfold moon_gen, moon_ecliptic. f_equal.
  match goal with |- context [moon_args _ ?tt] => generalize (moon_args_agree tt);
    generalize (moon_args redC tt) (moon_args rid tt) end.
  intros a b H. unfold moon_lon, moon_lat, moon_par.
  rewrite !(fun c r => moon_series_agree c a b r H).
  destruct H as [[H1 H1'] _ _ _ _ [H2 H2'] [H3 H3'] _ _].
  destruct (ma_ELP a) as [x x'], (ma_ELP b) as [y y'], (ma_OM a) as [o o'], (ma_OM b) as [p p'], (ma_WOM a) as [w w'], (ma_WOM b) as [z z'].
  cbn [fst snd] in *; subst.
  destruct (moon_series false b moonTL) as [v dv], (moon_series false b moonTB) as [u du], (moon_series true b moonTP) as [q dq].
  rops. rewrite (cong_sin _ _ H2), (cong_cos _ _ H2), (cong_sin _ _ H3), (cong_cos _ _ H3).
  unfold moon_ecl. rops.
  now rewrite (cong_sin _ _ (cong_addr _ _ (DD2R * v) H1)), (cong_cos _ _ (cong_addr _ _ (DD2R * v) H1)).
Qed.

(** ** The rates are the derivatives *)
Definition rd (k : R) (f : R -> R * R) (t : R) : Prop := is_derive (fun s => fst (f s)) t (k * snd (f t)).
Record gargs (a : R -> moonArgs (T := R)) (t : R) : Prop := GArgs {
  g_ELP : rd 1 (fun s => ma_ELP (a s)) t; g_EM : rd 1 (fun s => ma_EM (a s)) t; g_EMP : rd 1 (fun s => ma_EMP (a s)) t;
  g_D : rd 1 (fun s => ma_D (a s)) t; g_F : rd 1 (fun s => ma_F (a s)) t; g_OM : rd 1 (fun s => ma_OM (a s)) t;
  g_WOM : rd 1 (fun s => ma_WOM (a s)) t; g_E : rd 1 (fun s => ma_E (a s)) t; g_ESQ : rd 1 (fun s => ma_ESQ (a s)) t }.
Lemma moon_args_good : forall t, gargs (moon_args rid) t.
Proof.
  intros t. constructor; unfold rd, moon_args, moon_arg; cbn [ma_ELP ma_EM ma_EMP ma_D ma_F ma_OM ma_WOM ma_E ma_ESQ fst snd];
  rops; generalize (DD2R : R); intros dd; rlit; (auto_derive; [exact I|]); field.
Qed.
Lemma rd_E : forall a t i, gargs a t ->
  rd 1 (fun s => if (i =? 0)%Z then (litR 1.0, litR 0.0) else if (i =? 1)%Z then ma_E (a s) else ma_ESQ (a s)) t.
Proof.
  intros a t i H. destruct (i =? 0)%Z; [|destruct (i =? 1)%Z; apply H].
  unfold rd; cbn [fst snd]. replace (1 * litR 0.0) with 0 by (rlit; lra). apply (is_derive_const (litR 1.0)).
Qed.
(** derivative of a function from those of its abstract constituents *)
Ltac rdx H := let X := fresh "X" in let D := fresh "D" in
  assert (X := ex_intro (fun l => is_derive _ _ l) _ H); assert (D := is_derive_unique _ _ _ H).
Lemma is_derive_eq : forall (f : R -> R) (t l l' : R), is_derive f t l -> l = l' -> is_derive f t l'.
Proof. intros; now subst. Qed.
Lemma step_derive : forall (cs : bool) (a m1 m2 m3 m4 e : R -> R) (da d1 d2 d3 d4 de c k1 k2 k3 k4 t : R),
  is_derive a t da -> is_derive m1 t d1 -> is_derive m2 t d2 -> is_derive m3 t d3 -> is_derive m4 t d4 -> is_derive e t de ->
  is_derive (fun s => a s + c * (if cs then cosR (k1 * m1 s + k2 * m2 s + k3 * m3 s + k4 * m4 s)
      else sinR (k1 * m1 s + k2 * m2 s + k3 * m3 s + k4 * m4 s)) * e s) t
    (let th := k1 * m1 t + k2 * m2 t + k3 * m3 t + k4 * m4 t in let dth := k1 * d1 + k2 * d2 + k3 * d3 + k4 * d4 in
     da + c * (if cs then - sinR th * dth * e t + cosR th * de else cosR th * dth * e t + sinR th * de)).
Proof.
  intros cs a m1 m2 m3 m4 e da d1 d2 d3 d4 de c k1 k2 k3 k4 t H0 H1 H2 H3 H4 H5.
  assert (T0 : Derive (fun x => a x) t = da) by now apply is_derive_unique. assert (T1 : Derive (fun x => m1 x) t = d1) by now apply is_derive_unique. assert (T2 : Derive (fun x => m2 x) t = d2) by now apply is_derive_unique.
  assert (T3 : Derive (fun x => m3 x) t = d3) by now apply is_derive_unique. assert (T4 : Derive (fun x => m4 x) t = d4) by now apply is_derive_unique. assert (T5 : Derive (fun x => e x) t = de) by now apply is_derive_unique.
  destruct cs; (auto_derive; [repeat split; eexists; eassumption|]); rewrite T0, T1, T2, T3, T4, T5; cbv zeta; ring.
Qed.
Lemma moon_step_rd : forall c a acc row t, gargs a t -> rd 1 acc t ->
  rd 1 (fun s => moon_step c (a s) (acc s) row) t.
Proof.
  intros c a acc [[cf [[[m m'] d] f]] i] t G HA.
  assert (HE := rd_E a t i G). destruct G as [_ H1 H2 H3 H4 _ _ _ _].
  unfold rd in *. rewrite Rmult_1_l in *.
  set (e := fun s => if (i =? 0)%Z then (litR 1.0, litR 0.0) else if (i =? 1)%Z then ma_E (a s) else ma_ESQ (a s)) in *.
  assert (EQ : forall s, moon_step c (a s) (acc s) (cf, (m, m', d, f), i) =
    let th := IZR m * fst (ma_EM (a s)) + IZR m' * fst (ma_EMP (a s)) + IZR d * fst (ma_D (a s)) + IZR f * fst (ma_F (a s)) in
    let dth := IZR m * snd (ma_EM (a s)) + IZR m' * snd (ma_EMP (a s)) + IZR d * snd (ma_D (a s)) + IZR f * snd (ma_F (a s)) in
    if c then (fst (acc s) + litR cf * cosR th * fst (e s), snd (acc s) + litR cf * (- sinR th * dth * fst (e s) + cosR th * snd (e s)))
    else (fst (acc s) + litR cf * sinR th * fst (e s), snd (acc s) + litR cf * (cosR th * dth * fst (e s) + sinR th * snd (e s)))).
  { intros s. unfold moon_step, e. cbv beta zeta. destruct (acc s) as [v dv]. rops.
    clear HE. destruct (i =? 0)%Z; [|destruct (i =? 1)%Z; [destruct (ma_E (a s))|destruct (ma_ESQ (a s))]]; destruct c; reflexivity. }
  rewrite (EQ t).
  eapply is_derive_ext; [|eapply is_derive_eq; [apply (step_derive c _ _ _ _ _ _ _ _ _ _ _ _ (litR cf) (IZR m) (IZR m') (IZR d) (IZR f) t HA H1 H2 H3 H4 HE)|]].
  { intros s. rewrite EQ. now destruct c. }
  now destruct c.
Qed.
Lemma moon_series_rd : forall c a rows t, gargs a t -> rd 1 (fun s => moon_series c (a s) rows) t.
Proof.
  intros c a rows t G. unfold moon_series. 
  assert (forall l acc, rd 1 acc t -> rd 1 (fun s => fold_left (moon_step c (a s)) l (acc s)) t) as Q.
  { induction l as [|r l IH]; intros acc H; [exact H|]. cbn [fold_left].
    apply (IH (fun s => moon_step c (a s) (acc s) r)). now apply moon_step_rd. }
  apply (Q (rev rows) (fun _ => (lit 0.0, lit 0.0))).
  unfold rd; cbn [fst snd]. rops. replace (1 * litR 0.0) with 0 by (rlit; lra). apply (is_derive_const (litR 0.0)).
Qed.
Notation CJ := 3155760000.
Lemma CJ_val : (moon_CJ : R) = CJ.
Proof. unfold moon_CJ. rn. lra. Qed.
Ltac uniq f t d H T := assert (T : Derive (fun x => f x) t = d) by (apply is_derive_unique; exact H).
Lemma lon_derive : forall (f g : R -> R) df dg k t, is_derive f t df -> is_derive g t dg ->
  is_derive (fun s => f s + k * g s) t (df + k * dg).
Proof.
  intros f g df dg k t H1 H2. uniq f t df H1 T1. uniq g t dg H2 T2.
  auto_derive; [repeat split; eexists; eassumption|]. rewrite T1, T2. ring.
Qed.
Lemma lat_derive : forall (f g h : R -> R) df dg dh k one c1 c2 t, is_derive f t df -> is_derive g t dg -> is_derive h t dh ->
  is_derive (fun s => k * f s * (one - c1 * cosR (g s) - c2 * cosR (h s))) t
    (k * (df * (one - c1 * cosR (g t) - c2 * cosR (h t)) + f t * (c1 * dg * sinR (g t) + c2 * dh * sinR (h t)))).
Proof.
  intros f g h df dg dh k one c1 c2 t H1 H2 H3. uniq f t df H1 T1. uniq g t dg H2 T2. uniq h t dh H3 T3.
  auto_derive; [repeat split; eexists; eassumption|]. rewrite T1, T2, T3. ring.
Qed.
Lemma par_derive : forall (f : R -> R) df k t, is_derive f t df -> is_derive (fun s => k * f s) t (k * df).
Proof.
  intros f df k t H1. uniq f t df H1 T1. auto_derive; [repeat split; eexists; eassumption|]. rewrite T1. ring.
Qed.
Lemma dist_derive : forall (f : R -> R) df c t, is_derive f t df -> sinR (f t) <> 0 ->
  is_derive (fun s => c / sinR (f s)) t (- (c / sinR (f t)) * df * cosR (f t) / sinR (f t)).
Proof.
  intros f df c t H1 N. uniq f t df H1 T1.
  auto_derive; [repeat split; [eexists; eassumption|assumption]|]. rewrite T1. field. exact N.
Qed.
Lemma ecl_derive : forall (l b r : R -> R) dl db dr t, is_derive l t dl -> is_derive b t db -> is_derive r t dr ->
  is_derive (fun s => r s * cosR (b s) * cosR (l s)) t
    (dr * cosR (b t) * cosR (l t) - r t * sinR (b t) * db * cosR (l t) - r t * cosR (b t) * sinR (l t) * dl) /\
  is_derive (fun s => r s * cosR (b s) * sinR (l s)) t
    (dr * cosR (b t) * sinR (l t) - r t * sinR (b t) * db * sinR (l t) + r t * cosR (b t) * cosR (l t) * dl) /\
  is_derive (fun s => r s * sinR (b s)) t (dr * sinR (b t) + r t * cosR (b t) * db).
Proof.
  intros l b r dl db dr t H1 H2 H3. uniq l t dl H1 T1. uniq b t db H2 T2. uniq r t dr H3 T3.
  split; [|split]; (auto_derive; [repeat split; eexists; eassumption|]); rewrite ?T1, ?T2, ?T3; ring.
Qed.
Lemma moon_lon_rd : forall a t, gargs a t -> rd CJ (fun s => moon_lon (a s)) t.
Proof.
  intros a t G. assert (H := moon_series_rd false a moonTL t G). assert (H' := g_ELP _ _ G).
  unfold rd in *. rewrite Rmult_1_l in *. unfold moon_lon.
  eapply is_derive_ext; [|eapply is_derive_eq; [exact (lon_derive _ _ _ _ DD2R t H' H)|]].
  { intros s. cbv beta. destruct (moon_series false (a s) moonTL), (ma_ELP (a s)). reflexivity. }
  destruct (moon_series false (a t) moonTL), (ma_ELP (a t)). rewrite CJ_val. rops. cbn [fst snd]. field.
Qed.
Lemma moon_par_rd : forall a t, gargs a t -> rd CJ (fun s => moon_par (a s)) t.
Proof.
  intros a t G. assert (H := moon_series_rd true a moonTP t G).
  unfold rd in *. rewrite Rmult_1_l in *. unfold moon_par.
  eapply is_derive_ext; [|eapply is_derive_eq; [exact (par_derive _ _ DD2R t H)|]].
  { intros s. cbv beta. destruct (moon_series true (a s) moonTP). reflexivity. }
  destruct (moon_series true (a t) moonTP). rewrite CJ_val. rops. cbn [fst snd]. field.
Qed.
Lemma moon_lat_rd : forall a t, gargs a t -> rd CJ (fun s => moon_lat (a s)) t.
Proof.
  intros a t G. assert (H := moon_series_rd false a moonTB t G). assert (H1 := g_OM _ _ G). assert (H2 := g_WOM _ _ G).
  unfold rd in *. rewrite Rmult_1_l in *. unfold moon_lat.
  set (c1 := lit 0.0004664%dec). set (c2 := lit 0.0000754%dec). set (one := lit 1.0%dec).
  eapply is_derive_ext; [|eapply is_derive_eq; [exact (lat_derive _ _ _ _ _ _ DD2R one c1 c2 t H H1 H2)|]].
  { intros s. cbv beta. destruct (moon_series false (a s) moonTB), (ma_OM (a s)), (ma_WOM (a s)). reflexivity. }
  cbv beta. destruct (moon_series false (a t) moonTB), (ma_OM (a t)), (ma_WOM (a t)). rewrite CJ_val. rops. cbn [fst snd].
  clearbody c1 c2 one. generalize (DD2R : R). intros. field.
Qed.
Lemma moon_dist_rd : forall k p t, rd k p t -> sinR (fst (p t)) <> 0 -> rd k (fun s => moon_dist (p s)) t.
Proof.
  intros k p t H N. unfold rd, moon_dist in *. rops. cbn [fst snd]. set (c := litR 4.2635212653763e-5). clearbody c.
  eapply is_derive_eq; [exact (dist_derive _ _ c t H N)|]. cbv beta. field. exact N.
Qed.
Definition vderive (f : R -> vec R) (t : R) (d : vec R) : Prop :=
  is_derive (fun t => vx (f t)) t (vx d) /\ is_derive (fun t => vy (f t)) t (vy d) /\
  is_derive (fun t => vz (f t)) t (vz d).
Lemma moon_ecl_rd : forall k l b r t, rd k l t -> rd k b t -> rd k r t ->
  vderive (fun s => pvp (moon_ecl (l s) (b s) (r s))) t (scale k (pvv (moon_ecl (l t) (b t) (r t)))).
Proof.
  intros k l b r t HL HB HR. unfold rd in *.
  assert (E : forall s, moon_ecl (l s) (b s) (r s) =
    let '(EL, DEL) := (fst (l s), snd (l s)) in let '(B, DB) := (fst (b s), snd (b s)) in let '(Q, DR) := (fst (r s), snd (r s)) in
    PV (V (Q * cosR B * cosR EL) (Q * cosR B * sinR EL) (Q * sinR B))
      (V (- (Q * cosR B * sinR EL) * DEL - (Q * DB * sinR B - cosR B * DR) * cosR EL)
         (Q * cosR B * cosR EL * DEL - (Q * DB * sinR B - cosR B * DR) * sinR EL) (Q * DB * cosR B + sinR B * DR))).
  { intros s. unfold moon_ecl. destruct (l s), (b s), (r s). reflexivity. }
  rewrite (E t). unfold vderive. cbn [pvp pvv scale vx vy vz].
  destruct (ecl_derive _ _ _ _ _ _ t HL HB HR) as (Q1 & Q2 & Q3). cbv beta in Q1, Q2, Q3.
  split; [|split].
  - eapply is_derive_ext; [|eapply is_derive_eq; [exact Q1|ring]]. intros s; rewrite E; reflexivity.
  - eapply is_derive_ext; [|eapply is_derive_eq; [exact Q2|ring]]. intros s; rewrite E; reflexivity.
  - eapply is_derive_ext; [|eapply is_derive_eq; [exact Q3|ring]]. intros s; rewrite E; reflexivity.
Qed.
Definition moonT (date : R) : R := (date - 15019.5) / 36525.
Lemma moonT_val : forall date, (date - litR 15019.5) / litR 36525.0 = moonT date.
Proof. intros. unfold moonT. rlit. lra. Qed.
Lemma moon_ecliptic_rd : forall date, sinR (fst (moon_par (moon_args rid (moonT date)))) <> 0 ->
  vderive (fun d => pvp (moon_ecliptic rid d)) date (scale 86400 (pvv (moon_ecliptic rid date))).
Proof.
  intros date N.
  assert (G := moon_args_good (moonT date)).
  assert (H := moon_ecl_rd CJ (fun s => moon_lon (moon_args rid s)) (fun s => moon_lat (moon_args rid s))
    (fun s => moon_dist (moon_par (moon_args rid s))) (moonT date) (moon_lon_rd _ _ G) (moon_lat_rd _ _ G)
    (moon_dist_rd _ _ _ (moon_par_rd _ _ G) N)).
  unfold moon_ecliptic. rops.
  set (F := fun s => moon_ecl (moon_lon (moon_args rid s)) (moon_lat (moon_args rid s)) (moon_dist (moon_par (moon_args rid s)))) in *.
  change (vderive (fun s => pvp (F s)) (moonT date) (scale CJ (pvv (F (moonT date))))) in H.
  change (vderive (fun d => pvp (F ((d - litR 15019.5) / litR 36525.0))) date (scale 86400 (pvv (F ((date - litR 15019.5) / litR 36525.0))))).
  rewrite moonT_val. clearbody F. destruct H as (H1 & H2 & H3). cbn [scale vx vy vz] in *.
  assert (L : is_derive (fun d => (d - litR 15019.5) / litR 36525.0) date (/ 36525)).
  { rlit. auto_derive; [exact I|]. field. }
  assert (Q : forall g v, is_derive g (moonT date) (CJ * v) ->
    is_derive (fun d => g ((d - litR 15019.5) / litR 36525.0)) date (86400 * v)).
  { intros g v Hg. replace (86400 * v) with (scal (/ 36525) (CJ * v)) by (unfold scal; cbn; unfold mult; cbn; field).
    apply (is_derive_comp g _ date _ (/ 36525)); [rewrite moonT_val; exact Hg|exact L]. }
  split; [|split]; cbn [scale vx vy vz].
  - exact (Q _ _ H1). - exact (Q _ _ H2). - exact (Q _ _ H3).
Qed.

(** ** Sizes *)
Definition sumabs (rows : list moonRow) : R := fold_right (fun r s => Rabs (litR (fst (fst r))) + s) 0 rows.
Lemma fold_bound : forall c a K rows acc, 1 <= K -> Rabs (fst (ma_E a)) <= K -> Rabs (fst (ma_ESQ a)) <= K ->
  Rabs (fst (fold_left (moon_step c a) rows acc) - fst acc) <= K * sumabs rows.
Proof.
  intros c a K rows acc HK H1 H2. revert acc. induction rows as [|r rows IH]; intros acc.
  - cbn [fold_left sumabs fold_right]. replace (fst acc - fst acc) with 0 by ring. rewrite Rabs_R0. lra.
  - cbn [fold_left sumabs fold_right]. fold (sumabs rows). specialize (IH (moon_step c a acc r)).
    assert (S : Rabs (fst (moon_step c a acc r) - fst acc) <= K * Rabs (litR (fst (fst r)))).
    { clear IH. destruct r as [[cf [[[m m'] d] f]] i], acc as [v dv]. unfold moon_step. rops. cbn [fst snd].
      set (th := IZR m * _ + _ + _ + _).
      assert (Q : forall en den : R, Rabs en <= K -> forall g, -1 <= g <= 1 -> Rabs (v + litR cf * g * en - v) <= K * Rabs (litR cf)).
      { intros en _ He g Hg. replace (v + litR cf * g * en - v) with (litR cf * (g * en)) by ring. rewrite !Rabs_mult.
        assert (Rabs g <= 1) by now apply Rabs_le. assert (P1 := Rabs_pos g). assert (P2 := Rabs_pos en). assert (P3 := Rabs_pos (litR cf)).
        assert (Rabs g * Rabs en <= K) by nra. rewrite Rmult_comm. apply Rmult_le_compat_r; lra. }
      destruct (i =? 0)%Z.
      - destruct c; cbn [fst]; apply (Q _ 0); try apply cos_bounds; try apply sin_bounds; rlit; rewrite Rabs_pos_eq; lra.
      - destruct (i =? 1)%Z; [destruct (ma_E a) as [en den]|destruct (ma_ESQ a) as [en den]]; cbn [fst] in *;
          destruct c; cbn [fst]; apply (Q _ 0); try apply cos_bounds; try apply sin_bounds; easy. }
    replace (fst (fold_left (moon_step c a) rows (moon_step c a acc r)) - fst acc)
      with ((fst (fold_left (moon_step c a) rows (moon_step c a acc r)) - fst (moon_step c a acc r)) + (fst (moon_step c a acc r) - fst acc)) by ring.
    eapply Rle_trans; [apply Rabs_triang|]. lra.
Qed.
Lemma moon_E_val : forall t, fst (ma_E (moon_args rid t)) = 1 - (0.002495 + 0.00000752 * t) * t /\
  fst (ma_ESQ (moon_args rid t)) = (1 - (0.002495 + 0.00000752 * t) * t) * (1 - (0.002495 + 0.00000752 * t) * t).
Proof.
  intros t. unfold moon_args, moon_arg. cbn [ma_E ma_ESQ fst]. rn.
  assert (E : 10 / 10 + (- (2495 / 1000000) + - (752 / 100000000) * t) * t = 1 - (0.002495 + 0.00000752 * t) * t) by lra.
  rewrite E. easy.
Qed.
Lemma moon_E_100 : forall t, Rabs t <= 100 -> Rabs (fst (ma_E (moon_args rid t))) <= 1.44 /\ Rabs (fst (ma_ESQ (moon_args rid t))) <= 1.44.
Proof. intros t H. destruct (moon_E_val t) as [-> ->]. apply Rabs_le_inv in H. split; interval with (i_bisect t). Qed.
Lemma moon_E_10 : forall t, Rabs t <= 10 -> Rabs (fst (ma_E (moon_args rid t))) <= 1.06 /\ Rabs (fst (ma_ESQ (moon_args rid t))) <= 1.06.
Proof. intros t H. destruct (moon_E_val t) as [-> ->]. apply Rabs_le_inv in H. split; interval with (i_bisect t). Qed.
Lemma sum_B : sumabs (rev moonTB) <= 6.0819.
Proof. unfold moonTB, rev, sumabs. cbn [app fold_right fst]. rlit. interval. Qed.
Definition moonTP' := tl moonTP.
Lemma sum_P : sumabs (rev moonTP') <= 0.076125.
Proof. unfold moonTP', moonTP, tl, rev, sumabs. cbn [app fold_right fst]. rlit. interval. Qed.
Lemma moon_P_series : forall K a, 1 <= K -> Rabs (fst (ma_E a)) <= K -> Rabs (fst (ma_ESQ a)) <= K ->
  Rabs (fst (moon_series true a moonTP) - 0.950724) <= K * 0.076125.
Proof.
  intros K a HK H1 H2. unfold moon_series.
  replace (rev moonTP) with (rev moonTP' ++ [(MkDec 950724 (-6), (0, 0, 0, 0)%Z, 0%Z)]) by reflexivity.
  rewrite fold_left_app. cbn [fold_left].
  assert (B := fold_bound true a K (rev moonTP') (lit 0.0, lit 0.0) HK H1 H2).
  set (f := fold_left (moon_step true a) (rev moonTP') (lit 0.0, lit 0.0)) in *. destruct f as [v dv].
  assert (S := sum_P). cbn [fst] in B. unfold moon_step. cbn [Z.eqb fst snd]. rops.
  replace (IZR 0 * _ + _ + _ + _) with 0 by ring. rewrite cos_0. rlit. 
  replace (v + 950724 / 1000000 * 1 * (10 / 10) - 0.950724) with (v - 0 / 10) by lra. nra.
Qed.
Lemma moon_par_bounds : forall t,
  (Rabs t <= 100 -> 0.84 * (PI / 180) <= fst (moon_par (moon_args rid t)) <= 1.061 * (PI / 180)) /\
  (Rabs t <= 10 -> 0.87 * (PI / 180) <= fst (moon_par (moon_args rid t)) <= 1.032 * (PI / 180)).
Proof.
  intros t.
  assert (E : fst (moon_par (moon_args rid t)) = (PI / 180) * fst (moon_series true (moon_args rid t) moonTP)).
  { unfold moon_par. destruct (moon_series true (moon_args rid t) moonTP). cbn [fst]. unfold DD2R. now rn. }
  assert (P := PI_RGT_0). assert (0 < PI / 180) by lra.
  split; intros H1; [destruct (moon_E_100 t H1) as [A B]; assert (Q := moon_P_series 1.44 _ ltac:(lra) A B)|
                     destruct (moon_E_10 t H1) as [A B]; assert (Q := moon_P_series 1.06 _ ltac:(lra) A B)];
  apply Rabs_le_inv in Q; rewrite E; nra.
Qed.
Lemma moon_lat_bound : forall t, Rabs t <= 100 -> Rabs (fst (moon_lat (moon_args rid t))) <= 8.8 * (PI / 180).
Proof.
  intros t H. destruct (moon_E_100 t H) as [A B].
  assert (Q := fold_bound false (moon_args rid t) 1.44 (rev moonTB) (lit 0.0, lit 0.0) ltac:(lra) A B).
  assert (S := sum_B). unfold moon_lat.
  change (moon_series false (moon_args rid t) moonTB) with (fold_left (moon_step false (moon_args rid t)) (rev moonTB) (lit 0.0, lit 0.0)).
  destruct (fold_left (moon_step false (moon_args rid t)) (rev moonTB) (lit 0.0, lit 0.0)) as [v dv].
  destruct (ma_OM (moon_args rid t)) as [o o'], (ma_WOM (moon_args rid t)) as [w w']. cbn [fst] in *. revert Q. unfold DD2R. rn. intros Q.
  assert (C1 := cos_bounds o). assert (C2 := cos_bounds w). assert (P := PI_RGT_0).
  replace (v - 0 / 10) with v in Q by lra.
  rewrite !Rabs_mult. rewrite (Rabs_pos_eq (PI / 180)) by lra.
  assert (Rabs (10 / 10 - 4664 / 10000000 * cosR o - 754 / 10000000 * cosR w) <= 1.001) by (apply Rabs_le; lra).
  assert (P1 := Rabs_pos v). assert (P2 := Rabs_pos (10 / 10 - 4664 / 10000000 * cosR o - 754 / 10000000 * cosR w)).
  assert (Rabs v * Rabs (10 / 10 - 4664 / 10000000 * cosR o - 754 / 10000000 * cosR w) <= 8.8) by nra. nra.
Qed.
