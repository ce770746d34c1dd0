(** * Proofs: horizon coordinates, parallactic angle, their derivatives. *)
From Coq Require Import Reals ZArith Lra Lia Psatz Bool.
From Coquelicot Require Import Coquelicot.
From Verif Require Import Num NumR Erfa Geom M_Sphere P_Sphere.
Local Open Scope R_scope.
Notation sinR := Rtrigo_def.sin. Notation cosR := Rtrigo_def.cos. Notation sqrtR := R_sqrt.sqrt.

(** Hour angle/declination and azimuth/elevation are related by the matrix
    below (azimuth from north through east, hour angle westward). It is its own
    inverse. *)
Definition hmat (phi : R) : mat R :=
  M (V (- sinR phi) 0 (cosR phi)) (V 0 (-1) 0) (V (cosR phi) 0 (sinR phi)).
Lemma hmat_rot : forall phi, rotation (hmat phi).
Proof.
  intros t. generalize (sc2 t). intros H. split; unfold hmat.
  - vnorm. unfold mid. vsplit; nra.
  - vnorm. nra.
Qed.
Lemma hmat_sym : forall phi, mtr (hmat phi) = hmat phi. Proof. reflexivity. Qed.
Lemma hmat_inv : forall phi v, mapp (hmat phi) (mapp (hmat phi) v) = v.
Proof. intros. rewrite <- (hmat_sym phi) at 1. apply rot_app_tr, hmat_rot. Qed.

(** the pattern "r=hypot(x,y); a = r==0 ? 0 : atan2(y,x); e = atan2(z,r)" *)
Lemma sph_of_unit : forall x y z, x * x + y * y + z * z = 1 ->
  let r := sqrtR (x * x + y * y) in
  dir (if Reqb r 0 then 0 else atan2R y x) (atan2R z r) = V x y z.
Proof.
  intros x y z H r.
  assert (Hr : r * r = x * x + y * y) by (unfold r; apply sqrt_sqrt; nra).
  assert (Hr0 : 0 <= r) by apply sqrt_pos.
  destruct (atan2_polar z r) as [E1 E2].
  replace (r * r + z * z) with 1 in * by lra. rewrite sqrt_1 in *.
  rewrite Rmult_1_l in E1, E2. unfold dir. rewrite <- E1, <- E2.
  destruct (Reqb_spec r 0) as [Hz|Hz].
  - rewrite Hz. assert (x * x + y * y = 0) by nra. assert (x = 0) by nra. assert (y = 0) by nra.
    subst x y. vsplit; ring.
  - destruct (atan2_polar y x) as [E3 E4]. fold r in E3, E4.
    rewrite (Rmult_comm (cosR _)), (Rmult_comm (sinR _)). rewrite <- E3, <- E4. easy.
Qed.
Lemma sph_of_unit_range : forall x y z,
  let r := sqrtR (x * x + y * y) in
  - PI < (if Reqb r 0 then 0 else atan2R y x) <= PI /\ - (PI / 2) <= atan2R z r <= PI / 2.
Proof.
  intros. assert (Hp := PI_RGT_0). split.
  - destruct (Reqb r 0); [lra|apply atan2_range].
  - apply atan2_half, sqrt_pos.
Qed.
Lemma wrap_cong : forall a, cong (if Rltb a 0 then a + 2 * PI else a) a.
Proof. intros. rcase; [exists 1%Z; lra|apply cong_refl]. Qed.
Lemma wrap_range : forall a, - PI < a <= PI -> 0 <= (if Rltb a 0 then a + 2 * PI else a) < 2 * PI.
Proof. intros. assert (Hp := PI_RGT_0). rcase; lra. Qed.

Lemma hvec_unit : forall ha dec phi,
  let v := mapp (hmat phi) (dir ha dec) in vx v * vx v + vy v * vy v + vz v * vz v = 1.
Proof. intros. apply (rot_unit _ _ (hmat_rot phi) (dir_unit ha dec)). Qed.

Lemma palDe2h_unf : forall ha dec phi,
  palDe2h ha dec phi =
  let v := mapp (hmat phi) (dir ha dec) in
  let r := sqrtR (vx v * vx v + vy v * vy v) in
  let a := if Reqb r 0 then 0 else atan2R (vy v) (vx v) in
  (if Rltb a 0 then a + 2 * PI else a, atan2R (vz v) r).
Proof.
  intros. unfold palDe2h. rewrite D2PI_val. rn. unfold hmat, mapp, dir, dot. cbn [vx vy vz m0 m1 m2]. cbv zeta.
  replace (- cosR ha * cosR dec * sinR phi + sinR dec * cosR phi)
    with (- sinR phi * (cosR ha * cosR dec) + 0 * (sinR ha * cosR dec) + cosR phi * sinR dec) by ring.
  replace (- sinR ha * cosR dec)
    with (0 * (cosR ha * cosR dec) + -1 * (sinR ha * cosR dec) + 0 * sinR dec) by ring.
  replace (cosR ha * cosR dec * cosR phi + sinR dec * sinR phi)
    with (cosR phi * (cosR ha * cosR dec) + 0 * (sinR ha * cosR dec) + sinR phi * sinR dec) by ring.
  reflexivity.
Qed.
Lemma palDh2e_unf : forall az el phi,
  palDh2e az el phi =
  let v := mapp (hmat phi) (dir az el) in
  let r := sqrtR (vx v * vx v + vy v * vy v) in
  (if Reqb r 0 then 0 else atan2R (vy v) (vx v), atan2R (vz v) r).
Proof.
  intros. unfold palDh2e. rn. unfold hmat, mapp, dir, dot. cbn [vx vy vz m0 m1 m2]. cbv zeta.
  replace (- cosR az * cosR el * sinR phi + sinR el * cosR phi)
    with (- sinR phi * (cosR az * cosR el) + 0 * (sinR az * cosR el) + cosR phi * sinR el) by ring.
  replace (- sinR az * cosR el)
    with (0 * (cosR az * cosR el) + -1 * (sinR az * cosR el) + 0 * sinR el) by ring.
  replace (cosR az * cosR el * cosR phi + sinR el * sinR phi)
    with (cosR phi * (cosR az * cosR el) + 0 * (sinR az * cosR el) + sinR phi * sinR el) by ring.
  reflexivity.
Qed.

Lemma palDe2h_dir : forall ha dec phi,
  dir (fst (palDe2h ha dec phi)) (snd (palDe2h ha dec phi)) = mapp (hmat phi) (dir ha dec).
Proof.
  intros. rewrite palDe2h_unf. cbv zeta. cbn [fst snd].
  assert (H := hvec_unit ha dec phi). cbv zeta in H. destruct (mapp (hmat phi) (dir ha dec)) as [x y z].
  cbn [vx vy vz] in *. rewrite <- (sph_of_unit x y z H) at 1.
  cbv zeta. apply dir_cong; [apply wrap_cong|].
  apply cong_refl.
Qed.
Lemma palDe2h_range : forall ha dec phi,
  0 <= fst (palDe2h ha dec phi) < 2 * PI /\ - (PI / 2) <= snd (palDe2h ha dec phi) <= PI / 2.
Proof.
  intros. rewrite palDe2h_unf. cbv zeta. cbn [fst snd].
  destruct (mapp (hmat phi) (dir ha dec)) as [x y z]. cbn [vx vy vz].
  destruct (sph_of_unit_range x y z). split; [apply wrap_range|]; easy.
Qed.
Lemma palDh2e_dir : forall az el phi,
  dir (fst (palDh2e az el phi)) (snd (palDh2e az el phi)) = mapp (hmat phi) (dir az el).
Proof.
  intros. rewrite palDh2e_unf. cbv zeta. cbn [fst snd].
  assert (H := hvec_unit az el phi). cbv zeta in H. destruct (mapp (hmat phi) (dir az el)) as [x y z].
  cbn [vx vy vz] in *. apply (sph_of_unit x y z H).
Qed.
Lemma palDh2e_range : forall az el phi,
  - PI < fst (palDh2e az el phi) <= PI /\ - (PI / 2) <= snd (palDh2e az el phi) <= PI / 2.
Proof.
  intros. rewrite palDh2e_unf. cbv zeta. cbn [fst snd].
  destruct (mapp (hmat phi) (dir az el)) as [x y z]. cbn [vx vy vz]. apply sph_of_unit_range.
Qed.

(** ** palAltaz: reduction to the three horizon coordinates *)
Section Alt.
  Variables dec phi : R.
  Let sd := sinR dec. Let cd := cosR dec. Let sp := sinR phi. Let cp := cosR phi.
  Definition hx (ha : R) := - (cosR ha * cosR dec) * sinR phi + sinR dec * cosR phi.
  Definition hy (ha : R) := - sinR ha * cosR dec.
  Definition hz (ha : R) := cosR ha * cosR dec * cosR phi + sinR dec * sinR phi.
  Definition hrsq ha := hx ha * hx ha + hy ha * hy ha.
  Definition hs ha := sinR ha * cosR phi.
  Definition hc ha := cosR dec * sinR phi - cosR ha * (sinR dec * cosR phi).
  Lemma hxyz1 : forall h, hx h * hx h + hy h * hy h + hz h * hz h = 1.
  Proof.
    intros h. unfold hx, hy, hz. generalize (sc2 h) (sc2 dec) (sc2 phi).
    set (sh := sinR h); set (ch := cosR h); set (a := sinR dec); set (b := cosR dec); set (c := sinR phi); set (d := cosR phi).
    intros H1 H2 H3.
    assert (Es : sh * sh = 1 - ch * ch) by lra. assert (Ea : a * a = 1 - b * b) by lra.
    assert (Ec : c * c = 1 - d * d) by lra. ring [Es Ea Ec].
  Qed.
  Lemma hrsq_z : forall h, hrsq h = 1 - hz h * hz h.
  Proof. intros h. unfold hrsq. generalize (hxyz1 h). lra. Qed.
  Lemma hsc_rsq : forall h, hc h * hc h + hs h * hs h = hrsq h.
  Proof.
    intros h. rewrite hrsq_z. unfold hc, hs, hz. generalize (sc2 h) (sc2 dec) (sc2 phi).
    set (sh := sinR h); set (ch := cosR h); set (a := sinR dec); set (b := cosR dec); set (c := sinR phi); set (d := cosR phi).
    intros H1 H2 H3.
    assert (Es : sh * sh = 1 - ch * ch) by lra. assert (Ea : a * a = 1 - b * b) by lra.
    assert (Ec : c * c = 1 - d * d) by lra. ring [Es Ea Ec].
  Qed.
  Lemma hrsq_pos : forall h, 0 <= hrsq h. Proof. intros; unfold hrsq; nra. Qed.
  Lemma hx_d : forall h, is_derive hx h (- hy h * sp).
  Proof. intros. unfold hx, hy, sp. auto_derive; [easy|ring]. Qed.
  Lemma hy_d : forall h, is_derive hy h (hx h * sp - hz h * cp).
  Proof.
    intros. unfold hx, hy, hz, sp, cp. auto_derive; [easy|]. generalize (sc2 phi). intros H.
    transitivity (- (cosR h * cosR dec) * (sinR phi * sinR phi + cosR phi * cosR phi)); [rewrite H; ring|ring].
  Qed.
  Lemma hz_d : forall h, is_derive hz h (hy h * cp).
  Proof. intros. unfold hy, hz, cp. auto_derive; [easy|ring]. Qed.
End Alt.

Lemma palAltaz_unf : forall ha dec phi,
  let x := hx dec phi ha in let y := hy dec ha in let z := hz dec phi ha in
  let rsq := hrsq dec phi ha in let r := sqrtR rsq in
  let sp := sinR phi in let cp := cosR phi in
  / 10 ^ 30 <= rsq ->
  palAltaz ha dec phi =
  let a := atan2R y x in
  let qd := - x * cp / rsq in
  let ad := sp + z * qd in
  let ed := cp * y / r in
  let edr := ed / r in
  AltAz (if Rltb a 0 then a + 2 * PI else a) ad (edr * (z * sp + (2 - rsq) * qd))
        (atan2R z r) ed (- r * qd * ad)
        (atan2R (hs phi ha) (hc dec phi ha)) qd (edr * (sp + 2 * z * qd)).
Proof.
  intros. unfold palAltaz. rewrite D2PI_val. rn.
  fold (hx dec phi ha) (hy dec ha) (hz dec phi ha) (hs phi ha) (hc dec phi ha). fold x y z.
  fold (hrsq dec phi ha). change (x * x + y * y) with rsq. cbv zeta.
  rewrite hsc_rsq. fold rsq.
  assert (0 < rsq). { apply Rlt_le_trans with (/ 10 ^ 30); [|easy]. apply Rinv_0_lt_compat, pow_lt; lra. }
  rewrite (Reqb_false rsq 0) by lra. rewrite (Rltb_true 0 rsq) by lra.
  rewrite (Rltb_false rsq).
  2:{ apply Rle_not_lt. eapply Rle_trans; [|exact H]. right. field. }
  fold r. reflexivity.
Qed.

(** ** Derivatives of atan2 *)
Lemma atan2_up : forall y x, 0 < y -> atan2R y x = PI / 2 - Ratan.atan (x / y).
Proof.
  intros y x H. assert (Hp := PI_RGT_0).
  set (q := x / y). assert (Hq := atan_bound q).
  assert (Hs : 0 < sqrtR (1 + q²)) by (apply sqrt_lt_R0; generalize (Rle_0_sqr q); lra).
  rewrite <- (atan2_unique (y * sqrtR (1 + q²)) (PI / 2 - Ratan.atan q)); [|nra|lra].
  rewrite sin_shift, cos_shift, sin_atan, cos_atan. f_equal; unfold q; field; repeat split; try (fold q); lra.
Qed.
Lemma atan2_down : forall y x, y < 0 -> atan2R y x = - (PI / 2) - Ratan.atan (x / y).
Proof.
  intros y x H. assert (Hp := PI_RGT_0).
  set (q := x / y). assert (Hq := atan_bound q).
  assert (Hs : 0 < sqrtR (1 + q²)) by (apply sqrt_lt_R0; generalize (Rle_0_sqr q); lra).
  rewrite <- (atan2_unique (- y * sqrtR (1 + q²)) (- (PI / 2) - Ratan.atan q)); [|nra|lra].
  replace (- (PI / 2) - Ratan.atan q) with (- (PI / 2 + Ratan.atan q)) by ring.
  rewrite sin_neg, cos_neg.
  replace (PI / 2 + Ratan.atan q) with (PI / 2 - (- Ratan.atan q)) by ring.
  rewrite sin_shift, cos_shift, sin_neg, cos_neg, sin_atan, cos_atan.
  f_equal; unfold q; field; repeat split; try (fold q); lra.
Qed.
Lemma loc_pos : forall (f : R -> R) (t df : R), is_derive f t df -> 0 < f t -> locally t (fun u => 0 < f u).
Proof.
  intros f t df H H0.
  assert (C : continuous f t) by (apply (ex_derive_continuous (K := R_AbsRing) (V := R_NormedModule)); now exists df).
  apply (C (fun v => 0 < v)). exists (mkposreal _ H0). intros v Hv.
  unfold ball in Hv; cbn in Hv; unfold AbsRing_ball, abs, minus, plus, opp in Hv; cbn in Hv.
  apply Rabs_def2 in Hv. lra.
Qed.
Lemma atan2_derive : forall (f g : R -> R) (t df dg : R),
  is_derive f t df -> is_derive g t dg -> (0 < g t \/ f t <> 0) ->
  is_derive (fun u => atan2R (f u) (g u)) t ((df * g t - f t * dg) / (g t * g t + f t * f t)).
Proof.
  intros f g t df dg Hf Hg H.
  destruct (Rlt_dec 0 (g t)) as [G|G].
  - apply is_derive_ext_loc with (fun u => Ratan.atan (f u / g u)).
    { generalize (loc_pos g t dg Hg G). apply filter_imp. intros u Hu. unfold atan2R.
      destruct (Rlt_dec 0 (g u)); easy. }
    evar_last.
    { apply (is_derive_comp Ratan.atan (fun u => f u / g u)).
      - apply is_derive_Reals. apply derivable_pt_lim_atan.
      - apply is_derive_div; [exact Hf|exact Hg|lra]. }
    unfold scal; cbn; unfold mult; cbn. unfold Rsqr. field. nra.
  - destruct H as [H|H]; [easy|]. destruct (Rlt_dec 0 (f t)) as [F|F].
    + apply is_derive_ext_loc with (fun u => PI / 2 - Ratan.atan (g u / f u)).
      { apply (filter_imp _ _ (fun u (Hu : 0 < f u) => eq_sym (atan2_up (f u) (g u) Hu)) (loc_pos f t df Hf F)). }
      evar_last.
      { apply (is_derive_minus (fun _ => PI / 2) (fun u => Ratan.atan (g u / f u))); [apply is_derive_const|].
        apply (is_derive_comp Ratan.atan (fun u => g u / f u)).
        - apply is_derive_Reals. apply derivable_pt_lim_atan.
        - apply is_derive_div; [exact Hg|exact Hf|lra]. }
      unfold scal, minus, plus, opp, zero; cbn; unfold mult; cbn. unfold Rsqr. field. nra.
    + assert (F' : f t < 0) by lra.
      assert (Hl : locally t (fun u => f u < 0)).
      { assert (L := loc_pos (fun u => - f u) t (- df) (is_derive_opp f t df Hf) ltac:(cbn; lra)).
        revert L. apply filter_imp. intros; lra. }
      apply is_derive_ext_loc with (fun u => - (PI / 2) - Ratan.atan (g u / f u)).
      { apply (filter_imp _ _ (fun u (Hu : f u < 0) => eq_sym (atan2_down (f u) (g u) Hu)) Hl). }
      evar_last.
      { apply (is_derive_minus (fun _ => - (PI / 2)) (fun u => Ratan.atan (g u / f u))); [apply is_derive_const|].
        apply (is_derive_comp Ratan.atan (fun u => g u / f u)).
        - apply is_derive_Reals. apply derivable_pt_lim_atan.
        - apply is_derive_div; [exact Hg|exact Hf|lra]. }
      unfold scal, minus, plus, opp, zero; cbn; unfold mult; cbn. unfold Rsqr. field. nra.
Qed.
(** the "add 2 pi if negative" version has its cut along the positive x axis *)
Lemma atan2_wrap : forall y x, (x < 0 \/ y <> 0) ->
  (if Rltb (atan2R y x) 0 then atan2R y x + 2 * PI else atan2R y x) = PI + atan2R (- y) (- x).
Proof.
  intros y x H. assert (Hp := PI_RGT_0).
  assert (N : x <> 0 \/ y <> 0) by (destruct H; [left|right]; lra).
  assert (N' : - x <> 0 \/ - y <> 0) by (destruct N; [left|right]; lra).
  assert (R1 := wrap_range _ (atan2_range y x)). assert (W := wrap_cong (atan2R y x)).
  assert (R2 := atan2_range (- y) (- x)).
  set (w := if Rltb _ _ then _ else _) in *.
  assert (Hh : sqrtR (- x * - x + - y * - y) = sqrtR (x * x + y * y)) by (f_equal; ring).
  assert (Hpos := hyp_pos x y N).
  assert (C : cosR w = cosR (PI + atan2R (- y) (- x))).
  { rewrite (cong_cos _ _ W), atan2_cos by easy.
    replace (PI + atan2R (- y) (- x)) with (atan2R (- y) (- x) + PI) by ring.
    rewrite neg_cos, atan2_cos, Hh by easy. field. lra. }
  assert (S : sinR w = sinR (PI + atan2R (- y) (- x))).
  { rewrite (cong_sin _ _ W), atan2_sin by easy.
    replace (PI + atan2R (- y) (- x)) with (atan2R (- y) (- x) + PI) by ring.
    rewrite neg_sin, atan2_sin, Hh by easy. field. lra. }
  apply same_sc_eq; [|easy..].
  destruct (Rlt_dec (w - (PI + atan2R (- y) (- x))) (2 * PI)); [|lra].
  split; [|easy].
  destruct (Req_dec (atan2R (- y) (- x)) PI) as [E|E]; [|lra].
  exfalso. destruct (atan2_polar (- y) (- x)) as [P1 P2]. rewrite E, sin_PI, cos_PI in *. rewrite Hh in *.
  destruct H; lra.
Qed.

(** ** First derivatives returned by palAltaz *)
Section AltD.
  Variables dec phi : R.
  Notation x := (hx dec phi). Notation y := (hy dec). Notation z := (hz dec phi).
  Notation rsq := (hrsq dec phi).
  Notation sp := (sinR phi). Notation cp := (cosR phi).
  Lemma tiny_pos : 0 < / 10 ^ 30. Proof. apply Rinv_0_lt_compat, pow_lt; lra. Qed.
  Lemma rsq_d : forall h, is_derive rsq h (- 2 * z h * y h * cp).
  Proof.
    intros h. apply is_derive_ext with (fun h => 1 - z h * z h). { intros; symmetry; apply hrsq_z. }
    evar_last. { apply (is_derive_minus (fun _ => 1) (fun h => z h * z h)); [apply is_derive_const|].
      apply (is_derive_mult z z); [apply hz_d|apply hz_d|apply Rmult_comm]. }
    unfold minus, plus, opp, mult, zero; cbn. ring.
  Qed.
  Lemma r_d : forall h, 0 < rsq h -> is_derive (fun u => sqrtR (rsq u)) h (- z h * y h * cp / sqrtR (rsq h)).
  Proof.
    intros h H. assert (0 < sqrtR (rsq h)) by now apply sqrt_lt_R0. evar_last.
    { apply (is_derive_sqrt rsq); [apply rsq_d|easy]. } field. lra.
  Qed.
  Lemma rsq_loc : forall h, / 10 ^ 30 < rsq h -> locally h (fun u => / 10 ^ 30 <= rsq u).
  Proof.
    intros h H. assert (L := loc_pos (fun u => minus (rsq u) (/ 10 ^ 30)) h _
      (is_derive_minus _ _ h _ _ (rsq_d h) (is_derive_const _ _)) ltac:(unfold minus, plus, opp; cbn in *; lra)).
    revert L. apply filter_imp. unfold minus, plus, opp; cbn. intros; lra.
  Qed.
  Lemma el_d : forall h, / 10 ^ 30 < rsq h ->
    is_derive (fun u => aa_el (palAltaz u dec phi)) h (aa_eld (palAltaz h dec phi)).
  Proof.
    intros h H. assert (T := tiny_pos). assert (Hr : 0 < rsq h) by lra.
    assert (Hq : 0 < sqrtR (rsq h)) by now apply sqrt_lt_R0.
    apply is_derive_ext_loc with (fun u => atan2R (z u) (sqrtR (rsq u))).
    { apply (filter_imp _ _ (fun u Hu => eq_sym (f_equal aa_el (palAltaz_unf u dec phi Hu))) (rsq_loc h H)). }
    rewrite palAltaz_unf by lra. cbv zeta. cbn [aa_eld].
    evar_last. { apply atan2_derive; [apply hz_d|now apply r_d|left; exact Hq]. }
    cbv beta. rewrite sqrt_sqrt by lra. match goal with |- context [rsq h + ?q] => replace (rsq h + q) with 1 by (rewrite hrsq_z; ring) end.

    apply (Rmult_eq_reg_r (sqrtR (rsq h))); [|lra].
    transitivity (y h * cp * (sqrtR (rsq h) * sqrtR (rsq h)) + z h * z h * y h * cp). { field. lra. }
    rewrite sqrt_sqrt by lra. transitivity (y h * cp); [rewrite hrsq_z; ring|field; lra].
  Qed.
  Lemma az_d : forall h, / 10 ^ 30 < rsq h -> (x h < 0 \/ y h <> 0) ->
    is_derive (fun u => aa_az (palAltaz u dec phi)) h (aa_azd (palAltaz h dec phi)).
  Proof.
    intros h H Hb. assert (T := tiny_pos). assert (Hr : 0 < rsq h) by lra.
    apply is_derive_ext_loc with (fun u => PI + atan2R (- y u) (- x u)).
    { assert (L : locally h (fun u => x u < 0 \/ y u <> 0)).
      { destruct Hb as [Hb|Hb].
        - assert (L := loc_pos (fun u => - x u) h _ (is_derive_opp _ h _ (hx_d dec phi h)) ltac:(cbn; lra)).
          revert L. apply filter_imp. intros; left; lra.
        - assert (Hy2 : 0 < y h * y h) by nra.
          assert (D : is_derive (fun u => y u * y u) h ((x h * sp - z h * cp) * y h + y h * (x h * sp - z h * cp))).
          { apply (is_derive_mult y y); [apply hy_d|apply hy_d|apply Rmult_comm]. }
          assert (L := loc_pos _ h _ D Hy2). revert L. apply filter_imp. intros u Hu; right; intros E; rewrite E in Hu; lra. }
      generalize (filter_and _ _ L (rsq_loc h H)). apply filter_imp. intros u [Hu Hv].
      rewrite palAltaz_unf by easy. cbv zeta. cbn [aa_az]. symmetry. now apply atan2_wrap. }
    rewrite palAltaz_unf by lra. cbv zeta. cbn [aa_azd].
    evar_last.
    { apply (is_derive_plus (fun _ => PI) (fun u => atan2R (- y u) (- x u))); [apply is_derive_const|].
      apply (atan2_derive (fun u => - y u) (fun u => - x u)).
      - apply (is_derive_opp y h _ (hy_d dec phi h)).
      - apply (is_derive_opp x h _ (hx_d dec phi h)).
      - destruct Hb; [left|right]; lra. }
    unfold plus, zero, opp; cbn.
    replace (- x h * - x h + - y h * - y h) with (rsq h) by (unfold hrsq; ring).
    apply (Rmult_eq_reg_r (rsq h)); [|lra].
    transitivity (sp * rsq h - z h * x h * cp); [|field; lra].
    transitivity (sp * (x h * x h + y h * y h) - z h * x h * cp); [field; lra|].
    unfold hrsq. ring.
  Qed.
  Lemma pa_d : forall h, / 10 ^ 30 < rsq h -> (0 < hc dec phi h \/ hs phi h <> 0) ->
    is_derive (fun u => aa_pa (palAltaz u dec phi)) h (aa_pad (palAltaz h dec phi)).
  Proof.
    intros h H Hb. assert (T := tiny_pos). assert (Hr : 0 < rsq h) by lra.
    apply is_derive_ext_loc with (fun u => atan2R (hs phi u) (hc dec phi u)).
    { apply (filter_imp _ _ (fun u Hu => eq_sym (f_equal aa_pa (palAltaz_unf u dec phi Hu))) (rsq_loc h H)). }
    rewrite palAltaz_unf by lra. cbv zeta. cbn [aa_pad].
    evar_last.
    { apply (atan2_derive (hs phi) (hc dec phi)); [| |exact Hb].
      - instantiate (1 := cosR h * cp). unfold hs. auto_derive; [easy|ring].
      - instantiate (1 := sinR h * (sinR dec * cp)). unfold hc. auto_derive; [easy|ring]. }
    rewrite hsc_rsq. unfold Rdiv. f_equal. unfold hc, hs, hx. generalize (sc2 h). intros S.
    transitivity (cp * (cosR h * cosR dec * sp - sinR dec * cp * (sinR h * sinR h + cosR h * cosR h))); [ring|].
    rewrite S. ring.
  Qed.
  (** ** second derivatives *)
  Lemma qd_d : forall h, 0 < rsq h ->
    is_derive (fun u => - x u * cp / rsq u) h (cp * y h / rsq h * (sp + 2 * z h * (- x h * cp / rsq h))).
  Proof.
    intros h Hr. evar_last.
    { apply (is_derive_div (fun u => - x u * cp) rsq).
      - instantiate (1 := y h * sp * cp).
        unfold hx, hy. auto_derive; [easy|ring].
      - apply rsq_d.
      - lra. }
    field. lra.
  Qed.
  Lemma azd_d : forall h, / 10 ^ 30 < rsq h ->
    is_derive (fun u => aa_azd (palAltaz u dec phi)) h (aa_azdd (palAltaz h dec phi)).
  Proof.
    intros h H. assert (T := tiny_pos). assert (Hr : 0 < rsq h) by lra.
    apply is_derive_ext_loc with (fun u => sp + z u * (- x u * cp / rsq u)).
    { apply (filter_imp _ _ (fun u Hu => eq_sym (f_equal aa_azd (palAltaz_unf u dec phi Hu))) (rsq_loc h H)). }
    rewrite palAltaz_unf by lra. cbv zeta. cbn [aa_azdd].
    evar_last.
    { apply (is_derive_plus (fun _ => sp) (fun u => z u * (- x u * cp / rsq u))); [apply is_derive_const|].
      apply (is_derive_mult z (fun u => - x u * cp / rsq u)); [apply hz_d|now apply qd_d|apply Rmult_comm]. }
    unfold plus, mult, zero; cbn.
    assert (Hq : 0 < sqrtR (rsq h)) by now apply sqrt_lt_R0.
    replace (cp * y h / sqrtR (rsq h) / sqrtR (rsq h)) with (cp * y h / rsq h).
    2:{ rewrite <- (sqrt_sqrt (rsq h)) at 1 by lra. field. lra. }
    assert (E : z h * z h = 1 - rsq h) by (rewrite hrsq_z; ring).
    set (Q := - x h * cp / rsq h).
    transitivity (y h * cp * Q + cp * y h / rsq h * (z h * sp + 2 * (z h * z h) * Q)); [ring|].
    rewrite E. field. lra.
  Qed.
  Lemma eld_d : forall h, / 10 ^ 30 < rsq h ->
    is_derive (fun u => aa_eld (palAltaz u dec phi)) h (aa_eldd (palAltaz h dec phi)).
  Proof.
    intros h H. assert (T := tiny_pos). assert (Hr : 0 < rsq h) by lra.
    assert (Hq : 0 < sqrtR (rsq h)) by now apply sqrt_lt_R0.
    apply is_derive_ext_loc with (fun u => cp * y u / sqrtR (rsq u)).
    { apply (filter_imp _ _ (fun u Hu => eq_sym (f_equal aa_eld (palAltaz_unf u dec phi Hu))) (rsq_loc h H)). }
    rewrite palAltaz_unf by lra. cbv zeta. cbn [aa_eldd].
    evar_last.
    { apply (is_derive_div (fun u => cp * y u) (fun u => sqrtR (rsq u))).
      - apply is_derive_scal. apply (hy_d dec phi).
      - now apply r_d.
      - lra. }
    assert (E2 : sqrtR (rsq h) * sqrtR (rsq h) = rsq h) by (apply sqrt_sqrt; lra).
    assert (E : z h * z h = 1 - rsq h) by (rewrite hrsq_z; ring).
    assert (E3 : y h * y h = rsq h - x h * x h) by (unfold hrsq; ring).
    set (r := sqrtR (rsq h)) in *. set (q := rsq h) in *.
    apply (Rmult_eq_reg_r (r * q)); [|nra].
    transitivity (cp * (x h * sp - z h * cp) * q + cp * cp * (y h * y h) * z h * (q / (r * r))).
    { unfold scal, mult; cbn; unfold mult; cbn. field. lra. }
    rewrite E2, E3. replace (q / q) with 1 by (field; lra).
    transitivity ((r * r) * (x h * cp) * (sp + z h * (- x h * cp / q))); [rewrite E2|]; field; lra.
  Qed.
  Lemma pad_d : forall h, / 10 ^ 30 < rsq h ->
    is_derive (fun u => aa_pad (palAltaz u dec phi)) h (aa_padd (palAltaz h dec phi)).
  Proof.
    intros h H. assert (T := tiny_pos). assert (Hr : 0 < rsq h) by lra.
    assert (Hq : 0 < sqrtR (rsq h)) by now apply sqrt_lt_R0.
    apply is_derive_ext_loc with (fun u => - x u * cp / rsq u).
    { apply (filter_imp _ _ (fun u Hu => eq_sym (f_equal aa_pad (palAltaz_unf u dec phi Hu))) (rsq_loc h H)). }
    rewrite palAltaz_unf by lra. cbv zeta. cbn [aa_padd].
    evar_last. { now apply qd_d. }
    replace (cp * y h / sqrtR (rsq h) / sqrtR (rsq h)) with (cp * y h / rsq h); [easy|].
    rewrite <- (sqrt_sqrt (rsq h)) at 1 by lra. field. lra.
  Qed.
End AltD.
