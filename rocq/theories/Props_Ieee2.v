(** * C98: vectors, matrices, rotations, epochs and the tangent plane on binary64 itself *)
From Coq Require Import Reals ZArith Lra Lia Psatz Bool List String.
From Flocq Require Import Core IEEE754.BinarySingleNaN.
From Interval Require Import Tactic.
From Verif Require Import Num NumR NumD NumF NumDE Geom Erfa M_Sphere M_Time M_Frames P_Sphere Props_Dangle Props_Dsep Props_Dsph Props_Dhor Props_Dtan Props_Dbear
  Props_Dvec Props_Deul Props_Depo Props_Dgal Props_Ieee P_Tangent.
Local Open Scope R_scope.

Section F.
Variables (F : FLibm) (e : R).
Hypothesis OK : libm_ok F e.
Hypothesis He : 2.3e-16 <= e <= 0.1.
Let L := libm_of F.
Ltac fb := lazymatch goal with
  | H : repb ?a _ _ |- repb ?a _ _ => exact H
  | |- repb (Bplus _ _ _) _ _ => eapply rb_add; [fb|fb|fz]
  | |- repb (Bminus _ _ _) _ _ => eapply rb_sub; [fb|fb|fz]
  | |- repb (Bmult _ _ _) _ _ => eapply rb_mul; [fb|fb|fz]
  | |- repb (Bopp _) _ _ => eapply rb_opp; fb
  | |- repb (Babs _) _ _ => eapply rb_abs; fb
  | |- repb (f_sin _ _) _ _ => eapply (ag_sin F e OK); fr
  | |- repb (f_cos _ _) _ _ => eapply (ag_sin F e OK); fr
  | |- repb (flit ?d) _ _ => apply (rb_lit d 60); [rlit; apply Rabs_le; cbn; lra|lia]
  | |- repb fpi _ _ => apply rb_pi
  | H : rep ?a _ |- repb ?a _ _ => apply rb_any; exact H
  end
  with fr := lazymatch goal with
  | H : rep ?a _ |- rep ?a _ => exact H
  | H : repb ?a _ _ |- rep ?a _ => exact (proj1 H)
  | |- rep _ _ => eapply rb_rep; fb
  end
  with fz := first [split; [vm_compute; discriminate|vm_compute; reflexivity]|lia].
Ltac fops := cbn [add sub mul div opp ltb leb eqb fabs sqrt sin cos tan asin atan atan2
       exp log sinh pow fmod floor ceil ofZ toZ lit pi DA FA].
Ltac fp := lazymatch goal with
  | |- posb (Bmult _ ?a ?a) _ _ => eapply ps_sq; [fb|fz]
  | |- posb (Bplus _ _ _) _ _ => eapply ps_add; [fp|fp|fz]
  | |- posb (Bsqrt _ _) _ _ => eapply ps_sqrt; fp
  end.

(** ** Vectors of length 1e-125 to 1e125 *)
Lemma p125 : 10 ^ 125 <= bpow radix2 416.
Proof. change (bpow radix2 416) with (IZR (2 ^ 416)). rewrite pow_IZR. apply IZR_le. vm_compute. discriminate. Qed.
Lemma m125 : bpow radix2 (-417) <= 0.99 * / 10 ^ 125.
Proof.
  change (bpow radix2 (-417)) with (/ IZR (2 ^ 417)). rewrite pow_IZR. replace (0.99 * / IZR (10 ^ Z.of_nat 125)) with (/ (IZR (100 * 10 ^ Z.of_nat 125) / 99)).
  - apply Rinv_le_contravar; [apply Rdiv_lt_0_compat; [apply IZR_lt; reflexivity|lra]|]. apply Rmult_le_reg_r with 99; [lra|]. unfold Rdiv. rewrite Rmult_assoc, Rinv_l, Rmult_1_r by lra.
    rewrite <- mult_IZR. apply IZR_le. vm_compute. discriminate.
  - rewrite mult_IZR. assert (0 < IZR (10 ^ Z.of_nat 125)) by (apply IZR_lt; reflexivity). set (q := IZR (10 ^ _)) in *. clearbody q. apply Rmult_eq_reg_r with q; [|lra]. replace (0.99 * / q * q) with 0.99 by (field; lra). replace (/ (100 * q / 99) * q) with (99 / 100) by (field; lra). lra.
Qed.
Lemma mod_b : forall v, vfin v -> moderate (norm (fvec v)) -> rvecb v (fvec v) 416.
Proof.
  intros v (A & B & C) [_ H]. destruct (comp_norm (fvec v)) as (N1 & N2 & N3).
  assert (K := p125).
  repeat split; try assumption; unfold fvec in *; cbn [vx vy vz] in *; lra.
Qed.
Lemma rvec_fin : forall v w, rvec v w -> vfin v /\ fvec v = w.
Proof. intros [x y z] [x' y' z'] ([A1 A2] & [B1 B2] & [C1 C2]). cbn [vx vy vz] in *. split; [now repeat split|]. unfold fvec; cbn [vx vy vz]. now rewrite A2, B2, C2. Qed.
Theorem C98_palDvdv : forall a b, vfin a -> vfin b -> moderate (norm (fvec a)) -> moderate (norm (fvec b)) ->
  let r := @palDvdv f64 (FA F) a b in ffin r = true /\ Rabs (fval r - dot (fvec a) (fvec b)) <= 3.4e-16 * (norm (fvec a) * norm (fvec b)).
Proof.
  intros a b Ha Hb Ma Mb r. destruct (mod_b a Ha Ma) as (A1 & A2 & A3). destruct (mod_b b Hb Mb) as (B1 & B2 & B3).
  assert (K : rep r (dvdv L (fvec a) (fvec b))).
  { unfold r, dvdv, palDvdv, eraPdp. fops. eapply rb_rep. fb. }
  destruct K as [K1 K2]. split; [exact K1|]. rewrite K2. now apply C90_palDvdv.
Qed.
Lemma f_dvxv : forall a b, vfin a -> vfin b -> moderate (norm (fvec a)) -> moderate (norm (fvec b)) -> rvec (@palDvxv f64 (FA F) a b) (dvxv L (fvec a) (fvec b)).
Proof.
  intros a b Ha Hb Ma Mb. destruct (mod_b a Ha Ma) as (A1 & A2 & A3). destruct (mod_b b Hb Mb) as (B1 & B2 & B3).
  unfold dvxv, palDvxv, eraPxp, rvec. fops. cbn [vx vy vz]. split; [|split]; eapply rb_rep; fb.
Qed.
Theorem C98_palDvxv : forall a b, vfin a -> vfin b -> moderate (norm (fvec a)) -> moderate (norm (fvec b)) ->
  let r := @palDvxv f64 (FA F) a b in vfin r /\ norm (vsub (fvec r) (cross (fvec a) (fvec b))) <= 4e-16 * (norm (fvec a) * norm (fvec b)) /\
  fvec (@palDvxv f64 (FA F) b a) = scale (-1) (fvec r) /\ fvec (@palDvxv f64 (FA F) a a) = vzero.
Proof.
  intros a b Ha Hb Ma Mb r. destruct (rvec_fin _ _ (f_dvxv a b Ha Hb Ma Mb)) as [K1 K2]. destruct (rvec_fin _ _ (f_dvxv b a Hb Ha Mb Ma)) as [_ K3].
  destruct (rvec_fin _ _ (f_dvxv a a Ha Ha Ma Ma)) as [_ K4]. fold r in K1, K2. rewrite K2, K3, K4. destruct (C90_palDvxv_exact L (fvec a) (fvec b)) as [E1 E2].
  split; [exact K1|]. split; [now apply C90_palDvxv|]. now split.
Qed.
Theorem C98_palDvn : forall v, vfin v -> moderate (norm (fvec v)) -> let '(uv, vm) := @palDvn f64 (FA F) v in
  vfin uv /\ ffin vm = true /\ Rabs (fval vm - norm (fvec v)) <= 2.9e-16 * norm (fvec v) /\ norm (vsub (fvec uv) (scale (/ norm (fvec v)) (fvec v))) <= 5.2e-16.
Proof.
  intros v Hv Mv. destruct (mod_b v Hv Mv) as (A1 & A2 & A3). assert (C := C90_palDvn L (fvec v) Mv).
  unfold dvn, palDvn, eraPn, eraPm, eraSxp, eraZp in *. revert C. fops. cbv zeta. cbn [vx vy vz fst snd].
  set (wf := Bsqrt _ _). set (wd := rd (sqrtR _)).
  assert (Hw : exists p, posb wf wd p) by (eexists; unfold wf, wd; fp). destruct Hw as (p & Hw & Pw & _). clearbody wf.
  intros C. assert (E0 := rep_eqb wf (flit 0) wd (rd 0) (proj1 Hw) (fz0)). rewrite E0. change (litR 0) with 0 in C. rewrite rd_0 in *. clear E0.
  destruct Mv as [M1 M2]. assert (Nv : 0 < norm (fvec v)) by (assert (0 < / 10 ^ 125) by (apply Rinv_0_lt_compat, pow_lt; lra); lra).
  assert (Cv : Rabs (wd - norm (fvec v)) <= 2.9e-16 * norm (fvec v)) by (destruct (Reqb wd 0); apply C).
  apply Rabs_le_inv in Cv. assert (Wl : bpow radix2 (-417) <= Rabs wd) by (assert (Q := m125); rewrite Rabs_pos_eq by lra; lra).
  assert (Wu : Rabs wd <= bpow radix2 417).
  { rewrite Rabs_pos_eq by lra. assert (Q := p125). change (bpow radix2 417) with (bpow radix2 (1 + 416)). rewrite bpow_plus. change (bpow radix2 1) with 2. lra. }
  destruct (Reqb_spec wd 0) as [Z|Z]; [lra|]. cbn [fst snd vx vy vz] in *. destruct C as [C1 C2].
  assert (Hi : repb (Bdiv mode_NE (flit 1) wf) (rd (rd (litR 1) / wd)) (1 - -417)).
  { apply (rb_div _ _ _ _ 1); [apply (rb_lit 1 1); [replace (litR 1) with 1 by (rlit; lra); rewrite Rabs_R1; change (bpow radix2 1) with 2; lra|lia]|apply Hw|exact Wl|lia]. }
  match goal with |- vfin ?u /\ _ => assert (K : rvec u (V (rd (rd (rd (litR 1) / wd) * vx (fvec v))) (rd (rd (rd (litR 1) / wd) * vy (fvec v))) (rd (rd (rd (litR 1) / wd) * vz (fvec v))))) end.
  { unfold rvec. cbn [vx vy vz]. split; [|split]; eapply rb_rep; eapply rb_mul; try exact Hi; try eassumption; lia. }
  destruct (rvec_fin _ _ K) as [K1 K2]. destruct Hw as [[W1 W2] _]. rewrite K2, W2. repeat split; try apply K1; try assumption.
Qed.

(** ** Matrices *)
Definition rmatb (m : mat f64) (w : mat R) (p : Z) : Prop := rvecb (m0 m) (m0 w) p /\ rvecb (m1 m) (m1 w) p /\ rvecb (m2 m) (m2 w) p.
Definition fmat (m : mat f64) : mat R := M (fvec (m0 m)) (fvec (m1 m)) (fvec (m2 m)).
Definition mfin (m : mat f64) : Prop := vfin (m0 m) /\ vfin (m1 m) /\ vfin (m2 m).
Lemma rvecb_fin : forall v w p, rvecb v w p -> vfin v /\ fvec v = w.
Proof. intros v w p (A & B & C). apply rvec_fin. split; [|split]; eapply rb_rep; eassumption. Qed.
Lemma rmatb_fin : forall m w p, rmatb m w p -> mfin m /\ fmat m = w.
Proof.
  intros m [w0 w1 w2] p (A & B & C). apply rvecb_fin in A, B, C. cbn [m0 m1 m2] in *. destruct A as [A1 A2], B as [B1 B2], C as [C1 C2].
  split; [now split|]. unfold fmat. now rewrite A2, B2, C2.
Qed.
Lemma vec_b : forall v k, vfin v -> k <= 1000 -> norm (fvec v) <= k -> rvecb v (fvec v) 10.
Proof.
  intros v k (A & B & C) Hk H. destruct (comp_norm (fvec v)) as (N1 & N2 & N3).
  repeat split; try assumption; change (bpow radix2 10) with 1024; unfold fvec in *; cbn [vx vy vz] in *; lra.
Qed.
Lemma rvecb_weak : forall v w p q, rvecb v w p -> (p <= q)%Z -> rvecb v w q.
Proof. intros v w p q (A & B & C) H. split; [|split]; eapply rb_weak; eassumption. Qed.
Lemma f_row : forall r v r' v' p q, rvecb r r' p -> rvecb v v' q -> (0 <= p <= 450)%Z -> (0 <= q <= 450)%Z ->
  repb (@row_dot f64 (FA F) r v) (@row_dot R (DA L) r' v') (p + q + 3).
Proof.
  intros r v r' v' p q (A1 & A2 & A3) (B1 & B2 & B3) Hp Hq. unfold row_dot. fops.
  assert (Z0 : repb (flit 0) (rd (litR 0)) 0) by (apply (rb_lit 0 0); [change (litR 0) with 0; rewrite Rabs_R0; apply bpow_ge_0|lia]).
  assert (M1 := rb_mul _ _ _ _ _ _ A1 B1 ltac:(lia)). assert (M2 := rb_mul _ _ _ _ _ _ A2 B2 ltac:(lia)). assert (M3 := rb_mul _ _ _ _ _ _ A3 B3 ltac:(lia)).
  assert (S1 := rb_add _ _ _ _ _ _ Z0 M1 ltac:(lia)). assert (S2 := rb_add _ _ _ _ _ _ S1 M2 ltac:(lia)). assert (S3 := rb_add _ _ _ _ _ _ S2 M3 ltac:(lia)).
  eapply rb_weak; [exact S3|lia].
Qed.
Lemma f_rxp : forall m v m' v' p q, rmatb m m' p -> rvecb v v' q -> (0 <= p <= 450)%Z -> (0 <= q <= 450)%Z ->
  rvecb (@eraRxp f64 (FA F) m v) (@eraRxp R (DA L) m' v') (p + q + 3).
Proof.
  intros m v m' v' p q (A & B & C) D Hp Hq. unfold eraRxp, rvecb. cbn [vx vy vz]. split; [|split]; now apply f_row.
Qed.
Lemma rmatb_tr : forall m m' p, rmatb m m' p -> rmatb (@eraTr f64 m) (@eraTr R m') p.
Proof. intros m m' p ((A1 & A2 & A3) & (B1 & B2 & B3) & (C1 & C2 & C3)). unfold eraTr, rmatb, rvecb. cbn [vx vy vz m0 m1 m2]. tauto. Qed.
Lemma mat_b : forall m k, mfin m -> k <= 1000 -> norm (m0 (fmat m)) <= k -> norm (m1 (fmat m)) <= k -> norm (m2 (fmat m)) <= k -> rmatb m (fmat m) 10.
Proof. intros m k (A & B & C) Hk H0 H1 H2. split; [|split]; eapply vec_b; eassumption. Qed.
Lemma fmat_tr : forall m, fmat (@eraTr f64 m) = mtr (fmat m). Proof. reflexivity. Qed.
Lemma tr_fin : forall m, mfin m -> mfin (@eraTr f64 m).
Proof. intros m ((A1 & A2 & A3) & (B1 & B2 & B3) & (C1 & C2 & C3)). unfold eraTr, mfin, vfin. cbn [vx vy vz m0 m1 m2]. tauto. Qed.
Lemma fmat_trtr : forall m, @eraTr R (@eraTr R m) = m. Proof. now intros [[] [] []]. Qed.

Theorem C98_palDmxv : forall m v k, mfin m -> vfin v -> 1 <= k <= 1000 ->
  norm (m0 (fmat m)) <= k -> norm (m1 (fmat m)) <= k -> norm (m2 (fmat m)) <= k -> moderate (norm (fvec v)) ->
  let r := @palDmxv f64 (FA F) m v in vfin r /\ norm (vsub (fvec r) (mapp (fmat m) (fvec v))) <= 5.9e-16 * k * norm (fvec v).
Proof.
  intros m v k Hm Hv Hk H0 H1 H2 Mv r.
  assert (K := f_rxp m v _ _ 10 416 (mat_b m k Hm (proj2 Hk) H0 H1 H2) (mod_b v Hv Mv) ltac:(lia) ltac:(lia)).
  apply rvecb_fin in K. destruct K as [K1 K2]. split; [exact K1|]. change (fvec r) with (fvec (@eraRxp f64 (FA F) m v)). rewrite K2.
  exact (C90_palDmxv L (fmat m) (fvec v) k Hk H0 H1 H2 Mv).
Qed.
Theorem C98_palDimxv : forall m v k, mfin m -> vfin v -> 1 <= k <= 1000 ->
  norm (m0 (mtr (fmat m))) <= k -> norm (m1 (mtr (fmat m))) <= k -> norm (m2 (mtr (fmat m))) <= k -> moderate (norm (fvec v)) ->
  let r := @palDimxv f64 (FA F) m v in vfin r /\ norm (vsub (fvec r) (mapp (mtr (fmat m)) (fvec v))) <= 5.9e-16 * k * norm (fvec v).
Proof.
  intros m v k Hm Hv Hk H0 H1 H2 Mv r. rewrite <- fmat_tr in H0, H1, H2.
  assert (K := f_rxp (@eraTr f64 m) v _ _ 10 416 (mat_b _ k (tr_fin m Hm) (proj2 Hk) H0 H1 H2) (mod_b v Hv Mv) ltac:(lia) ltac:(lia)).
  apply rvecb_fin in K. destruct K as [K1 K2]. split; [exact K1|]. change (fvec r) with (fvec (@eraRxp f64 (FA F) (@eraTr f64 m) v)). rewrite K2.
  rewrite fmat_tr in H0, H1, H2. exact (C90_palDimxv L (fmat m) (fvec v) k Hk H0 H1 H2 Mv).
Qed.
Theorem C98_palDmxm : forall a b k, mfin a -> mfin b -> 1 <= k <= 1000 ->
  norm (m0 (fmat a)) <= k -> norm (m1 (fmat a)) <= k -> norm (m2 (fmat a)) <= k ->
  norm (m0 (mtr (fmat b))) <= k -> norm (m1 (mtr (fmat b))) <= k -> norm (m2 (mtr (fmat b))) <= k ->
  let r := @palDmxm f64 (FA F) a b in mfin r /\ entries_within (3.4e-16 * (k * k)) (fmat r) (mmul (fmat a) (fmat b)).
Proof.
  intros a b k Ha Hb Hk A0 A1 A2 B0 B1 B2 r.
  assert (KA := mat_b a k Ha (proj2 Hk) A0 A1 A2). assert (KB := mat_b (@eraTr f64 b) k (tr_fin b Hb) (proj2 Hk) B0 B1 B2).
  assert (K : rmatb r (dmxm L (fmat a) (fmat b)) 23).
  { destruct KA as ((a11 & a12 & a13) & (a21 & a22 & a23) & (a31 & a32 & a33)). destruct KB as ((b11 & b12 & b13) & (b21 & b22 & b23) & (b31 & b32 & b33)).
    assert (Q : forall u u' v v', rvecb u u' 10 -> rvecb v v' 10 -> repb (@row_dot f64 (FA F) u v) (@row_dot R (DA L) u' v') 23) by (intros; now apply (f_row _ _ _ _ 10 10)).
    unfold r, dmxm, palDmxm, eraRxr, row_mul, rmatb, rvecb. cbn [vx vy vz m0 m1 m2].
    split; [|split]; (split; [|split]).
    - exact (Q (m0 a) (m0 (fmat a)) (V (vx (m0 b)) (vx (m1 b)) (vx (m2 b))) (m0 (mtr (fmat b))) ltac:(easy) ltac:(easy)).
    - exact (Q (m0 a) (m0 (fmat a)) (V (vy (m0 b)) (vy (m1 b)) (vy (m2 b))) (m1 (mtr (fmat b))) ltac:(easy) ltac:(easy)).
    - exact (Q (m0 a) (m0 (fmat a)) (V (vz (m0 b)) (vz (m1 b)) (vz (m2 b))) (m2 (mtr (fmat b))) ltac:(easy) ltac:(easy)).
    - exact (Q (m1 a) (m1 (fmat a)) (V (vx (m0 b)) (vx (m1 b)) (vx (m2 b))) (m0 (mtr (fmat b))) ltac:(easy) ltac:(easy)).
    - exact (Q (m1 a) (m1 (fmat a)) (V (vy (m0 b)) (vy (m1 b)) (vy (m2 b))) (m1 (mtr (fmat b))) ltac:(easy) ltac:(easy)).
    - exact (Q (m1 a) (m1 (fmat a)) (V (vz (m0 b)) (vz (m1 b)) (vz (m2 b))) (m2 (mtr (fmat b))) ltac:(easy) ltac:(easy)).
    - exact (Q (m2 a) (m2 (fmat a)) (V (vx (m0 b)) (vx (m1 b)) (vx (m2 b))) (m0 (mtr (fmat b))) ltac:(easy) ltac:(easy)).
    - exact (Q (m2 a) (m2 (fmat a)) (V (vy (m0 b)) (vy (m1 b)) (vy (m2 b))) (m1 (mtr (fmat b))) ltac:(easy) ltac:(easy)).
    - exact (Q (m2 a) (m2 (fmat a)) (V (vz (m0 b)) (vz (m1 b)) (vz (m2 b))) (m2 (mtr (fmat b))) ltac:(easy) ltac:(easy)). }
  apply rmatb_fin in K. destruct K as [K1 K2]. split; [exact K1|]. rewrite K2. now apply C90_palDmxm.
Qed.

(** ** palDeuler *)
Lemma f_rot : forall a t t' m m' p, rep t t' -> rmatb m m' p -> (0 <= p <= 500)%Z -> rmatb (@era_rot f64 (FA F) a t m) (@era_rot R (DA L) a t' m') (p + 2).
Proof.
  intros a t t' m m' p Ht ((A1 & A2 & A3) & (B1 & B2 & B3) & (C1 & C2 & C3)) Hp. destruct (ag_sin F e OK t t' Ht) as [S C]. fold L in S, C.
  assert (W : forall u w, repb u w p -> repb u w (p + 2)) by (intros u w H; eapply rb_weak; [exact H|lia]).
  destruct a; unfold era_rot, eraRx, eraRy, eraRz, rmatb, rvecb; fops; cbv zeta; cbn [vx vy vz m0 m1 m2];
    repeat (match goal with |- _ /\ _ => split end); try (now apply W); (eapply rb_weak; [fb|lia]).
Qed.
Lemma f_loop : forall rot rot' order m m' p, List.Forall2 rep rot rot' -> rmatb m m' p -> (0 <= p)%Z -> (p + 2 * Z.of_nat (List.length rot) <= 500)%Z ->
  rmatb (@deuler_loop f64 (FA F) order rot m) (@deuler_loop R (DA L) order rot' m') (p + 2 * Z.of_nat (List.length rot)).
Proof.
  assert (W : forall m m' p q, rmatb m m' p -> (p <= q)%Z -> rmatb m m' q).
  { intros m m' p q (A & B & C) H. split; [|split]; eapply rvecb_weak; eassumption. }
  induction rot as [|t rot IH]; intros rot' order m m' p HF HM Hp Hq; inversion HF as [|? t' ? rot'' Ht HF']; subst; destruct order as [|c order]; cbn [deuler_loop];
    try (eapply W; [exact HM|lia]).
  - destruct (axis_of c) as [a|]; [|eapply W; [exact HM|lia]].
    cbn [List.length] in Hq |- *. eapply W; [apply IH; [exact HF'|apply f_rot; [exact Ht|exact HM|lia]|lia|lia]|lia].
Qed.
Lemma f_Ir : rmatb (@eraIr f64 (FA F)) (@eraIr R (DA L)) 0.
Proof.
  unfold eraIr, rmatb, rvecb. fops. cbn [vx vy vz m0 m1 m2].
  assert (Z0 : repb (flit 0) (rd (litR 0)) 0) by (apply (rb_lit 0 0); [change (litR 0) with 0; rewrite Rabs_R0; apply bpow_ge_0|lia]).
  assert (Z1 : repb (flit 1) (rd (litR 1)) 0) by (apply (rb_lit 1 0); [replace (litR 1) with 1 by (rlit; lra); rewrite Rabs_R1; change (bpow radix2 0) with 1; lra|lia]).
  tauto.
Qed.
Lemma f_deuler : forall order a b c, ffin a = true -> ffin b = true -> ffin c = true ->
  rmatb (@palDeuler f64 (FA F) order a b c) (deuler L order (fval a) (fval b) (fval c)) 6.
Proof.
  intros order a b c A B C. unfold deuler, palDeuler. apply (f_loop (a :: b :: c :: nil) (fval a :: fval b :: fval c :: nil) order _ _ 0); [|apply f_Ir|lia|cbn; lia].
  repeat constructor; assumption.
Qed.
(** for every axis string and all finite angles the matrix is finite, within 1.7e-15 of the product of the rotations named,
    and orthogonal to 3.5e-15 *)
Theorem C98_palDeuler : forall order a b c, ffin a = true -> ffin b = true -> ffin c = true ->
  let r := @palDeuler f64 (FA F) order a b c in mfin r /\
  entries_within 1.7e-15 (fmat r) (euler_product (combine (euler_axes 3 order) (fval a :: fval b :: fval c :: nil))) /\
  entries_within 3.5e-15 (mmul (mtr (fmat r)) (fmat r)) mid.
Proof.
  intros order a b c A B C r. assert (K := f_deuler order a b c A B C). apply rmatb_fin in K. destruct K as [K1 K2]. fold r in K1, K2. split; [exact K1|]. rewrite K2.
  assert (D : forall x, ffin x = true -> is_double (fval x)) by (intros x H; exact (rep_double x _ (conj H eq_refl))).
  split; [apply C89_palDeuler|apply C89_orthogonal]; try (now apply D); exact (ag_trig_acc F e OK).
Qed.

(** ** Epochs *)
Lemma rb_divl : forall a x p d q, repb a x p -> bpow radix2 q <= litR d <= bpow radix2 60 -> (-1000 <= q)%Z -> (-1074 <= p - q < 1024)%Z ->
  repb (Bdiv mode_NE a (flit d)) (rd (x / rd (litR d))) (p - q).
Proof.
  intros a x p d q Ha [Hd Hd2] Hq H. assert (Q := bpow_gt_0 radix2 q). apply rb_div; [exact Ha| | |exact H].
  - eapply rb_rep, (rb_lit d 60); [rewrite Rabs_pos_eq; lra|lia].
  - assert (K : bpow radix2 q <= rd (litR d)) by (apply rd_ge; [apply generic_format_bpow; unfold d64, FLT_exp; lia|exact Hd]). rewrite Rabs_pos_eq; lra.
Qed.
Lemma rb_day : forall a, ffin a = true -> Rabs (fval a) <= 10 ^ 15 -> repb a (fval a) 60.
Proof. intros a A H. split; [now split|]. eapply Rle_trans; [exact H|]. rewrite pow_IZR. apply IZR_le. vm_compute. discriminate. Qed.
Ltac lb := rlit; cbn; lra.
Lemma f_epj : forall a, ffin a = true -> Rabs (fval a) <= 10 ^ 15 -> repb (@palEpj f64 (FA F) a) (depj L (fval a)) 200.
Proof.
  intros a A H. assert (K := rb_day a A H). unfold depj, palEpj, eraEpj, MJD0, DJ00, DJY. fops.
  eapply rb_weak; [eapply rb_add; [fb|eapply (rb_divl _ _ _ _ 8); [fb|lb|lia|cbn; lia]|cbn; lia]|cbn; lia].
Qed.
Lemma f_epb : forall a, ffin a = true -> Rabs (fval a) <= 10 ^ 15 -> repb (@palEpb f64 (FA F) a) (depb L (fval a)) 200.
Proof.
  intros a A H. assert (K := rb_day a A H). unfold depb, palEpb, eraEpb, MJD0, DJ00, DTY. fops.
  eapply rb_weak; [eapply rb_add; [fb|eapply (rb_divl _ _ _ _ 8); [fb|lb|lia|cbn; lia]|cbn; lia]|cbn; lia].
Qed.
Lemma f_epj2d : forall a x p, repb a x p -> (0 <= p <= 300)%Z -> rep (@palEpj2d f64 (FA F) a) (depj2d L x).
Proof.
  intros a x p K Hp. unfold depj2d, palEpj2d, eraEpj2jd, DJY. fops. cbn [snd]. eapply rb_rep. fb.
Qed.
Lemma f_epb2d : forall a x p, repb a x p -> (0 <= p <= 300)%Z -> rep (@palEpb2d f64 (FA F) a) (depb2d L x).
Proof.
  intros a x p K Hp. unfold depb2d, palEpb2d, eraEpb2jd, DTY. fops. cbn [snd]. eapply rb_rep. fb.
Qed.
Lemma day_small : forall a, Rabs (a - 51544.5) <= 146100 -> Rabs a <= 10 ^ 15.
Proof. intros a H. apply Rabs_le_inv in H. apply Rabs_le. lra. Qed.
(** dates 1600 to 2400 to Julian epochs within 3e-13 year, and back within 1.7e-10 day *)
Theorem C98_palEpj : forall d, ffin d = true -> Rabs (fval d - 51544.5) <= 146100 ->
  let j := @palEpj f64 (FA F) d in let d' := @palEpj2d f64 (FA F) j in
  ffin j = true /\ ffin d' = true /\ Rabs (fval j - (2000 + (fval d - 51544.5) / 365.25)) <= 3e-13 /\ Rabs (fval d' - fval d) <= 1.7e-10.
Proof.
  intros d A H j d'. assert (K := f_epj d A (day_small _ H)). fold j in K. assert (K' := f_epj2d j _ 200 K ltac:(lia)). fold d' in K'. destruct K as [[K1 K2] _], K' as [K3 K4].
  split; [exact K1|]. split; [exact K3|]. rewrite K2, K4. apply C87_julian; [exact (rep_double d _ (conj A eq_refl))|exact H].
Qed.
Theorem C98_palEpb : forall d, ffin d = true -> Rabs (fval d - 51544.5) <= 146100 ->
  let b := @palEpb f64 (FA F) d in let d' := @palEpb2d f64 (FA F) b in
  ffin b = true /\ ffin d' = true /\ Rabs (fval b - (1900 + (fval d - 15019.81352) / 365.242198781)) <= 4.4e-13 /\ Rabs (fval d' - fval d) <= 2.3e-10.
Proof.
  intros d A H j d'. assert (K := f_epb d A (day_small _ H)). fold j in K. assert (K' := f_epb2d j _ 200 K ltac:(lia)). fold d' in K'. destruct K as [[K1 K2] _], K' as [K3 K4].
  split; [exact K1|]. split; [exact K3|]. rewrite K2, K4. apply C87_besselian; [exact (rep_double d _ (conj A eq_refl))|exact H].
Qed.
(** whole Julian years are exact both ways *)
Theorem C98_palEpj_years : forall (n : Z) y, (Z.abs n <= 10 ^ 10)%Z -> ffin y = true -> fval y = IZR n ->
  let d := @palEpj2d f64 (FA F) y in fval d = 51544.5 + (IZR n - 2000) * 365.25 /\ fval (@palEpj f64 (FA F) d) = IZR n.
Proof.
  intros n y Hn A E d.
  assert (Hy : repb y (IZR n) 60).
  { split; [now split|]. rewrite <- abs_IZR. change (bpow radix2 60) with (IZR (2 ^ 60)). apply IZR_le. lia. }
  destruct (f_epj2d y _ 60 Hy ltac:(lia)) as [K1 K2]. fold d in K1, K2. destruct (C87_julian_years L n Hn) as [C1 C2]. rewrite K2. split; [exact C1|].
  assert (B : Rabs (fval d) <= 10 ^ 15).
  { rewrite K2, C1. assert (N : -10000000000 <= IZR n <= 10000000000) by (split; apply IZR_le; lia). apply Rabs_le. lra. }
  destruct (f_epj d K1 B) as [[_ K4] _]. rewrite K4, K2. exact C2.
Qed.

(** ** The tangent plane *)
Lemma f_ds2tp : forall ra dec raz decz, ffin ra = true -> ffin dec = true -> ffin raz = true -> ffin decz = true -> Rabs (fval ra - fval raz) <= 7 ->
  let '(x, y, j) := @palDs2tp f64 (FA F) ra dec raz decz in let '(x', y', j') := ds2tp L (fval ra) (fval dec) (fval raz) (fval decz) in
  rep x x' /\ rep y y' /\ j = j'.
Proof.
  intros ra dec raz decz A B C D H.
  assert (N := f_num F e OK ra dec raz decz _ _ _ _ (conj A eq_refl) (conj B eq_refl) (conj C eq_refl) (conj D eq_refl) H). cbv zeta in N. fold L in N.
  rewrite ds2tp_unf. unfold palDs2tp. fops. cbv zeta.
  destruct (s2tp_num L (fval ra) (fval dec) (fval raz) (fval decz)) as [[a b] d]. destruct N as (N1 & N2 & N3). cbn [vx vy vz] in N1, N2, N3.
  set (fa := Bmult mode_NE (f_cos F dec) (f_sin F _)) in *. set (fbb := Bminus mode_NE (Bmult mode_NE (f_sin F dec) (f_cos F decz)) _) in *.
  set (fd := Bplus mode_NE (Bmult mode_NE (f_sin F dec) (f_sin F decz)) _) in *. clearbody fa fbb fd.
  assert (T : repb (flit 1e-6) (rd 1e-6) 0).
  { assert (K := rb_lit 1e-6 0). replace (litR 1e-6) with 1e-6 in K by (rlit; lra). apply K; [rewrite Rabs_pos_eq by lra; change (bpow radix2 0) with 1; lra|lia]. }
  assert (TL : bpow radix2 (-20) <= rd 1e-6) by (apply rd_ge; [apply generic_format_bpow; unfold d64, FLT_exp; lia|change (bpow radix2 (-20)) with (/ 1048576); lra]).
  assert (TO := rb_opp _ _ _ T).
  rewrite (rep_ltb _ _ _ _ (proj1 T) (proj1 N3)), (rep_leb _ _ _ _ fz0 (proj1 N3)), (rep_ltb _ _ _ _ (proj1 TO) (proj1 N3)), rd_0.
  assert (Q0 := bpow_gt_0 radix2 (-20)).
  assert (G : forall df dd j, rep df dd -> bpow radix2 (-20) <= Rabs dd -> let '(x, y, j0) := (Bdiv mode_NE fa df, Bdiv mode_NE fbb df, j) in
    let '(x', y', j') := (rd (a / dd), rd (b / dd), j) in rep x x' /\ rep y y' /\ (j0 : Z) = j').
  { intros df dd j Hd Ld. split; [|split]; [eapply rb_rep, (rb_div _ _ _ _ 10 (-20)); eauto; lia|eapply rb_rep, (rb_div _ _ _ _ 10 (-20)); eauto; lia|easy]. }
  destruct (Rltb_spec (rd 1e-6) d) as [L1|L1]; [apply G; [apply N3|rewrite Rabs_pos_eq; lra]|].
  destruct (Rleb_spec 0 d) as [L2|L2]; [apply G; [apply T|rewrite Rabs_pos_eq; lra]|].
  destruct (Rltb_spec (- rd 1e-6) d) as [L3|L3]; [apply G; [apply TO|rewrite Rabs_Ropp, Rabs_pos_eq; lra]|].
  apply G; [apply N3|rewrite Rabs_left; lra].
Qed.
(** for every star and tangent point no more than 7 rad apart in right ascension the results are finite, and the status is that of
    the case (in front, edge-on, behind) except within 2e-15 of the boundaries *)
Theorem C98_palDs2tp_status : forall ra dec raz decz, ffin ra = true -> ffin dec = true -> ffin raz = true -> ffin decz = true -> Rabs (fval ra - fval raz) <= 7 ->
  let '(x, y, j) := @palDs2tp f64 (FA F) ra dec raz decz in ffin x = true /\ ffin y = true /\
  let D := dot (dir (fval ra) (fval dec)) (dir (fval raz) (fval decz)) in
  (1e-6 + 2e-15 <= D -> j = 0%Z) /\ (2e-15 <= D <= 1e-6 - 2e-15 -> j = 1%Z) /\
  (- 1e-6 + 2e-15 <= D <= - 2e-15 -> j = 2%Z) /\ (D <= - 1e-6 - 2e-15 -> j = 3%Z).
Proof.
  intros ra dec raz decz A B C D H. assert (K := f_ds2tp ra dec raz decz A B C D H).
  assert (S := C91_palDs2tp_status L (fval ra) (fval dec) (fval raz) (fval decz) (ag_trig_acc F e OK) (rep_double ra _ (conj A eq_refl)) (rep_double dec _ (conj B eq_refl))
    (rep_double raz _ (conj C eq_refl)) (rep_double decz _ (conj D eq_refl)) H).
  destruct (@palDs2tp f64 (FA F) ra dec raz decz) as [[x y] j]. destruct (ds2tp L (fval ra) (fval dec) (fval raz) (fval decz)) as [[x' y'] j'].
  destruct K as ([K1 _] & [K2 _] & ->). split; [exact K1|]. split; [exact K2|]. exact S.
Qed.
Theorem C98_palDs2tp : forall ra dec raz decz xi et, ffin ra = true -> ffin dec = true -> ffin raz = true -> ffin decz = true -> Rabs (fval ra - fval raz) <= 7 ->
  let D := dot (dir (fval ra) (fval dec)) (dir (fval raz) (fval decz)) in 0.01 <= D -> projects (fval ra) (fval dec) (fval raz) (fval decz) xi et ->
  let k := 1.13e-15 + 1.12e-16 * Rabs (fval ra - fval raz) in
  let '(x, y, j) := @palDs2tp f64 (FA F) ra dec raz decz in
  ffin x = true /\ ffin y = true /\ j = 0%Z /\ Rabs (fval x - xi) <= k * ((1 + Rabs xi) / D) /\ Rabs (fval y - et) <= k * ((1 + Rabs et) / D).
Proof.
  intros ra dec raz decz xi et A B C D H DD HD HP k. assert (K := f_ds2tp ra dec raz decz A B C D H).
  assert (S := C91_palDs2tp L (fval ra) (fval dec) (fval raz) (fval decz) xi et (ag_trig_acc F e OK) (rep_double ra _ (conj A eq_refl)) (rep_double dec _ (conj B eq_refl))
    (rep_double raz _ (conj C eq_refl)) (rep_double decz _ (conj D eq_refl)) H HD HP). fold DD k in S.
  destruct (@palDs2tp f64 (FA F) ra dec raz decz) as [[x y] j]. destruct (ds2tp L (fval ra) (fval dec) (fval raz) (fval decz)) as [[x' y'] j'].
  destruct K as ([K1 K1'] & [K2 K2'] & ->). rewrite K1', K2'. split; [exact K1|]. split; [exact K2|]. exact S.
Qed.
Theorem C98_palDtp2s : forall xi et raz decz ra dec, ffin xi = true -> ffin et = true -> ffin raz = true -> ffin decz = true ->
  Rabs (fval raz) <= 10 -> Rabs (fval xi) <= 10 ^ 60 -> Rabs (fval et) <= 10 ^ 60 ->
  projects ra dec (fval raz) (fval decz) (fval xi) (fval et) -> - (PI / 2) <= dec <= PI / 2 ->
  let '(a, d) := @palDtp2s f64 (FA F) xi et raz decz in
  ffin d = true /\ Rabs (fval d - dec) <= 9e-16 + e /\
  (1e-9 <= cosR dec -> ffin a = true /\ 0 <= fval a < 2 * PI /\ exists k : Z, Rabs (fval a - (ra + IZR k * (2 * PI))) <= 5.6e-16 / cosR dec + 2.9e-15 + 3 * e).
Proof.
  intros xi et raz decz ra dec A B C D Br Bx Be P Hb.
  assert (Hx : rep xi (fval xi)) by now split. assert (He' : rep et (fval et)) by now split. assert (Hr : rep raz (fval raz)) by now split. assert (Hz : rep decz (fval decz)) by now split.
  assert (P60 : 10 ^ 60 <= bpow radix2 200) by (change (bpow radix2 200) with (IZR (2 ^ 200)); rewrite pow_IZR; apply IZR_le; vm_compute; discriminate).
  assert (X : repb xi (fval xi) 200) by (split; [easy|lra]). assert (Y : repb et (fval et) 200) by (split; [easy|lra]).
  assert (E := dtv_err L (ag_trig_acc F e OK) (fval xi) (fval et) (fval decz) (rep_fmt _ _ Hz)). rewrite (tv_dir _ _ _ _ _ _ P) in E. set (n := sqrtR (1 + fval xi * fval xi + fval et * fval et)) in *.
  assert (N1 : 1 <= n) by (unfold n; rewrite <- sqrt_1 at 1; apply sqrt_le_1_alt; nra).
  assert (N65 : / 10 ^ 65 <= n) by (apply (Rle_trans _ (/ 1)); [apply Rinv_le_contravar; lra|lra]).
  destruct (near_core _ n (ra - fval raz) dec 5.5e-16 N65 Hb E ltac:(lra)) as (NZ & h0 & K & M). fold L in NZ, h0, K, M, E.
  unfold palDtp2s. fops. cbv zeta.
  destruct (ag_sin F e OK decz _ Hz) as [S1 C1]. fold L in S1, C1. fold L in E |- *. set (sz := f_sin F decz) in *. set (cz := f_cos F decz) in *. 
  set (v := dtv L (fval xi) (fval et) (fval decz)) in *.
  set (den := Bminus mode_NE cz (Bmult mode_NE et sz)). set (zz := Bplus mode_NE sz (Bmult mode_NE et cz)).
  assert (HD : repb den (vx v) 202) by (unfold den, v, dtv; cbv zeta; cbn [vx]; eapply rb_weak; [fb|cbn; lia]).
  assert (HZ : repb zz (vz v) 202) by (unfold zz, v, dtv; cbv zeta; cbn [vz]; eapply rb_weak; [fb|cbn; lia]).
  assert (HY : repb xi (vy v) 200) by exact X.
  clearbody den zz.
  set (hf := Bsqrt mode_NE _). assert (HH : exists p, posb hf (dhyp (vx v) (vy v)) p).
  { unfold dhyp. eexists. unfold hf. rewrite (Rplus_comm (rd (vx v * vx v))). fp. }
  clearbody hf. destruct HH as (p & HH & PH & _). set (h := dhyp (vx v) (vy v)) in *. clearbody h.
  assert (F0 := rep_fmt _ _ (proj1 HD)). assert (F1 := rep_fmt _ _ (proj1 HY)). assert (F2 := rep_fmt _ _ (proj1 HZ)).
  assert (HA := ag_atan2_acc F e OK He). fold L in HA.
  assert (AD := ag_atan2_std F e OK zz hf (vz v) h (proj1 HZ) (proj1 HH) NZ ltac:(intros; exact PH)). fold L in AD. destruct AD as [AD1 AD2].
  split; [exact AD1|]. split.
  - rewrite AD2. assert (AL := HA (vz v) h F2 (rep_fmt _ _ (proj1 HH)) NZ). apply Rabs_le_inv in AL, K. apply Rabs_le. lra.
  - intros Hc. assert (C30 : / 10 ^ 30 <= cosR dec) by (apply (Rle_trans _ 1e-9); lra).
    destruct (M ltac:(lra) C30) as (NZ' & _ & _ & k & Hk).
    destruct (at_bound F e OK He xi den (vy v) (vx v) (proj1 HY) (proj1 HD) NZ') as [T1 T2].
    destruct (lat0 F e OK He xi den (vy v) (vx v) (proj1 HY) (proj1 HD) NZ') as [_ [i Hi]]. fold L in Hi. set (t := f_atan2 F xi den) in *. clearbody t.
    assert (AL := HA (vy v) (vx v) F1 F0 NZ'). apply Rabs_le_inv in AL, Br, Hk, Hi.
    assert (TB : repb t (fval t) 3) by (split; [now split|change (bpow radix2 3) with 8; apply Rabs_le; lra]).
    assert (RB : repb raz (fval raz) 4) by (split; [easy|change (bpow radix2 4) with 16; apply Rabs_le; lra]).
    assert (SB := rb_add _ _ _ _ _ _ TB RB ltac:(lia)). destruct SB as [[SB1 SB2] _]. set (w := Bplus mode_NE t raz) in *. clearbody w.
    clear N65 C30 P60 E N1 X Y HD HZ HY HH F0 F1 F2 K M NZ Bx Be P PH h0 NZ' S1 C1 TB RB.
    assert (W := rdi (fval t + fval raz) 14.2 ltac:(lra)). assert (E1 := eta_small). assert (E0 := eta_pos). rewrite <- SB2 in W.
    assert (Bd : Rabs (fval w) <= 14.3) by (apply Rabs_le; unfold u53 in W; lra).
    destruct (C94_palDranrm F w SB1) as (R1 & R2 & _ & j & J). unfold palDranrm in R1, R2, J. set (q := @eraAnp f64 (FA F) w) in *. clearbody q.
    split; [exact R1|]. split; [exact R2|]. exists (k + i - j)%Z. rewrite minus_IZR, plus_IZR.
    apply Rabs_le_inv in J. set (x := Rabs (fval w)) in *. clearbody x.
    assert (CI : 0 < / cosR dec) by (apply Rinv_0_lt_compat; lra). unfold Rdiv in *. set (ci := / cosR dec) in *. clearbody ci.
    apply Rabs_le. unfold u53 in *. split; lra.
Qed.

(** ** Galactic and supergalactic coordinates *)
Lemma f_anpm : forall a x, rep a x -> rep (@eraAnpm f64 (FA F)  a) (@eraAnpm R (DA L) x).
Proof.
  intros a x H. unfold eraAnpm. assert (W := f_fmod2pi F a x H). assert (P := f_D2PI F). fold L in W, P. cbv zeta. unfold DSIGN.
  change (@fmod f64 (FA F) a D2PI) with (ffmod a (@D2PI f64 (FD F))). change (@fmod R (DA L) x D2PI) with (fmodR x (@D2PI R (DA L))).
  change (@D2PI f64 (FA F)) with (@D2PI f64 (FD F)).
  set (w := ffmod a (@D2PI f64 (FD F))) in *. set (v := fmodR x (@D2PI R (DA L))) in *.
  set (t := @D2PI f64 (FD F)) in *. set (u := @D2PI R (DA L)) in *. clearbody w v t u. fops.
  apply (if_rel _ _ rep); [apply rep_leb; fr|intros _|intros _; fr].
  assert (G : repb (if Bltb a (flit 0) then Bopp (Babs t) else Babs t) (if Rltb x (rd (litR 0)) then - Rabs u else Rabs u) 3).
  { apply (if_rel _ _ (fun p q => repb p q 3)); [apply rep_ltb; fr|intros _|intros _]; fb. }
  eapply rb_rep. eapply rb_sub; [exact W|exact G|lia].
Qed.
Lemma dcc2s_bound : forall v w, rvecb v w 250 -> ffin (fst (@palDcc2s f64 (FA F) v)) = true /\ -4 <= fval (fst (@palDcc2s f64 (FA F) v)) <= 4.
Proof.
  intros v w (A1 & A2 & A3). unfold palDcc2s, eraC2s. fops. cbv zeta. cbn [fst].
  set (df := Bplus _ _ _). set (dd := rd (rd (vx w * vx w) + rd (vy w * vy w))).
  assert (Hd : exists p, posb df dd p) by (eexists; unfold df, dd; fp). destruct Hd as [p Hd].
  assert (X0 : dd <> 0 -> vy w <> 0 \/ vx w <> 0).
  { intros N. destruct (Req_dec (vy w) 0) as [Ey|]; [right|now left]. intros Ex. apply N. unfold dd. rewrite Ex, Ey, !Rmult_0_l, rd_0, Rplus_0_l. apply rd_0. }
  clearbody df dd. destruct Hd as ((Hd & _) & Pd & _).
  rewrite (rep_eqb df (flit 0) dd (rd 0) Hd fz0), rd_0. destruct (Reqb_spec dd 0) as [|N].
  - destruct fz0 as [Z1 Z2]. rewrite Z2, rd_0. split; [exact Z1|lra].
  - apply (at_bound F e OK He _ _ (vy w) (vx w)); [apply A2|apply A1|now apply X0].
Qed.
Definition fconv (m : mat f64) (a b : f64) : f64 * f64 :=
  let '(x, y) := @palDcc2s f64 (FA F) (@eraRxp f64 (FA F) m (@eraS2c f64 (FA F) a b)) in (@eraAnp f64 (FA F) x, @eraAnpm f64 (FA F) y).
Definition rconv (m : mat R) (a b : R) : R * R :=
  let '(x, y) := @palDcc2s R (DA L) (@eraRxp R (DA L) m (@eraS2c R (DA L) a b)) in (@eraAnp R (DA L) x, @eraAnpm R (DA L) y).
Lemma f_conv : forall m m' a b, rmatb m m' 61 -> ffin a = true -> ffin b = true ->
  is_double (fst (@palDcc2s R (DA L) (@eraRxp R (DA L) m' (@eraS2c R (DA L) (fval a) (fval b))))) ->
  Rabs (fst (@palDcc2s R (DA L) (@eraRxp R (DA L) m' (@eraS2c R (DA L) (fval a) (fval b))))) <= 4 ->
  rep (snd (fconv m a b)) (snd (rconv m' (fval a) (fval b))) /\ 0 <= fval (fst (fconv m a b)) < 2 * PI /\
  lonrep (fst (fconv m a b)) (fst (rconv m' (fval a) (fval b))) (1.8e-15 + 2 * e).
Proof.
  intros m m' a b Hm A B Dx Bx. assert (Ha : rep a (fval a)) by now split. assert (Hb : rep b (fval b)) by now split.
  assert (S : rvecb (@eraS2c f64 (FA F) a b) (@eraS2c R (DA L) (fval a) (fval b)) 4).
  { unfold eraS2c, rvecb. fops. cbn [vx vy vz]. split; [|split]; (eapply rb_weak; [fb|cbn; lia]). }
  assert (W := f_rxp m _ m' _ 61 4 Hm S ltac:(lia) ltac:(lia)). apply (rvecb_weak _ _ _ 250) in W; [|lia].
  unfold fconv, rconv. destruct (f_dcc2s F e OK He _ _ W) as [K1 K2]. fold L in K1, K2. change (FD F) with (FA F) in K1, K2. destruct (dcc2s_bound _ _ W) as [K3 K4].
  destruct (@palDcc2s f64 (FA F) _) as [x y]. destruct (@palDcc2s R (DA L) _) as [x' y']. cbn [fst snd] in *.
  split; [now apply f_anpm|]. destruct (C94_palDranrm F x K3) as (R1 & R2 & _ & j & J). unfold palDranrm in R1, R2, J. split; [exact R2|].
  destruct (C81_palDranrm L x' Dx) as (_ & _ & _ & i & _ & _ & I). change (dranrm L x') with (@eraAnp R (DA L) x') in I.
  destruct K1 as [_ [k Hk]]. split; [exact R1|]. exists (k - j + i)%Z. rewrite plus_IZR, minus_IZR.
  set (q := @eraAnp f64 (FA F) x) in *. set (q' := @eraAnp R (DA L) x') in *. clearbody q q'. clear - I J Hk K4 Bx.
  assert (Ax : Rabs (fval x) <= 4) by (apply Rabs_le; lra). apply Rabs_le_inv in I, J, Hk. set (u := Rabs (fval x)) in *. set (w := Rabs x') in *. clearbody u w.
  apply Rabs_le. lra.
Qed.
Definition fagrees (o : f64 * f64) (x : R * R) : Prop :=
  ffin (fst o) = true /\ ffin (snd o) = true /\ 0 <= fval (fst o) < 2 * PI /\ Rabs (fval (snd o) - snd x) <= 2e-15 + e /\
  (1e-8 <= cosR (snd x) -> exists k : Z, Rabs (fval (fst o) - (fst x + IZR k * (2 * PI))) <= 1.66e-15 / cosR (snd x) + 2.5e-15 + 3 * e).
Lemma f_agrees : forall m m' a b x, rmatb m m' 61 -> ffin a = true -> ffin b = true -> 
  agrees e (rconv m' (fval a) (fval b)) x -> fagrees (fconv m a b) x.
Proof.
  intros m m' a b x Hm A B (_ & A2 & A3). assert (Ha : rep a (fval a)) by now split. assert (Hb : rep b (fval b)) by now split.
  assert (Q : fmtv (@eraRxp R (DA L) m' (@eraS2c R (DA L) (fval a) (fval b)))).
  { unfold eraRxp, row_dot, fmtv. dops. cbn [vx vy vz]. split; [|split]; apply fmt_rd. }
  destruct (dcc2s_lon L e _ (ag_atan2_acc F e OK He) ltac:(lra) (ag_atan2_dbl F) Q) as [Q1 Q2]. unfold dcc2s in Q1, Q2.
  assert (Q3 : is_double (fst (@palDcc2s R (DA L) (@eraRxp R (DA L) m' (@eraS2c R (DA L) (fval a) (fval b)))))).
  { split; [apply FLT_format_generic; [now unfold Prec_gt_0|exact Q1]|]. apply Rle_lt_trans with (bpow radix2 2); [change (bpow radix2 2) with 4; apply Rabs_le; exact Q2|apply bpow_lt; lia]. }
  destruct (f_conv m m' a b Hm A B Q3 ltac:(apply Rabs_le; exact Q2)) as ([K1 K1'] & K2 & K3).
  split; [apply K3|]. split; [exact K1|]. split; [exact K2|]. rewrite K1'. split; [exact A2|].
  intros Hc. specialize (A3 Hc). destruct (lon_trans _ _ _ _ _ K3 A3) as [_ [k Hk]]. exists k. lra.
Qed.
Ltac fmatlit := unfold rmatb, rvecb; cbn [vx vy vz m0 m1 m2]; fops; cbn [vx vy vz m0 m1 m2]; repeat (match goal with |- _ /\ _ => split end); (eapply rb_weak; [fb|lia]).
Lemma f_eqgal : rmatb (@rmat_eqgal f64 (FA F)) (@rmat_eqgal R (DA L)) 61. Proof. unfold rmat_eqgal. fmatlit. Qed.
Lemma f_galeq : rmatb (@rmat_galeq f64 (FA F)) (@rmat_galeq R (DA L)) 61. Proof. unfold rmat_galeq. fmatlit. Qed.
Lemma f_galsup : rmatb (@rmat_galsup f64 (FA F)) (@rmat_galsup R (DA L)) 61. Proof. unfold rmat_galsup. fmatlit. Qed.
Lemma f_supgal : rmatb (@rmat_supgal f64 (FA F)) (@rmat_supgal R (DA L)) 61. Proof. unfold rmat_supgal. fmatlit. Qed.
(** on all finite doubles the four conversions give finite results within rounding of the exact conversions *)
Theorem C98_galactic : forall a b, ffin a = true -> ffin b = true ->
  fagrees (@palEqgal f64 (FA F) a b) (palEqgal (fval a) (fval b)) /\ fagrees (@palGaleq f64 (FA F) a b) (palGaleq (fval a) (fval b)) /\
  fagrees (@palGalsup f64 (FA F) a b) (palGalsup (fval a) (fval b)) /\ fagrees (@palSupgal f64 (FA F) a b) (palSupgal (fval a) (fval b)).
Proof.
  intros a b A B. assert (Da := rep_double a _ (conj A eq_refl)). assert (Db := rep_double b _ (conj B eq_refl)).
  destruct (C88_rounding L e (fval a) (fval b) (ag_atan2_acc F e OK He) ltac:(lra) (ag_atan2_dbl F) (ag_trig_acc F e OK) Da Db) as (R1 & R2 & R3 & R4).
  split; [|split; [|split]].
  - exact (f_agrees _ _ a b _ f_eqgal A B R1).
  - exact (f_agrees _ _ a b _ (rmatb_tr _ _ _ f_galeq) A B R2).
  - exact (f_agrees _ _ a b _ f_galsup A B R3).
  - exact (f_agrees _ _ a b _ (rmatb_tr _ _ _ f_supgal) A B R4).
Qed.
End F.

(** e.g. with a correctly rounding libm: a rotation by (1, pi, 0), the year 2000, and a vector with itself *)
Example C98_eg : mfin (@palDeuler f64 (FA Fcr) "XZX" (flit 1) fpi (flit 0)) /\ fval (@palEpj2d f64 (FA Fcr) (flit 2000)) = 51544.5 /\
  fvec (@palDvxv f64 (FA Fcr) (V (flit 1) (flit 2) (flit 2)) (V (flit 1) (flit 2) (flit 2))) = vzero.
Proof.
  assert (VL : forall n : Z, (0 <= n <= 4000)%Z -> fval (flit (MkDec n 0)) = IZR n).
  { intros n Hn. assert (N : 0 <= IZR n <= 4000) by (split; apply IZR_le; lia). assert (E : litR (MkDec n 0) = IZR n) by (unfold litR; cbn; now rewrite Z.mul_1_r).
    destruct (rb_lit (MkDec n 0) 60) as [[_ K] _]; [rewrite E; apply Rabs_le; cbn; lra|lia|]. rewrite K, E. apply rdZ. lia. }
  split; [|split].
  - apply (C98_palDeuler Fcr 2.3e-16 Fcr_ok ltac:(lra)); reflexivity.
  - destruct (C98_palEpj_years Fcr 2000 (flit 2000)) as [K _]; [lia|reflexivity|exact (VL 2000%Z ltac:(lia))|]. rewrite K. lra.
  - set (v := V (flit 1) (flit 2) (flit 2)). assert (E : fvec v = V 1 2 2) by (unfold fvec, v; cbn [vx vy vz]; f_equal; [exact (VL 1%Z ltac:(lia))|exact (VL 2%Z ltac:(lia))..]).
    assert (N : norm (fvec v) = 3) by (rewrite E; unfold norm, dot; cbn [vx vy vz]; replace (1 * 1 + 2 * 2 + 2 * 2) with (3 * 3) by ring; apply sqrt_square; lra).
    assert (Mv : moderate (norm (fvec v))) by (rewrite N; split; [apply Rle_trans with (/ 1); [apply Rinv_le_contravar; [lra|apply pow_R1_Rle; lra]|lra]|apply Rle_trans with (10 ^ 1); [lra|apply Rle_pow; [lra|lia]]]).
    assert (Fv : vfin v) by (repeat split; reflexivity).
    destruct (C98_palDvxv Fcr v v Fv Fv Mv Mv) as (_ & _ & _ & K). exact K.
Qed.
