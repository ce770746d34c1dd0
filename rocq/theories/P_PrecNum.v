(** * The precession model evaluated at two epochs: numerical enclosures *)
From Coq Require Import Reals ZArith Lra Lia Psatz Bool.
From Verif Require Import Num NumR Erfa Erfa2 Geom M_Sphere P_Sphere M_Time M_Frames P_Frames.
From Interval Require Import Tactic.
Local Open Scope R_scope.
Lemma mmul_val : forall a1 a2 a3 a4 a5 a6 a7 a8 a9 b1 b2 b3 b4 b5 b6 b7 b8 b9,
  mmul (M (V a1 a2 a3) (V a4 a5 a6) (V a7 a8 a9)) (M (V b1 b2 b3) (V b4 b5 b6) (V b7 b8 b9)) =
  M (V (a1*b1+a2*b4+a3*b7) (a1*b2+a2*b5+a3*b8) (a1*b3+a2*b6+a3*b9))
    (V (a4*b1+a5*b4+a6*b7) (a4*b2+a5*b5+a6*b8) (a4*b3+a5*b6+a6*b9))
    (V (a7*b1+a8*b4+a9*b7) (a7*b2+a8*b5+a9*b8) (a7*b3+a8*b6+a9*b9)).
Proof. reflexivity. Qed.
Lemma fw2m_val : forall g f p e, eraFw2m g f p e =
  let sg := sinR g in let cg := cosR g in let sf := sinR f in let cf := cosR f in
  let sp := sinR p in let cp := cosR p in let se := sinR e in let ce := cosR e in
  M (V (cp * cg + sp * cf * sg) (cp * sg - sp * cf * cg) (- (sp * sf)))
    (V (ce * (sp * cg - cp * cf * sg) - se * (sf * sg)) (ce * (sp * sg + cp * cf * cg) + se * (sf * cg))
       (ce * (cp * sf) - se * cf))
    (V (se * (sp * cg - cp * cf * sg) + ce * (sf * sg)) (se * (sp * sg + cp * cf * cg) - ce * (sf * cg))
       (se * (cp * sf) + ce * cf)).
Proof.
  intros. unfold eraFw2m. rewrite eraRx_mmul, eraRz_mmul, eraRx_mmul, eraRz_mmul, eraIr_mid, mmul_mid_r.
  rops. unfold rotx, rotz. rewrite !sin_neg, !cos_neg. cbv zeta.
  generalize (sinR g) (cosR g) (sinR f) (cosR f) (sinR p) (cosR p) (sinR e) (cosR e). clear. intros.
  rewrite !mmul_val. vsplit; ring.
Qed.
Lemma Rabs_around : forall a c e, Rabs (a - c) <= e -> c - e <= a <= c + e.
Proof. intros a c e H. unfold Rabs in H. destruct (Rcase_abs (a - c)); lra. Qed.
Lemma jcent_val : forall ep, jcent DJ00 ((ep - 2000) * DJY) = (ep - 2000) / 100.
Proof. intros. unfold jcent, DJ00, DJY. rn. field. Qed.
Ltac prec_num :=
  unfold eraPmat06, eraPfw06, eraObl06; rewrite jcent_val; rewrite fw2m_val; cbv zeta;
  unfold DAS2R; rn; cbn [vx vy vz m0 m1 m2];
  repeat apply conj; interval with (i_prec 80).
Lemma prec_1900 : let W := palPrec 2000 1900 in
  Rabs (vx (m0 W) - (9997029465819 / 10000000000000)) <= 2 / 10000000000000 /\
  Rabs (vy (m0 W) - (223513541761 / 10000000000000)) <= 2 / 10000000000000 /\
  Rabs (vz (m0 W) - (97177961483 / 10000000000000)) <= 2 / 10000000000000 /\
  Rabs (vx (m1 W) - (-223513534547 / 10000000000000)) <= 2 / 10000000000000 /\
  Rabs (vy (m1 W) - (9997501713851 / 10000000000000)) <= 2 / 10000000000000 /\
  Rabs (vz (m1 W) - (-1086933177 / 10000000000000)) <= 2 / 10000000000000 /\
  Rabs (vx (m2 W) - (-97177978076 / 10000000000000)) <= 2 / 10000000000000 /\
  Rabs (vy (m2 W) - (-1085448665 / 10000000000000)) <= 2 / 10000000000000 /\
  Rabs (vz (m2 W) - (9999527751968 / 10000000000000)) <= 2 / 10000000000000.
Proof. cbv zeta. rewrite palPrec_2000. prec_num. Qed.
Lemma prec_2100 : let W := palPrec 2000 2100 in
  Rabs (vx (m0 W) - (9997026837654 / 10000000000000)) <= 2 / 10000000000000 /\
  Rabs (vy (m0 W) - (-223649842818 / 10000000000000)) <= 2 / 10000000000000 /\
  Rabs (vz (m0 W) - (-97134726160 / 10000000000000)) <= 2 / 10000000000000 /\
  Rabs (vx (m1 W) - (223649856474 / 10000000000000)) <= 2 / 10000000000000 /\
  Rabs (vy (m1 W) - (9997498665394 / 10000000000000)) <= 2 / 10000000000000 /\
  Rabs (vz (m1 W) - (-1084964048 / 10000000000000)) <= 2 / 10000000000000 /\
  Rabs (vx (m2 W) - (97134694719 / 10000000000000)) <= 2 / 10000000000000 /\
  Rabs (vy (m2 W) - (-1087775286 / 10000000000000)) <= 2 / 10000000000000 /\
  Rabs (vz (m2 W) - (9999528172260 / 10000000000000)) <= 2 / 10000000000000.
Proof. cbv zeta. rewrite palPrec_2000. prec_num. Qed.
Lemma prec_defect : 2 / 10000000 < vy (mapp (palPrec 1900 2100) (mapp (palPrec 2000 1900) (V 0 0 1)))
                                   - vy (mapp (palPrec 2000 2100) (V 0 0 1)).
Proof.
  rewrite palPrec_gen by lra. rewrite mapp_mmul.
  generalize prec_1900 prec_2100. cbv zeta.
  destruct (palPrec 2000 1900) as [[a1 a2 a3] [a4 a5 a6] [a7 a8 a9]].
  destruct (palPrec 2000 2100) as [[b1 b2 b3] [b4 b5 b6] [b7 b8 b9]].
  unfold mapp, mtr, dot. cbn [vx vy vz m0 m1 m2].
  intros (A1 & A2 & A3 & A4 & A5 & A6 & A7 & A8 & A9) (B1 & B2 & B3 & B4 & B5 & B6 & B7 & B8 & B9).
  apply Rabs_around in A1.   apply Rabs_around in A2.   apply Rabs_around in A3.   apply Rabs_around in A4.   apply Rabs_around in A5.   apply Rabs_around in A6.   apply Rabs_around in A7.   apply Rabs_around in A8.   apply Rabs_around in A9.   apply Rabs_around in B1.   apply Rabs_around in B2.   apply Rabs_around in B3.   apply Rabs_around in B4.   apply Rabs_around in B5.   apply Rabs_around in B6.   apply Rabs_around in B7.   apply Rabs_around in B8.   apply Rabs_around in B9. 
  interval with (i_prec 80).
Qed.
