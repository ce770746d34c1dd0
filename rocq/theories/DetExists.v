(** * The determinant functional used in the palDmat specification exists:
    it is mathcomp's [\det] over Coq's reals. *)
From Coq Require Import Reals ClassicalEpsilon FunctionalExtensionality Lra.
From Verif Require Import P_Dmat.
From mathcomp Require Import all_ssreflect all_algebra fingroup perm.
Set Implicit Arguments.
Local Open Scope ring_scope.
Import GRing.Theory.

Definition R_eqb (x y : R) : bool := if Req_EM_T x y then true else false.
Lemma R_eqP : Equality.axiom R_eqb.
Proof. move=> x y; rewrite /R_eqb; case: Req_EM_T => H; by constructor. Qed.
Canonical R_eqType := EqType R (EqMixin R_eqP).
Definition R_pick (P : pred R) (n : nat) : option R :=
  match excluded_middle_informative (exists x, P x) with
  | left H => Some (sval (constructive_indefinite_description _ H))
  | right _ => None
  end.
Lemma R_pick_some P n x : R_pick P n = Some x -> P x.
Proof. by rewrite /R_pick; case: excluded_middle_informative => // H [<-]; case: constructive_indefinite_description. Qed.
Lemma R_pick_ex (P : pred R) : (exists x, P x) -> exists n, R_pick P n.
Proof. by move=> H; exists 0%N; rewrite /R_pick; case: excluded_middle_informative. Qed.
Lemma R_pick_ext P Q : P =1 Q -> R_pick P =1 R_pick Q.
Proof. by move=> H n; have -> : P = Q by apply: functional_extensionality_dep. Qed.
Definition R_choiceMixin := Choice.Mixin R_pick_some R_pick_ex R_pick_ext.
Canonical R_choiceType := ChoiceType R R_choiceMixin.
Lemma RaddA : associative Rplus. Proof. by move=> x y z; rewrite Rplus_assoc. Qed.
Lemma RaddC : commutative Rplus. Proof. by move=> x y; rewrite Rplus_comm. Qed.
Lemma Radd0 : left_id R0 Rplus. Proof. by move=> x; rewrite Rplus_0_l. Qed.
Lemma RaddN : left_inverse R0 Ropp Rplus. Proof. by move=> x; rewrite Rplus_opp_l. Qed.
Definition R_zmodMixin := ZmodMixin RaddA RaddC Radd0 RaddN.
Canonical R_zmodType := ZmodType R R_zmodMixin.
Lemma RmulA : associative Rmult. Proof. by move=> x y z; rewrite Rmult_assoc. Qed.
Lemma RmulC : commutative Rmult. Proof. by move=> x y; rewrite Rmult_comm. Qed.
Lemma Rmul1 : left_id R1 Rmult. Proof. by move=> x; rewrite Rmult_1_l. Qed.
Lemma RmulDl : left_distributive Rmult Rplus. Proof. by move=> x y z; rewrite Rmult_plus_distr_r. Qed.
Lemma R1n0 : R1 != R0 :> R. Proof. by apply/eqP; exact: R1_neq_R0. Qed.
Definition R_ringMixin := ComRingMixin RmulA RmulC Rmul1 RmulDl R1n0.
Canonical R_ringType := RingType R R_ringMixin.
Canonical R_comRingType := ComRingType R RmulC.

Section Det.
  Variable n : nat.
  Definition mxf (A : nat -> nat -> R) : 'M[R]_n := \matrix_(i, j) A i j.
  Definition detR (A : nat -> nat -> R) : R := \det (mxf A).

  Lemma row'_eq (A B : 'M[R]_n) (r : 'I_n) : (forall i j, i != r -> A i j = B i j) -> row' r A = row' r B.
  Proof. move=> H. apply/matrixP => i j. rewrite !mxE. apply: H. by rewrite eq_sym neq_lift. Qed.
  Lemma eqb_ord (i r : 'I_n) : Nat.eqb i r = (i == r).
  Proof. by rewrite -val_eqE /=; case: PeanoNat.Nat.eqb_spec => [->|H]; [rewrite eqxx|symmetry; apply/eqP]. Qed.

  Lemma detR_ok : is_det n detR.
  Proof.
    split.
    - move=> A B H. congr (\det _). apply/matrixP => i j. rewrite !mxE. apply: H; by apply/ltP.
    - move=> A r c /ltP Hr. rewrite /detR.
      rewrite (@determinant_multilinear _ _ _ (mxf A) (mxf A) (Ordinal Hr) c 0).
      + by rewrite [0 * _]mul0r addr0.
      + apply/matrixP => i j. rewrite !mxE /= PeanoNat.Nat.eqb_refl [0 * _]mul0r. by rewrite addr0.
      + apply: row'_eq => i j Hi. rewrite !mxE -[r]/(nat_of_ord (Ordinal Hr)) eqb_ord. by rewrite (negbTE Hi).
      + apply: row'_eq => i j Hi. rewrite !mxE -[r]/(nat_of_ord (Ordinal Hr)) eqb_ord. by rewrite (negbTE Hi).
    - move=> A r s c /ltP Hr /ltP Hs Hrs. rewrite /detR.
      have Hd : Ordinal Hs != Ordinal Hr. { rewrite -val_eqE /=. apply/eqP => E. by apply: Hrs. }
      pose B := \matrix_(i < n, j < n) (if i == Ordinal Hr then A s j else A i j) : 'M[R]_n.
      rewrite (@determinant_multilinear _ _ _ (mxf A) B (Ordinal Hr) 1 c).
      + rewrite mul1r. have -> : \det B = 0; last by rewrite mulr0 addr0.
        apply: (@determinant_alternate _ _ _ (Ordinal Hs) (Ordinal Hr) Hd) => j.
        by rewrite !mxE eqxx (negbTE Hd).
      + apply/matrixP => i j. rewrite !mxE /= PeanoNat.Nat.eqb_refl eqxx. by rewrite mul1r.
      + apply: row'_eq => i j Hi. rewrite !mxE -[r]/(nat_of_ord (Ordinal Hr)) eqb_ord. by rewrite (negbTE Hi).
      + apply: row'_eq => i j Hi. rewrite !mxE -[r]/(nat_of_ord (Ordinal Hr)) eqb_ord. by rewrite (negbTE Hi).
    - move=> A r s /ltP Hr /ltP Hs Hrs. rewrite /detR.
      have -> : mxf (swapf r s A) = xrow (Ordinal Hr) (Ordinal Hs) (mxf A).
      { apply/matrixP => i j. rewrite !mxE /swapf.
        have Er : Nat.eqb i r = (i == Ordinal Hr) by rewrite -eqb_ord.
        have Es : Nat.eqb i s = (i == Ordinal Hs) by rewrite -eqb_ord.
        rewrite Er Es {Er Es}.
        case: tpermP => [->|->|H1 H2]; rewrite ?eqxx //.
        - case: eqP => [E|] //. by rewrite -[in RHS]E.
        - by move/eqP/negbTE: H1 => ->; move/eqP/negbTE: H2 => ->. }
      rewrite xrowE det_mulmx det_perm odd_tperm.
      have -> : (Ordinal Hr != Ordinal Hs). { rewrite -val_eqE /=. by apply/eqP. }
      by rewrite expr1 mulN1r.
    - rewrite /detR. have -> : mxf delta = 1%:M; last by rewrite det1.
      apply/matrixP => i j. rewrite !mxE /delta eqb_ord. by case: (i == j).
  Qed.
End Det.
