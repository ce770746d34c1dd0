(** * C76: the nutation series, term by term, for every date *)
From Coq Require Import Reals ZArith Lra Lia Psatz Bool List.
From Verif Require Import Num NumR Erfa Geom NutTable M_Refr M_Place P_Aop Props_Aop Props_Nut.
Import ListNotations.
Local Open Scope R_scope.

(** ** Specification (Shirai and Fukushima 2001): the fundamental arguments in radians, not reduced to one turn: the five
    Delaunay arguments and the mean longitudes of Venus, Mars, Jupiter and Saturn *)
Definition sf_arguments (t : R) : list R := map (fun s => s * as2r) [
  134.96340251 * 3600 + 1717915923.2178 * t + 31.8792 * t ^ 2 + 0.051635 * t ^ 3 - 0.00024470 * t ^ 4;
  357.52910918 * 3600 + 129596581.0481 * t - 0.5532 * t ^ 2 + 0.000136 * t ^ 3 - 0.00001149 * t ^ 4;
  93.27209062 * 3600 + 1739527262.8478 * t - 12.7512 * t ^ 2 - 0.001037 * t ^ 3 + 0.00000417 * t ^ 4;
  297.85019547 * 3600 + 1602961601.2090 * t - 6.3706 * t ^ 2 + 0.006539 * t ^ 3 - 0.00003169 * t ^ 4;
  125.04455501 * 3600 - 6962890.5431 * t + 7.4722 * t ^ 2 + 0.007702 * t ^ 3 - 0.00005939 * t ^ 4;
  181.97980085 * 3600 + 210664136.433548 * t;
  355.43299958 * 3600 + 68905077.493988 * t;
  34.35151874 * 3600 + 10925660.377991 * t;
  50.07744430 * 3600 + 4399609.855732 * t ].
(** the argument of a row, a combination of those *)
Fixpoint combination (n : list Z) (a : list R) : R :=
  match n, a with k :: n', x :: a' => IZR k * x + combination n' a' | _, _ => 0 end.
(** the contribution, in microarcseconds, of a row with coefficients [k] *)
Definition coeff (k : list Dec) (i : nat) : R := litR (nth i k 0%dec).
Definition contribution (k : list Dec) (t th : R) : R :=
  (coeff k 0 + coeff k 2 * t) * cosR th + (coeff k 1 + coeff k 3 * t) * sinR th.
Definition series (f : list Z * list Dec * list Dec -> list Dec) (t : R) : R :=
  fold_right (fun r s => contribution (f r) t (combination (fst (fst r)) (sf_arguments t)) + s) 0 nutTable.

(** ** Proofs *)
Definition congl := Forall2 cong.
Lemma cong_mulZ : forall k x y, cong x y -> cong (IZR k * x) (IZR k * y).
Proof. intros k x y [j ->]. exists (k * j)%Z. rewrite mult_IZR. ring. Qed.
Lemma arg_cong : forall deg c1 c2 c3 c4 t : R,
  cong (nut_arg deg c1 c2 c3 c4 t) ((deg * 3600 + c1 * t + c2 * t ^ 2 + c3 * t ^ 3 + c4 * t ^ 4) * as2r).
Proof.
  intros. unfold nut_arg, DD2R, DAS2R. rops. replace (litR 1296000.0) with 1296000 by (rlit; lra).
  replace (litR 180) with 180 by (rlit; lra). replace (litR 648000) with 648000 by (rlit; lra).
  destruct (fmodT (t * (c1 + t * (c2 + t * (c3 + t * c4))))) as [k ->]. exists k. unfold as2r. field.
Qed.
Lemma lon_cong : forall deg rate t : R, cong (nut_lon deg rate t) ((deg * 3600 + rate * t) * as2r).
Proof.
  intros. unfold nut_lon, DD2R, DAS2R. rops. replace (litR 1296000.0) with 1296000 by (rlit; lra).
  replace (litR 180) with 180 by (rlit; lra). replace (litR 648000) with 648000 by (rlit; lra).
  destruct (fmodT (rate * t)) as [k ->]. exists k. unfold as2r. field.
Qed.
Lemma cong_eq : forall a b c, cong a b -> b = c -> cong a c. Proof. now intros a b c H <-. Qed.
Lemma args_cong : forall t, congl (nut_args t) (sf_arguments t).
Proof.
  intros t. unfold nut_args, sf_arguments, map. repeat (apply Forall2_cons); [..|apply Forall2_nil].
  all: (eapply cong_eq; [first [apply arg_cong|apply lon_cong]|]); apply (f_equal (fun x => x * as2r)); rn; lra.
Qed.
Lemma theta_acc : forall n a acc, nut_theta n a acc = acc + combination n a.
Proof.
  induction n as [|k n IH]; intros a acc; [cbn; ring|]. destruct a as [|x a]; [cbn; ring|]. cbn [nut_theta combination]. rewrite IH. rops. ring.
Qed.
Lemma comb_cong : forall n a b, congl a b -> cong (combination n a) (combination n b).
Proof.
  induction n as [|k n IH]; intros a b H; [apply cong_refl|]. destruct H as [|x y a b C H]; [apply cong_refl|]. cbn [combination].
  apply cong_add; [now apply cong_mulZ|now apply IH].
Qed.
Lemma term_contribution : forall k t th th', Datatypes.length k = 4%nat -> cong th th' -> nut_term th t k = contribution k t th'.
Proof.
  intros k t th th' H C. do 4 (destruct k as [|? k]; [discriminate|]). destruct k; [|discriminate].
  unfold nut_term, contribution, coeff. rops. cbn [nth]. now rewrite (cong_sin _ _ C), (cong_cos _ _ C).
Qed.
Definition row_ok (r : list Z * list Dec * list Dec) : bool :=
  (Nat.eqb (Datatypes.length (fst (fst r))) 9 && Nat.eqb (Datatypes.length (snd (fst r))) 4 && Nat.eqb (Datatypes.length (snd r)) 4)%bool.
Lemma table_ok : forallb row_ok nutTable = true. Proof. vm_compute. reflexivity. Qed.
Lemma sum_series : forall t rows dp de, forallb row_ok rows = true ->
  fold_right (nut_f (nut_args t) t) (dp, de) rows =
  (dp + fold_right (fun r s => contribution (snd (fst r)) t (combination (fst (fst r)) (sf_arguments t)) + s) 0 rows,
   de + fold_right (fun r s => contribution (snd r) t (combination (fst (fst r)) (sf_arguments t)) + s) 0 rows).
Proof.
  intros t rows dp de. induction rows as [|[[na psi] eps] rows IH]; intros H; cbn [fold_right].
  - now rewrite !Rplus_0_r.
  - cbn [forallb] in H. apply andb_prop in H. destruct H as [H1 H2]. rewrite (IH H2). clear IH H2.
    unfold row_ok in H1. cbn [fst snd] in H1 |- *. apply andb_prop in H1. destruct H1 as [H1 H3]. apply andb_prop in H1. destruct H1 as [H1 H2].
    apply Nat.eqb_eq in H1, H2, H3. unfold nut_f at 1. cbn [fst snd].
    match goal with |- context [nut_term ?x _ _] => set (th := x) end.
    assert (C : cong th (combination na (sf_arguments t))).
    { unfold th. destruct na as [|k na]; [discriminate|]. assert (A := args_cong t). destruct A as [|x y a b C A]; [exact (cong_refl 0)|].
      rewrite theta_acc. rops. cbn [combination]. apply cong_add; [now apply cong_mulZ|now apply comb_cong]. }
    rewrite (term_contribution psi t th _ H2 C), (term_contribution eps t th _ H3 C). f_equal; ring.
Qed.
(** C76: the nutation in longitude and obliquity is the whole Shirai and Fukushima series, less the geodesic nutation and
    with the corrections to the IAU 1976 precession, at every date *)
Theorem C76_series : forall date, let t := tJ2000 date in let l' := nth 1 (sf_arguments t) 0 in
  let '(dpsi, deps, eps0) := pal__Nutc date in
  dpsi = ((series (fun r => snd (fst r)) t - 153.1 * sinR l' - 1.9 * sinR (2 * l')) * 1e-6 - 0.042888 - 0.29856 * t) * as2r /\
  deps = (series snd t * 1e-6 - 0.005171 - 0.02408 * t) * as2r /\
  eps0 = (84381.412 - 46.80927 * t - 0.000152 * t ^ 2 + 0.0019989 * t ^ 3 - 0.00000051 * t ^ 4 - 0.000000025 * t ^ 5) * as2r.
Proof.
  intros date. cbv zeta. unfold pal__Nutc. rops.
  replace ((date - litR 51544.5) / litR 36525.0) with (tJ2000 date) by (unfold tJ2000; rlit; lra).
  set (t := tJ2000 date). clearbody t.
  assert (E : cong (nth 1 (nut_args t) (litR 0)) (nth 1 (sf_arguments t) 0)).
  { assert (A := args_cong t). inversion A as [|? ? ? ? _ A']; subst. inversion A' as [|? ? ? ? C _]; subst. exact C. }
  set (u := nth 1 (nut_args t) (litR 0)) in *. set (w := nth 1 (sf_arguments t) 0) in *. clearbody u w.
  rewrite nut_sum_right, (sum_series t nutTable _ _ table_ok).
  fold (series (fun r => snd (fst r)) t). change (fold_right _ 0 nutTable) with (series snd t).
  set (S1 := series (fun r => snd (fst r)) t). set (S2 := series snd t). clearbody S1 S2.
  assert (K : DAS2R = as2r) by (unfold DAS2R, as2r; rn; reflexivity). rewrite !K.
  rewrite (cong_sin u w E). replace (litR 2 * u) with (2 * u) by (rlit; lra).
  assert (E2 : sinR (2 * u) = sinR (2 * w)) by (apply cong_sin; now apply (cong_mulZ 2)). rewrite E2.
  set (s1 := sinR w). set (s2 := sinR (2 * w)). clearbody s1 s2.
  split; [|split]; apply (f_equal (fun x => x * as2r)); rlit; lra.
Qed.
(** Non-vacuity: the series has 194 rows; the first is the 18.6-year term in the longitude of the node *)
Example C76_series_eg : Datatypes.length nutTable = 194%nat /\
  fst (fst (nth 0 nutTable ([], [], []))) = [0; 0; 0; 0; -1; 0; 0; 0; 0]%Z /\
  Rabs (coeff (snd (fst (nth 0 nutTable ([], [], [])))) 1 - 17206241.8) < 1e-6.
Proof.
  split; [vm_compute; reflexivity|]. split; [vm_compute; reflexivity|].
  unfold nutTable, coeff. cbn [nth fst snd]. apply Rabs_def1; rlit; lra.
Qed.
