(** * C101: argument arrays that coincide or overlap, and what is left untouched *)
From Coq Require Import Reals ZArith Lia Lra Bool Ascii String List.
From Verif Require Import Num NumR NumF Geom Erfa M_Sphere M_Linear Loops M_Time M_Frames M_Place M_Kin M_Orbit M_Refr M_Mem P_Sphere Props_Sphere.
Local Open Scope Z_scope.

(** ** Specification: what is in memory *)
Section Spec.
  Context {T : Type}.
  Notation mem := (Z -> T).
  (** the 3-vector, the 3x3 matrix (by rows), the six coefficients, the six components of a state, the n pairs at an address *)
  Definition vec_at (m : mem) (p : Z) : vec T := V (m p) (m (p + 1)) (m (p + 2)).
  Definition mat_at (m : mem) (p : Z) : mat T := M (vec_at m p) (vec_at m (p + 3)) (vec_at m (p + 6)).
  Definition co6_at (m : mem) (p : Z) : co6 T := C6 (m p) (m (p + 1)) (m (p + 2)) (m (p + 3)) (m (p + 4)) (m (p + 5)).
  Definition pv_at (m : mem) (p : Z) : pv T := PV (vec_at m p) (vec_at m (p + 3)).
  Definition pair_at (m : mem) (p : Z) (i : nat) : T * T := (m (p + 2 * Z.of_nat i), m (p + 2 * Z.of_nat i + 1)).
  (** nothing outside the n cells from p differs *)
  Definition only (p n : Z) (m m' : mem) : Prop := forall q, ~ (p <= q < p + n) -> m' q = m q.
  (** two blocks have no cell in common *)
  Definition apart (p n q k : Z) : Prop := p + n <= q \/ q + k <= p.
End Spec.

Section P.
Context {T : Type} {AR : Arith T}.
Notation mem := (Z -> T).

Ltac cells := unfold wr; cbn beta; repeat (cbn beta iota; match goal with |- context [Z.eqb ?a ?b] =>
  first [replace (Z.eqb a b) with true by (symmetry; apply Z.eqb_eq; lia) | replace (Z.eqb a b) with false by (symmetry; apply Z.eqb_neq; lia)] end).
Lemma wr_eq : forall p q (x : T) m, q = p -> wr p x m q = x.
Proof. intros p q x m ->. unfold wr. now rewrite Z.eqb_refl. Qed.
Lemma wr_ne : forall p q (x : T) m, q <> p -> wr p x m q = m q.
Proof. intros p q x m H. unfold wr. now rewrite (proj2 (Z.eqb_neq q p) H). Qed.
Ltac wrs := repeat first [rewrite wr_eq by lia | rewrite wr_ne by lia].

Lemma st_vec_at : forall p v (m : mem), vec_at (st_vec p v m) p = v /\ only p 3 m (st_vec p v m).
Proof.
  intros p [x y z] m. split; unfold vec_at, only, st_vec; cbn [vx vy vz]; [|intros q Hq]; wrs; reflexivity.
Qed.
Lemma vec_eq : forall (m m' : mem) p q, (forall k, 0 <= k < 3 -> m' (q + k) = m (p + k)) -> vec_at m' q = vec_at m p.
Proof. intros m m' p q H. unfold vec_at. rewrite <- (Z.add_0_r q), <- (Z.add_0_r p) at 1. rewrite !H by lia. now rewrite Z.add_0_r. Qed.
Lemma st_mat_at : forall p r (m : mem), mat_at (st_mat p r m) p = r /\ only p 9 m (st_mat p r m).
Proof.
  intros p [[a b c] [d e f] [g h i]] m. split; unfold mat_at, vec_at, only, st_mat, st_vec; cbn [vx vy vz m0 m1 m2]; [|intros q Hq]; wrs; reflexivity.
Qed.

(** palDmxm: any of the three matrices may coincide with or overlap any other *)
Theorem C101_palDmxm : forall a b c (m : mem), let m' := palDmxm_m a b c m in
  mat_at m' c = palDmxm (mat_at m a) (mat_at m b) /\ only c 9 m m'.
Proof.
  intros a b c m m'. destruct (st_mat_at c (palDmxm (mat_at m a) (mat_at m b)) m) as [K1 K2].
  assert (E : m' = st_mat c (palDmxm (mat_at m a) (mat_at m b)) m).
  { unfold m', palDmxm_m, eraRxr_m, palDmxm, eraRxr, row_mul, mat_at, vec_at. cbn [vx vy vz m0 m1 m2]. rewrite <- !Z.add_assoc. cbn [Z.add Z.mul Pos.add Pos.mul Pos.succ]. rewrite !Z.add_0_r. reflexivity. }
  rewrite E. now split.
Qed.
(** palDmxv, palDimxv, palDvxv: the result may overlap either argument *)
Theorem C101_palDmxv : forall dm va vb (m : mem), let m' := palDmxv_m dm va vb m in
  vec_at m' vb = palDmxv (mat_at m dm) (vec_at m va) /\ only vb 3 m m'.
Proof.
  intros dm va vb m m'. destruct (st_vec_at vb (palDmxv (mat_at m dm) (vec_at m va)) m) as [K1 K2].
  assert (E : m' = st_vec vb (palDmxv (mat_at m dm) (vec_at m va)) m).
  { unfold m', palDmxv_m, eraRxp_m, palDmxv, eraRxp, row_dot, mat_at, vec_at. cbn [vx vy vz m0 m1 m2]. rewrite <- !Z.add_assoc. cbn [Z.add Z.mul Pos.add Pos.mul Pos.succ]. rewrite !Z.add_0_r. reflexivity. }
  rewrite E. now split.
Qed.
Theorem C101_palDimxv : forall dm va vb (m : mem), let m' := palDimxv_m dm va vb m in
  vec_at m' vb = palDimxv (mat_at m dm) (vec_at m va) /\ only vb 3 m m'.
Proof.
  intros dm va vb m m'. destruct (st_vec_at vb (palDimxv (mat_at m dm) (vec_at m va)) m) as [K1 K2].
  assert (E : m' = st_vec vb (palDimxv (mat_at m dm) (vec_at m va)) m).
  { unfold m', palDimxv_m, eraTrxp_m, palDimxv, eraTrxp, eraTr, eraRxp, row_dot, mat_at, vec_at. cbn [vx vy vz m0 m1 m2]. rewrite <- !Z.add_assoc. cbn [Z.add Z.mul Pos.add Pos.mul Pos.succ]. rewrite !Z.add_0_r. reflexivity. }
  rewrite E. now split.
Qed.
Theorem C101_palDvxv : forall va vb vc (m : mem), let m' := palDvxv_m va vb vc m in
  vec_at m' vc = palDvxv (vec_at m va) (vec_at m vb) /\ only vc 3 m m'.
Proof. intros va vb vc m m'. split; unfold m', only, vec_at, palDvxv_m, eraPxp_m; cbv zeta; [|intros q Hq]; wrs; reflexivity. Qed.
(** palDvn: the unit vector may replace the vector, or overlap it from below; the modulus must not lie in the unit vector *)
Theorem C101_palDvn : forall v uv vm (m : mem), uv - v <> 1 -> uv - v <> 2 -> ~ (uv <= vm < uv + 3) -> let m' := palDvn_m v uv vm m in
  (vec_at m' uv, m' vm) = palDvn (vec_at m v) /\ (forall q, ~ (uv <= q < uv + 3) -> q <> vm -> m' q = m q).
Proof.
  intros v uv vm m H1 H2 H3 m'. unfold m', palDvn_m, eraPn_m, palDvn, eraPn, eraPm, eraZp, eraSxp, eraSxp_m, vec_at. cbv zeta. cbn [vx vy vz].
  destruct (eqb _ _); cbn [fst snd]; (split; [|intros q Q1 Q2]); wrs; reflexivity.
Qed.
(** palDcc2s: the two angles may be put anywhere, even over the vector *)
Theorem C101_palDcc2s : forall v a b (m : mem), a <> b -> let m' := palDcc2s_m v a b m in
  (m' a, m' b) = palDcc2s (vec_at m v) /\ (forall q, q <> a -> q <> b -> m' q = m q).
Proof.
  intros v a b m H m'. split; unfold m', vec_at, palDcc2s_m, eraC2s_m, palDcc2s, eraC2s; cbv zeta; cbn [vx vy vz]; [|intros q H1 H2]; wrs; reflexivity.
Qed.
(** palDav2m and palDm2av: any overlap *)
Theorem C101_palDav2m : forall w r (m : mem), let m' := palDav2m_m w r m in mat_at m' r = palDav2m (vec_at m w) /\ only r 9 m m'.
Proof.
  intros w r m m'. destruct (st_mat_at r (palDav2m (vec_at m w)) m) as [K1 K2].
  assert (E : m' = st_mat r (palDav2m (vec_at m w)) m).
  { unfold m', palDav2m_m, eraRv2m_m, palDav2m, eraRv2m, st_mat, st_vec, vec_at. cbv zeta. cbn [vx vy vz m0 m1 m2]. rewrite <- !Z.add_assoc. cbn [Z.add Pos.add Pos.succ]. reflexivity. }
  rewrite E. now split.
Qed.
Theorem C101_palDm2av : forall r w (m : mem), let m' := palDm2av_m r w m in vec_at m' w = palDm2av (mat_at m r) /\ only w 3 m m'.
Proof.
  intros r w m m'. unfold m', only, mat_at, vec_at, palDm2av_m, eraRm2v_m, palDm2av, eraRm2v; cbv zeta; cbn [vx vy vz m0 m1 m2].
  rewrite <- !Z.add_assoc. cbn [Z.add Pos.add Pos.succ]. destruct (ltb _ _); (split; [|intros q Hq]); wrs; reflexivity.
Qed.
(** palDeuler: the former contents of the matrix do not matter, and nothing else is touched *)
Lemma era_rot_at : forall ax phi r (m : mem), mat_at (era_rot_m ax phi r m) r = era_rot ax phi (mat_at m r) /\ only r 9 m (era_rot_m ax phi r m).
Proof.
  intros ax phi r m. destruct ax; unfold era_rot_m, era_rot, era_r_m, eraRx, eraRy, eraRz, mat_at, vec_at, only, st_vec; cbv zeta; cbn [vx vy vz m0 m1 m2];
    (split; [|intros q Hq]); wrs; rewrite <- ?Z.add_assoc; cbn [Z.add Z.mul Pos.add Pos.mul Pos.succ]; rewrite ?Z.add_0_r; reflexivity.
Qed.
Lemma deuler_at : forall rots order r (m : mem), mat_at (deuler_m order rots r m) r = deuler_loop order rots (mat_at m r) /\ only r 9 m (deuler_m order rots r m).
Proof.
  induction rots as [|phi rots IH]; intros order r m; destruct order as [|ch order]; cbn [deuler_m deuler_loop]; try (split; [reflexivity|intros q _; reflexivity]).
  destruct (axis_of ch) as [ax|]; [|split; [reflexivity|intros q _; reflexivity]].
  destruct (era_rot_at ax phi r m) as [E1 E2]. destruct (IH order r (era_rot_m ax phi r m)) as [I1 I2]. rewrite I1, E1. split; [reflexivity|].
  intros q Hq. rewrite I2 by easy. now apply E2.
Qed.
Theorem C101_palDeuler : forall order phi theta psi r (m : mem), let m' := palDeuler_m order phi theta psi r m in
  mat_at m' r = palDeuler order phi theta psi /\ only r 9 m m'.
Proof.
  intros order phi theta psi r m m'. destruct (deuler_at (phi :: theta :: psi :: nil)%list order r (eraIr_m r m)) as [K1 K2].
  destruct (st_mat_at r (@eraIr T AR) m) as [S1 S2]. change (st_mat r eraIr m) with (eraIr_m r m) in *. rewrite S1 in K1. split; [exact K1|].
  intros q Hq. unfold m', palDeuler_m. rewrite K2 by easy. now apply S2.
Qed.

(** palInvf: in place or overlapping; when there is no inverse nothing is stored *)
Theorem C101_palInvf : forall fw bk (m : mem), let '(m', j) := palInvf_m fw bk m in
  (co6_at m' bk, j) = palInvf (co6_at m fw) (co6_at m bk) /\ only bk 6 m m' /\ (j <> 0 -> forall q, m' q = m q).
Proof.
  intros fw bk m. unfold palInvf_m, palInvf, co6_at, only. cbv zeta. cbn [cA cB cC cD cE cF]. destruct (negb _); (split; [|split; [intros q Hq|intros Hj; try lia]]); wrs; reflexivity.
Qed.
(** palXy2xy: the results must be two cells, the first not among the coefficients of the second *)
Theorem C101_palXy2xy : forall x1 y1 co x2 y2 (m : mem), x2 <> y2 -> ~ (co + 3 <= x2 < co + 6) -> let m' := palXy2xy_m x1 y1 co x2 y2 m in
  (m' x2, m' y2) = palXy2xy x1 y1 (co6_at m co) /\ (forall q, q <> x2 -> q <> y2 -> m' q = m q).
Proof.
  intros x1 y1 co x2 y2 m H1 H2 m'. split; unfold m', palXy2xy_m, palXy2xy, co6_at; cbn [cA cB cC cD cE cF]; [|intros q Q1 Q2]; wrs; reflexivity.
Qed.
(** palDcmpf: the results may be stored over the coefficients *)
Theorem C101_palDcmpf : forall co xz yz xs ys perp orient (m : mem), NoDup (xz :: yz :: xs :: ys :: perp :: orient :: nil) ->
  let m' := palDcmpf_m co xz yz xs ys perp orient m in
  Dcmp (m' xz) (m' yz) (m' xs) (m' ys) (m' perp) (m' orient) = palDcmpf (co6_at m co) /\
  (forall q, ~ In q (xz :: yz :: xs :: ys :: perp :: orient :: nil) -> m' q = m q).
Proof.
  intros co xz yz xs ys perp orient m H m'.
  assert (D : forall i j, (i < 6)%nat -> (j < 6)%nat -> i <> j -> nth i (xz :: yz :: xs :: ys :: perp :: orient :: nil) 0 <> nth j (xz :: yz :: xs :: ys :: perp :: orient :: nil) 0).
  { intros i j Hi Hj Hn He. apply Hn. apply (proj1 (NoDup_nth _ 0) H); assumption. }
  assert (N1 := D 0%nat 1%nat ltac:(lia) ltac:(lia) ltac:(lia)). assert (N2 := D 0%nat 2%nat ltac:(lia) ltac:(lia) ltac:(lia)). assert (N3 := D 0%nat 3%nat ltac:(lia) ltac:(lia) ltac:(lia)).
  assert (N4 := D 0%nat 4%nat ltac:(lia) ltac:(lia) ltac:(lia)). assert (N5 := D 0%nat 5%nat ltac:(lia) ltac:(lia) ltac:(lia)). assert (N6 := D 1%nat 2%nat ltac:(lia) ltac:(lia) ltac:(lia)).
  assert (N7 := D 1%nat 3%nat ltac:(lia) ltac:(lia) ltac:(lia)). assert (N8 := D 1%nat 4%nat ltac:(lia) ltac:(lia) ltac:(lia)). assert (N9 := D 1%nat 5%nat ltac:(lia) ltac:(lia) ltac:(lia)).
  assert (Na := D 2%nat 3%nat ltac:(lia) ltac:(lia) ltac:(lia)). assert (Nb := D 2%nat 4%nat ltac:(lia) ltac:(lia) ltac:(lia)). assert (Nc := D 2%nat 5%nat ltac:(lia) ltac:(lia) ltac:(lia)).
  assert (Nd := D 3%nat 4%nat ltac:(lia) ltac:(lia) ltac:(lia)). assert (Ne := D 3%nat 5%nat ltac:(lia) ltac:(lia) ltac:(lia)). assert (Nf := D 4%nat 5%nat ltac:(lia) ltac:(lia) ltac:(lia)).
  cbn [nth] in *. clear D H. unfold m', palDcmpf_m, co6_at. cbv zeta. set (r := palDcmpf _). clearbody r. split.
  - repeat first [rewrite wr_eq by reflexivity | rewrite wr_ne by (assumption || (apply not_eq_sym; assumption))]. now destruct r.
  - intros q Hq. cbn [In] in Hq. repeat rewrite wr_ne by (intro; apply Hq; subst; tauto). reflexivity.
Qed.
(** palPcd: two cells *)
Theorem C101_palPcd : forall disco x y (m : mem), x <> y -> let m' := palPcd_m disco x y m in
  (m' x, m' y) = palPcd disco (m x) (m y) /\ (forall q, q <> x -> q <> y -> m' q = m q).
Proof. intros disco x y m H m'. split; unfold m', palPcd_m, palPcd; cbv zeta; [|intros q Q1 Q2]; wrs; reflexivity. Qed.
(** palRefv: any overlap *)
Theorem C101_palRefv : forall vu refa refb vr (m : mem), let m' := palRefv_m vu refa refb vr m in
  vec_at m' vr = palRefv (vec_at m vu) refa refb /\ only vr 3 m m'.
Proof. intros vu refa refb vr m m'. split; unfold m', only, vec_at, palRefv_m, palRefv; cbv zeta; cbn [vx vy vz]; [|intros q Hq]; wrs; reflexivity. Qed.

(** palPv2ue: the element set may be built over the state vector; on failure nothing is stored *)
Definition ue_at (m : mem) (u : Z) : ue T :=
  UE (m u) (m (u + 1)) (m (u + 2)) (vec_at m (u + 3)) (vec_at m (u + 6)) (m (u + 9)) (m (u + 10)) (m (u + 11)) (m (u + 12)).
Theorem C101_palPv2ue : forall pv date pmass u (m : mem), let '(m', j) := palPv2ue_m pv date pmass u m in
  palPv2ue (pv_at m pv) date pmass = (j, if Z.eqb j 0 then Some (ue_at m' u) else None) /\ only u 13 m m' /\ (j <> 0 -> forall q, m' q = m q).
Proof.
  intros pv date pmass u m. unfold palPv2ue_m, palPv2ue, pv_at, ue_at, vec_at, only. cbv zeta. cbn [vx vy vz pvp pvv]. rewrite <- ?Z.add_assoc. cbn [Z.add Pos.add Pos.succ].
  destruct (ltb pmass _); [split; [reflexivity|split; intros; reflexivity]|].
  destruct (ltb (sqrt _) _); [split; [reflexivity|split; intros; reflexivity]|].
  destruct (ltb (sqrt _) _); [split; [reflexivity|split; intros; reflexivity]|].
  split; [|split; [intros q Hq|intros Hj; lia]]; [|wrs; reflexivity]. cbn [Z.eqb]. rewrite <- ?Z.add_assoc. cbn [Z.add Pos.add Pos.succ]. wrs. reflexivity.
Qed.
(** palUe2pv: the state vector may overlap the element set anywhere but its last two cells; of the set only those two cells
    change; on failure nothing is stored *)
Theorem C101_palUe2pv : forall hf date u pv (m : mem), apart pv 6 (u + 11) 2 ->
  match palUe2pv_m hf date u pv m, palUe2pv hf date (ue_at m u) (pv_at m pv) with
  | Some (m', j), Some (j', u', pv') => j = j' /\ pv_at m' pv = pv' /\ (m' (u + 11), m' (u + 12)) = (u_t u', u_psi u') /\
      (apart pv 6 u 13 -> ue_at m' u = u') /\ (forall q, ~ (pv <= q < pv + 6) -> ~ (u + 11 <= q < u + 13) -> m' q = m q) /\ (j <> 0 -> forall q, m' q = m q)
  | None, None => True
  | _, _ => False
  end.
Proof.
  intros hf date u pv m H. unfold palUe2pv_m, palUe2pv. cbv zeta.
  assert (E : ld_ue m u = ue_at m u) by (unfold ld_ue, ue_at, vec_at; rewrite <- ?Z.add_assoc; reflexivity). rewrite E.
  destruct (ue_iter _ _ _ _ _ _ _ _ _ _ _) as [[st|s r psi]|]; [| |exact I].
  - split; [reflexivity|]. split; [reflexivity|]. split; [reflexivity|]. split; [intros _; reflexivity|]. split; intros; reflexivity.
  - set (q := ue_project _ _ _ _ _ _ _). assert (Q : q = PV (V (vx (pvp q)) (vy (pvp q)) (vz (pvp q))) (V (vx (pvv q)) (vy (pvv q)) (vz (pvv q)))) by now destruct q as [[] []].
    clearbody q. unfold apart in H. split; [reflexivity|]. split; [|split; [|split; [|split]]].
    + rewrite Q at 7. unfold pv_at, vec_at. rewrite <- ?Z.add_assoc. cbn [Z.add Pos.add Pos.succ]. wrs. reflexivity.
    + cbn [u_t u_psi]. wrs. reflexivity.
    + intros H2. unfold ue_at, vec_at. cbn [u_cm u_alpha u_t0 u_p0 u_v0 u_r0 u_sigma0]. unfold apart in H2. rewrite <- ?Z.add_assoc. cbn [Z.add Pos.add Pos.succ]. wrs. reflexivity.
    + intros x X1 X2. wrs. reflexivity.
    + intros Hj. lia.
Qed.

(** palPxy: the predictions may replace the measured positions (or overlap them from below), but must be clear of the
    coefficients, and of the expected positions except from two cells below *)
Lemma pxy_loop : forall n xye xym co xyp (m : mem),
  apart xyp (2 * Z.of_nat n) co 6 -> xyp <= xym \/ xym + 2 * Z.of_nat n <= xyp -> xyp + 2 <= xye \/ xye + 2 * Z.of_nat n <= xyp ->
  forall k, (k <= n)%nat ->
  let '(m', sx, sy) := for_up k (pxy_step xye xym co xyp) (m, lit 0, lit 0) in
  let '(f, sx', sy') := for_up k (fun i '(xyp, sdx2, sdy2) =>
        let '(xp, yp) := palXy2xy (fst (pair_at m xym i)) (snd (pair_at m xym i)) (co6_at m co) in
        let dx := sub (fst (pair_at m xye i)) xp in
        let dy := sub (snd (pair_at m xye i)) yp in
        (upd xyp i (xp, yp), add sdx2 (mul dx dx), add sdy2 (mul dy dy))) (pair_at m xyp, lit 0, lit 0) in
  sx = sx' /\ sy = sy' /\ (forall i, (i < k)%nat -> pair_at m' xyp i = f i) /\ (forall q, ~ (xyp <= q < xyp + 2 * Z.of_nat k) -> m' q = m q).
Proof.
  intros n xye xym co xyp m Hc Hm He. induction k as [|k IH]; intros Hk.
  - cbn [for_up for_from]. repeat split; intros; lia.
  - rewrite !for_up_S. specialize (IH ltac:(lia)). destruct (for_up k (pxy_step _ _ _ _) _) as [[m1 sx] sy]. destruct (for_up k _ _) as [[f sx'] sy'].
    destruct IH as (E1 & E2 & E3 & E4). subst sx' sy'. unfold pxy_step, palXy2xy. cbv zeta. cbn [fst snd pair_at co6_at cA cB cC cD cE cF].
    unfold apart in Hc. rewrite <- !Z.add_assoc.
    assert (K : forall d, 0 <= d < 6 -> m1 (co + d) = m (co + d)) by (intros d Hd; apply E4; lia).
    assert (K0 : m1 co = m co) by (apply E4; lia).
    assert (M0 : m1 (xym + 2 * Z.of_nat k) = m (xym + 2 * Z.of_nat k)) by (apply E4; lia).
    assert (M1 : m1 (xym + (2 * Z.of_nat k + 1)) = m (xym + (2 * Z.of_nat k + 1))) by (apply E4; lia).
    assert (X0 : m1 (xye + 2 * Z.of_nat k) = m (xye + 2 * Z.of_nat k)) by (apply E4; lia).
    assert (X1 : m1 (xye + (2 * Z.of_nat k + 1)) = m (xye + (2 * Z.of_nat k + 1))) by (apply E4; lia).
    rewrite K0, !K, M0, M1 by lia. set (xp := add (add (m co) _) _). set (yp := add (add (m (co + 3)) _) _). clearbody xp yp.
    rewrite (wr_ne (xyp + (2 * Z.of_nat k + 1)) (xye + 2 * Z.of_nat k)), (wr_ne (xyp + 2 * Z.of_nat k) (xye + 2 * Z.of_nat k)) by lia.
    rewrite (wr_ne (xyp + (2 * Z.of_nat k + 1)) (xye + (2 * Z.of_nat k + 1))), (wr_ne (xyp + 2 * Z.of_nat k) (xye + (2 * Z.of_nat k + 1))) by lia.
    rewrite X0, X1. split; [reflexivity|]. split; [reflexivity|]. split.
    + intros i Hi. unfold upd, pair_at. destruct (Nat.eqb_spec i k) as [->|N].
      * rewrite <- !Z.add_assoc. rewrite (wr_ne _ (xyp + 2 * Z.of_nat k)), !wr_eq by lia. reflexivity.
      * rewrite !wr_ne by lia. apply E3. lia.
    + intros q Hq. rewrite !wr_ne by lia. apply E4. lia.
Qed.
Theorem C101_palPxy : forall np xye xym co xyp xrms yrms rrms (m : mem), 0 <= np ->
  apart xyp (2 * np) co 6 -> xyp <= xym \/ xym + 2 * np <= xyp -> xyp + 2 <= xye \/ xye + 2 * np <= xyp ->
  xrms <> yrms -> xrms <> rrms -> yrms <> rrms -> (forall r, In r (xrms :: yrms :: rrms :: nil) -> ~ (xyp <= r < xyp + 2 * np)) ->
  let m' := palPxy_m np xye xym co xyp xrms yrms rrms m in
  let '(f, xr, yr, rr) := palPxy np (pair_at m xye) (pair_at m xym) (co6_at m co) (pair_at m xyp) in
  m' xrms = xr /\ m' yrms = yr /\ m' rrms = rr /\ (forall i, (i < Z.to_nat np)%nat -> pair_at m' xyp i = f i) /\
  (forall q, ~ (xyp <= q < xyp + 2 * np) -> ~ In q (xrms :: yrms :: rrms :: nil) -> m' q = m q).
Proof.
  intros np xye xym co xyp xrms yrms rrms m Hn Hc Hm He N1 N2 N3 Hr m'. unfold m', palPxy_m, palPxy.
  assert (L := pxy_loop (Z.to_nat np) xye xym co xyp m). rewrite Z2Nat.id in L by easy. specialize (L Hc Hm He (Z.to_nat np) (le_n _)).
  destruct (for_up (Z.to_nat np) (pxy_step _ _ _ _) _) as [[m1 sx] sy]. destruct (for_up (Z.to_nat np) _ _) as [[f sx'] sy']. rewrite Z2Nat.id in L by easy.
  destruct L as (E1 & E2 & E3 & E4). subst sx' sy'. cbv zeta. set (p := DMAX _ _). clearbody p. cbn [In] in Hr.
  assert (R1 := Hr xrms ltac:(tauto)). assert (R2 := Hr yrms ltac:(tauto)). assert (R3 := Hr rrms ltac:(tauto)). clear Hr Hc Hm He.
  split; [|split; [|split; [|split]]].
  - wrs. reflexivity.
  - wrs. reflexivity.
  - wrs. reflexivity.
  - intros i Hi. rewrite <- E3 by easy. unfold pair_at. wrs. reflexivity.
  - intros q Q1 Q2. cbn [In] in Q2. rewrite !wr_ne by (intro; apply Q2; subst; tauto). apply E4. exact Q1.
Qed.
End P.

Local Open Scope R_scope.
(** but the predictions must not be put over the expected positions: the residuals then come out zero whatever the data *)
Theorem C101_palPxy_hazard : forall np xye xym co xrms yrms rrms (m : Z -> R), (xrms <> yrms)%Z -> (xrms <> rrms)%Z -> (yrms <> rrms)%Z ->
  let m' := @palPxy_m R RA np xye xym co xye xrms yrms rrms m in m' xrms = 0 /\ m' yrms = 0 /\ m' rrms = 0.
Proof.
  intros np xye xym co xrms yrms rrms m N1 N2 N3 m'. unfold m', palPxy_m.
  assert (K : forall k, snd (fst (for_up k (pxy_step xye xym co xye) (m, lit 0, lit 0))) = 0 /\ snd (for_up k (pxy_step xye xym co xye) (m, lit 0, lit 0)) = 0).
  { intros k. apply for_up_ind with (P := fun _ s => snd (fst s) = 0 /\ snd s = 0); [cbn [fst snd lit RA]; split; rlit; try lra; field|].
    intros i [[m1 sx] sy] _ [S1 S2]. cbn [fst snd] in *. unfold pxy_step. cbn [fst snd]. cbn [add sub mul RA].
    rewrite wr_ne by lia. rewrite wr_eq by lia. rewrite wr_eq by lia. rewrite S1, S2. split; ring. }
  specialize (K (Z.to_nat np)). destruct (for_up _ _ _) as [[m1 sx] sy]. cbn [fst snd] in K. destruct K as [-> ->].
  cbv zeta. set (p := DMAX _ _). assert (Z0 : @sqrt R RA (@div R RA 0 p) = 0) by (cbn [sqrt div RA]; unfold Rdiv; rewrite Rmult_0_l; apply sqrt_0).
  rewrite Z0. rewrite (wr_eq rrms rrms) by lia. rewrite (wr_ne rrms xrms), (wr_ne rrms yrms) by lia. rewrite (wr_eq yrms yrms) by lia. rewrite (wr_ne yrms xrms) by lia. rewrite (wr_eq xrms xrms) by lia.
  split; [reflexivity|split; [reflexivity|]]. cbn [sqrt add mul RA]. rewrite Rmult_0_l, Rplus_0_l. apply sqrt_0.
Qed.

(** a vector is rotated in place by palDmxv and rotated back in place by palDimxv: every cell of memory is as before *)
Theorem C101_rotate_in_place : forall dm v (m : Z -> R), apart dm 9 v 3 -> rotation (mat_at m dm) ->
  forall q, @palDimxv_m R RA dm v v (@palDmxv_m R RA dm v v m) q = m q.
Proof.
  intros dm v m Ha Hr q. destruct (C101_palDmxv dm v v m) as [E1 F1]. set (m1 := palDmxv_m dm v v m) in *.
  destruct (C101_palDimxv dm v v m1) as [E2 F2]. set (m2 := palDimxv_m dm v v m1) in *. unfold apart in Ha.
  assert (D : mat_at m1 dm = mat_at m dm) by (unfold mat_at, vec_at; rewrite !F1 by lia; reflexivity).
  rewrite D, E1, (proj1 (C15_matrices _ Hr)) in E2. unfold vec_at in E2. injection E2 as X0 X1 X2.
  destruct (Z.eq_dec q v) as [->|N0]; [exact X0|]. destruct (Z.eq_dec q (v + 1)) as [->|N1]; [exact X1|]. destruct (Z.eq_dec q (v + 2)) as [->|N2]; [exact X2|].
  rewrite F2, F1 by lia. reflexivity.
Qed.
(** the restrictions are needed: the unit vector put one cell above (3,0,4) is not a unit vector *)
Theorem C101_palDvn_hazard : exists m : Z -> R, let m' := @palDvn_m R RA 0 1 9 m in
  (vec_at m' 1, m' 9%Z) <> palDvn (vec_at m 0) /\ norm (vec_at m' 1) <> 1.
Proof.
  exists (fun q => if Z.eqb q 0 then 3 else if Z.eqb q 2 then 4 else 0). cbv zeta.
  assert (Q : R_sqrt.sqrt (3 * 3 + 0 * 0 + 4 * 4) = 5) by (replace (3 * 3 + 0 * 0 + 4 * 4) with (5 * 5) by ring; apply sqrt_square; lra).
  assert (W : forall q : Z, palDvn_m 0 1 9 (fun q => if Z.eqb q 0 then 3 else if Z.eqb q 2 then 4 else 0) q = (if Z.eqb q 9 then 5 else if Z.eqb q 3 then 3 / 125 else if Z.eqb q 2 then 3 / 25 else if Z.eqb q 1 then 3 / 5 else if Z.eqb q 0 then 3 else 0)).
  { intros q. unfold palDvn_m, eraPn_m, eraSxp_m, wr. cbn [Z.eqb Z.add Pos.add Pos.succ Pos.eqb sqrt add mul div eqb RA]. rewrite Q. cbn [lit RA]. rlit.
    unfold Reqb. destruct (Req_EM_T 5 0); [lra|]. destruct (Z.eqb q 9); [reflexivity|]. destruct (Z.eqb_spec q 3); [lra|]. destruct (Z.eqb_spec q 2); [lra|]. destruct (Z.eqb_spec q 1); [lra|]. reflexivity. }
  unfold vec_at. rewrite !W. cbn [Z.eqb Z.add Pos.add Pos.succ Pos.eqb]. split.
  - unfold palDvn, eraPn, eraPm. cbn [vx vy vz sqrt add mul div eqb RA]. rewrite Q. cbn [lit RA]. rlit. unfold Reqb. destruct (Req_EM_T 5 0); [lra|].
    unfold eraSxp. cbn [vx vy vz mul div RA]. intros H. injection H as H1 H2 H3. lra.
  - unfold norm, dot. cbn [vx vy vz]. intros H. apply (f_equal (fun x => x * x)) in H. rewrite sqrt_sqrt in H by nra. lra.
Qed.
Example C101_eg : exists m : Z -> R, rotation (mat_at m 0) /\ apart 0 9 20 3 /\ vec_at m 20 = V 1 2 3 /\
  vec_at (@palDmxv_m R RA 0 20 20 m) 20 = V 2 (-1) 3 /\ vec_at (@palDmxv_m R RA 0 0 0 m) 0 = V 1 0 0.
Proof.
  exists (fun q => if Z.eqb q 1 then 1 else if Z.eqb q 3 then -1 else if Z.eqb q 8 then 1 else if Z.eqb q 20 then 1 else if Z.eqb q 21 then 2 else if Z.eqb q 22 then 3 else 0).
  split; [|split; [unfold apart; lia|split; [reflexivity|]]].
  - unfold rotation, mat_at, vec_at. cbn [Z.eqb Z.add Pos.add Pos.succ Pos.eqb]. split; [unfold mmul, mid, mtr|unfold det3]; vnorm; [vsplit; ring|ring].
  - split; rewrite (proj1 (C101_palDmxv _ _ _ _)); unfold mat_at, vec_at; cbn [Z.eqb Z.add Pos.add Pos.succ Pos.eqb]; unfold palDmxv, eraRxp, row_dot; cbn [vx vy vz m0 m1 m2 add mul lit RA]; rlit; f_equal; try lra; field.
Qed.
