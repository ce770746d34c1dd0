(** * C103: the arrays of palDmat, palFitxy and palPxy: nothing outside them is read or written *)
From Coq Require Import Reals ZArith Lia Lra Bool List.
From Verif Require Import Num NumR Erfa M_Sphere M_Linear Loops M_Mem P_Dmat Props_Linear Props_Mem.
Local Open Scope Z_scope.

Section P.
Context {T : Type} {AR : Arith T}.
Notation mem := (Z -> T).

(** ** Loops in step *)
Lemma for_from_rel : forall S1 S2 (P : nat -> S1 -> S2 -> Prop) cnt i0 f g s1 s2, P i0 s1 s2 ->
  (forall i s1 s2, (i0 <= i < i0 + cnt)%nat -> P i s1 s2 -> P (S i) (f i s1) (g i s2)) -> P (i0 + cnt)%nat (for_from i0 cnt f s1) (for_from i0 cnt g s2).
Proof.
  intros S1 S2 P cnt. induction cnt as [|c IH]; intros i0 f g s1 s2 H0 Hs.
  - now rewrite Nat.add_0_r.
  - cbn [for_from]. replace (i0 + S c)%nat with ((i0 + 1) + c)%nat by lia. apply IH.
    + rewrite Nat.add_1_r. apply Hs; [lia|easy].
    + intros i x1 x2 Hi Hp. apply Hs; [lia|easy].
Qed.
Lemma for_up_rel : forall S1 S2 (P : nat -> S1 -> S2 -> Prop) n f g s1 s2, P 0%nat s1 s2 ->
  (forall i s1 s2, (i < n)%nat -> P i s1 s2 -> P (S i) (f i s1) (g i s2)) -> P n (for_up n f s1) (for_up n g s2).
Proof. intros S1 S2 P n f g s1 s2 H0 Hs. unfold for_up. apply (for_from_rel _ _ P n 0 f g s1 s2); [easy|]. intros. apply Hs; [lia|easy]. Qed.
Lemma for_down_rel : forall S1 S2 (P : S1 -> S2 -> Prop) n f g s1 s2, P s1 s2 ->
  (forall i s1 s2, (i < n)%nat -> P s1 s2 -> P (f i s1) (g i s2)) -> P (for_down n f s1) (for_down n g s2).
Proof.
  intros S1 S2 P n. induction n as [|n IH]; intros f g s1 s2 H0 Hs; [exact H0|]. cbn [for_down]. apply IH; [apply Hs; [lia|easy]|]. intros. apply Hs; [lia|easy].
Qed.

(** ** Specification: an n by n matrix stored by rows, a vector of n *)
Definition elem_at (n : nat) (m : mem) (a : Z) (i j : nat) : T := m (a + Z.of_nat n * Z.of_nat i + Z.of_nat j).
Definition item_at (m : mem) (y : Z) (i : nat) : T := m (y + Z.of_nat i).

Section Dmat.
Variables (n : nat) (a y : Z) (mi : mem).
Notation zn := (Z.of_nat n).
Hypothesis Hay : apart a (zn * zn) y zn.
(** the memory [m] holds [A] and [Y], and is as it was elsewhere *)
Definition holds (m : mem) (A : nat -> nat -> T) (Y : nat -> T) : Prop :=
  (forall i j, (i < n)%nat -> (j < n)%nat -> elem_at n m a i j = A i j) /\ (forall i, (i < n)%nat -> item_at m y i = Y i) /\
  (forall q, ~ (a <= q < a + zn * zn) -> ~ (y <= q < y + zn) -> m q = mi q).
Lemma cell_in : forall i j, (i < n)%nat -> (j < n)%nat -> a <= a + zn * Z.of_nat i + Z.of_nat j < a + zn * zn.
Proof. intros i j Hi Hj. assert (Z.of_nat i <= zn - 1) by lia. nia. Qed.
Lemma cell_inj : forall i j i' j', (j < n)%nat -> (j' < n)%nat -> a + zn * Z.of_nat i + Z.of_nat j = a + zn * Z.of_nat i' + Z.of_nat j' -> i = i' /\ j = j'.
Proof.
  intros i j i' j' Hj Hj' E. assert (Z.of_nat i = Z.of_nat i').
  { destruct (Z.lt_trichotomy (Z.of_nat i) (Z.of_nat i')) as [L|[L|L]]; [|easy|]; exfalso; nia. }
  split; [lia|]. nia.
Qed.
Lemma holds_wa : forall m A Y i j x p, holds m A Y -> (i < n)%nat -> (j < n)%nat -> p = a + zn * Z.of_nat i + Z.of_nat j -> holds (wr p x m) (upd2 A i j x) Y.
Proof.
  intros m A Y i j x p (H1 & H2 & H3) Hi Hj ->. assert (C := cell_in i j Hi Hj). unfold apart in Hay. split; [|split].
  - intros i' j' Hi' Hj'. unfold elem_at, upd2. destruct (Nat.eqb_spec i' i) as [->|N]; [destruct (Nat.eqb_spec j' j) as [->|N]|]; cbn [andb].
    + now apply wr_eq.
    + rewrite wr_ne by (intro E; apply cell_inj in E; tauto). now apply H1.
    + rewrite wr_ne by (intro E; apply cell_inj in E; tauto). now apply H1.
  - intros i' Hi'. unfold item_at. rewrite wr_ne by lia. now apply H2.
  - intros q Q1 Q2. rewrite wr_ne by (intros ->; tauto). now apply H3.
Qed.
Lemma holds_wy : forall m A Y i x, holds m A Y -> (i < n)%nat -> holds (wr (y + Z.of_nat i) x m) A (upd Y i x).
Proof.
  intros m A Y i x (H1 & H2 & H3) Hi. unfold apart in Hay. split; [|split].
  - intros i' j' Hi' Hj'. assert (C := cell_in i' j' Hi' Hj'). unfold elem_at. rewrite wr_ne by lia. now apply H1.
  - intros i' Hi'. unfold item_at, upd. destruct (Nat.eqb_spec i' i) as [->|N]; [now apply wr_eq|]. rewrite wr_ne by lia. now apply H2.
  - intros q Q1 Q2. rewrite wr_ne by lia. now apply H3.
Qed.
Lemma rd_a : forall m A Y i j p, holds m A Y -> (i < n)%nat -> (j < n)%nat -> p = a + zn * Z.of_nat i + Z.of_nat j -> m p = A i j.
Proof. intros m A Y i j p H Hi Hj ->. now apply (proj1 H). Qed.
Lemma rd_y : forall m A Y i, holds m A Y -> (i < n)%nat -> m (y + Z.of_nat i) = Y i.
Proof. intros m A Y i H Hi. now apply (proj1 (proj2 H)). Qed.
Notation row i := (a + zn * Z.of_nat i).

Lemma pivot_rel : forall m A Y k, holds m A Y -> (k < n)%nat -> let '(amx, imx, aoff2) := dmat_pivot_m n k (row k) m in
  dmat_pivot n k A = (amx, imx) /\ aoff2 = row imx /\ (imx < n)%nat.
Proof.
  intros m A Y k H Hk. unfold dmat_pivot_m, dmat_pivot. cbv zeta.
  match goal with |- context [for_from (k + 1) (n - (k + 1)) ?f ?s] => match goal with |- context [for_from (k + 1) (n - (k + 1)) ?g (fabs (A k k), k)] =>
    assert (L := for_from_rel _ _ (fun i s1 s2 => fst s1 = row i /\ fst (snd s1) = s2 /\ snd (snd s1) = row (snd s2) /\ (snd s2 < n)%nat) (n - (k + 1)) (k + 1) f g s (fabs (A k k), k)) end end.
  cbv beta in L. destruct (for_from (k + 1) (n - (k + 1)) _ (_, _)) as [ap [[amx imx] ao2]]. cbn [fst snd] in *.
  destruct L as (_ & L1 & L2 & L3).
  - split; [lia|]. split; [|split; [lia|easy]]. now rewrite (rd_a m A Y k k) by (easy || lia).
  - intros i [ap' [[amx' imx'] ao']] [amx2 imx2] Hi (E1 & E2 & E3 & E4). cbn [fst snd] in *. injection E2 as -> ->. subst ap'.
    rewrite (rd_a m A Y i k) by (easy || lia). split; [lia|]. destruct (ltb _ _); cbn [fst snd]; repeat split; easy || lia.
  - rewrite <- L1 in *. cbn [fst snd] in *. repeat split; easy.
Qed.
Lemma swap_rows_rel : forall m A Y k imx, holds m A Y -> (k < n)%nat -> (imx < n)%nat -> holds (dmat_swap_rows_m n (row k) (row imx) m) (dmat_swap_rows n k imx A) Y.
Proof.
  intros m A Y k imx H Hk Hi. unfold dmat_swap_rows_m, dmat_swap_rows. apply (for_up_rel _ _ (fun _ m A => holds m A Y)); [easy|].
  intros j m1 A1 Hj H1. cbv zeta. rewrite (rd_a m1 A1 Y k j), (rd_a m1 A1 Y imx j) by (easy || lia). apply holds_wa; [|easy..]. apply holds_wa; easy.
Qed.
Lemma scale_rel : forall m A Y k, holds m A Y -> (k < n)%nat -> holds (dmat_scale_row_m n k (row k) m) (dmat_scale_row n k A) Y.
Proof.
  intros m A Y k H Hk. unfold dmat_scale_row_m, dmat_scale_row. apply (for_up_rel _ _ (fun _ m A => holds m A Y)); [easy|].
  intros j m1 A1 Hj H1. destruct (Nat.eqb_spec j k); [easy|]. rewrite (rd_a m1 A1 Y k j), (rd_a m1 A1 Y k k) by (easy || lia). apply holds_wa; easy.
Qed.
Lemma elim_rel : forall m A Y k yk, holds m A Y -> (k < n)%nat -> holds (dmat_elim_m n k a y (row k) yk m) (fst (dmat_elim n k yk A Y)) (snd (dmat_elim n k yk A Y)).
Proof.
  intros m A Y k yk H Hk. unfold dmat_elim_m, dmat_elim.
  match goal with |- context [for_up n ?f (a, m)] => match goal with |- context [for_up n ?g (A, Y)] =>
    assert (L := for_up_rel _ _ (fun i s1 s2 => fst s1 = row i /\ holds (snd s1) (fst s2) (snd s2)) n f g (a, m) (A, Y)) end end. cbv beta in L.
  destruct L as [_ L]; [split; [cbn [fst]; lia|exact H]| |exact L].
  intros i [ap m1] [A1 Y1] Hi [E H1]. cbn [fst snd] in *. subst ap. split; [lia|]. destruct (Nat.eqb_spec i k) as [|N]; [exact H1|]. cbn [fst snd].
  match goal with |- context [for_up n ?f m1] => match goal with |- context [for_up n ?g A1] => assert (L : holds (for_up n f m1) (for_up n g A1) Y1) end end.
  { apply (for_up_rel _ _ (fun _ m A => holds m A Y1)); [easy|]. intros j m2 A2 Hj H2. destruct (Nat.eqb_spec j k); [easy|].
    rewrite (rd_a m2 A2 Y1 i j), (rd_a m2 A2 Y1 i k), (rd_a m2 A2 Y1 k j) by (easy || lia). apply holds_wa; easy. }
  cbv zeta. set (m2 := for_up n _ m1) in *. set (A2 := for_up n _ A1) in *. clearbody m2 A2. rewrite (rd_y m2 A2 Y1 i), (rd_a m2 A2 Y1 i k) by (easy || lia). now apply holds_wy.
Qed.
Lemma col_rel : forall m A Y k, holds m A Y -> (k < n)%nat -> holds (dmat_col_m n k a (row k) m) (dmat_col n k A) Y.
Proof.
  intros m A Y k H Hk. unfold dmat_col_m, dmat_col.
  match goal with |- context [for_up n ?f (a, m)] => match goal with |- context [for_up n ?g A] =>
    assert (L := for_up_rel _ _ (fun i s1 s2 => fst s1 = row i /\ holds (snd s1) s2 Y) n f g (a, m) A) end end. cbv beta in L.
  destruct L as [_ L]; [split; [cbn [fst]; lia|exact H]| |exact L].
  intros i [ap m1] A1 Hi [E H1]. cbn [fst snd] in *. subst ap. split; [lia|]. destruct (Nat.eqb_spec i k) as [|N]; [exact H1|].
  rewrite (rd_a m1 A1 Y i k), (rd_a m1 A1 Y k k) by (easy || lia). apply holds_wa; easy.
Qed.
Lemma swap_cols_rel : forall m A Y k ki, holds m A Y -> (k < n)%nat -> (ki < n)%nat -> holds (dmat_swap_cols_m n k ki a m) (dmat_swap_cols n k ki A) Y.
Proof.
  intros m A Y k ki H Hk Hi. unfold dmat_swap_cols_m, dmat_swap_cols.
  match goal with |- context [for_up n ?f (a, m)] => match goal with |- context [for_up n ?g A] =>
    assert (L := for_up_rel _ _ (fun i s1 s2 => fst s1 = row i /\ holds (snd s1) s2 Y) n f g (a, m) A) end end. cbv beta in L.
  destruct L as [_ L]; [split; [cbn [fst]; lia|exact H]| |exact L].
  intros i [ap m1] A1 Hi1 [E H1]. cbn [fst snd] in *. subst ap. split; [lia|]. cbv zeta.
  rewrite (rd_a m1 A1 Y i k), (rd_a m1 A1 Y i ki) by (easy || lia). apply holds_wa; [|easy..]. apply holds_wa; easy.
Qed.
(** one turn of the outer loop *)
Definition steps (k : nat) (s1 : @dmatm T) (s2 : @dmat T) : Prop :=
  dmm_aoff s1 = row k /\ holds (dmm_m s1) (dm_a s2) (dm_y s2) /\ dmm_d s1 = dm_d s2 /\ dmm_jf s1 = dm_jf s2 /\ dmm_iw s1 = dm_iw s2 /\
  (dm_jf s2 = 0 -> forall i, (i < k)%nat -> (dm_iw s2 i < n)%nat).
Lemma step_rel : forall k s1 s2, (k < n)%nat -> steps k s1 s2 -> steps (S k) (dmat_step_m n a y k s1) (dmat_step n k s2).
Proof.
  intros k [ao m d jf iw] [A Y d' jf' iw'] Hk (E1 & H & E2 & E3 & E4 & B). cbn [dmm_aoff dmm_m dmm_d dmm_jf dmm_iw dm_a dm_y dm_d dm_jf dm_iw] in *. subst ao d' jf' iw'.
  unfold dmat_step_m, dmat_step. cbn [dmm_aoff dmm_m dmm_d dmm_jf dmm_iw dm_a dm_y dm_d dm_jf dm_iw].
  assert (P := pivot_rel m A Y k H Hk). destruct (dmat_pivot_m n k (row k) m) as [[amx imx] ao2]. destruct P as (-> & -> & Hi).
  assert (RS : row k + zn = row (S k)) by lia.
  destruct (ltb amx SFA).
  { unfold steps. cbn [dmm_aoff dmm_m dmm_d dmm_jf dmm_iw dm_a dm_y dm_d dm_jf dm_iw]. repeat split; try easy; apply H || (apply (proj1 H)) || idtac. }
  match goal with |- context [if Nat.eqb imx k then (m, d) else ?e] => set (q1 := if Nat.eqb imx k then (m, d) else e) end.
  match goal with |- context [if Nat.eqb imx k then (A, Y, d) else ?e] => set (q2 := if Nat.eqb imx k then (A, Y, d) else e) end.
  assert (Q : holds (fst q1) (fst (fst q2)) (snd (fst q2)) /\ snd q1 = snd q2).
  { unfold q1, q2. destruct (Nat.eqb imx k); cbn [fst snd]; [now split|]. split; [|reflexivity]. cbv zeta. assert (W := swap_rows_rel m A Y k imx H Hk Hi).
    rewrite (rd_y _ _ _ k W), (rd_y _ _ _ imx W) by easy. apply holds_wy; [|easy]. now apply holds_wy. }
  destruct q1 as [m1 d1]. destruct q2 as [[A1 Y1] d2]. cbn [fst snd] in Q. destruct Q as [H1 <-]. clear H m A Y.
  rewrite (rd_a m1 A1 Y1 k k) by (easy || lia). assert (B' : jf = 0 -> forall i, (i < S k)%nat -> (upd iw k imx i < n)%nat).
  { intros J i L. unfold upd. destruct (Nat.eqb_spec i k); [easy|]. apply B; [easy|lia]. }
  destruct (ltb (fabs _) SFA).
  { unfold steps. cbn [dmm_aoff dmm_m dmm_d dmm_jf dmm_iw dm_a dm_y dm_d dm_jf dm_iw]. split; [easy|]. split; [easy|]. repeat split; easy. }
  assert (H2 : holds (wr (row k + Z.of_nat k) (div (lit 1) (A1 k k)) m1) (upd2 A1 k k (div (lit 1) (A1 k k))) Y1) by (apply holds_wa; easy).
  set (m2 := wr _ _ m1) in *. set (A2 := upd2 A1 _ _ _) in *. clearbody m2 A2. assert (H3 := scale_rel m2 A2 Y1 k H2 Hk).
  set (m3 := dmat_scale_row_m _ _ _ m2) in *. set (A3 := dmat_scale_row n k A2) in *. clearbody m3 A3. cbv zeta. rewrite (rd_y m3 A3 Y1 k), (rd_a m3 A3 Y1 k k) by (easy || lia).
  set (yk := mul (Y1 k) _). assert (H4 := holds_wy m3 A3 Y1 k yk H3 Hk). assert (H5 := elim_rel _ _ _ k yk H4 Hk).
  destruct (dmat_elim n k yk A3 (upd Y1 k yk)) as [A5 Y5]. cbn [fst snd] in H5. assert (H6 := col_rel _ _ _ k H5 Hk).
  unfold steps. cbn [dmm_aoff dmm_m dmm_d dmm_jf dmm_iw dm_a dm_y dm_d dm_jf dm_iw]. split; [easy|]. split; [exact H6|]. repeat split; easy.
Qed.
End Dmat.

Lemma dmat_rel : forall n a y iw0 (mi m : mem) A Y, apart a (Z.of_nat n * Z.of_nat n) y (Z.of_nat n) -> holds n a y mi m A Y ->
  let '(m', d, jf, iw) := palDmat_m n a y iw0 m in let s := palDmat n A Y iw0 in
  holds n a y mi m' (dm_a s) (dm_y s) /\ d = dm_d s /\ jf = dm_jf s /\ iw = dm_iw s /\ (jf = 0 -> forall k, (k < n)%nat -> (iw k < n)%nat).
Proof.
  intros n a y iw0 mi m A0 Y0 Hay Hh. unfold palDmat_m, palDmat. cbv zeta.
  assert (L := for_up_rel _ _ (steps n a y mi) n (dmat_step_m n a y) (dmat_step n) (Dmm a m (lit 1) 0 iw0) (Dm A0 Y0 (lit 1) 0 iw0)).
  destruct L as (_ & H & E2 & E3 & E4 & B).
  { unfold steps. cbn [dmm_aoff dmm_m dmm_d dmm_jf dmm_iw dm_a dm_y dm_d dm_jf dm_iw]. split; [lia|]. split; [exact Hh|]. repeat split; intros; lia. }
  { intros k s1 s2 Hk Hs. now apply step_rel. }
  destruct (for_up n (dmat_step_m n a y) _) as [ao m1 d jf iw]. destruct (for_up n (dmat_step n) _) as [A Y d' jf' iw']. cbn [dmm_aoff dmm_m dmm_d dmm_jf dmm_iw dm_a dm_y dm_d dm_jf dm_iw] in *. subst d' jf' iw'.
  destruct (Z.eqb_spec jf 0) as [J|J]; cbn [negb dmm_aoff dmm_m dmm_d dmm_jf dmm_iw dm_a dm_y dm_d dm_jf dm_iw].
  - specialize (B J). split; [|repeat split; easy].
    apply (for_down_rel _ _ (fun m1 A => holds n a y mi m1 A Y)); [exact H|]. intros k m2 A2 Hk H2. cbv zeta. destruct (Nat.eqb k (iw k)); [easy|]. apply swap_cols_rel; try easy. now apply B.
  - repeat split; easy || apply H.
Qed.
(** palDmat, for every n and every placing of the matrix and the vector clear of one another: the n*n and n elements are
    transformed as the model with indices says, whatever is in memory around them; nothing else is changed; the
    permutation returned consists of indices below n when there is an inverse *)
Theorem C103_palDmat : forall n a y iw0 (m : mem), apart a (Z.of_nat n * Z.of_nat n) y (Z.of_nat n) ->
  let '(m', d, jf, iw) := palDmat_m n a y iw0 m in let s := palDmat n (elem_at n m a) (item_at m y) iw0 in
  (forall i j, (i < n)%nat -> (j < n)%nat -> elem_at n m' a i j = dm_a s i j) /\ (forall i, (i < n)%nat -> item_at m' y i = dm_y s i) /\
  d = dm_d s /\ jf = dm_jf s /\ iw = dm_iw s /\
  (forall q, ~ (a <= q < a + Z.of_nat n * Z.of_nat n) -> ~ (y <= q < y + Z.of_nat n) -> m' q = m q) /\
  (jf = 0 -> forall k, (k < n)%nat -> (iw k < n)%nat).
Proof.
  intros n a y iw0 m Hay. assert (K := dmat_rel n a y iw0 m m (elem_at n m a) (item_at m y) Hay ltac:(now split)). destruct (palDmat_m n a y iw0 m) as [[[m' d] jf] iw].
  destruct K as ((K1 & K2 & K3) & K4). cbv zeta in *. tauto.
Qed.
(** hence the results depend on those elements only *)
Theorem C103_palDmat_footprint : forall n a y iw0 (m1 m2 : mem), apart a (Z.of_nat n * Z.of_nat n) y (Z.of_nat n) ->
  (forall q, a <= q < a + Z.of_nat n * Z.of_nat n \/ y <= q < y + Z.of_nat n -> m1 q = m2 q) ->
  let '(m1', d1, jf1, iw1) := palDmat_m n a y iw0 m1 in let '(m2', d2, jf2, iw2) := palDmat_m n a y iw0 m2 in
  d1 = d2 /\ jf1 = jf2 /\ iw1 = iw2 /\ (forall q, a <= q < a + Z.of_nat n * Z.of_nat n \/ y <= q < y + Z.of_nat n -> m1' q = m2' q).
Proof.
  intros n a y iw0 m1 m2 Hay E. assert (K1 := dmat_rel n a y iw0 m1 m1 (elem_at n m1 a) (item_at m1 y) Hay ltac:(now split)).
  assert (K2 := dmat_rel n a y iw0 m2 m2 (elem_at n m1 a) (item_at m1 y) Hay). destruct (palDmat_m n a y iw0 m1) as [[[m1' d1] jf1] iw1]. destruct (palDmat_m n a y iw0 m2) as [[[m2' d2] jf2] iw2].
  destruct K2 as ((A2 & Y2 & _) & D2 & J2 & W2 & _).
  { split; [|split; [|easy]].
    - intros i j Hi Hj. unfold elem_at. symmetry. apply E. left. now apply cell_in.
    - intros i Hi. unfold item_at. symmetry. apply E. right. lia. }
  destruct K1 as ((A1 & Y1 & _) & D1 & J1 & W1 & _). split; [congruence|]. split; [congruence|]. split; [congruence|].
  intros q [Q|Q].
  - assert (N : 0 < Z.of_nat n) by nia. set (i := Z.to_nat ((q - a) / Z.of_nat n)). set (j := Z.to_nat ((q - a) mod Z.of_nat n)).
    assert (D := Z.div_mod (q - a) (Z.of_nat n) ltac:(lia)). assert (M := Z.mod_pos_bound (q - a) (Z.of_nat n) N).
    assert (P : 0 <= (q - a) / Z.of_nat n < Z.of_nat n) by (split; [apply Z.div_pos; lia|apply Z.div_lt_upper_bound; lia]).
    assert (Eq : q = a + Z.of_nat n * Z.of_nat i + Z.of_nat j) by (unfold i, j; rewrite !Z2Nat.id by lia; lia).
    rewrite Eq. change (elem_at n m1' a i j = elem_at n m2' a i j). rewrite A1, A2 by (unfold i, j; lia). reflexivity.
  - replace q with (y + Z.of_nat (Z.to_nat (q - y))) by lia. change (item_at m1' y (Z.to_nat (q - y)) = item_at m2' y (Z.to_nat (q - y))). rewrite Y1, Y2 by lia. reflexivity.
Qed.

(** ** No uninitialised memory is used: the former contents of the permutation array do not matter *)
Definition same_but_iw (k : nat) (s1 s2 : @dmat T) : Prop :=
  dm_a s1 = dm_a s2 /\ dm_y s1 = dm_y s2 /\ dm_d s1 = dm_d s2 /\ dm_jf s1 = dm_jf s2 /\ (dm_jf s1 = 0 -> forall i, (i < k)%nat -> dm_iw s1 i = dm_iw s2 i).
Lemma for_down_ext : forall S n (f g : nat -> S -> S) s, (forall i s, (i < n)%nat -> f i s = g i s) -> for_down n f s = for_down n g s.
Proof. intros S n f g s H. apply (for_down_rel _ _ eq); [easy|]. intros i s1 s2 Hi ->. now apply H. Qed.
Theorem C103_palDmat_workspace : forall n (A : nat -> nat -> T) Y iw0 iw1, let s := palDmat n A Y iw0 in let s' := palDmat n A Y iw1 in
  dm_a s = dm_a s' /\ dm_y s = dm_y s' /\ dm_d s = dm_d s' /\ dm_jf s = dm_jf s'.
Proof.
  intros n A Y iw0 iw1. unfold palDmat. cbv zeta.
  assert (L := for_up_rel _ _ same_but_iw n (dmat_step n) (dmat_step n) (Dm A Y (lit 1) 0 iw0) (Dm A Y (lit 1) 0 iw1)).
  destruct L as (E1 & E2 & E3 & E4 & E5).
  { repeat split; cbn [dm_iw]; intros; lia. }
  { intros k [a1 y1 d1 j1 w1] [a2 y2 d2 j2 w2] Hk (E1 & E2 & E3 & E4 & E5). cbn [dm_a dm_y dm_d dm_jf dm_iw] in *. subst a2 y2 d2 j2.
    unfold dmat_step. cbn [dm_a dm_y dm_d dm_jf dm_iw]. destruct (dmat_pivot n k a1) as [amx imx].
    destruct (ltb amx SFA); [repeat split; cbn [dm_jf]; intros; lia|].
    destruct (if Nat.eqb imx k then _ else _) as [[a3 y3] d3]. cbv zeta. destruct (ltb (fabs _) SFA); [repeat split; cbn [dm_jf]; intros; lia|].
    destruct (dmat_elim _ _ _ _ _) as [a4 y4]. repeat split. cbn [dm_jf dm_iw]. intros J i Hi. unfold upd. destruct (Nat.eqb_spec i k); [easy|]. apply E5; [easy|lia]. }
  destruct (for_up n _ (Dm A Y (lit 1) 0 iw0)) as [a1 y1 d1 j1 w1]. destruct (for_up n _ (Dm A Y (lit 1) 0 iw1)) as [a2 y2 d2 j2 w2]. cbn [dm_a dm_y dm_d dm_jf dm_iw] in *. subst a2 y2 d2 j2.
  destruct (Z.eqb_spec j1 0) as [J|J]; cbn [negb dm_a dm_y dm_d dm_jf]; [|now repeat split]. repeat split. apply for_down_ext. intros i s Hi. now rewrite (E5 J i Hi).
Qed.
(** ** palFitxy and palPxy use the first np pairs only *)
Lemma fsum_ext : forall n (g h : nat -> T), (forall i, (i < n)%nat -> g i = h i) -> fsum n g = fsum n h.
Proof. intros n g h H. unfold fsum. apply (for_up_rel _ _ (fun _ => eq)); [easy|]. intros i s1 s2 Hi ->. now rewrite H. Qed.
Lemma fsum2_ext : forall n (g h g' h' : nat -> T), (forall i, (i < n)%nat -> g i = g' i) -> (forall i, (i < n)%nat -> h i = h' i) -> fsum2 n g h = fsum2 n g' h'.
Proof. intros n g h g' h' H H'. unfold fsum2. apply (for_up_rel _ _ (fun _ => eq)); [easy|]. intros i s1 s2 Hi ->. now rewrite H, H'. Qed.
Theorem C103_palFitxy : forall itype np xye xym xye' xym' (co0 : co6 T) iw0 iw1, (forall i, (i < Z.to_nat np)%nat -> xye i = xye' i /\ xym i = xym' i) ->
  palFitxy itype np xye xym co0 iw0 = palFitxy itype np xye' xym' co0 iw1.
Proof.
  intros itype np xye xym xye' xym' co0 iw0 iw1 H. unfold palFitxy.
  assert (He : forall i, (i < Z.to_nat np)%nat -> xye i = xye' i) by (intros; now apply H). assert (Hm : forall i, (i < Z.to_nat np)%nat -> xym i = xym' i) by (intros; now apply H). clear H.
  assert (S1 : forall g : T * T -> T * T -> T, fsum (Z.to_nat np) (fun i => g (xye i) (xym i)) = fsum (Z.to_nat np) (fun i => g (xye' i) (xym' i))) by (intros g; apply fsum_ext; intros i Hi; now rewrite He, Hm).
  assert (S2 : forall g h : T * T -> T * T -> T, fsum2 (Z.to_nat np) (fun i => g (xye i) (xym i)) (fun i => h (xye i) (xym i)) = fsum2 (Z.to_nat np) (fun i => g (xye' i) (xym' i)) (fun i => h (xye' i) (xym' i)))
    by (intros g h; apply fsum2_ext; intros i Hi; now rewrite He, Hm).
  destruct (Z.eqb itype 6).
  - unfold fitxy6. destruct (Z.leb 3 np); [|reflexivity]. cbv zeta.
    rewrite (S1 (fun e m => fst e)), (S1 (fun e m => snd e)), (S1 (fun e m => fst m)), (S1 (fun e m => snd m)), (S1 (fun e m => mul (fst e) (fst m))), (S1 (fun e m => mul (fst e) (snd m))),
      (S1 (fun e m => mul (snd e) (snd m))), (S1 (fun e m => mul (snd e) (fst m))), (S1 (fun e m => mul (fst m) (fst m))), (S1 (fun e m => mul (fst m) (snd m))), (S1 (fun e m => mul (snd m) (snd m))).
    set (A := rows3 _ _ _). set (Y := of3 _ _ _). destruct (C103_palDmat_workspace 3 A Y iw0 iw1) as (-> & -> & _ & ->). reflexivity.
  - destruct (Z.eqb itype 4); [|reflexivity]. unfold fitxy4. destruct (Z.leb 2 np); [|reflexivity].
    assert (P : forall sg, fitxy4_pass np sg xye xym iw0 = fitxy4_pass np sg xye' xym' iw1).
    { intros sg. unfold fitxy4_pass. cbv zeta.
      rewrite (S1 (fun e m => mul (fst e) sg)), (S1 (fun e m => snd e)), (S1 (fun e m => fst m)), (S1 (fun e m => snd m)), (S2 (fun e m => mul (mul (fst e) sg) (fst m)) (fun e m => mul (snd e) (snd m))),
        (S2 (fun e m => mul (fst m) (fst m)) (fun e m => mul (snd m) (snd m))).
      assert (E : for_up (Z.to_nat np) (fun i s => sub (add s (mul (mul (fst (xye i)) sg) (snd (xym i)))) (mul (snd (xye i)) (fst (xym i)))) (lit 0) =
                  for_up (Z.to_nat np) (fun i s => sub (add s (mul (mul (fst (xye' i)) sg) (snd (xym' i)))) (mul (snd (xye' i)) (fst (xym' i)))) (lit 0)).
      { apply (for_up_rel _ _ (fun _ => eq)); [easy|]. intros i s1 s2 Hi ->. now rewrite He, Hm. }
      rewrite E. set (A := rows4 _ _ _ _). set (Y := of4 _ _ _ _). destruct (C103_palDmat_workspace 4 A Y iw0 iw1) as (_ & -> & _ & ->). set (v := dm_y _).
      rewrite (S2 (fun e m => let xr := sub (sub (add (v 0%nat) (mul (v 1%nat) (fst m))) (mul (v 2%nat) (snd m))) (mul (fst e) sg) in mul xr xr)
                  (fun e m => let yr := sub (add (add (v 3%nat) (mul (v 2%nat) (fst m))) (mul (v 1%nat) (snd m))) (snd e) in mul yr yr)). reflexivity. }
    rewrite !P. reflexivity.
Qed.
Theorem C103_palPxy : forall np xye xym xye' xym' (co : co6 T) xyp, (forall i, (i < Z.to_nat np)%nat -> xye i = xye' i /\ xym i = xym' i) ->
  palPxy np xye xym co xyp = palPxy np xye' xym' co xyp /\
  (forall i, (Z.to_nat np <= i)%nat -> let '(f, _, _, _) := palPxy np xye xym co xyp in f i = xyp i).
Proof.
  intros np xye xym xye' xym' co xyp H. split.
  - unfold palPxy. match goal with |- context [for_up (Z.to_nat np) ?f ?s] => match goal with |- context [for_up (Z.to_nat np) ?g s] =>
      tryif constr_eq f g then fail else assert (E : for_up (Z.to_nat np) f s = for_up (Z.to_nat np) g s) end end.
    { apply (for_up_rel _ _ (fun _ => eq)); [easy|]. intros i s1 [[f2 a2] b2] Hi ->. destruct (H i Hi) as [-> ->]. reflexivity. }
    rewrite E. reflexivity.
  - intros i Hi. unfold palPxy. match goal with |- context [for_up (Z.to_nat np) ?f ?s] => assert (E : fst (fst (for_up (Z.to_nat np) f s)) i = xyp i) end.
    { match goal with |- fst (fst (for_up _ ?f ?s)) i = _ => apply (for_up_ind _ (fun _ w => fst (fst w) i = xyp i) (Z.to_nat np) f s) end; [reflexivity|].
      intros k [[f2 a2] b2] Hk E. cbn [fst] in E. destruct (palXy2xy _ _ _) as [xp yp]. cbn [fst]. unfold upd. destruct (Nat.eqb_spec i k); [lia|exact E]. }
    destruct (for_up _ _ _) as [[f a] b]. exact E.
Qed.
End P.

Local Open Scope R_scope.
(** the equations held in memory are solved in memory *)
Theorem C103_solves : forall n a y iw0 (m : Z -> R), apart a (Z.of_nat n * Z.of_nat n) y (Z.of_nat n) ->
  let '(m', d, jf, iw) := @palDmat_m R RA n a y iw0 m in jf = 0%Z ->
  forall i, (i < n)%nat -> rsum n (fun j => m (a + Z.of_nat n * Z.of_nat i + Z.of_nat j)%Z * m' (y + Z.of_nat j)%Z) = m (y + Z.of_nat i)%Z.
Proof.
  intros n a y iw0 m H. assert (K := C103_palDmat n a y iw0 m H). destruct (palDmat_m n a y iw0 m) as [[[m' d] jf] iw]. cbv zeta in K. destruct K as (_ & K2 & _ & K4 & _).
  intros J i Hi. rewrite K4 in J. destruct (C30_palDmat n (elem_at n m a) (item_at m y) iw0 J) as (_ & S & _). etransitivity; [|exact (S i Hi)]. apply rsum_ext. intros j Hj. unfold elem_at. rewrite <- K2 by easy. reflexivity.
Qed.
(** e.g. 2 x = 6, with rubbish in the workspace *)
Example C103_eg : apart 10 (Z.of_nat 1 * Z.of_nat 1) 14 (Z.of_nat 1) /\
  (let '(m', d, jf, iw) := @palDmat_m R RA 1 10 14 (fun _ => 7%nat) (fun q => if Z.eqb q 10 then 2 else if Z.eqb q 14 then 6 else 5) in
   m' 10%Z = 1 / 2 /\ m' 14%Z = 3 /\ m' 15%Z = 5 /\ d = 2 /\ jf = 0%Z /\ iw 0%nat = 0%nat).
Proof.
  split; [unfold apart; lia|].
  unfold palDmat_m, dmat_step_m, dmat_pivot_m, dmat_elim_m, dmat_col_m, dmat_scale_row_m, SFA, for_up. cbn [for_from for_down Nat.sub Nat.add Nat.eqb Z.of_nat snd fst dmm_aoff dmm_m dmm_d dmm_jf dmm_iw Z.add Pos.of_succ_nat Z.eqb Pos.eqb].
  cbn [ltb lit mul div fabs RA]. replace (litR 1) with 1 by (rlit; lra). rewrite Rmult_1_l, Rabs_pos_eq by lra.
  assert (E : Rltb 2 (litR 1e-20) = false) by (unfold Rltb; destruct (Rlt_dec _ _) as [C|C]; [exfalso; revert C; rlit; lra|reflexivity]).
  rewrite !E. cbn [negb dmm_aoff dmm_m dmm_d dmm_jf dmm_iw Z.eqb upd Nat.eqb]. unfold wr. cbn [Z.eqb Pos.eqb Z.add Pos.add Pos.succ]. repeat split; lra.
Qed.
