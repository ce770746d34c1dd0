(** * Theorems: the nutation behind palAoppa's equation of the equinoxes (C76) *)
From Coq Require Import Reals ZArith Lra Lia Psatz Bool List.
From Flocq Require Import Core.Raux.
From Interval Require Import Tactic.
From Verif Require Import Num NumR Erfa Geom NutTable M_Refr M_Place P_Aop Props_Aop.
Import ListNotations.
Local Open Scope R_scope.

(** ** Specification: IAU 2000 nutation, thirteen largest terms *)
(** arcseconds to radians *)
Definition as2r : R := PI / 648000.
(** Julian centuries from J2000 *)
Definition tJ2000 (date : R) : R := (date - 51544.5) / 36525.
(** Delaunay arguments (IERS Conventions 2003, constant and rate, arcseconds): mean anomaly of the Moon, of the Sun, mean argument of latitude of the
    Moon, mean elongation of the Moon from the Sun, mean longitude of the Moon's ascending node *)
Definition dl (t : R) : R := 485868.249036 + 1717915923.2178 * t.
Definition dl' (t : R) : R := 1287104.793048 + 129596581.0481 * t.
Definition dF (t : R) : R := 335779.526232 + 1739527262.8478 * t.
Definition dD (t : R) : R := 1072260.703692 + 1602961601.2090 * t.
Definition dOm (t : R) : R := 450160.398036 - 6962890.5431 * t.
(** multiples of the arguments; sine coefficient of the longitude and its rate; cosine coefficient of the obliquity and
    its rate, in units of 0.1 microarcsecond (McCarthy and Luzum 2003) *)
Record nterm : Set := NT { nl : Z; nl' : Z; nF : Z; nD : Z; nOm : Z; nS : Z; nS' : Z; nC : Z; nC' : Z }.
Definition iau2000_leading : list nterm := [
  NT 0    0  0    0  1  (-172064161) (-174666)  92052331    9086;
  NT 0    0  2 (-2)  2   (-13170906)   (-1675)   5730336  (-3015);
  NT 0    0  2    0  2    (-2276413)    (-234)    978459   (-485);
  NT 0    0  0    0  2      2074554       207   (-897492)    470;
  NT 0    1  0    0  0      1475877    (-3633)     73871   (-184);
  NT 0    1  2 (-2)  2     (-516821)     1226     224386   (-677);
  NT 1    0  0    0  0       711159        73     (-6750)      0;
  NT 0    0  2    0  1     (-387298)    (-367)    200728      18;
  NT 1    0  2    0  2     (-301461)     (-36)    129025    (-63);
  NT 0 (-1)  2 (-2)  2       215829     (-494)   (-95929)    299;
  NT 0    0  2 (-2)  1       128227       137    (-68982)    (-9);
  NT (-1) 0  2    0  2       123457        11    (-53311)     32;
  NT (-1) 0  0    2  0       156994        10     (-1235)      0 ].
Definition narg (t : R) (r : nterm) : R :=
  (IZR (nl r) * dl t + IZR (nl' r) * dl' t + IZR (nF r) * dF t + IZR (nD r) * dD t + IZR (nOm r) * dOm t) * as2r.
(** nutation in longitude and in obliquity, arcseconds, with the IAU 2000 frame bias and precession-rate corrections to
    IAU 1976 precession *)
Definition nut_longitude (t : R) : R :=
  fold_right (fun r s => (IZR (nS r) + IZR (nS' r) * t) * 1e-7 * sinR (narg t r) + s) 0 iau2000_leading - 0.041775 - 0.29965 * t.
Definition nut_obliquity (t : R) : R :=
  fold_right (fun r s => (IZR (nC r) + IZR (nC' r) * t) * 1e-7 * cosR (narg t r) + s) 0 iau2000_leading - 0.0068192 - 0.02524 * t.
(** mean obliquity, arcseconds, to the rate *)
Definition mean_obliquity (t : R) : R := 84381.4 - 46.81 * t.

(** ** Sines of nearby angles *)
Lemma sin_near : forall a b, Rabs (sinR a - sinR b) <= Rabs (a - b).
Proof.
  intros a b. assert (H : forall x y, x < y -> Rabs (sinR y - sinR x) <= Rabs (y - x)).
  { intros x y L. destruct (MVT_cor2 sinR cosR x y L) as (c & E & _); [intros; apply derivable_pt_lim_sin|].
    rewrite E, Rabs_mult. assert (P := Rabs_pos (y - x)). assert (Rabs (cosR c) <= 1) by (apply Rabs_le, COS_bound).
    assert (Q := Rabs_pos (cosR c)). nra. }
  destruct (Rtotal_order a b) as [L|[->|L]].
  - rewrite (Rabs_minus_sym (sinR a)), (Rabs_minus_sym a). now apply H.
  - replace (sinR b - sinR b) with 0 by ring. rewrite Rabs_R0. apply Rabs_pos.
  - now apply H.
Qed.
Lemma cos_near : forall a b, Rabs (cosR a - cosR b) <= Rabs (a - b).
Proof.
  intros a b. rewrite !cos_sin. eapply Rle_trans; [apply sin_near|]. right. f_equal. ring.
Qed.
(** [x] is the angle [u] up to whole turns and at most [q] radian *)
Definition nearly (q x u : R) : Prop := exists (k : Z) d, x = u + d + IZR k * (2 * PI) /\ Rabs d <= q.
Lemma nearly_sin : forall q x u, nearly q x u -> Rabs (sinR x - sinR u) <= q.
Proof.
  intros q x u (k & d & -> & H). replace (sinR (u + d + IZR k * (2 * PI))) with (sinR (u + d)) by (apply cong_sin, cong_sym; exists k; ring).
  eapply Rle_trans; [apply sin_near|]. now replace (u + d - u) with d by ring.
Qed.
Lemma nearly_cos : forall q x u, nearly q x u -> Rabs (cosR x - cosR u) <= q.
Proof.
  intros q x u (k & d & -> & H). replace (cosR (u + d + IZR k * (2 * PI))) with (cosR (u + d)) by (apply cong_cos, cong_sym; exists k; ring).
  eapply Rle_trans; [apply cos_near|]. now replace (u + d - u) with d by ring.
Qed.
Lemma nearly_add : forall q p x u y v, nearly q x u -> nearly p y v -> nearly (q + p) (x + y) (u + v).
Proof.
  intros q p x u y v (k & d & -> & H) (l & e & -> & G). exists (k + l)%Z, (d + e). rewrite plus_IZR. split; [ring|].
  eapply Rle_trans; [apply Rabs_triang|]. lra.
Qed.
Lemma nearly_mul : forall q n x u, nearly q x u -> nearly (IZR (Z.abs n) * q) (IZR n * x) (IZR n * u).
Proof.
  intros q n x u (k & d & -> & H). exists (n * k)%Z, (IZR n * d). rewrite mult_IZR. split; [ring|].
  rewrite Rabs_mult, abs_IZR. apply Rmult_le_compat_l; [apply Rabs_pos|exact H].
Qed.
Lemma nearly_weaken : forall q p x u y v, nearly q x u -> q <= p -> x = y -> u = v -> nearly p y v.
Proof. intros q p x u y v (k & d & -> & H) L <- <-. exists k, d. split; [easy|lra]. Qed.

(** ** Arguments *)
Lemma fmodT : forall x, exists k, fmodR x 1296000 = x + IZR k * 1296000.
Proof. intro x. unfold fmodR. match goal with |- context [IZR ?k * 1296000] => exists (- k)%Z end. rewrite opp_IZR. ring. Qed.
Lemma arg_near : forall deg c1 c2 c3 c4 t q : R, Rabs t <= 1 -> Rabs c2 + Rabs c3 + Rabs c4 <= q ->
  nearly (q * as2r) (nut_arg deg c1 c2 c3 c4 t) ((deg * 3600 + c1 * t) * as2r).
Proof.
  intros deg c1 c2 c3 c4 t q Ht H. unfold nut_arg, DD2R, DAS2R. rops. replace (litR 1296000.0) with 1296000 by (rlit; lra).
  replace (litR 180) with 180 by (rlit; lra). replace (litR 648000) with 648000 by (rlit; lra).
  destruct (fmodT (t * (c1 + t * (c2 + t * (c3 + t * c4))))) as [k ->].
  exists k, ((t * t * (c2 + t * (c3 + t * c4))) * as2r). unfold as2r. split; [field|].
  rewrite Rabs_mult, (Rabs_pos_eq (PI / 648000)) by (assert (P := PI_RGT_0); lra).
  apply Rmult_le_compat_r; [assert (P := PI_RGT_0); lra|].
  assert (B : forall a c s, Rabs c <= s -> Rabs (a + t * c) <= Rabs a + s).
  { intros a c s Hs. eapply Rle_trans; [apply Rabs_triang|]. rewrite Rabs_mult. assert (P := Rabs_pos t). assert (Q := Rabs_pos c). nra. }
  rewrite !Rabs_mult. assert (P := Rabs_pos t).
  assert (Q := B c2 (c3 + t * c4) _ (B c3 c4 _ (Rle_refl _))). assert (N := Rabs_pos (c2 + t * (c3 + t * c4))).
  assert (Rabs t * Rabs t <= 1 * 1) by (apply Rmult_le_compat; lra).
  assert (Rabs t * Rabs t * Rabs (c2 + t * (c3 + t * c4)) <= 1 * q) by (apply Rmult_le_compat; [apply Rmult_le_pos; lra|lra|lra|lra]). lra.
Qed.
(** the five Delaunay arguments of the code are those of IAU 2000B to 34 arcseconds over a century *)
Lemma args_near : forall t, Rabs t <= 1 -> exists l l' F D Om v e j s,
  nut_args t = [l; l'; F; D; Om; v; e; j; s] /\
  nearly (32 * as2r) l (dl t * as2r) /\ nearly (1 * as2r) l' (dl' t * as2r) /\ nearly (13 * as2r) F (dF t * as2r) /\
  nearly (7 * as2r) D (dD t * as2r) /\ nearly (8 * as2r) Om (dOm t * as2r).
Proof.
  intros t Ht. unfold nut_args. do 9 eexists. split; [reflexivity|].
  repeat split; (eapply nearly_weaken; [apply arg_near; [exact Ht|]|apply Rle_refl|reflexivity|]).
  all: try (apply (f_equal (fun x => x * as2r)); unfold dl, dl', dF, dD, dOm; rn; lra).
  all: rn; interval.
Qed.

(** ** One term *)
Lemma abs1 : forall a b c, Rabs b <= 1 -> Rabs a <= c -> Rabs (a * b) <= c.
Proof. intros a b c H L. rewrite Rabs_mult. assert (P := Rabs_pos b). assert (Q := Rabs_pos a). nra. Qed.
Lemma lin1 : forall a b t, Rabs t <= 1 -> Rabs (a + b * t) <= Rabs a + Rabs b.
Proof. intros a b t H. eapply Rle_trans; [apply Rabs_triang|]. assert (Rabs (b * t) <= Rabs b) by (apply abs1; [exact H|apply Rle_refl]). lra. Qed.
Lemma term_psi : forall q t th u s k0 k1 k2 k3 S S' : R, Rabs t <= 1 -> nearly q th u -> s = 1 \/ s = -1 ->
  Rabs ((k0 + k2 * t) * cosR th + (k1 + k3 * t) * sinR th - (S + S' * t) * sinR (s * u)) <=
  Rabs k0 + Rabs k2 + Rabs (k1 - s * S) + Rabs (k3 - s * S') + (Rabs S + Rabs S') * q.
Proof.
  intros q t th u s k0 k1 k2 k3 S S' Ht N Hs. apply nearly_sin in N.
  replace (sinR (s * u)) with (s * sinR u).
  2:{ destruct Hs as [->| ->]; [now rewrite !Rmult_1_l|]. replace (-1 * u) with (- u) by ring. rewrite sin_neg. ring. }
  replace ((k0 + k2 * t) * cosR th + (k1 + k3 * t) * sinR th - (S + S' * t) * (s * sinR u)) with
    ((k0 + k2 * t) * cosR th + ((k1 - s * S) + (k3 - s * S') * t) * sinR th + (S + S' * t) * (s * (sinR th - sinR u))) by ring.
  eapply Rle_trans; [apply Rabs_triang|]. assert (C := COS_bound th). assert (D := SIN_bound th).
  assert (A1 : Rabs ((k0 + k2 * t) * cosR th) <= Rabs k0 + Rabs k2) by (apply abs1; [now apply Rabs_le|now apply lin1]).
  assert (A2 : Rabs ((k1 - s * S + (k3 - s * S') * t) * sinR th) <= Rabs (k1 - s * S) + Rabs (k3 - s * S')) by (apply abs1; [now apply Rabs_le|now apply lin1]).
  assert (A3 := lin1 S S' t Ht). assert (A4 := Rabs_triang ((k0 + k2 * t) * cosR th) ((k1 - s * S + (k3 - s * S') * t) * sinR th)).
  assert (A5 : Rabs (s * (sinR th - sinR u)) <= q).
  { rewrite Rabs_mult. replace (Rabs s) with 1; [lra|]. destruct Hs as [->| ->]; [now rewrite Rabs_R1|]. rewrite Rabs_left; lra. }
  rewrite (Rabs_mult (S + S' * t)). assert (P1 := Rabs_pos (s * (sinR th - sinR u))). assert (P2 := Rabs_pos (S + S' * t)). nra.
Qed.
Lemma term_eps : forall q t th u s k0 k1 k2 k3 S S' : R, Rabs t <= 1 -> nearly q th u -> s = 1 \/ s = -1 ->
  Rabs ((k0 + k2 * t) * cosR th + (k1 + k3 * t) * sinR th - (S + S' * t) * cosR (s * u)) <=
  Rabs k1 + Rabs k3 + Rabs (k0 - S) + Rabs (k2 - S') + (Rabs S + Rabs S') * q.
Proof.
  intros q t th u s k0 k1 k2 k3 S S' Ht N Hs. apply nearly_cos in N.
  replace (cosR (s * u)) with (cosR u).
  2:{ destruct Hs as [->| ->]; [now rewrite !Rmult_1_l|]. replace (-1 * u) with (- u) by ring. now rewrite cos_neg. }
  replace ((k0 + k2 * t) * cosR th + (k1 + k3 * t) * sinR th - (S + S' * t) * cosR u) with
    ((k1 + k3 * t) * sinR th + ((k0 - S) + (k2 - S') * t) * cosR th + (S + S' * t) * (cosR th - cosR u)) by ring.
  eapply Rle_trans; [apply Rabs_triang|]. assert (C := COS_bound th). assert (D := SIN_bound th).
  assert (A1 : Rabs ((k1 + k3 * t) * sinR th) <= Rabs k1 + Rabs k3) by (apply abs1; [now apply Rabs_le|now apply lin1]).
  assert (A2 : Rabs ((k0 - S + (k2 - S') * t) * cosR th) <= Rabs (k0 - S) + Rabs (k2 - S')) by (apply abs1; [now apply Rabs_le|now apply lin1]).
  assert (A3 := lin1 S S' t Ht). assert (A4 := Rabs_triang ((k1 + k3 * t) * sinR th) ((k0 - S + (k2 - S') * t) * cosR th)).
  rewrite (Rabs_mult (S + S' * t)). assert (P1 := Rabs_pos (cosR th - cosR u)). assert (P2 := Rabs_pos (S + S' * t)). nra.
Qed.

(** ** The remaining rows *)
Definition decZ (d : Dec) : Z := Z.abs (dmant d) * 10 ^ (17 + dexp d).
Definition sumZ (l : list Dec) : Z := fold_right (fun d s => decZ d + s)%Z 0%Z l.
Definition okDec (d : Dec) : bool := (-17 <=? dexp d)%Z && (dexp d <=? 0)%Z.
Lemma litR_decZ : forall d, okDec d = true -> Rabs (litR d) = IZR (decZ d) / 100000000000000000.
Proof.
  intros [m e] H. unfold okDec in H. cbn [dexp] in H. apply andb_prop in H. destruct H as [H1 H2].
  apply Z.leb_le in H1, H2. unfold decZ, litR. cbn [dmant dexp]. rewrite (mult_IZR (Z.abs m)), abs_IZR.
  destruct (Z.leb_spec 0 e) as [L|L].
  - replace e with 0%Z by lia. replace (17 + 0)%Z with 17%Z by lia. rewrite mult_IZR, Rabs_mult.
    change (10 ^ 0)%Z with 1%Z. change (10 ^ 17)%Z with 100000000000000000%Z. rewrite Rabs_R1. field.
  - assert (E : (10 ^ (17 + e) * 10 ^ (- e) = 100000000000000000)%Z) by (rewrite <- Z.pow_add_r by lia; replace (17 + e + - e)%Z with 17%Z by lia; reflexivity).
    apply (f_equal IZR) in E. rewrite mult_IZR in E.
    assert (P : 0 < IZR (10 ^ (- e))) by (apply IZR_lt; apply Z.pow_pos_nonneg; lia).
    unfold Rdiv. rewrite Rabs_mult, Rabs_inv, (Rabs_pos_eq (IZR (10 ^ (- e)))) by lra. rewrite <- E. field. split; [lra|].
    intro Z. rewrite Z in E. lra.
Qed.
Definition row_psi (r : list Z * list Dec * list Dec) := snd (fst r).
Definition row_eps (r : list Z * list Dec * list Dec) := snd r.
Definition rowsZ (f : list Z * list Dec * list Dec -> list Dec) rows : Z := fold_right (fun r s => sumZ (f r) + s)%Z 0%Z rows.
Definition okRow (l : list Dec) : bool := forallb okDec l.
Definition nut_f (args : list R) (t : R) (row : list Z * list Dec * list Dec) (acc : R * R) : R * R :=
  let '(na, psi, eps) := row in
  let th := match na, args with k :: na', x :: a' => nut_theta na' a' (ofZ k * x)%num | _, _ => lit 0 end in
  (fst acc + nut_term th t psi, snd acc + nut_term th t eps).
Lemma nut_sum_right : forall args t rows dp de, nut_sum args t rows dp de = fold_right (nut_f args t) (dp, de) rows.
Proof.
  intros. unfold nut_sum. rewrite <- (rev_involutive rows) at 2. rewrite fold_left_rev_right.
  generalize (dp, de). induction (rev rows) as [|r l IH]; intro acc; [easy|]. cbn [fold_left]. now rewrite IH.
Qed.
Lemma nut_term_bound : forall th t k, Rabs t <= 1 -> okRow k = true -> Rabs (nut_term th t k) <= IZR (sumZ k) / 100000000000000000.
Proof.
  intros th t k Ht O. assert (Z0 : forall l, okRow l = true -> 0 <= IZR (sumZ l)).
  { intros l _. apply IZR_le. induction l as [|d l IH]; [easy|]. cbn [sumZ fold_right]. fold (sumZ l).
    unfold decZ. assert (0 <= 10 ^ (17 + dexp d))%Z by (apply Z.pow_nonneg; lia). nia. }
  assert (P := Z0 k O). 
  destruct k as [|k0 [|k1 [|k2 [|k3 [|k4 k]]]]]; try (unfold nut_term; replace (lit 0) with 0 by (rn; lra); rewrite Rabs_R0; lra).
  cbn [okRow forallb] in O. apply andb_prop in O; destruct O as [O0 O]. apply andb_prop in O; destruct O as [O1 O].
  apply andb_prop in O; destruct O as [O2 O]. apply andb_prop in O; destruct O as [O3 _].
  unfold nut_term. cbn [sumZ fold_right]. rewrite !plus_IZR. rops.
  assert (E0 := litR_decZ _ O0). assert (E1 := litR_decZ _ O1). assert (E2 := litR_decZ _ O2). assert (E3 := litR_decZ _ O3).
  eapply Rle_trans; [apply Rabs_triang|]. assert (C := COS_bound th). assert (D := SIN_bound th).
  assert (A1 : Rabs ((litR k0 + litR k2 * t) * cosR th) <= Rabs (litR k0) + Rabs (litR k2)) by (apply abs1; [now apply Rabs_le|now apply lin1]).
  assert (A2 : Rabs ((litR k1 + litR k3 * t) * sinR th) <= Rabs (litR k1) + Rabs (litR k3)) by (apply abs1; [now apply Rabs_le|now apply lin1]).
  lra.
Qed.
Lemma tail_bound : forall args t rows dp de, Rabs t <= 1 ->
  forallb (fun r => okRow (row_psi r) && okRow (row_eps r)) rows = true ->
  Rabs (fst (fold_right (nut_f args t) (dp, de) rows) - dp) <= IZR (rowsZ row_psi rows) / 100000000000000000 /\
  Rabs (snd (fold_right (nut_f args t) (dp, de) rows) - de) <= IZR (rowsZ row_eps rows) / 100000000000000000.
Proof.
  intros args t rows dp de Ht. induction rows as [|r rows IH]; intro O.
  - cbn [fold_right rowsZ fst snd]. rewrite !Rminus_eq_0, Rabs_R0. lra.
  - cbn [forallb] in O. apply andb_prop in O; destruct O as [O1 O]. apply andb_prop in O1; destruct O1 as [Op Oe].
    destruct (IH O) as [B1 B2]. clear IH. cbn [fold_right rowsZ]. fold (rowsZ row_psi rows). fold (rowsZ row_eps rows).
    set (a := fold_right (nut_f args t) (dp, de) rows) in *. clearbody a. destruct r as [[na psi] eps]. unfold nut_f.
    set (th := match na with nil => _ | _ => _ end). clearbody th. cbn [row_psi row_eps fst snd] in *. rewrite !plus_IZR.
    assert (T1 := nut_term_bound th t psi Ht Op). assert (T2 := nut_term_bound th t eps Ht Oe).
    destruct a as [x y]. cbn [fst snd] in *. rops. split.
    + replace (x + nut_term th t psi - dp) with ((x - dp) + nut_term th t psi) by ring. eapply Rle_trans; [apply Rabs_triang|]. lra.
    + replace (y + nut_term th t eps - de) with ((y - de) + nut_term th t eps) by ring. eapply Rle_trans; [apply Rabs_triang|]. lra.
Qed.
Definition nutRest := skipn 13 nutTable.
Definition nutHead := firstn 13 nutTable.
Lemma rest_ok : forallb (fun r => okRow (row_psi r) && okRow (row_eps r)) nutRest = true.
Proof. vm_compute. reflexivity. Qed.
Lemma rest_psi : (rowsZ row_psi nutRest <= 93000 * 100000000000000000)%Z. Proof. vm_compute. discriminate. Qed.
Lemma rest_eps : (rowsZ row_eps nutRest <= 32300 * 100000000000000000)%Z. Proof. vm_compute. discriminate. Qed.

(** ** The leading rows *)
Definition argq (n : nterm) : R := IZR (32 * Z.abs (nl n) + Z.abs (nl' n) + 13 * Z.abs (nF n) + 7 * Z.abs (nD n) + 8 * Z.abs (nOm n)) * as2r.
Definition bpsi (s : R) (n : nterm) (k : list Dec) : R :=
  match k with
  | [k0; k1; k2; k3] => Rabs (litR k0) + Rabs (litR k2) + Rabs (litR k1 - s * (IZR (nS n) / 10)) + Rabs (litR k3 - s * (IZR (nS' n) / 10)) +
      (Rabs (IZR (nS n) / 10) + Rabs (IZR (nS' n) / 10)) * argq n
  | _ => 0
  end.
Definition beps (n : nterm) (k : list Dec) : R :=
  match k with
  | [k0; k1; k2; k3] => Rabs (litR k1) + Rabs (litR k3) + Rabs (litR k0 - IZR (nC n) / 10) + Rabs (litR k2 - IZR (nC' n) / 10) +
      (Rabs (IZR (nC n) / 10) + Rabs (IZR (nC' n) / 10)) * argq n
  | _ => 0
  end.
Definition mults (sz : Z) (n : nterm) : list Z := [sz * nl n; sz * nl' n; sz * nF n; sz * nD n; sz * nOm n; 0; 0; 0; 0]%Z.
Lemma head_row : forall t l l' F D Om v e j s acc n sz psi eps bp be, Rabs t <= 1 ->
  nearly (32 * as2r) l (dl t * as2r) -> nearly (1 * as2r) l' (dl' t * as2r) -> nearly (13 * as2r) F (dF t * as2r) ->
  nearly (7 * as2r) D (dD t * as2r) -> nearly (8 * as2r) Om (dOm t * as2r) ->
  sz = 1%Z \/ sz = (-1)%Z -> length psi = 4%nat -> length eps = 4%nat -> bpsi (IZR sz) n psi <= bp -> beps n eps <= be ->
  Rabs (fst (nut_f [l; l'; F; D; Om; v; e; j; s] t (mults sz n, psi, eps) acc) - (fst acc + (IZR (nS n) / 10 + IZR (nS' n) / 10 * t) * sinR (narg t n))) <= bp /\
  Rabs (snd (nut_f [l; l'; F; D; Om; v; e; j; s] t (mults sz n, psi, eps) acc) - (snd acc + (IZR (nC n) / 10 + IZR (nC' n) / 10 * t) * cosR (narg t n))) <= be.
Proof.
  intros t l l' F D Om v e j s acc n sz psi eps bp be Ht N1 N2 N3 N4 N5 Hs Lp Le Bp Be.
  destruct psi as [|k0 [|k1 [|k2 [|k3 [|k4 psi]]]]]; try discriminate Lp.
  destruct eps as [|e0 [|e1 [|e2 [|e3 [|e4 eps]]]]]; try discriminate Le.
  unfold nut_f, mults. cbn [nut_theta fst snd]. rops.
  set (th := _ + IZR 0 * s).
  set (u := (IZR (sz * nl n) * dl t + IZR (sz * nl' n) * dl' t + IZR (sz * nF n) * dF t + IZR (sz * nD n) * dD t + IZR (sz * nOm n) * dOm t) * as2r).
  assert (N : nearly (argq n) th u).
  { assert (N := nearly_add _ _ _ _ _ _ (nearly_add _ _ _ _ _ _ (nearly_add _ _ _ _ _ _ (nearly_add _ _ _ _ _ _
      (nearly_mul _ (sz * nl n) _ _ N1) (nearly_mul _ (sz * nl' n) _ _ N2)) (nearly_mul _ (sz * nF n) _ _ N3)) (nearly_mul _ (sz * nD n) _ _ N4)) (nearly_mul _ (sz * nOm n) _ _ N5)).
    eapply nearly_weaken; [exact N| | |].
    - unfold argq. rewrite !plus_IZR, !mult_IZR. right.
      assert (A : forall z, Z.abs (sz * z) = Z.abs z) by (intro z; destruct Hs as [->| ->]; lia). rewrite !A. ring.
    - unfold th. ring.
    - unfold u. ring. }
  assert (Hs' : IZR sz = 1 \/ IZR sz = -1) by (destruct Hs as [->| ->]; [now left|now right]).
  assert (U : IZR sz * u = narg t n).
  { unfold u, narg. rewrite !mult_IZR. destruct Hs' as [->| ->]; ring. }
  assert (P := term_psi _ t th u (IZR sz) (litR k0) (litR k1) (litR k2) (litR k3) (IZR (nS n) / 10) (IZR (nS' n) / 10) Ht N Hs').
  assert (Q := term_eps _ t th u (IZR sz) (litR e0) (litR e1) (litR e2) (litR e3) (IZR (nC n) / 10) (IZR (nC' n) / 10) Ht N Hs').
  rewrite U in P, Q. clearbody th u. unfold nut_term. rops. cbn [bpsi beps] in Bp, Be. split.
  - match type of P with Rabs ?a <= _ => match goal with |- Rabs ?b <= _ => replace b with a by ring end end. lra.
  - match type of Q with Rabs ?a <= _ => match goal with |- Rabs ?b <= _ => replace b with a by ring end end. lra.
Qed.
(** sign of the arguments of the 13 rows *)
Definition head_signs : list Z := [-1; 1; 1; -1; 1; 1; 1; 1; 1; 1; 1; 1; 1]%Z.
Fixpoint zipmap {X Y Z : Type} (f : X -> Y -> Z) (l : list X) (m : list Y) : list Z :=
  match l, m with x :: l', y :: m' => f x y :: zipmap f l' m' | _, _ => nil end.
Lemma head_args : map (fun r => fst (fst r)) nutHead = zipmap mults head_signs iau2000_leading.
Proof. reflexivity. Qed.
Definition head_bounds_psi (b : R) : Prop :=
  fold_right Rplus 0 (zipmap (fun sn r => bpsi (IZR (fst sn)) (snd sn) (row_psi r)) (combine head_signs iau2000_leading) nutHead) <= b.
Definition head_bounds_eps (b : R) : Prop :=
  fold_right Rplus 0 (zipmap (fun sn r => beps (snd sn) (row_eps r)) (combine head_signs iau2000_leading) nutHead) <= b.
Lemma head_psi_num : head_bounds_psi 8320.
Proof.
  unfold head_bounds_psi, nutHead, nutTable, iau2000_leading, head_signs. cbn [firstn combine zipmap fold_right row_psi fst snd bpsi nS nS'].
  unfold argq, as2r. cbn [nl nl' nF nD nOm Z.abs Z.mul Z.add Pos.mul Pos.add Pos.succ]. rlit. interval.
Qed.
Lemma head_eps_num : head_bounds_eps 3595.
Proof.
  unfold head_bounds_eps, nutHead, nutTable, iau2000_leading, head_signs. cbn [firstn combine zipmap fold_right row_eps fst snd beps nC nC'].
  unfold argq, as2r. cbn [nl nl' nF nD nOm Z.abs Z.mul Z.add Pos.mul Pos.add Pos.succ]. rlit. interval.
Qed.
(** all rows of a list agreeing with a list of terms *)
Lemma heads : forall t l l' F D Om v e j s acc rows signs ns, Rabs t <= 1 ->
  nearly (32 * as2r) l (dl t * as2r) -> nearly (1 * as2r) l' (dl' t * as2r) -> nearly (13 * as2r) F (dF t * as2r) ->
  nearly (7 * as2r) D (dD t * as2r) -> nearly (8 * as2r) Om (dOm t * as2r) ->
  map (fun r => fst (fst r)) rows = zipmap mults signs ns -> length signs = length ns -> length rows = length ns ->
  forallb (fun z => (z =? 1)%Z || (z =? -1)%Z) signs = true ->
  forallb (fun r => (length (row_psi r) =? 4)%nat && (length (row_eps r) =? 4)%nat) rows = true ->
  Rabs (fst (fold_right (nut_f [l; l'; F; D; Om; v; e; j; s] t) acc rows) -
      (fst acc + fold_right (fun n y => (IZR (nS n) / 10 + IZR (nS' n) / 10 * t) * sinR (narg t n) + y) 0 ns))
    <= fold_right Rplus 0 (zipmap (fun sn r => bpsi (IZR (fst sn)) (snd sn) (row_psi r)) (combine signs ns) rows) /\
  Rabs (snd (fold_right (nut_f [l; l'; F; D; Om; v; e; j; s] t) acc rows) -
      (snd acc + fold_right (fun n y => (IZR (nC n) / 10 + IZR (nC' n) / 10 * t) * cosR (narg t n) + y) 0 ns))
    <= fold_right Rplus 0 (zipmap (fun sn r => beps (snd sn) (row_eps r)) (combine signs ns) rows).
Proof.
  intros t l l' F D Om v e j s acc rows signs ns Ht N1 N2 N3 N4 N5. revert signs ns.
  induction rows as [|r rows IH]; intros signs ns E L1 L2 G4 G5.
  - destruct ns; [|discriminate L2]. destruct signs; [|discriminate L1]. cbn [fold_right zipmap combine].
    rewrite !Rplus_0_r, !Rminus_eq_0, Rabs_R0. lra.
  - destruct ns as [|n ns]; [discriminate L2|]. destruct signs as [|sz signs]; [discriminate L1|].
    cbn [map zipmap] in E. injection E as E0 E. cbn [length] in L1, L2. cbn [forallb] in G4, G5.
    apply andb_prop in G4. destruct G4 as [H4 G4]. apply andb_prop in G5. destruct G5 as [H5 G5].
    apply andb_prop in H5. destruct H5 as [H5 H6]. apply Nat.eqb_eq in H5, H6.
    destruct (IH signs ns E ltac:(congruence) ltac:(congruence) G4 G5) as [B1 B2]. clear IH.
    assert (Hs : sz = 1%Z \/ sz = (-1)%Z) by (apply orb_prop in H4; destruct H4 as [H4|H4]; apply Z.eqb_eq in H4; auto).
    cbn [fold_right zipmap combine fst snd]. set (a := fold_right (nut_f [l; l'; F; D; Om; v; e; j; s] t) acc rows) in *.
    destruct r as [[na psi] eps]. cbn [fst snd row_psi row_eps] in *.
    assert (Ena : na = mults sz n) by exact E0. subst na.
    destruct (head_row t l l' F D Om v e j s a n sz psi eps _ _ Ht N1 N2 N3 N4 N5 Hs H5 H6 (Rle_refl _) (Rle_refl _)) as [R1 R2].
    clearbody a. set (w := nut_f [l; l'; F; D; Om; v; e; j; s] t (mults sz n, psi, eps) a) in *. clearbody w.
    match type of B1 with Rabs ?x <= ?y => set (X := x) in *; set (Y := y) in * end.
    match type of R1 with Rabs ?x <= ?y => set (X1 := x) in *; set (Y1 := y) in * end.
    match type of B2 with Rabs ?x <= ?y => set (X2 := x) in *; set (Y2 := y) in * end.
    match type of R2 with Rabs ?x <= ?y => set (X3 := x) in *; set (Y3 := y) in * end.
    split.
    + match goal with |- Rabs ?b <= _ => replace b with (X1 + X) by (unfold X1, X; ring) end. clearbody X X1 Y Y1.
      eapply Rle_trans; [apply Rabs_triang|]. lra.
    + match goal with |- Rabs ?b <= _ => replace b with (X3 + X2) by (unfold X3, X2; ring) end. clearbody X2 X3 Y2 Y3.
      eapply Rle_trans; [apply Rabs_triang|]. lra.
Qed.
Lemma scale_sum : forall (f g : nterm -> R) k l, (forall n, f n = k * g n) ->
  fold_right (fun n y => f n + y) 0 l = k * fold_right (fun n y => g n + y) 0 l.
Proof. intros f g k l H. induction l as [|n l IH]; cbn [fold_right]; [ring|]. rewrite IH, H. ring. Qed.
Lemma nut_sum_near : forall t dp de, Rabs t <= 1 ->
  Rabs (fst (nut_sum (nut_args t) t nutTable dp de) - dp - 1000000 * (nut_longitude t + 0.041775 + 0.29965 * t)) <= 101320 /\
  Rabs (snd (nut_sum (nut_args t) t nutTable dp de) - de - 1000000 * (nut_obliquity t + 0.0068192 + 0.02524 * t)) <= 35895.
Proof.
  intros t dp de Ht. destruct (args_near t Ht) as (l & l' & F & D & Om & v & e & j & s & -> & N1 & N2 & N3 & N4 & N5).
  rewrite nut_sum_right. replace nutTable with (nutHead ++ nutRest) by (unfold nutHead, nutRest; apply firstn_skipn).
  rewrite fold_right_app.
  destruct (tail_bound [l; l'; F; D; Om; v; e; j; s] t nutRest dp de Ht rest_ok) as [T1 T2].
  set (acc := fold_right (nut_f [l; l'; F; D; Om; v; e; j; s] t) (dp, de) nutRest) in *. clearbody acc.
  assert (R1 := IZR_le _ _ rest_psi). assert (R2 := IZR_le _ _ rest_eps). rewrite mult_IZR in R1, R2.
  destruct (heads t l l' F D Om v e j s acc nutHead head_signs iau2000_leading Ht N1 N2 N3 N4 N5 head_args eq_refl eq_refl eq_refl eq_refl) as [H1 H2].
  assert (B1 := head_psi_num). assert (B2 := head_eps_num). unfold head_bounds_psi in B1. unfold head_bounds_eps in B2.
  set (x := fold_right (nut_f [l; l'; F; D; Om; v; e; j; s] t) acc nutHead) in *. clearbody x.
  set (K1 := fold_right Rplus 0 _) in H1, B1. set (K2 := fold_right Rplus 0 _) in H2, B2. clearbody K1 K2.
  assert (S1 : fold_right (fun n y => (IZR (nS n) / 10 + IZR (nS' n) / 10 * t) * sinR (narg t n) + y) 0 iau2000_leading = 1000000 * (nut_longitude t + 0.041775 + 0.29965 * t)).
  { rewrite (scale_sum _ (fun r => (IZR (nS r) + IZR (nS' r) * t) * 1e-7 * sinR (narg t r)) 1000000) by (intro; lra).
    unfold nut_longitude. lra. }
  assert (S2 : fold_right (fun n y => (IZR (nC n) / 10 + IZR (nC' n) / 10 * t) * cosR (narg t n) + y) 0 iau2000_leading = 1000000 * (nut_obliquity t + 0.0068192 + 0.02524 * t)).
  { rewrite (scale_sum _ (fun r => (IZR (nC r) + IZR (nC' r) * t) * 1e-7 * cosR (narg t r)) 1000000) by (intro; lra).
    unfold nut_obliquity. lra. }
  rewrite S1 in H1. rewrite S2 in H2. clear S1 S2. apply Rabs_le_inv in H1, H2, T1, T2. split; apply Rabs_le; lra.
Qed.

(** ** C76 *)
Theorem C76_nutation : forall date, Rabs (tJ2000 date) <= 1 ->
  let '(dpsi, deps, eps0) := pal__Nutc date in
  Rabs (dpsi / as2r - nut_longitude (tJ2000 date)) <= 0.104 /\
  Rabs (deps / as2r - nut_obliquity (tJ2000 date)) <= 0.0388 /\
  Rabs (eps0 / as2r - mean_obliquity (tJ2000 date)) <= 0.015.
Proof.
  intros date. unfold pal__Nutc. rops.
  replace ((date - litR 51544.5) / litR 36525.0) with (tJ2000 date) by (unfold tJ2000; rlit; lra).
  set (t := tJ2000 date). clearbody t. intro Ht.
  match goal with |- context [nut_sum _ _ _ ?a ?b] => set (dp := a); set (de := b) end.
  destruct (nut_sum_near t dp de Ht) as [A B]. destruct (nut_sum (nut_args t) t nutTable dp de) as [x y]. cbn [fst snd] in A, B.
  assert (Dp : Rabs dp <= 155).
  { unfold dp. set (u := nth 1 (nut_args t) (litR 0)). clearbody u. assert (S1 := SIN_bound u). assert (S2 := SIN_bound (litR 2 * u)).
    set (a := sinR u) in *. set (b := sinR (litR 2 * u)) in *. clearbody a b. rlit. apply Rabs_le. lra. }
  assert (De : de = 0) by (unfold de; rlit; lra). rewrite De in *. clearbody dp. clear de De.
  assert (K : forall z : R, z * DAS2R / as2r = z).
  { intro z. unfold DAS2R, as2r. rn. field. apply PI_neq0. }
  rewrite !K. clear K. unfold mean_obliquity. rlit.
  set (L := nut_longitude t) in *. set (O := nut_obliquity t) in *. clearbody L O.
  assert (Ht' := Rabs_le_inv _ _ Ht). apply Rabs_le_inv in A, B, Dp. split; [apply Rabs_le; lra|]. split; [apply Rabs_le; lra|].
  interval with (i_taylor t, i_bisect t).
Qed.
(** the equation of the equinoxes, arcseconds: nutation in longitude projected on the equator, and the two largest
    complementary terms of IAU 1994 *)
Definition eq_equinoxes (t : R) : R :=
  nut_longitude t * cosR (mean_obliquity t * as2r) + 0.00264 * sinR (dOm t * as2r) + 0.000063 * sinR (2 * (dOm t * as2r)).
Lemma nut_longitude_bound : forall t, Rabs t <= 1 -> Rabs (nut_longitude t) <= 21.
Proof.
  intros t Ht. unfold nut_longitude, iau2000_leading. cbn [fold_right nS nS'].
  repeat match goal with |- context [sinR ?x] => let u := fresh "u" in let H := fresh "S" in assert (H := SIN_bound x); set (u := sinR x) in *; clearbody u end.
  apply Rabs_le_inv in Ht. interval.
Qed.
Theorem C76_equation_of_equinoxes : forall date, Rabs (tJ2000 date) <= 1 ->
  Rabs (pal__Eqeqx date / as2r - eq_equinoxes (tJ2000 date)) <= 0.096.
Proof.
  intros date Ht. assert (H := C76_nutation date Ht). unfold pal__Eqeqx.
  destruct (pal__Nutc date) as [[dpsi deps] eps0]. destruct H as (H1 & _ & H3). rops.
  replace ((date - litR 51544.5) / litR 36525.0) with (tJ2000 date) by (unfold tJ2000; rlit; lra).
  set (t := tJ2000 date) in *. clearbody t. assert (P := PI_RGT_0). assert (Pa : 0 < as2r) by (unfold as2r; lra).
  set (p := dpsi / as2r) in *. replace dpsi with (p * as2r) by (unfold p; field; lra). clearbody p.
  set (e := eps0 / as2r) in *. replace eps0 with (e * as2r) by (unfold e; field; lra). clearbody e.
  set (om := litR 450160.280 + _).
  assert (D : DAS2R = as2r) by (unfold DAS2R, as2r; rn; easy). rewrite D.
  replace ((p * as2r * cosR (e * as2r) + as2r * (litR 0.00264 * sinR (as2r * om) + litR 0.000063 * sinR (as2r * om + as2r * om))) / as2r)
    with (p * cosR (e * as2r) + (0.00264 * sinR (as2r * om) + 0.000063 * sinR (as2r * om + as2r * om))) by (replace (litR 0.00264) with 0.00264 by (rlit; lra); replace (litR 0.000063) with 0.000063 by (rlit; lra); field; lra).
  assert (O : Rabs (as2r * om - dOm t * as2r) <= 8 * as2r).
  { replace (as2r * om - dOm t * as2r) with ((om - dOm t) * as2r) by ring. rewrite Rabs_mult, (Rabs_pos_eq as2r) by lra.
    apply Rmult_le_compat_r; [lra|]. unfold om, dOm. rlit. apply Rabs_le_inv in Ht.
    match goal with |- Rabs ?x <= _ => replace x with (-0.118036 + (0.0041 + (7.455 + 0.008 * t) * t) * t) by lra end. interval. }
  assert (A1 := sin_near (as2r * om) (dOm t * as2r)).
  assert (A2 := sin_near (as2r * om + as2r * om) (2 * (dOm t * as2r))).
  replace (as2r * om + as2r * om - 2 * (dOm t * as2r)) with (2 * (as2r * om - dOm t * as2r)) in A2 by ring.
  rewrite Rabs_mult, (Rabs_pos_eq 2) in A2 by lra.
  assert (A3 := cos_near (e * as2r) (mean_obliquity t * as2r)).
  replace (e * as2r - mean_obliquity t * as2r) with ((e - mean_obliquity t) * as2r) in A3 by ring.
  rewrite Rabs_mult, (Rabs_pos_eq as2r) in A3 by lra.
  assert (A4 : 0 <= cosR (e * as2r) <= 0.9179).
  { assert (84334 <= e <= 84429) by (unfold mean_obliquity in H3; apply Rabs_le_inv in H3, Ht; lra).
    unfold as2r. split; interval. }
  assert (Sm : as2r <= 5e-6) by (unfold as2r; interval).
  assert (B := nut_longitude_bound t Ht).
  unfold eq_equinoxes. set (L := nut_longitude t) in *. set (c := cosR (e * as2r)) in *. set (c' := cosR (mean_obliquity t * as2r)) in *.
  set (s1 := sinR (as2r * om)) in *. set (s2 := sinR (as2r * om + as2r * om)) in *. set (s1' := sinR (dOm t * as2r)) in *. set (s2' := sinR (2 * _)) in *.
  clearbody L c c' s1 s2 s1' s2'.
  replace (p * c + (0.00264 * s1 + 0.000063 * s2) - (L * c' + 0.00264 * s1' + 0.000063 * s2')) with
    ((p - L) * c + L * (c - c') + (0.00264 * (s1 - s1') + 0.000063 * (s2 - s2'))) by ring.
  assert (C1 : Rabs (c - c') <= 0.015 * as2r) by nra.
  assert (Q1 : Rabs ((p - L) * c) <= 0.104 * 0.9179) by (rewrite Rabs_mult, (Rabs_pos_eq c) by lra; apply Rmult_le_compat; try apply Rabs_pos; lra).
  assert (Q2 : Rabs (L * (c - c')) <= 21 * (0.015 * as2r)) by (rewrite Rabs_mult; apply Rmult_le_compat; try apply Rabs_pos; lra).
  apply Rabs_le_inv in Q1, Q2. assert (X1 : Rabs (s1 - s1') <= 8 * as2r) by lra. assert (X2 : Rabs (s2 - s2') <= 2 * (8 * as2r)) by lra.
  apply Rabs_le_inv in X1, X2. apply Rabs_le. lra.
Qed.
Local Opaque palRefco pal__Eqeqx.
(** what a caller gets: with no polar motion the sidereal time palAoppa stores is the local apparent sidereal time, the mean
    sidereal time at UT1 = UTC + dut plus the east longitude plus the equation of the equinoxes, to 0.0961 arcsecond *)
Theorem C76_palAoppa : forall date dut elongm phim hm tdk pmb rh wl tlr,
  Rabs (tJ2000 date) <= 1 -> Rabs dut <= 1 -> - (PI / 2) < phim < PI / 2 ->
  exists x, cong x (gmst82 (date + dut / 86400) + elongm + eq_equinoxes (tJ2000 date) * as2r) /\
    Rabs (ao_st (palAoppa date dut elongm phim hm 0 0 tdk pmb rh wl tlr) - x) <= 0.0961 * as2r.
Proof.
  intros date dut elongm phim hm tdk pmb rh wl tlr Ht Hd Hp.
  destruct (C54_no_polar_motion date dut elongm phim hm tdk pmb rh wl tlr Hp) as [_ L].
  set (p := palAoppa date dut elongm phim hm 0 0 tdk pmb rh wl tlr) in *.
  assert (G : cong (ao_st p - ao_lon p) (gmst82 date)).
  { destruct (C54_palAoppat date p) as (_ & G & _ & _ & _ & _ & _ & _ & _ & _ & _ & _ & _ & _ & EL).
    assert (E : ao_st (palAoppat date p) = ao_st p).
    { unfold p, palAoppa. cbv zeta. destruct (pal__Geoc _ _). destruct (palRefco _ _ _ _ _ _ _ _). reflexivity. }
    now rewrite E in G. }
  assert (Q := C76_equation_of_equinoxes date Ht). clearbody p.
  assert (P := PI_RGT_0). assert (Pa : 0 < as2r) by (unfold as2r; lra).
  set (e := pal__Eqeqx date / as2r) in *. replace (pal__Eqeqx date) with (e * as2r) in L by (unfold e; field; lra). clearbody e.
  destruct G as [k G]. destruct L as [l L].
  exists (gmst82 (date + dut / 86400) + elongm + eq_equinoxes (tJ2000 date) * as2r + IZR (k + l) * (2 * PI)). split; [exists (k + l)%Z; ring|].
  replace (ao_st p) with (ao_st p - ao_lon p + ao_lon p) by ring. rewrite G, L. rewrite plus_IZR.
  set (E := eq_equinoxes (tJ2000 date)) in *. clearbody E.
  assert (H : Rabs (gmst82 (date + dut / 86400) - gmst82 date - dut * (10027379093 / 10 ^ 10) * (PI / 43200)) <= 1e-10).
  { clear - Ht Hd P. unfold gmst82. cbv zeta. set (t := tJ2000 date) in *.
    replace ((date - 515445 / 10) / 36525) with t by (unfold t, tJ2000; lra).
    replace ((date + dut / 86400 - 515445 / 10) / 36525) with (t + dut / 3155760000) by (unfold t, tJ2000; lra). clearbody t.
    apply Rabs_le_inv in Ht, Hd.
    match goal with |- Rabs ?x <= _ => replace x with (dut * PI * (2 / 86400 - 10027379093 / 10 ^ 10 / 43200 + (8640184812866 / 10 ^ 6 / 3155760000 + 93104 / 10 ^ 6 * (2 * t / 3155760000 + dut / 3155760000 ^ 2) - 62 / 10 ^ 7 * (3 * t ^ 2 / 3155760000 + 3 * t * dut / 3155760000 ^ 2 + dut ^ 2 / 3155760000 ^ 3)) / 43200)) by field end.
    interval with (i_prec 80). }
  assert (Q' : Rabs ((e - E) * as2r) <= 0.096 * as2r) by (rewrite Rabs_mult, (Rabs_pos_eq as2r) by lra; apply Rmult_le_compat_r; lra).
  assert (S : 4.8e-6 <= as2r) by (unfold as2r; interval).
  apply Rabs_le_inv in H, Q'. apply Rabs_le. lra.
Qed.
(** on 2000 January 1.5 the nutation in longitude is -13.9 and in obliquity -5.8 arcsec *)
Example C76_example : let '(dpsi, deps, _) := pal__Nutc 51544.5 in
  Rabs (dpsi / as2r + 13.97) <= 0.15 /\ Rabs (deps / as2r + 5.78) <= 0.06.
Proof.
  assert (Z : tJ2000 51544.5 = 0) by (unfold tJ2000; lra).
  assert (H := C76_nutation 51544.5). rewrite Z, Rabs_R0 in H. specialize (H ltac:(lra)).
  destruct (pal__Nutc 51544.5) as [[dpsi deps] eps0]. destruct H as (H1 & H2 & _).
  assert (A1 : Rabs (nut_longitude 0 + 13.97) <= 0.03).
  { unfold nut_longitude, iau2000_leading, narg, dl, dl', dF, dD, dOm, as2r. cbn [fold_right nS nS' nl nl' nF nD nOm]. interval with (i_prec 60). }
  assert (A2 : Rabs (nut_obliquity 0 + 5.78) <= 0.02).
  { unfold nut_obliquity, iau2000_leading, narg, dl, dl', dF, dD, dOm, as2r. cbn [fold_right nC nC' nl nl' nF nD nOm]. interval with (i_prec 60). }
  apply Rabs_le_inv in H1, H2, A1, A2. split; apply Rabs_le; lra.
Qed.
