(** * Theorems: sexagesimal fields in double precision (C82) *)
From Coq Require Import Reals ZArith Lra Lia Psatz Bool.
From Flocq Require Import Core.
From Interval Require Import Tactic.
From Verif Require Import Num NumR NumD Erfa M_Time.
Local Open Scope R_scope.

Section D.
Variable L : Libm.
Definition dtf2d (h m : Z) (s : R) : R * Z := @palDtf2d R (DA L) h m s.
Definition dd2tf (ndp : Z) (days : R) : bool * (Z * Z * Z * Z) := @palDd2tf R (DA L) ndp days.
Definition dtf2r (h m : Z) (s : R) : R * Z := @palDtf2r R (DA L) h m s.
Definition dr2tf (ndp : Z) (angle : R) : bool * (Z * Z * Z * Z) := @palDr2tf R (DA L) ndp angle.
Definition daf2r (h m : Z) (s : R) : R * Z := @palDaf2r R (DA L) h m s.
Definition dr2af (ndp : Z) (angle : R) : bool * (Z * Z * Z * Z) := @palDr2af R (DA L) ndp angle.

Lemma u53_val : 0 < u53 < 1.12e-16. Proof. unfold u53. lra. Qed.
Lemma normal_1 : forall x, 1e-300 <= Rabs x -> bpow radix2 (-1022) <= Rabs x.
Proof.
  intros x H. apply Rle_trans with 1e-300; [|easy]. apply Rle_trans with (/ IZR (10 ^ 300)).
  - change (bpow radix2 (-1022)) with (/ IZR (2 ^ 1022)). apply Rinv_le; [apply IZR_lt; reflexivity|]. apply IZR_le. vm_compute. discriminate.
  - lra.
Qed.

(** the quotient of two integers, rounded, has the right integer part as long as numerator + denominator <= 2^53 *)
Lemma div_floor : forall a b : Z, (0 <= a)%Z -> (0 < b)%Z -> (a + b <= 2 ^ 53)%Z ->
  0 <= rd (IZR a / IZR b) /\ Zfloor (rd (IZR a / IZR b)) = (a / b)%Z.
Proof.
  intros a b Ha Hb H. assert (Hb' : 0 < IZR b) by now apply IZR_lt.
  assert (Hq := Z.div_pos a b Ha Hb). assert (Hr := Z.mod_pos_bound a b Hb). assert (E := Z_div_mod_eq_full a b).
  set (q := (a / b)%Z) in *. set (r := (a mod b)%Z) in *.
  assert (Q : IZR q <= IZR a / IZR b).
  { apply Rmult_le_reg_r with (IZR b); [easy|]. replace (IZR a / IZR b * IZR b) with (IZR a) by (field; lra).
    rewrite <- mult_IZR. apply IZR_le. nia. }
  assert (Lo : IZR q <= rd (IZR a / IZR b)) by (apply rd_ge; [apply fmtZ; nia|easy]).
  assert (Q0 : 0 <= IZR q) by now apply IZR_le.
  split; [lra|]. apply Zfloor_imp. split; [easy|]. rewrite plus_IZR. set (c := IZR q + 1).
  assert (U : IZR a / IZR b <= c - / IZR b).
  { apply Rmult_le_reg_r with (IZR b); [easy|]. replace (IZR a / IZR b * IZR b) with (IZR a) by (field; lra).
    unfold c. replace ((IZR q + 1 - / IZR b) * IZR b) with ((IZR q + 1) * IZR b - 1) by (field; lra).
    rewrite <- (plus_IZR q 1), <- mult_IZR, <- minus_IZR. apply IZR_le. nia. }
  assert (CB : c * IZR b <= 9007199254740992).
  { unfold c. rewrite <- (plus_IZR q 1), <- mult_IZR. apply IZR_le. change 9007199254740992%Z with (2 ^ 53)%Z. nia. }
  destruct (Z.eq_dec a 0) as [Za|Na].
  { rewrite Za. unfold Rdiv. rewrite Rmult_0_l, rd_0. unfold c. lra. }
  assert (A1 : 1 <= IZR a) by (apply (IZR_le 1); lia).
  assert (B1 : 1 <= IZR b) by (apply (IZR_le 1); lia).
  assert (B2 : IZR b <= 9007199254740992) by (apply (IZR_le b (2 ^ 53)); lia).
  assert (X0 : / 9007199254740992 <= IZR a / IZR b).
  { apply Rle_trans with (/ IZR b); [apply Rinv_le; easy|]. unfold Rdiv. rewrite <- (Rmult_1_l (/ IZR b)) at 1.
    apply Rmult_le_compat_r; [apply Rlt_le, Rinv_0_lt_compat; lra|easy]. }
  assert (R1 := rd_rel (IZR a / IZR b)). rewrite (Rabs_pos_eq (IZR a / IZR b)) in R1 by lra.
  assert (R2 : Rabs (rd (IZR a / IZR b) - IZR a / IZR b) <= u53 * (IZR a / IZR b)).
  { apply R1. replace (IZR a / IZR b) with (Rabs (IZR a / IZR b)) by (apply Rabs_pos_eq; lra). apply normal_1. rewrite Rabs_pos_eq; lra. }
  apply Rabs_le_inv in R2.
  assert (I : u53 * c <= / IZR b).
  { unfold u53. apply Rmult_le_reg_r with (9007199254740992 * IZR b); [lra|].
    replace (/ 9007199254740992 * c * (9007199254740992 * IZR b)) with (c * IZR b) by field.
    replace (/ IZR b * (9007199254740992 * IZR b)) with 9007199254740992 by (field; lra). easy. }
  assert (V := u53_val). assert (IB : 0 < / IZR b) by (apply Rinv_0_lt_compat; lra). fold c in U. nra.
Qed.
Lemma DNINT_D : forall y, fmt y -> 0 <= y <= 8.1e15 -> exists n : Z, @DNINT R (DA L) y = IZR n /\ (0 <= n)%Z /\
  y - 1 / 2 - u53 * (y + 1) < IZR n <= y + 1 / 2 + u53 * (y + 1).
Proof.
  intros y Fy Hy. exists (Zfloor (rd (y + rd (litR 0.5)))). unfold DNINT. dn. rewrite (rdZ 0) by (cbn; lia).
  rewrite Rltb_false by lra. split; [reflexivity|].
  assert (H5 : rd (5 / 10) = 1 / 2).
  { replace (5 / 10) with (IZR 1 * bpow radix2 (-1)) by (change (bpow radix2 (-1)) with (/ 2); lra). rewrite rd_id by (apply mk_fmt; lia). 
    change (bpow radix2 (-1)) with (/ 2). lra. }
  rewrite H5. assert (A := rd_rel (y + 1 / 2)). rewrite (Rabs_pos_eq (y + 1 / 2)) in A by lra.
  assert (N : bpow radix2 (-1022) <= y + 1 / 2).
  { replace (y + 1 / 2) with (Rabs (y + 1 / 2)) by (apply Rabs_pos_eq; lra). apply normal_1. rewrite Rabs_pos_eq; lra. }
  specialize (A N). apply Rabs_le_inv in A. assert (V := u53_val).
  assert (Z0 : 0 <= rd (y + 1 / 2)) by (apply rd_ge; [apply fmt0|lra]).
  assert (B := Zfloor_lb (rd (y + 1 / 2))). assert (C := Zfloor_ub (rd (y + 1 / 2))).
  split; [|nra]. apply Zlt_succ_le. apply lt_IZR. unfold Z.succ. rewrite plus_IZR. lra.
Qed.
Lemma DINT_D : forall y, 0 <= y -> @DINT R (DA L) y = IZR (Zfloor y).
Proof. intros y H. unfold DINT. dn. rewrite (rdZ 0) by (cbn; lia). rewrite Rltb_false by lra. reflexivity. Qed.

(** the field extraction, on an integral number [n] of units *)
Lemma fields_D : forall ndp n : Z, (0 <= ndp <= 9)%Z -> (0 <= n <= 9000000000000000)%Z ->
  let rs := rd (IZR (10 ^ Z.max 0 ndp)) in let rm := rd (rs * rd (litR 60)) in let rh := rd (rm * rd (litR 60)) in
  let a := IZR n in
  let ah := @DINT R (DA L) (rd (a / rh)) in
  let a2 := rd (a - rd (ah * rh)) in
  let am := @DINT R (DA L) (rd (a2 / rm)) in
  let a3 := rd (a2 - rd (am * rm)) in
  let as_ := @DINT R (DA L) (rd (a3 / rs)) in
  let af := rd (a3 - rd (as_ * rs)) in
  let t := (10 ^ ndp)%Z in
  Ztrunc ah = (n / (3600 * t))%Z /\ Ztrunc am = (n mod (3600 * t) / (60 * t))%Z /\
  Ztrunc as_ = (n mod (60 * t) / t)%Z /\ Ztrunc af = (n mod t)%Z.
Proof.
  intros ndp n Hd Hn. rewrite Z.max_r by lia. cbv zeta. set (t := (10 ^ ndp)%Z).
  assert (T : (1 <= t <= 1000000000)%Z).
  { unfold t. split; [apply (Z.pow_le_mono_r 10 0 ndp); lia|apply (Z.pow_le_mono_r 10 ndp 9); lia]. }
  assert (P53 : (2 ^ 53 = 9007199254740992)%Z) by reflexivity.
  rewrite (rdZ t) by lia. replace (litR 60) with (IZR 60) by (rlit; reflexivity). rewrite (rdZ 60) by lia.
  rewrite <- (mult_IZR t), (rdZ (t * 60)) by lia. rewrite <- (mult_IZR (t * 60)), (rdZ (t * 60 * 60)) by lia.
  destruct (div_floor n (t * 60 * 60)) as [P1 F1]; [lia|lia|lia|].
  rewrite (DINT_D _ P1), F1.
  assert (E1 := Z_div_mod_eq_full n (t * 60 * 60)). assert (M1 := Z.mod_pos_bound n (t * 60 * 60) ltac:(lia)).
  assert (Q1 := Z.div_pos n (t * 60 * 60) ltac:(lia) ltac:(lia)).
  rewrite <- mult_IZR, (rdZ (_ * _)) by nia. rewrite <- minus_IZR, (rdZ (n - _)) by nia.
  replace (n - n / (t * 60 * 60) * (t * 60 * 60))%Z with (n mod (t * 60 * 60))%Z by lia.
  set (n2 := (n mod (t * 60 * 60))%Z) in *.
  destruct (div_floor n2 (t * 60)) as [P2 F2]; [lia|lia|lia|].
  rewrite (DINT_D _ P2), F2.
  assert (E2 := Z_div_mod_eq_full n2 (t * 60)). assert (M2 := Z.mod_pos_bound n2 (t * 60) ltac:(lia)).
  assert (Q2 := Z.div_pos n2 (t * 60) ltac:(lia) ltac:(lia)).
  rewrite <- (mult_IZR (n2 / (t * 60))), (rdZ (n2 / (t * 60) * _)) by nia. rewrite <- (minus_IZR n2), (rdZ (n2 - _)) by nia.
  replace (n2 - n2 / (t * 60) * (t * 60))%Z with (n2 mod (t * 60))%Z by lia.
  set (n3 := (n2 mod (t * 60))%Z) in *.
  destruct (div_floor n3 t) as [P3 F3]; [lia|lia|lia|].
  rewrite (DINT_D _ P3), F3.
  assert (E3 := Z_div_mod_eq_full n3 t). assert (M3 := Z.mod_pos_bound n3 t ltac:(lia)).
  assert (Q3 := Z.div_pos n3 t ltac:(lia) ltac:(lia)).
  rewrite <- (mult_IZR (n3 / t)), (rdZ (n3 / t * _)) by nia. rewrite <- (minus_IZR n3), (rdZ (n3 - _)) by nia.
  rewrite !Ztrunc_IZR.
  replace (3600 * t)%Z with (t * 60 * 60)%Z by ring. replace (60 * t)%Z with (t * 60)%Z by ring.
  assert (N3 : n3 = (n mod (t * 60))%Z).
  { unfold n3, n2. replace (t * 60 * 60)%Z with (60 * (t * 60))%Z by ring. rewrite Zaux.Zmod_mod_mult; lia. }
  repeat split.
  - now rewrite N3.
  - replace (n3 - n3 / t * t)%Z with (n3 mod t)%Z by lia. rewrite N3. rewrite (Z.mul_comm t 60). apply Zaux.Zmod_mod_mult; lia.
Qed.

Lemma eta_val : bpow radix2 (-1075) <= 1e-300.
Proof.
  apply Rle_trans with (/ IZR (10 ^ 300)); [|lra]. change (bpow radix2 (-1075)) with (/ IZR (2 ^ 1075)).
  apply Rinv_le; [apply IZR_lt; reflexivity|]. apply IZR_le. vm_compute. discriminate.
Qed.
Lemma rd_bnd : forall x, 0 <= x -> 0 <= rd x /\ x - u53 * x - 1e-300 <= rd x <= x + u53 * x + 1e-300.
Proof.
  intros x H. assert (A := rd_err x). rewrite (Rabs_pos_eq x) in A by easy. assert (B := eta_val). apply Rabs_le_inv in A.
  split; [apply rd_ge; [apply fmt0|easy]|lra].
Qed.
Definition tfields (t n : Z) : Z * Z * Z * Z := (n / (3600 * t), n mod (3600 * t) / (60 * t), n mod (60 * t) / t, n mod t)%Z.
Lemma pow10_bounds : forall ndp, (0 <= ndp <= 9)%Z -> (1 <= 10 ^ ndp <= 1000000000)%Z.
Proof. intros. split; [apply (Z.pow_le_mono_r 10 0 ndp); lia|apply (Z.pow_le_mono_r 10 ndp 9); lia]. Qed.
Lemma d2tf_D : forall ndp d, (0 <= ndp <= 9)%Z -> 86400 * Rabs d * IZR (10 ^ ndp) <= 8e15 ->
  exists n : Z, (0 <= n <= 9000000000000000)%Z /\
    Rabs (IZR n - 86400 * Rabs d * IZR (10 ^ ndp)) <= 1 / 2 + 3.4e-16 * (86400 * Rabs d * IZR (10 ^ ndp)) + 1.2e-16 /\
    @eraD2tf R (DA L) ndp d = (Rleb 0 d, tfields (10 ^ ndp) n).
Proof.
  intros ndp d Hn HX. assert (T := pow10_bounds ndp Hn). unfold eraD2tf. cbv zeta.
  destruct (Z.ltb_spec ndp 0) as [C|_]; [lia|].
  set (t := (10 ^ ndp)%Z) in *. assert (T1 : 1 <= IZR t) by (apply (IZR_le 1); lia).
  assert (T2 : IZR t <= 1000000000) by (apply IZR_le; lia).
  assert (D0 := Rabs_pos d).
  destruct (rd_bnd (86400 * Rabs d) ltac:(lra)) as [A0 A1]. set (a0 := rd (86400 * Rabs d)) in *.
  destruct (rd_bnd (IZR t * a0) ltac:(nra)) as [Y0 Y1]. set (y := rd (IZR t * a0)) in *.
  set (X := 86400 * Rabs d * IZR t) in *.
  assert (B1 : IZR t * a0 <= X + u53 * X + 1e-290).
  { apply Rle_trans with (IZR t * (86400 * Rabs d + u53 * (86400 * Rabs d) + 1e-300)); [apply Rmult_le_compat_l; lra|].
    unfold X. replace (IZR t * (86400 * Rabs d + u53 * (86400 * Rabs d) + 1e-300)) with
      (86400 * Rabs d * IZR t + u53 * (86400 * Rabs d * IZR t) + IZR t * 1e-300) by ring. lra. }
  assert (B2 : X - u53 * X - 1e-290 <= IZR t * a0).
  { apply Rle_trans with (IZR t * (86400 * Rabs d - u53 * (86400 * Rabs d) - 1e-300)); [|apply Rmult_le_compat_l; lra].
    unfold X. replace (IZR t * (86400 * Rabs d - u53 * (86400 * Rabs d) - 1e-300)) with
      (86400 * Rabs d * IZR t - u53 * (86400 * Rabs d * IZR t) - IZR t * 1e-300) by ring. lra. }
  assert (X0 : 0 <= X) by (unfold X; apply Rmult_le_pos; lra).
  assert (Yhi : 0 <= y <= 8.1e15) by (unfold u53 in *; lra).
  destruct (DNINT_D y (fmt_rd _) Yhi) as (n & En & N0 & Nb). exists n.
  assert (Nhi : (n <= 9000000000000000)%Z) by (apply le_IZR; unfold u53 in *; lra).
  split; [lia|]. split; [apply Rabs_le; unfold u53 in *; lra|].
  dops. rewrite Z.max_r by lia. fold t. replace (litR 0) with 0 by (rlit; reflexivity). rewrite rd_0.
  f_equal. replace (litR 86400) with (IZR 86400) by (rlit; reflexivity). rewrite (rdZ 86400) by (cbn; lia).
  rewrite (rdZ t) by lia. fold a0. fold y. rewrite En.
  assert (FD := fields_D ndp n Hn ltac:(lia)). rewrite Z.max_r in FD by lia. cbv zeta in FD. fold t in FD.
  rewrite (rdZ t) in FD by lia. destruct FD as (-> & -> & -> & ->). reflexivity.
Qed.

(** C82: palDd2tf in double arithmetic.  For 0 to 9 decimals and every interval up to 8e15 units of the last decimal (at
    least 92 days) the fields are legal - no "60 seconds" - and represent the interval to half a unit plus the accumulated
    rounding of 3.4e-16. *)
Theorem C82_palDd2tf : forall ndp days, (0 <= ndp <= 9)%Z -> is_double days -> 86400 * Rabs days * IZR (10 ^ ndp) <= 8e15 ->
  let '(pos, (h, m, s, f)) := dd2tf ndp days in
  (pos = true <-> 0 <= days) /\ (0 <= h /\ 0 <= m < 60 /\ 0 <= s < 60 /\ 0 <= f < 10 ^ ndp)%Z /\
  let x := 86400 * Rabs days * IZR (10 ^ ndp) in
  Rabs (IZR (((h * 60 + m) * 60 + s) * 10 ^ ndp + f) - x) <= 1 / 2 + 3.4e-16 * x + 1.2e-16.
Proof.
  intros ndp days Hn _ HX. unfold dd2tf, palDd2tf. destruct (d2tf_D ndp days Hn HX) as (n & Nb & Ne & ->).
  unfold tfields. cbv zeta. assert (T := pow10_bounds ndp Hn). set (t := (10 ^ ndp)%Z) in *.
  split; [destruct (Rleb_spec 0 days); split; easy|].
  assert (E1 := Z_div_mod_eq_full n (3600 * t)). assert (M1 := Z.mod_pos_bound n (3600 * t) ltac:(lia)).
  assert (Q1 := Z.div_pos n (3600 * t) ltac:(lia) ltac:(lia)).
  assert (W : (n mod (60 * t) = (n mod (3600 * t)) mod (60 * t))%Z).
  { replace (3600 * t)%Z with (60 * (60 * t))%Z by ring. symmetry. apply Zaux.Zmod_mod_mult; lia. }
  assert (W2 : (n mod t = (n mod (60 * t)) mod t)%Z) by (symmetry; apply Zaux.Zmod_mod_mult; lia).
  rewrite W2, W. set (n2 := (n mod (3600 * t))%Z) in *.
  assert (E2 := Z_div_mod_eq_full n2 (60 * t)). assert (M2 := Z.mod_pos_bound n2 (60 * t) ltac:(lia)).
  set (n3 := (n2 mod (60 * t))%Z) in *.
  assert (E3 := Z_div_mod_eq_full n3 t). assert (M3 := Z.mod_pos_bound n3 t ltac:(lia)).
  split.
  - repeat split; try lia.
    + apply Z.div_pos; lia.
    + apply Z.div_lt_upper_bound; lia.
    + apply Z.div_pos; lia.
    + apply Z.div_lt_upper_bound; lia.
  - replace (((n / (3600 * t) * 60 + n2 / (60 * t)) * 60 + n3 / t) * t + n3 mod t)%Z with n by nia. exact Ne.
Qed.
Lemma tfields_inv : forall t h m s f : Z, (1 <= t)%Z -> (0 <= h)%Z -> (0 <= m < 60)%Z -> (0 <= s < 60)%Z -> (0 <= f < t)%Z ->
  tfields t (((h * 60 + m) * 60 + s) * t + f) = (h, m, s, f).
Proof.
  intros t h m s f Ht Hh Hm Hs Hf. unfold tfields. set (n := (((h * 60 + m) * 60 + s) * t + f)%Z).
  assert (E1 : (n / (3600 * t) = h)%Z) by (symmetry; apply Z.div_unique with ((m * 60 + s) * t + f)%Z; [left; nia|unfold n; ring]).
  assert (E2 : (n mod (3600 * t) = (m * 60 + s) * t + f)%Z) by (symmetry; apply Z.mod_unique with h; [left; nia|unfold n; ring]).
  assert (E3 : (n mod (60 * t) = s * t + f)%Z) by (symmetry; apply Z.mod_unique with (h * 60 + m)%Z; [left; nia|unfold n; ring]).
  assert (E4 : (n mod t = f)%Z) by (symmetry; apply Z.mod_unique with ((h * 60 + m) * 60 + s)%Z; [left; nia|unfold n; ring]).
  rewrite E1, E2, E3, E4. repeat f_equal.
  - symmetry. apply Z.div_unique with (s * t + f)%Z; [left; nia|ring].
  - symmetry. apply Z.div_unique with f; [left; nia|ring].
Qed.
(** recovering the fields from a value close to them *)
Lemma d2tf_recover : forall ndp d h m s f, (0 <= ndp <= 9)%Z -> (0 <= h)%Z -> (0 <= m < 60)%Z -> (0 <= s < 60)%Z -> (0 <= f < 10 ^ ndp)%Z ->
  let N := (((h * 60 + m) * 60 + s) * 10 ^ ndp + f)%Z in (N <= 1000000000000000)%Z -> 0 <= d ->
  Rabs (86400 * d * IZR (10 ^ ndp) - IZR N) <= 0.15 -> @eraD2tf R (DA L) ndp d = (true, (h, m, s, f)).
Proof.
  intros ndp d h m s f Hn Hh Hm Hs Hf N HN Hd HX. assert (T := pow10_bounds ndp Hn).
  assert (N0 : (0 <= N)%Z) by (unfold N; nia).
  assert (R0 : 0 <= IZR N) by (apply IZR_le; lia). assert (R1 : IZR N <= 1000000000000000) by (apply IZR_le; lia).
  assert (HX' := Rabs_le_inv _ _ HX).
  destruct (d2tf_D ndp d Hn) as (n & Nb & Ne & ->).
  { rewrite (Rabs_pos_eq d) by easy. lra. }
  rewrite (Rabs_pos_eq d) in Ne by easy. apply Rabs_le_inv in Ne.
  assert (E : n = N).
  { assert (A : -1 < IZR (n - N) < 1) by (rewrite minus_IZR; lra).
    destruct A as [A B]. apply (lt_IZR (-1)) in A. apply (lt_IZR _ 1) in B. lia. }
  rewrite E. unfold N. rewrite tfields_inv by lia. now rewrite Rleb_true by lra.
Qed.
(** the seconds given to palDtf2d, as a double sum *)
Definition secs (h m : Z) (s : R) : R := rd (IZR (60 * (60 * h + m)) + s).
Lemma secs_bound : forall h m s S e, (0 <= h <= 359)%Z -> (0 <= m < 60)%Z -> 0 <= s <= 60 -> Rabs (s - S) <= e ->
  0 <= secs h m s /\ Rabs (secs h m s - (IZR (60 * (60 * h + m)) + S)) <= e + u53 * (IZR (60 * (60 * h + m)) + s) + 1e-300.
Proof.
  intros h m s S e Hh Hm Hs He. unfold secs. assert (K : 0 <= IZR (60 * (60 * h + m))) by (apply IZR_le; lia).
  destruct (rd_bnd (IZR (60 * (60 * h + m)) + s) ltac:(lra)) as [A B]. split; [easy|].
  apply Rabs_le_inv in He. apply Rabs_le. lra.
Qed.
Lemma sec_expr : forall h m s, (0 <= h <= 359)%Z -> (0 <= m < 60)%Z -> 0 <= s ->
  rd (rd (litR 60) * rd (rd (rd (litR 60) * rd (IZR (Z.abs h))) + rd (IZR (Z.abs m)))) = IZR (60 * (60 * h + m)).
Proof.
  intros. rewrite !Z.abs_eq by lia. replace (litR 60) with (IZR 60) by (rlit; reflexivity).
  rewrite (rdZ 60), (rdZ h), (rdZ m) by lia. rewrite <- (mult_IZR 60 h), (rdZ (60 * h)) by lia.
  rewrite <- plus_IZR, (rdZ (60 * h + m)) by lia. rewrite <- mult_IZR. apply rdZ. lia.
Qed.
Lemma tf_sec : forall h m s, (0 <= h <= 359)%Z -> (0 <= m < 60)%Z -> 0 <= s ->
  mul (Arith := DA L) (sgnmul (A := DA L) false) (add (Arith := DA L) (mul (Arith := DA L) (lit (Arith := DA L) 60)
    (add (Arith := DA L) (mul (Arith := DA L) (lit (Arith := DA L) 60) (ofZ (Arith := DA L) (Z.abs h))) (ofZ (Arith := DA L) (Z.abs m))))
    (fabs (Arith := DA L) s)) = secs h m s.
Proof.
  intros h m s Hh Hm Hs. unfold sgnmul. dops. rewrite (sec_expr h m s) by easy. rewrite (Rabs_pos_eq s) by easy.
  replace (litR 1) with (IZR 1) by (rlit; reflexivity). rewrite (rdZ 1) by (cbn; lia). fold (secs h m s). rewrite Rmult_1_l.
  apply rd_id, fmt_rd.
Qed.

(** C82: composing and decomposing are inverse in double arithmetic: fields -> days -> fields loses nothing, for up to nine
    decimals of a second; the seconds argument may itself be off by 1e-13 (a dozen ulps). *)
Theorem C82_time_roundtrip : forall ndp h m S f s, (0 <= ndp <= 9)%Z ->
  (0 <= h <= 23)%Z -> (0 <= m < 60)%Z -> (0 <= S < 60)%Z -> (0 <= f < 10 ^ ndp)%Z ->
  is_double s -> 0 <= s < 60 -> Rabs (s - (IZR S + IZR f / IZR (10 ^ ndp))) <= 1e-13 ->
  let (days, status) := dtf2d h m s in
  status = 0%Z /\ Rabs (days - (IZR h + IZR m / 60 + s / 3600) / 24) <= 2.3e-16 /\ dd2tf ndp days = (true, (h, m, S, f)).
Proof.
  intros ndp h m S f s Hn Hh Hm HS Hf _ Hs He. unfold dtf2d, palDtf2d, eraTf2d.
  assert (T := pow10_bounds ndp Hn). set (t := (10 ^ ndp)%Z) in *.
  rewrite (tf_sec h m s) by (try lia; lra). dops.
  replace (litR 86400) with (IZR 86400) by (rlit; reflexivity). rewrite (rdZ 86400) by (cbn; lia).
  replace (litR 0) with 0 by (rlit; reflexivity). rewrite rd_0. replace (litR 60) with (IZR 60) by (rlit; reflexivity). rewrite (rdZ 60) by (cbn; lia).
  split.
  { destruct (Z.ltb_spec h 0); [lia|]. destruct (Z.ltb_spec 23 h); [lia|]. destruct (Z.ltb_spec m 0); [lia|]. destruct (Z.ltb_spec 59 m); [lia|].
    cbn [orb]. rewrite Rltb_false, Rleb_false by lra. reflexivity. }
  assert (T1 : 1 <= IZR t) by (apply (IZR_le 1); lia). assert (T2 : IZR t <= 1000000000) by (apply IZR_le; lia).
  set (W := IZR (60 * (60 * h + m))) in *.
  assert (W0 : 0 <= W <= 86340).
  { unfold W. split; apply IZR_le; lia. }
  split.
  - destruct (secs_bound h m s s 0 ltac:(lia) Hm ltac:(lra) ltac:(rewrite Rminus_eq_0, Rabs_R0; lra)) as [P1 P2]. fold W in P2.
    apply Rabs_le_inv in P2. destruct (rd_bnd (secs h m s / 86400) ltac:(lra)) as [D0 D1].
    assert (EW : W = 3600 * IZR h + 60 * IZR m) by (unfold W; rewrite mult_IZR, plus_IZR, mult_IZR; ring).
    apply Rabs_le. unfold u53 in *. lra.
  - destruct (secs_bound h m s _ _ ltac:(lia) Hm ltac:(lra) He) as [P1 P2]. fold W in P2. apply Rabs_le_inv in P2.
    destruct (rd_bnd (secs h m s / 86400) ltac:(lra)) as [D0 D1]. set (d := rd (secs h m s / 86400)) in *.
    unfold dd2tf, palDd2tf. apply d2tf_recover; try easy; try lia; fold t.
    + nia.
    + set (N := IZR ((((h * 60 + m) * 60 + S) * t + f))).
      assert (EN : N = (W + (IZR S + IZR f / IZR t)) * IZR t).
      { unfold N, W. rewrite !plus_IZR, !mult_IZR, !plus_IZR, !mult_IZR, !plus_IZR, !mult_IZR. field. lra. }
      rewrite EN. replace (86400 * d * IZR t - (W + (IZR S + IZR f / IZR t)) * IZR t) with
        ((86400 * d - (W + (IZR S + IZR f / IZR t))) * IZR t) by ring.
      rewrite Rabs_mult, (Rabs_pos_eq (IZR t)) by lra.
      assert (B : Rabs (86400 * d - (W + (IZR S + IZR f / IZR t))) <= 1.3e-10).
      { apply Rabs_le_inv in He. apply Rabs_le. unfold u53 in *. split; lra. }
      apply Rle_trans with (1.3e-10 * 1000000000); [|lra]. apply Rmult_le_compat; try lra. apply Rabs_pos.
Qed.

Lemma inv2pi : forall x, x / (2 * PI64) = x * (2251799813685248 / 14148475504056880).
Proof. intros. unfold PI64. field. Qed.
(** the same through radians: right ascension in hours, up to nine decimals of a second of time *)
Theorem C82_hours_roundtrip : forall ndp h m S f s, (0 <= ndp <= 9)%Z ->
  (0 <= h <= 23)%Z -> (0 <= m < 60)%Z -> (0 <= S < 60)%Z -> (0 <= f < 10 ^ ndp)%Z ->
  is_double s -> 0 <= s < 60 -> Rabs (s - (IZR S + IZR f / IZR (10 ^ ndp))) <= 1e-13 ->
  let (angle, status) := dtf2r h m s in
  status = 0%Z /\ Rabs (angle - (IZR h + IZR m / 60 + s / 3600) * (PI / 12)) <= 2e-15 /\ dr2tf ndp angle = (true, (h, m, S, f)).
Proof.
  intros ndp h m S f s Hn Hh Hm HS Hf _ Hs He. unfold dtf2r, palDtf2r, eraTf2a.
  assert (T := pow10_bounds ndp Hn). set (t := (10 ^ ndp)%Z) in *.
  rewrite (tf_sec h m s) by (try lia; lra). rewrite DS2R_D. dops.
  replace (litR 0) with 0 by (rlit; reflexivity). rewrite rd_0. replace (litR 60) with (IZR 60) by (rlit; reflexivity). rewrite (rdZ 60) by (cbn; lia).
  split.
  { destruct (Z.ltb_spec h 0); [lia|]. destruct (Z.ltb_spec 23 h); [lia|]. destruct (Z.ltb_spec m 0); [lia|]. destruct (Z.ltb_spec 59 m); [lia|].
    cbn [orb]. rewrite Rltb_false, Rleb_false by lra. reflexivity. }
  assert (T1 : 1 <= IZR t) by (apply (IZR_le 1); lia). assert (T2 : IZR t <= 1000000000) by (apply IZR_le; lia).
  set (W := IZR (60 * (60 * h + m))) in *.
  assert (W0 : 0 <= W <= 86340).
  { unfold W. split; apply IZR_le; lia. }
  assert (DV : DS2R64 = 5365940339316387 / 73786976294838206464).
  { unfold DS2R64. change (bpow radix2 (-66)) with (/ 73786976294838206464). reflexivity. }
  split.
  - destruct (secs_bound h m s s 0 ltac:(lia) Hm ltac:(lra) ltac:(rewrite Rminus_eq_0, Rabs_R0; lra)) as [P1 P2]. fold W in P2.
    apply Rabs_le_inv in P2. destruct (rd_bnd (secs h m s * DS2R64) ltac:(rewrite DV; lra)) as [D0 D1].
    assert (EW : W = 3600 * IZR h + 60 * IZR m) by (unfold W; rewrite mult_IZR, plus_IZR, mult_IZR; ring).
    replace ((IZR h + IZR m / 60 + s / 3600) * (PI / 12)) with ((W + s) * (PI / 43200)) by (rewrite EW; field).
    assert (PB : Rabs (PI / 43200 - DS2R64) <= 5e-21) by (rewrite DV; interval with (i_prec 120)).
    apply Rabs_le_inv in PB. rewrite DV in *.
    assert (V0 : 0 <= W + s <= 86400) by lra.
    assert (K1 : (W + s) * (PI / 43200) <= (W + s) * (5365940339316387 / 73786976294838206464 + 5e-21)) by (apply Rmult_le_compat_l; lra).
    assert (K2 : (W + s) * (5365940339316387 / 73786976294838206464 - 5e-21) <= (W + s) * (PI / 43200)) by (apply Rmult_le_compat_l; lra).
    apply Rabs_le. unfold u53 in *. lra.
  - destruct (secs_bound h m s _ _ ltac:(lia) Hm ltac:(lra) He) as [P1 P2]. fold W in P2. apply Rabs_le_inv in P2.
    destruct (rd_bnd (secs h m s * DS2R64) ltac:(rewrite DV; lra)) as [D0 D1]. set (g := rd (secs h m s * DS2R64)) in *.
    unfold dr2tf, palDr2tf, eraA2tf. rewrite D2PI_D. dops.
    destruct (rd_bnd (g / (2 * PI64)) ltac:(rewrite inv2pi; lra)) as [G0 G1]. set (d := rd (g / (2 * PI64))) in *.
    rewrite inv2pi in G1. rewrite DV in D1. apply d2tf_recover; try easy; try lia; fold t.
    + nia.
    + set (N := IZR ((((h * 60 + m) * 60 + S) * t + f))).
      assert (EN : N = (W + (IZR S + IZR f / IZR t)) * IZR t).
      { unfold N, W. rewrite !plus_IZR, !mult_IZR, !plus_IZR, !mult_IZR, !plus_IZR, !mult_IZR. field. lra. }
      rewrite EN. replace (86400 * d * IZR t - (W + (IZR S + IZR f / IZR t)) * IZR t) with
        ((86400 * d - (W + (IZR S + IZR f / IZR t))) * IZR t) by ring.
      rewrite Rabs_mult, (Rabs_pos_eq (IZR t)) by lra.
      assert (B : Rabs (86400 * d - (W + (IZR S + IZR f / IZR t))) <= 1.3e-10).
      { apply Rabs_le_inv in He. apply Rabs_le. unfold u53 in *. split; lra. }
      apply Rle_trans with (1.3e-10 * 1000000000); [|lra]. apply Rmult_le_compat; try lra. apply Rabs_pos.
Qed.
(** ... and in degrees, minutes and seconds of arc, up to eight decimals and 359 degrees *)
Theorem C82_degrees_roundtrip : forall ndp h m S f s, (0 <= ndp <= 8)%Z ->
  (0 <= h <= 359)%Z -> (0 <= m < 60)%Z -> (0 <= S < 60)%Z -> (0 <= f < 10 ^ ndp)%Z ->
  is_double s -> 0 <= s < 60 -> Rabs (s - (IZR S + IZR f / IZR (10 ^ ndp))) <= 1e-13 ->
  let (angle, status) := daf2r h m s in
  status = 0%Z /\ Rabs (angle - (IZR h + IZR m / 60 + s / 3600) * (PI / 180)) <= 2e-15 /\ dr2af ndp angle = (true, (h, m, S, f)).
Proof.
  intros ndp h m S f s Hn Hh Hm HS Hf _ Hs He. unfold daf2r, palDaf2r, eraAf2a.
  assert (T : (1 <= 10 ^ ndp <= 100000000)%Z) by (split; [apply (Z.pow_le_mono_r 10 0 ndp); lia|apply (Z.pow_le_mono_r 10 ndp 8); lia]).
  set (t := (10 ^ ndp)%Z) in *.
  rewrite (tf_sec h m s) by (try lia; lra). rewrite DAS2R_D. dops.
  replace (litR 0) with 0 by (rlit; reflexivity). rewrite rd_0. replace (litR 60) with (IZR 60) by (rlit; reflexivity). rewrite (rdZ 60) by (cbn; lia).
  split.
  { destruct (Z.ltb_spec h 0); [lia|]. destruct (Z.ltb_spec 359 h); [lia|]. destruct (Z.ltb_spec m 0); [lia|]. destruct (Z.ltb_spec 59 m); [lia|].
    cbn [orb]. rewrite Rltb_false, Rleb_false by lra. reflexivity. }
  assert (T1 : 1 <= IZR t) by (apply (IZR_le 1); lia). assert (T2 : IZR t <= 100000000) by (apply IZR_le; lia).
  set (W := IZR (60 * (60 * h + m))) in *.
  assert (W0 : 0 <= W <= 1295940).
  { unfold W. split; apply IZR_le; lia. }
  assert (DV : DAS2R64 = 5723669695270813 / 1180591620717411303424).
  { unfold DAS2R64. change (bpow radix2 (-70)) with (/ 1180591620717411303424). reflexivity. }
  split.
  - destruct (secs_bound h m s s 0 ltac:(lia) Hm ltac:(lra) ltac:(rewrite Rminus_eq_0, Rabs_R0; lra)) as [P1 P2]. fold W in P2.
    apply Rabs_le_inv in P2. destruct (rd_bnd (secs h m s * DAS2R64) ltac:(rewrite DV; lra)) as [D0 D1].
    assert (EW : W = 3600 * IZR h + 60 * IZR m) by (unfold W; rewrite mult_IZR, plus_IZR, mult_IZR; ring).
    replace ((IZR h + IZR m / 60 + s / 3600) * (PI / 180)) with ((W + s) * (PI / 648000)) by (rewrite EW; field).
    assert (PB : Rabs (PI / 648000 - DAS2R64) <= 4.3e-22) by (rewrite DV; interval with (i_prec 120)).
    apply Rabs_le_inv in PB. rewrite DV in *.
    assert (V0 : 0 <= W + s <= 1296000) by lra.
    assert (K1 : (W + s) * (PI / 648000) <= (W + s) * (5723669695270813 / 1180591620717411303424 + 4.3e-22)) by (apply Rmult_le_compat_l; lra).
    assert (K2 : (W + s) * (5723669695270813 / 1180591620717411303424 - 4.3e-22) <= (W + s) * (PI / 648000)) by (apply Rmult_le_compat_l; lra).
    apply Rabs_le. unfold u53 in *. lra.
  - destruct (secs_bound h m s _ _ ltac:(lia) Hm ltac:(lra) He) as [P1 P2]. fold W in P2. apply Rabs_le_inv in P2.
    destruct (rd_bnd (secs h m s * DAS2R64) ltac:(rewrite DV; lra)) as [D0 D1]. set (g := rd (secs h m s * DAS2R64)) in *.
    unfold dr2af, palDr2af, eraA2af. rewrite D2PI_D. dops.
    replace (litR 15) with (IZR 15) by (rlit; reflexivity). rewrite (rdZ 15) by (cbn; lia).
    destruct (rd_bnd (15 / (2 * PI64)) ltac:(rewrite inv2pi; lra)) as [F0 F1]. set (F := rd (15 / (2 * PI64))) in *.
    rewrite inv2pi in F1. rewrite DV in D1.
    destruct (rd_bnd (g * F) ltac:(nra)) as [G0 G1]. set (d := rd (g * F)) in *.
    apply Rabs_le_inv in He.
    assert (GM : 0 <= g <= 6.3) by (unfold u53 in *; lra).
    assert (FL : 2.38732414637842983 <= F <= 2.38732414637843102) by (unfold u53 in *; lra).
    assert (GF : g * 2.38732414637842983 <= g * F <= g * 2.38732414637843102) by (split; apply Rmult_le_compat_l; lra).
    apply d2tf_recover; try easy; try lia; fold t.
    + nia.
    + set (N := IZR ((((h * 60 + m) * 60 + S) * t + f))).
      assert (EN : N = (W + (IZR S + IZR f / IZR t)) * IZR t).
      { unfold N, W. rewrite !plus_IZR, !mult_IZR, !plus_IZR, !mult_IZR, !plus_IZR, !mult_IZR. field. lra. }
      rewrite EN. replace (86400 * d * IZR t - (W + (IZR S + IZR f / IZR t)) * IZR t) with
        ((86400 * d - (W + (IZR S + IZR f / IZR t))) * IZR t) by ring.
      rewrite Rabs_mult, (Rabs_pos_eq (IZR t)) by lra.
      assert (B : Rabs (86400 * d - (W + (IZR S + IZR f / IZR t))) <= 1.4e-9).
      { apply Rabs_le. clear EN N HS Hf. unfold u53 in *. split; lra. }
      apply Rle_trans with (1.4e-9 * 100000000); [|lra]. apply Rmult_le_compat; try lra. apply Rabs_pos.
Qed.
(** Non-vacuity: 23h 59m 59.999999999s comes back as such *)
Example C82_eg : exists s, is_double s /\ 0 <= s < 60 /\ Rabs (s - (IZR 59 + IZR 999999999 / IZR (10 ^ 9))) <= 1e-13.
Proof.
  exists (rd 59.999999999). assert (A := rd_bnd 59.999999999 ltac:(lra)). unfold u53 in A.
  split; [|split; [lra|]].
  - split; [apply FLT_format_generic; [typeclasses eauto|apply fmt_rd]|]. rewrite Rabs_pos_eq by lra.
    apply Rlt_trans with 64; [lra|]. change 64 with (bpow radix2 6). apply bpow_lt. lia.
  - change (10 ^ 9)%Z with 1000000000%Z. apply Rabs_le. lra.
Qed.
End D.
