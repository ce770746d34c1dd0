(** * Theorems: calendar dates in double precision (C83) *)
From Coq Require Import Reals ZArith Lra Lia Psatz Bool.
From Flocq Require Import Core Sterbenz.
From Verif Require Import Num NumR NumD Erfa M_Time P_Cal P_Time.
Local Open Scope R_scope.

Section D.
Variable L : Libm.
Definition ddjcl (djm : R) : Z * option ((Z * Z * Z) * R) := @palDjcl R (DA L) djm.

Lemma h5 : rd (5 / 10) = 1 / 2.
Proof.
  replace (5 / 10) with (IZR 1 * bpow radix2 (-1)) by (change (bpow radix2 (-1)) with (/ 2); lra). rewrite rd_id by (apply mk_fmt; lia).
  change (bpow radix2 (-1)) with (/ 2). lra.
Qed.
Lemma half_fmt : forall k : Z, (Z.abs k <= 2 ^ 53)%Z -> fmt (IZR k / 2).
Proof. intros. change (IZR k / 2) with (IZR k * bpow radix2 (-1)). apply mk_fmt; lia. Qed.
(** doubles in [1/2,1) are multiples of 2^-53, those from 1 on multiples of 2^-52 *)
Lemma grid_half : forall g, fmt g -> 1 / 2 <= g < 1 -> exists j : Z, g = IZR j * bpow radix2 (-53).
Proof.
  intros g F H. exists (Ztrunc (scaled_mantissa radix2 d64 g)). unfold fmt, generic_format, F2R in F. cbn [Fnum Fexp] in F.
  replace (cexp radix2 d64 g) with (-53)%Z in F; [exact F|]. unfold cexp.
  rewrite (mag_unique radix2 g 0); [reflexivity|]. rewrite Rabs_pos_eq by lra. change (bpow radix2 (0 - 1)) with (/ 2). change (bpow radix2 0) with 1. lra.
Qed.
Lemma grid_big : forall x, fmt x -> 1 <= x < 2 ^ 52 ->
  exists m e : Z, (-52 <= e <= -1)%Z /\ (0 < m < 2 ^ 53)%Z /\ x = IZR m * bpow radix2 e.
Proof.
  intros x F [H1 H2]. set (e := cexp radix2 d64 x). exists (Ztrunc (scaled_mantissa radix2 d64 x)), e.
  assert (E : x = IZR (Ztrunc (scaled_mantissa radix2 d64 x)) * bpow radix2 e) by exact F.
  set (m := Ztrunc (scaled_mantissa radix2 d64 x)) in *.
  assert (M1 : (1 <= mag radix2 x)%Z).
  { apply mag_ge_bpow. rewrite Rabs_pos_eq by lra. exact H1. }
  assert (M2 : (mag radix2 x <= 52)%Z).
  { apply mag_le_bpow; [lra|]. rewrite Rabs_pos_eq by lra. change (bpow radix2 52) with 4503599627370496. lra. }
  assert (EE : e = (mag radix2 x - 53)%Z) by (unfold e, cexp, d64, FLT_exp; lia).
  split; [lia|]. split; [|exact E].
  assert (B : 0 < bpow radix2 e) by apply bpow_gt_0.
  split.
  - apply lt_IZR. apply Rmult_lt_reg_r with (bpow radix2 e); [easy|]. lra.
  - apply lt_IZR. apply Rmult_lt_reg_r with (bpow radix2 e); [easy|]. rewrite <- E.
    change (IZR (2 ^ 53)) with (bpow radix2 53). rewrite <- bpow_plus. rewrite EE. replace (53 + (mag radix2 x - 53))%Z with (mag radix2 x : Z) by lia.
    rewrite <- (Rabs_pos_eq x) at 1 by lra. apply bpow_mag_gt.
Qed.
Lemma fmod1 : forall x, fmodR x 1 = x - IZR (Ztrunc x).
Proof. intros. unfold fmodR. replace (x / 1) with x by field. ring. Qed.
Lemma fmod1_fmt : forall x, fmt x -> fmt (fmodR x 1).
Proof.
  intros x F. replace 1 with (IZR (2 ^ 52) * bpow radix2 (-52)).
  - apply fmodR_fmt; [easy|lia|lia].
  - change (IZR (2 ^ 52)) with (bpow radix2 52). rewrite <- bpow_plus. reflexivity.
Qed.

(** the day number and fraction computed, before the conversion to a calendar date *)
Definition split_D (djm : R) (n : Z) (fd : R) : Prop :=
  ddjcl djm = (0%Z, Some (jd2cal_z (n + 2400001), fd)).
Lemma floorZ : forall n : Z, Zfloor (IZR n) = n. Proof. exact Zfloor_IZR. Qed.

Lemma djcl_D_late : forall djm, fmt djm -> 24000005 / 10 < djm -> mjd_ok djm ->
  split_D djm (Zfloor djm) (djm - IZR (Zfloor djm)).
Proof.
  intros djm F H [_ Hr]. unfold split_D, ddjcl, palDjcl, eraJd2cal, MJD0. dn.
  rewrite h5. replace (24000005 / 10) with (IZR 4800001 / 2) in * by lra.
  rewrite (rd_id (IZR 4800001 / 2)) by (apply half_fmt; lia).
  rewrite (rdZ 1), (rdZ 0), (rdZ 1000000000) by (cbn; lia).
  replace (- rd (685695 / 10)) with (- (IZR 137139 / 2)).
  2:{ f_equal. symmetry. replace (685695 / 10) with (IZR 137139 / 2) by lra. apply rd_id, half_fmt. lia. }
  assert (Fl := Zfloor_lb djm). assert (Fu := Zfloor_ub djm).
  rewrite Rltb_false.
  2:{ apply Rle_not_lt. apply rd_ge; [|lra]. apply fmt_opp, half_fmt. lia. }
  rewrite Rltb_false.
  2:{ apply Rle_not_lt. apply rd_le; [|lra]. apply (fmtZ 1000000000). lia. }
  cbn [orb]. rewrite Rleb_false by lra.
  assert (K : (2400000 <= Zfloor djm < 1000000000)%Z).
  { split; [apply Zlt_succ_le, lt_IZR; unfold Z.succ; rewrite plus_IZR; lra|apply lt_IZR; lra]. }
  set (n := Zfloor djm) in *.
  assert (E1 : fmodR djm 1 = djm - IZR n) by (rewrite fmod1, Ztrunc_floor by lra; reflexivity).
  assert (Ff : fmt (djm - IZR n)) by (rewrite <- E1; now apply fmod1_fmt).
  replace (IZR 4800001 / 2 - 1 / 2) with (IZR 2400000) by lra. rewrite (rdZ 2400000) by lia.
  assert (E2 : fmodR (IZR 2400000) 1 = 0) by (rewrite fmod1, Ztrunc_IZR; ring).
  rewrite E1, E2, Rplus_0_r, (rd_id (djm - IZR n)) by easy.
  rewrite (fmodR_small (djm - IZR n)) by (try lra; rewrite Rabs_pos_eq; lra).
  rewrite Rltb_false by lra.
  replace (djm - (djm - IZR n)) with (IZR n) by ring. replace (djm - IZR n - (djm - IZR n)) with (IZR 0) by ring.
  replace (IZR 2400000 - 0) with (IZR 2400000) by ring. rewrite (rdZ n), (rdZ 0), (rdZ 2400000) by lia. rewrite !floorZ.
  rewrite <- plus_IZR, (rdZ (n + 2400000)) by lia. rewrite <- plus_IZR, (rdZ (n + 2400000 + 0)) by lia. rewrite floorZ, Ztrunc_IZR.
  do 3 f_equal. f_equal. lia.
Qed.

Lemma djcl_D_early : forall djm, fmt djm -> djm <= 24000005 / 10 -> mjd_ok djm ->
  exists n fd, split_D djm n fd /\ 0 <= fd < 1 /\ (-2468570 <= n)%Z /\
   (let d2 := rd (djm - 1 / 2) in let k2 := Ztrunc d2 in
    IZR n + fd = IZR k2 + rd (1 / 2 + (d2 - IZR k2))).
Proof.
  intros djm F H [Hr _].
  set (d2 := rd (djm - 1 / 2)). set (k2 := Ztrunc d2). set (f2 := d2 - IZR k2). set (w := rd (1 / 2 + f2)).
  assert (F2 : fmodR d2 1 = f2) by (rewrite fmod1; reflexivity).
  assert (Ff2 : fmt f2) by (rewrite <- F2; apply fmod1_fmt, fmt_rd).
  assert (D2b : IZR (-4937141) / 2 <= d2 <= 2400000).
  { unfold d2. split; [apply rd_ge; [apply (half_fmt (-4937141)); lia|lra]|apply rd_le; [apply (fmtZ 2400000); lia|lra]]. }
  assert (K2b : (-2468571 <= k2 <= 2400000)%Z).
  { unfold k2. split; [rewrite <- (Ztrunc_IZR (-2468571))|rewrite <- (Ztrunc_IZR 2400000)]; apply Ztrunc_le; lra. }
  (* the correction of the fraction *)
  assert (W : exists c f : R, (w < 0 -> f = rd (w + 1) /\ f = w + 1 /\ -1 < w) /\ (0 <= w -> f = fmodR w 1) /\ 0 <= f < 1 /\
     exists z : Z, (-1 <= z <= 1)%Z /\ c = IZR z /\ w - f = c).
  { assert (Fb := fmodR_bound d2 1 ltac:(lra)). rewrite F2 in Fb. apply Rabs_def2 in Fb.
    destruct (Rlt_or_le w 0) as [Wn|Wp].
    - exists (-1), (w + 1).
      assert (G : f2 < - (1 / 2)).
      { destruct (Rlt_or_le f2 (- (1 / 2))) as [|C]; [easy|exfalso]. assert (0 <= w) by (unfold w; apply rd_ge; [apply fmt0|lra]). lra. }
      destruct (grid_half (- f2)) as (j & Ej); [now apply fmt_opp|lra|].
      assert (P53 : bpow radix2 (-53) = / 9007199254740992) by reflexivity. rewrite P53 in Ej.
      assert (J : (4503599627370496 < j < 9007199254740992)%Z) by (split; apply lt_IZR; lra).
      assert (EW : w = 1 / 2 + f2).
      { unfold w. apply rd_id. replace (1 / 2 + f2) with (IZR (4503599627370496 - j) * bpow radix2 (-53)).
        - apply mk_fmt; lia.
        - rewrite minus_IZR, P53. lra. }
      split; [intros _; split; [|split; [reflexivity|rewrite EW; lra]]|split; [lra|split]].
      + symmetry. apply rd_id. rewrite EW. replace (1 / 2 + f2 + 1) with (IZR (4503599627370496 + 9007199254740992 - j) * bpow radix2 (-53)).
        * apply mk_fmt; lia.
        * rewrite minus_IZR, plus_IZR, P53. lra.
      + rewrite EW. lra.
      + exists (-1)%Z. split; [lia|]. split; [reflexivity|ring].
    - assert (Wb : w < 2).
      { apply Rle_lt_trans with (3 / 2); [|lra]. unfold w. apply rd_le; [|lra]. apply (half_fmt 3). lia. }
      exists (IZR (Ztrunc w)), (fmodR w 1). split; [lra|]. split; [easy|].
      assert (S := proj1 (fmodR_sign w 1 ltac:(lra)) Wp). assert (Bw := fmodR_bound w 1 ltac:(lra)). apply Rabs_def2 in Bw.
      split; [lra|]. exists (Ztrunc w). split; [|split; [reflexivity|rewrite fmod1; ring]].
      rewrite Ztrunc_floor by easy. split.
      + apply Z.le_trans with 0%Z; [lia|]. apply Zfloor_lub. easy.
      + apply Zlt_succ_le. apply lt_IZR. assert (Q := Zfloor_lb w). change (IZR (Z.succ 1)) with 2. lra. }
  destruct W as (c & f & Wn & Wp & Wf & z & Zb & Ez & Wc).
  exists (k2 + z)%Z, f. split; [|split; [easy|split; [|cbv zeta; rewrite plus_IZR, <- Ez; change (IZR k2 + c + f = IZR k2 + w); lra]]].
  2:{ destruct (Z.eq_dec k2 (-2468570)) as [E|E].
      - assert (0 <= w). { unfold w. apply rd_ge; [apply fmt0|]. unfold f2. rewrite E. lra. }
        assert (-1 < IZR z) by (rewrite <- Ez; lra). apply (lt_IZR (-1)) in H1. lia.
      - assert (-2468570 <= k2)%Z; [|lia]. apply Zlt_succ_le, lt_IZR. unfold Z.succ. rewrite plus_IZR.
        assert (Fb := fmodR_bound d2 1 ltac:(lra)). rewrite F2 in Fb. apply Rabs_def2 in Fb. unfold f2 in Fb. 
        assert (T := Ztrunc_le (IZR (-4937141) / 2) d2 (proj1 D2b)). fold k2 in T.
        replace (Ztrunc (IZR (-4937141) / 2)) with (-2468570)%Z in T; [apply IZR_le in T; lra|].
        rewrite Ztrunc_ceil by lra. symmetry. apply Zceil_imp. cbn; lra. }
  unfold split_D, ddjcl, palDjcl, eraJd2cal, MJD0. dn. rewrite h5.
  replace (24000005 / 10) with (IZR 4800001 / 2) in * by lra.
  rewrite (rd_id (IZR 4800001 / 2)) by (apply half_fmt; lia).
  rewrite (rdZ 1), (rdZ 0), (rdZ 1000000000) by (cbn; lia).
  replace (- rd (685695 / 10)) with (- (IZR 137139 / 2)).
  2:{ f_equal. symmetry. replace (685695 / 10) with (IZR 137139 / 2) by lra. apply rd_id, half_fmt. lia. }
  rewrite Rltb_false.
  2:{ apply Rle_not_lt. apply rd_ge; [|lra]. apply fmt_opp, half_fmt. lia. }
  rewrite Rltb_false.
  2:{ apply Rle_not_lt. apply rd_le; [|lra]. apply (fmtZ 1000000000). lia. }
  cbn [orb]. rewrite Rleb_true by lra. fold d2.
  assert (E1 : fmodR (IZR 4800001 / 2) 1 = 1 / 2).
  { rewrite fmod1, Ztrunc_floor by lra. replace (Zfloor (IZR 4800001 / 2)) with 2400000%Z; [lra|]. symmetry. apply Zfloor_imp. cbn; lra. }
  rewrite E1, F2. fold w.
  assert (EF : (if Rltb (fmodR w 1) 0 then rd (fmodR w 1 + 1) else fmodR w 1) = f).
  { destruct (Rlt_or_le w 0) as [A|A].
    - destruct (Wn A) as (E & E' & E''). rewrite fmodR_small by (try lra; rewrite Rabs_left; lra). rewrite Rltb_true by easy. easy.
    - rewrite <- (Wp A). rewrite Rltb_false by lra. reflexivity. }
  rewrite EF. rewrite Wc, Ez, (rdZ z) by lia. rewrite floorZ.
  replace (IZR 4800001 / 2 - 1 / 2) with (IZR 2400000) by lra. rewrite (rdZ 2400000) by lia. rewrite floorZ.
  replace (d2 - f2) with (IZR k2) by (unfold f2; ring). rewrite (rdZ k2) by lia. rewrite floorZ.
  rewrite <- plus_IZR, (rdZ (2400000 + k2)) by lia. rewrite <- plus_IZR, (rdZ (2400000 + k2 + z)) by lia. rewrite floorZ, Ztrunc_IZR.
  do 3 f_equal. f_equal. lia.
Qed.

Lemma split_fmt : forall djm n fd, split_D djm n fd -> (-2468570 <= n)%Z -> ddjcl djm = (0%Z, Some (cald (n + 2400001), fd)).
Proof. intros djm n fd H Hn. rewrite H. rewrite jd2cal_z_cald by lia. reflexivity. Qed.

Lemma djcl_D_main : forall djm, fmt djm -> mjd_ok djm ->
  exists n fd, ddjcl djm = (0%Z, Some (cald (n + 2400001), fd)) /\ 0 <= fd < 1 /\
    Rabs (IZR n + fd - djm) <= u53 * (Rabs djm + 3) /\
    (1 <= djm \/ (exists k, djm = IZR k) -> IZR n + fd = djm).
Proof.
  intros djm F Hr. assert (U : 0 < u53) by (unfold u53; lra).
    destruct (Rlt_or_le (24000005 / 10) djm) as [Hl|He].
    - exists (Zfloor djm), (djm - IZR (Zfloor djm)). assert (A := Zfloor_lb djm). assert (B := Zfloor_ub djm).
      split; [|split; [lra|split]].
      + apply split_fmt; [now apply djcl_D_late|]. assert (0 <= Zfloor djm)%Z; [|lia]. apply Zfloor_lub. lra.
      + replace (IZR (Zfloor djm) + (djm - IZR (Zfloor djm)) - djm) with 0 by ring. rewrite Rabs_R0. assert (C := Rabs_pos djm). nra.
      + intros _. ring.
    - destruct (djcl_D_early djm F He Hr) as (n & fd & S & Bf & Bn & E). cbv zeta in E.
      exists n, fd. split; [now apply split_fmt|]. split; [easy|].
      set (d2 := rd (djm - 1 / 2)) in *. set (k2 := Ztrunc d2) in *.
      assert (Bd := fmodR_bound d2 1 ltac:(lra)). rewrite fmod1 in Bd. fold k2 in Bd.
      split.
      + rewrite E.
        assert (A : Rabs (d2 - (djm - 1 / 2)) <= u53 * (Rabs djm + 1)).
        { destruct (Req_dec (djm - 1 / 2) 0) as [Z0|NZ].
          - unfold d2. rewrite Z0, rd_0, Rminus_eq_0, Rabs_R0. assert (C := Rabs_pos djm). nra.
          - eapply Rle_trans; [apply rd_err|]. assert (C := Rabs_triang djm (- (1 / 2))). rewrite Rabs_Ropp, (Rabs_pos_eq (1 / 2)) in C by lra.
            fold (djm - 1 / 2) in C. assert (G : bpow radix2 (-1075) <= u53 * (1 / 2)).
            { rewrite u53_bpow. change (1 / 2) with (1 * / 2). rewrite Rmult_1_l. change (/ 2) with (bpow radix2 (-1)).
              rewrite <- bpow_plus. apply bpow_le. lia. }
            nra. }
        assert (B : Rabs (rd (1 / 2 + (d2 - IZR k2)) - (1 / 2 + (d2 - IZR k2))) <= u53).
        { rewrite u53_bpow. change (-53)%Z with (1 - 54)%Z. apply rd_abs_err; [lia|]. change (bpow radix2 1) with 2.
          apply Rabs_def2 in Bd. apply Rabs_le. lra. }
        apply Rabs_le_inv in A. apply Rabs_le_inv in B. apply Rabs_le. lra.
      + intros Hc. rewrite E.
        assert (X : exists m e : Z, (-52 <= e <= -1)%Z /\ (Z.abs m <= 2 ^ 53)%Z /\ djm = IZR m * bpow radix2 e /\ (0 <= m \/ e = -1)%Z).
        { destruct Hc as [Hc|[k Hc]].
          - destruct (grid_big djm F) as (m & e & He' & Hm & Ee); [lra|]. exists m, e. repeat split; try lia. exact Ee.
          - exists (2 * k)%Z, (-1)%Z. split; [lia|]. destruct Hr as [Hr _]. rewrite Hc in Hr, He.
            assert (-2468571 < k < 2400001)%Z by (split; apply lt_IZR; lra).
            split; [lia|]. split; [|lia]. rewrite Hc, mult_IZR. change (bpow radix2 (-1)) with (/ 2). lra. }
        destruct X as (m & e & Be & Bm & Em & Sg).
        assert (Half : 1 / 2 = IZR (2 ^ (-1 - e)) * bpow radix2 e).
        { change (2 ^ (-1 - e))%Z with (radix_val radix2 ^ (-1 - e))%Z. rewrite IZR_Zpower by lia. rewrite <- bpow_plus. replace (-1 - e + e)%Z with (-1)%Z by ring.
          change (bpow radix2 (-1)) with (/ 2). lra. }
        assert (P0 : (1 <= 2 ^ (-1 - e) <= 2 ^ 51)%Z).
        { split; [apply (Z.pow_le_mono_r 2 0); lia|apply Z.pow_le_mono_r; lia]. }
        assert (E2 : d2 = djm - 1 / 2).
        { unfold d2. apply rd_id. rewrite Em, Half. replace (IZR m * bpow radix2 e - IZR (2 ^ (-1 - e)) * bpow radix2 e) with (IZR (m - 2 ^ (-1 - e)) * bpow radix2 e) by (rewrite minus_IZR; ring).
          apply mk_fmt; [|lia]. destruct Sg as [Sg| ->]; [lia|]. change (2 ^ (-1 - -1))%Z with 1%Z.
          destruct Hr as [Hr _]. rewrite Em in Hr, He. change (bpow radix2 (-1)) with (/ 2) in *.
          assert (-4937143 < m < 4800002)%Z by (split; apply lt_IZR; lra). lia. }
        assert (E3 : rd (1 / 2 + (d2 - IZR k2)) = 1 / 2 + (d2 - IZR k2)); [|rewrite E3, E2; ring].
        apply rd_id.
        assert (K : IZR k2 = IZR (k2 * 2 ^ (- e)) * bpow radix2 e).
        { rewrite mult_IZR. change (2 ^ (- e))%Z with (radix_val radix2 ^ (- e))%Z. rewrite IZR_Zpower by lia. rewrite Rmult_assoc, <- bpow_plus.
          replace (- e + e)%Z with 0%Z by ring. change (bpow radix2 0) with 1. ring. }
        rewrite E2 in *. rewrite K, Em in *.
        replace (1 / 2 + (IZR m * bpow radix2 e - 1 / 2 - IZR (k2 * 2 ^ (- e)) * bpow radix2 e)) with (IZR (m - k2 * 2 ^ (- e)) * bpow radix2 e)
          by (rewrite minus_IZR; ring).
        apply mk_fmt; [|lia].
        assert (Q : Rabs (IZR (m - k2 * 2 ^ (- e)) * bpow radix2 e) < 2).
        { replace (IZR (m - k2 * 2 ^ (- e)) * bpow radix2 e) with (1 / 2 + (IZR m * bpow radix2 e - 1 / 2 - IZR (k2 * 2 ^ (- e)) * bpow radix2 e))
            by (rewrite minus_IZR; ring). apply Rabs_def2 in Bd. apply Rabs_def1; lra. }
        rewrite Rabs_mult, (Rabs_pos_eq (bpow radix2 e)), <- abs_IZR in Q by apply bpow_ge_0.
        assert (Q2 : IZR (Z.abs (m - k2 * 2 ^ (- e))) < IZR (2 ^ (1 - e))).
        { change (2 ^ (1 - e))%Z with (radix_val radix2 ^ (1 - e))%Z. rewrite IZR_Zpower by lia. apply Rmult_lt_reg_r with (bpow radix2 e); [apply bpow_gt_0|].
          rewrite <- bpow_plus. replace (1 - e + e)%Z with 1%Z by ring. exact Q. }
        apply lt_IZR in Q2. assert (2 ^ (1 - e) <= 2 ^ 53)%Z by (apply Z.pow_le_mono_r; lia). lia.
Qed.
(** C83: palDjcl in double arithmetic.  For every double MJD in the accepted range the result is a valid calendar date and a
    fraction in [0,1); the date's own MJD [n] (by palCldj) plus the fraction is the argument to one part in 2^53 - and exactly,
    if the MJD is at least 1 (from 1858 November 18 on) or a whole number. *)
Theorem C83_palDjcl : forall djm, is_double djm -> mjd_ok djm ->
  exists y m d fd n, ddjcl djm = (0%Z, Some ((y, m, d), fd)) /\ valid (y, m, d) /\ 0 <= fd < 1 /\
    ((-4799 <= y)%Z -> palCldj y m d = (0%Z, Some n)) /\
    Rabs (IZR n + fd - djm) <= u53 * (Rabs djm + 3) /\
    (1 <= djm \/ (exists k, djm = IZR k) -> n = Zfloor djm /\ fd = djm - IZR n).
Proof.
  intros djm HD Hr. assert (F := double_fmt djm HD).
  assert (Main := djcl_D_main djm F Hr).
  destruct Main as (n & fd & E & Bf & Ne & Ex).
  destruct (cald_valid n) as [V N]. destruct (cald (n + 2400001)) as [[y m] d].
  exists y, m, d, fd, n. split; [easy|]. split; [easy|]. split; [easy|]. split; [|split; [easy|]].
  - intros Hy. unfold palCldj. rewrite cal2jd_spec. destruct V as [V1 V2].
    destruct (Z.ltb_spec y (-4799)); [lia|]. destruct (Z.ltb_spec m 1); [lia|]. destruct (Z.ltb_spec 12 m); [lia|].
    destruct (Z.ltb_spec d 1); [lia|]. destruct (Z.ltb_spec (mlen y m) d); [lia|]. now rewrite N.
  - intros Hc. specialize (Ex Hc). assert (Ef : n = Zfloor djm) by (symmetry; apply Zfloor_uniq; lra). split; [easy|lra].
Qed.
(** the calendar date of a whole MJD, there and back *)
Theorem C83_roundtrip : forall y m d n, palCldj y m d = (0%Z, Some n) -> mjd_ok (IZR n) ->
  ddjcl (IZR n) = (0%Z, Some ((y, m, d), 0)).
Proof.
  intros y m d n H Hr. unfold palCldj in H. rewrite cal2jd_spec in H.
  destruct (Z.ltb_spec y (-4799)); [easy|]. destruct (Z.ltb_spec m 1); [easy|]. destruct (Z.ltb_spec 12 m); [easy|].
  destruct (Z.ltb_spec d 1); [easy|]. destruct (Z.ltb_spec (mlen y m) d); [easy|]. cbn [orb] in H.
  assert (E : dnum y m d = n) by congruence. clear H.
  assert (Bn : (-2468571 < n < 1000000000)%Z) by (unfold mjd_ok in Hr; split; apply lt_IZR; lra).
  assert (HD : is_double (IZR n)).
  { split; [apply FLT_format_generic; [typeclasses eauto|apply fmtZ; lia]|]. rewrite <- abs_IZR.
    apply Rlt_trans with (IZR (2 ^ 40)); [apply IZR_lt; lia|]. change (IZR (2 ^ 40)) with (bpow radix2 40). apply bpow_lt. lia. }
  destruct (djcl_D_main (IZR n) (double_fmt _ HD) Hr) as (k & fd & R1 & Bf & _ & Ex).
  specialize (Ex ltac:(right; now exists n)).
  assert (Ek : k = n) by (rewrite <- (floorZ n); symmetry; apply Zfloor_uniq; lra). subst k. rewrite R1.
  assert (Ef' : fd = 0) by lra. rewrite Ef', <- E, cycle_inv by (cbn; lia). reflexivity.
Qed.
(** Non-vacuity: J2000.0, 2000 January 1 noon *)
Example C83_eg : is_double (103089 / 2) /\ mjd_ok (103089 / 2) /\ ddjcl (103089 / 2) = (0%Z, Some ((2000, 1, 1)%Z, 1 / 2)).
Proof.
  assert (HD : is_double (103089 / 2)).
  { split; [apply FLT_format_generic; [typeclasses eauto|apply half_fmt; lia]|]. rewrite Rabs_pos_eq by lra.
    apply Rlt_trans with (IZR (2 ^ 40)); [cbn; lra|]. change (IZR (2 ^ 40)) with (bpow radix2 40). apply bpow_lt. lia. }
  assert (Hr : mjd_ok (103089 / 2)) by (unfold mjd_ok; lra).
  split; [easy|split; [easy|]].
  destruct (djcl_D_main _ (double_fmt _ HD) Hr) as (k & fd & R1 & Bf & _ & Ex). specialize (Ex ltac:(left; lra)).
  assert (Ek : k = 51544%Z).
  { assert (A : -1 < IZR (k - 51544) < 1) by (rewrite minus_IZR; lra). destruct A as [A B]. apply (lt_IZR (-1)) in A. apply (lt_IZR _ 1) in B. lia. }
  subst k. rewrite R1. replace fd with (1 / 2) by lra. reflexivity.
Qed.
End D.
