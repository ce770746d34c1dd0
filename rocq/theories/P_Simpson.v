(** * palRefro's quadrature loop is composite Simpson's rule. *)
From Coq Require Import Reals ZArith Lra Lia Psatz Bool.
From Verif Require Import Num NumR Geom M_Sphere M_Refr P_Refr.
Local Open Scope R_scope.

(** sum of f(i), f(i+1), ..., f(i+cnt-1) *)
Fixpoint sumz (i : Z) (cnt : nat) (f : Z -> R) : R :=
  match cnt with O => 0 | S c => f i + sumz (i + 1) c f end.
(** composite Simpson's rule on [is] strips of total width [zr], end values [fb], [ff] and
    interior values [s 1 .. s (is-1)]: weights 1 4 2 4 ... 2 4 1 times width/3 *)
Definition simpson (zr fb ff : R) (is : Z) (s : Z -> R) : R :=
  zr / IZR is / 3 * (fb + sumz 1 (Z.to_nat (is - 1)) (fun j => (if Z.odd j then 4 else 2) * s j) + ff).

(** one Newton step for the level r at which r n(r) = w; [lay r] = (n, r dn/dr) *)
Definition nstep (lay : R -> R * R) (w r : R) : R := r - (r * fst (lay r) - w) / (fst (lay r) + snd (lay r)).
Fixpoint niter (lay : R -> R * R) (w : R) (j : nat) (r : R) : R :=
  match j with O => r | S j' => niter lay w j' (nstep lay w r) end.
Lemma niter_S : forall lay w j r, niter lay w (S j) r = nstep lay w (niter lay w j r).
Proof. induction j; intros; cbn in *; [easy|apply IHj]. Qed.
(** [sampled lay k z v]: v is the integrand (r dn/dr)/(n + r dn/dr) at a level r which, unless
    sin z is tiny, comes from 1 to 4 Newton steps towards r n(r) sin z = k, stopping early only
    when the last step moved by at most a metre *)
Definition sampled (lay : R -> R * R) (k z v : R) : Prop :=
  exists r, v = snd (lay r) / (fst (lay r) + snd (lay r)) /\
    (1 / 10 ^ 20 < sinR z -> exists g j, (1 <= j <= 4)%nat /\ r = niter lay (k / sinR z) j g /\
      ((j < 4)%nat -> Rabs (niter lay (k / sinR z) (j - 1) g - r) <= 1)).

Lemma rf_find_iter : forall left lay w rg dr, exists j, (j <= left)%nat /\
  rf_find lay w rg dr left = niter lay w j rg /\
  (1 < Rabs dr -> (0 < left)%nat -> (1 <= j)%nat) /\
  ((j < left)%nat -> (j = 0%nat /\ Rabs dr <= 1) \/ ((1 <= j)%nat /\ Rabs (niter lay w (j - 1) rg - niter lay w j rg) <= 1)).
Proof.
  induction left as [|left IH]; intros lay w rg dr.
  - exists 0%nat. repeat split; try easy; lia.
  - cbn [rf_find]. rops. replace (litR 1.0) with 1 by (rlit; lra). destruct (Rltb_spec 1 (Rabs dr)) as [H|H].
    + assert (E : exists d, lay rg = (fst (lay rg), snd (lay rg)) /\ d = (rg * fst (lay rg) - w) / (fst (lay rg) + snd (lay rg))).
      { exists ((rg * fst (lay rg) - w) / (fst (lay rg) + snd (lay rg))). split; [apply surjective_pairing|easy]. }
      destruct E as (d & E & Ed). rewrite E. rewrite <- Ed.
      destruct (IH lay w (rg - d) d) as (j & J1 & J2 & J3 & J4).
      assert (N : nstep lay w rg = rg - d) by (unfold nstep; now rewrite Ed).
      exists (S j). split; [lia|]. split; [cbn [niter]; now rewrite N|]. split; [lia|].
      intros L. right. split; [lia|]. specialize (J4 ltac:(lia)). cbn [Nat.sub]. rewrite Nat.sub_0_r.
      destruct J4 as [[-> J4]|[J4 J5]].
      * cbn [niter]. rewrite N. replace (rg - (rg - d)) with d by ring. exact J4.
      * cbn [niter]. rewrite N. destruct j; [lia|]. cbn [Nat.sub] in J5. rewrite Nat.sub_0_r in J5.
        cbn [niter]. rewrite N. exact J5.
    + exists 0%nat. split; [lia|]. split; [easy|]. split; [lra|]. intros _. left. split; [easy|lra].
Qed.
Lemma body_sampled : forall lay k z r,
  let r' := if Rltb (1 / 10 ^ 20) (sinR z) then rf_find lay (k / sinR z) r 1000000 4 else r in
  sampled lay k z (refi (fst (lay r')) (snd (lay r'))).
Proof.
  intros lay k z r r'. exists r'. split; [reflexivity|].
  intros H. unfold r'. rewrite Rltb_true by easy.
  destruct (rf_find_iter 4 lay (k / sinR z) r 1000000) as (j & J1 & J2 & J3 & J4).
  assert (A : Rabs 1000000 = 1000000) by (apply Rabs_pos_eq; lra). rewrite A in *.
  specialize (J3 ltac:(lra) ltac:(lia)).
  exists r, j. split; [lia|]. split; [exact J2|]. intros L. rewrite J2.
  destruct (J4 L) as [[-> ?]|[_ J5]]; [lia|exact J5].
Qed.

Lemma sumz_ext : forall cnt i f g, (forall j, (i <= j < i + Z.of_nat cnt)%Z -> f j = g j) -> sumz i cnt f = sumz i cnt g.
Proof. induction cnt; intros i f g H; cbn; [easy|]. rewrite (H i) by lia. f_equal. apply IHcnt. intros; apply H; lia. Qed.
Lemma sumz_plus : forall cnt i f g, sumz i cnt f + sumz i cnt g = sumz i cnt (fun j => f j + g j).
Proof. induction cnt; intros; cbn; [lra|]. rewrite <- IHcnt. lra. Qed.
Lemma sumz_scale : forall cnt i k f, k * sumz i cnt f = sumz i cnt (fun j => k * f j).
Proof. induction cnt; intros; cbn; [lra|]. rewrite <- IHcnt. lra. Qed.

Definition odds (s : Z -> R) (j : Z) := if Z.odd j then s j else 0.
Definition evens (s : Z -> R) (j : Z) := if Z.odd j then 0 else s j.
Lemma odds_evens : forall cnt i s, sumz i cnt (odds s) + sumz i cnt (evens s) = sumz i cnt s.
Proof. intros. rewrite sumz_plus. apply sumz_ext. intros. unfold odds, evens. destruct (Z.odd j); lra. Qed.

Lemma mod2_odd : forall i, (i mod 2 =? 0)%Z = negb (Z.odd i).
Proof. intros. rewrite Zmod_odd. destruct (Z.odd i); reflexivity. Qed.

Section Pass.
  Variables (lay : R -> R * R) (k z0 h : R) (is : Z).
  Lemma pass_step : forall fuel n i r fo fe, (i < is)%Z ->
    exists v r', sampled lay k (z0 + h * IZR i) v /\
      rf_pass (S fuel) lay k z0 h is n i r fo fe =
      if ((n =? 1)%Z && negb (Z.odd i))%bool then rf_pass fuel lay k z0 h is n (i + n) r' fo (fe + v)
      else rf_pass fuel lay k z0 h is n (i + n) r' (fo + v) fe.
  Proof.
    intros fuel n i r fo fe H. cbn [rf_pass]. destruct (Z.ltb_spec i is); [|lia]. rewrite mod2_odd.
    assert (B := body_sampled lay k (z0 + h * IZR i) r). cbv zeta in B.
    replace (@lit R RA 1e-20) with (1 / 10 ^ 20) by (rn; lra).
    replace (@lit R RA 1.0e6) with 1000000 by (rn; lra).
    change (@ltb R RA) with Rltb. change (@sin R RA) with sinR. change (@mul R RA) with Rmult. change (@add R RA) with Rplus.
    change (@ofZ R RA) with IZR. change (@div R RA) with Rdiv.
    set (r' := if Rltb _ _ then _ else r) in *. exists (refi (fst (lay r')) (snd (lay r'))), r'.
    split; [exact B|]. rewrite (surjective_pairing (lay r')). reflexivity.
  Qed.
  Lemma pass1 : forall fuel i r fo fe r' fo' fe', (1 <= i)%Z ->
    rf_pass fuel lay k z0 h is 1 i r fo fe = Some (r', fo', fe') ->
    exists s, (forall j, (i <= j < is)%Z -> sampled lay k (z0 + h * IZR j) (s j)) /\
      fo' = fo + sumz i (Z.to_nat (is - i)) (odds s) /\ fe' = fe + sumz i (Z.to_nat (is - i)) (evens s).
  Proof.
    induction fuel as [|fuel IH]; intros i r fo fe r' fo' fe' Hi H; [discriminate|].
    destruct (Z_lt_le_dec i is) as [L|L].
    - destruct (pass_step fuel 1 i r fo fe L) as (v & r1 & S1 & E). rewrite E in H. cbn [Z.eqb Pos.eqb andb] in H.
      replace (Z.to_nat (is - i)) with (S (Z.to_nat (is - (i + 1)))) by lia. cbn [sumz].
      assert (Hi' : (1 <= i + 1)%Z) by lia.
      destruct (Z.odd i) eqn:O; cbn [negb] in H; destruct (IH _ _ _ _ _ _ _ Hi' H) as (s & A & B & C);
      exists (fun j => if (j =? i)%Z then v else s j); (split; [|split]).
      1, 4: (intros j Hj; destruct (Z.eqb_spec j i) as [->|]; [exact S1|apply A; lia]).
      all: (unfold odds at 1 || unfold evens at 1); rewrite ?O, ?Z.eqb_refl.
      + rewrite B. rewrite (sumz_ext _ (i + 1) (odds (fun j => if (j =? i)%Z then v else s j)) (odds s)); [lra|].
        intros j Hj. unfold odds. destruct (Z.eqb_spec j i); [lia|easy].
      + rewrite C. rewrite (sumz_ext _ (i + 1) (evens (fun j => if (j =? i)%Z then v else s j)) (evens s)); [lra|].
        intros j Hj. unfold evens. destruct (Z.eqb_spec j i); [lia|easy].
      + rewrite B. rewrite (sumz_ext _ (i + 1) (odds (fun j => if (j =? i)%Z then v else s j)) (odds s)); [lra|].
        intros j Hj. unfold odds. destruct (Z.eqb_spec j i); [lia|easy].
      + rewrite C. rewrite (sumz_ext _ (i + 1) (evens (fun j => if (j =? i)%Z then v else s j)) (evens s)); [lra|].
        intros j Hj. unfold evens. destruct (Z.eqb_spec j i); [lia|easy].
    - cbn [rf_pass] in H. destruct (Z.ltb_spec i is); [lia|]. injection H as <- <- <-.
      exists (fun _ => 0). replace (Z.to_nat (is - i)) with 0%nat by lia. cbn. repeat split; try lra. intros; lia.
  Qed.
  Lemma pass2 : forall fuel i r fo fe r' fo' fe', (1 <= i)%Z -> Z.odd i = true -> Z.odd is = false ->
    rf_pass fuel lay k z0 h is 2 i r fo fe = Some (r', fo', fe') ->
    exists s, (forall j, (i <= j < is)%Z -> Z.odd j = true -> sampled lay k (z0 + h * IZR j) (s j)) /\
      fo' = fo + sumz i (Z.to_nat (is - i)) (odds s) /\ fe' = fe.
  Proof.
    induction fuel as [|fuel IH]; intros i r fo fe r' fo' fe' Hi Oi Ois H; [discriminate|].
    destruct (Z_lt_le_dec i is) as [L|L].
    - destruct (pass_step fuel 2 i r fo fe L) as (v & r1 & S1 & E). rewrite E in H. cbn [Z.eqb Pos.eqb andb] in H.
      assert (O2 : Z.odd (i + 2) = true) by (rewrite Z.odd_add, Oi; reflexivity).
      assert (O1 : Z.odd (i + 1) = false) by (rewrite Z.odd_add, Oi; reflexivity).
      assert (Hi' : (1 <= i + 2)%Z) by lia.
      destruct (IH _ _ _ _ _ _ _ Hi' O2 Ois H) as (s & A & B & C).
      exists (fun j => if (j =? i)%Z then v else s j). split; [|split; [|exact C]].
      { intros j Hj Oj; destruct (Z.eqb_spec j i) as [->|]; [exact S1|].
        destruct (Z.eq_dec j (i + 1)) as [->|]; [rewrite O1 in Oj; discriminate|]. apply A; [lia|easy]. }
      replace (Z.to_nat (is - i)) with (S (Z.to_nat (is - (i + 1)))) by lia. cbn [sumz].
      unfold odds at 1. rewrite Oi, Z.eqb_refl.
      destruct (Z.eq_dec (i + 1) is) as [D|D].
      + replace (Z.to_nat (is - (i + 1))) with 0%nat by lia. cbn [sumz].
        replace (Z.to_nat (is - (i + 2))) with 0%nat in B by lia. cbn [sumz] in B. lra.
      + replace (Z.to_nat (is - (i + 1))) with (S (Z.to_nat (is - (i + 2)))) by lia. cbn [sumz].
        unfold odds at 1. rewrite O1. replace (i + 1 + 1)%Z with (i + 2)%Z by lia.
        rewrite (sumz_ext _ (i + 2) (odds (fun j => if (j =? i)%Z then v else s j)) (odds s)); [lra|].
        intros j Hj. unfold odds. destruct (Z.eqb_spec j i); [lia|easy].
    - cbn [rf_pass] in H. destruct (Z.ltb_spec i is); [lia|]. injection H as <- <- <-.
      exists (fun _ => 0). replace (Z.to_nat (is - i)) with 0%nat by lia. cbn. repeat split; try lra. intros; lia.
  Qed.
End Pass.
(** doubling the grid: all points of the old grid are the even points of the new one *)
Lemma double : forall cnt i s, (1 <= i)%Z ->
  sumz i cnt s = sumz (2 * i - 1) (2 * cnt) (evens (fun j => s (j / 2)%Z)).
Proof.
  induction cnt; intros i s Hi; [reflexivity|].
  replace (2 * S cnt)%nat with (S (S (2 * cnt))) by lia. cbn [sumz].
  replace (2 * i - 1 + 1)%Z with (2 * i)%Z by lia.
  unfold evens at 1 2. replace (Z.odd (2 * i - 1)) with true.
  2: { rewrite Z.odd_sub, Z.odd_mul. reflexivity. }
  rewrite Z.odd_mul. cbn [Z.odd andb]. rewrite Z.mul_comm, Z.div_mul by lia.
  rewrite (IHcnt (i + 1)%Z s) by lia. replace (2 * (i + 1) - 1)%Z with (i * 2 + 1)%Z by lia. lra.
Qed.
Lemma sumz_last : forall cnt i f, sumz i (S cnt) f = sumz i cnt f + f (i + Z.of_nat cnt)%Z.
Proof.
  induction cnt; intros i f; [cbn; rewrite Z.add_0_r; lra|].
  change (sumz i (S (S cnt)) f) with (f i + sumz (i + 1) (S cnt) f). rewrite IHcnt. cbn [sumz].
  replace (i + Z.of_nat (S cnt))%Z with (i + 1 + Z.of_nat cnt)%Z by lia. lra.
Qed.

(** what the loop returns *)
Definition simpson_result (lay : R -> R * R) (k z0 zr fb ff tol : R) (v : R) : Prop :=
  exists j s, (0 <= j <= 11)%Z /\ let is := (8 * 2 ^ j)%Z in
    (forall i, (1 <= i < is)%Z -> sampled lay k (z0 + zr / IZR is * IZR i) (s i)) /\
    v = simpson zr fb ff is s /\
    (j = 11%Z \/ (j = 0%Z /\ Rabs (v - 1) <= tol) \/
     ((1 <= j)%Z /\ Rabs (v - simpson zr fb ff (is / 2) (fun i => s (2 * i)%Z)) <= tol)).

Lemma simpson_val : forall zr fb ff is s fo fe, (1 <= is)%Z ->
  fo = sumz 1 (Z.to_nat (is - 1)) (odds s) -> fe = sumz 1 (Z.to_nat (is - 1)) (evens s) ->
  zr / IZR is * (fb + 4 * fo + 2 * fe + ff) / 3 = simpson zr fb ff is s.
Proof.
  intros zr fb ff is s fo fe His -> ->. unfold simpson.
  rewrite (sumz_ext _ 1 (fun j => (if Z.odd j then 4 else 2) * s j) (fun j => 4 * odds s j + 2 * evens s j)).
  2: { intros j _. unfold odds, evens. destruct (Z.odd j); lra. }
  rewrite <- sumz_plus, <- !sumz_scale. lra.
Qed.

Lemma loop_simpson : forall fuel pf lay k z0 zr fb ff r0 tol j n fe ro v,
  (0 <= j <= 11)%Z ->
  ((j = 0%Z /\ n = 1%Z /\ fe = 0 /\ ro = 1) \/
   ((1 <= j)%Z /\ n = 2%Z /\ exists s, let is := (8 * 2 ^ (j - 1))%Z in
     (forall i, (1 <= i < is)%Z -> sampled lay k (z0 + zr / IZR is * IZR i) (s i)) /\
     fe = sumz 1 (Z.to_nat (is - 1)) s /\ ro = simpson zr fb ff is s)) ->
  rf_loop fuel pf lay k z0 zr fb ff r0 tol (8 * 2 ^ j) n 0 fe ro = Some v ->
  simpson_result lay k z0 zr fb ff tol v.
Proof.
  induction fuel as [|fuel IH]; intros pf lay k z0 zr fb ff r0 tol j n fe ro v Hj I H; [discriminate|].
  cbn [rf_loop] in H. change (@ofZ R RA) with IZR in H. change (@div R RA) with Rdiv in H.
  set (is := (8 * 2 ^ j)%Z) in *.
  assert (His : (8 <= is)%Z). { unfold is. assert (0 < 2 ^ j)%Z by (apply Z.pow_pos_nonneg; lia). lia. }
  destruct (rf_pass pf lay k z0 (zr / IZR is) is n 1 r0 0 fe) as [[[r fo'] fe']|] eqn:P; [|discriminate].
  (* the samples on the current grid *)
  assert (G : exists s, (forall i, (1 <= i < is)%Z -> sampled lay k (z0 + zr / IZR is * IZR i) (s i)) /\
    fo' = sumz 1 (Z.to_nat (is - 1)) (odds s) /\ fe' = sumz 1 (Z.to_nat (is - 1)) (evens s) /\
    ((j = 0%Z /\ ro = 1) \/ ((1 <= j)%Z /\ ro = simpson zr fb ff (is / 2) (fun i => s (2 * i)%Z)))).
  { destruct I as [(-> & -> & -> & ->)|(J1 & -> & s0 & I)].
    - destruct (pass1 _ _ _ _ _ _ _ _ _ _ _ _ _ (Z.le_refl 1) P) as (s & A & B & C).
      exists s. split; [exact A|]. split; [lra|]. split; [lra|]. left. easy.
    - cbv zeta in I. set (is0 := (8 * 2 ^ (j - 1))%Z) in *.
      assert (E2 : is = (2 * is0)%Z).
      { unfold is, is0. replace j with (Z.succ (j - 1)) at 1 by lia. rewrite Z.pow_succ_r by lia. lia. }
      assert (H0 : (8 <= is0)%Z). { unfold is0. assert (0 < 2 ^ (j - 1))%Z by (apply Z.pow_pos_nonneg; lia). lia. }
      destruct I as (A0 & -> & ->).
      assert (Oi : Z.odd is = false) by (rewrite E2, Z.odd_mul; reflexivity).
      destruct (pass2 _ _ _ _ _ _ _ _ _ _ _ _ _ (Z.le_refl 1) eq_refl Oi P) as (s & A & B & C).
      exists (fun i => if Z.odd i then s i else s0 (i / 2)%Z). split; [|split; [|split; [|right; split; [lia|]]]].
      + intros i Hi. destruct (Z.odd i) eqn:O; [apply A; easy|].
        assert (Ei : i = (2 * (i / 2))%Z).
        { rewrite (Z.div_mod i 2) at 1 by lia. rewrite Zmod_odd, O. lia. }
        replace (z0 + zr / IZR is * IZR i) with (z0 + zr / IZR is0 * IZR (i / 2)); [apply A0; lia|].
        rewrite E2. rewrite Ei at 2. rewrite !mult_IZR. field. apply not_0_IZR. lia.
      + rewrite B, Rplus_0_l. apply sumz_ext. intros i _. unfold odds. destruct (Z.odd i); easy.
      + rewrite C. rewrite (double _ 1 s0) by lia. cbn [Z.mul Z.sub Z.add Z.opp Pos.mul Z.pos_sub Pos.pred_double].
        change (2 - 1)%Z with 1%Z.
        replace (Z.to_nat (is - 1)) with (S (2 * Z.to_nat (is0 - 1))) by lia. rewrite sumz_last.
        assert (Q : evens (fun i => if Z.odd i then s i else s0 (i / 2)%Z) (1 + Z.of_nat (2 * Z.to_nat (is0 - 1))) = 0).
        { unfold evens. replace (1 + Z.of_nat (2 * Z.to_nat (is0 - 1)))%Z with (1 + 2 * (is0 - 1))%Z by lia.
          rewrite Z.odd_add, Z.odd_mul. reflexivity. }
        rewrite Q, Rplus_0_r. apply sumz_ext. intros i _. unfold evens. destruct (Z.odd i); easy.
      + rewrite E2, Z.mul_comm, Z.div_mul by lia. unfold simpson. do 3 f_equal.
        apply sumz_ext. intros i _. rewrite Z.odd_mul. cbn [Z.odd andb]. rewrite Z.mul_comm, Z.div_mul by lia. reflexivity. }
  destruct G as (s & A & B & C & D).
  replace (@lit R RA 4.0) with 4 in H by (rn; lra). replace (@lit R RA 2.0) with 2 in H by (rn; lra).
  replace (@lit R RA 3.0) with 3 in H by (rn; lra). replace (@lit R RA 0.0) with 0 in H by (rn; lra).
  change (@mul R RA) with Rmult in H. change (@add R RA) with Rplus in H. change (@sub R RA) with Rminus in H.
  change (@fabs R RA) with Rabs in H. change (@ltb R RA) with Rltb in H.
  rewrite (simpson_val zr fb ff is s fo' fe' ltac:(lia) B C) in H.
  destruct (Rltb_spec tol (Rabs (simpson zr fb ff is s - ro))) as [L|L]; cbn [andb] in H.
  - unfold rfISMAX in H. destruct (Z.ltb_spec is 16384) as [M|M].
    + assert (J10 : (j <= 10)%Z).
      { destruct (Z_le_gt_dec j 10); [easy|]. assert (j = 11)%Z by lia. subst j. unfold is in M. cbv in M. discriminate. }
      assert (E3 : (is + is)%Z = (8 * 2 ^ (j + 1))%Z).
      { unfold is. replace (j + 1)%Z with (Z.succ j) by lia. rewrite Z.pow_succ_r by lia. lia. }
      rewrite E3 in H. eapply IH; [|right|exact H]; [lia|]. split; [lia|]. split; [easy|].
      exists s. replace (j + 1 - 1)%Z with j by lia. cbv zeta. fold is. split; [exact A|]. split; [|easy].
      rewrite B, C, Rplus_comm. apply odds_evens.
    + injection H as <-. exists j, s. split; [easy|]. cbv zeta. fold is. split; [exact A|]. split; [easy|]. left.
      destruct (Z_le_gt_dec j 10); [|lia]. exfalso.
      assert (2 ^ j <= 2 ^ 10)%Z by (apply Z.pow_le_mono_r; lia). unfold is in M. lia.
  - injection H as <-. exists j, s. split; [easy|]. cbv zeta. fold is. split; [exact A|]. split; [easy|]. right.
    destruct D as [[D1 D2]|[D1 D2]]; [left|right]; (split; [easy|]); rewrite <- D2; lra.
Qed.

Lemma loop_simpson0 : forall fuel pf lay k z0 zr fb ff r0 tol v,
  rf_loop fuel pf lay k z0 zr fb ff r0 tol 8 1 0 0 1 = Some v ->
  simpson_result lay k z0 zr fb ff tol v.
Proof.
  intros fuel pf lay k z0 zr fb ff r0 tol v H.
  apply (loop_simpson fuel pf lay k z0 zr fb ff r0 tol 0 1 0 1 v); [lia|left; repeat split|].
  change (8 * 2 ^ 0)%Z with 8%Z. exact H.
Qed.
