(** * Headline theorems needing numerical bounds on pi and the trigonometric
    functions: palmac.h constants (C65), palAirmas (C49), palGeoc (C64).
    Coq-Interval is used as a tactic; it adds no axioms beyond the standard
    library's reals and primitive integers. *)
From Coq Require Import Reals ZArith Lra Lia Psatz Bool.
From Interval Require Import Tactic.
From Verif Require Import Num NumR Erfa Geom M_Sphere.
Local Open Scope R_scope.

(** the printed literals of palmac.h:63-93, as exact decimal numbers *)
Definition lit_DPI    := litR 3.1415926535897932384626433832795028841971693993751%dec.
Definition lit_D2PI   := litR 6.2831853071795864769252867665590057683943387987502%dec.
Definition lit_DPIBY2 := litR 1.5707963267948966192313216916397514420985846996876%dec.
Definition lit_DD2R   := litR 0.017453292519943295769236907684886127134428718885417%dec.
Definition lit_DR2AS  := litR 2.0626480624709635515647335733077861319665970087963e5%dec.
Definition lit_DAS2R  := litR 4.8481368110953599358991410235794797595635330237270e-6%dec.
Definition lit_DR2D   := litR 57.295779513082320876798154814105170332405472466564%dec.
Definition lit_DH2R   := litR 0.26179938779914943653855361527329190701643078328126%dec.
Definition lit_DR2H   := litR 3.8197186342054880584532103209403446888270314977709%dec.
Definition lit_DR2S   := litR 1.3750987083139757010431557155385240879777313391975e4%dec.
Definition lit_DS2R   := litR 7.272205216643039903848712e-5%dec.

Ltac lits := unfold lit_DPI, lit_D2PI, lit_DPIBY2, lit_DD2R, lit_DR2AS, lit_DAS2R, lit_DR2D,
  lit_DH2R, lit_DR2H, lit_DR2S, lit_DS2R, D2PI, DPIBY2, DD2R, DR2AS, DAS2R, DR2D, DH2R, DR2H, DR2S, DS2R; rn.
(** Every angle constant of palmac.h is the named multiple of pi to within a
    relative error of 1e-48 (1e-24 for PAL__DS2R, printed to 25 digits): far below
    half an ulp of a double, so each literal denotes the correctly rounded value
    up to exact ties. *)
Theorem C65_palmac_constants :
  Rabs (lit_DPI / PI - 1) <= 1 / 10 ^ 48 /\
  Rabs (lit_D2PI / D2PI - 1) <= 1 / 10 ^ 48 /\
  Rabs (lit_DPIBY2 / DPIBY2 - 1) <= 1 / 10 ^ 48 /\
  Rabs (lit_DD2R / DD2R - 1) <= 1 / 10 ^ 48 /\
  Rabs (lit_DR2AS / DR2AS - 1) <= 1 / 10 ^ 48 /\
  Rabs (lit_DAS2R / DAS2R - 1) <= 1 / 10 ^ 48 /\
  Rabs (lit_DR2D / DR2D - 1) <= 1 / 10 ^ 48 /\
  Rabs (lit_DH2R / DH2R - 1) <= 1 / 10 ^ 48 /\
  Rabs (lit_DR2H / DR2H - 1) <= 1 / 10 ^ 48 /\
  Rabs (lit_DR2S / DR2S - 1) <= 1 / 10 ^ 48 /\
  Rabs (lit_DS2R / DS2R - 1) <= 1 / 10 ^ 24.
Proof. lits. repeat split; interval with (i_prec 200). Qed.

(** ** palAirmas *)
Definition airpoly (s : R) : R := 1 + s * (9981833 / 10000000 - s * (2875 / 1000000 + 8083 / 10000000 * s)).
Lemma palAirmas_unf : forall zd, palAirmas zd =
  let z := if Rltb (87 * (PI / 180)) (Rabs zd) then 87 * (PI / 180) else Rabs zd in
  airpoly (1 / cosR z - 1).
Proof. intros. unfold palAirmas, DD2R. rn. reflexivity. Qed.
Lemma cos87 : 1 / cosR (87 * (PI / 180)) - 1 <= 182 / 10.
Proof. interval. Qed.
Lemma cos87_pos : 0 < cosR (87 * (PI / 180)).
Proof. interval. Qed.
Lemma airpoly_incr : forall s t, 0 <= s -> s < t -> t <= 182 / 10 -> airpoly s < airpoly t.
Proof.
  intros s t H1 H2 H3. unfold airpoly.
  assert (E : (1 + t * (9981833 / 10000000 - t * (2875 / 1000000 + 8083 / 10000000 * t)))
    - (1 + s * (9981833 / 10000000 - s * (2875 / 1000000 + 8083 / 10000000 * s)))
    = (t - s) * (9981833 / 10000000 - 2875 / 1000000 * (t + s) - 8083 / 10000000 * (t * t + t * s + s * s))) by ring.
  assert (0 < 9981833 / 10000000 - 2875 / 1000000 * (t + s) - 8083 / 10000000 * (t * t + t * s + s * s)).
  { assert (t * t <= 33124 / 100) by nra. assert (t * s <= 33124 / 100) by nra. assert (s * s <= 33124 / 100) by nra. lra. }
  assert (0 < (t - s) * (9981833 / 10000000 - 2875 / 1000000 * (t + s) - 8083 / 10000000 * (t * t + t * s + s * s))); [|lra].
  apply Rmult_lt_0_compat; lra.
Qed.
Theorem C49_palAirmas :
  palAirmas 0 = 1 /\
  (forall z, palAirmas (- z) = palAirmas z) /\
  (forall z1 z2, 0 <= z1 -> z1 < z2 -> z2 <= 87 * (PI / 180) -> palAirmas z1 < palAirmas z2) /\
  (forall z, 87 * (PI / 180) <= z -> palAirmas z = palAirmas (87 * (PI / 180))) /\
  (forall z, 1 <= palAirmas z <= palAirmas (87 * (PI / 180))).
Proof.
  assert (P := PI_RGT_0).
  assert (A0 : palAirmas 0 = 1).
  { rewrite palAirmas_unf. cbv zeta. rewrite Rabs_R0, Rltb_false by lra. rewrite cos_0. unfold airpoly.
    replace (1 / 1 - 1) with 0 by field. ring. }
  assert (AM : forall z1 z2, 0 <= z1 -> z1 < z2 -> z2 <= 87 * (PI / 180) -> palAirmas z1 < palAirmas z2).
  { intros z1 z2 H1 H2 H3. rewrite !palAirmas_unf. cbv zeta. rewrite !Rabs_pos_eq by lra.
    rewrite !Rltb_false by lra.
    assert (C87 := cos87_pos).
    assert (C2 : cosR (87 * (PI / 180)) <= cosR z2).
    { destruct (Req_dec z2 (87 * (PI / 180))) as [->|]; [lra|]. left. apply cos_decreasing_1; lra. }
    assert (C1 : cosR z2 < cosR z1) by (apply cos_decreasing_1; lra).
    assert (C0 : cosR z1 <= 1) by apply COS_bound.
    apply airpoly_incr.
    - assert (/ 1 <= / cosR z1) by (apply Rinv_le_contravar; lra). unfold Rdiv. lra.
    - assert (/ cosR z1 < / cosR z2) by (apply Rinv_lt_contravar; [apply Rmult_lt_0_compat|]; lra). unfold Rdiv. lra.
    - apply Rle_trans with (1 / cosR (87 * (PI / 180)) - 1); [|apply cos87].
      assert (/ cosR z2 <= / cosR (87 * (PI / 180))) by (apply Rinv_le_contravar; lra). unfold Rdiv. lra. }
  assert (AS : forall z, 87 * (PI / 180) <= z -> palAirmas z = palAirmas (87 * (PI / 180))).
  { intros z H. rewrite !palAirmas_unf. cbv zeta. rewrite !Rabs_pos_eq by lra.
    rewrite (Rltb_false (87 * (PI / 180)) (87 * (PI / 180))) by lra.
    destruct (Rltb_spec (87 * (PI / 180)) z); [easy|]. replace z with (87 * (PI / 180)) by lra. easy. }
  assert (AE : forall z, palAirmas (- z) = palAirmas z).
  { intros z. rewrite !palAirmas_unf. now rewrite Rabs_Ropp. }
  repeat (split; [easy|]).
  assert (AB : forall z, 0 <= z -> 1 <= palAirmas z <= palAirmas (87 * (PI / 180))).
  { intros z Hz. destruct (Rle_dec (87 * (PI / 180)) z) as [H|H].
    - rewrite AS by easy. split; [|lra]. rewrite <- A0. left. apply AM; lra.
    - split; [|left; apply AM; lra]. rewrite <- A0.
      destruct (Req_dec z 0) as [->|]; [lra|]. left. apply AM; lra. }
  intros z. destruct (Rle_dec 0 z); [now apply AB|]. rewrite <- AE. apply AB. lra.
Qed.
(** the value at the clamp *)
Example C49_at_limit : 1332 / 100 <= palAirmas 2 <= 1334 / 100 /\ 87 * (PI / 180) <= 2.
Proof.
  split; [|interval]. rewrite palAirmas_unf. cbv zeta. rewrite Rabs_pos_eq by lra.
  rewrite Rltb_true by interval. unfold airpoly. interval with (i_prec 60).
Qed.

(** ** palGeoc *)
(** Specification: (R,Z) is the point at height h above the ellipsoid of
    semi-axes a, b, along the normal whose inclination to the equator is p. *)
Definition above_ellipsoid (a b p h R Z : R) : Prop :=
  exists R0 Z0, (R0 / a) * (R0 / a) + (Z0 / b) * (Z0 / b) = 1 /\
    (exists k, 0 < k /\ R0 / (a * a) = k * cosR p /\ Z0 / (b * b) = k * sinR p) /\
    R = R0 + h * cosR p /\ Z = Z0 + h * sinR p.
Definition AU_m : R := 149597870000.
Theorem C64_palGeoc : forall p h,
  let a := 6378137 in let b := 6378137 * (1 - 1 / (298257223563 / 1000000000)) in
  above_ellipsoid a b p h (fst (palGeoc p h) * AU_m) (snd (palGeoc p h) * AU_m).
Proof.
  intros p h a b. unfold palGeoc, eraGd2gc_wgs84. rn.
  set (f := 1 / (298257223563 / 1000000000)). fold f in b.
  set (w := (1 - f) * (1 - f)).
  assert (Hf : 0 < 1 - f) by (unfold f; lra).
  assert (Hw : 0 < w) by (unfold w; nra).
  assert (S := sc2 p). set (sp := sinR p) in *. set (cp := cosR p) in *.
  set (d := cp * cp + w * sp * sp).
  assert (Hd : 0 < d).
  { unfold d. assert (0 <= w * (sp * sp)) by (apply Rmult_le_pos; nra).
    destruct (Req_dec cp 0) as [E|E]; [|nra]. rewrite E in S |- *. replace (w * sp * sp) with (w * (sp * sp)) by ring.
    replace (sp * sp) with 1 by lra. lra. }
  rewrite Rltb_true by easy. cbn [fst snd vx vz]. rewrite cos_0.
  assert (Hq : 0 < sqrtR d) by now apply sqrt_lt_R0.
  assert (Hqq : sqrtR d * sqrtR d = d) by (apply sqrt_sqrt; lra).
  set (q := sqrtR d) in *.
  assert (Hb : b * b = a * a * w) by (unfold b, a, w; ring).
  assert (Hb0 : b <> 0) by (unfold b; lra).
  exists (a / q * cp), (w * (a / q) * sp). fold sp cp.
  split; [|split].
  - transitivity ((cp * cp + w * sp * sp) / (q * q)); [|rewrite Hqq; unfold d; field; fold d; lra].
    assert (Ew : (w * (a / q) * sp / b) * (w * (a / q) * sp / b) = w * w * (a * a) * (sp * sp) / (q * q) / (b * b)) by (field; lra).
    rewrite Ew, Hb. unfold a. field. unfold a in *. lra.
  - exists (1 / (a * q)). split; [apply Rdiv_lt_0_compat; unfold a; nra|]. split.
    + unfold a. field. lra.
    + rewrite Hb. unfold a. field. lra.
  - unfold AU_m, a. split; field; lra.
Qed.
Print Assumptions C49_palAirmas.
