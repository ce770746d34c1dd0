(** * Headline theorems: angles, spherical geometry, horizon coordinates,
    tangent plane, Euler rotations (properties C01-C03, C05-C16).
    The functions pal* are the models of M_Sphere.v read over the reals; the
    vocabulary (dir, dot, cross, norm, rotation, cong, projects ...) is in the
    specification part of Geom.v, NumR.v and P_Tangent.v. *)
From Coq Require Import Reals ZArith Lra Lia Psatz Bool Ascii String List.
From Coquelicot Require Import Coquelicot.
From Flocq Require Raux.
From Verif Require Import Num NumR Erfa Geom M_Sphere P_Sphere P_Horizon P_Tangent.
Import ListNotations.
Local Open Scope R_scope.

(** ** C01-C03 angle normalisation *)
Theorem C01_palDrange : forall x : R,
  - PI <= palDrange x <= PI /\ cong (palDrange x) x /\ (- PI < x < PI -> palDrange x = x).
Proof.
  intros x. split; [apply palDrange_range|]. split; [apply palDrange_cong|].
  intros H. apply palDrange_id. lra.
Qed.
Example C01_witness : palDrange (5 * PI / 2) = PI / 2 /\ palDrange (- (7 * PI)) = - PI.
Proof.
  assert (P := PI_RGT_0). unfold palDrange. rewrite D2PI_val. rn. unfold fmodR.
  replace (5 * PI / 2 / (2 * PI)) with (5 / 4) by (field; lra).
  replace (- (7 * PI) / (2 * PI)) with (- (7 / 2)) by (field; lra).
  replace (Raux.Ztrunc (5 / 4)) with 1%Z.
  2:{ rewrite Raux.Ztrunc_floor by lra. symmetry. apply Raux.Zfloor_imp. cbn; lra. }
  replace (Raux.Ztrunc (- (7 / 2))) with (-3)%Z.
  2:{ rewrite Raux.Ztrunc_ceil by lra. symmetry. apply Raux.Zceil_imp. cbn; lra. }
  split.
  - rewrite Rltb_false by lra. rewrite Rltb_false by lra. lra.
  - rewrite Rltb_false by lra. rewrite Rltb_false by lra. lra.
Qed.
Theorem C02_palDrange_idempotent : forall x : R, palDrange (palDrange x) = palDrange x.
Proof. intros x. apply palDrange_id, palDrange_range. Qed.
(** both ends of the range are attained: the reduction is not one-to-one at odd multiples of pi *)
Example C02_boundary : palDrange PI = PI /\ palDrange (- PI) = - PI.
Proof. assert (P := PI_RGT_0). split; apply palDrange_id; lra. Qed.
Theorem C03_palDranrm : forall x : R,
  0 <= palDranrm x < 2 * PI /\ cong (palDranrm x) x /\ palDranrm (palDranrm x) = palDranrm x /\
  (forall y, cong x y <-> palDranrm x = palDranrm y).
Proof.
  intros x. unfold palDranrm. repeat split.
  - apply eraAnp_range. - apply eraAnp_range. - apply eraAnp_cong.
  - apply eraAnp_id, eraAnp_range.
  - intros H. now apply eraAnp_of_cong.
  - intros H. apply cong_trans with (eraAnp x); [apply cong_sym, eraAnp_cong|rewrite H; apply eraAnp_cong].
Qed.

(** ** C05 spherical <-> Cartesian *)
Theorem C05_sph_cart :
  (forall a b, unitv (palDcs2c a b)) /\
  (forall a b k, 0 < k -> - (PI / 2) < b < PI / 2 ->
     cong (fst (palDcc2s (scale k (palDcs2c a b)))) a /\ snd (palDcc2s (scale k (palDcs2c a b))) = b) /\
  (forall v, v <> vzero -> palDcs2c (fst (palDcc2s v)) (snd (palDcc2s v)) = scale (1 / norm v) v) /\
  (forall v, - PI < fst (palDcc2s v) <= PI /\ - (PI / 2) <= snd (palDcc2s v) <= PI / 2).
Proof.
  unfold palDcs2c, palDcc2s. split; [|split; [|split]].
  - intros a b. apply dir_unit.
  - intros a b k Hk Hb. rewrite eraS2c_dir.
    set (v := scale k (dir a b)).
    assert (Hn : norm v = k).
    { unfold v. rewrite norm_scale by lra. rewrite (norm_unit _ (dir_unit a b)). ring. }
    assert (E := eraC2s_dir v). assert (R := proj2 (eraC2s_range v)). rewrite Hn in E.
    assert (D : dir a b = dir (fst (eraC2s v)) (snd (eraC2s v))).
    { transitivity (scale (1 / k) v).
      - unfold v. rewrite scale_scale. replace (1 / k * k) with 1 by (field; lra). now rewrite scale_1.
      - rewrite <- E at 1. rewrite scale_scale. replace (1 / k * k) with 1 by (field; lra). apply scale_1. }
    split.
    + apply cong_sym. apply (dir_inj_lon _ _ _ _ D); [easy|exact R].
    + symmetry. apply (dir_inj_lat _ _ _ _ D); [lra|exact R].
  - intros v Hv. rewrite eraS2c_dir. now apply eraC2s_nz.
  - apply eraC2s_range.
Qed.
Example C05_witness : palDcs2c 0 0 = V 1 0 0 /\ - (PI / 2) < 0 < PI / 2.
Proof.
  assert (P := PI_RGT_0). split; [|lra]. unfold palDcs2c. rewrite eraS2c_dir. unfold dir.
  rewrite sin_0, cos_0. f_equal; ring.
Qed.

(** ** C06 separation, bearing, vector algebra *)
Theorem C06_separation :
  (forall a b, 0 <= palDsepv a b <= PI) /\
  (forall a b, a <> vzero -> b <> vzero -> cosR (palDsepv a b) = dot a b / (norm a * norm b)) /\
  (forall a b, palDsepv a b = palDsepv b a) /\
  (forall a b k l, 0 < k -> 0 < l -> a <> vzero -> b <> vzero -> palDsepv (scale k a) (scale l b) = palDsepv a b) /\
  (forall a1 b1 a2 b2, palDsep a1 b1 a2 b2 = palDsepv (palDcs2c a1 b1) (palDcs2c a2 b2)) /\
  (forall a1 b1 a2 b2, cosR (palDsep a1 b1 a2 b2) = dot (dir a1 b1) (dir a2 b2)).
Proof.
  assert (C : forall a b, a <> vzero -> b <> vzero -> cosR (palDsepv a b) = dot a b / (norm a * norm b)).
  { intros a b Ha Hb. destruct (eraSepp_polar a b) as [E _]. unfold palDsepv.
    apply norm_gt0 in Ha. apply norm_gt0 in Hb.
    rewrite E. field. lra. }
  split; [exact eraSepp_range|]. split; [exact C|]. split; [exact eraSepp_sym|]. split; [|split].
  - intros a b k l Hk Hl Ha Hb.
    assert (Na := norm_gt0 _ Ha). assert (Nb := norm_gt0 _ Hb).
    assert (Hs : scale k a <> vzero).
    { intros E. apply Ha. rewrite <- (scale_1 a). replace 1 with (/ k * k) by (field; lra).
      rewrite <- scale_scale, E. unfold scale, vzero; cbn. f_equal; ring. }
    assert (Ht : scale l b <> vzero).
    { intros E. apply Hb. rewrite <- (scale_1 b). replace 1 with (/ l * l) by (field; lra).
      rewrite <- scale_scale, E. unfold scale, vzero; cbn. f_equal; ring. }
    assert (R1 := eraSepp_range (scale k a) (scale l b)). assert (R2 := eraSepp_range a b).
    destruct (Rtotal_order (palDsepv (scale k a) (scale l b)) (palDsepv a b)) as [H|[H|H]]; [|easy|];
      unfold palDsepv in *; exfalso.
    + assert (X := cos_decreasing_1 (eraSepp (scale k a) (scale l b)) (eraSepp a b)).
      assert (Y := X ltac:(lra) ltac:(lra) ltac:(lra) ltac:(lra) H). unfold palDsepv in C.
      rewrite !C in Y by easy. rewrite !norm_scale, dot_scale_l, dot_scale_r in Y by lra.
      replace (k * (l * dot a b) / (k * norm a * (l * norm b))) with (dot a b / (norm a * norm b)) in Y by (field; lra). lra.
    + assert (X := cos_decreasing_1 (eraSepp a b) (eraSepp (scale k a) (scale l b))).
      assert (Y := X ltac:(lra) ltac:(lra) ltac:(lra) ltac:(lra) H). unfold palDsepv in C.
      rewrite !C in Y by easy. rewrite !norm_scale, dot_scale_l, dot_scale_r in Y by lra.
      replace (k * (l * dot a b) / (k * norm a * (l * norm b))) with (dot a b / (norm a * norm b)) in Y by (field; lra). lra.
  - reflexivity.
  - intros. change (palDsep a1 b1 a2 b2) with (palDsepv (dir a1 b1) (dir a2 b2)).
    rewrite C by apply dir_nz. rewrite !(norm_unit _ (dir_unit _ _)). field.
Qed.
Theorem C06_bearing :
  (forall a1 b1 a2 b2, - PI < palDbear a1 b1 a2 b2 <= PI) /\
  (** the bearing is the polar angle, from north through east, of the second
      direction projected on the local tangent plane of the first *)
  (forall a1 b1 a2 b2, exists rho, 0 <= rho /\
     dot (dir a2 b2) (east a1) = rho * sinR (palDbear a1 b1 a2 b2) /\
     dot (dir a2 b2) (north a1 b1) = rho * cosR (palDbear a1 b1 a2 b2)) /\
  (** palDpav is the same function of direction cosines (off the pole) *)
  (forall a1 b1 a2 b2, - (PI / 2) < b1 < PI / 2 ->
     palDpav (palDcs2c a1 b1) (palDcs2c a2 b2) = palDbear a1 b1 a2 b2).
Proof.
  split; [exact eraPas_range|]. split; [exact eraPas_polar|].
  intros a1 b1 a2 b2 H. unfold palDpav, palDcs2c. rewrite !eraS2c_dir. apply eraPap_eraPas.
  apply cos_gt_0; lra.
Qed.
Theorem C06_vectors :
  (forall a b : vec R, palDvdv a b = vx a * vx b + vy a * vy b + vz a * vz b) /\
  (forall a b : vec R, palDvdv a (palDvxv a b) = 0 /\ palDvdv b (palDvxv a b) = 0) /\
  (forall a b : vec R, palDvdv (palDvxv a b) (palDvxv a b)
       = palDvdv a a * palDvdv b b - palDvdv a b * palDvdv a b) /\
  (forall a b : vec R, 0 <= palDvdv (palDvxv a b) (palDvxv a b)) /\
  (** right handed *)
  palDvxv (V 1 0 0) (V 0 1 0) = V 0 0 1 /\
  (forall v, v <> vzero -> let '(uv, vm) := palDvn v in vm = norm v /\ unitv uv /\ scale vm uv = v) /\
  palDvn vzero = (vzero, 0).
Proof.
  split; [reflexivity|]. split. { intros a b. unfold palDvdv, palDvxv. change (@eraPdp R RA) with dot. change (@eraPxp R RA) with cross. split; vring. }
  split. { intros a b. unfold palDvdv, palDvxv. apply lagrange. }
  split. { intros a b. unfold palDvdv, palDvxv. apply dot_pos. }
  split. { unfold palDvxv. change (@eraPxp R RA) with cross. unfold cross; cbn [vx vy vz]. f_equal; ring. }
  split.
  - intros v Hv. unfold palDvn. rewrite eraPn_nz by easy. cbn [fst snd].
    assert (N := norm_gt0 v Hv). split; [easy|]. split; [now apply scale_unit|].
    rewrite scale_scale. replace (norm v * (1 / norm v)) with 1 by (field; lra). apply scale_1.
  - unfold palDvn. rewrite eraPn_zero. reflexivity.
Qed.

(** ** C07 equatorial <-> horizon *)
Theorem C07_horizon_inverse :
  (forall ha dec phi, let o := palDe2h ha dec phi in
     0 <= fst o < 2 * PI /\ - (PI / 2) <= snd o <= PI / 2) /\
  (forall az el phi, let o := palDh2e az el phi in
     - PI < fst o <= PI /\ - (PI / 2) <= snd o <= PI / 2) /\
  (forall ha dec phi, let o := palDe2h ha dec phi in let i := palDh2e (fst o) (snd o) phi in
     dir (fst i) (snd i) = dir ha dec) /\
  (forall az el phi, let o := palDh2e az el phi in let i := palDe2h (fst o) (snd o) phi in
     dir (fst i) (snd i) = dir az el) /\
  (** in terms of the angles themselves, off the poles *)
  (forall ha dec phi, - (PI / 2) < dec < PI / 2 ->
     let o := palDe2h ha dec phi in let i := palDh2e (fst o) (snd o) phi in
     cong (fst i) ha /\ snd i = dec) /\
  (forall az el phi, - (PI / 2) < el < PI / 2 ->
     let o := palDh2e az el phi in let i := palDe2h (fst o) (snd o) phi in
     cong (fst i) az /\ snd i = el).
Proof.
  assert (A : forall ha dec phi, let o := palDe2h ha dec phi in let i := palDh2e (fst o) (snd o) phi in
     dir (fst i) (snd i) = dir ha dec).
  { intros. unfold i. rewrite palDh2e_dir. unfold o. rewrite palDe2h_dir. apply hmat_inv. }
  assert (B : forall az el phi, let o := palDh2e az el phi in let i := palDe2h (fst o) (snd o) phi in
     dir (fst i) (snd i) = dir az el).
  { intros. unfold i. rewrite palDe2h_dir. unfold o. rewrite palDh2e_dir. apply hmat_inv. }
  split; [exact palDe2h_range|]. split; [exact palDh2e_range|]. split; [exact A|]. split; [exact B|]. split.
  - intros ha dec phi H o i. assert (E := A ha dec phi). fold o i in E. cbv zeta in E.
    assert (R := proj2 (palDh2e_range (fst o) (snd o) phi)). fold i in R. split.
    + apply cong_sym. symmetry in E. apply (dir_inj_lon _ _ _ _ E); easy.
    + apply (dir_inj_lat _ _ _ _ E); [easy|lra].
  - intros az el phi H o i. assert (E := B az el phi). fold o i in E. cbv zeta in E.
    assert (R := proj2 (palDe2h_range (fst o) (snd o) phi)). fold i in R. split.
    + apply cong_sym. symmetry in E. apply (dir_inj_lon _ _ _ _ E); easy.
    + apply (dir_inj_lat _ _ _ _ E); [easy|lra].
Qed.
(** What the transformation is: altitude and azimuth (from north through east)
    of the direction: the components of the star along north, east and up of the
    site, whose zenith is at hour angle 0 and declination phi (hour angles
    increase westwards). *)
Theorem C07_horizon_meaning : forall ha dec phi,
  let o := palDe2h ha dec phi in let s := dir (- ha) dec in
  vx (dir (fst o) (snd o)) = dot s (north 0 phi) /\
  vy (dir (fst o) (snd o)) = dot s (east 0) /\
  vz (dir (fst o) (snd o)) = dot s (dir 0 phi).
Proof.
  intros. unfold o. rewrite palDe2h_dir. unfold s, hmat, mapp, dir, dot, north, east; cbn [vx vy vz m0 m1 m2].
  rewrite sin_neg, cos_neg, sin_0, cos_0. repeat split; ring.
Qed.

(** ** C08 palAltaz against palDe2h and palPa *)
Theorem C08_palAltaz_agrees : forall ha dec phi,
  aa_az (palAltaz ha dec phi) = fst (palDe2h ha dec phi) /\
  aa_el (palAltaz ha dec phi) = snd (palDe2h ha dec phi) /\
  (cosR (palDsep (- ha) dec 0 phi) <> 1 -> cosR (palDsep (- ha) dec 0 phi) <> -1 ->
   aa_pa (palAltaz ha dec phi) = palPa ha dec phi).
Proof.
  intros ha dec phi.
  assert (Rq := hrsq_pos dec phi ha).
  assert (Z : forall t : R, 0 <= t -> Reqb (sqrtR t) 0 = Reqb t 0).
  { intros t Ht. destruct (Reqb_spec t 0) as [->|Hn]; [rewrite sqrt_0; now apply Reqb_true|].
    apply Reqb_false. intros E. apply sqrt_eq_0 in E; easy. }
  split; [|split].
  - unfold palAltaz, palDe2h; rn. fold (hx dec phi ha) (hy dec ha) (hz dec phi ha).
    replace (- cosR ha * cosR dec * sinR phi + sinR dec * cosR phi) with (hx dec phi ha) by (unfold hx; ring).
    fold (hrsq dec phi ha). destruct (Rltb (hrsq dec phi ha) _); cbn [aa_az fst]; rewrite Z by easy; reflexivity.
  - unfold palAltaz, palDe2h; rn. fold (hx dec phi ha) (hy dec ha) (hz dec phi ha).
    replace (- cosR ha * cosR dec * sinR phi + sinR dec * cosR phi) with (hx dec phi ha) by (unfold hx; ring).
    fold (hrsq dec phi ha). destruct (Rltb (hrsq dec phi ha) _); cbn [aa_el snd]; reflexivity.
  - intros H1 H2.
    change (palDsep (- ha) dec 0 phi) with (palDsepv (palDcs2c (- ha) dec) (palDcs2c 0 phi)) in *.
    assert (E : cosR (palDsepv (palDcs2c (- ha) dec) (palDcs2c 0 phi)) = hz dec phi ha).
    { destruct C06_separation as (_ & _ & _ & _ & _ & S). assert (S' := S (- ha) dec 0 phi).
      change (palDsep (- ha) dec 0 phi) with (palDsepv (palDcs2c (- ha) dec) (palDcs2c 0 phi)) in S'.
      rewrite S'. unfold dot, dir, hz; cbn [vx vy vz]. rewrite sin_neg, cos_neg, sin_0, cos_0. ring. }
    rewrite E in *. clear E.
    assert (R0 : 0 < hrsq dec phi ha).
    { rewrite hrsq_z in *. assert (hz dec phi ha * hz dec phi ha <> 1); [|lra]. intros E.
      assert (F : (hz dec phi ha - 1) * (hz dec phi ha + 1) = 0) by lra. apply Rmult_integral in F. lra. }
    assert (Q : aa_pa (palAltaz ha dec phi) = atan2R (hs phi ha) (hc dec phi ha)).
    { unfold palAltaz; rn. fold (hs phi ha) (hc dec phi ha). rewrite hsc_rsq.
      rewrite (Rltb_true 0 (hrsq dec phi ha)) by easy. destruct (Rltb _ (1 / _)); reflexivity. }
    rewrite Q. unfold palPa; rn.
    replace (cosR phi * sinR ha) with (hs phi ha) by (unfold hs; ring).
    replace (sinR phi * cosR dec - cosR phi * sinR dec * cosR ha) with (hc dec phi ha) by (unfold hc; ring).
    destruct (Reqb_spec (hs phi ha) 0) as [A|A], (Reqb_spec (hc dec phi ha) 0) as [B|B]; cbn [andb]; try easy.
    exfalso. assert (S := hsc_rsq dec phi ha). rewrite A, B in S. lra.
Qed.

(** at the zenith and nadir (where palPa's convention differs) the azimuth is 0, the parallactic angle
    is pi - ha, the limit approached along the meridian, and the clamped rates are those printed *)
Theorem C08_zenith : forall ha dec phi,
  cosR (palDsep (- ha) dec 0 phi) = 1 \/ cosR (palDsep (- ha) dec 0 phi) = -1 ->
  aa_az (palAltaz ha dec phi) = 0 /\ aa_pa (palAltaz ha dec phi) = PI - ha /\
  aa_azd (palAltaz ha dec phi) = sinR phi /\ aa_eld (palAltaz ha dec phi) = 0 /\
  aa_pad (palAltaz ha dec phi) = 0 /\ aa_azdd (palAltaz ha dec phi) = 0 /\
  aa_eldd (palAltaz ha dec phi) = 0 /\ aa_padd (palAltaz ha dec phi) = 0.
Proof.
  intros ha dec phi H.
  assert (E : cosR (palDsep (- ha) dec 0 phi) = hz dec phi ha).
  { destruct C06_separation as (_ & _ & _ & _ & _ & S). rewrite (S (- ha) dec 0 phi).
    unfold dot, dir, hz; cbn [vx vy vz]. rewrite sin_neg, cos_neg, sin_0, cos_0. ring. }
  rewrite E in H.
  assert (R0 : hrsq dec phi ha = 0). { rewrite hrsq_z. destruct H as [-> | ->]; ring. }
  assert (X : hx dec phi ha = 0) by (unfold hrsq in R0; nra).
  assert (Y : hy dec ha = 0) by (unfold hrsq in R0; nra).
  unfold palAltaz; rn. fold (hs phi ha) (hc dec phi ha). rewrite hsc_rsq.
  fold (hx dec phi ha) (hy dec ha) (hz dec phi ha).
  replace (- (cosR ha * cosR dec) * sinR phi + sinR dec * cosR phi) with (hx dec phi ha) by (unfold hx; ring).
  fold (hrsq dec phi ha). rewrite R0, X, Y.
  rewrite Reqb_true by reflexivity. rewrite (Rltb_false 0 0) by lra.
  match goal with |- context [Rltb 0 ?t] => rewrite (Rltb_true 0 t) by lra end.
  cbv beta iota zeta. cbn [aa_az aa_pa aa_azd aa_eld aa_pad aa_azdd aa_eldd aa_padd].
  unfold Rdiv. repeat split; ring.
Qed.
Example C08_zenith_witness : cosR (palDsep (- 0) 1 0 1) = 1.
Proof.
  destruct C06_separation as (_ & _ & _ & _ & _ & S). rewrite S. rewrite Ropp_0.
  unfold dot, dir; cbn [vx vy vz]. rewrite sin_0, cos_0. assert (Q := sin2_cos2 1). unfold Rsqr in Q. lra.
Qed.

(** ** C09 derivatives.  [offzenith]: the sine squared of the zenith distance
    exceeds the code's TINY = 1e-30. *)
Definition offzenith (ha dec phi : R) : Prop :=
  let c := cosR (palDsep (- ha) dec 0 phi) in / 10 ^ 30 < 1 - c * c.
Lemma offzenith_rsq : forall ha dec phi, offzenith ha dec phi -> / 10 ^ 30 < hrsq dec phi ha.
Proof.
  intros ha dec phi H. unfold offzenith in H. destruct C06_separation as (_ & _ & _ & _ & _ & S).
  rewrite S in H. rewrite hrsq_z.
  replace (hz dec phi ha) with (dot (dir (- ha) dec) (dir 0 phi)); [exact H|].
  unfold dot, dir, hz; cbn [vx vy vz]. rewrite sin_neg, cos_neg, sin_0, cos_0. ring.
Qed.
Theorem C09_palAltaz_rates : forall ha dec phi, offzenith ha dec phi ->
  (** elevation: rate and acceleration *)
  is_derive (fun h => aa_el (palAltaz h dec phi)) ha (aa_eld (palAltaz ha dec phi)) /\
  is_derive (fun h => aa_eld (palAltaz h dec phi)) ha (aa_eldd (palAltaz ha dec phi)) /\
  (** azimuth: the rate wherever the azimuth is not at its 0/2pi wrap *)
  (0 < aa_az (palAltaz ha dec phi) ->
     is_derive (fun h => aa_az (palAltaz h dec phi)) ha (aa_azd (palAltaz ha dec phi))) /\
  is_derive (fun h => aa_azd (palAltaz h dec phi)) ha (aa_azdd (palAltaz ha dec phi)) /\
  (** parallactic angle: the rate wherever it is not at its +/-pi wrap *)
  (aa_pa (palAltaz ha dec phi) <> PI ->
     is_derive (fun h => aa_pa (palAltaz h dec phi)) ha (aa_pad (palAltaz ha dec phi))) /\
  is_derive (fun h => aa_pad (palAltaz h dec phi)) ha (aa_padd (palAltaz ha dec phi)).
Proof.
  intros ha dec phi H. apply offzenith_rsq in H. assert (T := tiny_pos).
  split; [now apply el_d|]. split; [now apply eld_d|]. split; [|split; [now apply azd_d|split; [|now apply pad_d]]].
  - intros Ha. apply az_d; [easy|]. revert Ha. rewrite palAltaz_unf by lra. cbv zeta. cbn [aa_az]. intros Ha.
    destruct (Req_dec (hy dec ha) 0) as [Hy|Hy]; [|now right]. left.
    destruct (Rlt_dec (hx dec phi ha) 0); [easy|]. exfalso. revert Ha.
    assert (Hx : 0 < hx dec phi ha).
    { assert (hx dec phi ha <> 0); [|lra]. intros E. unfold hrsq in H. rewrite E, Hy in H. lra. }
    rewrite Hy. unfold atan2R. destruct (Rlt_dec 0 (hx dec phi ha)); [|easy].
    unfold Rdiv. rewrite Rmult_0_l, atan_0. rewrite Rltb_false; lra.
  - intros Hp. apply pa_d; [easy|]. revert Hp. rewrite palAltaz_unf by lra. cbv zeta. cbn [aa_pa]. intros Hp.
    destruct (Req_dec (hs phi ha) 0) as [Hs|Hs]; [|now right]. left.
    destruct (Rlt_dec 0 (hc dec phi ha)); [easy|]. exfalso. apply Hp.
    assert (Hc : hc dec phi ha < 0).
    { assert (hc dec phi ha <> 0); [|lra]. intros E. assert (S := hsc_rsq dec phi ha). rewrite E, Hs in S. lra. }
    rewrite Hs. replace 0 with ((- hc dec phi ha) * sinR PI) by (rewrite sin_PI; ring).
    replace (hc dec phi ha) with ((- hc dec phi ha) * cosR PI) at 2 by (rewrite cos_PI; ring).
    apply atan2_unique; [lra|]. generalize PI_RGT_0; lra.
Qed.
Example C09_witness : offzenith (PI / 2) 0 (PI / 4) /\ 0 < aa_az (palAltaz (PI / 2) 0 (PI / 4)).
Proof.
  assert (P := PI_RGT_0).
  assert (O : offzenith (PI / 2) 0 (PI / 4)).
  { unfold offzenith. destruct C06_separation as (_ & _ & _ & _ & _ & S). rewrite S.
    unfold dot, dir; cbn [vx vy vz]. rewrite sin_neg, cos_neg, sin_PI2, cos_PI2, sin_0, cos_0.
    replace (1 - _) with 1 by ring.
    assert (K : 1 < 10 ^ 30) by (apply Rlt_pow_R1; [lra|lia]).
    rewrite <- Rinv_1. apply Rinv_lt_contravar; lra. }
  split; [exact O|].
  apply offzenith_rsq in O. rewrite palAltaz_unf by (generalize O; lra). cbv zeta. cbn [aa_az].
  unfold hx, hy. rewrite sin_PI2, cos_PI2, sin_0, cos_0.
  replace (- (0 * 1) * sinR (PI / 4) + 0 * cosR (PI / 4)) with 0 by ring.
  replace (- (1) * 1) with (-1) by ring.
  replace (atan2R (-1) 0) with (- (PI / 2)).
  - rewrite Rltb_true; lra.
  - rewrite atan2_down by lra. replace (0 / -1) with 0 by field. rewrite atan_0. ring.
Qed.

(** ** C10 palPa *)
Theorem C10_palPa :
  (forall ha dec phi, palPa ha dec phi = palDbear (- ha) dec 0 phi) /\
  (forall ha dec phi, - PI < palPa ha dec phi <= PI) /\
  (forall ha dec phi, palPa ha dec phi <> PI -> palPa (- ha) dec phi = - palPa ha dec phi) /\
  (forall dec, palPa 0 dec dec = 0).
Proof.
  split; [exact palPa_bearing|]. split. { intros. rewrite palPa_bearing. apply eraPas_range. }
  split.
  - intros ha dec phi. unfold palPa; rn. rewrite sin_neg, cos_neg.
    set (y := cosR phi * sinR ha). set (x := sinR phi * cosR dec - cosR phi * sinR dec * cosR ha).
    replace (cosR phi * - sinR ha) with (- y) by (unfold y; ring).
    assert (G : forall y x, (x <> 0 \/ y <> 0) -> atan2R y x <> PI -> atan2R (- y) x = - atan2R y x).
    { intros y' x' N' Hp. assert (B := atan2_range y' x').
      assert (N := hyp_pos x' y' N'). destruct (atan2_polar y' x') as [P1 P2].
      set (t := atan2R y' x') in *. set (r := sqrtR _) in *.
      rewrite <- (atan2_unique r (- t)); [|easy|lra]. rewrite sin_neg, cos_neg. f_equal; lra. }
    destruct (Reqb_spec y 0) as [Hy|Hy].
    + rewrite (Reqb_true (- y)) by lra. destruct (Reqb_spec x 0) as [Hx|Hx]; cbn [andb]; intros Hp.
      * apply G; [left; lra|easy]. * apply G; [now left|easy].
    + rewrite (Reqb_false (- y)) by lra. cbn [andb]. intros Hp. apply G; [now right|easy].
  - intros dec. unfold palPa; rn. rewrite sin_0, cos_0.
    replace (cosR dec * 0) with 0 by ring.
    replace (sinR dec * cosR dec - cosR dec * sinR dec * 1) with 0 by ring.
    rewrite Reqb_true by easy. cbn [andb]. unfold atan2R. destruct (Rlt_dec 0 1); [|lra].
    replace (0 / 1) with 0 by field. apply atan_0.
Qed.

(** ** C11, C12 gnomonic projection *)
Theorem C11_forward_is_projection : forall ra dec raz decz xi eta,
  palDs2tp ra dec raz decz = (xi, eta, 0%Z) -> projects ra dec raz decz xi eta.
Proof. exact palDs2tp_ok. Qed.
Theorem C11_backward_is_inverse_projection : forall xi eta raz decz,
  let o := palDtp2s xi eta raz decz in
  0 <= fst o < 2 * PI /\ - (PI / 2) <= snd o <= PI / 2 /\ projects (fst o) (snd o) raz decz xi eta.
Proof. exact palDtp2s_spec. Qed.
Theorem C11_roundtrip_sphere : forall ra dec raz decz xi eta,
  palDs2tp ra dec raz decz = (xi, eta, 0%Z) ->
  let o := palDtp2s xi eta raz decz in
  dir (fst o) (snd o) = dir ra dec /\
  (- (PI / 2) < dec < PI / 2 -> fst o = palDranrm ra /\ snd o = dec).
Proof.
  intros ra dec raz decz xi eta H o. apply palDs2tp_ok in H.
  destruct (palDtp2s_spec xi eta raz decz) as (R1 & R2 & P). fold o in R1, R2, P.
  assert (E := projects_unique _ _ _ _ _ _ _ _ P H). split; [easy|]. intros Hd. split.
  - unfold palDranrm. apply cong_range_eq; [easy|apply eraAnp_range|].
    symmetry in E. apply cong_trans with ra.
    + apply cong_sym, (dir_inj_lon _ _ _ _ E); easy.
    + apply cong_sym, eraAnp_cong.
  - apply (dir_inj_lat _ _ _ _ E); [easy|lra].
Qed.
(** plane -> sphere -> plane: exact whenever the point is inside the 1e-6 guard,
    i.e. less than about 89.99994 degrees from the tangent point *)
Theorem C11_roundtrip_plane : forall xi eta raz decz,
  sqrtR (1 + xi * xi + eta * eta) < 1000000 ->
  let o := palDtp2s xi eta raz decz in
  palDs2tp (fst o) (snd o) raz decz = (xi, eta, 0%Z).
Proof.
  intros xi eta raz decz H o. destruct (palDtp2s_spec xi eta raz decz) as (_ & _ & P). fold o in P.
  apply palDs2tp_of_projects; [easy|]. rewrite (projects_cos _ _ _ _ _ _ P).
  assert (0 < sqrtR (1 + xi * xi + eta * eta)) by (apply sqrt_lt_R0; nra).
  apply Rmult_lt_compat_l; [lra|]. apply Rinv_lt_contravar; [|easy]. nra.
Qed.
Example C11_witness : sqrtR (1 + 3 * 3 + 4 * 4) < 1000000 /\ exists xi eta, palDs2tp 0 0 0 0 = (xi, eta, 0%Z).
Proof.
  split.
  - rewrite <- (sqrt_square 1000000) by lra. apply sqrt_lt_1; lra.
  - rewrite palDs2tp_unf. cbv zeta. rewrite Rltb_true; [now eexists _, _|].
    unfold dot, dir; cbn [vx vy vz]. rewrite sin_0, cos_0. lra.
Qed.
Theorem C12_palDs2tp_status : forall ra dec raz decz,
  let c := cosR (palDsep ra dec raz decz) in
  let j := tp_j (palDs2tp ra dec raz decz) in
  (j = 0%Z <-> 1 / 1000000 < c) /\ (j = 1%Z <-> 0 <= c <= 1 / 1000000) /\
  (j = 2%Z <-> - (1 / 1000000) < c < 0) /\ (j = 3%Z <-> c <= - (1 / 1000000)).
Proof.
  intros ra dec raz decz. destruct C06_separation as (_ & _ & _ & _ & _ & S). rewrite S.
  apply palDs2tp_status.
Qed.

(** ** C13 palDtps2c *)
Theorem C13_solutions_project : forall xi eta ra dec n raz1 decz1 raz2 decz2,
  - (PI / 2) <= dec <= PI / 2 ->
  palDtps2c xi eta ra dec = (n, Some ((raz1, decz1), (raz2, decz2))) ->
  projects ra dec raz1 decz1 xi eta /\
  (- (PI / 2) < dec < PI / 2 -> projects ra dec raz2 decz2 xi eta).
Proof.
  intros. split; [eapply tps_first; eauto|]. intros Hd. eapply tps_second; eauto.
  assert (0 < cosR dec) by (apply cos_gt_0; lra). lra.
Qed.
Theorem C13_no_solution : forall xi eta ra dec, - (PI / 2) <= dec <= PI / 2 ->
  (fst (palDtps2c xi eta ra dec) = 0%Z <-> ~ exists raz decz, projects ra dec raz decz xi eta).
Proof.
  intros xi eta ra dec Hd. split.
  - intros H (raz & decz & P). destruct (tps_complete _ _ _ _ Hd _ _ P) as (n & s1 & s2 & E & Hn & _).
    rewrite E in H. cbn in H. lia.
  - intros H. destruct (palDtps2c xi eta ra dec) as [n [[[raz1 decz1] s2]|]] eqn:E; cbn [fst].
    + exfalso. apply H. exists raz1, decz1. eapply tps_first; eauto.
    + eapply tps_none; eauto.
Qed.
Theorem C13_all_solutions : forall xi eta ra dec raz decz, - (PI / 2) < dec < PI / 2 ->
  projects ra dec raz decz xi eta ->
  exists n s1 s2, palDtps2c xi eta ra dec = (n, Some (s1, s2)) /\
    ((cong raz (fst s1) /\ cong decz (snd s1)) \/ (cong raz (fst s2) /\ cong decz (snd s2))).
Proof.
  intros xi eta ra dec raz decz Hd P.
  destruct (tps_complete xi eta ra dec ltac:(lra) _ _ P) as (n & s1 & s2 & E & _ & C).
  exists n, s1, s2. split; [easy|]. apply C. assert (0 < cosR dec) by (apply cos_gt_0; lra). lra.
Qed.
(** n = 1: the second solution is "over the pole" (its declination exceeds 90
    degrees) and the first is not; n = 2: they are of the same kind *)
Theorem C13_count : forall xi eta ra dec n s1 s2, - (PI / 2) < dec < PI / 2 ->
  palDtps2c xi eta ra dec = (n, Some (s1, s2)) ->
  0 <= fst s1 < 2 * PI /\ 0 <= fst s2 < 2 * PI /\
  ((n = 1%Z /\ 0 < cosR (snd s1) /\ cosR (snd s2) < 0) \/ (n = 2%Z /\ 0 <= cosR (snd s1) * cosR (snd s2))).
Proof.
  intros xi eta ra dec n s1 s2 Hd E.
  assert (Hc : 0 < cosR dec) by (apply cos_gt_0; lra).
  assert (Hn : n = 1%Z \/ n = 2%Z).
  { revert E. rewrite palDtps2c_unf. cbv zeta. destruct (Rleb 0 _); [|easy].
    destruct (Rltb (Rabs _) 1); intros E; inversion E; auto. }
  destruct Hn; subst n.
  - destruct (tps_one xi eta ra dec ltac:(lra) s1 s2 E) as (A & B & C & D). tauto.
  - destruct (tps_two xi eta ra dec ltac:(lra) s1 s2 E ltac:(lra)) as (A & B & C). tauto.
Qed.
(** At the pole itself with xi = 0 the code reports two solutions but the second
    one is not a tangent point: the guard against atan2(0,0) overwrites r before the
    second solution is formed. *)
Theorem C13_pole_second_solution_refuted :
  exists n raz1 decz1 raz2 decz2,
    palDtps2c 0 0 0 (PI / 2) = (n, Some ((raz1, decz1), (raz2, decz2))) /\ n = 2%Z /\
    ~ projects 0 (PI / 2) raz2 decz2 0 0.
Proof.
  rewrite palDtps2c_unf. cbv zeta. rewrite sin_PI2, cos_PI2.
  replace (0 * 0 * (0 * 0 + 1) - 1 * 1 * (0 * 0)) with 0 by ring. rewrite Rleb_true by lra.
  rewrite sqrt_0. rewrite !Reqb_true by easy. cbn [andb].
  replace (0 * 0 + 1 + 0 * 0) with 1 by ring. rewrite sqrt_1, Rmult_1_r.
  rewrite Rabs_pos_eq by lra. rewrite Rltb_false by lra.
  eexists _, _, _, _, _. split; [reflexivity|]. split; [easy|].
  intros (P1 & _ & P3). rewrite tp_dot_n, tp_dot_t in *. rewrite sin_PI2, cos_PI2 in *.
  replace (1 - 0 * - (1)) with 1 in * by ring. replace (1 * 0 + - (1)) with (-1) in * by ring.
  assert (C : cosR (atan2R 1 (-1)) = -1 / sqrtR (-1 * -1 + 1 * 1)) by (apply atan2_cos; lra).
  rewrite C in P3. replace (-1 * -1 + 1 * 1) with 2 in P3 by ring.
  assert (0 < sqrtR 2) by (apply sqrt_lt_R0; lra).
  assert (-1 / sqrtR 2 < 0).
  { assert (0 < / sqrtR 2) by now apply Rinv_0_lt_compat. unfold Rdiv. lra. }
  lra.
Qed.
Example C13_witness : exists n raz1 decz1 raz2 decz2,
  palDtps2c (1/2) (1/3) 1 (PI / 4) = (n, Some ((raz1, decz1), (raz2, decz2))) /\
  projects 1 (PI / 4) raz1 decz1 (1/2) (1/3).
Proof.
  assert (P := PI_RGT_0).
  destruct (palDtps2c (1/2) (1/3) 1 (PI / 4)) as [n [[[raz1 decz1] [raz2 decz2]]|]] eqn:E.
  - exists n, raz1, decz1, raz2, decz2. split; [easy|].
    refine (proj1 (C13_solutions_project _ _ _ _ _ _ _ _ _ _ E)). lra.
  - exfalso. rewrite palDtps2c_unf in E. cbv zeta in E. rewrite Rleb_true in E; [discriminate|].
    rewrite cos_PI4, sin_PI4. set (w := 1 / sqrtR 2). assert (0 <= w * w) by nra. nra.
Qed.

(** ** C14 palDeuler *)
Theorem C14_palDeuler : forall order phi theta psi,
  rotation (palDeuler order phi theta psi) /\
  palDeuler order phi theta psi = euler_product (combine (euler_axes 3 order) [phi; theta; psi]).
Proof.
  intros. rewrite palDeuler_product. split; [apply euler_product_rot|easy].
Qed.
(** which characters name which axis *)
Theorem C14_axis_characters : forall c,
  axis_of c = (if in_dec ascii_dec c ["X"; "x"; "1"]%char then Some AX
               else if in_dec ascii_dec c ["Y"; "y"; "2"]%char then Some AY
               else if in_dec ascii_dec c ["Z"; "z"; "3"]%char then Some AZ else None).
Proof. intros [[] [] [] [] [] [] [] []]; vm_compute; reflexivity. Qed.
(** only the first three characters matter *)
Theorem C14_three_characters : forall a b c rest phi theta psi,
  palDeuler (String a (String b (String c rest))) phi theta psi =
  palDeuler (String a (String b (String c EmptyString))) phi theta psi.
Proof.
  intros. rewrite !palDeuler_product. cbn [euler_axes]. destruct (axis_of a), (axis_of b), (axis_of c); try easy; destruct rest; easy.
Qed.
Example C14_witness : palDeuler "zXq" (PI / 2) 0 7 = M (V 0 1 0) (V (-1) 0 0) (V 0 0 1).
Proof.
  rewrite palDeuler_product. unfold euler_product. cbn [euler_axes axis_of combine fold_left fst snd axis_rot Ascii.eqb Bool.eqb orb].
  unfold rotx, rotz. rewrite sin_PI2, cos_PI2, sin_0, cos_0. vnorm. vsplit; ring.
Qed.

(** ** C15 rotation matrix helpers *)
Theorem C15_matrices : forall m, rotation m ->
  (forall v, palDimxv m (palDmxv m v) = v) /\
  (forall v, palDmxv m (palDimxv m v) = v) /\
  (forall u v, palDvdv (palDmxv m u) (palDmxv m v) = palDvdv u v) /\
  (forall u v, palDmxv m (palDvxv u v) = palDvxv (palDmxv m u) (palDmxv m v)) /\
  (forall m2 v, palDmxv (palDmxm m2 m) v = palDmxv m2 (palDmxv m v)) /\
  (forall m2, rotation m2 -> rotation (palDmxm m2 m)).
Proof.
  intros m Hm. unfold palDimxv, palDmxv, palDvdv, palDvxv, palDmxm.
  repeat split; intros.
  - rewrite eraTrxp_mapp, eraRxp_mapp. now apply rot_app_tr.
  - rewrite eraTrxp_mapp, eraRxp_mapp. now apply rot_tr_app.
  - rewrite !eraRxp_mapp. now apply rot_dot.
  - rewrite !eraRxp_mapp. now apply rot_cross.
  - rewrite !eraRxp_mapp, eraRxr_mmul. apply mapp_mmul.
  - rewrite eraRxr_mmul. now apply (rotation_mmul m2 m).
  - rewrite eraRxr_mmul. now apply (rotation_mmul m2 m).
Qed.
Example C15_witness : rotation (palDeuler "XYZ" 1 2 3). Proof. apply C14_palDeuler. Qed.

(** ** C16 axial vectors *)
Theorem C16_axial :
  (forall w, rotation (palDav2m w) /\ palDmxv (palDav2m w) w = w /\
     vx (m0 (palDav2m w)) + vy (m1 (palDav2m w)) + vz (m2 (palDav2m w)) = 1 + 2 * cosR (norm w)) /\
  (** sense of rotation: the axes turn, so a vector appears turned backwards *)
  (forall t, 0 < t -> palDmxv (palDav2m (V 0 0 t)) (V 1 0 0) = V (cosR t) (- sinR t) 0) /\
  (forall w, norm w < PI -> palDm2av (palDav2m w) = w).
Proof.
  unfold palDav2m, palDm2av, palDmxv. split; [|split].
  - intros w. rewrite eraRxp_mapp. split; [apply eraRv2m_rot|]. split; [apply eraRv2m_axis|apply eraRv2m_trace].
  - intros t Ht. rewrite eraRxp_mapp, eraRv2m_rodrigues.
    2:{ intros E. inversion E. lra. }
    assert (N : norm (V 0 0 t) = t).
    { unfold norm, dot; cbn [vx vy vz]. replace (0 * 0 + 0 * 0 + t * t) with (t * t) by ring. apply sqrt_square. lra. }
    rewrite N. unfold rodrigues, scale; vnorm. f_equal; field; lra.
  - apply eraRm2v_eraRv2m.
Qed.
Example C16_witness : norm (V 1 2 2) < PI.
Proof.
  unfold norm, dot; cbn [vx vy vz]. replace (1 * 1 + 2 * 2 + 2 * 2) with (3 * 3) by ring. rewrite sqrt_square by lra.
  apply PI_ineq_3 || (generalize PI2_3_2; lra).
Qed.

Print Assumptions C09_palAltaz_rates.
Print Assumptions C13_all_solutions.
Print Assumptions C16_axial.
