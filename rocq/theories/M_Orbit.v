(** * Models: orbital elements, prediction and perturbation. *)
From Coq Require Import ZArith Bool List.
From Verif Require Import Num Erfa M_Sphere M_Time M_Frames M_Place M_Kin.
Import ListNotations.
Local Open Scope num_scope.

(** Universal orbital elements, [double u[13]] (palPv2ue.c:34-43): [u[0]] combined mass, [u[1]] total energy alpha,
    [u[2]] reference epoch, [u[3-5]] position, [u[6-8]] velocity, [u[9]] distance, [u[10]] r0.v0, [u[11]] date,
    [u[12]] universal eccentric anomaly. *)
Record ue (T : Type) : Type := UE { u_cm : T; u_alpha : T; u_t0 : T; u_p0 : vec T; u_v0 : vec T;
  u_r0 : T; u_sigma0 : T; u_t : T; u_psi : T }.
Arguments UE {T}. Arguments u_cm {T}. Arguments u_alpha {T}. Arguments u_t0 {T}. Arguments u_p0 {T}.
Arguments u_v0 {T}. Arguments u_r0 {T}. Arguments u_sigma0 {T}. Arguments u_t {T}. Arguments u_psi {T}.

(** The universal functions S0..S3 as computed by palUe2pv. *)
Record ufun (T : Type) : Type := UF { uf0 : T; uf1 : T; uf2 : T; uf3 : T }.
Arguments UF {T}. Arguments uf0 {T}. Arguments uf1 {T}. Arguments uf2 {T}. Arguments uf3 {T}.

(** Outcome of a computation containing a [goto ABORT] and loops run with a fuel. *)
Inductive res (B : Type) : Type := Ok (b : B) | Abort | Stuck.
Arguments Ok {B}. Arguments Abort {B}. Arguments Stuck {B}.
Definition rbind {B C} (r : res B) (f : B -> res C) : res C :=
  match r with Ok b => f b | Abort => Abort | Stuck => Stuck end.

Section Orbit.
  Context {T : Type} {A : Arith T}.
  Notation vec := (vec T). Notation mat := (mat T). Notation ue := (ue T). Notation ufun := (ufun T).

  (** palmac.h:117 PAL__GCON: Gaussian gravitational constant; palPv2ue.c:118, palUe2pv.c:127, palUe2el.c:218 [CD2S] *)
  Definition GCON : T := #0.01720209895.
  Definition CD2S : T := GCON / SPD.

  (** palPv2ue.c:114-182: status, and the elements when status is 0 (otherwise [u] is untouched) *)
  Definition palPv2ue (p : pv T) (date pmass : T) : Z * option ue :=
    if pmass <? #0.0 then (-1, None)%Z else
    let cm := #1.0 + pmass in
    let x := vx (pvp p) in let y := vy (pvp p) in let z := vz (pvp p) in
    let xd := vx (pvv p) / CD2S in let yd := vy (pvv p) / CD2S in let zd := vz (pvv p) / CD2S in
    let r := sqrt (x * x + y * y + z * z) in
    let v2 := xd * xd + yd * yd + zd * zd in
    let v := sqrt v2 in
    if r <? #1e-3 then (-2, None)%Z else
    if v <? #1e-3 then (-3, None)%Z else
    let alpha := v2 - #2.0 * cm / r in
    let rdv := x * xd + y * yd + z * zd in
    (0%Z, Some (UE cm alpha date (V x y z) (V xd yd zd) r rdv date #0.0)).

  (** palUe2pv.c:167-177: the angle-halving loop, (N, BETA, PSJ, PSJ2) on exit.  [hf] bounds the number of halvings;
      [None] when it does not suffice. *)
  Fixpoint ue_halve (hf : nat) (n : nat) (beta psj psj2 : T) : option (nat * T * T * T) :=
    if fabs beta >? #0.7 then
      match hf with
      | O => None
      | S h => ue_halve h (S n) (beta / #4.0) (psj / #2.0) (psj2 / #4.0)
      end
    else Some (n, beta, psj, psj2).
  (** palUe2pv.c:179-193: nested series *)
  Definition ue_series (alpha beta psj psj2 : T) : ufun :=
    let s3 := psj * psj2 * ((((((beta / #210.0 + #1.0) * beta / #156.0 + #1.0) * beta / #110.0 + #1.0)
               * beta / #72.0 + #1.0) * beta / #42.0 + #1.0) * beta / #20.0 + #1.0) / #6.0 in
    let s2 := psj2 * ((((((beta / #182.0 + #1.0) * beta / #132.0 + #1.0) * beta / #90.0 + #1.0)
               * beta / #56.0 + #1.0) * beta / #30.0 + #1.0) * beta / #12.0 + #1.0) / #2.0 in
    let s1 := psj + alpha * s3 in
    let s0 := #1.0 + alpha * s2 in
    UF s0 s1 s2 s3.
  (** palUe2pv.c:195-205: undoing the halving; (S, PSJ, TOL) *)
  Fixpoint ue_double (n : nat) (s : ufun) (psj tol : T) : ufun * T :=
    match n with
    | O => (s, tol)
    | S m =>
        let s3 := #2.0 * (uf0 s * uf3 s + psj * uf2 s) in
        let s2 := #2.0 * uf1 s * uf1 s in
        let s1 := #2.0 * uf0 s * uf1 s in
        let s0 := #2.0 * uf0 s * uf0 s - #1.0 in
        ue_double m (UF s0 s1 s2 s3) (psj + psj) (tol + tol)
    end.
  (** palUe2pv.c:167-205: the universal functions of [psi], and the tolerance *)
  Definition ue_sfun (hf : nat) (alpha psi : T) : option (ufun * T) :=
    let psj2 := psi * psi in
    let beta := alpha * psj2 in
    match ue_halve hf 0 beta psi psj2 with
    | None => None
    | Some (n, beta, psj, psj2) => Some (ue_double n (ue_series alpha beta psj psj2) psj #1e-13)
    end.
  (** What the refinement loop leaves behind: an error status, or S, R and PSI. *)
  Inductive uout : Type := UFail (st : Z) | UDone (s : ufun) (r psi : T).
  (** palUe2pv.c:161-243: the refinement loop.  [left] = 26 - NIT at the head of the loop body; [first] is NIT == 1. *)
  Fixpoint ue_iter (left hf : nat) (cm alpha r0 sigma0 dt psi plast flast : T) (first : bool) : option uout :=
    match ue_sfun hf alpha psi with
    | None => None
    | Some (s, tol) =>
        let ff := r0 * uf1 s + sigma0 * uf2 s + cm * uf3 s - dt in
        let r := r0 * uf0 s + sigma0 * uf1 s + cm * uf2 s in
        let flast := if first then ff else flast in
        let secant := ff * flast <? #0.0 in
        if negb secant && (r ==? #0.0) then Some (UFail (-1))
        else
          let w := if secant then ff * (plast - psi) / (flast - ff) else ff / r in
          let psi' := psi - w in
          match left with
          | O => Some (UFail (-2))
          | S k => if fabs w >=? tol then ue_iter k hf cm alpha r0 sigma0 dt psi' psi ff false
                   else Some (UDone s r psi')
          end
    end.
  (** palUe2pv.c:131 *)
  Definition NITMAX : nat := 25.
  (** palUe2pv.c:245-254: projection *)
  Definition ue_project (cm r0 dt : T) (p0 v0 : vec) (s : ufun) (r : T) : pv T :=
    let w := cm * uf2 s in
    let f := #1.0 - w / r0 in
    let g := dt - cm * uf3 s in
    let fd := - cm * uf1 s / (r0 * r) in
    let gd := #1.0 - w / r in
    PV (V (vx p0 * f + vx v0 * g) (vy p0 * f + vy v0 * g) (vz p0 * f + vz v0 * g))
       (V (CD2S * (vx p0 * fd + vx v0 * gd)) (CD2S * (vy p0 * fd + vy v0 * gd)) (CD2S * (vz p0 * fd + vz v0 * gd))).
  (** palUe2pv.c:124-263: (status, u, pv) from the date, [u] and the previous contents [pv0] of the output array.
      [hf] is the fuel of the halving loop; [None]: it does not suffice. *)
  Definition palUe2pv (hf : nat) (date : T) (u : ue) (pv0 : pv T) : option (Z * ue * pv T) :=
    let psi := u_psi u + (date - u_t u) * GCON / u_r0 u in
    let dt := (date - u_t0 u) * GCON in
    match ue_iter NITMAX hf (u_cm u) (u_alpha u) (u_r0 u) (u_sigma0 u) dt psi #0.0 #0.0 true with
    | None => None
    | Some (UFail st) => Some (st, u, pv0)
    | Some (UDone s r psi') =>
        Some (0%Z, UE (u_cm u) (u_alpha u) (u_t0 u) (u_p0 u) (u_v0 u) (u_r0 u) (u_sigma0 u) date psi',
              ue_project (u_cm u) (u_r0 u) dt (u_p0 u) (u_v0 u) s r)
    end.

  (** palEl2ue.c:183-184, palPv2el.c:207-208 *)
  Definition SE : T := #0.3977771559319137.
  Definition CE : T := #0.9174820620691818.
  (** palEl2ue.c:286-304: from the orbit frame (x towards perihelion, z along the angular momentum), vector (X,Y,0),
      to J2000 equatorial.  The C repeats this for position [Q,0,0] and velocity [0,PHS,0]. *)
  Definition el_rot (orbinc anode : T) (x y : T) : vec :=
    let si := sin orbinc in let ci := cos orbinc in
    let so := sin anode in let co := cos anode in
    let z := y * si in
    let y := y * ci in
    let px := x * co - y * so in
    let y := x * so + y * co in
    V px (y * CE - z * SE) (y * SE + z * CE).
  (** palEl2ue.c:219-244: (PHT, ARGPH, Q, CM) *)
  Definition el_std (jform : Z) (epoch anode perih aorq e aorl dm : T) : T * T * T * T :=
    if (jform =? 1)%Z then
      let w := dm / GCON in
      (epoch - (aorl - perih) / dm, perih - anode, aorq * (#1.0 - e), w * w * aorq * aorq * aorq)
    else if (jform =? 2)%Z then
      (epoch - aorl * sqrt (aorq * aorq * aorq) / GCON, perih, aorq * (#1.0 - e), #1.0)
    else (epoch, perih, aorq, #1.0).
  (** palEl2ue.c:246-332: the elements referred to perihelion, with the starting value of psi for [date] *)
  Definition el_peri (date pht argph q cm orbinc anode e : T) : ue :=
    let alpha := cm * (e - #1.0) / q in
    let phs := sqrt (alpha + #2.0 * cm / q) in
    let sw := sin argph in let cw := cos argph in
    let p := el_rot orbinc anode (q * cw) (q * sw) in
    let v := el_rot orbinc anode (- phs * sw) (phs * cw) in
    let dt := (date - pht) * GCON in
    let fc := dt / q in
    let w := pow (#3.0 * dt + sqrt (#9.0 * dt * dt + #8.0 * q * q * q)) (#1.0 / #3.0) in
    let fp := w - #2.0 * q / w in
    let psi := (#1.0 - e) * fc + e * fp in
    UE cm alpha pht p v q #0.0 date psi.
  (** palEl2ue.c:192-208: argument validation, 0 when acceptable *)
  Definition el_check (jform : Z) (aorq e dm : T) : Z :=
    if (jform <? 1)%Z || (3 <? jform)%Z then (-1)%Z else
    if (e <? #0.0) || (e >? #10.0) || ((e >=? #1.0) && negb (jform =? 3)%Z) then (-2)%Z else
    if aorq <=? #0.0 then (-3)%Z else
    if (jform =? 1)%Z && (dm <=? #0.0) then (-4)%Z else 0%Z.
  (** contents of an uninitialised array; never observed *)
  Definition pv_junk : pv T := PV (V #0.0 #0.0 #0.0) (V #0.0 #0.0 #0.0).
  (** palEl2ue.c:178-351: status and, when 0, the elements *)
  Definition palEl2ue (hf : nat) (date : T) (jform : Z) (epoch orbinc anode perih aorq e aorl dm : T) : option (Z * option ue) :=
    let c := el_check jform aorq e dm in
    if negb (c =? 0)%Z then Some (c, None) else
    let '(pht, argph, q, cm) := el_std jform epoch anode perih aorq e aorl dm in
    match palUe2pv hf date (el_peri date pht argph q cm orbinc anode e) pv_junk with
    | None => None
    | Some (j, ul, p) =>
        if negb (j =? 0)%Z then Some (-5, None)%Z else
        match palPv2ue p date (cm - #1.0) with
        | (j, u) => if negb (j =? 0)%Z then Some (-5, None)%Z else Some (0%Z, u)
        end
    end.
  (** palPlanel.c:200-220: status and, when 0, the state vector (otherwise [pv] is untouched) *)
  Definition palPlanel (hf : nat) (date : T) (jform : Z) (epoch orbinc anode perih aorq e aorl dm : T) : option (Z * option (pv T)) :=
    match palEl2ue hf date jform epoch orbinc anode perih aorq e aorl dm with
    | None => None
    | Some (0%Z, Some u) =>
        match palUe2pv hf date u pv_junk with
        | None => None
        | Some (j, u', p) => if negb (j =? 0)%Z then Some (-5, None)%Z else Some (0%Z, Some p)
        end
    | Some (j, _) => Some (j, None)
    end.

  (** palPlantu.c:126-188: status and (ra, dec, r).  [prenut], [gmst] stand for palPrenut, palGmst; [junk] is the
      uninitialised local array [vsp], which is used when palUe2pv fails. *)
  Definition pvsub (a b : pv T) : pv T := PV (eraPmp (pvp a) (pvp b)) (eraPmp (pvv a) (pvv b)).
  Definition palPlantu (epv00 : T -> T -> pv T * pv T) (prenut : T -> T -> mat) (gmst : T -> T) (hf : nat)
      (junk : pv T) (date elong phi : T) (u : ue) : option (Z * (T * T * T)) :=
    let '(ph, vh, _, _) := palEpv epv00 date in
    let vsg := PV ph (vdiv vh SPD) in
    match palUe2pv hf date u junk with
    | None => None
    | Some (st, _, vsp) =>
        let vgp := eraRxpv (prenut #2000.0 date) (pvsub vsp vsg) in
        let stl := gmst (date - palDt (palEpj date) / SPD) + elong in
        let v := pvsub vgp (palPvobs phi #0.0 stl) in
        let d := sqrt (vx (pvp v) * vx (pvp v) + vy (pvp v) * vy (pvp v) + vz (pvp v) * vz (pvp v)) in
        let tl := CR * d in
        let w := V (vx (pvp v) - tl * vx (pvv v)) (vy (pvp v) - tl * vy (pvv v)) (vz (pvp v) - tl * vz (pvv v)) in
        let '(ra, dec) := eraC2s w in
        Some (st, (eraAnp ra, dec, d))
    end.
  (** palPlante.c:269-283: status, and (ra, dec, r) when the elements are accepted *)
  Definition palPlante epv00 prenut gmst (hf : nat) (junk : pv T) (date elong phi : T) (jform : Z)
      (epoch orbinc anode perih aorq e aorl dm : T) : option (Z * option (T * T * T)) :=
    match palEl2ue hf date jform epoch orbinc anode perih aorq e aorl dm with
    | None => None
    | Some (0%Z, Some u) =>
        match palPlantu epv00 prenut gmst hf junk date elong phi u with
        | None => None
        | Some (j, out) => Some (j, Some out)
        end
    | Some (j, _) => Some (j, None)
    end.
  (** palPlanet.c:82-99; [plan94] stands for eraPlan94 *)
  Definition palPlanet (plan94 : T -> T -> Z -> Z * pv T) (date : T) (np : Z) : Z * pv T :=
    let '(j, p) := plan94 MJD0 date np in
    (if (j =? 2)%Z then (-2)%Z else j, PV (pvp p) (vdiv (pvv p) SPD)).

  (** palPv2el.c:201-405.  Outputs when the status is 0; [el_aorl] and [el_dm] are written only for some forms. *)
  Record elements : Type := Elements { el_jform : Z; el_epoch : T; el_orbinc : T; el_anode : T; el_perih : T;
    el_aorq : T; el_e : T; el_aorl : option T; el_dm : option T }.
  (** palPv2el.c:237-245: equatorial to ecliptic *)
  Definition to_ecl (v : vec) : vec := V (vx v) (vy v * CE + vz v * SE) (- vy v * SE + vz v * CE).
  (** palPv2el.c:258-308: angular momentum, inclination, node, AR, eccentricity, true anomaly, argument of perihelion *)
  Record conic : Type := Conic { k_h2 : T; k_h : T; k_oi : T; k_bigom : T; k_ar : T; k_ecc : T; k_at : T; k_om : T }.
  Definition pv_conic (p v : vec) (r v2 gmu : T) : conic :=
    let x := vx p in let y := vy p in let z := vz p in
    let xd := vx v in let yd := vy v in let zd := vz v in
    let rdv := x * xd + y * yd + z * zd in
    let hx := y * zd - z * yd in
    let hy := z * xd - x * zd in
    let hz := x * yd - y * xd in
    let hx2py2 := hx * hx + hy * hy in
    let h2 := hx2py2 + hz * hz in
    let h := sqrt h2 in
    let oi := atan2 (sqrt hx2py2) hz in
    let bigom := if (hx !=? #0.0) || (hy !=? #0.0) then atan2 hx (- hy) else #0.0 in
    let ar := #2.0 / r - v2 / gmu in
    let ecc := sqrt (DMAX (#1.0 - ar * h2 / gmu) #0.0) in
    let s := h * rdv in
    let c := h2 - r * gmu in
    let at_ := if (s !=? #0.0) || (c !=? #0.0) then atan2 s c else #0.0 in
    let s := sin bigom in
    let c := cos bigom in
    let u := atan2 ((- x * s + y * c) * cos oi + z * sin oi) (x * c + y * s) in
    let om := u - at_ in
    let ecc := if fabs (ecc - #1.0) <? #1.0e-8 then #1.0 else ecc in
    Conic h2 h oi bigom ar ecc at_ om.
  (** palPv2el.c:313-381: (AM, DN) for an ellipse (0, 0 otherwise) *)
  Definition pv_mean (gmu ar ecc at_ : T) : T * T :=
    let gar3 := gmu * ar * ar * ar in
    let hat := at_ / #2.0 in
    if ecc <? #1.0 then
      let ae := #2.0 * atan2 (sqrt (- (ecc - #1.0)) * sin hat) (sqrt (ecc + #1.0) * cos hat) in
      (ae - ecc * sin ae, sqrt gar3)
    else (#0.0, #0.0).
  (** palPv2el.c:355-380: epoch of perihelion *)
  Definition pv_tp (date gmu : T) (k : conic) (am dn : T) : T :=
    let ar := k_ar k in
    let gar3 := gmu * ar * ar * ar in
    let ecc := k_ecc k in
    let hat := k_at k / #2.0 in
    if ecc <? #1.0 then date - am / dn
    else
      let that := sin hat / cos hat in
      if ecc ==? #1.0 then date - that * (#1.0 + that * that / #3.0) * k_h k * k_h2 k / (#2.0 * gmu * gmu)
      else
        let thhf := sqrt ((ecc - #1.0) / (ecc + #1.0)) * that in
        let f := log (#1.0 + thhf) - log (#1.0 - thhf) in
        date - (ecc * sinh f - f) / sqrt (- gar3).
  (** palPv2el.c:310-311, 342-403 *)
  Definition pv_out (date gmu : T) (jformr : Z) (k : conic) : elements :=
    let jf := if k_ecc k >? #1.0 then 3%Z else jformr in
    let '(am, dn) := pv_mean gmu (k_ar k) (k_ecc k) (k_at k) in
    if (jf =? 1)%Z then
      let pl := k_bigom k + k_om k in
      Elements jf date (k_oi k) (eraAnp (k_bigom k)) (eraAnp pl) (#1.0 / k_ar k) (k_ecc k)
        (Some (eraAnp (pl + am))) (Some dn)
    else if (jf =? 3)%Z then
      Elements jf (pv_tp date gmu k am dn) (k_oi k) (eraAnp (k_bigom k)) (eraAnp (k_om k))
        (k_h2 k / (gmu * (k_ecc k + #1.0))) (k_ecc k) None None
    else
      Elements jf date (k_oi k) (eraAnp (k_bigom k)) (eraAnp (k_om k)) (#1.0 / k_ar k) (k_ecc k)
        (Some (eraAnp am)) None.
  (** palPv2el.c:201-405 *)
  Definition palPv2el (p : pv T) (date pmass : T) (jformr : Z) : Z * option elements :=
    if pmass <? #0.0 then (-1, None)%Z else
    if (jformr <? 1)%Z || (3 <? jformr)%Z then (-2, None)%Z else
    let pos := to_ecl (pvp p) in
    let w := to_ecl (pvv p) in
    let vel := V (SPD * vx w) (SPD * vy w) (SPD * vz w) in
    let r := sqrt (vx pos * vx pos + vy pos * vy pos + vz pos * vz pos) in
    let v2 := vx vel * vx vel + vy vel * vy vel + vz vel * vz vel in
    let v := sqrt v2 in
    if (r <? #1e-3) || (v <? #1e-8) then (-3, None)%Z else
    let gmu := (#1.0 + pmass) * GCON * GCON in
    (0%Z, Some (pv_out date gmu jformr (pv_conic pos vel r v2 gmu))).
  (** palUe2el.c:212-234 *)
  Definition palUe2el (u : ue) (jformr : Z) : Z * option elements :=
    let v0 := u_v0 u in
    palPv2el (PV (u_p0 u) (V (vx v0 * CD2S) (vy v0 * CD2S) (vz v0 * CD2S))) (u_t0 u) (u_cm u - #1.0) jformr.

  (** ** palPertue *)
  (** palPertue.c:340-344, indexed by NP-1 *)
  Definition AMAS (np : Z) : T :=
    match np with
    | 1 => #6023600.0 | 2 => #408523.5 | 3 => #328900.5 | 4 => #3098710.0 | 5 => #1047.355 | 6 => #3498.5
    | 7 => #22869.0 | 8 => #19314.0 | 9 => #332946.038 | _ => #27068709.0
    end%Z.
  Definition GCON2 : T := GCON * GCON.
  Definition sq3 (v : vec) : T := #0.0 + vx v * vx v + vy v * vy v + vz v * vz v.
  (** major planet data: state vector (AU, AU/d), R2X3, GC *)
  Record pldat : Type := Pldat { pl_pv : pv T; pl_r2x3 : T; pl_gc : T }.
  (** variables of palPertue that live across time steps *)
  Record pstate : Type := PS { ps_ul : ue; ps_t0 : T; ps_tspan : T; ps_tleft : T; ps_first : bool; ps_rtn : T;
    ps_perp : vec; ps_perv : vec; ps_pera : vec; ps_fd : vec; ps_tpel : T; ps_up : list ue; ps_tpmo : T;
    ps_pl : list pldat; ps_jstat : Z }.
  Definition planets8 : list Z := [1; 2; 3; 4; 5; 6; 7; 8]%Z.
  (** palPertue.c:386-404: signed length of the time step, before the override *)
  Definition pt_ts (first : bool) (fb : T) (fd : vec) : T :=
    let ts :=
      if first then #0.01
      else let w := sqrt (sq3 fd) in
           if w !=? #0.0 then DMIN #10.0 (DMAX #0.01 (#1e-4 / w)) else #10.0 in
    ts * fb.
  (** palPertue.c:414-435: recomputation of the elements of the major planets: (status, UP) *)
  Fixpoint pt_elements (plan94 : T -> T -> Z -> Z * pv T) (tpel : T) (nps : list Z) (jstat : Z) : res (Z * list ue) :=
    match nps with
    | [] => Ok (jstat, [])
    | np :: rest =>
        let '(j, p) := palPlanet plan94 tpel np in
        if (j =? 1)%Z || (j =? 0)%Z then
          let jstat := if (j =? 1)%Z then 102%Z else jstat in
          match palPv2ue p tpel #0.0 with
          | (0%Z, Some u) => rbind (pt_elements plan94 tpel rest jstat) (fun '(js, us) => Ok (js, u :: us))
          | _ => Abort
          end
        else Abort
    end.
  (** palPertue.c:443-463: motions of the major planets: (UP, data) *)
  Fixpoint pt_motions (hf : nat) (tpmo : T) (ups : list ue) : res (list (ue * pldat)) :=
    match ups with
    | [] => Ok []
    | u :: rest =>
        match palUe2pv hf tpmo u pv_junk with
        | None => Stuck
        | Some (j, u', p) =>
            if negb (j =? 0)%Z then Abort else
            let v := pvv p in
            let r2 := sq3 (pvp p) in
            let d := Pldat (PV (pvp p) (V (vx v * SPD) (vy v * SPD) (vz v * SPD)))
                       (r2 * #3.0) (GCON2 / (#2.0 * r2 * sqrt r2)) in
            rbind (pt_motions hf tpmo rest) (fun ds => Ok ((u', d) :: ds))
        end
    end.
  (** palPertue.c:511-527: extrapolated position of a planet *)
  Definition pt_rho (d : pldat) (dt : T) : vec :=
    let p := pvp (pl_pv d) in let v := pvv (pl_pv d) in
    let r2 := sq3 (V (vx v * dt) (vy v * dt) (vz v * dt)) in
    let fc := #1.0 + r2 / pl_r2x3 d in
    let fg := #1.0 - pl_gc d * (dt * dt) in
    V (fg * (vx p + fc * vx v * dt)) (fg * (vy p + fc * vy v * dt)) (fg * (vz p + fc * vz v * dt)).
  (** palPertue.c:556-592: one body at RHO; state is (NE, FD, jstat) *)
  Definition pt_body (pvb : vec) (np : Z) (rho : vec) (st : bool * vec * Z) : bool * vec * Z :=
    let '(ne, fd, jstat) := st in
    let rr := sq3 rho in
    let rho3 := rr * sqrt rr in
    let delta := eraPmp rho pvb in
    let r2 := sq3 delta in
    let r := sqrt r2 in
    let ne := if (np =? 3)%Z && (r <? #1.0) then true else ne in
    if ne && (np =? 3)%Z then (ne, fd, jstat)
    else if r <? #0.0001 then (ne, fd, np)
    else
      let delta3 := r2 * r in
      let w := AMAS np in
      (ne, V (vx fd + (vx delta / delta3 - vx rho / rho3) / w) (vy fd + (vy delta / delta3 - vy rho / rho3) / w)
             (vz fd + (vz delta / delta3 - vz rho / rho3) / w), jstat).
  (** palPertue.c:505-595: the loop over the perturbing bodies; [nps] is the range of NP, [pe] the Earth's heliocentric
      position and [pm] the Moon's geocentric J2000 position at the same instant (evaluated by the C only when needed) *)
  Fixpoint pt_bodies (nps : list Z) (dat : list pldat) (pe pm pvb : vec) (dt : T) (st : bool * vec * Z) : bool * vec * Z :=
    match nps with
    | [] => st
    | np :: rest =>
        let ne := fst (fst st) in
        let st' :=
          if (np <=? 8)%Z then
            match nth_error dat (Z.to_nat (np - 1)) with
            | Some d => pt_body pvb np (pt_rho d dt) st
            | None => st (* not reached: the table has eight entries *)
            end
          else if ne then pt_body pvb np (if (np =? 9)%Z then pe else eraPpp pm pe) st
          else st in
        pt_bodies rest dat pe pm pvb dt st'
    end.
  (** palPertue.c:506: [for (NP=1; NP<10; NP++)] *)
  Definition pt_range : list Z := [1; 2; 3; 4; 5; 6; 7; 8; 9]%Z.
  (** palPertue.c:473-479: perturbed position at mid step *)
  Definition pt_pos (p0 perp perv pera : vec) (hts : T) : vec :=
    let f p0 perp perv pera := p0 + perp + (perv + pera * hts / #2.0) * hts in
    V (f (vx p0) (vx perp) (vx perv) (vx pera)) (f (vy p0) (vy perp) (vy perv) (vy pera))
      (f (vz p0) (vz perp) (vz perv) (vz pera)).
  (** palPertue.c:491-494: indirect part *)
  Definition pt_fi (p0 p : vec) : vec :=
    let r2 := sq3 p in let r3 := r2 * sqrt r2 in
    let q2 := sq3 p0 in let r03 := q2 * sqrt q2 in
    V (vx p0 / r03 - vx p / r3) (vy p0 / r03 - vy p / r3) (vz p0 / r03 - vz p / r3).
  (** palPertue.c:384-641: one time step.  [moon] gives the Moon's geocentric J2000 position (palPertue.c:544-546). *)
  Definition pt_step plan94 epv00 (moon : T -> vec) (hf : nat) (tfinal fb : T) (s : pstate) : res pstate :=
    let ts := pt_ts (ps_first s) fb (ps_fd s) in
    let tleft := ps_tspan s - ps_rtn s in
    let ts := if fabs ts >? fabs tleft then tleft else ts in
    let hts := ts / #2.0 in
    let t := ps_t0 s + ps_rtn s + hts in
    rbind (if ps_first s || (fabs (t - ps_tpel s) - #50.0 >=? #1e-6) then
             let tpel := t + fb * #50.0 in
             rbind (pt_elements plan94 tpel planets8 (ps_jstat s)) (fun '(js, up) => Ok (tpel, js, up))
           else Ok (ps_tpel s, ps_jstat s, ps_up s)) (fun '(tpel, jstat, up) =>
    rbind (if ps_first s || (fabs (t - ps_tpmo s) - #5.0 >=? #1e-6) then
             let tpmo := t + fb * #5.0 in
             rbind (pt_motions hf tpmo up) (fun l => Ok (tpmo, map fst l, map snd l))
           else Ok (ps_tpmo s, up, ps_pl s)) (fun '(tpmo, up, pl) =>
    match palUe2pv hf t (ps_ul s) pv_junk with
    | None => Stuck
    | Some (j, ul, p0) =>
      if negb (j =? 0)%Z then Abort else
      let p := pt_pos (pvp p0) (ps_perp s) (ps_perv s) (ps_pera s) hts in
      let fi := pt_fi (pvp p0) p in
      let '(pe, _, _, _) := palEpv epv00 t in
      let '(ne, fd, jstat) := pt_bodies pt_range pl pe (moon t) p (t - tpmo) (false, V #0.0 #0.0 #0.0, jstat) in
      let rtn := ps_rtn s + ts in
      let w := V ((vx fi + vx fd) * GCON2) ((vy fi + vy fd) * GCON2) ((vz fi + vz fd) * GCON2) in
      let ft := V (vx w * ts) (vy w * ts) (vz w * ts) in
      let perp := ps_perp s in let perv := ps_perv s in
      let perp' := V (vx perp + (vx perv + vx ft / #2.0) * ts) (vy perp + (vy perv + vy ft / #2.0) * ts)
                     (vz perp + (vz perv + vz ft / #2.0) * ts) in
      let perv' := eraPpp perv ft in
      let tleft := ps_tspan s - rtn in
      if (fabs rtn >=? #100.0) || (fb * tleft <=? #0.0) then
        let t0 := ps_t0 s + rtn in
        match palUe2pv hf t0 ul pv_junk with
        | None => Stuck
        | Some (j, ul, p0) =>
          if negb (j =? 0)%Z then Abort else
          let pv' := PV (eraPpp (pvp p0) perp') (eraPpp (pvv p0) (vdiv perv' SPD)) in
          let z := V #0.0 #0.0 #0.0 in
          let pera := V (vx fd * GCON2) (vy fd * GCON2) (vz fd * GCON2) in
          match palPv2ue pv' t0 #0.0 with
          | (0%Z, Some ul') =>
              Ok (PS ul' t0 (tfinal - t0) (tfinal - t0) false #0.0 z z pera fd tpel up tpmo pl jstat)
          | _ => Abort
          end
        end
      else Ok (PS ul (ps_t0 s) (ps_tspan s) tleft false rtn perp' perv' w fd tpel up tpmo pl jstat)
    end)).
  (** palPertue.c:383: [while (FB*TLEFT > 0.0)], at most [n] steps *)
  Fixpoint pt_loop plan94 epv00 moon (hf n : nat) (tfinal fb : T) (s : pstate) : res pstate :=
    if fb * ps_tleft s >? #0.0 then
      match n with
      | O => Stuck
      | S m => rbind (pt_step plan94 epv00 moon hf tfinal fb s) (pt_loop plan94 epv00 moon hf m tfinal fb)
      end
    else Ok s.
  (** palPertue.c:346-381 (COPYSIGN is [DSIGN] here: the two differ only for a negative zero or a NaN) *)
  Definition pt_init (date : T) (u : ue) : pstate :=
    let tspan := date - u_t0 u in
    let z := V #0.0 #0.0 #0.0 in
    PS u (u_t0 u) tspan tspan true #0.0 z z z z #0.0 [] #0.0 [] (if fabs tspan >? #36525.0 then 101%Z else 0%Z).
  (** palPertue.c:212-655: status and [u].  [hf], [n]: fuel of the halving loop and of the stepping loop. *)
  Definition palPertue plan94 epv00 moon (hf n : nat) (date : T) (u : ue) : option (Z * ue) :=
    match pt_loop plan94 epv00 moon hf n date (DSIGN #1.0 (date - u_t0 u)) (pt_init date u) with
    | Ok s => Some (ps_jstat s, ps_ul s)
    | Abort => Some ((-1)%Z, u)
    | Stuck => None
    end.
  (** palPertue.c:543-546: the Moon's geocentric J2000 position *)
  Definition pt_moon (dmoon : T -> pv T) (t : T) : vec := eraRxp (palPrec (palEpj t) #2000.0) (pvp (dmoon t)).

  (** palPertel.c:171-212: status and, unless the failure precedes palUe2el, its outputs
      (epoch1, orbi1, anode1, perih1, aorq1, e1, am1 if written).  When palUe2el fails [jf] is read uninitialised, but the
      status is -5 whatever it holds. *)
  Definition palPertel plan94 epv00 moon (hf n : nat) (jform : Z) (date0 date1 epoch0 orbi0 anode0 perih0 aorq0 e0 am0 : T)
      : option (Z * option elements) :=
    if (jform <? 2)%Z || (3 <? jform)%Z then Some (-1, None)%Z else
    match palEl2ue hf date0 jform epoch0 orbi0 anode0 perih0 aorq0 e0 am0 #0.0 with
    | None => None
    | Some (0%Z, Some u) =>
        match palPertue plan94 epv00 moon hf n date1 u with
        | None => None
        | Some (j, u) =>
            if (j <? 0)%Z then Some (-5, None)%Z else
            match palUe2el u jform with
            | (j', Some el) => Some (if negb (el_jform el =? jform)%Z || negb (j' =? 0)%Z then (-5)%Z else j, Some el)
            | (_, None) => Some (-5, None)%Z
            end
        end
    | Some (j, _) => Some (j, None)
    end.

  (** ** palRdplan *)
  (** palRdplan.c:108-118 *)
  Definition EQRAU (np : Z) : T :=
    match np with
    | 0 => #696000.0 | 1 => #2439.7 | 2 => #6051.9 | 3 => #1738 | 4 => #3397 | 5 => #71492 | 6 => #60268
    | 7 => #25559 | _ => #24764
    end%Z.
  (** palRdplan.c:101-224: (ra, dec, diam).  [dmoon], [nut], [prenut], [gmst] stand for palDmoon, palNut, palPrenut,
      palGmst *)
  Definition palRdplan (plan94 : T -> T -> Z -> Z * pv T) (dmoon : T -> pv T) (nut : T -> mat) (prenut : T -> T -> mat)
      (gmst : T -> T) (date : T) (np : Z) (elong phi : T) : T * T * T :=
    let np := if (np <? 0)%Z || (8 <? np)%Z then 0%Z else np in
    let stl := gmst (date - palDt (palEpj date) / #86400.0) + elong in
    let vgm := eraRxpv (nut date) (dmoon date) in
    let v :=
      if (np =? 3)%Z then vgm
      else
        let rmat := prenut #2000.0 date in
        let vse := eraRxpv rmat (snd (palPlanet plan94 date 3)) in
        let sc w := V (#0.012150581 * vx w) (#0.012150581 * vy w) (#0.012150581 * vz w) in
        let vsg := PV (eraPmp (pvp vse) (sc (pvp vgm))) (eraPmp (pvv vse) (sc (pvv vgm))) in
        if (np =? 0)%Z then
          let neg w := V (- vx w) (- vy w) (- vz w) in PV (neg (pvp vsg)) (neg (pvv vsg))
        else pvsub (eraRxpv rmat (snd (palPlanet plan94 date np))) vsg in
    let v := pvsub v (palPvobs phi #0.0 stl) in
    let r := sqrt (vx (pvp v) * vx (pvp v) + vy (pvp v) * vy (pvp v) + vz (pvp v) * vz (pvp v)) in
    let tl := CR * r in
    let w := V (vx (pvp v) - tl * vx (pvv v)) (vy (pvp v) - tl * vy (pvv v)) (vz (pvp v) - tl * vz (pvv v)) in
    let '(ra, dec) := eraC2s w in
    (eraAnp ra, dec, #2.0 * asin (EQRAU np / (r * #1.49597870e8))).
End Orbit.
