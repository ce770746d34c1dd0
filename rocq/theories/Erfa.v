(** * External routines: the small ERFA functions PAL calls.

    ERFA is not part of /repo (PAL links against it, pal1sofa.h).  The
    definitions below transcribe the published ERFA C sources; they are part of
    the trusted base.  Large ERFA models (precession, nutation, ephemerides,
    leap seconds) are NOT modelled: the PAL functions that use them take them as
    parameters. *)
From Coq Require Import ZArith Bool Ascii List.
From Verif Require Import Num.
Import ListNotations.
Local Open Scope num_scope.

Section Erfa.
  Context {T : Type} {A : Arith T}.
  Notation vec := (vec T). Notation mat := (mat T).

  (** ** Vector and matrix algebra (erfa: pdp.c pxp.c pm.c pn.c sxp.c rxp.c trxp.c rxr.c tr.c ir.c rx.c ry.c rz.c) *)
  Definition eraPdp (a b : vec) : T := vx a * vx b + vy a * vy b + vz a * vz b.
  Definition eraPxp (a b : vec) : vec :=
    V (vy a * vz b - vz a * vy b) (vz a * vx b - vx a * vz b) (vx a * vy b - vy a * vx b).
  Definition eraPm (p : vec) : T := sqrt (vx p * vx p + vy p * vy p + vz p * vz p).
  Definition eraZp : vec := V #0 #0 #0.
  Definition eraSxp (s : T) (p : vec) : vec := V (s * vx p) (s * vy p) (s * vz p).
  Definition eraPmp (a b : vec) : vec := V (vx a - vx b) (vy a - vy b) (vz a - vz b).
  Definition eraPpp (a b : vec) : vec := V (vx a + vx b) (vy a + vy b) (vz a + vz b).
  (** returns (modulus, unit vector); the zero vector when the modulus is zero *)
  Definition eraPn (p : vec) : T * vec :=
    let w := eraPm p in
    if w ==? #0 then (w, eraZp) else (w, eraSxp (#1 / w) p).
  (** eraRxp: w = sum over j starting from 0.0 *)
  Definition row_dot (r p : vec) : T := #0 + vx r * vx p + vy r * vy p + vz r * vz p.
  Definition eraRxp (r : mat) (p : vec) : vec :=
    V (row_dot (m0 r) p) (row_dot (m1 r) p) (row_dot (m2 r) p).
  Definition eraTr (r : mat) : mat :=
    M (V (vx (m0 r)) (vx (m1 r)) (vx (m2 r)))
      (V (vy (m0 r)) (vy (m1 r)) (vy (m2 r)))
      (V (vz (m0 r)) (vz (m1 r)) (vz (m2 r))).
  Definition eraTrxp (r : mat) (p : vec) : vec := eraRxp (eraTr r) p.
  Definition row_mul (r : vec) (b : mat) : vec :=
    V (#0 + vx r * vx (m0 b) + vy r * vx (m1 b) + vz r * vx (m2 b))
      (#0 + vx r * vy (m0 b) + vy r * vy (m1 b) + vz r * vy (m2 b))
      (#0 + vx r * vz (m0 b) + vy r * vz (m1 b) + vz r * vz (m2 b)).
  Definition eraRxr (a b : mat) : mat := M (row_mul (m0 a) b) (row_mul (m1 a) b) (row_mul (m2 a) b).
  Definition eraIr : mat := M (V #1 #0 #0) (V #0 #1 #0) (V #0 #0 #1).
  (** eraRxpv applied to a pv-vector *)
  Definition eraRxpv (r : mat) (p : pv T) : pv T := PV (eraRxp r (pvp p)) (eraRxp r (pvv p)).

  (** erfa/rx.c: rotate an r-matrix about the x-axis *)
  Definition eraRx (phi : T) (r : mat) : mat :=
    let s := sin phi in let c := cos phi in
    M (m0 r)
      (V (c * vx (m1 r) + s * vx (m2 r)) (c * vy (m1 r) + s * vy (m2 r)) (c * vz (m1 r) + s * vz (m2 r)))
      (V (- s * vx (m1 r) + c * vx (m2 r)) (- s * vy (m1 r) + c * vy (m2 r)) (- s * vz (m1 r) + c * vz (m2 r))).
  (** erfa/ry.c *)
  Definition eraRy (theta : T) (r : mat) : mat :=
    let s := sin theta in let c := cos theta in
    M (V (c * vx (m0 r) - s * vx (m2 r)) (c * vy (m0 r) - s * vy (m2 r)) (c * vz (m0 r) - s * vz (m2 r)))
      (m1 r)
      (V (s * vx (m0 r) + c * vx (m2 r)) (s * vy (m0 r) + c * vy (m2 r)) (s * vz (m0 r) + c * vz (m2 r))).
  (** erfa/rz.c *)
  Definition eraRz (psi : T) (r : mat) : mat :=
    let s := sin psi in let c := cos psi in
    M (V (c * vx (m0 r) + s * vx (m1 r)) (c * vy (m0 r) + s * vy (m1 r)) (c * vz (m0 r) + s * vz (m1 r)))
      (V (- s * vx (m0 r) + c * vx (m1 r)) (- s * vy (m0 r) + c * vy (m1 r)) (- s * vz (m0 r) + c * vz (m1 r)))
      (m2 r).

  (** ** Spherical coordinates (s2c.c c2s.c sepp.c seps.c pas.c pap.c) *)
  Definition eraS2c (theta phi : T) : vec :=
    let cp := cos phi in V (cos theta * cp) (sin theta * cp) (sin phi).
  Definition eraC2s (p : vec) : T * T :=
    let x := vx p in let y := vy p in let z := vz p in
    let d2 := x * x + y * y in
    ((if d2 ==? #0 then #0 else atan2 y x),
     (if z ==? #0 then #0 else atan2 z (sqrt d2))).
  Definition eraSepp (a b : vec) : T :=
    let ss := eraPm (eraPxp a b) in
    let cs := eraPdp a b in
    if (ss !=? #0) || (cs !=? #0) then atan2 ss cs else #0.
  Definition eraSeps (al ap bl bp : T) : T := eraSepp (eraS2c al ap) (eraS2c bl bp).
  Definition eraPas (al ap bl bp : T) : T :=
    let dl := bl - al in
    let y := sin dl * cos bp in
    let x := sin bp * cos ap - cos bp * sin ap * cos dl in
    if (x !=? #0) || (y !=? #0) then atan2 y x else #0.
  Definition eraPap (a b : vec) : T :=
    let am := fst (eraPn a) in let au := snd (eraPn a) in
    let bm := eraPm b in
    let '(st, ct) :=
      if (am ==? #0) || (bm ==? #0) then (#0, #1)
      else
        let xa := vx a in let ya := vy a in let za := vz a in
        let eta := V (- xa * za) (- ya * za) (xa * xa + ya * ya) in
        let xi := eraPxp eta au in
        let a2b := eraPmp b a in
        let st := eraPdp a2b xi in
        let ct := eraPdp a2b eta in
        if (st ==? #0) && (ct ==? #0) then (st, #1) else (st, ct) in
    atan2 st ct.

  (** ** Angles (anp.c anpm.c) *)
  Definition eraAnp (a : T) : T :=
    let w := fmod a D2PI in if w <? #0 then w + D2PI else w.
  Definition eraAnpm (a : T) : T :=
    let w := fmod a D2PI in
    if fabs w >=? pi then w - DSIGN D2PI a else w.

  (** ** Rotation vectors (rv2m.c rm2v.c) *)
  Definition eraRv2m (w : vec) : mat :=
    let phi := sqrt (vx w * vx w + vy w * vy w + vz w * vz w) in
    let s := sin phi in let c := cos phi in let f := #1 - c in
    let u := if phi >? #0 then V (vx w / phi) (vy w / phi) (vz w / phi) else w in
    let x := vx u in let y := vy u in let z := vz u in
    M (V (x * x * f + c) (x * y * f + z * s) (x * z * f - y * s))
      (V (y * x * f - z * s) (y * y * f + c) (y * z * f + x * s))
      (V (z * x * f + y * s) (z * y * f - x * s) (z * z * f + c)).
  Definition eraRm2v (r : mat) : vec :=
    let x := vz (m1 r) - vy (m2 r) in
    let y := vx (m2 r) - vz (m0 r) in
    let z := vy (m0 r) - vx (m1 r) in
    let s2 := sqrt (x * x + y * y + z * z) in
    if s2 >? #0 then
      let c2 := vx (m0 r) + vy (m1 r) + vz (m2 r) - #1 in
      let phi := atan2 s2 c2 in
      let f := phi / s2 in
      V (x * f) (y * f) (z * f)
    else V #0 #0 #0.

  (** ** Sexagesimal (tf2d.c tf2a.c af2a.c d2tf.c a2tf.c a2af.c); sign given as [neg] *)
  Definition sgnmul (neg : bool) : T := if neg then - #1 else #1.
  Definition eraTf2d (neg : bool) (ihour imin : Z) (sec : T) : T * Z :=
    (sgnmul neg * (#60 * (#60 * ofZ (Z.abs ihour) + ofZ (Z.abs imin)) + fabs sec) / #86400,
     if ((ihour <? 0) || (23 <? ihour))%Z then 1%Z
     else if ((imin <? 0) || (59 <? imin))%Z then 2%Z
     else if (sec <? #0) || (sec >=? #60) then 3%Z else 0%Z).
  Definition eraTf2a (neg : bool) (ihour imin : Z) (sec : T) : T * Z :=
    (sgnmul neg * (#60 * (#60 * ofZ (Z.abs ihour) + ofZ (Z.abs imin)) + fabs sec) * DS2R,
     if ((ihour <? 0) || (23 <? ihour))%Z then 1%Z
     else if ((imin <? 0) || (59 <? imin))%Z then 2%Z
     else if (sec <? #0) || (sec >=? #60) then 3%Z else 0%Z).
  Definition eraAf2a (neg : bool) (ideg iamin : Z) (asec : T) : T * Z :=
    (sgnmul neg * (#60 * (#60 * ofZ (Z.abs ideg) + ofZ (Z.abs iamin)) + fabs asec) * DAS2R,
     if ((ideg <? 0) || (359 <? ideg))%Z then 1%Z
     else if ((iamin <? 0) || (59 <? iamin))%Z then 2%Z
     else if (asec <? #0) || (asec >=? #60) then 3%Z else 0%Z).

  (** d2tf.c.  [nrs] for a negative number of decimals: 10, 60, 600, 3600, ... *)
  Fixpoint d2tf_coarse (n : nat) : Z :=
    match n with
    | O => 1%Z
    | S p => (d2tf_coarse p * (if (Nat.eqb n 2 || Nat.eqb n 4) then 6 else 10))%Z
    end.
  Definition eraD2tf (ndp : Z) (days : T) : bool * (Z * Z * Z * Z) :=
    let pos := days >=? #0 in
    let a0 := #86400 * fabs days in
    let a1 := if (ndp <? 0)%Z then
                let rs := ofZ (d2tf_coarse (Z.to_nat (- ndp))) in
                rs * DNINT (a0 / rs)
              else a0 in
    let rs := ofZ (10 ^ Z.max 0 ndp)%Z in
    let rm := rs * #60 in
    let rh := rm * #60 in
    let a := DNINT (rs * a1) in
    let ah := DINT (a / rh) in
    let a := a - ah * rh in
    let am := DINT (a / rm) in
    let a := a - am * rm in
    let as_ := DINT (a / rs) in
    let af := a - as_ * rs in
    (pos, (toZ ah, toZ am, toZ as_, toZ af)).
  Definition eraA2tf (ndp : Z) (angle : T) := eraD2tf ndp (angle / D2PI).
  Definition eraA2af (ndp : Z) (angle : T) := eraD2tf ndp (angle * (#15 / D2PI)).

  (** ** Calendars (cal2jd.c jd2cal.c): C integer division truncates *)
  Definition mtab (im : Z) : Z :=
    nth (Z.to_nat (im - 1)) [31;28;31;30;31;30;31;31;30;31;30;31]%Z 0%Z.
  Definition is_leap_c (iy : Z) : bool :=
    ((Z.rem iy 4 =? 0) && (negb (Z.rem iy 100 =? 0) || (Z.rem iy 400 =? 0)))%Z.
  (** status, and the MJD when it is computed *)
  Definition eraCal2jd (iy im id : Z) : Z * option Z :=
    (if iy <? -4799 then (-1, None)
     else if (im <? 1) || (12 <? im) then (-2, None)
     else
       let ly := if (im =? 2) && is_leap_c iy then 1 else 0 in
       let j := if (id <? 1) || (mtab im + ly <? id) then -3 else 0 in
       let my := Z.quot (im - 14) 12 in
       let iypmy := iy + my in
       (j, Some (Z.quot (1461 * (iypmy + 4800)) 4
                 + Z.quot (367 * (im - 2 - 12 * my)) 12
                 - Z.quot (3 * Z.quot (iypmy + 4900) 100) 4
                 + id - 2432076)))%Z.
  (** the integer part of jd2cal.c: Julian day number (noon based) -> y,m,d *)
  Definition jd2cal_z (jd : Z) : Z * Z * Z :=
    (let l := jd + 68569 in
     let n := Z.quot (4 * l) 146097 in
     let l := l - Z.quot (146097 * n + 3) 4 in
     let i := Z.quot (4000 * (l + 1)) 1461001 in
     let l := l - (Z.quot (1461 * i) 4 - 31) in
     let k := Z.quot (80 * l) 2447 in
     let id := l - Z.quot (2447 * k) 80 in
     let l := Z.quot k 11 in
     let im := k + 2 - 12 * l in
     let iy := 100 * (n - 49) + i + l in
     (iy, im, id))%Z.
  (** jd2cal.c (ERFA <= 1.7): (status, (iy,im,id), fd); [None] when rejected *)
  Definition eraJd2cal (dj1 dj2 : T) : Z * option ((Z * Z * Z) * T) :=
    let dj := dj1 + dj2 in
    if (dj <? - #68569.5) || (dj >? #1e9) then ((-1)%Z, None)
    else
      let '(d1, d2) := if dj1 >=? dj2 then (dj1, dj2) else (dj2, dj1) in
      let d2 := d2 - #0.5 in
      let f1 := fmod d1 #1 in
      let f2 := fmod d2 #1 in
      let f := fmod (f1 + f2) #1 in
      let f := if f <? #0 then f + #1 else f in
      let d := floor (d1 - f1) + floor (d2 - f2) + floor (f1 + f2 - f) in
      let jd := (toZ (floor d) + 1)%Z in
      (0%Z, Some (jd2cal_z jd, f)).

  (** ** Epochs (epb.c epj.c epb2jd.c epj2jd.c) *)
  Definition DJ00 : T := #2451545.0.
  Definition DJY : T := #365.25.
  Definition DTY : T := #365.242198781.
  Definition eraEpb (dj1 dj2 : T) : T :=
    #1900 + ((dj1 - DJ00) + (dj2 + #36524.68648)) / DTY.
  Definition eraEpj (dj1 dj2 : T) : T := #2000 + ((dj1 - DJ00) + dj2) / DJY.
  Definition eraEpb2jd (epb : T) : T * T := (#2400000.5, #15019.81352 + (epb - #1900) * DTY).
  Definition eraEpj2jd (epj : T) : T * T := (#2400000.5, #51544.5 + (epj - #2000) * DJY).

  (** ** Geodesy (gd2gc.c, gd2gce.c, WGS84) *)
  Definition eraGd2gc_wgs84 (elong phi height : T) : Z * vec :=
    let a := #6378137.0 in
    let f := #1 / #298.257223563 in
    let sp := sin phi in let cp := cos phi in
    let w := #1 - f in let w := w * w in
    let d := cp * cp + w * sp * sp in
    if d >? #0 then
      let ac := a / sqrt d in
      let as_ := w * ac in
      let r := (ac + height) * cp in
      (0%Z, V (r * cos elong) (r * sin elong) ((as_ + height) * sp))
    else ((-2)%Z, eraZp).
End Erfa.
