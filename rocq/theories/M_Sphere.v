(** * Models: angles, spherical geometry, horizon coordinates, tangent plane, Euler angles. *)
From Coq Require Import ZArith Bool Ascii String List.
From Verif Require Import Num Erfa.
Import ListNotations.
Local Open Scope num_scope.

Section Sphere.
  Context {T : Type} {A : Arith T}.
  Notation vec := (vec T). Notation mat := (mat T).

  (** palDrange.c:68-77 *)
  Definition palDrange (angle : T) : T :=
    let result := fmod angle D2PI in
    if result >? pi then result - D2PI
    else if result <? - pi then result + D2PI
    else result.

  (** ** palOne2One.c wrappers *)
  (** palOne2One.c:766-768 palDranrm *)
  Definition palDranrm (angle : T) : T := eraAnp angle.
  (** palOne2One.c:368-370 palDcs2c *)
  Definition palDcs2c (a b : T) : vec := eraS2c a b.
  (** palOne2One.c:327-329 palDcc2s: returns (a,b) *)
  Definition palDcc2s (v : vec) : T * T := eraC2s v.
  (** palOne2One.c:201-203 palDbear *)
  Definition palDbear (a1 b1 a2 b2 : T) : T := eraPas a1 b1 a2 b2.
  (** palOne2One.c:649-651 palDpav *)
  Definition palDpav (v1 v2 : vec) : T := eraPap v1 v2.
  (** palOne2One.c:810-812 palDsep *)
  Definition palDsep (a1 b1 a2 b2 : T) : T := eraSeps a1 b1 a2 b2.
  (** palOne2One.c:849-851 palDsepv *)
  Definition palDsepv (v1 v2 : vec) : T := eraSepp v1 v2.
  (** palOne2One.c:976-978 palDvdv *)
  Definition palDvdv (va vb : vec) : T := eraPdp va vb.
  (** palOne2One.c:1015-1017 palDvn: returns (uv, vm); note the swap *)
  Definition palDvn (v : vec) : vec * T := (snd (eraPn v), fst (eraPn v)).
  (** palOne2One.c:1053-1055 palDvxv *)
  Definition palDvxv (va vb : vec) : vec := eraPxp va vb.
  (** palOne2One.c:605-607 palDmxv *)
  Definition palDmxv (dm : mat) (va : vec) : vec := eraRxp dm va.
  (** palOne2One.c:446-448 palDimxv *)
  Definition palDimxv (dm : mat) (va : vec) : vec := eraTrxp dm va.
  (** palOne2One.c:567-569 palDmxm *)
  Definition palDmxm (a b : mat) : mat := eraRxr a b.
  (** palOne2One.c:286-288 palDav2m *)
  Definition palDav2m (axvec : vec) : mat := eraRv2m axvec.
  (** palOne2One.c:486-488 palDm2av *)
  Definition palDm2av (rmat : mat) : vec := eraRm2v rmat.

  (** ** Horizon coordinates *)
  (** palDe2h.c:98-142: (az, el) *)
  Definition palDe2h (ha dec phi : T) : T * T :=
    let sh := sin ha in let ch := cos ha in
    let sd := sin dec in let cd := cos dec in
    let sp := sin phi in let cp := cos phi in
    let x := - ch * cd * sp + sd * cp in
    let y := - sh * cd in
    let z := ch * cd * cp + sd * sp in
    let r := sqrt (x * x + y * y) in
    let a := if r ==? #0 then #0 else atan2 y x in
    let a := if a <? #0 then a + D2PI else a in
    (a, atan2 z r).

  (** palDh2e.c:95-133: (ha, dec) *)
  Definition palDh2e (az el phi : T) : T * T :=
    let sa := sin az in let ca := cos az in
    let se := sin el in let ce := cos el in
    let sp := sin phi in let cp := cos phi in
    let x := - ca * ce * sp + se * cp in
    let y := - sa * ce in
    let z := ca * ce * cp + se * sp in
    let r := sqrt (x * x + y * y) in
    ((if r ==? #0 then #0 else atan2 y x), atan2 z r).

  Record altaz := AltAz { aa_az : T; aa_azd : T; aa_azdd : T;
                          aa_el : T; aa_eld : T; aa_eldd : T;
                          aa_pa : T; aa_pad : T; aa_padd : T }.
  (** palAltaz.c:131-200 *)
  Definition palAltaz (ha dec phi : T) : altaz :=
    let TINY := #1e-30 in
    let sh := sin ha in let ch := cos ha in
    let sd := sin dec in let cd := cos dec in
    let sp := sin phi in let cp := cos phi in
    let chcd := ch * cd in
    let sdcp := sd * cp in
    let x := - chcd * sp + sdcp in
    let y := - sh * cd in
    let z := chcd * cp + sd * sp in
    let rsq := x * x + y * y in
    let r := sqrt rsq in
    let a := if rsq ==? #0 then #0 else atan2 y x in
    let a := if a <? #0 then a + D2PI else a in
    let e := atan2 z r in
    let c := cd * sp - ch * sdcp in
    let s := sh * cp in
    let q := if c * c + s * s >? #0 then atan2 s c else pi - ha in
    let '(rsq, r) := if rsq <? TINY then (TINY, sqrt TINY) else (rsq, r) in
    let qd := - x * cp / rsq in
    let ad := sp + z * qd in
    let ed := cp * y / r in
    let edr := ed / r in
    let add_ := edr * (z * sp + (#2 - rsq) * qd) in
    let edd := - r * qd * ad in
    let qdd := edr * (sp + #2 * z * qd) in
    AltAz a ad add_ e ed edd q qd qdd.

  (** palPa.c:83-91 *)
  Definition palPa (ha dec phi : T) : T :=
    let cp := cos phi in
    let sqsz := cp * sin ha in
    let cqsz := sin phi * cos dec - cp * sin dec * cos ha in
    let cqsz := if (sqsz ==? #0) && (cqsz ==? #0) then #1 else cqsz in
    atan2 sqsz cqsz.

  (** ** Tangent plane *)
  (** palDs2tp.c:82-127: (xi, eta, j) *)
  Definition palDs2tp (ra dec raz decz : T) : T * T * Z :=
    let TINY := #1e-6 in
    let sdecz := sin decz in let sdec := sin dec in
    let cdecz := cos decz in let cdec := cos dec in
    let radif := ra - raz in
    let sradif := sin radif in let cradif := cos radif in
    let denom := sdec * sdecz + cdec * cdecz * cradif in
    let '(j, denom) :=
      if denom >? TINY then (0%Z, denom)
      else if denom >=? #0 then (1%Z, TINY)
      else if denom >? - TINY then (2%Z, - TINY)
      else (3%Z, denom) in
    (cdec * sradif / denom, (sdec * cdecz - cdec * sdecz * cradif) / denom, j).

  (** palDtp2s.c:78-95: (ra, dec) *)
  Definition palDtp2s (xi eta raz decz : T) : T * T :=
    let sdecz := sin decz in let cdecz := cos decz in
    let denom := cdecz - eta * sdecz in
    let d := atan2 xi denom + raz in
    (eraAnp d, atan2 (sdecz + eta * cdecz) (sqrt (xi * xi + denom * denom))).

  (** palDtps2c.c:106-151: n and, when n > 0, the two solutions *)
  Definition palDtps2c (xi eta ra dec : T) : Z * option ((T * T) * (T * T)) :=
    let x2 := xi * xi in let y2 := eta * eta in
    let sd := sin dec in let cd := cos dec in
    let sdf := sd * sqrt (x2 + #1 + y2) in
    let r2 := cd * cd * (y2 + #1) - sd * sd * x2 in
    if r2 >=? #0 then
      let r := sqrt r2 in
      let s := sdf - eta * r in
      let c := sdf * eta + r in
      let r := if (xi ==? #0) && (r ==? #0) then #1 else r in
      let raz1 := eraAnp (ra - atan2 xi r) in
      let decz1 := atan2 s c in
      let r := - r in
      let s := sdf - eta * r in
      let c := sdf * eta + r in
      let raz2 := eraAnp (ra - atan2 xi r) in
      let decz2 := atan2 s c in
      ((if fabs sdf <? #1 then 1%Z else 2%Z), Some ((raz1, decz1), (raz2, decz2)))
    else (0%Z, None).

  (** ** palDeuler.c:94-141.  [order] is the C string (no embedded NUL). The C
      loop runs [i] from 0 while [i < 3] and [order[i]] is not the terminator;
      an unrecognised character sets [i = 3].  [rot] is [rotations[i..2]]. *)
  Inductive axis := AX | AY | AZ.
  (** the [switch], palDeuler.c:111-134 *)
  Definition axis_of (c : ascii) : option axis :=
    (if (Ascii.eqb c "X" || Ascii.eqb c "x" || Ascii.eqb c "1")%char then Some AX
     else if (Ascii.eqb c "Y" || Ascii.eqb c "y" || Ascii.eqb c "2")%char then Some AY
     else if (Ascii.eqb c "Z" || Ascii.eqb c "z" || Ascii.eqb c "3")%char then Some AZ
     else None).
  Definition era_rot (a : axis) : T -> mat -> mat :=
    match a with AX => eraRx | AY => eraRy | AZ => eraRz end.
  Fixpoint deuler_loop (order : string) (rot : list T) (rmat : mat) : mat :=
    match rot, order with
    | ang :: rot', String c order' =>
        match axis_of c with
        | Some a => deuler_loop order' rot' (era_rot a ang rmat)
        | None => rmat
        end
    | _, _ => rmat
    end.
  Definition palDeuler (order : string) (phi theta psi : T) : mat :=
    deuler_loop order [phi; theta; psi] eraIr.

  (** palAirmas.c:86-99 *)
  Definition palAirmas (zd : T) : T :=
    let MAXZD := #87 * DD2R in
    let zd := fabs zd in
    let zd := if zd >? MAXZD then MAXZD else zd in
    let seczm1 := (#1 / cos zd) - #1 in
    #1 + seczm1 * (#0.9981833 - seczm1 * (#0.002875 + #0.0008083 * seczm1)).

  (** palGeoc.c:75-83: (r, z).  ERFA's status is ignored by the C. *)
  Definition palGeoc (p h : T) : T * T :=
    let AU := #1.49597870e11 in
    let elong := #0 in
    let xyz := snd (eraGd2gc_wgs84 elong p h) in
    (vx xyz / (AU * cos elong), vz xyz / AU).
End Sphere.
Arguments altaz : clear implicits.
