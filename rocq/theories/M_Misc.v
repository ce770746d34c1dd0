(** * Models: the remaining wrappers of palOne2One.c (sidereal time, equation of the equinoxes, Hipparcos, fast refraction
    constants) with the ERFA routines behind them, and palVers.

    The era* definitions transcribe published ERFA sources (era00.c gmst06.c ee06a.c fk5hip.c fk5hz.c hfk5z.c pv2s.c
    refco.c); they are not code of /repo and belong to the trusted base. *)
From Coq Require Import ZArith Bool List Ascii.
From Verif Require Import Num Erfa Erfa2 M_Sphere M_Time.
Import ListNotations.
Local Open Scope num_scope.

Section Misc.
  Context {T : Type} {A : Arith T}.
  Notation vec := (vec T). Notation mat := (mat T).

  (** era00.c *)
  Definition eraEra00 (dj1 dj2 : T) : T :=
    let '(d1, d2) := if dj1 <? dj2 then (dj1, dj2) else (dj2, dj1) in
    let t := d1 + (d2 - DJ00) in
    let f := fmod d1 #1.0 + fmod d2 #1.0 in
    eraAnp (D2PI * (f + #0.7790572732640 + #0.00273781191135448 * t)).
  (** gmst06.c *)
  Definition eraGmst06 (uta utb tta ttb : T) : T :=
    let t := jcent tta ttb in
    eraAnp (eraEra00 uta utb + (#0.014506 + (#4612.156534 + (#1.3915817 + (- #0.00000044 + (- #0.000029956 +
      (- #0.0000000368) * t) * t) * t) * t) * t) * DAS2R).
  (** ee06a.c; [gst06a] stands for eraGst06a *)
  Definition eraEe06a (gst06a : T -> T -> T -> T -> T) (date1 date2 : T) : T :=
    eraAnpm (gst06a #0.0 #0.0 date1 date2 - eraGmst06 #0.0 #0.0 date1 date2).
  (** palOne2One.c:1332-1334 *)
  Definition palGmst (ut1 : T) : T := eraGmst06 MJD0 ut1 MJD0 ut1.
  (** palOne2One.c:1374-1377 *)
  Definition palGmsta (date ut : T) : T := let date := date + MJD0 in eraGmst06 date ut date ut.
  (** palOne2One.c:1242-1244 *)
  Definition palEqeqx (gst06a : T -> T -> T -> T -> T) (date : T) : T := eraEe06a gst06a MJD0 date.

  (** fk5hip.c *)
  Definition eraFk5hip : mat * vec :=
    (eraRv2m (V (- #19.9e-3 * DAS2R) (- #9.1e-3 * DAS2R) (#22.9e-3 * DAS2R)),
     V (- #0.30e-3 * DAS2R) (#0.60e-3 * DAS2R) (#0.70e-3 * DAS2R)).
  (** fk5hz.c *)
  Definition eraFk5hz (r5 d5 date1 date2 : T) : T * T :=
    let t := - ((date1 - DJ00) + date2) / DJY in
    let p5e := eraS2c r5 d5 in
    let '(r5h, s5h) := eraFk5hip in
    let vst := eraSxp t s5h in
    let rst := eraRv2m vst in
    let p5 := eraTrxp rst p5e in
    let ph := eraRxp r5h p5 in
    let '(w, dh) := eraC2s ph in
    (eraAnp w, dh).
  (** pv2s.c: ((theta, phi, r), (td, pd, rd)) *)
  Definition eraPv2s (p : pv T) : (T * T * T) * (T * T * T) :=
    let x := vx (pvp p) in let y := vy (pvp p) in let z := vz (pvp p) in
    let xd := vx (pvv p) in let yd := vy (pvv p) in let zd := vz (pvv p) in
    let rxy2 := x * x + y * y in
    let r2 := rxy2 + z * z in
    let rtrue := sqrt r2 in
    let '(x, y, z, rxy2, r2, rw) :=
      if rtrue ==? #0.0 then
        let rxy2 := xd * xd + yd * yd in let r2 := rxy2 + zd * zd in (xd, yd, zd, rxy2, r2, sqrt r2)
      else (x, y, z, rxy2, r2, rtrue) in
    let rxy := sqrt rxy2 in
    let xyp := x * xd + y * yd in
    let '(theta, phi, td, pd) :=
      if negb (rxy2 ==? #0.0)
      then (atan2 y x, atan2 z rxy, (x * yd - y * xd) / rxy2, (zd * rxy2 - z * xyp) / (r2 * rxy))
      else (#0.0, if negb (z ==? #0.0) then atan2 z rxy else #0.0, #0.0, #0.0) in
    ((theta, phi, rtrue), (td, pd, if negb (rw ==? #0.0) then (xyp + z * zd) / rw else #0.0)).
  (** hfk5z.c: (r5, d5, dr5, dd5) *)
  Definition eraHfk5z (rh dh date1 date2 : T) : T * T * T * T :=
    let t := ((date1 - DJ00) + date2) / DJY in
    let ph := eraS2c rh dh in
    let '(r5h, s5h) := eraFk5hip in
    let sh := eraRxp r5h s5h in
    let vst := eraSxp t s5h in
    let rst := eraRv2m vst in
    let r5ht := eraRxr r5h rst in
    let p5 := eraTrxp r5ht ph in
    let vv := eraPxp sh ph in
    let v5 := eraTrxp r5ht vv in
    let '((w, d5, _), (dr5, dd5, _)) := eraPv2s (PV p5 v5) in
    (eraAnp w, d5, dr5, dd5).
  (** palOne2One.c:1289-1295 *)
  Definition palFk5hz (r5 d5 epoch : T) : T * T :=
    let '(date1, date2) := eraEpj2jd epoch in eraFk5hz r5 d5 date1 date2.
  (** palOne2One.c:1419-1425 *)
  Definition palHfk5z (rh dh epoch : T) : T * T * T * T :=
    let '(date1, date2) := eraEpj2jd epoch in eraHfk5z rh dh date1 date2.

  (** refco.c; GMAX, GMIN are the macros of erfam.h, textually PAL's DMAX, DMIN *)
  Definition eraRefco (phpa tc rh wl : T) : T * T :=
    let optic := wl <=? #100.0 in
    let t := DMIN (DMAX tc (- #150.0)) #200.0 in
    let p := DMIN (DMAX phpa #0.0) #10000.0 in
    let r := DMIN (DMAX rh #0.0) #1.0 in
    let w := DMIN (DMAX wl #0.1) #1e6 in
    let pw :=
      if p >? #0.0 then
        let ps := pow #10.0 ((#0.7859 + #0.03477 * t) / (#1.0 + #0.00412 * t)) *
                  (#1.0 + p * (#4.5e-6 + #6e-10 * t * t)) in
        r * ps / (#1.0 - (#1.0 - r) * ps / p)
      else #0.0 in
    let tk := t + #273.15 in
    let gamma :=
      if optic then
        let wlsq := w * w in
        ((#77.53484e-6 + (#4.39108e-7 + #3.666e-9 / wlsq) / wlsq) * p - #11.2684e-6 * pw) / tk
      else (#77.6890e-6 * p - (#6.3938e-6 - #0.375463 / tk) * pw) / tk in
    let beta := #4.4474e-6 * tk in
    let beta := if negb optic then beta - #0.0074 * pw * beta else beta in
    (gamma * (#1.0 - beta), - gamma * (beta - gamma / #2.0)).
  (** palOne2One.c:1477-1482 *)
  Definition palRefcoq (tdk pmb rh wl : T) : T * T := eraRefco pmb (tdk - #273.15) rh wl.
End Misc.

(** ** palVers.c:78-92.  A buffer is the list of its bytes; [None] is a write outside it.  [zero] is NUL. *)
Definition NUL : ascii := zero.
(** strncpy(dest, src, n) into a buffer of which the first [n] bytes may be written; [src] without its terminating NUL:
    copies up to [n] bytes and pads with NULs.  [None] if the buffer is shorter than [n]. *)
Definition strncpy (dest src : list ascii) (n : nat) : option (list ascii) :=
  if Nat.ltb (length dest) n then None
  else Some (firstn n (src ++ repeat NUL n) ++ skipn n dest).
(** dest[i] = c *)
Definition set_at (dest : list ascii) (i : Z) (c : ascii) : option (list ascii) :=
  if ((i <? 0)%Z || (Z.of_nat (length dest) <=? i)%Z)%bool then None
  else Some (firstn (Z.to_nat i) dest ++ c :: skipn (S (Z.to_nat i)) dest).
(** palVers.c:79-86 without HAVE_STRLCPY *)
Definition my__strlcpy (dest src : list ascii) (size : nat) : option (list ascii) :=
  match strncpy dest src size with
  | None => None
  | Some d => set_at d (Z.of_nat size - 1) NUL
  end.
(** palVers.c:88-92; [version], [vernum] are PACKAGE_VERSION and PACKAGE_VERSION_INTEGER; [verstring] is [None] for a
    null pointer.  The result: [None] if memory outside the buffer is written, otherwise the buffer and the number *)
Definition palVers (version : list ascii) (vernum : Z) (verstring : option (list ascii)) (verlen : nat) :
    option (option (list ascii) * Z) :=
  match verstring with
  | None => Some (None, vernum)
  | Some buf => match my__strlcpy buf version verlen with None => None | Some b => Some (Some b, vernum) end
  end.
