(** * Models: calendar, sexagesimal and epoch routines. *)
From Coq Require Import ZArith Bool List Ascii.
From Verif Require Import Num Erfa.
Local Open Scope num_scope.

Section Time.
  Context {T : Type} {A : Arith T}.

  (** palmac.h: PAL__MJD0 *)
  Definition MJD0 : T := #2400000.5.

  (** palOne2One.c:154-157; (j, MJD when computed) - a C [int] day count is a
      mathematical integer here, which is exact because the [double] holds it exactly *)
  Definition palCldj (iy im id : Z) : Z * option Z := eraCal2jd iy im id.
  (** palCaldj.c:87-99 *)
  Definition palCaldj (iy im id : Z) : Z * option Z :=
    let adj := (if (0 <=? iy) && (iy <=? 49) then 2000
                else if (50 <=? iy) && (iy <=? 99) then 1900 else 0)%Z in
    eraCal2jd (iy + adj)%Z im id.
  (** palOne2One.c:529-531; (j, ((iy,im,id), fd) when computed) *)
  Definition palDjcl (djm : T) : Z * option ((Z * Z * Z) * T) := eraJd2cal MJD0 djm.
  (** palDjcal.c:80-97.  On rejection ERFA leaves [iymdf[0..2]] as they were
      ([ymd0]); [frac] is then the 0.0 it was initialised to. *)
  Definition palDjcal (ndp : Z) (djm : T) (ymd0 : Z * Z * Z) : Z * ((Z * Z * Z) * Z) :=
    let '(j, r) := eraJd2cal MJD0 djm in
    let '(ymd, frac) := match r with Some (ymd, fd) => (ymd, fd) | None => (ymd0, #0) end in
    let nfd := pow #10 (ofZ ndp) in
    let frac := frac * nfd in
    (j, (ymd, toZ (DNINT frac))).

  (** palOne2One.c:893-895, 937-939, 247-249: (value, j); the sign argument is ' ' *)
  Definition palDtf2d (ihour imin : Z) (sec : T) : T * Z := eraTf2d false ihour imin sec.
  Definition palDtf2r (ihour imin : Z) (sec : T) : T * Z := eraTf2a false ihour imin sec.
  Definition palDaf2r (ideg iamin : Z) (asec : T) : T * Z := eraAf2a false ideg iamin asec.
  (** palOne2One.c:408-410, 729-731, 689-691: ('+'?, fields) *)
  Definition palDd2tf (ndp : Z) (days : T) : bool * (Z * Z * Z * Z) := eraD2tf ndp days.
  Definition palDr2tf (ndp : Z) (angle : T) : bool * (Z * Z * Z * Z) := eraA2tf ndp angle.
  Definition palDr2af (ndp : Z) (angle : T) : bool * (Z * Z * Z * Z) := eraA2af ndp angle.

  (** palOne2One.c:1091-1093, 1129-1133, 1169-1171, 1205-1209 *)
  Definition palEpb (date : T) : T := eraEpb MJD0 date.
  Definition palEpb2d (epb : T) : T := snd (eraEpb2jd epb).
  Definition palEpj (date : T) : T := eraEpj MJD0 date.
  Definition palEpj2d (epj : T) : T := snd (eraEpj2jd epj).

  (** C [toupper] in the "C" locale *)
  Definition toupper (c : ascii) : ascii :=
    let n := N_of_ascii c in
    if ((97 <=? n) && (n <=? 122))%N then ascii_of_N (n - 32) else c.
  (** palEpco.c:82-102 *)
  Definition palEpco (k0 k : ascii) (e : T) : T :=
    let k0 := toupper k0 in
    let k := toupper k in
    if Ascii.eqb k k0 then e
    else if Ascii.eqb k0 "B"%char then
      let '(djm0, djm) := eraEpj2jd e in eraEpb djm0 djm
    else
      let '(djm0, djm) := eraEpb2jd e in eraEpj djm0 djm.

  (** palDat.c:82-95; [dat] is eraDat (leap-second table, not modelled), and
      [junk] the uninitialised date eraJd2cal leaves behind when it rejects *)
  Definition palDat (dat : Z -> Z -> Z -> T -> T) (junk : (Z * Z * Z) * T) (dju : T) : T :=
    let '((iy, im, id), fd) := match snd (eraJd2cal MJD0 dju) with Some r => r | None => junk end in
    dat iy im id fd.
  (** palDtt.c:75-77 *)
  Definition palDtt dat junk (utc : T) : T := #32.184 + palDat dat junk utc.

  (** palDt.c:97-125 *)
  Definition palDt (epoch : T) : T :=
    let t := (epoch - #1800.0) / #100.0 in
    if epoch >=? #1708.185161980887 then
      let w := t - #0.19 in #5.156 + #13.3066 * w * w
    else if epoch >=? #979.0258204760233 then #25.5 * t * t
    else #1360.0 + (#320.0 + #44.3 * t) * t.
End Time.
