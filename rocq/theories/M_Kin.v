(** * Models: motion of the observer, of the Sun and of the Galaxy. *)
From Coq Require Import ZArith Bool List.
From Verif Require Import Num Erfa M_Sphere M_Place.
Import ListNotations.
Local Open Scope num_scope.

Section Kin.
  Context {T : Type} {A : Arith T}.
  Notation vec := (vec T).

  (** ERFA_DAU (erfam.h): astronomical unit in metres *)
  Definition ERFA_DAU : T := #149597870.7e3.
  (** palPvobs.c:77-106: [pv] in au and au/s.  ERFA's status is ignored by the C. *)
  Definition palPvobs (p h stl : T) : pv T :=
    let xyz := snd (eraGd2gc_wgs84 #0.0 p h) in
    let r := vx xyz / ERFA_DAU in
    let z := vz xyz / ERFA_DAU in
    let s := sin stl in
    let c := cos stl in
    let v := SR * r in
    PV (V (r * c) (r * s) z) (V (- v * s) (v * c) #0.0).

  (** palRverot.c:85-91 *)
  Definition palRverot (phi ra da st : T) : T :=
    #0.4655 * cos phi * sin (st - ra) * cos da.
  (** palRvgalc.c:85-111 *)
  Definition palRvgalc (r2000 d2000 : T) : T :=
    eraPdp (V (- #108.70408) #97.86251 (- #164.33610)) (eraS2c r2000 d2000).
  (** palRvlg.c:78-106 *)
  Definition palRvlg (r2000 d2000 : T) : T :=
    eraPdp (V (- #148.23284) #133.44888 (- #224.09467)) (eraS2c r2000 d2000).
  (** palRvlsrd.c:90-116 *)
  Definition palRvlsrd (r2000 d2000 : T) : T :=
    eraPdp (V #0.63823 #14.58542 (- #7.80116)) (eraS2c r2000 d2000).
  (** palRvlsrk.c:90-116 *)
  Definition palRvlsrk (r2000 d2000 : T) : T :=
    eraPdp (V (- #0.29000) #17.31726 (- #10.00141)) (eraS2c r2000 d2000).
End Kin.
