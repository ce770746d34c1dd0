(** * Models: the machine integers of the calendar and sexagesimal routines.

    Elsewhere an [int] or a [long] is a mathematical integer.  Here every addition, subtraction and multiplication of
    integers, every conversion between integer types and every conversion of a floating-point number to an integer is
    checked: the result is [None] as soon as one of them does not fit the type it is computed in, which is undefined
    behaviour in C (6.5p5, 6.3.1.4p1) or an implementation-defined value (6.3.1.3p3), or as soon as a table is indexed
    outside its bounds.  [int] has 32 bits; the number [wl] of bits of [long] is a parameter, 64 on Unix, 32 on Windows. *)
From Coq Require Import ZArith Bool List.
From Verif Require Import Num Erfa M_Time.
Import ListNotations.
Local Open Scope Z_scope.

Definition fits (w z : Z) : bool := (- 2 ^ (w - 1) <=? z) && (z <? 2 ^ (w - 1)).
Definition ck (w z : Z) : option Z := if fits w z then Some z else None.
Definition obind {A B : Type} (x : option A) (f : A -> option B) : option B := match x with Some a => f a | None => None end.
Notation "'let*' x := e 'in' f" := (obind e (fun x => f)) (at level 200, x name, e at level 100, f at level 200).

(** cal2jd.c (ERFA): the table of month lengths, 12 entries *)
Definition mtab_list : list Z := [31;28;31;30;31;30;31;31;30;31;30;31].
Definition at_index (l : list Z) (i : Z) : option Z := if i <? 0 then None else nth_error l (Z.to_nat i).

(** cal2jd.c (ERFA); called from palOne2One.c:154-157 and palCaldj.c:98.  [iypmy] and the day number are [long]. *)
Definition eraCal2jd_c (wl iy im id : Z) : option (Z * option Z) :=
  if iy <? -4799 then Some (-1, None)
  else if (im <? 1) || (12 <? im) then Some (-2, None)
  else
    let ly := if (im =? 2) && is_leap_c iy then 1 else 0 in
    let* i1 := ck 32 (im - 1) in
    let* ml := at_index mtab_list i1 in
    let* last := ck 32 (ml + ly) in
    let j := if (id <? 1) || (last <? id) then -3 else 0 in
    let* m14 := ck 32 (im - 14) in
    let my := Z.quot m14 12 in
    let* iypmy := ck 32 (iy + my) in
    let* a1 := ck wl (iypmy + 4800) in
    let* a2 := ck wl (1461 * a1) in
    let* b1 := ck 32 (im - 2) in
    let* b2 := ck 32 (12 * my) in
    let* b3 := ck 32 (b1 - b2) in
    let* b4 := ck wl (367 * b3) in
    let* c1 := ck wl (iypmy + 4900) in
    let* c2 := ck wl (3 * Z.quot c1 100) in
    let* d1 := ck wl (Z.quot a2 4 + Z.quot b4 12) in
    let* d2 := ck wl (d1 - Z.quot c2 4) in
    let* d3 := ck wl (d2 + id) in
    let* d4 := ck wl (d3 - 2432076) in
    Some (j, Some d4).
(** palOne2One.c:154-157 *)
Definition palCldj_c (wl iy im id : Z) := eraCal2jd_c wl iy im id.
(** palCaldj.c:87-99 *)
Definition palCaldj_c (wl iy im id : Z) :=
  let adj := if (0 <=? iy) && (iy <=? 49) then 2000 else if (50 <=? iy) && (iy <=? 99) then 1900 else 0 in
  let* iy := ck 32 (iy + adj) in eraCal2jd_c wl iy im id.

(** jd2cal.c (ERFA): the integer part; all variables are [long], the results are converted to [int] *)
Definition jd2cal_c (wl jd : Z) : option (Z * Z * Z) :=
  let* l := ck wl (jd + 68569) in
  let* l4 := ck wl (4 * l) in
  let n := Z.quot l4 146097 in
  let* e1 := ck wl (146097 * n) in
  let* e2 := ck wl (e1 + 3) in
  let* l := ck wl (l - Z.quot e2 4) in
  let* g1 := ck wl (l + 1) in
  let* g2 := ck wl (4000 * g1) in
  let i := Z.quot g2 1461001 in
  let* h1 := ck wl (1461 * i) in
  let* h2 := ck wl (Z.quot h1 4 - 31) in
  let* l := ck wl (l - h2) in
  let* p1 := ck wl (80 * l) in
  let k := Z.quot p1 2447 in
  let* q1 := ck wl (2447 * k) in
  let* q2 := ck wl (l - Z.quot q1 80) in
  let* id := ck 32 q2 in
  let l := Z.quot k 11 in
  let* r1 := ck wl (k + 2) in
  let* r2 := ck wl (12 * l) in
  let* r3 := ck wl (r1 - r2) in
  let* im := ck 32 r3 in
  let* s1 := ck wl (n - 49) in
  let* s2 := ck wl (100 * s1) in
  let* s3 := ck wl (s2 + i) in
  let* s4 := ck wl (s3 + l) in
  let* iy := ck 32 s4 in
  Some (iy, im, id).

(** d2tf.c (ERFA): [for (n = 1; n <= ndp; n++) nrs *= 10] and the resolutions 10, 60, 600, ... for negative [ndp] *)
Fixpoint nrs_fine (n : nat) : option Z :=
  match n with O => Some 1 | S p => let* r := nrs_fine p in ck 32 (r * 10) end.
Fixpoint nrs_coarse (n : nat) : option Z :=
  match n with
  | O => Some 1
  | S p => let* r := nrs_coarse p in ck 32 (r * (if (Nat.eqb n 2 || Nat.eqb n 4) then 6 else 10))
  end.

Section Int.
  Context {T : Type} {A : Arith T}.
  Local Open Scope num_scope.

  (** The conversion of a [double] to a signed integer type of [w] bits: defined if the truncated value is representable
      (C99 6.3.1.4p1).  NaN fails both comparisons.  (For 64 bits the lower limit -2^63-1 rounds to -2^63, which is then
      rejected too: the check is stricter than C there, by one value.) *)
  Definition cast (w : Z) (x : T) : option Z :=
    if (ofZ (- 2 ^ (w - 1) - 1)%Z <? x) && (x <? ofZ (2 ^ (w - 1))%Z) then Some (toZ x) else None.

  (** jd2cal.c (ERFA <= 1.7) *)
  Definition eraJd2cal_c (wl : Z) (dj1 dj2 : T) : option (Z * option ((Z * Z * Z) * T)) :=
    let dj := dj1 + dj2 in
    if (dj <? - #68569.5) || (dj >? #1e9) then Some ((-1)%Z, None)
    else
      let '(d1, d2) := if dj1 >=? dj2 then (dj1, dj2) else (dj2, dj1) in
      let d2 := d2 - #0.5 in
      let f1 := fmod d1 #1 in
      let f2 := fmod d2 #1 in
      let f := fmod (f1 + f2) #1 in
      let f := if f <? #0 then f + #1 else f in
      let d := floor (d1 - f1) + floor (d2 - f2) + floor (f1 + f2 - f) in
      let* n := cast wl (floor d) in
      let* jd := ck wl (n + 1) in
      let* ymd := jd2cal_c wl jd in
      Some (0%Z, Some (ymd, f)).
  (** palOne2One.c:529-531 *)
  Definition palDjcl_c (wl : Z) (djm : T) := eraJd2cal_c wl MJD0 djm.
  (** palDjcal.c:80-97 *)
  Definition palDjcal_c (wl ndp : Z) (djm : T) (ymd0 : Z * Z * Z) : option (Z * ((Z * Z * Z) * Z)) :=
    let* jr := eraJd2cal_c wl MJD0 djm in
    let '(j, r) := jr in
    let '(ymd, frac) := match r with Some (ymd, fd) => (ymd, fd) | None => (ymd0, #0) end in
    let nfd := pow #10 (ofZ ndp) in
    let frac := frac * nfd in
    let* f := cast 32 (DNINT frac) in
    Some (j, (ymd, f)).

  (** d2tf.c (ERFA) *)
  Definition eraD2tf_c (ndp : Z) (days : T) : option (bool * (Z * Z * Z * Z)) :=
    let pos := days >=? #0 in
    let a0 := #86400 * fabs days in
    let* a1 := (if (ndp <? 0)%Z then
                  let* m := ck 32 (- ndp) in
                  let* nrs := nrs_coarse (Z.to_nat m) in
                  let rs := ofZ nrs in Some (rs * DNINT (a0 / rs))
                else Some a0) in
    let* nrs := nrs_fine (Z.to_nat (Z.max 0 ndp)) in
    let rs := ofZ nrs in
    let rm := rs * #60 in
    let rh := rm * #60 in
    let a := DNINT (rs * a1) in
    let ah := DINT (a / rh) in
    let a := a - ah * rh in
    let am := DINT (a / rm) in
    let a := a - am * rm in
    let as_ := DINT (a / rs) in
    let af := a - as_ * rs in
    let* h := cast 32 ah in
    let* m := cast 32 am in
    let* s := cast 32 as_ in
    let* f := cast 32 af in
    Some (pos, (h, m, s, f)).
  (** palOne2One.c:408-410, 729-731, 689-691; a2tf.c, a2af.c (ERFA) *)
  Definition palDd2tf_c (ndp : Z) (days : T) := eraD2tf_c ndp days.
  Definition palDr2tf_c (ndp : Z) (angle : T) := eraD2tf_c ndp (angle / D2PI).
  Definition palDr2af_c (ndp : Z) (angle : T) := eraD2tf_c ndp (angle * (#15 / D2PI)).

  (** tf2d.c, tf2a.c, af2a.c (ERFA): [abs (ihour)], [abs (imin)] *)
  Definition palDtf2d_c (ihour imin : Z) (sec : T) : option (T * Z) :=
    let* _h := ck 32 (Z.abs ihour) in let* _m := ck 32 (Z.abs imin) in Some (palDtf2d ihour imin sec).
  Definition palDtf2r_c (ihour imin : Z) (sec : T) : option (T * Z) :=
    let* _h := ck 32 (Z.abs ihour) in let* _m := ck 32 (Z.abs imin) in Some (palDtf2r ihour imin sec).
  Definition palDaf2r_c (ideg iamin : Z) (asec : T) : option (T * Z) :=
    let* _h := ck 32 (Z.abs ideg) in let* _m := ck 32 (Z.abs iamin) in Some (palDaf2r ideg iamin asec).
End Int.
