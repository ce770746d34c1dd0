(** * Model: the table of TAI-UTC behind palDat and palDtt.

    dat.c of ERFA, as released in 2017 and later.  It is not in /repo (palDat.c:93 calls it): the table and the algorithm are
    modelled from the published ERFA source. *)
From Coq Require Import ZArith Bool List.
From Verif Require Import Num Erfa M_Time.
Import ListNotations.
Local Open Scope num_scope.

(** dat.c: [changes[i].iyear], [changes[i].month] *)
Definition dat_dates : list (Z * Z) :=
  [ (1960, 1); (1961, 1); (1961, 8); (1962, 1); (1963, 11); (1964, 1); (1964, 4); (1964, 9); (1965, 1); (1965, 3); (1965, 7); (1965, 9); (1966, 1); (1968, 2);
    (1972, 1); (1972, 7); (1973, 1); (1974, 1); (1975, 1); (1976, 1); (1977, 1); (1978, 1); (1979, 1); (1980, 1); (1981, 7); (1982, 7); (1983, 7); (1985, 7);
    (1988, 1); (1990, 1); (1991, 1); (1992, 7); (1993, 7); (1994, 7); (1996, 1); (1997, 7); (1999, 1); (2006, 1); (2009, 1); (2012, 7); (2015, 7); (2017, 1) ]%Z.
(** dat.c: the loop [for (i = NDAT-1; i >= 0; i--) if (m >= (12 * changes[i].iyear + changes[i].month)) break] *)
Fixpoint dat_row (n : nat) (m : Z) : option nat :=
  match n with
  | O => None
  | S i => let '(y, mo) := nth i dat_dates (0, 0)%Z in if (12 * y + mo <=? m)%Z then Some i else dat_row i m
  end.

Section Dat.
  Context {T : Type} {A : Arith T}.
  (** dat.c: [changes[i].delat] *)
  Definition dat_delat : list T :=
    [ #1.4178180; #1.4228180; #1.3728180; #1.8458580; #1.9458580; #3.2401300; #3.3401300; #3.4401300; #3.5401300; #3.6401300; #3.7401300; #3.8401300; #4.3131700; #4.2131700;
      #10.0; #11.0; #12.0; #13.0; #14.0; #15.0; #16.0; #17.0; #18.0; #19.0; #20.0; #21.0; #22.0; #23.0;
      #24.0; #25.0; #26.0; #27.0; #28.0; #29.0; #30.0; #31.0; #32.0; #33.0; #34.0; #35.0; #36.0; #37.0 ].
  (** dat.c: reference dates (MJD) and drift rates (s/day), pre leap seconds *)
  Definition dat_drift : list (T * T) :=
    [ (#37300.0, #0.0012960); (#37300.0, #0.0012960); (#37300.0, #0.0012960); (#37665.0, #0.0011232); (#37665.0, #0.0011232);
      (#38761.0, #0.0012960); (#38761.0, #0.0012960); (#38761.0, #0.0012960); (#38761.0, #0.0012960); (#38761.0, #0.0012960); (#38761.0, #0.0012960); (#38761.0, #0.0012960);
      (#39126.0, #0.0025920); (#39126.0, #0.0025920) ].
  (** dat.c: [eraDat]; the value left in [*deltat] (palDat.c:93-94 ignores the status, whose value 1 alone depends on the release) *)
  Definition eraDat (iy im id : Z) (fd : T) : T :=
    if (fd <? #0) || (fd >? #1) then #0
    else match eraCal2jd iy im id with
         | (j, Some djm) =>
             if (j <? 0)%Z then #0
             else if (iy <? 1960)%Z then #0
             else match dat_row (length dat_dates) (12 * iy + im)%Z with
                  | None => #0
                  | Some i =>
                      let da := nth i dat_delat #0 in
                      if (i <? length dat_drift)%nat then
                        let '(t0, rate) := nth i dat_drift (#0, #0) in da + (ofZ djm + fd - t0) * rate
                      else da
                  end
         | (_, None) => #0
         end.
  (** palDat.c:82-95, palDtt.c:75-77; [junk]: what the uninitialised variables iy, im, id, fd hold *)
  Definition palDat_e (junk : (Z * Z * Z) * T) (dju : T) : T := palDat eraDat junk dju.
  Definition palDtt_e (junk : (Z * Z * Z) * T) (utc : T) : T := palDtt eraDat junk utc.
End Dat.
