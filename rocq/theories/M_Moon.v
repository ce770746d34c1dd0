(** * Model: palDmoon, the geocentric Moon. *)
From Coq Require Import ZArith Bool List.
From Verif Require Import Num Erfa MoonTable.
Import ListNotations.
Local Open Scope num_scope.

Section Moon.
  Context {T : Type} {A : Arith T}.
  Notation vec := (vec T).
  (** The reduction of the fundamental arguments to one revolution, [fmod(x,360.)] in the C, is a parameter
      [red] of the stages below; palDmoon instantiates it with the C's. *)
  Variable red : T -> T.

  (** a quantity and its rate *)
  Notation rated := (T * T)%type.
  (** palDmoon.c:380-401: a fundamental argument and its rate (radians, per Julian century) *)
  Definition moon_arg (c0 c1 c2 c3 t : T) : rated :=
    (DD2R * red (c0 + (c1 + (c2 + c3 * t) * t) * t),
     DD2R * (c1 + (#2.0 * c2 + #3.0 * c3 * t) * t)).

  (** the arguments after the periodic variations, and the E factors *)
  Record moonArgs : Type := MoonArgs { ma_ELP : rated; ma_EM : rated; ma_EMP : rated; ma_D : rated; ma_F : rated;
    ma_OM : rated; ma_WOM : rated; ma_E : rated; ma_ESQ : rated }.
  (** palDmoon.c:376-435 *)
  Definition moon_args (t : T) : moonArgs :=
    let '(ELP, DELP) := moon_arg #270.434164 #481267.8831 (- #0.001133) #0.0000019 t in
    let '(EM, DEM) := moon_arg #358.475833 #35999.0498 (- #0.000150) (- #0.0000033) t in
    let '(EMP, DEMP) := moon_arg #296.104608 #477198.8491 #0.009192 #0.0000144 t in
    let '(D, DD) := moon_arg #350.737486 #445267.1142 (- #0.001436) #0.0000019 t in
    let '(F, DF) := moon_arg #11.250889 #483202.0251 (- #0.003211) (- #0.0000003) t in
    let '(OM, DOM) := moon_arg #259.183275 (- #1934.1420) #0.002078 #0.0000022 t in
    let SINOM := sin OM in
    let COSOM := cos OM in
    let DOMCOM := DOM * COSOM in
    let THETA := DD2R * (#51.2 + #20.2 * t) in
    let WA := sin THETA in
    let DWA := DD2R * #20.2 * cos THETA in
    let THETA := DD2R * (#346.560 + (#132.870 + - #0.0091731 * t) * t) in
    let WB := #0.003964 * sin THETA in
    let DWB := DD2R * #0.003964 * (#132.870 + #2.0 * - #0.0091731 * t) * cos THETA in
    let ELP := ELP + DD2R * (#0.000233 * WA + WB + #0.001964 * SINOM) in
    let DELP := DELP + DD2R * (#0.000233 * DWA + DWB + #0.001964 * DOMCOM) in
    let EM := EM + DD2R * - #0.001778 * WA in
    let DEM := DEM + DD2R * - #0.001778 * DWA in
    let EMP := EMP + DD2R * (#0.000817 * WA + WB + #0.002541 * SINOM) in
    let DEMP := DEMP + DD2R * (#0.000817 * DWA + DWB + #0.002541 * DOMCOM) in
    let D := D + DD2R * (#0.002011 * WA + WB + #0.001964 * SINOM) in
    let DD := DD + DD2R * (#0.002011 * DWA + DWB + #0.001964 * DOMCOM) in
    let WOM := OM + DD2R * (#275.05 + - #2.30 * t) in
    let DWOM := DOM + DD2R * - #2.30 in
    let SINWOM := sin WOM in
    let COSWOM := cos WOM in
    let F := F + DD2R * (WB + - #0.024691 * SINOM + - #0.004328 * SINWOM) in
    let DF := DF + DD2R * (DWB + - #0.024691 * DOMCOM + - #0.004328 * DWOM * COSWOM) in
    let E := #1.0 + (- #0.002495 + - #0.00000752 * t) * t in
    let DE := - #0.002495 + #2.0 * - #0.00000752 * t in
    let ESQ := E * E in
    let DESQ := #2.0 * E * DE in
    MoonArgs (ELP, DELP) (EM, DEM) (EMP, DEMP) (D, DD) (F, DF) (OM, DOM) (WOM, DWOM) (E, DE) (ESQ, DESQ).

  (** The body of the three series loops (palDmoon.c:444-466, 473-495, 505-527); the parallax series uses
      cosines, the other two sines *)
  Definition moon_step (cosine : bool) (a : moonArgs) (acc : rated) (row : moonRow) : rated :=
    let '(v, DV) := acc in
    let '(coeff, (emn, empn, dn, fn), i) := row in
    let COEFF := lit coeff in
    let EMN := ofZ emn in let EMPN := ofZ empn in let DN := ofZ dn in let FN := ofZ fn in
    let '(EN, DEN) := if (i =? 0)%Z then (#1.0, #0.0) else if (i =? 1)%Z then ma_E a else ma_ESQ a in
    let THETA := EMN * fst (ma_EM a) + EMPN * fst (ma_EMP a) + DN * fst (ma_D a) + FN * fst (ma_F a) in
    let DTHETA := EMN * snd (ma_EM a) + EMPN * snd (ma_EMP a) + DN * snd (ma_D a) + FN * snd (ma_F a) in
    if cosine then
      let FTHETA := cos THETA in
      (v + COEFF * FTHETA * EN, DV + COEFF * (- (sin THETA) * DTHETA * EN + FTHETA * DEN))
    else
      let FTHETA := sin THETA in
      (v + COEFF * FTHETA * EN, DV + COEFF * (cos THETA * DTHETA * EN + FTHETA * DEN)).
  (** the loops run from the last row to the first *)
  Definition moon_series (cosine : bool) (a : moonArgs) (rows : list moonRow) : rated :=
    fold_left (moon_step cosine a) (rev rows) (#0.0, #0.0).

  (** seconds per Julian century, palDmoon.c:98 *)
  Definition moon_CJ : T := #3155760000.0.
  (** palDmoon.c:468-469: longitude and its rate per second *)
  Definition moon_lon (a : moonArgs) : rated :=
    let '(v, DV) := moon_series false a moonTL in
    let '(ELP, DELP) := ma_ELP a in
    (ELP + DD2R * v, (DELP + DD2R * DV) / moon_CJ).
  (** palDmoon.c:497-500: latitude and its rate per second *)
  Definition moon_lat (a : moonArgs) : rated :=
    let '(v, DV) := moon_series false a moonTB in
    let CW1 := #0.0004664 in let CW2 := #0.0000754 in
    let '(OM, DOM) := ma_OM a in let '(WOM, DWOM) := ma_WOM a in
    let BF := #1.0 - CW1 * cos OM - CW2 * cos WOM in
    let DBF := CW1 * DOM * sin OM + CW2 * DWOM * sin WOM in
    (DD2R * v * BF, DD2R * (DV * BF + v * DBF) / moon_CJ).
  (** palDmoon.c:529-530: horizontal parallax and its rate per second *)
  Definition moon_par (a : moonArgs) : rated :=
    let '(v, DV) := moon_series true a moonTP in (DD2R * v, DD2R * DV / moon_CJ).
  (** palDmoon.c:537-539: distance (au) and its rate *)
  Definition moon_dist (p : rated) : rated :=
    let SP := sin (fst p) in
    let R := #4.2635212653763e-5 / SP in
    (R, - R * snd p * cos (fst p) / SP).
  (** palDmoon.c:542-554: ecliptic rectangular coordinates and their rates *)
  Definition moon_ecl (lon lat dist : rated) : pv T :=
    let '(EL, DEL) := lon in let '(B, DB) := lat in let '(R, DR) := dist in
    let SEL := sin EL in let CEL := cos EL in let SB := sin B in let CB := cos B in
    let RCB := R * CB in
    let RBD := R * DB in
    let W := RBD * SB - CB * DR in
    let X := RCB * CEL in
    let Y := RCB * SEL in
    let Z := R * SB in
    PV (V X Y Z) (V (- Y * DEL - W * CEL) (X * DEL - W * SEL) (RBD * CB + SB * DR)).
  (** palDmoon.c:556-573: to the equatorial system, mean of date, FK5 *)
  Definition moon_equ (date : T) (e : pv T) : pv T :=
    let '(PV (V X Y Z) (V XD YD ZD)) := e in
    let t := (date - #51544.5) / #36525.0 in
    let EPJ := #2000.0 + t * #100.0 in
    let EQCOR := DS2R * (#0.035 + #0.00085 * (EPJ - #1949.9997904423)) in
    let EPS := DAS2R * (#84381.448 + (- #46.8150 + (- #0.00059 + #0.001813 * t) * t) * t) in
    let SINEPS := sin EPS in
    let COSEPS := cos EPS in
    let ES := EQCOR * SINEPS in
    let EC := EQCOR * COSEPS in
    PV (V (X - EC * Y + ES * Z) (EQCOR * X + Y * COSEPS - Z * SINEPS) (Y * SINEPS + Z * COSEPS))
       (V (XD - EC * YD + ES * ZD) (EQCOR * XD + YD * COSEPS - ZD * SINEPS) (YD * SINEPS + ZD * COSEPS)).
  (** palDmoon.c:373 and the stages above: ecliptic position and velocity *)
  Definition moon_ecliptic (date : T) : pv T :=
    let a := moon_args ((date - #15019.5) / #36525.0) in
    moon_ecl (moon_lon a) (moon_lat a) (moon_dist (moon_par a)).
  Definition moon_gen (date : T) : pv T := moon_equ date (moon_ecliptic date).
End Moon.
(** palDmoon.c:95-575 *)
Definition palDmoon {T} {A : Arith T} (date : T) : pv T := moon_gen (fun x => fmod x #360.0) date.
