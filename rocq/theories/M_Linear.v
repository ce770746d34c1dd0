(** * Models: linear plate models, least squares, matrix inversion, distortion. *)
From Coq Require Import ZArith Bool List.
From Verif Require Import Num Erfa M_Sphere Loops.
Local Open Scope num_scope.

(** [double coeffs[6]] *)
Record co6 (T : Type) := C6 { cA : T; cB : T; cC : T; cD : T; cE : T; cF : T }.
Arguments C6 {T}. Arguments cA {T}. Arguments cB {T}. Arguments cC {T}.
Arguments cD {T}. Arguments cE {T}. Arguments cF {T}.

Section Linear.
  Context {T : Type} {A : Arith T}.

  (** palInvf.c:97-119; [bk0] is the previous content of [bkwds] *)
  Definition palInvf (fwds bk0 : co6 T) : co6 T * Z :=
    let a := cA fwds in let b := cB fwds in let c := cC fwds in
    let d := cD fwds in let e := cE fwds in let f := cF fwds in
    let det := b * f - c * e in
    if det !=? #0 then
      (C6 ((c * d - a * f) / det) (f / det) (- c / det)
          ((a * e - b * d) / det) (- e / det) (b / det), 0%Z)
    else (bk0, (-1)%Z).

  (** palXy2xy.c:84-89: (x2, y2) *)
  Definition palXy2xy (x1 y1 : T) (co : co6 T) : T * T :=
    (cA co + cB co * x1 + cC co * y1, cD co + cE co * x1 + cF co * y1).

  Record dcmp := Dcmp { dc_xz : T; dc_yz : T; dc_xs : T; dc_ys : T; dc_perp : T; dc_orient : T }.
  (** palDcmpf.c:112-182 *)
  Definition palDcmpf (co : co6 T) : dcmp :=
    let a := cA co in let b := cB co in let c := cC co in
    let d := cD co in let e := cE co in let f := cF co in
    let rb2e2 := sqrt (b * b + e * e) in
    let rc2f2 := sqrt (c * c + f * f) in
    let '(b, e, xsc) := if b * f - c * e >=? #0 then (b, e, rb2e2) else (- b, - e, - rb2e2) in
    let ysc := rc2f2 in
    let p1 := if (c !=? #0) || (f !=? #0) then atan2 c f else #0 in
    let p2 := if (e !=? #0) || (b !=? #0) then atan2 e b else #0 in
    let p := palDrange (p1 + p2) in
    let ws := c * rb2e2 - e * rc2f2 in
    let wc := b * rc2f2 + f * rb2e2 in
    let or := if (ws !=? #0) || (wc !=? #0) then atan2 ws wc else #0 in
    let hp := p / #2 in
    let shp := sin hp in let chp := cos hp in
    let sor := sin or in let cor := cos or in
    let det := xsc * ysc * (chp + shp) * (chp - shp) in
    let '(x0, y0) :=
      if fabs det >? #0 then
        (ysc * (a * (chp * cor - shp * sor) - d * (chp * sor + shp * cor)) / det,
         xsc * (a * (chp * sor - shp * cor) + d * (chp * cor + shp * sor)) / det)
      else (#0, #0) in
    Dcmp x0 y0 xsc ysc p or.

  (** ** palDmat.c:91-182.
      The [n] x [n] block is an array [nat -> nat -> T] (row, column); row
      pointers [aoff = a + k*n] are row indices.  [iw] keeps its previous
      contents where it is not written. *)
  Record dmat := Dm { dm_a : nat -> nat -> T; dm_y : nat -> T; dm_d : T; dm_jf : Z; dm_iw : nat -> nat }.
  Definition SFA : T := #1e-20.
  (** :103-115, column search for the largest element: (amx, imx) *)
  Definition dmat_pivot (n k : nat) (a : nat -> nat -> T) : T * nat :=
    for_from (k + 1) (n - (k + 1))
      (fun i '(amx, imx) => let t := fabs (a i k) in if t >? amx then (t, i) else (amx, imx))
      (fabs (a k k), k).
  (** :123-127, exchange of rows [k] and [imx], element by element *)
  Definition dmat_swap_rows (n k imx : nat) (a : nat -> nat -> T) : nat -> nat -> T :=
    for_up n (fun j a => let t := a k j in upd2 (upd2 a k j (a imx j)) imx j t) a.
  (** :141-145, scaling of the pivot row *)
  Definition dmat_scale_row (n k : nat) (a : nat -> nat -> T) : nat -> nat -> T :=
    for_up n (fun j a => if Nat.eqb j k then a else upd2 a k j (a k j * a k k)) a.
  (** :148-157, elimination in the other rows *)
  Definition dmat_elim (n k : nat) (yk : T) (a : nat -> nat -> T) (y : nat -> T)
    : (nat -> nat -> T) * (nat -> T) :=
    for_up n (fun i '(a, y) =>
      if Nat.eqb i k then (a, y)
      else
        let a := for_up n (fun j a => if Nat.eqb j k then a
                                      else upd2 a i j (a i j - a i k * a k j)) a in
        (a, upd y i (y i - a i k * yk))) (a, y).
  (** :158-162, the pivot column *)
  Definition dmat_col (n k : nat) (a : nat -> nat -> T) : nat -> nat -> T :=
    for_up n (fun i a => if Nat.eqb i k then a else upd2 a i k (a i k * - (a k k))) a.
  (** :100-165, one turn of the outer loop *)
  Definition dmat_step (n k : nat) (s : dmat) : dmat :=
    let a := dm_a s in let y := dm_y s in
    let '(amx, imx) := dmat_pivot n k a in
    if amx <? SFA then Dm a y (dm_d s) (-1)%Z (dm_iw s)
    else
      let '(a, y, d) :=
        if Nat.eqb imx k then (a, y, dm_d s)
        else (dmat_swap_rows n k imx a, upd (upd y k (y imx)) imx (y k), - (dm_d s)) in
      let iw := upd (dm_iw s) k imx in
      let d := d * a k k in
      if fabs d <? SFA then Dm a y d (-1)%Z iw
      else
        let a := upd2 a k k (#1 / a k k) in
        let a := dmat_scale_row n k a in
        let yk := y k * a k k in
        let y := upd y k yk in
        let '(a, y) := dmat_elim n k yk a y in
        Dm (dmat_col n k a) y d (dm_jf s) iw.
  (** :174-178, exchange of columns [k] and [ki] *)
  Definition dmat_swap_cols (n k ki : nat) (a : nat -> nat -> T) : nat -> nat -> T :=
    for_up n (fun i a => let t := a i k in upd2 (upd2 a i k (a i ki)) i ki t) a.
  Definition palDmat (n : nat) (a : nat -> nat -> T) (y : nat -> T) (iw0 : nat -> nat) : dmat :=
    let s := for_up n (dmat_step n) (Dm a y #1 0%Z iw0) in
    if negb (Z.eqb (dm_jf s) 0) then Dm (dm_a s) (dm_y s) #0 (dm_jf s) (dm_iw s)
    else
      let a := for_down n (fun k a =>
        let ki := dm_iw s k in
        if Nat.eqb k ki then a else dmat_swap_cols n k ki a) (dm_a s) in
      Dm a (dm_y s) (dm_d s) (dm_jf s) (dm_iw s).

  (** ** palPcd.c:98-104, palUnpcd.c:119-176: (x, y).
      [copysign(a,b)] for a finite nonnegative [a] is modelled by the C fallback
      macro DSIGN (the two differ only on the sign of a zero result). *)
  Definition palPcd (disco x y : T) : T * T :=
    let f := #1 + disco * (x * x + y * y) in (x * f, y * f).
  Definition palUnpcd (disco x y : T) : T * T :=
    let THIRD := #1 / #3 in
    let rp := sqrt (x * x + y * y) in
    if (rp !=? #0) && (disco !=? #0) then
      let q := #1 / (#3 * disco) in
      let r := rp / (#2 * disco) in
      let w := q * q * q + r * r in
      let f :=
        if w >? #0 then
          let d := sqrt w in
          let w := r + d in
          let s := DSIGN (pow (fabs w) THIRD) w in
          let w := r - d in
          let t := DSIGN (pow (fabs w) THIRD) w in
          s + t
        else
          let w := #2 / sqrt (- #3 * disco) in
          let c := #4 * rp / (disco * w * w * w) in
          let c2 := c * c in
          let s := sqrt (#1 - DMIN c2 #1) in
          let t3 := atan2 s c in
          let f1 := w * cos ((D2PI - t3) / #3) in
          let f2 := w * cos (t3 / #3) in
          let f3 := w * cos ((D2PI + t3) / #3) in
          let w1 := fabs (f1 - rp) in
          let w2 := fabs (f2 - rp) in
          let w3 := fabs (f3 - rp) in
          if w1 <? w2 then (if w1 <? w3 then f1 else f3)
          else (if w2 <? w3 then f2 else f3) in
      let f := f / rp in
      (x * f, y * f)
    else (x, y).

  (** ** palPxy.c:100-134.  Arrays [double [np][2]] are functions of the index;
      returns (xyp, xrms, yrms, rrms). *)
  Definition palPxy (np : Z) (xye xym : nat -> T * T) (co : co6 T) (xyp0 : nat -> T * T)
    : (nat -> T * T) * T * T * T :=
    let '(xyp, sdx2, sdy2) :=
      for_up (Z.to_nat np) (fun i '(xyp, sdx2, sdy2) =>
        let '(xp, yp) := palXy2xy (fst (xym i)) (snd (xym i)) co in
        let dx := fst (xye i) - xp in
        let dy := snd (xye i) - yp in
        (upd xyp i (xp, yp), sdx2 + dx * dx, sdy2 + dy * dy)) (xyp0, #0, #0) in
    let p := DMAX #1 (ofZ np) in
    let xrms := sqrt (sdx2 / p) in
    let yrms := sqrt (sdy2 / p) in
    (xyp, xrms, yrms, sqrt (xrms * xrms + yrms * yrms)).

  (** ** palFitxy.c:119-339.  [co0] is the previous content of coeffs. *)
  Definition of3 (a b c : T) : nat -> T := fun i => match i with 0 => a | 1 => b | _ => c end.
  Definition of4 (a b c d : T) : nat -> T := fun i => match i with 0 => a | 1 => b | 2 => c | _ => d end.
  Definition rows3 (r0 r1 r2 : nat -> T) : nat -> nat -> T := fun i => match i with 0 => r0 | 1 => r1 | _ => r2 end.
  Definition rows4 (r0 r1 r2 r3 : nat -> T) : nat -> nat -> T :=
    fun i => match i with 0 => r0 | 1 => r1 | 2 => r2 | _ => r3 end.
  Definition mat_of (a : nat -> nat -> T) : mat T :=
    M (V (a 0%nat 0%nat) (a 0%nat 1%nat) (a 0%nat 2%nat))
      (V (a 1%nat 0%nat) (a 1%nat 1%nat) (a 1%nat 2%nat))
      (V (a 2%nat 0%nat) (a 2%nat 1%nat) (a 2%nat 2%nat)).

  (** running sum [s = 0; for i: s = s + g i] *)
  Definition fsum (n : nat) (g : nat -> T) : T := for_up n (fun i s => s + g i) #0.
  (** running sum with two addends per turn [s = s + g i + h i] (:248,249,253,294) *)
  Definition fsum2 (n : nat) (g h : nat -> T) : T := for_up n (fun i s => s + g i + h i) #0.

  (** :147-218.  The eleven accumulators of the C loop are independent, so each
      is written as its own loop. *)
  Definition fitxy6 (np : Z) (xye xym : nat -> T * T) (co0 : co6 T) (iw0 : nat -> nat) : co6 T * Z :=
    let p := ofZ np in
    if (3 <=? np)%Z then
      let n := Z.to_nat np in
      let xe := fun i => fst (xye i) in let ye := fun i => snd (xye i) in
      let xm := fun i => fst (xym i) in let ym := fun i => snd (xym i) in
      let sxe := fsum n xe in
      let sxexm := fsum n (fun i => xe i * xm i) in
      let sxeym := fsum n (fun i => xe i * ym i) in
      let sye := fsum n ye in
      let syeym := fsum n (fun i => ye i * ym i) in
      let syexm := fsum n (fun i => ye i * xm i) in
      let sxm := fsum n xm in
      let sym := fsum n ym in
      let sxmxm := fsum n (fun i => xm i * xm i) in
      let sxmym := fsum n (fun i => xm i * ym i) in
      let symym := fsum n (fun i => ym i * ym i) in
      let r := palDmat 3 (rows3 (of3 p sxm sym) (of3 sxm sxmxm sxmym) (of3 sym sxmym symym))
                       (of3 sxe sxexm sxeym) iw0 in
      if Z.eqb (dm_jf r) 0 then
        let v := dm_y r in
        let w := palDmxv (mat_of (dm_a r)) (V sye syexm syeym) in
        (C6 (v 0%nat) (v 1%nat) (v 2%nat) (vx w) (vy w) (vz w), 0%Z)
      else (co0, (-3)%Z)
    else (co0, (-2)%Z).

  (** :226-310, one pass: the solution vector, sdr2 and jstat *)
  Definition fitxy4_pass (np : Z) (sgn : T) (xye xym : nat -> T * T) (iw0 : nat -> nat)
    : (nat -> T) * T * Z :=
    let p := ofZ np in
    let n := Z.to_nat np in
    let xe := fun i => fst (xye i) * sgn in let ye := fun i => snd (xye i) in
    let xm := fun i => fst (xym i) in let ym := fun i => snd (xym i) in
    let sxe := fsum n xe in
    let sxxyy := fsum2 n (fun i => xe i * xm i) (fun i => ye i * ym i) in
    let sxyyx := for_up n (fun i s => s + xe i * ym i - ye i * xm i) #0 in
    let sye := fsum n ye in
    let sxm := fsum n xm in
    let sym := fsum n ym in
    let sx2y2 := fsum2 n (fun i => xm i * xm i) (fun i => ym i * ym i) in
    let r := palDmat 4 (rows4 (of4 p sxm (- sym) #0) (of4 sxm sx2y2 #0 sym)
                              (of4 sym #0 (- sx2y2) (- sxm)) (of4 #0 sym sxm p))
                     (of4 sxe sxxyy sxyyx sye) iw0 in
    let v := dm_y r in
    let a := v 0%nat in let b := v 1%nat in let c := v 2%nat in let d := v 3%nat in
    let sdr2 :=
      if Z.eqb (dm_jf r) 0 then
        fsum2 n (fun i => let xr := a + b * xm i - c * ym i - fst (xye i) * sgn in xr * xr)
                (fun i => let yr := d + c * xm i + b * ym i - snd (xye i) in yr * yr)
      else - #1 in
    (v, sdr2, dm_jf r).
  (** :219-334 *)
  Definition fitxy4 (np : Z) (xye xym : nat -> T * T) (co0 : co6 T) (iw0 : nat -> nat) : co6 T * Z :=
    if (2 <=? np)%Z then
      let '(v0, s0, j0) := fitxy4_pass np #1 xye xym iw0 in
      let '(v1, s1, j1) := fitxy4_pass np (- #1) xye xym iw0 in
      let '(aold, bold, cold, dold, sold) :=
        if Z.eqb j0 0 then (v0 0%nat, v0 1%nat, v0 2%nat, v0 3%nat, s0)
        else (#0, #0, #0, #0, #0) in
      if (sold >=? #0) && ((sold <=? s1) || Z.eqb np 2) then
        (C6 aold bold (- cold) dold cold bold, 0%Z)
      else if Z.eqb j1 0 then
        let a := v1 0%nat in let b := v1 1%nat in let c := v1 2%nat in let d := v1 3%nat in
        (C6 (- a) (- b) c d c b, 0%Z)
      else (co0, (-3)%Z)
    else (co0, (-2)%Z).
  Definition palFitxy (itype np : Z) (xye xym : nat -> T * T) (co0 : co6 T) (iw0 : nat -> nat) : co6 T * Z :=
    if Z.eqb itype 6 then fitxy6 np xye xym co0 iw0
    else if Z.eqb itype 4 then fitxy4 np xye xym co0 iw0
    else (co0, (-1)%Z).
End Linear.
Arguments dmat : clear implicits.
Arguments dcmp : clear implicits.
