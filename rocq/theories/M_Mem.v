(** * Models with memory: functions that take and return arrays, with the loads and stores in the order of the C source.

    Memory is a function from addresses (in units of one double) to values; every array argument is the address of its
    first element, so that arguments may coincide or overlap in any way.  Local variables and local arrays are values:
    they overlap nothing. *)
From Coq Require Import ZArith Bool Ascii String List.
From Verif Require Import Num Erfa M_Sphere M_Linear Loops M_Time M_Frames M_Place M_Kin M_Orbit.
Local Open Scope num_scope.

Section Mem.
  Context {T : Type} {A : Arith T}.
  Notation vec := (vec T). Notation mat := (mat T).
  Definition mem := Z -> T.
  (** the store [*p = x] *)
  Definition wr (p : Z) (x : T) (m : mem) : mem := fun q => if Z.eqb q p then x else m q.
  Notation "p @+ k" := (Z.add p k) (at level 40).

  (** erfa/cp.c, cr.c: copy (from a local) *)
  Definition st_vec (p : Z) (v : vec) (m : mem) : mem :=
    let m := wr p (vx v) m in let m := wr (p @+ 1) (vy v) m in wr (p @+ 2) (vz v) m.
  Definition st_mat (p : Z) (r : mat) (m : mem) : mem :=
    let m := st_vec p (m0 r) m in let m := st_vec (p @+ 3) (m1 r) m in st_vec (p @+ 6) (m2 r) m.

  (** erfa/pxp.c *)
  Definition eraPxp_m (a b axb : Z) (m : mem) : mem :=
    let xa := m a in let ya := m (a @+ 1) in let za := m (a @+ 2) in
    let xb := m b in let yb := m (b @+ 1) in let zb := m (b @+ 2) in
    let m := wr axb (ya * zb - za * yb) m in
    let m := wr (axb @+ 1) (za * xb - xa * zb) m in
    wr (axb @+ 2) (xa * yb - ya * xb) m.
  (** erfa/rxp.c: the product is formed in a local, then copied *)
  Definition eraRxp_m (r p rp : Z) (m : mem) : mem :=
    let w j := #0 + m (r @+ (3 * j)%Z) * m p + m (r @+ (3 * j + 1)%Z) * m (p @+ 1) + m (r @+ (3 * j + 2)%Z) * m (p @+ 2) in
    st_vec rp (V (w 0%Z) (w 1%Z) (w 2%Z)) m.
  (** erfa/trxp.c: the transpose is a local *)
  Definition eraTrxp_m (r p trp : Z) (m : mem) : mem :=
    let w j := #0 + m (r @+ j) * m p + m (r @+ (j + 3)%Z) * m (p @+ 1) + m (r @+ (j + 6)%Z) * m (p @+ 2) in
    st_vec trp (V (w 0%Z) (w 1%Z) (w 2%Z)) m.
  (** erfa/rxr.c: the product is formed in a local, then copied *)
  Definition eraRxr_m (a b atb : Z) (m : mem) : mem :=
    let w i j := #0 + m (a @+ (3 * i)%Z) * m (b @+ j) + m (a @+ (3 * i + 1)%Z) * m (b @+ (j + 3)%Z) + m (a @+ (3 * i + 2)%Z) * m (b @+ (j + 6)%Z) in
    st_mat atb (M (V (w 0 0) (w 0 1) (w 0 2)) (V (w 1 0) (w 1 1) (w 1 2)) (V (w 2 0) (w 2 1) (w 2 2)))%Z m.
  (** erfa/sxp.c: no local; each element is stored before the next is read *)
  Definition eraSxp_m (s : T) (p sp : Z) (m : mem) : mem :=
    let m := wr sp (s * m p) m in
    let m := wr (sp @+ 1) (s * m (p @+ 1)) m in
    wr (sp @+ 2) (s * m (p @+ 2)) m.
  (** erfa/pn.c *)
  Definition eraPn_m (p r u : Z) (m : mem) : mem :=
    let w := sqrt (m p * m p + m (p @+ 1) * m (p @+ 1) + m (p @+ 2) * m (p @+ 2)) in
    let m := if w ==? #0 then wr (u @+ 2) #0 (wr (u @+ 1) #0 (wr u #0 m)) else eraSxp_m (#1 / w) p u m in
    wr r w m.
  (** erfa/c2s.c *)
  Definition eraC2s_m (p theta phi : Z) (m : mem) : mem :=
    let x := m p in let y := m (p @+ 1) in let z := m (p @+ 2) in
    let d2 := x * x + y * y in
    let m := wr theta (if d2 ==? #0 then #0 else atan2 y x) m in
    wr phi (if z ==? #0 then #0 else atan2 z (sqrt d2)) m.
  (** erfa/rv2m.c *)
  Definition eraRv2m_m (w r : Z) (m : mem) : mem :=
    let x := m w in let y := m (w @+ 1) in let z := m (w @+ 2) in
    let phi := sqrt (x * x + y * y + z * z) in
    let s := sin phi in let c := cos phi in let f := #1 - c in
    let u := if phi >? #0 then V (x / phi) (y / phi) (z / phi) else V x y z in
    let x := vx u in let y := vy u in let z := vz u in
    let m := wr r (x * x * f + c) m in
    let m := wr (r @+ 1) (x * y * f + z * s) m in
    let m := wr (r @+ 2) (x * z * f - y * s) m in
    let m := wr (r @+ 3) (y * x * f - z * s) m in
    let m := wr (r @+ 4) (y * y * f + c) m in
    let m := wr (r @+ 5) (y * z * f + x * s) m in
    let m := wr (r @+ 6) (z * x * f + y * s) m in
    let m := wr (r @+ 7) (z * y * f - x * s) m in
    wr (r @+ 8) (z * z * f + c) m.
  (** erfa/rm2v.c *)
  Definition eraRm2v_m (r w : Z) (m : mem) : mem :=
    let x := m (r @+ 5) - m (r @+ 7) in
    let y := m (r @+ 6) - m (r @+ 2) in
    let z := m (r @+ 1) - m (r @+ 3) in
    let s2 := sqrt (x * x + y * y + z * z) in
    if s2 >? #0 then
      let c2 := m r + m (r @+ 4) + m (r @+ 8) - #1 in
      let phi := atan2 s2 c2 in
      let f := phi / s2 in
      let m := wr w (x * f) m in let m := wr (w @+ 1) (y * f) m in wr (w @+ 2) (z * f) m
    else let m := wr w #0 m in let m := wr (w @+ 1) #0 m in wr (w @+ 2) #0 m.
  (** erfa/ir.c *)
  Definition eraIr_m (r : Z) (m : mem) : mem :=
    st_mat r (M (V #1 #0 #0) (V #0 #1 #0) (V #0 #0 #1)) m.
  (** erfa/rx.c, ry.c, rz.c: the new rows [i] and [j] are formed in locals, then stored; [sg] is false for ry.c, whose signs
      are the other way round *)
  Definition era_r_m (i j : Z) (sg : bool) (phi : T) (r : Z) (m : mem) : mem :=
    let s := sin phi in let c := cos phi in
    let up k := if sg then c * m (r @+ (3 * i + k)%Z) + s * m (r @+ (3 * j + k)%Z) else c * m (r @+ (3 * i + k)%Z) - s * m (r @+ (3 * j + k)%Z) in
    let dn k := if sg then - s * m (r @+ (3 * i + k)%Z) + c * m (r @+ (3 * j + k)%Z) else s * m (r @+ (3 * i + k)%Z) + c * m (r @+ (3 * j + k)%Z) in
    let u := V (up 0%Z) (up 1%Z) (up 2%Z) in let d := V (dn 0%Z) (dn 1%Z) (dn 2%Z) in
    let m := st_vec (r @+ (3 * i)%Z) u m in st_vec (r @+ (3 * j)%Z) d m.

  (** palOne2One.c:567-569, 605-607, 446-448, 1053-1055, 1015-1017, 327-329, 286-288, 486-488 *)
  Definition palDmxm_m (a b c : Z) : mem -> mem := eraRxr_m a b c.
  Definition palDmxv_m (dm va vb : Z) : mem -> mem := eraRxp_m dm va vb.
  Definition palDimxv_m (dm va vb : Z) : mem -> mem := eraTrxp_m dm va vb.
  Definition palDvxv_m (va vb vc : Z) : mem -> mem := eraPxp_m va vb vc.
  Definition palDvn_m (v uv vm : Z) : mem -> mem := eraPn_m v vm uv.
  Definition palDcc2s_m (v a b : Z) : mem -> mem := eraC2s_m v a b.
  Definition palDav2m_m (axvec rmat : Z) : mem -> mem := eraRv2m_m axvec rmat.
  Definition palDm2av_m (rmat axvec : Z) : mem -> mem := eraRm2v_m rmat axvec.

  (** palDeuler.c:95-141; [rots] are the rotations not yet applied (the loop ends with them, at the end of the string or
      at the first character that names no axis) *)
  Definition era_rot_m (ax : axis) : T -> Z -> mem -> mem :=
    match ax with AX => era_r_m 1 2 true | AY => era_r_m 0 2 false | AZ => era_r_m 0 1 true end.
  Fixpoint deuler_m (order : string) (rots : list T) (r : Z) (m : mem) : mem :=
    match rots, order with
    | phi :: rots', String ch rest =>
        match axis_of ch with Some ax => deuler_m rest rots' r (era_rot_m ax phi r m) | None => m end
    | _, _ => m
    end.
  Definition palDeuler_m (order : string) (phi theta psi : T) (rmat : Z) (m : mem) : mem :=
    deuler_m order (phi :: theta :: psi :: nil)%list rmat (eraIr_m rmat m).

  (** palInvf.c:97-119, with the status *)
  Definition palInvf_m (fwds bkwds : Z) (m : mem) : mem * Z :=
    let a := m fwds in let b := m (fwds @+ 1) in let c := m (fwds @+ 2) in
    let d := m (fwds @+ 3) in let e := m (fwds @+ 4) in let f := m (fwds @+ 5) in
    let det := b * f - c * e in
    if det !=? #0 then
      let m := wr bkwds ((c * d - a * f) / det) m in
      let m := wr (bkwds @+ 1) (f / det) m in
      let m := wr (bkwds @+ 2) (- c / det) m in
      let m := wr (bkwds @+ 3) ((a * e - b * d) / det) m in
      let m := wr (bkwds @+ 4) (- e / det) m in
      let m := wr (bkwds @+ 5) (b / det) m in (m, 0%Z)
    else (m, (-1)%Z).
  (** palXy2xy.c:84-89: [*x2] is stored before the coefficients of [*y2] are read *)
  Definition palXy2xy_m (x1 y1 : T) (coeffs x2 y2 : Z) (m : mem) : mem :=
    let m := wr x2 (m coeffs + m (coeffs @+ 1) * x1 + m (coeffs @+ 2) * y1) m in
    wr y2 (m (coeffs @+ 3) + m (coeffs @+ 4) * x1 + m (coeffs @+ 5) * y1) m.
  (** palPxy.c:100-134: [xp], [yp] are locals; the prediction is stored before the expected position is read *)
  Definition pxy_step (xye xym coeffs xyp : Z) (n : nat) (s : mem * T * T) : mem * T * T :=
    let '(m, sdx2, sdy2) := s in
    let i := (2 * Z.of_nat n)%Z in
    let xm := m (xym @+ i) in let ym := m (xym @+ (i + 1)%Z) in
    let xp := m coeffs + m (coeffs @+ 1) * xm + m (coeffs @+ 2) * ym in
    let yp := m (coeffs @+ 3) + m (coeffs @+ 4) * xm + m (coeffs @+ 5) * ym in
    let m := wr (xyp @+ i) xp m in
    let m := wr (xyp @+ (i + 1)%Z) yp m in
    let dx := m (xye @+ i) - xp in
    let dy := m (xye @+ (i + 1)%Z) - yp in
    (m, sdx2 + dx * dx, sdy2 + dy * dy).
  Definition palPxy_m (np : Z) (xye xym coeffs xyp xrms yrms rrms : Z) (m : mem) : mem :=
    let '(m, sdx2, sdy2) := for_up (Z.to_nat np) (pxy_step xye xym coeffs xyp) (m, #0, #0) in
    let p := DMAX #1 (ofZ np) in
    let m := wr xrms (sqrt (sdx2 / p)) m in
    let m := wr yrms (sqrt (sdy2 / p)) m in
    wr rrms (sqrt (m xrms * m xrms + m yrms * m yrms)) m.
  (** palDcmpf.c:112-182: the six coefficients are copied first, the results stored last *)
  Definition palDcmpf_m (coeffs xz yz xs ys perp orient : Z) (m : mem) : mem :=
    let r := palDcmpf (C6 (m coeffs) (m (coeffs @+ 1)) (m (coeffs @+ 2)) (m (coeffs @+ 3)) (m (coeffs @+ 4)) (m (coeffs @+ 5))) in
    let m := wr xz (dc_xz r) m in let m := wr yz (dc_yz r) m in let m := wr xs (dc_xs r) m in
    let m := wr ys (dc_ys r) m in let m := wr perp (dc_perp r) m in wr orient (dc_orient r) m.
  (** palPcd.c:98-104 *)
  Definition palPcd_m (disco : T) (x y : Z) (m : mem) : mem :=
    let f := #1 + disco * (m x * m x + m y * m y) in
    let m := wr x (m x * f) m in wr y (m y * f) m.
  (** palRefv.c:129-155 *)
  Definition palRefv_m (vu : Z) (refa refb : T) (vr : Z) (m : mem) : mem :=
    let x := m vu in let y := m (vu @+ 1) in let z1 := m (vu @+ 2) in
    let z := DMAX z1 #0.05 in
    let zsq := z * z in
    let rsq := x * x + y * y in
    let r := sqrt rsq in
    let wb := refb * rsq / zsq in
    let wt := (refa + wb) / (#1.0 + (refa + #3.0 * wb) * (zsq + rsq) / zsq) in
    let d := wt * r / z in
    let cd := #1.0 - d * d / #2.0 in
    let f := cd * (#1.0 - wt) in
    let m := wr vr (x * f) m in let m := wr (vr @+ 1) (y * f) m in wr (vr @+ 2) (cd * (z + d * r) + (z1 - z)) m.
  (** palPv2ue.c:114-182, with the status *)
  Definition palPv2ue_m (pv : Z) (date pmass : T) (u : Z) (m : mem) : mem * Z :=
    if pmass <? #0.0 then (m, (-1)%Z) else
    let cm := #1.0 + pmass in
    let x := m pv in let y := m (pv @+ 1) in let z := m (pv @+ 2) in
    let xd := m (pv @+ 3) / CD2S in let yd := m (pv @+ 4) / CD2S in let zd := m (pv @+ 5) / CD2S in
    let r := sqrt (x * x + y * y + z * z) in
    let v2 := xd * xd + yd * yd + zd * zd in
    let v := sqrt v2 in
    if r <? #1e-3 then (m, (-2)%Z) else
    if v <? #1e-3 then (m, (-3)%Z) else
    let alpha := v2 - #2.0 * cm / r in
    let rdv := x * xd + y * yd + z * zd in
    let m := wr u cm m in let m := wr (u @+ 1) alpha m in let m := wr (u @+ 2) date m in
    let m := wr (u @+ 3) x m in let m := wr (u @+ 4) y m in let m := wr (u @+ 5) z m in
    let m := wr (u @+ 6) xd m in let m := wr (u @+ 7) yd m in let m := wr (u @+ 8) zd m in
    let m := wr (u @+ 9) r m in let m := wr (u @+ 10) rdv m in let m := wr (u @+ 11) date m in
    let m := wr (u @+ 12) #0.0 m in (m, 0%Z).
  (** palUe2pv.c:120-263: the elements are unpacked first; the loops use locals only, the stores come last *)
  Definition ld_ue (m : mem) (u : Z) : ue T :=
    UE (m u) (m (u @+ 1)) (m (u @+ 2)) (V (m (u @+ 3)) (m (u @+ 4)) (m (u @+ 5))) (V (m (u @+ 6)) (m (u @+ 7)) (m (u @+ 8)))
       (m (u @+ 9)) (m (u @+ 10)) (m (u @+ 11)) (m (u @+ 12)).
  Definition palUe2pv_m (hf : nat) (date : T) (ua pva : Z) (m : mem) : option (mem * Z) :=
    let u := ld_ue m ua in
    let psi := u_psi u + (date - u_t u) * GCON / u_r0 u in
    let dt := (date - u_t0 u) * GCON in
    match ue_iter NITMAX hf (u_cm u) (u_alpha u) (u_r0 u) (u_sigma0 u) dt psi #0.0 #0.0 true with
    | None => None
    | Some (UFail st) => Some (m, st)
    | Some (UDone s r psi') =>
        let q := ue_project (u_cm u) (u_r0 u) dt (u_p0 u) (u_v0 u) s r in
        let m := wr pva (vx (pvp q)) m in let m := wr (pva @+ 3) (vx (pvv q)) m in
        let m := wr (pva @+ 1) (vy (pvp q)) m in let m := wr (pva @+ 4) (vy (pvv q)) m in
        let m := wr (pva @+ 2) (vz (pvp q)) m in let m := wr (pva @+ 5) (vz (pvv q)) m in
        let m := wr (ua @+ 11) date m in let m := wr (ua @+ 12) psi' m in Some (m, 0%Z)
    end.
  (** ** palDmat.c:91-182.  [a] and [y] are addresses of doubles, row pointers are addresses and are advanced as in the source;
      [iw] is an array of int, which cannot overlap doubles. *)
  Record dmatm := Dmm { dmm_aoff : Z; dmm_m : mem; dmm_d : T; dmm_jf : Z; dmm_iw : nat -> nat }.
  (** :103-115: (amx, imx, aoff2) *)
  Definition dmat_pivot_m (n k : nat) (aoff : Z) (m : mem) : T * nat * Z :=
    let r := for_from (k + 1) (n - (k + 1))
      (fun i '(apos2, (amx, imx, aoff2)) =>
         let t := fabs (m (apos2 @+ Z.of_nat k)) in
         ((apos2 @+ Z.of_nat n), if t >? amx then (t, i, apos2) else (amx, imx, aoff2)))
      ((aoff @+ Z.of_nat n), (fabs (m (aoff @+ Z.of_nat k)), k, aoff)) in snd r.
  (** :123-127 *)
  Definition dmat_swap_rows_m (n : nat) (aoff aoff2 : Z) (m : mem) : mem :=
    for_up n (fun j m => let t := m (aoff @+ Z.of_nat j) in
                         let m := wr (aoff @+ Z.of_nat j) (m (aoff2 @+ Z.of_nat j)) m in wr (aoff2 @+ Z.of_nat j) t m) m.
  (** :141-145 *)
  Definition dmat_scale_row_m (n k : nat) (aoff : Z) (m : mem) : mem :=
    for_up n (fun j m => if Nat.eqb j k then m else wr (aoff @+ Z.of_nat j) (m (aoff @+ Z.of_nat j) * m (aoff @+ Z.of_nat k)) m) m.
  (** :148-157 *)
  Definition dmat_elim_m (n k : nat) (a y aoff : Z) (yk : T) (m : mem) : mem :=
    snd (for_up n (fun i '(apos2, m) =>
      ((apos2 @+ Z.of_nat n),
       if Nat.eqb i k then m
       else
         let m := for_up n (fun j m => if Nat.eqb j k then m
                    else wr (apos2 @+ Z.of_nat j) (m (apos2 @+ Z.of_nat j) - m (apos2 @+ Z.of_nat k) * m (aoff @+ Z.of_nat j)) m) m in
         wr (y @+ Z.of_nat i) (m (y @+ Z.of_nat i) - m (apos2 @+ Z.of_nat k) * yk) m)) (a, m)).
  (** :158-162 *)
  Definition dmat_col_m (n k : nat) (a aoff : Z) (m : mem) : mem :=
    snd (for_up n (fun i '(apos2, m) =>
      ((apos2 @+ Z.of_nat n), if Nat.eqb i k then m else wr (apos2 @+ Z.of_nat k) (m (apos2 @+ Z.of_nat k) * - m (aoff @+ Z.of_nat k)) m)) (a, m)).
  (** :100-165 *)
  Definition dmat_step_m (n : nat) (a y : Z) (k : nat) (s : dmatm) : dmatm :=
    let aoff := dmm_aoff s in let m := dmm_m s in
    let '(amx, imx, aoff2) := dmat_pivot_m n k aoff m in
    if amx <? SFA then Dmm (aoff @+ Z.of_nat n) m (dmm_d s) (-1)%Z (dmm_iw s)
    else
      let '(m, d) :=
        if Nat.eqb imx k then (m, dmm_d s)
        else
          let m := dmat_swap_rows_m n aoff aoff2 m in
          let t := m (y @+ Z.of_nat k) in
          let m := wr (y @+ Z.of_nat k) (m (y @+ Z.of_nat imx)) m in
          let m := wr (y @+ Z.of_nat imx) t m in (m, - dmm_d s) in
      let iw := upd (dmm_iw s) k imx in
      let d := d * m (aoff @+ Z.of_nat k) in
      if fabs d <? SFA then Dmm (aoff @+ Z.of_nat n) m d (-1)%Z iw
      else
        let m := wr (aoff @+ Z.of_nat k) (#1 / m (aoff @+ Z.of_nat k)) m in
        let m := dmat_scale_row_m n k aoff m in
        let yk := m (y @+ Z.of_nat k) * m (aoff @+ Z.of_nat k) in
        let m := wr (y @+ Z.of_nat k) yk m in
        let m := dmat_elim_m n k a y aoff yk m in
        Dmm (aoff @+ Z.of_nat n) (dmat_col_m n k a aoff m) d (dmm_jf s) iw.
  (** :174-178 *)
  Definition dmat_swap_cols_m (n k ki : nat) (a : Z) (m : mem) : mem :=
    snd (for_up n (fun i '(apos, m) =>
      ((apos @+ Z.of_nat n),
       let t := m (apos @+ Z.of_nat k) in
       let m := wr (apos @+ Z.of_nat k) (m (apos @+ Z.of_nat ki)) m in wr (apos @+ Z.of_nat ki) t m)) (a, m)).
  Definition palDmat_m (n : nat) (a y : Z) (iw0 : nat -> nat) (m : mem) : mem * T * Z * (nat -> nat) :=
    let s := for_up n (dmat_step_m n a y) (Dmm a m #1 0%Z iw0) in
    if negb (Z.eqb (dmm_jf s) 0) then (dmm_m s, #0, dmm_jf s, dmm_iw s)
    else
      (for_down n (fun k m => let ki := dmm_iw s k in if Nat.eqb k ki then m else dmat_swap_cols_m n k ki a m) (dmm_m s), dmm_d s, dmm_jf s, dmm_iw s).
End Mem.
