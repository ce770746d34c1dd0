(** * Models: atmospheric refraction. *)
From Coq Require Import ZArith Bool.
From Verif Require Import Num M_Sphere.
Local Open Scope num_scope.

Section Refr.
  Context {T : Type} {A : Arith T}.
  Notation vec := (vec T).

  (** pal1Atms.c:83-94: (dn, rdndr) at distance [r] in the stratosphere *)
  Definition pal1Atms (rt tt dnt gamal r : T) : T * T :=
    let b := gamal / tt in
    let w := (dnt - #1.0) * exp (- b * (r - rt)) in
    (#1.0 + w, - r * b * w).

  (** pal1Atmt.c:103-119: (t, dn, rdndr) at distance [r] in the troposphere *)
  Definition pal1Atmt (r0 t0 alpha gamm2 delm2 c1 c2 c3 c4 c5 c6 r : T) : T * T * T :=
    let t := DMAX (DMIN (t0 - alpha * (r - r0)) #320.0) #100.0 in
    let tt0 := t / t0 in
    let tt0gm2 := pow tt0 gamm2 in
    let tt0dm2 := pow tt0 delm2 in
    (t, #1.0 + (c1 * tt0gm2 - (c2 - c5 / t) * tt0dm2) * tt0,
     r * (- c3 * tt0gm2 + (c4 - c6 / tt0) * tt0dm2)).

  (** *** palRefro.c:185-437, in stages *)
  Definition rfD93 : T := #1.623156204.    (* palRefro.c:194 *)
  Definition rfGCR : T := #8314.32.        (* palRefro.c:196 *)
  Definition rfDMD : T := #28.9644.        (* palRefro.c:198 *)
  Definition rfDMW : T := #18.0152.        (* palRefro.c:200 *)
  Definition rfS : T := #6378120.          (* palRefro.c:202 *)
  Definition rfDELTA : T := #18.36.        (* palRefro.c:204 *)
  Definition rfHT : T := #11000.           (* palRefro.c:206 *)
  Definition rfHS : T := #80000.           (* palRefro.c:208 *)
  Definition rfISMAX : Z := 16384.         (* palRefro.c:210 *)
  (** palRefro.c:226 macro refi(DN,RDNDR) *)
  Definition refi (dn rdndr : T) : T := rdndr / (dn + rdndr).

  (** The model atmosphere set up in palRefro.c:246-281 from the clamped arguments: what
      pal1Atmt and pal1Atms are given *)
  Record ratm : Type := MkRatm { ra_alpha : T; ra_gamal : T; ra_gamm2 : T; ra_delm2 : T;
    ra_c1 : T; ra_c2 : T; ra_c3 : T; ra_c4 : T; ra_c5 : T; ra_c6 : T }.
  (** palRefro.c:243-252: [optic], and the coefficient [a] *)
  Definition rf_optic (wlok : T) : bool := wlok <? #100.0.
  Definition rf_a (wlok : T) : T :=
    let wlsq := wlok * wlok in
    if rf_optic wlok then (#287.6155 + (#1.62887 + #0.01360 / wlsq) / wlsq) * #273.15e-6 / #1013.25
    else #77.6890e-6.
  (** palRefro.c:258-265: water vapour pressure at the observer *)
  Definition rf_pwo (tdkok pmbok rhok : T) : T :=
    let tdc := tdkok - #273.15 in
    let psat := pow #10.0 ((#0.7859 + #0.03477 * tdc) / (#1.0 + #0.00412 * tdc)) *
                (#1.0 + pmbok * (#4.5e-6 + #6.0e-10 * tdc * tdc)) in
    if pmbok >? #0.0 then rhok * psat / (#1.0 - (#1.0 - rhok) * psat / pmbok) else #0.0.
  (** palRefro.c:246-281 *)
  Definition rf_atm (hmok tdkok pmbok rhok wlok phi alpha : T) : ratm :=
    let optic := rf_optic wlok in
    let gb := #9.784 * (#1.0 - #0.0026 * cos (phi + phi) - #0.00000028 * hmok) in
    let a := rf_a wlok in
    let gamal := (gb * rfDMD) / rfGCR in
    let gamma := gamal / alpha in
    let gamm2 := gamma - #2.0 in
    let delm2 := rfDELTA - #2.0 in
    let pwo := rf_pwo tdkok pmbok rhok in
    let w := pwo * (#1.0 - rfDMW / rfDMD) * gamma / (rfDELTA - gamma) in
    let c1 := a * (pmbok + w) / tdkok in
    let c2 := if optic then (a * w + #11.2684e-6 * pwo) / tdkok
              else (a * w + #6.3938e-6 * pwo) / tdkok in
    let c3 := (gamma - #1.0) * alpha * c1 / tdkok in
    let c4 := (rfDELTA - #1.0) * alpha * c2 / tdkok in
    let c5 := if optic then #0.0 else #375463e-6 * pwo / tdkok in
    let c6 := if optic then #0.0 else c5 * delm2 * alpha / (tdkok * tdkok) in
    MkRatm alpha gamal gamm2 delm2 c1 c2 c3 c4 c5 c6.

  (** palRefro.c:371-381: [while (fabs(dr) > 1.0 && j < 4)]; [left] = 4 - j;
      [lay r] = (dn, rdndr) of the layer being integrated *)
  Fixpoint rf_find (lay : T -> T * T) (w rg dr : T) (left : nat) : T :=
    match left with
    | O => rg
    | S left' =>
        if fabs dr >? #1.0 then
          let '(dn, rdndr) := lay rg in
          let dr' := (rg * dn - w) / (dn + rdndr) in
          rf_find lay w (rg - dr') dr' left'
        else rg
    end.
  (** palRefro.c:360-400: one quadrature pass, [for (i=...; i<is; i+=n)]; the state is
      (r, fo, fe); [None] if [fuel] iterations do not suffice *)
  Fixpoint rf_pass (fuel : nat) (lay : T -> T * T) (sk0 z0 h : T) (is n i : Z)
      (r fo fe : T) : option (T * T * T) :=
    match fuel with
    | O => None
    | S fuel' =>
        if (i <? is)%Z then
          let sz := sin (z0 + h * ofZ i) in
          let r' := if sz >? #1e-20 then rf_find lay (sk0 / sz) r #1.0e6 4 else r in
          let '(dn, rdndr) := lay r' in
          let f := refi dn rdndr in
          if ((n =? 1)%Z && (i mod 2 =? 0)%Z)%bool
          then rf_pass fuel' lay sk0 z0 h is n (i + n) r' fo (fe + f)
          else rf_pass fuel' lay sk0 z0 h is n (i + n) r' (fo + f) fe
        else Some (r, fo, fe)
    end.
  (** palRefro.c:346-430: [while (loop)]; [fuel] bounds the number of passes, [pfuel] the
      number of strips in a pass *)
  Fixpoint rf_loop (fuel pfuel : nat) (lay : T -> T * T) (sk0 z0 zrange fb ff r0 tol : T)
      (is n : Z) (fo fe refold : T) : option T :=
    match fuel with
    | O => None
    | S fuel' =>
        let h := zrange / ofZ is in
        match rf_pass pfuel lay sk0 z0 h is n 1 r0 fo fe with
        | None => None
        | Some (_, fo', fe') =>
            let refp := h * (fb + #4.0 * fo' + #2.0 * fe' + ff) / #3.0 in
            if ((fabs (refp - refold) >? tol) && (is <? rfISMAX)%Z)%bool
            then rf_loop fuel' pfuel lay sk0 z0 zrange fb ff r0 tol (is + is) 2 #0.0 (fe' + fo') refp
            else Some refp
        end
    end.

  (** palRefro.c:283-311: (zt, ft), conditions at a level where (dn, rdndr) hold *)
  Definition rf_zd (sk0 r dn : T) : T :=
    let sine := sk0 / (r * dn) in atan2 sine (sqrt (DMAX (#1.0 - sine * sine) #0.0)).
  Definition rf_layt (a : ratm) (r0 tdkok r : T) : T * T :=
    let '(_, dn, rdndr) := pal1Atmt r0 tdkok (ra_alpha a) (ra_gamm2 a) (ra_delm2 a) (ra_c1 a)
        (ra_c2 a) (ra_c3 a) (ra_c4 a) (ra_c5 a) (ra_c6 a) r in (dn, rdndr).
  Definition rf_tt (a : ratm) (r0 tdkok r : T) : T :=
    let '(t, _, _) := pal1Atmt r0 tdkok (ra_alpha a) (ra_gamm2 a) (ra_delm2 a) (ra_c1 a)
        (ra_c2 a) (ra_c3 a) (ra_c4 a) (ra_c5 a) (ra_c6 a) r in t.
  (** palRefro.c:283-431 for the reduced zenith distance [zobs2] and clamped arguments *)
  Definition rf_core (fuel pfuel : nat) (zobs2 hmok tdkok pmbok rhok wlok phi alpha tol : T) : option T :=
    let a := rf_atm hmok tdkok pmbok rhok wlok phi alpha in
    let r0 := rfS + hmok in
    let layt := rf_layt a r0 tdkok in
    let '(dn0, rdndr0) := layt r0 in
    let sk0 := dn0 * r0 * sin zobs2 in
    let f0 := refi dn0 rdndr0 in
    let rt := rfS + DMAX rfHT hmok in
    let tt := rf_tt a r0 tdkok rt in
    let '(dnt, rdndrt) := layt rt in
    let zt := rf_zd sk0 rt dnt in
    let ft := refi dnt rdndrt in
    let lays := pal1Atms rt tt dnt (ra_gamal a) in
    let '(dnts, rdndrp) := lays rt in
    let zts := rf_zd sk0 rt dnts in
    let fts := refi dnts rdndrp in
    let rs := rfS + rfHS in
    let '(dns, rdndrs) := lays rs in
    let zs := rf_zd sk0 rs dns in
    let fs := refi dns rdndrs in
    match rf_loop fuel pfuel layt sk0 zobs2 (zt - zobs2) f0 ft r0 tol 8 1 #0.0 #0.0 #1.0 with
    | None => None
    | Some reft =>
        match rf_loop fuel pfuel lays sk0 zts (zs - zts) fts fs rt tol 8 1 #0.0 #0.0 #1.0 with
        | None => None
        | Some refp => Some (reft + refp)
        end
    end.
  (** palRefro.c:185-437 with loop bounds [fuel], [pfuel]; [None] when they are too small *)
  Definition palRefro_fuel (fuel pfuel : nat) (zobs hm tdk pmb rh wl phi tlr eps : T) : option T :=
    let zobs1 := palDrange zobs in
    let zobs2 := DMIN (fabs zobs1) rfD93 in
    let hmok := DMIN (DMAX hm (- #1e3)) rfHS in
    let tdkok := DMIN (DMAX tdk #100.0) #500.0 in
    let pmbok := DMIN (DMAX pmb #0.0) #10000.0 in
    let rhok := DMIN (DMAX rh #0.0) #1.0 in
    let wlok := DMAX wl #0.1 in
    let alpha := DMIN (DMAX (fabs tlr) #0.001) #0.01 in
    let tol := DMIN (DMAX (fabs eps) #1e-12) #0.1 / #2.0 in
    match rf_core fuel pfuel zobs2 hmok tdkok pmbok rhok wlok phi alpha tol with
    | None => None
    | Some ref => Some (if zobs1 <? #0.0 then - ref else ref)
    end.
  (** palRefro.c:185-437.  12 passes of fewer than 16384 strips always suffice
      (C47_terminates), so the default is never used *)
  Definition palRefro (zobs hm tdk pmb rh wl phi tlr eps : T) : T :=
    match palRefro_fuel 12 (Z.to_nat rfISMAX) zobs hm tdk pmb rh wl phi tlr eps with
    | Some r => r
    | None => #0.0
    end.

  (** palRefco.c:102-120: (refa, refb) *)
  Definition ATN1 : T := #0.7853981633974483.
  Definition ATN4 : T := #1.325817663668033.
  Definition palRefco (hm tdk pmb rh wl phi tlr eps : T) : T * T :=
    let r1 := palRefro ATN1 hm tdk pmb rh wl phi tlr eps in
    let r2 := palRefro ATN4 hm tdk pmb rh wl phi tlr eps in
    ((#64.0 * r1 - r2) / #60.0, (r2 - #4.0 * r1) / #60.0).

  (** palRefv.c:129-155 *)
  Definition palRefv (vu : vec) (refa refb : T) : vec :=
    let x := vx vu in let y := vy vu in let z1 := vz vu in
    let z := DMAX z1 #0.05 in
    let zsq := z * z in
    let rsq := x * x + y * y in
    let r := sqrt rsq in
    let wb := refb * rsq / zsq in
    let wt := (refa + wb) / (#1.0 + (refa + #3.0 * wb) * (zsq + rsq) / zsq) in
    let d := wt * r / z in
    let cd := #1.0 - d * d / #2.0 in
    let f := cd * (#1.0 - wt) in
    V (x * f) (y * f) (cd * (z + d * r) + (z1 - z)).

  (** palRefz.c:136-191; constants at lines 141-154 *)
  Definition rzC1 : T := #0.55445.
  Definition rzC2 : T := - #0.01133.
  Definition rzC3 : T := #0.00202.
  Definition rzC4 : T := #0.28385.
  Definition rzC5 : T := #0.02390.
  Definition rzZ83 : T := #83.0 * DD2R.
  Definition rzREF83 : T :=
    (rzC1 + rzC2 * #7.0 + rzC3 * #49.0) / (#1.0 + rzC4 * #7.0 + rzC5 * #49.0).
  (** palRefz.c:161-170: the first estimate *)
  Definition rz_first (zu1 refa refb : T) : T :=
    let s := sin zu1 in let c := cos zu1 in let t := s / c in
    let tsq := t * t in let tcu := t * tsq in
    zu1 - (refa * t + refb * tcu) / (#1.0 + (refa + #3.0 * refb * tsq) / (c * c)).
  (** palRefz.c:172-179: the second *)
  Definition rz_ref (zu1 refa refb : T) : T :=
    let zl := rz_first zu1 refa refb in
    let s := sin zl in let c := cos zl in let t := s / c in
    let tsq := t * t in let tcu := t * tsq in
    zu1 - zl + (zl - zu1 + refa * t + refb * tcu) / (#1.0 + (refa + #3.0 * refb * tsq) / (c * c)).
  Definition palRefz (zu refa refb : T) : T :=
    let zu1 := DMIN zu rzZ83 in
    let ref := rz_ref zu1 refa refb in
    let ref' :=
      if zu >? zu1 then
        let e := #90.0 - DMIN #93.0 (zu * DR2D) in
        let e2 := e * e in
        (ref / rzREF83) * (rzC1 + rzC2 * e + rzC3 * e2) / (#1.0 + rzC4 * e + rzC5 * e2)
      else ref in
    zu - ref'.

  (** palAtmdsp.c:129-180: (a2, b2) *)
  Definition atmd_w2 (wl : T) : T :=
    let wlok := DMAX wl #0.1 in let wlsq := wlok * wlok in
    #77.5317e-6 + (#0.43909e-6 + #0.00367e-6 / wlsq) / wlsq.
  (** refractivity at the observer, palAtmdsp.c:144-164 *)
  Definition atmd_dn (tdk pmb rh wl : T) : T :=
    let tdkok := DMIN (DMAX tdk #100.0) #500.0 in
    let pmbok := DMIN (DMAX pmb #0.0) #10000.0 in
    let rhok := DMIN (DMAX rh #0.0) #1.0 in
    let psat := pow #10.0 (- #8.7115 + #0.03477 * tdkok) in
    let pwo := rhok * psat in
    let w1 := #11.2684e-6 * pwo in
    (atmd_w2 wl * pmbok - w1) / tdkok.
  Definition palAtmdsp (tdk pmb rh wl1 a1 b1 wl2 : T) : T * T :=
    if ((wl1 >? #100.0) || (wl2 >? #100.0))%bool then (a1, b1)
    else
      let dn1 := atmd_dn tdk pmb rh wl1 in
      let dn2 := atmd_dn tdk pmb rh wl2 in
      if dn1 !=? #0.0 then
        let f := dn2 / dn1 in
        let b2 := b1 * f in
        (a1 * f, if dn1 !=? a1 then b2 * (#1.0 + dn1 * (dn1 - dn2) / (#2.0 * (dn1 - a1))) else b2)
      else (a1, b1).
End Refr.
Arguments ratm : clear implicits.
