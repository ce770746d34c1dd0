(** * Models: reference frames, precession, E-terms, polar motion, FK4/FK5. *)
From Coq Require Import ZArith Bool Ascii String List.
From Verif Require Import Num Erfa Erfa2 M_Sphere M_Time.
From Verif Require M_Str.
Import ListNotations.
Local Open Scope num_scope.

Section Frames.
  Context {T : Type} {A : Arith T}.
  Notation vec := (vec T). Notation mat := (mat T).

  (** palmac.h:110 PAL__PMF (the stray semicolon of the macro is harmless in its uses) *)
  Definition PMF : T := #100.0 * #60.0 * #60.0 * #360.0 / D2PI.
  (** palmac.h:106 PAL__VF *)
  Definition VF : T := #21.095.

  (** ** Galactic and supergalactic coordinates *)
  (** palEqgal.c:99-103, repeated at palGaleq.c:99-103 *)
  Definition rmat_eqgal : mat :=
    M (V (- #0.054875539726) (- #0.873437108010) (- #0.483834985808))
      (V (#0.494109453312) (- #0.444829589425) (#0.746982251810))
      (V (- #0.867666135858) (- #0.198076386122) (#0.455983795705)).
  Definition rmat_galeq : mat :=
    M (V (- #0.054875539726) (- #0.873437108010) (- #0.483834985808))
      (V (#0.494109453312) (- #0.444829589425) (#0.746982251810))
      (V (- #0.867666135858) (- #0.198076386122) (#0.455983795705)).
  (** palGalsup.c:97-101, repeated at palSupgal.c:97-101 *)
  Definition rmat_galsup : mat :=
    M (V (- #0.735742574804) (#0.677261296414) (#0.000000000000))
      (V (- #0.074553778365) (- #0.080991471307) (#0.993922590400))
      (V (#0.673145302109) (#0.731271165817) (#0.110081262225)).
  Definition rmat_supgal : mat :=
    M (V (- #0.735742574804) (#0.677261296414) (#0.000000000000))
      (V (- #0.074553778365) (- #0.080991471307) (#0.993922590400))
      (V (#0.673145302109) (#0.731271165817) (#0.110081262225)).
  (** palGe50.c:104-108 *)
  Definition rmat_ge50 : mat :=
    M (V (- #0.066988739415) (- #0.872755765852) (- #0.483538914632))
      (V (#0.492728466075) (- #0.450346958020) (#0.744584633283))
      (V (- #0.867600811151) (- #0.188374601723) (#0.460199784784)).

  (** palEqgal.c:80-118: (dl, db) *)
  Definition palEqgal (dr dd : T) : T * T :=
    let v1 := eraS2c dr dd in
    let v2 := eraRxp rmat_eqgal v1 in
    let '(dl, db) := eraC2s v2 in
    (eraAnp dl, eraAnpm db).
  (** palGaleq.c:80-118: (dr, dd) *)
  Definition palGaleq (dl db : T) : T * T :=
    let v1 := eraS2c dl db in
    let v2 := eraTrxp rmat_galeq v1 in
    let '(dr, dd) := eraC2s v2 in
    (eraAnp dr, eraAnpm dd).
  (** palGalsup.c:83-116: (dsl, dsb) *)
  Definition palGalsup (dl db : T) : T * T :=
    let v1 := eraS2c dl db in
    let v2 := eraRxp rmat_galsup v1 in
    let '(dsl, dsb) := eraC2s v2 in
    (eraAnp dsl, eraAnpm dsb).
  (** palSupgal.c:83-116: (dl, db) *)
  Definition palSupgal (dsl dsb : T) : T * T :=
    let v1 := eraS2c dsl dsb in
    let v2 := eraTrxp rmat_supgal v1 in
    let '(dl, db) := eraC2s v2 in
    (eraAnp dl, eraAnpm db).

  (** ** E-terms of aberration *)
  (** palEtrms.c:78-106 *)
  Definition palEtrms (ep : T) : vec :=
    let ABCONST := #20.49552 in
    let t := (ep - #1950) * #0.0100002135903 in
    let e := #0.01673011 - (t * #1.26e-7 + #4.193e-5) * t in
    let e0 := (#84404.836 - ((t * #0.00181 + #0.00319) * t + #46.8495) * t) * DAS2R in
    let p := (((t * #0.012 + #1.65) * t + #6190.67) * t + #1015489.951) * DAS2R in
    let ek := e * ABCONST * DAS2R in
    let cp := cos p in
    V (ek * sin p) (- ek * cp * cos e0) (- ek * cp * sin e0).
  (** palAddet.c:88-112: (rc, dc) *)
  Definition palAddet (rm dm eq : T) : T * T :=
    let a := palEtrms eq in
    let v := eraS2c rm dm in
    let v := V (vx v + vx a) (vy v + vy a) (vz v + vz a) in
    let '(rc, dc) := eraC2s v in
    (eraAnp rc, dc).
  (** palSubet.c:86-112: (rm, dm) *)
  Definition palSubet (rc dc eq : T) : T * T :=
    let a := palEtrms eq in
    let v := eraS2c rc dc in
    let f := #1.0 + eraPdp v a in
    let v := V (f * vx v - vx a) (f * vy v - vy a) (f * vz v - vz a) in
    let '(rm, dm) := eraC2s v in
    (eraAnp rm, dm).
  (** palGe50.c:79-128: (dr, dd) *)
  Definition palGe50 (dl db : T) : T * T :=
    let v1 := eraS2c dl db in
    let v2 := eraTrxp rmat_ge50 v1 in
    let '(r, d) := eraC2s v2 in
    let '(re, de) := palAddet r d #1950.0 in
    (eraAnp re, eraAnpm de).

  (** ** Precession, nutation, ecliptic *)
  (** palEcmat.c:73-82 *)
  Definition palEcmat (date : T) : mat :=
    let eps0 := eraObl06 MJD0 date in
    palDeuler "X" eps0 #0.0 #0.0.
  (** palPrebn.c:76-98 *)
  Definition palPrebn (bep0 bep1 : T) : mat :=
    let bigt := (bep0 - #1850) / #100 in
    let t := (bep1 - bep0) / #100 in
    let tas2r := t * DAS2R in
    let w := #2303.5548 + (#1.39720 + #0.000059 * bigt) * bigt in
    let zeta := (w + (#0.30242 - #0.000269 * bigt + #0.017996 * t) * t) * tas2r in
    let z := (w + (#1.09478 + #0.000387 * bigt + #0.018324 * t) * t) * tas2r in
    let theta := (#2005.1125 + (- #0.85294 - #0.000365 * bigt) * bigt +
                  (- #0.42647 - #0.000365 * bigt - #0.041802 * t) * t) * tas2r in
    palDeuler "ZYZ" (- zeta) theta (- z).
  (** palPrec.c:76-107 *)
  Definition palPrec (ep0 ep1 : T) : mat :=
    let ep0_days := (ep0 - #2000.0) * DJY in
    let ep1_days := (ep1 - #2000.0) * DJY in
    if ep0 ==? #2000.0 then eraPmat06 DJ00 ep1_days
    else if ep1 ==? #2000.0 then
      let rmatp := eraPmat06 DJ00 ep0_days in eraTr rmatp
    else
      let rmatp := eraPmat06 DJ00 ep0_days in
      let rmatp := eraTr rmatp in
      let rmatq := eraPmat06 DJ00 ep1_days in
      eraRxr rmatp rmatq.
  (** palNutc.c:77-80: (dpsi, deps, eps0); [nut06a] stands for eraNut06a *)
  Definition palNutc (nut06a : T -> T -> T * T) (date : T) : T * T * T :=
    let '(dpsi, deps) := nut06a MJD0 date in
    (dpsi, deps, eraObl06 MJD0 date).
  (** palNut.c:76-85 *)
  Definition palNut (nut06a : T -> T -> T * T) (date : T) : mat :=
    let '(dpsi, deps, eps0) := palNutc nut06a date in
    palDeuler "XZX" eps0 (- dpsi) (- (eps0 + deps)).
  (** palPrenut.c:70-111; [p06e] gives the four eraP06e angles used (eps0, psia, oma, chia),
      [pnm06a] stands for eraPnm06a *)
  Definition palPrenut (p06e : T -> T -> T * T * T * T) (pnm06a : T -> T -> mat)
      (epoch date : T) : mat :=
    let '(d1, d2) := eraEpj2jd epoch in
    let '(eps0, psia, oma, chia) := p06e d1 d2 in
    let r1 := eraIr in
    let r1 := eraRz (- chia) r1 in
    let r1 := eraRx oma r1 in
    let r1 := eraRz psia r1 in
    let r1 := eraRx (- eps0) r1 in
    let r2 := pnm06a MJD0 date in
    eraRxr r2 r1.
  (** palEcleq.c:76-97: (dr, dd) *)
  Definition palEcleq (dl db date : T) : T * T :=
    let v1 := eraS2c dl db in
    let v2 := eraTrxp (palEcmat date) v1 in
    let v1 := eraTrxp (palPrec #2000.0 (palEpj date)) v2 in
    let '(dr, dd) := eraC2s v1 in
    (eraAnp dr, palDrange dd).
  (** palEqecl.c:76-97: (dl, db) *)
  Definition palEqecl (dr dd date : T) : T * T :=
    let v1 := eraS2c dr dd in
    let v2 := eraRxp (palPrec #2000.0 (palEpj date)) v1 in
    let v1 := eraRxp (palEcmat date) v2 in
    let '(dl, db) := eraC2s v1 in
    (eraAnp dl, palDrange db).

  (** strncasecmp (a, sys, 3) == 0 for a three-character [a]; [sys] is the C string *)
  Fixpoint strncase_eq (a : string) (s : string) : bool :=
    match a, s with
    | EmptyString, _ => true
    | String c a', String d s' =>
        if Ascii.eqb (M_Str.tolower c) (M_Str.tolower d) then strncase_eq a' s' else false
    | String _ _, EmptyString => false
    end.
  (** palPreces.c:99-126: the new (ra, dc) *)
  Definition palPreces (sys : string) (ep0 ep1 ra dc : T) : T * T :=
    let go (pm : mat) :=
      let v1 := eraS2c ra dc in
      let v2 := eraRxp pm v1 in
      let '(ra, dc) := eraC2s v2 in
      (eraAnp ra, dc) in
    if strncase_eq "FK4" sys then go (palPrebn ep0 ep1)
    else if strncase_eq "FK5" sys then go (palPrec ep0 ep1)
    else (- #99.0, - #99.0).

  (** ** Polar motion: palPolmo.c:135-190: (elong, phi, daz) *)
  Definition palPolmo (elongm phim xp yp : T) : T * T * T :=
    let sel := sin elongm in let cel := cos elongm in
    let sph := sin phim in let cph := cos phim in
    let xm := cel * cph in
    let ym := sel * cph in
    let zm := sph in
    let sxp := sin xp in let cxp := cos xp in
    let syp := sin yp in let cyp := cos yp in
    let zw := - ym * syp + zm * cyp in
    let xt := xm * cxp - zw * sxp in
    let yt := ym * cyp + zm * syp in
    let zt := xm * sxp + zw * cxp in
    let xnm := - sxp * cyp in
    let ynm := syp in
    let znm := cxp * cyp in
    let cph := sqrt (xt * xt + yt * yt) in
    let xt := if cph ==? #0.0 then #1.0 else xt in
    let sel := yt / cph in
    let cel := xt / cph in
    let elong := if (xt !=? #0.0) || (yt !=? #0.0) then atan2 yt xt else #0.0 in
    let phi := atan2 zt cph in
    let xnt := (xnm * cel + ynm * sel) * zt - znm * cph in
    let ynt := - xnm * sel + ynm * cel in
    let daz := if (xnt !=? #0.0) || (ynt !=? #0.0) then atan2 (- ynt) (- xnt) else #0.0 in
    (elong, phi, daz).

  (** ** FK4 / FK5 *)
  (** palFk45z.c:137 and palFk524.c:148: vector A; palFk45z.c:140, palFk524.c:149: Adot *)
  Definition fk_a : vec := V (- #1.62557E-6) (- #0.31919E-6) (- #0.13843E-6).
  Definition fk_ad : vec := V (#1.245E-3) (- #1.580E-3) (- #0.659E-3).
  (** palFk45z.c:143-148: rows 0-2 and rows 3-5 of em *)
  Definition fk_em_p : mat :=
    M (V (#0.9999256782) (- #0.0111820611) (- #0.0048579477))
      (V (#0.0111820610) (#0.9999374784) (- #0.0000271765))
      (V (#0.0048579479) (- #0.0000271474) (#0.9999881997)).
  Definition fk_em_v : mat :=
    M (V (- #0.000551) (- #0.238565) (#0.435739))
      (V (#0.238514) (- #0.002667) (- #0.008541))
      (V (- #0.435623) (#0.012254) (#0.002117)).
  (** palFk45z.c:124-184: (r2000, d2000).  The inner product of line 170 starts from 0. *)
  Definition palFk45z (r1950 d1950 bepoch : T) : T * T :=
    let r0 := eraS2c r1950 d1950 in
    let w := (bepoch - #1950.0) / PMF in
    let a1 := V (vx fk_a + w * vx fk_ad) (vy fk_a + w * vy fk_ad) (vz fk_a + w * vz fk_ad) in
    let w := vx r0 * vx a1 + vy r0 * vy a1 + vz r0 * vz a1 in
    let v1 := V (vx r0 - vx a1 + w * vx r0) (vy r0 - vy a1 + w * vy r0) (vz r0 - vz a1 + w * vz r0) in
    let v2 := eraRxp fk_em_p v1 in
    let v2d := eraRxp fk_em_v v1 in
    let w := (palEpj (palEpb2d bepoch) - #2000.0) / PMF in
    let v2 := V (vx v2 + w * vx v2d) (vy v2 + w * vy v2d) (vz v2 + w * vz v2d) in
    let '(w, d2000) := eraC2s v2 in
    (eraAnp w, d2000).

  (** palFk524.c:150-162: emi in four 3x3 blocks (position/velocity) *)
  Definition fk_emi_pp : mat :=
    M (V (#0.9999256795) (#0.0111814828) (#0.0048590039))
      (V (- #0.0111814828) (#0.9999374849) (- #0.0000271771))
      (V (- #0.0048590040) (- #0.0000271557) (#0.9999881946)).
  Definition fk_emi_pv : mat :=
    M (V (- #0.00000242389840) (- #0.00000002710544) (- #0.00000001177742))
      (V (#0.00000002710544) (- #0.00000242392702) (#0.00000000006585))
      (V (#0.00000001177742) (#0.00000000006585) (- #0.00000242404995)).
  Definition fk_emi_vp : mat :=
    M (V (- #0.000551) (#0.238509) (- #0.435614))
      (V (- #0.238560) (- #0.002667) (#0.012254))
      (V (#0.435730) (- #0.008541) (#0.002117)).
  Definition fk_emi_vv : mat :=
    M (V (#0.99990432) (#0.01118145) (#0.00485852))
      (V (- #0.01118145) (#0.99991613) (- #0.00002717))
      (V (- #0.00485852) (- #0.00002716) (#0.99996684)).
  (** palFk524.c:193-199: one row of the 6x6 product, accumulated from 0 *)
  Definition row6 (rp rv p v : vec) : T :=
    #0.0 + vx rp * vx p + vy rp * vy p + vz rp * vz p + vx rv * vx v + vy rv * vy v + vz rv * vz v.
  Definition fk_star := (T * T * T * T * T * T)%type.
  (** palFk524 is modelled in the four stages of the C body, in order.
      palFk524.c:172-190: spherical to Cartesian position and space motion, [w] = VF*rv*px *)
  Definition fk524_cart (r d ur ud w : T) : vec * vec :=
    let sr := sin r in let cr := cos r in
    let sd := sin d in let cd := cos d in
    let x := cr * cd in
    let y := sr * cd in
    let z := sd in
    (V x y z,
     V (- ur * y - cr * sd * ud + w * x) (ur * x - sr * sd * ud + w * y) (cd * ud + w * z)).
  (** palFk524.c:192-199: position+velocity vector to the BN system *)
  Definition fk524_bn (p v : vec) : vec * vec :=
    (V (row6 (m0 fk_emi_pp) (m0 fk_emi_pv) p v)
       (row6 (m1 fk_emi_pp) (m1 fk_emi_pv) p v)
       (row6 (m2 fk_emi_pp) (m2 fk_emi_pv) p v),
     V (row6 (m0 fk_emi_vp) (m0 fk_emi_vv) p v)
       (row6 (m1 fk_emi_vp) (m1 fk_emi_vv) p v)
       (row6 (m2 fk_emi_vp) (m2 fk_emi_vv) p v)).
  (** palFk524.c:201-227: E-terms; returns position, velocity and rxyz *)
  Definition fk524_eterms (v2p v2v : vec) : vec * vec * T :=
    let x := vx v2p in let y := vy v2p in let z := vz v2p in
    let rxyz := sqrt (x * x + y * y + z * z) in
    let w := x * vx fk_a + y * vy fk_a + z * vz fk_a in
    let x := x + (vx fk_a * rxyz - w * x) in
    let y := y + (vy fk_a * rxyz - w * y) in
    let z := z + (vz fk_a * rxyz - w * z) in
    let rxyz := sqrt (x * x + y * y + z * z) in
    let x := vx v2p in let y := vy v2p in let z := vz v2p in
    let w := x * vx fk_a + y * vy fk_a + z * vz fk_a in
    let wd := x * vx fk_ad + y * vy fk_ad + z * vz fk_ad in
    let x := x + (vx fk_a * rxyz - w * x) in
    let y := y + (vy fk_a * rxyz - w * y) in
    let z := z + (vz fk_a * rxyz - w * z) in
    let xd := vx v2v + vx fk_ad * rxyz - wd * x in
    let yd := vy v2v + vy fk_ad * rxyz - wd * y in
    let zd := vz v2v + vz fk_ad * rxyz - wd * z in
    (V x y z, V xd yd zd, rxyz).
  (** palFk524.c:229-258: spherical coordinates, proper motions, radial velocity, parallax *)
  Definition fk524_sph (p v : vec) (rxyz ur ud px rv : T) : fk_star :=
    let tiny := #1.0E-30 in
    let x := vx p in let y := vy p in let z := vz p in
    let xd := vx v in let yd := vy v in let zd := vz v in
    let rxysq := x * x + y * y in
    let rxy := sqrt rxysq in
    let r := if (x ==? #0.0) && (y ==? #0.0) then #0.0
             else let r := atan2 y x in if r <? #0.0 then r + D2PI else r in
    let d := atan2 z rxy in
    let '(ur, ud) :=
      if rxy >? tiny then
        ((x * yd - y * xd) / rxysq,
         (zd * rxysq - z * (x * xd + y * yd)) / ((rxysq + z * z) * rxy))
      else (ur, ud) in
    let '(rv, px) :=
      if px >? tiny then ((x * xd + y * yd + z * zd) / (px * VF * rxyz), px / rxyz)
      else (rv, px) in
    (r, d, ur / PMF, ud / PMF, px, rv).
  (** palFk524.c:132-259: (r1950, d1950, dr1950, dd1950, p1950, v1950) *)
  Definition palFk524 (r2000 d2000 dr2000 dd2000 p2000 v2000 : T) : fk_star :=
    let ur := dr2000 * PMF in
    let ud := dd2000 * PMF in
    let px := p2000 in
    let rv := v2000 in
    let w := VF * rv * px in
    let '(p, v) := fk524_cart r2000 d2000 ur ud w in
    let '(p, v) := fk524_bn p v in
    let '(p, v, rxyz) := fk524_eterms p v in
    fk524_sph p v rxyz ur ud px rv.
  (** palFk54z.c:97-112: (r1950, d1950, dr1950, dd1950) *)
  Definition palFk54z (r2000 d2000 bepoch : T) : T * T * T * T :=
    let '(r, d, dr1950, dd1950, px, rv) := palFk524 r2000 d2000 #0.0 #0.0 #0.0 #0.0 in
    let y := bepoch - #1950.0 in
    (r + dr1950 * y, d + dd1950 * y, dr1950, dd1950).
End Frames.
