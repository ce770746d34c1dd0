(** * Models: mean, apparent and observed place. *)
From Coq Require Import ZArith Bool Ascii String List.
From Verif Require Import Num Erfa Erfa2 M_Sphere M_Time M_Frames M_Refr NutTable.
Import ListNotations.
Local Open Scope num_scope.

Section Place.
  Context {T : Type} {A : Arith T}.
  Notation vec := (vec T). Notation mat := (mat T).

  (** palmac.h:99,102,114 *)
  Definition CR : T := #499.004782.
  Definition SPD : T := #86400.0.
  Definition SR : T := #7.2921150e-5.

  (** palEvp.c:81-110: (dvb, dpb, dvh, dph); [epv00] stands for eraEpv00, giving (pvh, pvb) *)
  Definition vdiv (v : vec) (k : T) : vec := V (vx v / k) (vy v / k) (vz v / k).
  Definition palEvp (epv00 : T -> T -> pv T * pv T) (date deqx : T) : vec * vec * vec * vec :=
    let '(pvh, pvb) := epv00 #2400000.5 date in
    let '(pvh, pvb) :=
      if deqx >? #0.0 then
        let '(d1, d2) := eraEpj2jd deqx in
        let r := eraPmat06 d1 d2 in (eraRxpv r pvh, eraRxpv r pvb)
      else (pvh, pvb) in
    (vdiv (pvv pvb) SPD, pvp pvb, vdiv (pvv pvh) SPD, pvp pvh).
  (** palEpv.c:79-96: (ph, vh, pb, vb) *)
  Definition palEpv (epv00 : T -> T -> pv T * pv T) (date : T) : vec * vec * vec * vec :=
    let '(pvh, pvb) := epv00 MJD0 date in (pvp pvh, pvv pvh, pvp pvb, pvv pvb).

  (** The 21 mean-to-apparent parameters (palMappa.c:38-52): [0], [1-3], [4-6], [7], [8-10], [11], [12-20] *)
  Record amprms : Type := Amprms { am_pmt : T; am_eb : vec; am_ehn : vec; am_gr2e : T;
    am_abv : vec; am_ab1 : T; am_npb : mat }.
  (** palMappa.c:94-129; [prenut] stands for palPrenut *)
  Definition palMappa (epv00 : T -> T -> pv T * pv T) (prenut : T -> T -> mat) (eq date : T) : amprms :=
    let GR2 := #2.0 * #9.87063e-9 in
    let pmt := eraEpj MJD0 date - eq in
    let '(ebd, eb, ehd, eh) := palEvp epv00 date eq in
    let '(e, ehn) := eraPn eh in
    let abv := V (vx ebd * CR) (vy ebd * CR) (vz ebd * CR) in
    let '(vm, vn) := eraPn abv in
    Amprms pmt eb ehn (GR2 / e) abv (sqrt (#1.0 - vm * vm)) (prenut eq date).

  (** palMapqk.c:150-156, palMapqkz.c:129-135: light deflection of the unit vector [p] *)
  Definition mq_deflect (gr2e : T) (ehn p : vec) : vec :=
    let pde := eraPdp p ehn in
    let pdep1 := pde + #1.0 in
    let w := gr2e / (if pdep1 >? #1.0e-5 then pdep1 else #1.0e-5) in
    V (vx p + w * (vx ehn - pde * vx p)) (vy p + w * (vy ehn - pde * vy p)) (vz p + w * (vz ehn - pde * vz p)).
  (** palMapqk.c:159-163, palMapqkz.c:138-142: aberration; [pd] is the vector dotted with [abv] *)
  Definition mq_aberr (ab1 : T) (abv pd p1 : vec) : vec :=
    let p1dv := eraPdp pd abv in
    let w := #1.0 + p1dv / (ab1 + #1.0) in
    V (ab1 * vx p1 + w * vx abv) (ab1 * vy p1 + w * vy abv) (ab1 * vz p1 + w * vz abv).
  (** palMapqk.c:165-170, palMapqkz.c:144-149 *)
  Definition mq_radec (npb : mat) (p2 : vec) : T * T :=
    let '(ra, da) := eraC2s (eraRxp npb p2) in (eraAnp ra, da).
  (** palMapqk.c:134-147: the geocentric vector of the star *)
  Definition mq_star (rm dm pr pd px rv pmt : T) (eb : vec) : vec :=
    let VF := #0.210945028 in
    let q := eraS2c rm dm in
    let pxr := px * DAS2R in
    let w := VF * rv * pxr in
    let em0 := - pr * vy q - pd * cos rm * sin dm + w * vx q in
    let em1 := pr * vx q - pd * sin rm * sin dm + w * vy q in
    let em2 := pd * cos dm + w * vz q in
    V (vx q + pmt * em0 - pxr * vx eb) (vy q + pmt * em1 - pxr * vy eb) (vz q + pmt * em2 - pxr * vz eb).
  (** palMapqk.c:111-172: (ra, da) *)
  Definition palMapqk (rm dm pr pd px rv : T) (a : amprms) : T * T :=
    let p := mq_star rm dm pr pd px rv (am_pmt a) (am_eb a) in
    let '(w, pn) := eraPn p in
    let p1 := mq_deflect (am_gr2e a) (am_ehn a) pn in
    mq_radec (am_npb a) (mq_aberr (am_ab1 a) (am_abv a) p p1).
  (** palMapqkz.c:110-150 *)
  Definition palMapqkz (rm dm : T) (a : amprms) : T * T :=
    let p := eraS2c rm dm in
    let p1 := mq_deflect (am_gr2e a) (am_ehn a) p in
    mq_radec (am_npb a) (mq_aberr (am_ab1 a) (am_abv a) p1 p1).
  (** palMap.c:116-128 *)
  Definition palMap epv00 prenut (rm dm pr pd px rv eq date : T) : T * T :=
    palMapqk rm dm pr pd px rv (palMappa epv00 prenut eq date).

  (** palAmpqk.c:126-137: one aberration step *)
  Definition aq_aberr (ab1 : T) (abv p2 p1 : vec) : vec :=
    let p1dv := eraPdp p1 abv in
    let p1dvp1 := #1.0 + p1dv in
    let w := #1.0 + p1dv / (ab1 + #1.0) in
    snd (eraPn (V ((p1dvp1 * vx p2 - w * vx abv) / ab1) ((p1dvp1 * vy p2 - w * vy abv) / ab1)
                  ((p1dvp1 * vz p2 - w * vz abv) / ab1))).
  (** palAmpqk.c:143-154: one light deflection step *)
  Definition aq_deflect (gr2e : T) (ehn p1 p : vec) : vec :=
    let pde := eraPdp p ehn in
    let pdep1 := #1.0 + pde in
    let w := pdep1 - gr2e * pde in
    snd (eraPn (V ((pdep1 * vx p1 - gr2e * vx ehn) / w) ((pdep1 * vy p1 - gr2e * vy ehn) / w)
                  ((pdep1 * vz p1 - gr2e * vz ehn) / w))).
  Fixpoint repeat_n {B} (n : nat) (f : B -> B) (x : B) : B :=
    match n with O => x | S m => repeat_n m f (f x) end.
  (** palAmpqk.c:96-159: (rm, dm) *)
  Definition palAmpqk (ra da : T) (a : amprms) : T * T :=
    let p3 := eraS2c ra da in
    let p2 := eraTrxp (am_npb a) p3 in
    let p1 := repeat_n 2 (aq_aberr (am_ab1 a) (am_abv a) p2) p2 in
    let p := repeat_n 5 (aq_deflect (am_gr2e a) (am_ehn a) p1) p1 in
    let '(rm, dm) := eraC2s p in (eraAnp rm, dm).
  (** palAmp.c:79-84 *)
  Definition palAmp epv00 prenut (ra da date eq : T) : T * T :=
    palAmpqk ra da (palMappa epv00 prenut eq date).

  (** ** Observed place *)
  (** The 14 apparent-to-observed parameters (palAoppa.c:60-76), in order *)
  Record aoprms : Type := Aoprms { ao_phi : T; ao_sphi : T; ao_cphi : T; ao_diurab : T; ao_hm : T;
    ao_tdk : T; ao_pmb : T; ao_rh : T; ao_wl : T; ao_tlr : T; ao_refa : T; ao_refb : T;
    ao_lon : T; ao_st : T }.

  (** palAoppa.c:228-251 pal__Geoc: (r, z) *)
  Definition pal__Geoc (p h : T) : T * T :=
    let A0 := #6378140.0 in
    let f := #1.0 / #298.257 in
    let AU := #1.49597870e11 in
    let b := pow (#1.0 - f) #2.0 in
    let sp := sin p in let cp := cos p in
    let c := #1.0 / sqrt (cp * cp + b * sp * sp) in
    let s := b * c in
    ((A0 * c + h) * cp / AU, (A0 * s + h) * sp / AU).

  (** palAoppa.c:280-963 pal__Nutc: (dpsi, deps, eps0) *)
  Definition nut_arg (deg c1 c2 c3 c4 t : T) : T :=
    deg * DD2R + fmod (t * (c1 + t * (c2 + t * (c3 + t * c4)))) #1296000.0 * DAS2R.
  Definition nut_lon (deg rate t : T) : T := deg * DD2R + fmod (rate * t) #1296000.0 * DAS2R.
  Definition nut_args (t : T) : list T :=
    [ nut_arg #134.96340251 #1717915923.2178 #31.8792 #0.051635 (- #0.00024470) t;
      nut_arg #357.52910918 #129596581.0481 (- #0.5532) #0.000136 (- #0.00001149) t;
      nut_arg #93.27209062 #1739527262.8478 (- #12.7512) (- #0.001037) #0.00000417 t;
      nut_arg #297.85019547 #1602961601.2090 (- #6.3706) #0.006539 (- #0.00003169) t;
      nut_arg #125.04455501 (- #6962890.5431) #7.4722 #0.007702 (- #0.00005939) t;
      nut_lon #181.97980085 #210664136.433548 t;
      nut_lon #355.43299958 #68905077.493988 t;
      nut_lon #34.35151874 #10925660.377991 t;
      nut_lon #50.07744430 #4399609.855732 t ].
  Fixpoint nut_theta (n : list Z) (a : list T) (acc : T) : T :=
    match n, a with
    | k :: n', x :: a' => nut_theta n' a' (acc + ofZ k * x)
    | _, _ => acc
    end.
  Definition nut_term (th t : T) (k : list Dec) : T :=
    match k with
    | [k0; k1; k2; k3] => (lit k0 + lit k2 * t) * cos th + (lit k1 + lit k3 * t) * sin th
    | _ => #0
    end.
  (** palAoppa.c:935-949, the loop runs from the last row to the first *)
  Definition nut_sum (args : list T) (t : T) (rows : list (list Z * list Dec * list Dec)) (dp de : T) : T * T :=
    fold_left (fun acc row =>
      let '(na, psi, eps) := row in
      let th := match na, args with k :: na', x :: a' => nut_theta na' a' (ofZ k * x) | _, _ => #0 end in
      (fst acc + nut_term th t psi, snd acc + nut_term th t eps)) (rev rows) (dp, de).
  Definition pal__Nutc (date : T) : T * T * T :=
    let t := (date - #51544.5) / #36525.0 in
    let args := nut_args t in
    let elp := nth 1 args #0 in
    let dp := - #153.1 * sin elp - #1.9 * sin (#2 * elp) in
    let '(dp, de) := nut_sum args t nutTable dp #0.0 in
    ((dp * #1e-6 - #0.042888 - #0.29856 * t) * DAS2R,
     (de * #1e-6 - #0.005171 - #0.02408 * t) * DAS2R,
     (#84381.412 + (- #46.80927 + (- #0.000152 + (#0.0019989 + (- #0.00000051 + (- #0.000000025) * t) * t) * t) * t) * t)
       * DAS2R).
  (** palAoppa.c:253-276 pal__Eqeqx *)
  Definition pal__Eqeqx (date : T) : T :=
    let T2AS := #1296000.0 in
    let t := (date - #51544.5) / #36525.0 in
    let om := DAS2R * (#450160.280 + (- #5.0 * T2AS - #482890.539 + (#7.455 + #0.008 * t) * t) * t) in
    let '(dpsi, deps, eps0) := pal__Nutc date in
    dpsi * cos eps0 + DAS2R * (#0.00264 * sin om + #0.000063 * sin (om + om)).
  (** palAoppat.c:89-103 pal__Gmst *)
  Definition pal__Gmst (ut1 : T) : T :=
    let tu := (ut1 - #51544.5) / #36525 in
    palDranrm (fmod ut1 #1.0 * D2PI +
      (#24110.54841 + (#8640184.812866 + (#0.093104 - #6.2e-6 * tu) * tu) * tu) * DS2R).
  (** palAoppat.c:78-80 *)
  Definition palAoppat (date : T) (p : aoprms) : aoprms :=
    Aoprms (ao_phi p) (ao_sphi p) (ao_cphi p) (ao_diurab p) (ao_hm p) (ao_tdk p) (ao_pmb p) (ao_rh p)
      (ao_wl p) (ao_tlr p) (ao_refa p) (ao_refb p) (ao_lon p) (pal__Gmst date + ao_lon p).
  (** palAoppa.c:172-222; entry 13 is set only by the final palAoppat *)
  Definition palAoppa (date dut elongm phim hm xp yp tdk pmb rh wl tlr : T) : aoprms :=
    let C := #173.14463331 in
    let SOLSID := #1.0027379093 in
    let cphim := cos phim in
    let xt := cos elongm * cphim in
    let yt := sin elongm * cphim in
    let zt := sin phim in
    let xc := xt - xp * zt in
    let yc := yt + yp * zt in
    let zc := xp * xt - yp * yt + zt in
    let elong := if (xc ==? #0.0) && (yc ==? #0.0) then #0.0 else atan2 yc xc in
    let phi := atan2 zc (sqrt (xc * xc + yc * yc)) in
    let '(uau, vau) := pal__Geoc phi hm in
    let '(refa, refb) := palRefco hm tdk pmb rh wl phi tlr #1e-10 in
    palAoppat date
      (Aoprms phi (sin phi) (cos phi) (D2PI * uau * SOLSID / C) hm tdk pmb rh wl tlr refa refb
        (elong + pal__Eqeqx date + dut * SOLSID * DS2R) #0).

  (** palAopqk.c:186, palOapqk.c:156 *)
  Definition zbreak : T := #0.242535625.
  (** palAopqk.c:246-261: [while (fabs(dzd) > 1e-10 && i <= 10)]; [left] = 11 - i *)
  Fixpoint ap_loop (left : nat) (refro : T -> T) (zdt dzd zdobs : T) : T :=
    match left with
    | O => zdobs
    | S l =>
        if fabs dzd >? #1e-10 then
          let dref := refro zdobs in
          let dzd' := zdobs + dref - zdt in
          ap_loop l refro zdt dzd' (zdobs - dzd')
        else zdobs
    end.
  (** the rigorous refraction call of palAopqk.c:249-251 and palOapqk.c:236-237 *)
  Definition ao_refro (p : aoprms) (z : T) : T :=
    palRefro z (ao_hm p) (ao_tdk p) (ao_pmb p) (ao_rh p) (ao_wl p) (ao_phi p) (ao_tlr p) #1e-8.
  (** palAopqk.c:229-262: observed zenith distance from the topocentric one *)
  Definition ap_zdobs (p : aoprms) (zdt : T) : T :=
    let zdobs := palRefz zdt (ao_refa p) (ao_refb p) in
    if cos zdobs <? zbreak then ap_loop 10 (ao_refro p) zdt #1.0e1 zdobs else zdobs.
  (** palAopqk.c:201-217: diurnal aberration, then to Az/El (S=0,E=90) *)
  Definition ap_aberr (diurab : T) (v : vec) : vec :=
    let f := #1.0 - diurab * vy v in V (f * vx v) (f * (vy v + diurab)) (f * vz v).
  Definition ap_hor (sphi cphi : T) (v : vec) : vec :=
    V (sphi * vx v - cphi * vz v) (vy v) (cphi * vx v + sphi * vz v).
  (** palAopqk.c:270-273, palOapqk.c:248-251: back to -HA,Dec *)
  Definition ap_eq (sphi cphi : T) (v : vec) : vec :=
    V (sphi * vx v + cphi * vz v) (vy v) (- cphi * vx v + sphi * vz v).
  (** palAopqk.c:179-288: (aob, zob, hob, dob, rob) *)
  Definition palAopqk (rap dap : T) (p : aoprms) : T * T * T * T * T :=
    let sphi := ao_sphi p in let cphi := ao_cphi p in let st := ao_st p in
    let v := palDcs2c (rap - st) dap in
    let ae := ap_hor sphi cphi (ap_aberr (ao_diurab p) v) in
    let azobs := if (vx ae ==? #0.0) && (vy ae ==? #0.0) then #0.0 else atan2 (vy ae) (- vx ae) in
    let zdt := atan2 (sqrt (vx ae * vx ae + vy ae * vy ae)) (vz ae) in
    let zdobs := ap_zdobs p zdt in
    let ce := sin zdobs in
    let o := V (- cos azobs * ce) (sin azobs * ce) (cos zdobs) in
    let '(hmobs, dcobs) := palDcc2s (ap_eq sphi cphi o) in
    let raobs := palDranrm (st + hmobs) in
    (azobs, zdobs, - hmobs, dcobs, raobs).
  (** palAop.c:225-238 *)
  Definition palAop (rap dap date dut elongm phim hm xp yp tdk pmb rh wl tlr : T) : T * T * T * T * T :=
    palAopqk rap dap (palAoppa date dut elongm phim hm xp yp tdk pmb rh wl tlr).

  (** palOapqk.c:164, 178-184: the coordinate type *)
  Inductive obtype := OR | OH | OA.
  Definition ob_type (c : ascii) : obtype :=
    if (Ascii.eqb c "r" || Ascii.eqb c "R")%bool then OR
    else if (Ascii.eqb c "h" || Ascii.eqb c "H")%bool then OH else OA.
  (** palOapqk.c:186-209 *)
  Definition oa_vec (c : obtype) (c1 c2 : T) (p : aoprms) : vec :=
    match c with
    | OA => let ce := sin c2 in V (- cos c1 * ce) (sin c1 * ce) (cos c2)
    | _ =>
        let c1 := match c with OR => ao_st p - c1 | _ => c1 end in
        ap_hor (ao_sphi p) (ao_cphi p) (palDcs2c (- c1) c2)
    end.
  (** palOapqk.c:150-266: (rap, dap); [c] is type[0] *)
  Definition palOapqk (c : ascii) (ob1 ob2 : T) (p : aoprms) : T * T :=
    let sphi := ao_sphi p in let cphi := ao_cphi p in let st := ao_st p in
    let o := oa_vec (ob_type c) ob1 ob2 p in
    let az := if (vx o !=? #0.0) || (vy o !=? #0.0) then atan2 (vy o) (vx o) else #0.0 in
    let sz := sqrt (vx o * vx o + vy o * vy o) in
    let zdo := atan2 sz (vz o) in
    let dref :=
      if vz o >=? zbreak then
        let tz := sz / vz o in (ao_refa p + ao_refb p * tz * tz) * tz
      else ao_refro p zdo in
    let zdt := zdo + dref in
    let ce := sin zdt in
    let ae := V (cos az * ce) (sin az * ce) (cos zdt) in
    let v := ap_aberr (- ao_diurab p) (ap_eq sphi cphi ae) in
    let '(hma, dap) := palDcc2s v in
    (palDranrm (st + hma), dap).
  (** palOap.c:222-234 *)
  Definition palOap (c : ascii) (ob1 ob2 date dut elongm phim hm xp yp tdk pmb rh wl tlr : T) : T * T :=
    palOapqk c ob1 ob2 (palAoppa date dut elongm phim hm xp yp tdk pmb rh wl tlr).
End Place.
Arguments amprms : clear implicits.
Arguments aoprms : clear implicits.
