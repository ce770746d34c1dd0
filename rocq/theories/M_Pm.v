(** * Model: palPm with the ERFA space motion behind it.

    The era* definitions transcribe published ERFA sources (starpm.c starpv.c pvstar.c s2pv.c pvu.c pvup.c); they are not
    code of /repo and belong to the trusted base. *)
From Coq Require Import ZArith Bool List.
From Verif Require Import Num Erfa M_Sphere M_Frames M_Kin M_Misc.
Import ListNotations.
Local Open Scope num_scope.

Section Pm.
  Context {T : Type} {A : Arith T}.
  Notation vec := (vec T).

  (** erfam.h: seconds per day; speed of light in m/s; light time of the au in s; speed of light in au per day *)
  Definition ERFA_DAYSEC : T := #86400.0.
  Definition ERFA_CMPS : T := #299792458.0.
  Definition ERFA_AULT : T := ERFA_DAU / ERFA_CMPS.
  Definition ERFA_DC : T := ERFA_DAYSEC / ERFA_AULT.

  (** s2pv.c *)
  Definition eraS2pv (theta phi r td pd rd : T) : pv T :=
    let st := sin theta in let ct := cos theta in let sp := sin phi in let cp := cos phi in
    let rcp := r * cp in
    let x := rcp * ct in let y := rcp * st in
    let rpd := r * pd in
    let w := rpd * sp - cp * rd in
    PV (V x y (r * sp)) (V (- y * td - w * ct) (x * td - w * st) (rpd * cp + sp * rd)).

  (** starpv.c, the loop that finds the inertial from the observed velocity; [n] counts IMAX down; (d, del), and
      whether the loop was left by the break *)
  Record betas : Type := Betas { b_r : T; b_t : T; b_d : T; b_del : T; b_od : T; b_odel : T; b_odd : T; b_oddel : T }.
  Fixpoint starpv_loop (n : nat) (i : Z) (betsr betst : T) (s : betas) : T * T * bool :=
    match n with
    | O => (b_d s, b_del s, false)
    | S n =>
        let d := #1.0 + b_r s in
        let w := b_r s * b_r s + b_t s * b_t s in
        let del := - w / (sqrt (#1.0 - w) + #1.0) in
        let betr := d * betsr + del in
        let bett := d * betst in
        let dd := fabs (d - b_od s) in
        let ddel := fabs (del - b_odel s) in
        if (1 <? i)%Z && (dd >=? b_odd s) && (ddel >=? b_oddel s) then (d, del, true)
        else
          let '(odd, oddel) := if (0 <? i)%Z then (dd, ddel) else (b_odd s, b_oddel s) in
          starpv_loop n (i + 1) betsr betst (Betas betr bett d del d del odd oddel)
    end.
  (** starpv.c: status and pv.  [old] selects the releases before the one of 2020-2021, which scale the observed radial
      velocity vector instead of the unit vector and so leave a radial velocity of exactly zero alone. *)
  Definition eraStarpv (old : bool) (ra dec pmr pmd px rv : T) : Z * pv T :=
    let '(w, iwarn) := if px >=? #1e-7 then (px, 0%Z) else (#1e-7, 1%Z) in
    let r := DR2AS / w in
    let rad := pmr / DJY in
    let decd := pmd / DJY in
    let rd := ERFA_DAYSEC * rv * #1e3 / ERFA_DAU in
    let p := eraS2pv ra dec r rad decd rd in
    let v := eraPm (pvv p) in
    let '(vel, iwarn) := if v / ERFA_DC >? #0.5 then (eraZp, (iwarn + 2)%Z) else (pvv p, iwarn) in
    let x := snd (eraPn (pvp p)) in
    let vsr := eraPdp x vel in
    let usr := eraSxp vsr x in
    let ust := eraPmp vel usr in
    let vst := eraPm ust in
    let betsr := vsr / ERFA_DC in
    let betst := vst / ERFA_DC in
    let '(d, del, stop) := starpv_loop 100 0 betsr betst (Betas betsr betst #0.0 #0.0 #0.0 #0.0 #0.0 #0.0) in
    let iwarn := if stop then iwarn else (iwarn + 4)%Z in
    let ur := if old then eraSxp (if betsr ==? #0.0 then #1.0 else d + del / betsr) usr
              else eraSxp (ERFA_DC * (d * betsr + del)) x in
    let ut := eraSxp d ust in
    (iwarn, PV (pvp p) (eraPpp ur ut)).
  (** pvu.c, position part (= pvup.c) *)
  Definition eraPvup (dt : T) (p : pv T) : vec :=
    V (vx (pvp p) + dt * vx (pvv p)) (vy (pvp p) + dt * vy (pvv p)) (vz (pvp p) + dt * vz (pvv p)).
  (** pvstar.c: status, and (ra, dec) unless the status is negative.  The proper motions, parallax and radial velocity, which
      palPm discards, are left out (pv2s.c looks at the velocity for ra and dec only when r is 0, and then ra is not written).  (With status -2 the C writes dec but not ra.) *)
  Definition eraPvstar (p : pv T) : Z * option (T * T) :=
    let x := snd (eraPn (pvp p)) in
    let vr := eraPdp x (pvv p) in
    let ur := eraSxp vr x in
    let ut := eraPmp (pvv p) ur in
    let vt := eraPm ut in
    let bett := vt / ERFA_DC in
    let betr := vr / ERFA_DC in
    let d := #1.0 + betr in
    let w := betr * betr + bett * bett in
    if (d ==? #0.0) || (w >? #1.0) then ((-1)%Z, None)
    else
      let '((a, dec, r), _) := eraPv2s (PV (pvp p) eraZp) in
      if r ==? #0.0 then ((-2)%Z, None) else (0%Z, Some (eraAnp a, dec)).
  (** starpm.c: status, and (ra2, dec2) unless -1 *)
  Definition eraStarpm (old : bool) (ra1 dec1 pmr1 pmd1 px1 rv1 ep1a ep1b ep2a ep2b : T) : Z * option (T * T) :=
    let '(j1, pv1) := eraStarpv old ra1 dec1 pmr1 pmd1 px1 rv1 in
    let tl1 := eraPm (pvp pv1) / ERFA_DC in
    let dt := (ep2a - ep1a) + (ep2b - ep1b) in
    let p := eraPvup (dt + tl1) pv1 in
    let r2 := eraPdp p p in
    let rdv := eraPdp p (pvv pv1) in
    let v2 := eraPdp (pvv pv1) (pvv pv1) in
    let c2mv2 := ERFA_DC * ERFA_DC - v2 in
    if c2mv2 <=? #0.0 then ((-1)%Z, None)
    else
      let tl2 := (- rdv + sqrt (rdv * rdv + c2mv2 * r2)) / c2mv2 in
      let '(j2, out) := eraPvstar (PV (eraPvup (dt + (tl1 - tl2)) pv1) (pvv pv1)) in
      (if (j2 =? 0)%Z then j1 else (-1)%Z, out).
  (** palPm.c:90-108: (r1, d1), None when ERFA leaves the arguments unwritten.  The status is discarded by the C. *)
  Definition palPm (old : bool) (r0 d0 pr pd px rv ep0 ep1 : T) : option (T * T) :=
    let '(ep1a, ep1b) := eraEpj2jd ep0 in
    let '(ep2a, ep2b) := eraEpj2jd ep1 in
    snd (eraStarpm old r0 d0 pr pd px rv ep1a ep1b ep2a ep2b).
End Pm.
Arguments betas : clear implicits.
