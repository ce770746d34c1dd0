(** * External routines II: the ERFA IAU 2006 precession matrix.

    Like Erfa.v this transcribes published ERFA C sources (obl06.c pfw06.c fw2m.c pmat06.c);
    it is not code of /repo and belongs to the trusted base.  The nutation series
    (eraNut06a, eraPnm06a) and the ephemerides are not transcribed: the PAL functions
    that call them take their results as parameters. *)
From Coq Require Import ZArith Bool.
From Verif Require Import Num Erfa.
Local Open Scope num_scope.

Section Erfa2.
  Context {T : Type} {A : Arith T}.
  Notation vec := (vec T). Notation mat := (mat T).

  Definition jcent (date1 date2 : T) : T := ((date1 - DJ00) + date2) / #36525.0.
  (** obl06.c *)
  Definition eraObl06 (date1 date2 : T) : T :=
    let t := jcent date1 date2 in
    (#84381.406 +
     (- #46.836769 +
      (- #0.0001831 +
       (#0.00200340 +
        (- #0.000000576 +
         (- #0.0000000434) * t) * t) * t) * t) * t) * DAS2R.
  (** pfw06.c: (gamb, phib, psib, epsa) *)
  Definition eraPfw06 (date1 date2 : T) : T * T * T * T :=
    let t := jcent date1 date2 in
    let gamb := (- #0.052928 +
                 (#10.556378 +
                  (#0.4932044 +
                   (- #0.00031238 +
                    (- #0.000002788 +
                     #0.0000000260 * t) * t) * t) * t) * t) * DAS2R in
    let phib := (#84381.412819 +
                 (- #46.811016 +
                  (#0.0511268 +
                   (#0.00053289 +
                    (- #0.000000440 +
                     (- #0.0000000176) * t) * t) * t) * t) * t) * DAS2R in
    let psib := (- #0.041775 +
                 (#5038.481484 +
                  (#1.5584175 +
                   (- #0.00018522 +
                    (- #0.000026452 +
                     (- #0.0000000148) * t) * t) * t) * t) * t) * DAS2R in
    (gamb, phib, psib, eraObl06 date1 date2).
  (** fw2m.c *)
  Definition eraFw2m (gamb phib psi eps : T) : mat :=
    eraRx (- eps) (eraRz (- psi) (eraRx phib (eraRz gamb eraIr))).
  (** pmat06.c *)
  Definition eraPmat06 (date1 date2 : T) : mat :=
    let '(gamb, phib, psib, epsa) := eraPfw06 date1 date2 in eraFw2m gamb phib psib epsa.
End Erfa2.
