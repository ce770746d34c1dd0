(** * Models: the string routines on memory.

    M_Str describes a C string by the list of its characters.  Here the routines work on memory: a [char *] is an address,
    every character is read through it, [palDfltin]'s buffer and the output buffers of [palObs] have a size, the position
    is an [int].  The result is [None] as soon as the C behaviour is undefined: reading or writing outside an object,
    reading an uninitialised byte, an [int] that overflows, or calling a <ctype.h> function with a negative argument other
    than EOF (C99 7.4p1).  The loops take a bound on the number of iterations; [None] also when it is not enough. *)
From Coq Require Import ZArith Bool List Ascii String Arith.
From Verif Require Import Num Erfa ObsTable M_Str M_Int.
Import ListNotations.
Local Open Scope Z_scope.

Definition mem := Z -> option ascii.
Definition NUL : ascii := zero.
(** a read-only array of characters followed by the terminator, at address 0 *)
Definition array (s : str) : mem := fun i => if i <? 0 then None else nth_error (s ++ [NUL]) (Z.to_nat i).

(** How the program was compiled: is plain [char] signed, is ISBLANK the function of <ctype.h> (palIntin.c:92-105,
    palDfltin.c:108-119), is the copying function of the BSD kind ([strlcpy], which leaves the rest of the buffer alone and
    does nothing with a size of zero) or [strncpy] (palDfltin.c:181-191, palObs.c:144-156). *)
Record platform := Pf { char_signed : bool; ctype_isblank : bool; bsd_copy : bool }.

Section Text.
  Variable pf : platform.
  (** <ctype.h> on a plain [char]: codes 128..254 are negative and not EOF if [char] is signed *)
  Definition ctype (f : ascii -> bool) (c : ascii) : option bool :=
    if char_signed pf && ((128 <=? code c) && (code c <? 255))%N then None else Some (f c).
  Definition ISBLANK (c : ascii) : option bool := if ctype_isblank pf then ctype isblank c else Some (isblank c).
  (** C's [a || b] *)
  Definition cor (a b : option bool) : option bool := let* x := a in if x then Some true else b.

  (** palIntin.c:132-139 *)
  Fixpoint scan_m (n : nat) (hasminus : bool) (m : mem) (ctemp : Z) : option bool :=
    match n with
    | O => None
    | S n =>
        let* c := m ctemp in
        if Ascii.eqb c NUL then Some hasminus
        else let* d := ctype isdigit c in if d then Some hasminus else scan_m n (Ascii.eqb c "-") m (ctemp + 1)
    end.
  (** palIntin.c:153-155, palDfltin.c:214-216: [while (test (endptr[0])) endptr++] *)
  Fixpoint skip_m (test : ascii -> option bool) (n : nat) (m : mem) (p : Z) : option Z :=
    match n with
    | O => None
    | S n => let* c := m p in let* b := test c in if b then skip_m test n m (p + 1) else Some p
    end.
  (** palIntin.c:175-179, palDfltin.c:248-252 *)
  Fixpoint blanks_m (n : nat) (nstrt : Z) (m : mem) (ctemp : Z) : option Z :=
    match n with
    | O => None
    | S n => let* c := m ctemp in let* b := ISBLANK c in
             if b then let* k := ck 32 (nstrt + 1) in blanks_m n k m (ctemp + 1) else Some nstrt
    end.
  (** palIntin.c:171-180, palDfltin.c:244-253 *)
  Definition sep_m (n : nat) (nstrt : Z) (m : mem) (endptr : Z) : option Z :=
    let* c := m endptr in
    if Ascii.eqb c "," then ck 32 (nstrt + 1) else blanks_m n nstrt m endptr.
  (** the characters that a C library function finds at an address *)
  Fixpoint text_m (n : nat) (m : mem) (p : Z) : option str :=
    match n with
    | O => None
    | S n => let* c := m p in if Ascii.eqb c NUL then Some [] else let* t := text_m n m (p + 1) in Some (c :: t)
    end.

  (** palIntin.c:112-185: (nstrt, ireslt, jflag) *)
  Definition palIntin_m (n : nat) (m : mem) (nstrt ireslt : Z) : option (Z * Z * Z) :=
    let* strstart := ck 32 (nstrt - 1) in
    let* hasminus := scan_m n false m strstart in
    let* t := text_m n m strstart in
    let '(v, rest, erange) := strtol t in
    let endptr := strstart + Z.of_nat (List.length t - List.length rest) in
    let retval := to_int v in
    let* r := (if (retval =? 0) && (endptr =? strstart) then
                 let* e := skip_m (fun c => cor (cor (ISBLANK c) (ctype isalpha c)) (Some (Ascii.eqb c "+"))) n m endptr in Some (1, e)
               else if erange then Some (2, endptr)
               else if (retval <? 0) || hasminus then Some (-1, endptr) else Some (0, endptr)) in
    let '(jflag, endptr) := r in
    let* nstrt := ck 32 (endptr + 1) in
    let* nstrt := sep_m n nstrt m endptr in
    Some (nstrt, if jflag =? 1 then ireslt else retval, jflag).

  (** ** Copying into a buffer of [size] bytes at address 0 *)
  Definition put (size i : Z) (c : ascii) (b : mem) : option mem :=
    if (0 <=? i) && (i <? size) then Some (fun j => if j =? i then Some c else b j) else None.
  Fixpoint pad_m (size : Z) (n : nat) (i : Z) (b : mem) : option mem :=
    match n with O => Some b | S n => let* b := put size i NUL b in pad_m size n (i + 1) b end.
  (** strncpy (buffer, src, n) or the copying part of strlcpy *)
  Fixpoint copy_m (size : Z) (n : nat) (m : mem) (p i : Z) (b : mem) : option mem :=
    match n with
    | O => Some b
    | S n => let* c := m p in let* b := put size i c b in
             if Ascii.eqb c NUL then (if bsd_copy pf then Some b else pad_m size n (i + 1) b)
             else copy_m size n m (p + 1) (i + 1) b
    end.
  (** strncpy and [dest[size-1] = '\0'], or strlcpy: palDfltin.c:185-190, palObs.c:150-155 *)
  Definition bcopy_m (size : Z) (m : mem) (p : Z) (b : mem) : option mem :=
    if bsd_copy pf && (size =? 0) then Some b
    else let* b := copy_m size (Z.to_nat size) m p 0 b in put size (size - 1) NUL b.
  (** palDfltin.c:194-198 *)
  Fixpoint d2e_m (n : nat) (p : Z) (b : mem) : option mem :=
    match n with
    | O => None
    | S n => let* c := b p in if Ascii.eqb c NUL then Some b
             else let* b := (if Ascii.eqb c "d" || Ascii.eqb c "D" then put 256 p "E" b else Some b) in d2e_m n (p + 1) b
    end.
  Definition uninit : mem := fun _ => None.

  Section Flt.
    Context {T : Type} {A : Arith T}.
    Variable strtod : str -> strtod_res (T := T).
    (** palDfltin.c:146-258, the HAVE_COPYSIGN variant *)
    Definition palDfltin_m (m : mem) (nstrt : Z) (dreslt : T) : option (Z * T * Z) :=
      let* start := ck 32 (nstrt - 1) in
      let* tempbuf := bcopy_m 256 m start uninit in
      let* tempbuf := d2e_m 256 0 tempbuf in
      let* t := text_m 256 tempbuf 0 in
      let r := strtod t in
      let retval := sr_val r in
      let endptr := Z.of_nat (List.length t - List.length (sr_end r)) in
      let* q := (if (retval ==? #0)%num && (endptr =? 0) then
                   let* e := skip_m (fun c => cor (ISBLANK c) (ctype isalpha c)) 256 tempbuf endptr in Some (1, e)
                 else if sr_erange r then Some (2, endptr)
                 else Some ((if (retval <? #0)%num then -1
                             else if (retval ==? #0)%num then (if sr_neg r then -1 else 0) else 0), endptr)) in
      let '(jflag, endptr) := q in
      let* nstrt := ck 32 (nstrt + endptr) in
      let* nstrt := sep_m 256 nstrt tempbuf endptr in
      Some (nstrt, if jflag =? 1 then dreslt else retval, jflag).

    (** palDafin.c:132-200: (ipos, a, j) *)
    Definition palDafin_m (m : mem) (ipos : Z) (a : T) : option (Z * T * Z) :=
      let fin ipos deg jd arcmin arcsec jf :=
        (ipos, (if (jf <=? 0) then
                  let a := (DAS2R * (#60 * (#60 * fabs deg + arcmin) + arcsec))%num in
                  if (jd <? 0) then (a * (- #1))%num else a
                else a), jf) in
      let* r := palDfltin_m m ipos (#0)%num in
      let '(ipos, deg, jd) := r in
      if 1 <? jd then Some (fin ipos deg jd (#0)%num (#0)%num (-1))
      else
        let* r := palDfltin_m m ipos (#0)%num in
        let '(ipos, arcmin, jm) := r in
        if (jm <? 0) || (1 <? jm) then Some (fin ipos deg jd arcmin (#0)%num (-2))
        else
          let* r := palDfltin_m m ipos (#0)%num in
          let '(ipos, arcsec, js) := r in
          let jf :=
            if (js <? 0) || (1 <? js) then -3
            else if 0 <? jd then (if jm =? 0 then -2 else if js =? 0 then -3 else 1)
            else if negb (jm =? 0) && (js =? 0) then -3
            else if (jm =? 0) && (DINT deg !=? deg)%num then -1
            else if ((js =? 0) && (DINT arcmin !=? arcmin)%num) || (arcmin >=? #60)%num then -2
            else if (arcsec >=? #60)%num then -3
            else 0 in
          Some (fin ipos deg jd arcmin arcsec jf).

    (** palObs.c:910-950: status, and the two output buffers of the sizes stated by the caller (the numbers are those of
        [M_Str.palObs]); [ident], [name]: their contents before the call *)
    Definition palObs_m (n : nat) (c : str) (identlen namelen : Z) (ident name : mem) : option (Z * mem * mem) :=
      let* name := bcopy_m namelen (array ["?"%char]) 0 name in
      let found := match n with O => search c telData | S k => nth_error telData k end in
      match found with
      | None => Some (-1, ident, name)
      | Some t =>
          let* ident := bcopy_m identlen (array (list_ascii_of_string (t_short t))) 0 ident in
          let* name := bcopy_m namelen (array (list_ascii_of_string (t_long t))) 0 name in
          Some (0, ident, name)
      end.
  End Flt.
End Text.

(** ** The variant of palDfltin for C libraries without [copysign] (SCAN_FOR_MINUS) *)
(** palDfltin.c:169-177: the offset of a minus sign before the first digit, comma or end of the string *)
Fixpoint scan_for_minus (s : str) : option nat :=
  match s with
  | [] => None
  | c :: t => if isdigit c || Ascii.eqb c "," then None else if Ascii.eqb c "-" then Some O
              else match scan_for_minus t with Some k => Some (S k) | None => None end
  end.
Section Scan.
  Context {T : Type} {A : Arith T}.
  Variable strtod : str -> strtod_res (T := T).
  (** palDfltin.c:146-258 with SCAN_FOR_MINUS: the same as M_Str.palDfltin from the minus sign on, except that the status
      of a number (line 222) is the sign found by the scan. *)
  Definition palDfltin_scan (string : str) (nstrt : nat) (dreslt : T) : option (nat * T * Z) :=
    if ((1 <=? nstrt) && (nstrt <=? List.length string + 1))%nat then
      let f := scan_for_minus (skipn (nstrt - 1) string) in
      let nstrt := match f with Some k => (nstrt + k)%nat | None => nstrt end in
      match palDfltin strtod string nstrt dreslt with
      | Some (p, v, j) => Some (p, v, if (j =? 1) || (j =? 2) then j else match f with Some _ => -1 | None => 0 end)
      | None => None
      end
    else None.
End Scan.
