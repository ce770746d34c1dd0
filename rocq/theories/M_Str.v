(** * Models: free-format decoding and the observatory table.

    A C string is the list of its characters without the terminating NUL; a
    [char *] into it is the remaining suffix.  Positions are 1-based as in the
    C API.  A start position outside the string is undefined behaviour in C and
    gives [None] here. *)
From Coq Require Import ZArith Bool List Ascii String Arith.
From Verif Require Import Num Erfa ObsTable.
Import ListNotations.

Definition str := list ascii.
Definition code (c : ascii) : N := N_of_ascii c.
Definition between (c : ascii) (lo hi : N) : bool := ((lo <=? code c) && (code c <=? hi))%N.
(** <ctype.h> in the "C" locale *)
Definition isdigit (c : ascii) : bool := between c 48 57.
Definition isspace (c : ascii) : bool := (Ascii.eqb c " " || between c 9 13)%bool.
Definition isblank (c : ascii) : bool := (Ascii.eqb c " " || (code c =? 9)%N)%bool.
Definition isalpha (c : ascii) : bool := (between c 65 90 || between c 97 122)%bool.
Definition tolower (c : ascii) : ascii := if between c 65 90 then ascii_of_N (code c + 32) else c.

Fixpoint drop_while (p : ascii -> bool) (s : str) : str :=
  match s with
  | c :: t => if p c then drop_while p t else s
  | [] => []
  end.
Fixpoint take_while (p : ascii -> bool) (s : str) : str :=
  match s with
  | c :: t => if p c then c :: take_while p t else []
  | [] => []
  end.
Definition digit (c : ascii) : Z := Z.of_N (code c) - 48.
(** value of a digit string *)
Definition dval (ds : str) : Z := fold_left (fun v c => (10 * v + digit c)%Z) ds 0%Z.

(** C library [strtol (s, &end, 10)] (C99 7.20.1.4), 64-bit long: value, [end], ERANGE *)
Definition LONG_MAX : Z := 2 ^ 63 - 1.
Definition LONG_MIN : Z := - 2 ^ 63.
Definition take_sign (s : str) : bool * str :=
  match s with
  | "-"%char :: t => (true, t)
  | "+"%char :: t => (false, t)
  | _ => (false, s)
  end.
Definition strtol (s : str) : Z * str * bool :=
  let '(neg, t) := take_sign (drop_while isspace s) in
  match take_while isdigit t with
  | [] => (0%Z, s, false)
  | ds =>
      let v := if neg then (- dval ds)%Z else dval ds in
      let rest := drop_while isdigit t in
      if (LONG_MAX <? v)%Z then (LONG_MAX, rest, true)
      else if (v <? LONG_MIN)%Z then (LONG_MIN, rest, true)
      else (v, rest, false)
  end.
(** conversion of a long to [int] (32 bit, wrapping, as gcc defines it) *)
Definition to_int (z : Z) : Z := ((z + 2 ^ 31) mod 2 ^ 32 - 2 ^ 31)%Z.

(** palIntin.c:131-137: the loop looking for a minus sign *)
Fixpoint scan_minus (hasminus : bool) (s : str) : bool :=
  match s with
  | [] => hasminus
  | c :: t => if isdigit c then hasminus else scan_minus (Ascii.eqb c "-") t
  end.
Definition same_ptr (a b : str) : bool := Nat.eqb (List.length a) (List.length b).
Definition is_comma (s : str) : bool := match s with c :: _ => Ascii.eqb c "," | [] => false end.
(** palIntin.c:165-175 and palDfltin.c:251-262: number of characters stepped over after the field *)
Definition skip_sep (s : str) : nat :=
  if is_comma s then 1 else List.length (take_while isblank s).

(** palIntin.c:110-180: (nstrt, ireslt, jflag) *)
Definition palIntin (string : str) (nstrt : nat) (ireslt : Z) : option (nat * Z * Z) :=
  if (1 <=? nstrt) && (nstrt <=? List.length string + 1) then
    let strstart := skipn (nstrt - 1) string in
    let hasminus := scan_minus false strstart in
    let '(v, endptr, erange) := strtol strstart in
    let retval := to_int v in
    let '(jflag, endptr) :=
      if ((retval =? 0)%Z && same_ptr endptr strstart)%bool then
        (1%Z, drop_while (fun c => isblank c || isalpha c || Ascii.eqb c "+")%bool endptr)
      else if erange then (2%Z, endptr)
      else (if ((retval <? 0)%Z || hasminus)%bool then (-1)%Z else 0%Z, endptr) in
    let nstrt := (List.length string - List.length endptr + 1) + skip_sep endptr in
    Some (nstrt, if (jflag =? 1)%Z then ireslt else retval, jflag)
  else None.

Section Flt.
  Context {T : Type} {A : Arith T}.
  Local Open Scope num_scope.

  (** Result of C [strtod]: value, its sign bit, end pointer, ERANGE *)
  Record strtod_res := SR { sr_val : T; sr_neg : bool; sr_end : str; sr_erange : bool }.
  (** [strtod] itself belongs to the C library and is a parameter. *)
  Variable strtod : str -> strtod_res.

  (** palDfltin.c:196-200: Fortran exponents *)
  Definition d2e (c : ascii) : ascii := if (Ascii.eqb c "d" || Ascii.eqb c "D")%bool then "E"%char else c.
  (** palDfltin.c:147-268, the HAVE_COPYSIGN (C99) variant: (nstrt, dreslt, jflag).
      [tempbuf] holds at most 255 characters. *)
  Definition palDfltin (string : str) (nstrt : nat) (dreslt : T) : option (nat * T * Z) :=
    if ((1 <=? nstrt) && (nstrt <=? List.length string + 1))%nat then
      let tempbuf := map d2e (firstn 255 (skipn (nstrt - 1) string)) in
      let r := strtod tempbuf in
      let retval := sr_val r in
      let '(jflag, endptr) :=
        if ((retval ==? #0) && same_ptr (sr_end r) tempbuf)%bool then
          (1%Z, drop_while (fun c => isblank c || isalpha c)%bool (sr_end r))
        else if sr_erange r then (2%Z, sr_end r)
        else ((if retval <? #0 then (-1)%Z
               else if retval ==? #0 then (if sr_neg r then (-1)%Z else 0%Z)
               else 0%Z), sr_end r) in
      let nstrt := (nstrt + (List.length tempbuf - List.length endptr) + skip_sep endptr)%nat in
      Some (nstrt, if (jflag =? 1)%Z then dreslt else retval, jflag)
    else None.

  (** palDafin.c:131-193: (ipos, a, j).  An impossible position gives [None]. *)
  Definition palDafin (string : str) (ipos : nat) (a : T) : option (nat * T * Z) :=
    match palDfltin string ipos #0 with
    | None => None
    | Some (ipos, deg, jd) =>
      let fin ipos arcmin arcsec jf :=
        Some (ipos,
              (if (jf <=? 0)%Z then
                let a := DAS2R * (#60 * (#60 * fabs deg + arcmin) + arcsec) in
                if (jd <? 0)%Z then a * (- #1) else a
               else a), jf) in
      if (1 <? jd)%Z then fin ipos #0 #0 (-1)%Z
      else
        match palDfltin string ipos #0 with
        | None => None
        | Some (ipos, arcmin, jm) =>
          if ((jm <? 0) || (1 <? jm))%Z then fin ipos arcmin #0 (-2)%Z
          else
            match palDfltin string ipos #0 with
            | None => None
            | Some (ipos, arcsec, js) =>
              let jf :=
                if ((js <? 0) || (1 <? js))%Z then (-3)%Z
                else if (0 <? jd)%Z then
                  (if (jm =? 0)%Z then (-2)%Z else if (js =? 0)%Z then (-3)%Z else 1%Z)
                else if (negb (jm =? 0) && (js =? 0))%Z then (-3)%Z
                else if ((jm =? 0)%Z && (DINT deg !=? deg))%bool then (-1)%Z
                else if (((js =? 0)%Z && (DINT arcmin !=? arcmin)) || (arcmin >=? #60))%bool then (-2)%Z
                else if arcsec >=? #60 then (-3)%Z
                else 0%Z in
              fin ipos arcmin arcsec jf
            end
        end
    end.

  (** ** palObs *)
  (** palObs.c:168-171 *)
  Definition asec (d m : Z) (s : Dec) : T := (#60 * (#60 * ofZ d + ofZ m)) + lit s.
  Definition angle_val (a : angle) : T :=
    match a with
    | West d m s | North d m s => DAS2R * asec d m s
    | East d m s | South d m s => - #1 * DAS2R * asec d m s
    end.
  (** the caller's output variables *)
  Record obs_out := OO { o_ident : str; o_name : str; o_w : T; o_p : T; o_h : T }.
  (** palObs.c:148-156 star_strellcpy (strlcpy or strncpy plus terminator): at most size-1 characters *)
  Definition strellcpy (src : str) (size : nat) : str := firstn (size - 1) src.
  Definition strcasecmp0 (a b : str) : bool :=
    if list_eq_dec ascii_dec (map tolower a) (map tolower b) then true else false.
  Definition fill (t : tel) (identlen namelen : nat) : obs_out :=
    OO (strellcpy (list_ascii_of_string (t_short t)) identlen)
       (strellcpy (list_ascii_of_string (t_long t)) namelen)
       (angle_val (t_w t)) (angle_val (t_p t)) (lit (t_h t)).
  (** palObs.c:935-947 *)
  Fixpoint search (c : str) (l : list tel) : option tel :=
    match l with
    | [] => None
    | t :: r => if strcasecmp0 c (list_ascii_of_string (t_short t)) then Some t else search c r
    end.
  (** palObs.c:182-955: (retval, outputs); buffers of size at least one *)
  Definition palObs (n : nat) (c : str) (identlen namelen : nat) (o : obs_out) : Z * obs_out :=
    let o := OO (o_ident o) (strellcpy ["?"%char] namelen) (o_w o) (o_p o) (o_h o) in
    match n with
    | O => match search c telData with
           | Some t => (0%Z, fill t identlen namelen)
           | None => ((-1)%Z, o)
           end
    | S k => match nth_error telData k with
             | Some t => (0%Z, fill t identlen namelen)
             | None => ((-1)%Z, o)
             end
    end.
End Flt.
