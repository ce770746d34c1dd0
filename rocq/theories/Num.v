(** * The arithmetic the C code computes with.

    PAL is a library of C functions on [double].  Every model in this
    development is written ONCE, polymorphically over a type [T] carrying the
    operations of <math.h> that PAL uses.  The same definition can then be
    - read at an arbitrary [Arith T]: theorems proved for every instance are
      pure control-flow facts, so they hold in particular for IEEE doubles with
      whatever rounding, NaN or libm behaviour the platform has;
    - instantiated at the real numbers (NumR.v), where [T := R] and every
      operation is exact: that is the idealisation under which the geometric
      and analytic properties are proved. *)
From Coq Require Import ZArith Bool List.

(** A C floating-point literal  [m * 10^e], e.g. [0.02075] is [MkDec 2075 (-5)]. *)
Record Dec : Set := MkDec { dmant : Z; dexp : Z }.

Class Arith (T : Type) : Type := MkArith {
  add : T -> T -> T;          (* a + b *)
  sub : T -> T -> T;          (* a - b *)
  mul : T -> T -> T;          (* a * b *)
  div : T -> T -> T;          (* a / b *)
  opp : T -> T;               (* -a *)
  ltb : T -> T -> bool;       (* a < b *)
  leb : T -> T -> bool;       (* a <= b *)
  eqb : T -> T -> bool;       (* a == b *)
  fabs : T -> T;
  sqrt : T -> T;
  sin : T -> T;
  cos : T -> T;
  tan : T -> T;
  asin : T -> T;
  atan : T -> T;
  atan2 : T -> T -> T;        (* C argument order: atan2 (y, x) *)
  exp : T -> T;
  log : T -> T;
  sinh : T -> T;
  pow : T -> T -> T;
  fmod : T -> T -> T;
  floor : T -> T;
  ceil : T -> T;
  ofZ : Z -> T;               (* (double) n *)
  toZ : T -> Z;               (* (int) x: truncation *)
  lit : Dec -> T;             (* literal *)
  pi : T                      (* PAL__DPI / ERFA_DPI, palmac.h:63 *)
}.

Declare Scope num_scope.
Delimit Scope num_scope with num.
Declare Scope dec_scope.
Delimit Scope dec_scope with dec.
Bind Scope dec_scope with Dec.

(** Number notation for literals: [#0.5], [#1e-6], [#2.0]. *)
From Coq Require Decimal DecimalZ Number.
Definition dec_of_number (n : Number.number) : option Dec :=
  match n with
  | Number.Decimal (Decimal.Decimal i f) =>
      Some (MkDec (Z.of_int (Decimal.app_int i f)) (- Z.of_nat (Decimal.nb_digits f)))
  | Number.Decimal (Decimal.DecimalExp i f e) =>
      Some (MkDec (Z.of_int (Decimal.app_int i f)) (Z.of_int e - Z.of_nat (Decimal.nb_digits f)))
  | _ => None
  end.
Definition dec_to_number (d : Dec) : option Number.number :=
  Some (Number.Decimal
    (if (dexp d =? 0)%Z then Decimal.Decimal (Z.to_int (dmant d)) Decimal.Nil
     else Decimal.DecimalExp (Z.to_int (dmant d)) Decimal.Nil (Z.to_int (dexp d)))).
Number Notation Dec dec_of_number dec_to_number : dec_scope.

Notation "# x" := (lit x%dec) (at level 1, x at level 0, format "# x") : num_scope.
Infix "+" := add : num_scope.
Infix "-" := sub : num_scope.
Infix "*" := mul : num_scope.
Infix "/" := div : num_scope.
Notation "- x" := (opp x) : num_scope.
Notation "a <? b" := (ltb a b) : num_scope.
Notation "a <=? b" := (leb a b) : num_scope.
Notation "a >? b" := (ltb b a) (at level 70) : num_scope.
Notation "a >=? b" := (leb b a) (at level 70) : num_scope.
Notation "a ==? b" := (eqb a b) (at level 70) : num_scope.
Notation "a !=? b" := (negb (eqb a b)) (at level 70) : num_scope.

(** ** Constants of palmac.h (lines 63-93) that are multiples of pi.
    In the C they are 50-digit literals; here they are expressed through [pi],
    and PiLiterals.v proves that each literal agrees with the exact value to
    the precision printed. *)
Section Consts.
  Context {T : Type} {A : Arith T}.
  Local Open Scope num_scope.
  Definition D2PI : T := #2 * pi.                       (* palmac.h:66 PAL__D2PI *)
  Definition DPIBY2 : T := pi / #2.                     (* palmac.h:69 PAL__DPIBY2 *)
  Definition DD2R : T := pi / #180.                     (* palmac.h:72 PAL__DD2R: deg -> rad *)
  Definition DAS2R : T := pi / #648000.                 (* palmac.h:78 PAL__DAS2R: arcsec -> rad *)
  Definition DH2R : T := pi / #12.                      (* palmac.h:84 PAL__DH2R: hours -> rad *)
  Definition DS2R : T := pi / #43200.                   (* palmac.h:93 PAL__DS2R: sec -> rad *)
  Definition DR2D : T := #180 / pi.                     (* palmac.h:81 PAL__DR2D *)
  Definition DR2H : T := #12 / pi.                      (* palmac.h:87 PAL__DR2H *)
  Definition DR2S : T := #43200 / pi.                   (* palmac.h:90 PAL__DR2S *)
  Definition DR2AS : T := #648000 / pi.                 (* palmac.h:75 PAL__DR2AS *)
  (** [DMAX] and [DMIN] are the macros of palmac.h:126,129: [(A) > (B) ? (A) : (B)]. *)
  Definition DMAX (a b : T) : T := if a >? b then a else b.
  Definition DMIN (a b : T) : T := if a <? b then a else b.
  (** palmac.h:134 [DSIGN(A,B)] = [(B) < 0.0 ? -fabs(A) : fabs(A)]. *)
  Definition DSIGN (a b : T) : T := if b <? #0 then - (fabs a) else fabs a.
  (** palmac.h:120,123 [DINT(A)] = truncation towards zero, [DNINT(A)] = nearest whole number. *)
  Definition DINT (a : T) : T := if a <? #0 then ceil a else floor a.
  Definition DNINT (a : T) : T := if a <? #0 then ceil (a - #0.5) else floor (a + #0.5).
End Consts.

(** ** 3-vectors and 3x3 matrices ([double v[3]], [double r[3][3]]). *)
Record vec (T : Type) : Type := V { vx : T; vy : T; vz : T }.
Arguments V {T}. Arguments vx {T}. Arguments vy {T}. Arguments vz {T}.
Record mat (T : Type) : Type := M { m0 : vec T; m1 : vec T; m2 : vec T }.
Arguments M {T}. Arguments m0 {T}. Arguments m1 {T}. Arguments m2 {T}.
(** position/velocity pair, [double pv[2][3]] or [double pv[6]] *)
Record pv (T : Type) : Type := PV { pvp : vec T; pvv : vec T }.
Arguments PV {T}. Arguments pvp {T}. Arguments pvv {T}.

Definition vmap {T U} (f : T -> U) (v : vec T) : vec U := V (f (vx v)) (f (vy v)) (f (vz v)).
Definition vmap2 {T U W} (f : T -> U -> W) (a : vec T) (b : vec U) : vec W :=
  V (f (vx a) (vx b)) (f (vy a) (vy b)) (f (vz a) (vz b)).

Lemma vec_eta : forall T (v : vec T), v = V (vx v) (vy v) (vz v).
Proof. now destruct v. Qed.
Lemma mat_eta : forall T (m : mat T), m = M (m0 m) (m1 m) (m2 m).
Proof. now destruct m. Qed.
