(** * Gregorian calendar arithmetic (integers only). *)
From Coq Require Import ZArith Bool List Lia.
From Verif Require Import Num Erfa.
Import ListNotations.
Local Open Scope Z_scope.

(** ** Specification: the Gregorian calendar, with floor division *)
Definition leap (y : Z) : Prop := (y mod 4 = 0 /\ y mod 100 <> 0) \/ y mod 400 = 0.
Definition leapb (y : Z) : bool :=
  ((y mod 4 =? 0) && negb (y mod 100 =? 0)) || (y mod 400 =? 0).
Lemma leapb_ok : forall y, leapb y = true <-> leap y.
Proof.
  intros y. unfold leapb, leap. rewrite orb_true_iff, andb_true_iff, negb_true_iff, !Z.eqb_eq, Z.eqb_neq. tauto.
Qed.
(** length of month [m] in year [y] *)
Definition mlen (y m : Z) : Z :=
  if m =? 2 then (if leapb y then 29 else 28)
  else if (m =? 4) || (m =? 6) || (m =? 9) || (m =? 11) then 30 else 31.
Definition date : Set := (Z * Z * Z)%type.
Definition valid (d : date) : Prop :=
  let '(y, m, day) := d in 1 <= m <= 12 /\ 1 <= day <= mlen y m.
Definition next_day (d : date) : date :=
  let '(y, m, day) := d in
  if day <? mlen y m then (y, m, day + 1)
  else if m <? 12 then (y, m + 1, 1) else (y + 1, 1, 1).

(** ** The day number of the code, for years from -4799 *)
Definition dnum (y m d : Z) : Z :=
  let my := Z.quot (m - 14) 12 in
  (1461 * (y + my + 4800)) / 4 + (367 * (m - 2 - 12 * my)) / 12
  - (3 * ((y + my + 4900) / 100)) / 4 + d - 2432076.

Lemma quot_div : forall a b, 0 <= a -> 0 < b -> Z.quot a b = a / b.
Proof. intros. apply Z.quot_div_nonneg; lia. Qed.
Lemma rem_mod0 : forall a b, 0 < b -> (Z.rem a b =? 0) = (a mod b =? 0).
Proof.
  intros a b Hb. destruct (Z.eqb_spec (Z.rem a b) 0) as [E|E]; symmetry.
  - apply Z.eqb_eq. apply Z.mod_divide; [lia|]. apply Z.rem_divide; lia.
  - apply Z.eqb_neq. intros C. apply E. apply Z.rem_divide; [lia|]. apply Z.mod_divide; lia.
Qed.
Lemma is_leap_c_leapb : forall y, is_leap_c y = leapb y.
Proof.
  intros y. unfold is_leap_c, leapb. rewrite !rem_mod0 by lia.
  destruct (Z.eqb_spec (y mod 4) 0), (Z.eqb_spec (y mod 100) 0), (Z.eqb_spec (y mod 400) 0);
    try reflexivity; exfalso; apply n.
  - rewrite (Z.div_mod y 400) by lia. rewrite e0.
    rewrite <- Z.add_mod_idemp_l by lia. replace (400 * (y / 400)) with ((100 * (y / 400)) * 4) by ring.
    now rewrite Z.mod_mul by lia.
  - rewrite (Z.div_mod y 400) by lia. rewrite e.
    rewrite <- Z.add_mod_idemp_l by lia. replace (400 * (y / 400)) with ((100 * (y / 400)) * 4) by ring.
    now rewrite Z.mod_mul by lia.
Qed.
Lemma month_cases : forall m, 1 <= m <= 12 -> In m [1;2;3;4;5;6;7;8;9;10;11;12].
Proof. intros m H. cbn. lia. Qed.
Ltac months H := apply month_cases in H; cbn [In] in H;
  repeat (destruct H as [H|H]; [match type of H with _ = ?v => subst v end|]); try contradiction.
Lemma mtab_mlen : forall y m, 1 <= m <= 12 ->
  mtab m + (if (m =? 2) && is_leap_c y then 1 else 0) = mlen y m.
Proof.
  intros y m H. rewrite is_leap_c_leapb. unfold mlen. months H; cbn; try reflexivity; now destruct (leapb y).
Qed.
Lemma my_cases : forall m, 1 <= m <= 12 -> Z.quot (m - 14) 12 = if m <? 3 then -1 else 0.
Proof. intros m H. months H; reflexivity. Qed.

Lemma cal2jd_spec : forall y m d,
  eraCal2jd y m d =
  if y <? -4799 then (-1, None)
  else if (m <? 1) || (12 <? m) then (-2, None)
  else (if (d <? 1) || (mlen y m <? d) then -3 else 0, Some (dnum y m d)).
Proof.
  intros y m d. unfold eraCal2jd. destruct (Z.ltb_spec y (-4799)); [reflexivity|].
  destruct (Z.ltb_spec m 1), (Z.ltb_spec 12 m); try reflexivity. cbn [orb].
  rewrite mtab_mlen by lia. do 2 f_equal. unfold dnum.
  assert (M : -1 <= Z.quot (m - 14) 12 <= 0 /\ 0 <= m - 2 - 12 * Z.quot (m - 14) 12).
  { rewrite my_cases by lia. destruct (Z.ltb_spec m 3); lia. }
  destruct M as [M1 M2]. set (my := Z.quot (m - 14) 12) in *. clearbody my.
  rewrite (quot_div (y + my + 4900)) by lia.
  rewrite !quot_div by first [lia | apply Z.mul_nonneg_nonneg; [lia|apply Z.div_pos; lia]].
  reflexivity.
Qed.

(** ** 400-year period *)
Lemma dnum_period : forall y m d k, dnum (y + 400 * k) m d = dnum y m d + 146097 * k.
Proof.
  intros. unfold dnum. set (my := Z.quot (m - 14) 12).
  replace (1461 * (y + 400 * k + my + 4800)) with (1461 * (y + my + 4800) + (146100 * k) * 4) by ring.
  replace (y + 400 * k + my + 4900) with (y + my + 4900 + 4 * k * 100) by ring.
  rewrite !Z.div_add by lia.
  replace (3 * ((y + my + 4900) / 100 + 4 * k)) with (3 * ((y + my + 4900) / 100) + (3 * k) * 4) by ring.
  rewrite Z.div_add by lia. ring.
Qed.
Lemma leapb_period : forall y k, leapb (y + 400 * k) = leapb y.
Proof.
  intros. unfold leapb.
  replace ((y + 400 * k) mod 4) with (y mod 4).
  2:{ replace (400 * k) with (100 * k * 4) by ring. now rewrite Z.mod_add by lia. }
  replace ((y + 400 * k) mod 100) with (y mod 100).
  2:{ replace (400 * k) with (4 * k * 100) by ring. now rewrite Z.mod_add by lia. }
  replace (400 * k) with (k * 400) by ring. now rewrite Z.mod_add by lia.
Qed.
Lemma mlen_period : forall y m k, mlen (y + 400 * k) m = mlen y m.
Proof. intros. unfold mlen. now rewrite leapb_period. Qed.

(** Fliegel-van Flandern, floor division *)
Definition cald (jd : Z) : date :=
  let l := jd + 68569 in
  let n := (4 * l) / 146097 in
  let l := l - (146097 * n + 3) / 4 in
  let i := (4000 * (l + 1)) / 1461001 in
  let l := l - ((1461 * i) / 4 - 31) in
  let k := (80 * l) / 2447 in
  let id := l - (2447 * k) / 80 in
  let l := k / 11 in
  (100 * (n - 49) + i + l, k + 2 - 12 * l, id).
Lemma cald_period : forall jd k, cald (jd + 146097 * k) = (let '(y, m, d) := cald jd in (y + 400 * k, m, d)).
Proof.
  intros. unfold cald.
  replace (4 * (jd + 146097 * k + 68569)) with (4 * (jd + 68569) + 4 * k * 146097) by ring.
  rewrite Z.div_add by lia. set (n := 4 * (jd + 68569) / 146097).
  replace (146097 * (n + 4 * k) + 3) with (146097 * n + 3 + 146097 * k * 4) by ring.
  rewrite Z.div_add by lia.
  replace (jd + 146097 * k + 68569 - ((146097 * n + 3) / 4 + 146097 * k))
    with (jd + 68569 - (146097 * n + 3) / 4) by ring.
  set (l := jd + 68569 - (146097 * n + 3) / 4). cbv zeta. f_equal. f_equal. ring.
Qed.

(** ** The inverse, century by century *)
Lemma div_char : forall a b q, 0 < b -> b * q <= a < b * (q + 1) -> a / b = q.
Proof. intros. symmetry. apply Z.div_unique with (a - b * q); lia. Qed.
(* D = 367*M/12 + d ; day of the March year + 30 *)
Lemma core : forall c r D, 0 <= r < 100 -> 31 <= D -> D <= 396 ->
  (D = 396 -> r mod 4 = 3 /\ (r <> 99 \/ c mod 4 = 3)) ->
  let l := 1461 * (100 * c + r) / 4 + D - 3 * (c + 1) / 4 + 36494 in
  4 * l / 146097 = c + 1 /\
  l - (146097 * (c + 1) + 3) / 4 = 1461 * r / 4 + D - 31 /\
  4000 * (1461 * r / 4 + D - 31 + 1) / 1461001 = r.
Proof.
  intros c r D Hr H1 H2 HL l.
  assert (E : 1461 * (100 * c + r) / 4 = 36525 * c + 1461 * r / 4).
  { replace (1461 * (100 * c + r)) with (1461 * r + 36525 * c * 4) by ring. rewrite Z.div_add by lia. ring. }
  assert (E2 : (146097 * (c + 1) + 3) / 4 = 36524 * (c + 1) + (c + 4) / 4).
  { replace (146097 * (c + 1) + 3) with (c + 4 + 36524 * (c + 1) * 4) by ring. rewrite Z.div_add by lia. ring. }
  unfold l. rewrite E, E2. clear l E E2.
  assert (R : 4 * (1461 * r / 4) = 1461 * r - r mod 4).
  { assert (A := Z.div_mod (1461 * r) 4 ltac:(lia)).
    replace (1461 * r) with (r + 365 * r * 4) in A at 3 by ring. rewrite Z.mod_add in A by lia. lia. }
  assert (Rb := Z.mod_pos_bound r 4 ltac:(lia)).
  set (rm := r mod 4) in *. set (rq := 1461 * r / 4) in *. clearbody rq.
  assert (Hrm : exists q, r = 4 * q + rm) by (exists (r / 4); unfold rm; apply Z.div_mod; lia).
  destruct Hrm as [q Hq]. clearbody rm.
  assert (Hcm : exists q, c = 4 * q + c mod 4) by (exists (c / 4); apply Z.div_mod; lia).
  destruct Hcm as [p Hp]. assert (Cb := Z.mod_pos_bound c 4 ltac:(lia)). set (cm := c mod 4) in *. clearbody cm.
  assert (F1 : 3 * (c + 1) / 4 = 3 * p + 3 * (cm + 1) / 4).
  { rewrite Hp. replace (3 * (4 * p + cm + 1)) with (3 * (cm + 1) + 3 * p * 4) by ring. rewrite Z.div_add by lia. ring. }
  assert (F2 : (c + 4) / 4 = p + 1).
  { apply div_char; lia. }
  rewrite F1, F2.
  assert (CC : cm = 0 \/ cm = 1 \/ cm = 2 \/ cm = 3) by lia.
  assert (F3 : 3 * (cm + 1) / 4 = cm) by (destruct CC as [->|[->|[->| ->]]]; reflexivity).
  rewrite F3. clear F1 F2 F3.
  assert (M : rm = 0 \/ rm = 1 \/ rm = 2 \/ rm = 3) by lia.
  split; [|split].
  - apply div_char; [lia|]. destruct (Z.eq_dec D 396) as [->|]; [destruct (HL eq_refl)|]; lia.
  - lia.
  - apply div_char; [lia|]. destruct (Z.eq_dec D 396) as [->|]; [destruct (HL eq_refl)|]; lia.
Qed.
Lemma mlen_le : forall y m, 28 <= mlen y m <= 31.
Proof. intros. unfold mlen. destruct (m =? 2), (leapb y); try lia; now destruct (_ =? _), (_ =? _), (_ =? _), (_ =? _). Qed.
Lemma leapb_march : forall y Y c r, Y = y - 1 + 4800 -> Y = 100 * c + r -> 0 <= r < 100 ->
  leapb y = true -> r mod 4 = 3 /\ (r <> 99 \/ c mod 4 = 3).
Proof.
  intros y Y c r H1 H2 Hr L. apply leapb_ok in L. unfold leap in L.
  assert (A4 := Z.div_mod y 4 ltac:(lia)). assert (A1 := Z.div_mod y 100 ltac:(lia)).
  assert (A400 := Z.div_mod y 400 ltac:(lia)).
  assert (R4 := Z.div_mod r 4 ltac:(lia)). assert (C4 := Z.div_mod c 4 ltac:(lia)).
  assert (B1 := Z.mod_pos_bound y 100 ltac:(lia)).
  assert (B4 := Z.mod_pos_bound r 4 ltac:(lia)). assert (BC := Z.mod_pos_bound c 4 ltac:(lia)).
  lia.
Qed.
Lemma cycle_inv : forall y m d, valid (y, m, d) -> cald (dnum y m d + 2400001) = (y, m, d).
Proof.
  intros y m d [Hm Hd]. unfold dnum. set (my := Z.quot (m - 14) 12).
  set (c := (y + my + 4800) / 100). set (r := (y + my + 4800) mod 100).
  assert (EY : y + my + 4800 = 100 * c + r) by (apply Z.div_mod; lia).
  assert (Hr : 0 <= r < 100) by (apply Z.mod_pos_bound; lia).
  assert (EC : (y + my + 4900) / 100 = c + 1) by (apply div_char; lia).
  rewrite EC, EY. set (D := 367 * (m - 2 - 12 * my) / 12 + d).
  assert (Em : my = if m <? 3 then -1 else 0) by now apply my_cases.
  clearbody my c r.
  assert (HD : 31 <= D <= 396 /\ (D = 396 -> m = 2 /\ leapb y = true)).
  { unfold D. clear -Em Hm Hd. unfold mlen in Hd.
    months Hm; cbn [Z.ltb Z.compare Pos.compare Pos.compare_cont] in Em; subst my; cbn -[Z.add Z.mul Z.div Z.sub] in Hd;
    match goal with |- context [?a + d] =>
      let va := eval vm_compute in a in change a with va end;
    try (split; [lia|intros; exfalso; lia]).
    destruct (leapb y); (split; [lia|]); intros; [now split|exfalso; lia]. }
  destruct HD as [HD1 HD2].
  destruct (core c r D Hr) as (N & L & I); [lia|lia| |].
  { intros HE. destruct (HD2 HE) as [-> Hl]. cbn in Em. apply (leapb_march y (y + my + 4800) c r); try easy. lia. }
  unfold cald. cbv zeta.
  replace (1461 * (100 * c + r) / 4 + 367 * (m - 2 - 12 * my) / 12 - 3 * (c + 1) / 4 + d - 2432076 + 2400001 + 68569)
    with (1461 * (100 * c + r) / 4 + D - 3 * (c + 1) / 4 + 36494) by (unfold D; ring).
  rewrite N, L, I.
  replace (1461 * r / 4 + D - 31 - (1461 * r / 4 - 31)) with D by ring.
  assert (K : 80 * D / 2447 = m - 2 - 12 * my /\ D - 2447 * (m - 2 - 12 * my) / 80 = d /\ (m - 2 - 12 * my) / 11 = - my).
  { unfold D in *. clear -Em Hm Hd. assert (ML := mlen_le y m). unfold mlen in Hd.
    months Hm; cbn [Z.ltb Z.compare Pos.compare Pos.compare_cont] in Em; subst my; cbn -[Z.add Z.mul Z.div Z.sub] in Hd;
    match goal with |- 80 * (?a + d) / _ = _ /\ _ - ?b = _ /\ ?e = _ =>
      let va := eval vm_compute in a in let vb := eval vm_compute in b in let ve := eval vm_compute in e in
      change a with va; change b with vb; change e with ve end;
    (split; [apply div_char; [lia|]|split; [|reflexivity]]); try lia; destruct (leapb y); lia. }
  destruct K as (K1 & K2 & K3). rewrite K1, K2, K3. apply f_equal2; [apply f_equal2|]; lia.
Qed.
Lemma dnum_day : forall y m d e, dnum y m (d + e) = dnum y m d + e.
Proof. intros. unfold dnum. ring. Qed.
Lemma cycle_next : forall y m d, valid (y, m, d) ->
  let '(y', m', d') := next_day (y, m, d) in dnum y' m' d' = dnum y m d + 1.
Proof.
  intros y m d [Hm Hd]. unfold next_day. destruct (Z.ltb_spec d (mlen y m)); [apply dnum_day|].
  replace d with (mlen y m) by lia. clear d Hd H.
  unfold dnum, mlen. months Hm; cbn -[Z.add Z.mul Z.div Z.sub Z.quot]; 
    repeat match goal with |- context [Z.quot ?a 12] =>
      let v := eval vm_compute in (Z.quot a 12) in change (Z.quot a 12) with v end.
  2:{ (* February *)
    set (c := (y + -1 + 4800) / 100). set (r := (y + -1 + 4800) mod 100).
    assert (EY : y + -1 + 4800 = 100 * c + r) by (apply Z.div_mod; lia).
    assert (Hr : 0 <= r < 100) by (apply Z.mod_pos_bound; lia). clearbody c r.
    assert (EC : (y + -1 + 4900) / 100 = c + 1) by (apply div_char; lia). rewrite EC.
    assert (A1 := Z.div_mod r 4 ltac:(lia)). assert (B1 := Z.mod_pos_bound r 4 ltac:(lia)).
    assert (A2 := Z.div_mod c 4 ltac:(lia)). assert (B2 := Z.mod_pos_bound c 4 ltac:(lia)).
    set (q := r / 4) in *. set (s := r mod 4) in *. set (u := c / 4) in *. set (v := c mod 4) in *. clearbody q s u v.
    assert (E1 : 1461 * (y + -1 + 4800) / 4 = 36525 * c + 1461 * q + 365 * s).
    { apply div_char; lia. }
    assert (L : leapb y = ((s =? 3) && (negb (r =? 99) || (v =? 3)))).
    { apply Bool.eq_true_iff_eq. rewrite leapb_ok, andb_true_iff, orb_true_iff, negb_true_iff, !Z.eqb_eq, Z.eqb_neq.
      unfold leap.
      assert (A4 := Z.div_mod y 4 ltac:(lia)). assert (A1' := Z.div_mod y 100 ltac:(lia)).
      assert (A400 := Z.div_mod y 400 ltac:(lia)).
      assert (B1' := Z.mod_pos_bound y 100 ltac:(lia)). assert (B4' := Z.mod_pos_bound y 4 ltac:(lia)).
      assert (B4 := Z.mod_pos_bound y 400 ltac:(lia)).
      lia. }
    rewrite L, E1.
    change (367 * (2 + 1 - 2 - 12 * 0) / 12) with 30. change (367 * (2 - 2 - 12 * -1) / 12) with 367.
    assert (E2 : 3 * (c + 1) / 4 = 3 * u + v) by (apply div_char; lia). rewrite E2.
    destruct (Z.eqb_spec s 3) as [Hs|Hs]; [destruct (Z.eqb_spec r 99) as [H9|H9]|].
    - assert (F1 : 1461 * (y + 0 + 4800) / 4 = 36525 * c + 1461 * (q + 1)) by (apply div_char; lia).
      assert (F2 : (y + 0 + 4900) / 100 = c + 2) by (apply div_char; lia). rewrite F1, F2.
      cbn [negb orb andb]. destruct (Z.eqb_spec v 3).
      + assert (F3 : 3 * (c + 2) / 4 = 3 * u + 3) by (apply div_char; lia). lia.
      + assert (F3 : 3 * (c + 2) / 4 = 3 * u + v + 1) by (apply div_char; lia). lia.
    - assert (F1 : 1461 * (y + 0 + 4800) / 4 = 36525 * c + 1461 * (q + 1)) by (apply div_char; lia).
      assert (F2 : (y + 0 + 4900) / 100 = c + 1) by (apply div_char; lia). rewrite F1, F2, E2.
      cbn [negb orb andb]. lia.
    - assert (F1 : 1461 * (y + 0 + 4800) / 4 = 36525 * c + 1461 * q + 365 * (s + 1)) by (apply div_char; lia).
      assert (F2 : (y + 0 + 4900) / 100 = c + 1) by (apply div_char; lia). rewrite F1, F2, E2.
      cbn [negb orb andb]. lia. }
  all: repeat match goal with |- context [367 * ?a / 12] =>
      let v := eval vm_compute in (367 * a / 12) in change (367 * a / 12) with v end.
  all: replace (y + 1 + -1) with (y + 0) by ring.
  all: match goal with |- ?a + _ - ?b + _ - _ = _ => generalize a b end; intros; lia.
Qed.
Lemma next_valid : forall d, valid d -> valid (next_day d).
Proof.
  intros [[y m] d] [Hm Hd]. unfold next_day.
  destruct (Z.ltb_spec d (mlen y m)); [cbn; lia|].
  destruct (Z.ltb_spec m 12); cbn [valid].
  - assert (A := mlen_le y (m + 1)). lia.
  - assert (A := mlen_le (y + 1) 1). lia.
Qed.
Lemma dnum_onto : forall n, exists y m d, valid (y, m, d) /\ dnum y m d = n.
Proof.
  assert (P : forall j : nat, exists y m d, valid (y, m, d) /\ dnum y m d = dnum 0 1 1 + Z.of_nat j).
  { induction j as [|j (y & m & d & V & E)].
    - exists 0, 1, 1. split; [cbn; lia|]. lia.
    - assert (N := cycle_next y m d V). assert (W := next_valid _ V).
      destruct (next_day (y, m, d)) as [[y' m'] d']. exists y', m', d'. split; [easy|]. lia. }
  intros n. set (q := (n - dnum 0 1 1) / 146097). set (r := (n - dnum 0 1 1) mod 146097).
  assert (En : n - dnum 0 1 1 = r + 146097 * q) by (unfold q, r; rewrite (Z.div_mod (n - dnum 0 1 1) 146097) at 1 by lia; ring).
  assert (Hr : 0 <= r < 146097) by (apply Z.mod_pos_bound; lia).
  destruct (P (Z.to_nat r)) as (y & m & d & V & E). rewrite Z2Nat.id in E by lia.
  exists (y + 400 * q), m, d. split.
  - destruct V as [V1 V2]. split; [easy|]. now rewrite mlen_period.
  - rewrite dnum_period. lia.
Qed.
Lemma cald_valid : forall n, valid (cald (n + 2400001)) /\
  (let '(y, m, d) := cald (n + 2400001) in dnum y m d = n).
Proof.
  intros n. destruct (dnum_onto n) as (y & m & d & V & <-). rewrite cycle_inv by easy. now split.
Qed.

(** the truncating code agrees with the floor version from day -68569 *)
Lemma jd2cal_z_cald : forall jd, -68569 <= jd -> jd2cal_z jd = cald jd.
Proof.
  intros jd H. unfold jd2cal_z, cald. cbv zeta.
  rewrite (quot_div (4 * (jd + 68569))) by lia. set (n := 4 * (jd + 68569) / 146097).
  assert (Hn : 0 <= n) by (apply Z.div_pos; lia).
  rewrite (quot_div (146097 * n + 3)) by lia.
  set (l := jd + 68569 - (146097 * n + 3) / 4).
  assert (Hl : 0 <= l).
  { unfold l. assert ((146097 * n + 3) / 4 <= jd + 68569); [|lia].
    assert (146097 * n <= 4 * (jd + 68569)) by (apply Z.mul_div_le; lia).
    apply Z.lt_succ_r. apply Z.div_lt_upper_bound; lia. }
  rewrite (quot_div (4000 * (l + 1))) by lia. set (i := 4000 * (l + 1) / 1461001).
  assert (Hi : 0 <= i) by (apply Z.div_pos; lia).
  rewrite (quot_div (1461 * i)) by lia. set (l2 := l - (1461 * i / 4 - 31)).
  assert (Hl2 : 0 <= l2).
  { unfold l2. assert (1461001 * i <= 4000 * (l + 1)) by (apply Z.mul_div_le; lia).
    assert (1461 * i / 4 <= l + 31); [|lia]. apply Z.lt_succ_r. apply Z.div_lt_upper_bound; lia. }
  rewrite (quot_div (80 * l2)) by lia. set (k := 80 * l2 / 2447).
  assert (Hk : 0 <= k) by (apply Z.div_pos; lia).
  rewrite !quot_div by lia. reflexivity.
Qed.
