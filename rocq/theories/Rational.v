(** Model of [gcd] (include/ftk/numeric/gcd.hh:8-17), [rational] (include/ftk/numeric/rational_number.hh:13-175)
    and [fixed_point] (include/ftk/numeric/fixed_point.hh:8-92).  Integer [/] and [%] truncate toward zero
    ([Z.quot], [Z.rem]); division by zero is undefined behaviour.  The integer type of [rational] is unbounded
    here (machine overflow is not modelled); for [fixed_point] overflow of [long long] is undefined behaviour. *)
From Verif Require Import Base.
Local Open Scope Z_scope.

Definition zdiv (a b : Z) : res Z := if b =? 0 then UB else Ok (Z.quot a b).
Definition zmod (a b : Z) : res Z := if b =? 0 then UB else Ok (Z.rem a b).

(** [gcd], gcd.hh:9-16; the fuel bounds the [while (true)] *)
Fixpoint gcd (fuel : nat) (a b : Z) : res Z :=
  match fuel with
  | O => OutOfFuel
  | S n =>
      if a =? 0 then Ok b
      else let* b := zmod b a in
           if b =? 0 then Ok a
           else let* a := zmod a b in gcd n a b
  end.

(** members [num], [den], line 162; constructors lines 17-19 *)
Record rat := { num : Z; den : Z }.
Definition mkr (n d : Z) : rat := {| num := n; den := d |}.

Section Fuel.
Variable fuel : nat.

(** [operator+=], lines 30-38 *)
Definition r_add (t r : rat) : res rat :=
  let* g := gcd fuel (den t) (den r) in
  let* d := zdiv (den t) g in
  let* q := zdiv (den r) g in
  let n := num t * q + num r * d in
  let* g := gcd fuel n g in
  let* n := zdiv n g in
  let* q := zdiv (den r) g in
  Ok (mkr n (d * q)).
(** [operator-=], lines 39-47 *)
Definition r_sub (t r : rat) : res rat :=
  let* g := gcd fuel (den t) (den r) in
  let* d := zdiv (den t) g in
  let* q := zdiv (den r) g in
  let n := num t * q - num r * d in
  let* g := gcd fuel n g in
  let* n := zdiv n g in
  let* q := zdiv (den r) g in
  Ok (mkr n (d * q)).
(** [operator*=], lines 48-54 *)
Definition r_mul (t r : rat) : res rat :=
  let* g1 := gcd fuel (num t) (den r) in
  let* g2 := gcd fuel (num r) (den t) in
  let* a := zdiv (num t) g1 in
  let* b := zdiv (num r) g2 in
  let* c := zdiv (den t) g2 in
  let* d := zdiv (den r) g1 in
  Ok (mkr (a * b) (c * d)).
(** [operator/=], lines 55-69 *)
Definition r_div (t r : rat) : res rat :=
  if num t =? 0 then Ok t
  else
    let* g1 := gcd fuel (num t) (num r) in
    let* g2 := gcd fuel (den r) (den t) in
    let* a := zdiv (num t) g1 in
    let* b := zdiv (den r) g2 in
    let* c := zdiv (den t) g2 in
    let* d := zdiv (num r) g1 in
    let n := a * b in let d := c * d in
    Ok (if d <? 0 then mkr (- n) (- d) else mkr n d).

(** integer operands, lines 72-86 *)
Definition r_addi (t : rat) (i : Z) : rat := mkr (num t + i * den t) (den t).
Definition r_subi (t : rat) (i : Z) : rat := mkr (num t - i * den t) (den t).
Definition r_muli (t : rat) (i : Z) : res rat :=
  let* g := gcd fuel i (den t) in
  let* q := zdiv i g in
  let* d := zdiv (den t) g in
  Ok (mkr (num t * q) d).
Definition r_divi (t : rat) (i : Z) : res rat :=
  if num t =? 0 then Ok t
  else
    let* g := gcd fuel (num t) i in
    let* n := zdiv (num t) g in
    let* q := zdiv i g in
    let d := den t * q in
    Ok (if d <? 0 then mkr (- n) (- d) else mkr n d).
(** [operator++], [operator--], lines 89-90 *)
Definition r_inc (t : rat) : rat := mkr (num t + den t) (den t).
Definition r_dec (t : rat) : rat := mkr (num t - den t) (den t).
(** [operator!], line 93 *)
Definition r_not (t : rat) : bool := num t =? 0.

(** [while (r < 0) { r += d; --q; }], lines 107-108 *)
Fixpoint fix_floor (n : nat) (q r d : Z) : res (Z * Z) :=
  match n with
  | O => OutOfFuel
  | S n => if r <? 0 then fix_floor n (q - 1) (r + d) d else Ok (q, r)
  end.
(** the loop of [operator<], lines 110-124; [tq], [tr], [td] are [ts.q], [ts.r], [ts.d] *)
Fixpoint lt_loop (n : nat) (tq tr td rq rr rd : Z) (reverse : bool) : res bool :=
  match n with
  | O => OutOfFuel
  | S n =>
      if negb (tq =? rq) then Ok (if reverse then rq <? tq else tq <? rq)
      else
        let reverse := negb reverse in
        if (tr =? 0) || (rr =? 0) then
          Ok (if tr =? rr then false else xorb (negb (tr =? 0)) reverse)
        else
          let* tq' := zdiv td tr in let* tr' := zmod td tr in
          let* rq' := zdiv rd rr in let* rr' := zmod rd rr in
          lt_loop n tq' tr' tr rq' rr' rr reverse
  end.
(** [operator<], lines 99-125 *)
Definition r_lt (t r : rat) : res bool :=
  let* tq := zdiv (num t) (den t) in let* tr := zmod (num t) (den t) in
  let* rq := zdiv (num r) (den r) in let* rr := zmod (num r) (den r) in
  let* (tq, tr) := fix_floor fuel tq tr (den t) in
  let* (rq, rr) := fix_floor fuel rq rr (den r) in
  lt_loop fuel tq tr (den t) rq rr (den r) false.
(** [operator==], lines 126-128 *)
Definition r_eq (t r : rat) : bool := (num t =? num r) && (den t =? den r).
(** comparison with integers, lines 131-141 *)
Definition r_lti (t : rat) (i : Z) : res bool :=
  let* q := zdiv (num t) (den t) in let* r := zmod (num t) (den t) in
  let* (q, r) := fix_floor fuel q r (den t) in
  Ok (q <? i).
Definition r_eqi (t : rat) (i : Z) : bool := (den t =? 1) && (num t =? i).
Definition r_gti (t : rat) (i : Z) : res bool :=
  if r_eqi t i then Ok false else let* b := r_lti t i in Ok (negb b).

(** the free [operator+], [operator-], lines 166-175: both start from [t(b)] *)
Definition op_add (a b : rat) : res rat := let t := b in r_add t b.
Definition op_sub (a b : rat) : res rat := let t := b in r_sub t b.
End Fuel.

(** ** fixed_point, with [I = long long] *)
Definition ll (x : Z) : res Z := if (- 2 ^ 63 <=? x) && (x <? 2 ^ 63) then Ok x else UB.
Section Fp.
(** template parameter [factor] *)
Variable F : Z.
(** constructor from an integer, lines 12-14 *)
Definition fp_of_int (x : Z) : res Z := ll (F * x).
(** [to_int], line 24 (the final cast to [int] is not modelled) *)
Definition fp_to_int (a : Z) : Z := Z.quot a F.
(** lines 28-43 *)
Definition fp_add (a b : Z) : res Z := ll (a + b).
Definition fp_sub (a b : Z) : res Z := ll (a - b).
Definition fp_mul (a b : Z) : res Z := let* p := ll (a * b) in zdiv p F.
Definition fp_div (a b : Z) : res Z := let* q := zdiv a b in let* q := ll q in zdiv q F.
(** lines 45-54 *)
Definition fp_inc (a : Z) : res Z := ll (a + F).
Definition fp_dec (a : Z) : res Z := ll (a - F).
Definition fp_lt (a b : Z) : bool := a <? b.
Definition fp_le (a b : Z) : bool := a <=? b.
Definition fp_eq (a b : Z) : bool := a =? b.
(** unary minus, lines 74-78 *)
Definition fp_neg (a : Z) : res Z := let* z := fp_of_int 0 in fp_sub z a.
End Fp.
