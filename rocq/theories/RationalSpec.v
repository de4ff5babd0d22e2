(** Specification vocabulary for C38, C39: the rational numbers of the standard library. *)
From Coq Require Import QArith.
From Verif Require Import Base Rational.

(** the number denoted by a [rational] *)
Definition rval (r : rat) : Q := (inject_Z (num r) / inject_Z (den r))%Q.
(** a legal value: non-zero denominator; lowest terms with positive denominator *)
Definition legal (r : rat) : Prop := den r <> 0%Z.
Definition reduced (r : rat) : Prop := (0 < den r)%Z /\ Z.gcd (num r) (den r) = 1%Z.

(** the number denoted by a [fixed_point] with factor [F] *)
Definition fval (F a : Z) : Q := (inject_Z a / inject_Z F)%Q.
(** [a] is [x] rounded toward zero to a multiple of [1/F] *)
Definition rounds (F a : Z) (x : Q) : Prop :=
  ((0 <= x -> fval F a <= x /\ x < fval F (a + 1)) /\ (x <= 0 -> x <= fval F a /\ fval F (a - 1) < x))%Q.
Definition in_ll (x : Z) : Prop := (- 2 ^ 63 <= x < 2 ^ 63)%Z.
(** the call terminates with this result (the fuel only bounds its loops) *)
Definition returns {A} (f : nat -> res A) (v : A) : Prop := exists N, forall fuel, (N <= fuel)%nat -> f fuel = Ok v.
