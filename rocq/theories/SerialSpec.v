(** Specification vocabulary for serialization. *)
From Verif Require Import Base NdArray.
Local Open Scope Z_scope.

(** fits a [size_t] *)
Definition is_u64 (x : Z) : Prop := 0 <= x < 2 ^ 64.

(** An array whose numbers fit their C++ types. *)
Definition nd_fits {A} (ok : A -> Prop) (a : nd A) : Prop :=
  Forall is_u64 (dims a) /\ is_u64 (Z.of_nat (length (dims a))) /\
  Forall is_u64 (strd a) /\ is_u64 (Z.of_nat (length (strd a))) /\
  is_u64 (ncd a) /\ Forall ok (buf a) /\ is_u64 (Z.of_nat (length (buf a))).

