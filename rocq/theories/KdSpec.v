(** Nearest points, rounding functions, and what [std::nth_element] promises. *)
From Verif Require Import Base.
From Coq Require Import QArith Permutation.
Local Open Scope nat_scope. Local Open Scope list_scope.
(** the sum of the squared coordinate differences over the first [n] axes *)
Fixpoint euclid2 (n : nat) (x y : nat -> Q) : Q :=
  match n with O => 0%Q | S n => (euclid2 n x y + (x n - y n) * (x n - y n))%Q end.
(** [i] is the index of a point whose distance, measured by [d], is minimal *)
Definition minimal (d : (nat -> Q) -> Q) (pts : list (nat -> Q)) (i : nat) : Prop :=
  exists p, nth_error pts i = Some p /\ forall q, In q pts -> (d p <= d q)%Q.
(** a rounding function: monotone, maps its values to themselves, keeps 0 *)
Definition rounding (rnd : Q -> Q) : Prop :=
  (forall x y, (x <= y)%Q -> (rnd x <= rnd y)%Q) /\ (forall x, (rnd (rnd x) == rnd x)%Q) /\ (rnd 0 == 0)%Q.
(** the coordinate of point [i] along [a] *)
Definition coord (pts : list (nat -> Q)) (i a : nat) : Q := match nth_error pts i with Some p => p a | None => 0%Q end.
(** [out] is a rearrangement of [seg] such that no element before position [k] exceeds the one at [k],
    and none after [k] is below it, with respect to the coordinate [a] *)
Definition nth_element_ok (pts : list (nat -> Q)) (a k : nat) (seg out : list nat) : Prop :=
  Permutation seg out /\
  forall m, nth_error out k = Some m ->
    (forall i, In i (firstn k out) -> (coord pts i a <= coord pts m a)%Q) /\
    (forall i, In i (skipn k out) -> (coord pts m a <= coord pts i a)%Q).
