(** Specification vocabulary for the graph algorithms. *)
From Verif Require Import Base UnionFind UnionFindSpec.

Section GS.
  Context {K : Type} `{OrdKey K}.
  (** a walk of [n] steps along neighbours meeting the criterion *)
  Inductive path (nb : K -> list K) (crit : K -> bool) : nat -> K -> K -> Prop :=
  | path_nil x : path nb crit 0 x x
  | path_snoc n x y z : path nb crit n x y -> In z (nb y) -> crit z = true -> path nb crit (S n) x z.
  Definition reach nb crit x y : Prop := exists n, path nb crit n x y.
  (** graph distance *)
  Definition dist nb crit x y n : Prop := path nb crit n x y /\ forall m, path nb crit m x y -> n <= m.
  (** connected through nodes of [q], along neighbours in either direction *)
  Definition linked (nb : K -> list K) (q : list K) (x y : K) : Prop := In x q /\ In y q /\ In y (nb x).
  Definition connected (nb : K -> list K) (q : list K) : K -> K -> Prop := clos_refl_sym_trans K (linked nb q).
  Definition symmetric_nb (nb : K -> list K) : Prop := forall x y, In y (nb x) -> In x (nb y).
  (** consecutive elements are neighbours *)
  Definition chain (nb : K -> list K) (l : list K) : Prop := forall p x y s, l = p ++ x :: y :: s -> In y (nb x).
  (** number of neighbours of [x], other than itself, in the set [cc] *)
  Definition degree (nb : K -> list K) (cc : list K) (x : K) : nat := length (filter (fun y => negb (keqb y x) && smem y cc) (nb x)).
End GS.
