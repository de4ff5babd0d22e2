(** Walks and their lengths. *)
From Verif Require Import Base.
Section DS.
  Context {K : Type} (neighbors : K -> list K) (w : K -> K -> Z).
  (** [wpath l x y d]: [l] is a walk from [x] to [y] along neighbours, of length [d] *)
  Inductive wpath : list K -> K -> K -> Z -> Prop :=
  | w_nil x : wpath [x] x x 0
  | w_snoc l x y z d : wpath l x y d -> In z (neighbors y) -> wpath (l ++ [z]) x z (d + w y z).
  Definition shortest (x y : K) (d : Z) : Prop := (exists l, wpath l x y d) /\ forall l' d', wpath l' x y d' -> (d <= d')%Z.
  Definition reachable (x y : K) : Prop := exists l d, wpath l x y d.
End DS.
