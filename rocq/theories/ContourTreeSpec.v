(** Specification vocabulary for C43. *)
From Verif Require Import Base ContourTree.
Section S.
  Context {K : Type} `{OrdKey K} (neg1 : K).
  Inductive op := AddNode (i : K) | AddArc (lo hi : K) | ReduceNode (i : K) | Reduce.
  Definition step (g : ct K) (o : op) : res (ct K) :=
    match o with
    | AddNode i => Ok (ct_add_node g i) | AddArc lo hi => Ok (ct_add_arc g lo hi)
    | ReduceNode i => let* p := reduce_node neg1 g i in Ok (fst p)
    | Reduce => reduce neg1 g
    end.
  Fixpoint run_from (g : ct K) (ops : list op) : res (ct K) :=
    match ops with [] => Ok g | o :: ops => let* g := step g o in run_from g ops end.
  (** the states a caller can reach *)
  Definition reachable (g : ct K) : Prop := exists ops, run_from ct_new ops = Ok g.

  (** the two link tables, as relations: [hi] is an upper link of [lo]; [lo] is a lower link of [hi] *)
  Definition up (g : ct K) (lo hi : K) : Prop := exists s, mfind lo (upper_links g) = Some s /\ In hi s.
  Definition down (g : ct K) (hi lo : K) : Prop := exists s, mfind hi (lower_links g) = Some s /\ In lo s.

  (** a set of keys has exactly [n] elements *)
  Definition card (P : K -> Prop) (n : nat) : Prop := exists l, NoDup l /\ (forall x, In x l <-> P x) /\ length l = n.
  (** exactly one element *)
  Definition one (P : K -> Prop) : Prop := exists x, P x /\ forall y, P y -> y = x.
  (** a node of the tree with exactly one upper and one lower arc *)
  Definition regular (g : ct K) (i : K) : Prop := In i (ct_nodes g) /\ one (up g i) /\ one (fun lo => up g lo i).
  (** a path of arcs all of whose inner nodes satisfy [R] *)
  Inductive through (A : K -> K -> Prop) (R : K -> Prop) : K -> K -> Prop :=
  | th_one x y : A x y -> through A R x y
  | th_cons x r y : A x r -> R r -> through A R r y -> through A R x y.
End S.
Arguments op : clear implicits.
