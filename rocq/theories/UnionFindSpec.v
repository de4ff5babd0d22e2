(** Specifications for the union-find theorems: no reference to parents or sizes. *)
From Verif Require Import Base UnionFind.

(** All ids of the call are below [n]. *)
Definition suf_op_ok (n : nat) (o : suf_op) : bool :=
  match o with
  | SUnite p q => Nat.ltb p n && Nat.ltb q n
  | SFind p => Nat.ltb p n
  | SSame p q => Nat.ltb p n && Nat.ltb q n
  | SReset => true
  end.

(** The pairs united since the last reset. *)
Definition live_step (us : list (nat * nat)) (o : suf_op) : list (nat * nat) :=
  match o with SUnite p q => (p, q) :: us | SReset => [] | _ => us end.
Definition live_unions (ops : list suf_op) : list (nat * nat) := fold_left live_step ops [].

Section S.
  Context {K : Type} `{OrdKey K}.

  (** Elements added and pairs united by a history. *)
  Definition uf_added (ops : list uf_op) : list K :=
    flat_map (fun o => match o with UAdd i => [i] | _ => [] end) ops.
  Definition uf_united (ops : list uf_op) : list (K * K) :=
    flat_map (fun o => match o with UUnite i j => [(i, j)] | _ => [] end) ops.

  (** Every element is added before it is used. *)
  Definition uses (o : uf_op) : list K :=
    match o with UAdd _ => [] | UUnite i j => [i; j] | UFind i => [i] | USame i j => [i; j] | UGetSets => [] end.
  Definition add_before_use (ops : list uf_op) : Prop :=
    forall pre o post, ops = pre ++ o :: post -> incl (uses o) (uf_added pre).

  (** [sets] is the partition of the elements [es] into the classes of [R]: non-empty sorted
      (duplicate-free) sets, pairwise disjoint, covering, each a full class. *)
  Definition is_partition (es : list K) (R : K -> K -> Prop) (sets : list (list K)) : Prop :=
    (forall S, In S sets -> S <> []) /\
    (forall S, In S sets -> sorted S) /\
    (forall i j S T x, nth_error sets i = Some S -> nth_error sets j = Some T -> In x S -> In x T -> i = j) /\
    (forall x, In x es <-> exists S, In S sets /\ In x S) /\
    (forall S x, In S sets -> In x S -> forall y, In y S <-> In y es /\ R x y).
End S.
