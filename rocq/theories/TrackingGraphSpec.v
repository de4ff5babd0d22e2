(** Specification vocabulary for C40, C41: histories of [add_node]/[add_edge] as plain lists. *)
From Verif Require Import Base TrackingGraph.

Section S.
  Context {T L : Type} `{OrdKey T} `{OrdKey L}.
  Inductive op := AddNode (t : T) (l : L) | AddEdge (t0 : T) (l0 : L) (t1 : T) (l1 : L).
  Definition apply_op (g : tg T L) (o : op) : tg T L :=
    match o with AddNode t l => add_node g t l | AddEdge t0 l0 t1 l1 => add_edge g t0 l0 t1 l1 end.
  Definition run (ops : list op) : tg T L := fold_left apply_op ops tg_new.

  (** the graph the history describes *)
  Definition is_edge (ops : list op) (a b : T * L) : Prop := In (AddEdge (fst a) (snd a) (fst b) (snd b)) ops.
  Definition is_node (ops : list op) (n : T * L) : Prop :=
    In (AddNode (fst n) (snd n)) ops \/ exists m, is_edge ops n m \/ is_edge ops m n.

  (** [b] is the only successor of [a]; [a] is the only predecessor of [b] *)
  Definition only_succ ops a b : Prop := is_edge ops a b /\ forall b', is_edge ops a b' -> b' = b.
  Definition only_pred ops a b : Prop := is_edge ops a b /\ forall a', is_edge ops a' b -> a' = a.
  (** both ends of degree one on the linked sides / at least one of them *)
  Definition simple_edge ops a b : Prop := only_succ ops a b /\ only_pred ops a b.
  Definition half_simple_edge ops a b : Prop := only_succ ops a b \/ only_pred ops a b.

  (** two timesteps with nodes and none between *)
  Definition consecutive ops (t0 t1 : T) : Prop :=
    klt t0 t1 /\ (exists l, is_node ops (t0, l)) /\ (exists l, is_node ops (t1, l)) /\ forall t l, is_node ops (t, l) -> ~ (klt t0 t /\ klt t t1).
  (** edges from [t0] to [t1] *)
  Definition between ops (t0 t1 : T) (a b : T * L) : Prop := is_edge ops a b /\ fst a = t0 /\ fst b = t1.
  (** [Lh], [Rh] are the labels of a connected component of the bipartite graph between [t0] and [t1] *)
  Definition component ops (t0 t1 : T) (Lh Rh : list L) : Prop :=
    sorted Lh /\ sorted Rh /\ exists n, is_node ops n /\ (fst n = t0 \/ fst n = t1) /\
      (forall l, In l Lh <-> is_node ops (t0, l) /\ clos_refl_sym_trans _ (between ops t0 t1) n (t0, l)) /\
      (forall l, In l Rh <-> is_node ops (t1, l) /\ clos_refl_sym_trans _ (between ops t0 t1) n (t1, l)).
End S.
Arguments op : clear implicits.
