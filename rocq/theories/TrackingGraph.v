(** Model of [tracking_graph] (include/ftk/tracking_graph/tracking_graph.hh:16-219) and [Event]
    (include/ftk/tracking_graph/event.hh:10-48).  Time indices and labels are any types with a strict order;
    global labels are unbounded naturals.  [generate_dot_file] is not modelled; [has_node] and [has_edge] do not
    compile when instantiated.  The mutex makes each [add_*] atomic, so a concurrent history is some sequence
    of them. *)
From Coq Require Import String.
From Verif Require Import Base UnionFind NdArray Graph.
Local Open Scope list_scope.

Section TG.
  Context {T L : Type} `{OrdKey T} `{OrdKey L}.
  (** [typedef std::pair<TimeIndexType, LabelIdType> Node], line 42 *)
  Local Notation node := (T * L)%type.
  (** [Event], event.hh:21-23 *)
  Record event := { e_int : T * T; e_lhs : list L; e_rhs : list L }.
  (** members, lines 44-50 and 56 *)
  Record tg := {
    nodes : list (T * list node);
    left_links : list (node * list node);
    right_links : list (node * list node);
    node_label : list (node * nat);
    events : list (T * list event) }.
  Definition tg_new : tg := {| nodes := []; left_links := []; right_links := []; node_label := []; events := [] |}.

  (** [m[k]] where a missing entry is an empty container (the entry it creates is empty) *)
  Definition mget {A V} `{OrdKey A} (k : A) (m : list (A * list V)) : list V := match mfind k m with Some s => s | None => [] end.

  (** [add_node], lines 113-118 *)
  Definition add_node (g : tg) (t : T) (l : L) : tg :=
    {| nodes := mset t (sins (t, l) (mget t (nodes g))) (nodes g);
       left_links := left_links g; right_links := right_links g; node_label := node_label g; events := events g |}.
  (** [add_edge], lines 120-133 *)
  Definition add_edge (g : tg) (t0 : T) (l0 : L) (t1 : T) (l1 : L) : tg :=
    let n0 := (t0, l0) in let n1 := (t1, l1) in
    let ns := mset t0 (sins n0 (mget t0 (nodes g))) (nodes g) in
    let ns := mset t1 (sins n1 (mget t1 ns)) ns in
    {| nodes := ns;
       left_links := mset n1 (sins n0 (mget n1 (left_links g))) (left_links g);
       right_links := mset n0 (sins n1 (mget n0 (right_links g))) (right_links g);
       node_label := node_label g; events := events g |}.

  (** the neighbour function of [relabel], lines 144-151 *)
  Definition relabel_neighbors (g : tg) (n : node) : list node :=
    let l := mget n (left_links g) in let r := mget n (right_links g) in
    let s := if Nat.eqb (length l) 1 then fold_left (fun s x => sins x s) l [] else [] in
    if Nat.eqb (length r) 1 then fold_left (fun s x => sins x s) r s else s.
  (** the labelling loop, lines 158-165; [counter] is [defaultGlobalLabelCounter] *)
  Fixpoint label_components (components : list (list node)) (counter : nat) (m : list (node * nat)) : list (node * nat) :=
    match components with
    | [] => m
    | c :: cs =>
        let globalLabel := S counter in
        label_components cs globalLabel (fold_left (fun m n => mset n globalLabel m) c m)
    end.
  (** [relabel], lines 135-166 *)
  Definition relabel (g : tg) : res tg :=
    let allNodes := fold_left (fun s kv => fold_left (fun s x => sins x s) (snd kv) s) (nodes g) [] in
    let* components := extract_connected_components (relabel_neighbors g) allNodes in
    Ok {| nodes := nodes g; left_links := left_links g; right_links := right_links g;
          node_label := label_components components 0 []; events := events g |}.
  (** [get_global_label], lines 83-91; [None] is [GlobalLabelIdType(-1)] *)
  Definition get_global_label (g : tg) (t : T) (l : L) : option nat := mfind (t, l) (node_label g).
  (** [get_timesteps], lines 168-176 *)
  Definition get_timesteps (g : tg) : list T := mkeys (nodes g).

  (** [nodes[t]]: creates an empty entry when there is none *)
  Definition touch (t : T) (m : list (T * list node)) : list (T * list node) := mins t [] m.
  (** the body of the loop over components, lines 192-205 *)
  Definition event_of (t0 t1 : T) (component : list node) : event :=
    fold_left (fun e n =>
      if keqb (fst n) t0 then {| e_int := e_int e; e_lhs := sins (snd n) (e_lhs e); e_rhs := e_rhs e |}
      else {| e_int := e_int e; e_lhs := e_lhs e; e_rhs := sins (snd n) (e_rhs e) |})
      component {| e_int := (t0, t1); e_lhs := []; e_rhs := [] |}.
  Definition events_of (t0 t1 : T) (components : list (list node)) (ev : list (T * list event)) : list (T * list event) :=
    fold_left (fun ev c => if Nat.eqb (length c) 2 then ev else mset t0 (mget t0 ev ++ [event_of t0 t1 c]) ev) components ev.
  (** [detect_events(t0, t1)], lines 178-206 *)
  Definition detect_events_in (g : tg) (t0 t1 : T) : res tg :=
    let ns := touch t1 (touch t0 (nodes g)) in
    let intervalNodes := fold_left (fun s x => sins x s) (mget t1 ns) (fold_left (fun s x => sins x s) (mget t0 ns) []) in
    let intervalNeighbors n := if keqb (fst n) t0 then mget n (right_links g) else mget n (left_links g) in
    let* components := extract_connected_components intervalNeighbors intervalNodes in
    Ok {| nodes := ns; left_links := left_links g; right_links := right_links g; node_label := node_label g;
          events := events_of t0 t1 components (events g) |}.
  (** the loop of [detect_events()], lines 215-218, over pairs of successive timesteps *)
  Fixpoint detect_loop (g : tg) (ts : list T) : res tg :=
    match ts with
    | t0 :: ((t1 :: _) as rest) => let* g := detect_events_in g t0 t1 in detect_loop g rest
    | _ => Ok g
    end.
  Definition detect_events (g : tg) : res tg := detect_loop g (get_timesteps g).
End TG.
Arguments event : clear implicits.
Arguments tg : clear implicits.

(** ** event.hh:10-48 *)
Definition FTK_EVENT_NONE := 0. Definition FTK_EVENT_BIRTH := 1. Definition FTK_EVENT_DEATH := 2. Definition FTK_EVENT_MERGE := 3.
Definition FTK_EVENT_SPLIT := 4. Definition FTK_EVENT_RECOMBINATION := 5. Definition FTK_EVENT_COMPOUND := 6.
(** [type()], lines 25-41, on the sizes of the two sides *)
Definition event_type_of (nl nr : nat) : nat :=
  if Nat.eqb nl 1 && Nat.eqb nr 1 then FTK_EVENT_NONE
  else if Nat.eqb nl 0 && Nat.eqb nr 1 then FTK_EVENT_BIRTH
  else if Nat.eqb nl 1 && Nat.eqb nr 0 then FTK_EVENT_DEATH
  else if Nat.eqb nl 1 && Nat.eqb nr 2 then FTK_EVENT_SPLIT
  else if Nat.eqb nl 2 && Nat.eqb nr 1 then FTK_EVENT_MERGE
  else if Nat.eqb nl 2 && Nat.eqb nr 2 then FTK_EVENT_RECOMBINATION
  else FTK_EVENT_COMPOUND.
Definition event_type {T L} (e : event T L) : nat := event_type_of (length (e_lhs e)) (length (e_rhs e)).
(** [eventTypeToString], lines 43-47; an index outside the array is undefined behaviour *)
Definition eventTypeToString (e : nat) : res string :=
  of_option (nth_error ["none"; "birth"; "death"; "merge"; "split"; "recombination"; "compound"]%string e).
