(** Model of the graph algorithms (include/ftk/algorithms/bfs.hh, cca.hh, cca_bfs.hh, ccl.hh,
    include/ftk/geometry/cc2curves.hh).  A neighbour function returns the container that the range-for
    loop iterates over, as a list in iteration order. *)
From Verif Require Import Base UnionFind NdArray.

Section G.
  Context {K : Type} `{OrdKey K}.

  (** *** bfs.hh:10-38.  The result is the sequence of calls [operation(x)]. *)
  (** the inner loop over [neighbors(current)], lines 30-36 *)
  Definition bfs_push (criterion : K -> bool) (st : list K * list K) (n : K) : list K * list K :=
    let (Q, visited) := st in
    if smem n visited then st
    else if criterion n then (Q ++ [n], sins n visited) else st.
  (** the while loop, lines 23-37 *)
  Fixpoint bfs_loop (fuel : nat) (neighbors : K -> list K) (criterion : K -> bool) (Q visited calls : list K) : res (list K) :=
    match fuel with
    | O => OutOfFuel
    | S fuel =>
        match Q with
        | [] => Ok calls
        | current :: Q =>
            let (Q', visited') := fold_left (bfs_push criterion) (neighbors current) (Q, visited) in
            bfs_loop fuel neighbors criterion Q' visited' (calls ++ [current])
        end
    end.
  Definition bfs (fuel : nat) (seed : K) (neighbors : K -> list K) (criterion : K -> bool) : res (list K) :=
    if criterion seed then bfs_loop fuel neighbors criterion [seed] [seed] [] else Ok [].

  (** *** cca.hh:92-117 [extract_connected_components(neighbors, qualified)] *)
  (** the inner loop over [neighbors(current)], lines 107-111 *)
  Fixpoint cca_unite (UF : uf (K:=K)) (current : K) (ns : list K) : res (uf (K:=K)) :=
    match ns with
    | [] => Ok UF
    | n :: ns => let* UF := if uf_has UF n then uf_unite UF current n else Ok UF in cca_unite UF current ns
    end.
  Fixpoint cca_loop (UF : uf (K:=K)) (neighbors : K -> list K) (qs : list K) : res (uf (K:=K)) :=
    match qs with
    | [] => Ok UF
    | q :: qs => let* UF := cca_unite UF q (neighbors q) in cca_loop UF neighbors qs
    end.
  Definition extract_connected_components (neighbors : K -> list K) (qualified : list K) : res (list (list K)) :=
    let UF := fold_left (@uf_add K _) qualified uf_new in
    let* UF := cca_loop UF neighbors qualified in
    let* (sets, _) := uf_get_sets UF in
    Ok sets.
  (** the overload on a container of nodes, cca.hh:137-150; [nodes] in iteration order *)
  Definition extract_connected_components_nodes (nodes : list K) (neighbors : K -> list K) (criterion : K -> bool) : res (list (list K)) :=
    extract_connected_components neighbors (fold_left (fun s n => if criterion n then sins n s else s) nodes []).

  (** *** cca_bfs.hh:32-85.  [Q], [visited] and [qualified] are [std::set]s *)
  Definition ccb_push (qualified visited : list K) (Q : list K) (n : K) : list K :=
    if smem n qualified && negb (smem n visited) && negb (smem n Q) then sins n Q else Q.
  Fixpoint ccb_inner (fuel : nat) (neighbors : K -> list K) (qualified Q visited : list K) : res (list K) :=
    match fuel with
    | O => OutOfFuel
    | S fuel =>
        match Q with
        | [] => Ok visited
        | current :: _ =>
            let Q := sdel current Q in
            let visited := sins current visited in
            ccb_inner fuel neighbors qualified (fold_left (ccb_push qualified visited) (neighbors current) Q) visited
        end
    end.
  Fixpoint ccb_outer (fuel : nat) (neighbors : K -> list K) (qualified : list K) (components : list (list K)) : res (list (list K)) :=
    match fuel with
    | O => OutOfFuel
    | S fuel' =>
        match qualified with
        | [] => Ok components
        | seed :: _ =>
            let* visited := ccb_inner fuel neighbors qualified [seed] [] in
            ccb_outer fuel' neighbors (fold_left (fun q v => sdel v q) visited qualified) (components ++ [visited])
        end
    end.
  Definition extract_connected_components_bfs (fuel : nat) (neighbors : K -> list K) (qualified : list K) : res (list (list K)) :=
    ccb_outer fuel neighbors qualified [].

  (** *** cca.hh:67-90 [track_connected_components] (cca_bfs.hh:8-30 is identical) *)
  Definition overlaps (s0 s1 : list K) : bool := existsb (fun e => smem e s1) s0.
  Definition track_connected_components (components0 components1 : list (list K)) : list (nat * nat) :=
    fold_left (fun r ij => sins ij r)
      (flat_map (fun i => flat_map (fun j => if overlaps (nth i components0 []) (nth j components1 []) then [(i, j)] else [])
                                   (seq 0 (length components1))) (seq 0 (length components0))) [].

  (** *** cc2curves.hh:11-119 *)
  Definition valid_neighbors (cc : list K) (neighbors : K -> list K) (node : K) : list K :=
    filter (fun n => negb (keqb n node) && smem n cc) (neighbors node).
  (** the [while (1)] loop of one direction, lines 76-104: [current], the visited set; result: the nodes
      pushed, in order, and the new visited set *)
  Fixpoint walk (fuel : nat) (neighbors : K -> list K) (c : list K) (current : K) (visited : list K) : res (list K * list K) :=
    match fuel with
    | O => OutOfFuel
    | S fuel =>
        let '(pushed, visited) := if smem current visited then ([], visited) else ([current], sins current visited) in
        match find (fun n => negb (keqb n current) && smem n c && negb (smem n visited)) (neighbors current) with
        | None => Ok (pushed, visited)
        | Some n => let* (l, v) := walk fuel neighbors c n visited in Ok (pushed ++ l, v)
        end
    end.
  (** lines 46-111: one component.  [c] is not empty *)
  Definition trace_component (fuel : nat) (neighbors : K -> list K) (ordinary c : list K) : res (list K) :=
    match c with
    | [] => UB
    | seed :: _ =>
        let sn := sof (filter (fun n => negb (keqb n seed) && smem n ordinary) (neighbors seed)) in
        match sn with
        | [] => Ok [seed]
        | first :: _ =>
            let* (l0, v0) := walk fuel neighbors c first [seed] in
            if (length sn =? 1)%nat then Ok (seed :: l0)
            else let* (l1, _) := walk fuel neighbors c (last sn first) v0 in
                 Ok (rev l1 ++ seed :: l0)
        end
    end.
  Definition connected_component_to_linear_components (fuel : nat) (cc : list K) (neighbors : K -> list K) : res (list (list K)) :=
    match cc with
    | [] => Ok []
    | _ =>
        let special := filter (fun x => (2 <? length (valid_neighbors cc neighbors x))%nat) cc in
        let ordinary := filter (fun x => negb (2 <? length (valid_neighbors cc neighbors x))%nat) cc in
        let* comps := extract_connected_components
          (fun x => filter (fun n => negb (negb (smem n cc) || smem n special)) (neighbors x)) ordinary in
        mapM (trace_component fuel neighbors ordinary) comps
    end.
  (** lines 121-131 *)
  Definition is_loop (l : list K) (neighbors : K -> list K) : bool :=
    match l with
    | [] | [_] => false
    | x :: _ => smem (last l x) (neighbors x)
    end.
End G.

(** *** ccl.hh:12-35 [labelConnectedComponents] with [IdType = size_t] and a [std::vector] of labels *)
Fixpoint put_all (labels : list Z) (is_ : list nat) (v : Z) : res (list Z) :=
  match is_ with
  | [] => Ok labels
  | i :: t => let* labels := vput labels i v in put_all labels t v
  end.
Fixpoint label_loop (fuel : nat) (neighbors : nat -> list nat) (criterion : nat -> bool) (seeds : list nat) (labels : list Z) (count : Z) : res (Z * list Z) :=
  match seeds with
  | [] => Ok (count, labels)
  | seed :: seeds =>
      let* l := vget labels seed in
      if (l =? 0)%Z && criterion seed then
        let count := (count + 1)%Z in
        let* calls := bfs fuel seed neighbors criterion in
        let* labels := put_all labels calls count in
        label_loop fuel neighbors criterion seeds labels count
      else label_loop fuel neighbors criterion seeds labels count
  end.
Definition labelConnectedComponents (fuel : nat) (nNodes : nat) (labels : list Z) (neighbors : nat -> list nat) (criterion : nat -> bool) : res (Z * list Z) :=
  label_loop fuel neighbors criterion (seq 0 nNodes) labels 0.

(** *** ccl.hh:37-52 [trackConnectedComponentsByLabels]; [labels1[i]] must exist for every [i] *)
Fixpoint track_labels_loop (labels0 : list Z) (labels1 : list Z) (r : list (Z * Z)) : res (list (Z * Z)) :=
  match labels0, labels1 with
  | [], _ => Ok r
  | _ :: _, [] => UB
  | p :: t0, q :: t1 => track_labels_loop t0 t1 (if negb (p =? q)%Z && negb (p =? 0)%Z && negb (q =? 0)%Z then sins (p, q) r else r)
  end.
Definition trackConnectedComponentsByLabels (labels0 labels1 : list Z) : res (list (Z * Z)) := track_labels_loop labels0 labels1 [].
