(** Model of include/ftk/algorithms/dijkstra.hh. [T] is modelled by [Z]; [tmax] stands for
    std::numeric_limits<T>::max().  Rounding and overflow of [T] are not modelled.  [junk] is the value of
    the declaration [Node u;]: [None] when Node is a built-in type (indeterminate, reading it is undefined),
    [Some v] when Node is a class with default value [v]. *)
From Verif Require Import Base UnionFind NdArray.

Section D.
  Context {K : Type} `{OrdKey K} (neighbors : K -> list K) (w : K -> K -> Z) (tmax : Z) (junk : option K).
  (** lines 27-33: the first vertex of [dist], in map order, that is not visited and has the least
      distance below [tmax]; [None] leaves [u] uninitialised *)
  Definition dj_pick (dist : list (K * Z)) (visited : list K) : option K * Z :=
    fold_left (fun (acc : option K * Z) kv =>
      if negb (smem (fst kv) visited) && (snd kv <? snd acc)%Z then (Some (fst kv), snd kv) else acc) dist (None, tmax).
  (** lines 39-52: the loop over the neighbours of [u] *)
  Definition dj_relax (u : K) (st : list (K * Z) * list (K * K)) (v : K) : list (K * Z) * list (K * K) :=
    let (dist, prev) := st in
    let dist := match mfind u dist with Some _ => dist | None => mset u 0%Z dist end in  (* dist[u] *)
    let alt := (match mfind u dist with Some d => d | None => 0 end + w u v)%Z in
    let change := match mfind v dist with None => true | Some d => (alt <? d)%Z end in
    if change then (mset v alt dist, mset v u prev) else (dist, prev).
  (** lines 25-53 *)
  Fixpoint dj_loop (fuel : nat) (dst : K) (visited : list K) (dist : list (K * Z)) (prev : list (K * K)) : res (list (K * K)) :=
    match fuel with
    | O => OutOfFuel
    | S fuel =>
        match (match fst (dj_pick dist visited) with Some u => Some u | None => junk end) with
        | None => UB  (* [visited.insert(u)] reads the uninitialised [u] *)
        | Some u =>
            let visited := sins u visited in
            if keqb u dst then Ok prev
            else let (dist, prev) := fold_left (dj_relax u) (neighbors u) (dist, prev) in
                 dj_loop fuel dst visited dist prev
        end
    end.
  (** lines 56-64; the result before [std::reverse] *)
  Fixpoint dj_back (fuel : nat) (src u : K) (prev : list (K * K)) : res (list K) :=
    match fuel with
    | O => OutOfFuel
    | S fuel => if keqb u src then Ok [u]
                else match mfind u prev with
                     | None => Ok [u]
                     | Some p => let* l := dj_back fuel src p prev in Ok (u :: l)
                     end
    end.
  Definition dijkstra (fuel : nat) (src dst : K) : res (list K) :=
    let* prev := dj_loop fuel dst [] [(src, 0%Z)] [] in
    let* l := dj_back fuel src dst prev in
    Ok (rev l).
End D.
