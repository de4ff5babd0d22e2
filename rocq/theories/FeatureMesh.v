(** Model of include/ftk/features/feature_surface.hh, feature_volume.hh and feature_line.hh.
    Indices of points are ints in the code; here they are naturals, and an index that is too large is UB.  Sizes are below 2^31.
    A std::set is the sorted list of its elements; a std::map that is only looked up is a function of the key.  Not modelled: VTK output, files, triangulate (empty), printing. *)
From Verif Require Import Base UnionFind NdArray Graph FeatureCurve FeatureCurveSet.
Local Open Scope nat_scope. Local Open Scope list_scope.

Notation tri := (nat * nat * nat)%type.
(** feature_surface.hh lines 35-39, feature_volume.hh lines 16-18, feature_line.hh lines 30-31; a cell is the list of its points *)
Record surface := { s_pts : list fpoint; tris : list tri; quads : list (nat * nat * nat * nat); pentagons : list (nat * nat * nat * nat * nat) }.
Record volume := { v_pts : list fpoint; tets : list (nat * nat * nat * nat) }.
Record line := { l_pts : list fpoint; edges : list (nat * nat) }.
Definition array2 (e : nat * nat) : list nat := let '(a, b) := e in [a; b].
Definition array3 (t : tri) : list nat := let '(a, b, c) := t in [a; b; c].
Definition array4 (t : nat * nat * nat * nat) : list nat := let '(a, b, c, d) := t in [a; b; c; d].
Definition array5 (t : nat * nat * nat * nat * nat) : list nat := let '(a, b, c, d, e) := t in [a; b; c; d; e].

(** ** relabel: feature_surface.hh lines 91-108, feature_volume.hh lines 31-42, feature_line.hh lines 49-57 *)
(** for (j = 1; j < n; j ++) uf.unite(c[0], c[j]) *)
Fixpoint unite_from (uf : suf) (c : list nat) (js : list nat) : res suf :=
  match js with [] => Ok uf | j :: js => let* p := vget c 0 in let* q := vget c j in let* uf := suf_unite uf p q in unite_from uf c js end.
Fixpoint unite_cells (uf : suf) (n : nat) (cs : list (list nat)) : res suf :=
  match cs with [] => Ok uf | c :: cs => let* uf := unite_from uf c (seq 1 (n - 1)) in unite_cells uf n cs end.
(** for (i = 0; i < pts.size(); i ++) pts[i].id = uf.find(i) *)
Fixpoint set_ids (uf : suf) (i : nat) (ps : list fpoint) : res (list fpoint) :=
  match ps with [] => Ok [] | p :: ps => let* (r, uf) := suf_find uf i in let* ps := set_ids uf (S i) ps in Ok (set_id p (Z.of_nat r) :: ps) end.
Definition relabel_surface (s : surface) : res surface :=
  let uf := suf_new (length (s_pts s)) in
  let* uf := unite_cells uf 3 (map array3 (tris s)) in
  let* uf := unite_cells uf 4 (map array4 (quads s)) in
  let* uf := unite_cells uf 4 (map array5 (pentagons s)) in
  let* ps := set_ids uf 0 (s_pts s) in
  Ok {| s_pts := ps; tris := tris s; quads := quads s; pentagons := pentagons s |}.
Definition relabel_volume (v : volume) : res volume :=
  let* uf := unite_cells (suf_new (length (v_pts v))) 4 (map array4 (tets v)) in
  let* ps := set_ids uf 0 (v_pts v) in Ok {| v_pts := ps; tets := tets v |}.
Definition relabel_line (l : line) : res line :=
  let* uf := unite_cells (suf_new (length (l_pts l))) 2 (map array2 (edges l)) in
  let* ps := set_ids uf 0 (l_pts l) in Ok {| l_pts := ps; edges := edges l |}.

(** ** feature_surface_t::reorient, lines 255-325 *)
(** the edges (t[j], t[(j+1)%3]) *)
Definition directed (t : tri) : list (nat * nat) := let '(a, b, c) := t in [(a, b); (b, c); (c, a)].
(** edge, lines 258-261 *)
Definition edge (e : nat * nat) : nat * nat := if Nat.ltb (snd e) (fst e) then (snd e, fst e) else e.
Definition pair_eqb (a b : nat * nat) : bool := Nat.eqb (fst a) (fst b) && Nat.eqb (snd a) (snd b).
(** edge_triangle, lines 264-269: the triangles that have edge [e] *)
Definition edge_triangle (ts : list tri) (e : nat * nat) : list nat :=
  filter (fun i => match nth_error ts i with Some t => existsb (fun d => pair_eqb (edge d) e) (directed t) | None => false end) (seq 0 (length ts)).
(** chirality, lines 271-287: the inner loop over j, then the loop over i; None if the assertion is reached *)
Fixpoint chirality_inner (ea ebi : nat * nat) (eb : list (nat * nat)) : option Z :=
  match eb with
  | [] => None
  | ebj :: eb => if pair_eqb ea ebi then Some 1%Z else if pair_eqb ea (snd ebj, fst ebj) then Some (-1)%Z else chirality_inner ea ebi eb
  end.
Fixpoint chirality_outer (es : list ((nat * nat) * (nat * nat))) (eb : list (nat * nat)) : option Z :=
  match es with [] => None | (ea, ebi) :: es => match chirality_inner ea ebi eb with Some c => Some c | None => chirality_outer es eb end end.
Definition chirality (a b : tri) : option Z := chirality_outer (combine (directed a) (directed b)) (directed b).
Definition swap01 (t : tri) : tri := let '(a, b, c) := t in (b, a, c).
(** the triangles, the queue and the visited set; [asserts] says that assertions are compiled in; a failed assertion aborts *)
Definition bfs_state := (list tri * list nat * list nat)%type.
(** lines 310-320, for one neighbour k *)
Definition visit (asserts : bool) (i : nat) (st : bfs_state) (k : nat) : res bfs_state :=
  let '(ts, Q, visited) := st in
  if smem k visited then Ok st
  else
    let* a := vget ts i in let* b := vget ts k in
    match chirality a b with
    | None => if asserts then UB else Ok (ts, Q ++ [k], sins k visited)
    | Some c => Ok (if (c <? 0)%Z then vset ts k (swap01 b) else ts, Q ++ [k], sins k visited)
    end.
Fixpoint visit_all (asserts : bool) (i : nat) (st : bfs_state) (ks : list nat) : res bfs_state :=
  match ks with [] => Ok st | k :: ks => let* st := visit asserts i st k in visit_all asserts i st ks end.
(** lines 303-321: the edges of triangle i; the map edge_triangle was built from the triangles [ts0] *)
Fixpoint visit_edges (asserts : bool) (ts0 : list tri) (i : nat) (st : bfs_state) (js : list nat) : res bfs_state :=
  match js with
  | [] => Ok st
  | j :: js =>
      let* t := vget (fst (fst st)) i in let* d := vget (directed t) j in
      let* st := visit_all asserts i st (sdel i (edge_triangle ts0 (edge d))) in
      visit_edges asserts ts0 i st js
  end.
Fixpoint reorient_loop (fuel : nat) (asserts : bool) (ts0 : list tri) (st : bfs_state) : res (list tri) :=
  match fuel with
  | O => OutOfFuel
  | S fuel =>
      match st with
      | (ts, [], _) => Ok ts
      | (ts, i :: Q, visited) => let* st := visit_edges asserts ts0 i (ts, Q, visited) [0; 1; 2] in reorient_loop fuel asserts ts0 st
      end
  end.
Definition reorient (asserts : bool) (s : surface) : res surface :=
  let* ts := reorient_loop (length (tris s) + 2) asserts (tris s) (tris s, [0], [0]) in
  Ok {| s_pts := s_pts s; tris := ts; quads := quads s; pentagons := pentagons s |}.

(** ** Curves: feature_surface.hh lines 350-376 and feature_line.hh lines 75-96 *)
Definition graph_curve (ps : list fpoint) (links : nat -> list nat) (l : list nat) : res curve :=
  let* qs := mapM (vget ps) l in Ok (mkc qs None false (is_loop l links) None 0%Z).
Fixpoint add_curves (cs : list curve) (set : cset) : res cset :=
  match cs with
  | [] => Ok set
  | c :: cs => match pts c with [] => UB | p :: _ => add_curves cs (add_label set c (to_int (pid p))) end
  end.
Definition component_curves (ps : list fpoint) (links : nat -> list nat) (component : list nat) : res (list curve) :=
  let* ls := connected_component_to_linear_components (S (length component)) component links in mapM (graph_curve ps links) ls.
Definition graph_curves (ps : list fpoint) (links : nat -> list nat) (nodes : list nat) : res cset :=
  let* cc := extract_connected_components links nodes in
  let* css := mapM (component_curves ps links) cc in
  add_curves (concat css) [].
(** the position of point [i] among the points for which [f] holds: map[i] *)
Definition index_map (f : fpoint -> bool) (ps : list fpoint) (i : nat) : option nat :=
  match nth_error ps i with Some p => if f p then Some (length (filter f (firstn i ps))) else None | None => None end.
(** {map[c[j]]}: the points of a cell that have a new index *)
Fixpoint mapped (m : nat -> option nat) (c : list nat) : list nat := match c with [] => [] | i :: c => match m i with Some j => j :: mapped m c | None => mapped m c end end.
(** the links of surface slicing, lines 346-361: links[k].insert(cc.begin(), cc.end()) for k in cc *)
Definition slice_links (m : nat -> option nat) (ts : list tri) (k : nat) : list nat :=
  fold_left (fun s t => let cc := sof (mapped m (array3 t)) in if smem k cc then fold_left (fun s x => sins x s) cc s else s) ts [].
(** feature_surface_t::slice_time, lines 327-387 *)
Definition at_time (t : Z) (p : fpoint) : bool := (timestep p =? t)%Z && ordinal p.
Definition slice_time_surface (t : Z) (s : surface) : res cset :=
  let mypts := filter (at_time t) (s_pts s) in
  graph_curves mypts (slice_links (index_map (at_time t) (s_pts s)) (tris s)) (seq 0 (length mypts)).
(** feature_line_t::to_curve_set, lines 59-97 *)
Definition line_links (es : list (nat * nat)) (k : nat) : list nat :=
  fold_left (fun s e => let '(v0, v1) := e in let s := if Nat.eqb k v0 then sins v1 s else s in if Nat.eqb k v1 then sins v0 s else s) es [].
Definition to_curve_set (l : line) : res cset := graph_curves (l_pts l) (line_links (edges l)) (seq 0 (length (l_pts l))).

(** ** feature_volume_t::slice, lines 44-77, and slice_time, lines 79-121 *)
(** std::sort of three numbers *)
Definition insert_sorted (x : nat) : list nat -> list nat := fix go l := match l with [] => [x] | y :: l' => if Nat.leb x y then x :: l else y :: go l' end.
Definition sort3 (a b c : nat) : tri := match insert_sorted a (insert_sorted b [c]) with [x; y; z] => (x, y, z) | _ => (a, b, c) end.
Definition slice_tet (m : nat -> option nat) (set : list tri) (c : nat * nat * nat * nat) : list tri :=
  match mapped m (array4 c) with [x; y; z] => sins (sort3 x y z) set | _ => set end.
Definition slice_volume (f : fpoint -> bool) (v : volume) : surface :=
  {| s_pts := filter f (v_pts v); tris := fold_left (slice_tet (index_map f (v_pts v))) (tets v) []; quads := []; pentagons := [] |}.
(** lines 96-99: pts[c[j]].timestep == t for every j *)
Fixpoint all_at (t : Z) (ps : list fpoint) (c : list nat) : res bool :=
  match c with [] => Ok true | i :: c => let* p := vget ps i in let* b := all_at t ps c in Ok ((timestep p =? t)%Z && b) end.
Fixpoint slice_time_tets (t : Z) (ps : list fpoint) (cs : list (nat * nat * nat * nat)) (set : list tri) : res (list tri) :=
  match cs with
  | [] => Ok set
  | c :: cs => let* valid := all_at t ps (array4 c) in slice_time_tets t ps cs (if valid then slice_tet (index_map (at_time t) ps) set c else set)
  end.
Definition slice_time_volume (t : Z) (v : volume) : res surface :=
  let* ts := slice_time_tets t (v_pts v) (tets v) [] in Ok {| s_pts := filter (at_time t) (v_pts v); tris := ts; quads := []; pentagons := [] |}.

(** ** feature_surface_t::discard, lines 414-502.  [D], [lt], [dist] and [dmax] are double, <, the distance of two points and the largest double; -1 is None *)
Section Discard.
  Context {D : Type} (lt : D -> D -> bool) (dmax : D) (dist : fpoint -> fpoint -> D).
  (** lines 421-430 *)
  Definition add_neighbors (t : tri) (nb : list (list nat)) : res (list (list nat)) :=
    let '(a, b, c) := t in
    fold_left (fun r jk => let* nb := r in let* s := vget nb (fst jk) in vput nb (fst jk) (sins (snd jk) s)) [(a, b); (a, c); (b, a); (b, c); (c, a); (c, b)] (Ok nb).
  Definition neighbors (s : surface) : res (list (list nat)) := fold_left (fun r t => let* nb := r in add_neighbors t nb) (tris s) (Ok (repeat [] (length (s_pts s)))).
  (** lines 437-445 *)
  Fixpoint nearest_neighbor (ps : list fpoint) (p : fpoint) (js : list nat) (mindist : D) (mindistj : option nat) : res (option nat) :=
    match js with
    | [] => Ok mindistj
    | j :: js => let* q := vget ps j in let d := dist p q in if lt d mindist then nearest_neighbor ps p js d (Some j) else nearest_neighbor ps p js mindist mindistj
    end.
  (** lines 447-449 *)
  Fixpoint chase (fuel : nat) (parent : list (option nat)) (j : option nat) : res (option nat) :=
    match fuel with
    | O => OutOfFuel
    | S fuel =>
        match j with
        | None => Ok None
        | Some k => let* p := vget parent k in match p with Some k' => if Nat.eqb k' k then Ok (Some k) else chase fuel parent p | None => chase fuel parent p end
        end
    end.
  Definition nearest (s : surface) (nb : list (list nat)) (parent : list (option nat)) (i : nat) : res (option nat) :=
    let* ns := vget nb i in let* p := vget (s_pts s) i in let* j := nearest_neighbor (s_pts s) p ns dmax None in chase (length parent + 3) parent j.
  Fixpoint set_parents (parent : list (option nat)) (ks : list nat) (j : nat) : res (list (option nat)) :=
    match ks with [] => Ok parent | k :: ks => let* parent := vput parent k (Some j) in set_parents parent ks j end.
  Definition state := (list (option nat) * list (list nat))%type.
  (** lines 467-480; if j is i, line 472 inserts children[i] into itself, which the standard leaves undefined: here it changes nothing *)
  Definition discard_step (f : fpoint -> bool) (s : surface) (nb : list (list nat)) (st : state) (i : nat) : res state :=
    let (parent, children) := st in
    let* p := vget (s_pts s) i in
    if f p then
      let* j := nearest s nb parent i in
      match j with
      | Some j =>
          let* cj := vget children j in let* children := vput children j (sins i cj) in
          let* ci := vget children i in let* cj := vget children j in let* children := vput children j (fold_left (fun s x => sins x s) ci cj) in
          let* ci := vget children i in let* parent := set_parents parent ci j in
          let* children := vput children i [] in let* parent := vput parent i (Some j) in Ok (parent, children)
      | None => let* parent := vput parent i None in Ok (parent, children)
      end
    else Ok st.
  Fixpoint discard_loop (f : fpoint -> bool) (s : surface) (nb : list (list nat)) (st : state) (is_ : list nat) : res state :=
    match is_ with [] => Ok st | i :: is_ => let* st := discard_step f s nb st i in discard_loop f s nb st is_ end.
  (** ptsmap, lines 483-491 *)
  Definition survives (parent : list (option nat)) (i : nat) : bool := match nth_error parent i with Some (Some k) => Nat.eqb k i | _ => false end.
  Definition kept (parent : list (option nat)) : list nat := filter (survives parent) (seq 0 (length parent)).
  Fixpoint position (l : list nat) (i : nat) : option nat := match l with [] => None | k :: l => if Nat.eqb k i then Some 0 else option_map S (position l i) end.
  (** lines 493-500 *)
  Definition new_tri (l : list nat) (t : tri) : list tri :=
    let '(a, b, c) := t in match position l a, position l b, position l c with Some a, Some b, Some c => [(a, b, c)] | _, _, _ => [] end.
  Definition discard (f : fpoint -> bool) (s : surface) : res surface :=
    let n := length (s_pts s) in
    let* nb := neighbors s in
    let* (parent, _) := discard_loop f s nb (map Some (seq 0 n), repeat [] n) (seq 0 n) in
    let l := kept parent in
    let* ps := mapM (vget (s_pts s)) l in
    Ok {| s_pts := ps; tris := flat_map (new_tri l) (tris s); quads := quads s; pentagons := pentagons s |}.
End Discard.
