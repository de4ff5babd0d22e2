(** Model of [ftk::simplicial_regular_mesh] (include/ftk/mesh/simplicial_regular_mesh.hh).
    Vertex and corner coordinates are unbounded integers here; [int] arithmetic is modelled where it
    limits the result ([dimprod_], [to_integer], [from_integer]). *)
From Verif Require Import Base UnionFind Lattice NdArray ListOrd Parallel.
Local Open Scope Z_scope.

Definition point := list Z.
Definition simplex := list point.

(** [vertex.insert(vertex.begin() + i, 0)] *)
Definition insert_at (i : nat) (x : Z) (p : point) : point := firstn i p ++ x :: skipn i p.

(** [subdivide_unit_cube(n)] for [n = S m], lines 620-653.  ([n == 0] would recurse for ever.) *)
Fixpoint subdivide (m : nat) : list simplex :=
  match m with
  | O => [[[0]; [1]]]
  | S m' =>
      let results0 := subdivide m' in
      let n := S m in
      flat_map (fun i => map (fun s => map (insert_at i 0) s ++ [repeat 1 n]) results0) (seq 0 n)
  end.

(** [reduce_unit_simplex], lines 655-683: a dimension on which no vertex is 0 goes to the offset. *)
Definition reduce (n : nat) (s : simplex) : simplex * point :=
  let offset := map (fun i => if forallb (fun v => negb (nth i v 0 =? 0)) s then 1 else 0) (seq 0 n) in
  (map (fun v => map (fun xo : Z * Z => if snd xo =? 1 then 0 else fst xo) (combine v offset)) s, offset).

(** [enumerate_unit_simplices(n, k)] with [k = n - c], lines 685-715 *)
Fixpoint enum (n c : nat) : list simplex :=
  match c with
  | O => match n with O => [] | S m => sof (map ksort (subdivide m)) end
  | S c' =>
      sof (flat_map (fun hs => map (fun p => ksort (fst (reduce n (removelast p)))) (perms hs)) (enum n c'))
  end.

(** [unit_simplices[k]] of an [n]-dimensional mesh, [initialize_subdivision] lines 899-901, and [ntypes_] *)
Definition unit_simplices (n k : nat) : list simplex := if (k <=? n)%nat then enum n (n - k) else [].
Definition ntypes (n k : nat) : nat := length (unit_simplices n k).

(** indices of the occurrences of [s] in [l] (the linear search of lines 781-787) *)
Fixpoint positions (s : simplex) (l : list simplex) (i : nat) : list nat :=
  match l with
  | [] => []
  | x :: t => if keqb s x then i :: positions s t (S i) else positions s t (S i)
  end.

(** [enumerate_unit_simplex_sides(k, type)], lines 760-797 *)
Definition unit_sides (n k type : nat) : res (list (nat * point)) :=
  match k with
  | O => Ok []
  | S k' =>
      let* s := vget (unit_simplices n k) type in
      Ok (sof (flat_map (fun p =>
                 let (r, off) := reduce n (removelast p) in
                 map (fun ty => (ty, off)) (positions (ksort r) (unit_simplices n k') 0)) (perms s)))
  end.

(** [std::includes] on sorted ranges *)
Definition includes (l1 l2 : list point) : bool :=
  match l2 with
  | [] => true
  | y :: t2 =>
      (fix go (l1 : list point) (t2 : list point) (y : point) {struct l1} : bool :=
         match l1 with
         | [] => false
         | x :: t1 => match kcmp y x with
                      | Lt => false
                      | Eq => match t2 with [] => true | y' :: t2' => go t1 t2' y' end
                      | Gt => go t1 t2 y
                      end
         end) l1 t2 y
  end.

(** [simplicial_regular_mesh_element]: [corner], [dim], [type], lines 98-99 *)
Record element := { corner : point; edim : nat; etype : nat }.

Definition padd (a b : point) : point := map (fun xy => fst xy + snd xy) (combine a b).

(** [vertices(m)], lines 373-386 *)
Definition vertices (n : nat) (e : element) : res simplex :=
  let* s := vget (unit_simplices n (edim e)) (etype e) in Ok (map (padd (corner e)) s).

(** all corners [{-1,0,1}^n] *)
Fixpoint corners3 (n : nat) : list point :=
  match n with O => [[]] | S n => flat_map (fun c => map (cons c) (corners3 n)) [-1; 0; 1] end.

(** [enumerate_unit_simplex_side_of(k, type)], lines 717-758.  The odometer loop visits every type and
    every corner in [{-1,0,1}^n]; it is modelled by the list of all of them (results go to a set). *)
Fixpoint filterM {X} (f : X -> res bool) (l : list X) : res (list X) :=
  match l with
  | [] => Ok []
  | x :: t => let* b := f x in let* r := filterM f t in Ok (if b then x :: r else r)
  end.
Definition unit_side_of (n k type : nat) : res (list (nat * point)) :=
  if (k =? n)%nat then Ok []
  else
    let* vs := vertices n {| corner := repeat 0 n; edim := k; etype := type |} in
    let* r := filterM (fun tc : nat * point =>
                 let* us := vertices n {| corner := snd tc; edim := S k; etype := fst tc |} in
                 Ok (includes us vs))
               (list_prod (seq 0 (ntypes n (S k))) (corners3 n)) in
    Ok (sof r).

(** [sides(m)] lines 571-585 and [side_of(m)] lines 587-601 *)
Definition sides (n : nat) (e : element) : res (list element) :=
  let* us := unit_sides n (edim e) (etype e) in
  Ok (map (fun to => {| corner := padd (corner e) (snd to); edim := edim e - 1; etype := fst to |}) us).
Definition side_of (n : nat) (e : element) : res (list element) :=
  let* us := unit_side_of n (edim e) (etype e) in
  Ok (map (fun to => {| corner := padd (corner e) (snd to); edim := S (edim e); etype := fst to |}) us).

(** [valid(m)], lines 356-372; [lb]/[ub] as in [set_lb_ub] *)
Definition valid (n : nat) (lb ub : point) (e : element) : res bool :=
  if (etype e <? ntypes n (edim e))%nat then
    let* vs := vertices n e in
    Ok (forallb (fun v => forallb (fun i => (nth i lb 0 <=? nth i v 0) && (nth i v 0 <=? nth i ub 0)) (seq 0 n)) vs)
  else Ok false.

(** ordinal and interval types, [derive_ordinal_and_interval_simplices] lines 799-832 *)
Definition is_ordinal_type (n d t : nat) : res bool :=
  match d with
  | O => Ok true
  | _ => let* s := vget (unit_simplices n d) t in
         Ok (fold_left (fun time v => time + nth (n - 1) v 0) s 0 =? 0)
  end.
Inductive scope := ScopeAll | ScopeOrdinal | ScopeInterval.
Definition scope_types (n d : nat) (sc : scope) : res (list nat) :=
  match sc with
  | ScopeAll => Ok (seq 0 (ntypes n d))
  | ScopeOrdinal => match d with O => Ok [O] | _ => filterM (is_ordinal_type n d) (seq 0 (ntypes n d)) end
  | ScopeInterval => match d with O => Ok [] | _ => filterM (fun t => let* b := is_ordinal_type n d t in Ok (negb b)) (seq 0 (ntypes n d)) end
  end.

(** [from_work_index], lines 480-493; [ntypes(dim, scope)] is the length of the type list *)
Definition from_work_index (n d : nat) (l : lattice) (sc : scope) (i : Z) : res element :=
  let* tys := scope_types n d sc in
  let nt := Z.of_nat (length tys) in
  if nt =? 0 then UB
  else
    let* ty := zget tys (i mod nt) in
    Ok {| corner := from_integer l (i / nt); edim := d; etype := ty |}.

(** [element_for(d, l, scope, f, ...)], lines 1030-1046: [l.n() * ntypes(d, scope)] tasks
    (converted to [int] by [parallel_for]), each builds its element and calls [f]. *)
Definition element_for_ntasks (n d : nat) (l : lattice) (sc : scope) : res Z :=
  let* tys := scope_types n d sc in
  let* v := lat_n l in
  Ok (i32 (u64 (v * Z.of_nat (length tys)))).
Definition element_for (fuel : nat) (n d : nat) (l : lattice) (sc : scope) (nthreads : Z)
  : res (list (list ev)) :=
  let* nt := element_for_ntasks n d l sc in parallel_for fuel nt nthreads.

(** [element_for_ordinal]/[element_for_interval], lines 999-1028: the mesh lattice restricted to one
    time step *)
Definition time_slab (l : lattice) (t : Z) : lattice := removelast l ++ [(t, 1)].

(** [dimprod_], [set_lb_ub] lines 943-946: [int] products *)
Fixpoint dimprods (p : Z) (lb ub : point) : res (list Z) :=
  match lb, ub with
  | [], [] => Ok [p]
  | l :: lb, u :: ub =>
      let* a := chk (u - l) in let* a := chk (a + 1) in let* q := chk (a * p) in
      let* r := dimprods q lb ub in Ok (p :: r)
  | _, _ => UB
  end.

(** [n(d)], lines 986-989 *)
Definition mesh_n (n : nat) (lb ub : point) (d : nat) : res Z :=
  let* dp := dimprods 1 lb ub in
  Ok (u64 (Z.of_nat (ntypes n d) * u64 (last dp 0))).

(** [to_integer<uint64_t>], lines 495-502: [int] products added to an unsigned 64-bit sum *)
Fixpoint corner_index (cs lb dp : list Z) (acc : Z) : res Z :=
  match cs, lb, dp with
  | [], [], _ => Ok acc
  | c :: cs, l :: lb, p :: dp =>
      let* a := chk (c - l) in let* b := chk (a * p) in corner_index cs lb dp (u64 (acc + b))
  | _, _, _ => UB
  end.
Definition el_to_integer (n : nat) (lb ub : point) (e : element) : res Z :=
  let* dp := dimprods 1 lb ub in
  let* ci := corner_index (corner e) lb dp 0 in
  Ok (u64 (u64 (ci * Z.of_nat (ntypes n (edim e))) + Z.of_nat (etype e))).

(** [from_integer<uint64_t>], lines 504-516: from the last dimension down to the first, then [+= lb] *)
Fixpoint corner_of_index (lb dp : list Z) (i : Z) : res (point * Z) :=
  match lb, dp with
  | [], _ => Ok ([], i)
  | l :: lb, p :: dp =>
      let* (cs, i1) := corner_of_index lb dp i in
      if p =? 0 then UB
      else
        let c := i32 (i1 / p) in
        let* q := chk (c * p) in
        let* c' := chk (c + l) in
        Ok (c' :: cs, u64 (i1 - q))
  | _, _ => UB
  end.
Definition el_from_integer (n : nat) (lb ub : point) (d : nat) (i : Z) : res element :=
  let* dp := dimprods 1 lb ub in
  let nt := Z.of_nat (ntypes n d) in
  if nt =? 0 then UB
  else
    let* (cs, _) := corner_of_index lb dp (i / nt) in
    Ok {| corner := cs; edim := d; etype := Z.to_nat (i mod nt) |}.

