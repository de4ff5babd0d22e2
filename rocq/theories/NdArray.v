(** Model of [ftk::ndarray] (include/ftk/ndarray.hh) and [ftk::ndarray_base]
    (include/ftk/ndarray/ndarray_base.hh). *)
From Verif Require Import Base UnionFind Lattice.
Local Open Scope Z_scope.

(** [p[i]] and [p[i] = v] with a [size_t] index. *)
Definition zget {A} (l : list A) (i : Z) : res A := if 0 <=? i then vget l (Z.to_nat i) else UB.
Definition zput {A} (l : list A) (i : Z) (v : A) : res (list A) := if 0 <=? i then vput l (Z.to_nat i) v else UB.

(** [0, 1, ..., n-1]: the index sequence of a counting loop. *)
Definition zseq (n : Z) : list Z := map Z.of_nat (seq 0 (Z.to_nat n)).

(** A counting loop whose body is [dst[k(i)] = src(i)]. *)
Fixpoint copy_loop {A I} (is : list I) (dst : I -> res Z) (src : I -> res A) (p : list A) : res (list A) :=
  match is with
  | [] => Ok p
  | i :: t =>
      let* v := src i in
      let* k := dst i in
      let* p' := zput p k v in
      copy_loop t dst src p'
  end.

Section Nd.
  (** [d0] is the value-initialised element. *)
  Context {A : Type} (d0 : A).

  (** Data members: ndarray_base.hh:180-183 ([dims], [s], [ncd], [tv]), ndarray.hh:300 ([p]). *)
  Record nd := { dims : list Z; strd : list Z; ncd : Z; tv : bool; buf : list A }.

  (** default constructor, ndarray.hh:36 *)
  Definition nd_empty : nd := {| dims := []; strd := []; ncd := 0; tv := false; buf := [] |}.

  (** strides: the loop at ndarray.hh:731-733 *)
  Fixpoint strides_from (s : Z) (ds : list Z) : list Z :=
    match ds with [] => [] | d :: t => s :: strides_from (u64 (s * d)) t end.

  (** [std::vector::resize] *)
  Definition resize (p : list A) (n : nat) : list A := firstn n p ++ repeat d0 (n - length p).

  (** [reshape(dims)], ndarray.hh:724-736.  An empty shape ends in [fatal] (process exit), which the
      model reports as [UB]. *)
  Definition reshape (a : nd) (ds : list Z) : res nd :=
    match ds with
    | [] => UB
    | _ => let s := strides_from 1 ds in
           Ok {| dims := ds; strd := s; ncd := ncd a; tv := tv a;
                 buf := resize (buf a) (Z.to_nat (u64 (last s 0 * last ds 0))) |}
    end.

  (** [reshape(dims, val)], ndarray.hh:739-743 *)
  Definition reshape_fill (a : nd) (ds : list Z) (v : A) : res nd :=
    let* b := reshape a ds in
    Ok {| dims := dims b; strd := strd b; ncd := ncd b; tv := tv b; buf := map (fun _ => v) (buf b) |}.

  (** [index(idx)], ndarray_base.hh:222-234: [for j = 1; j < nd()] over the strides. *)
  Fixpoint index_loop (ss idx : list Z) (i : Z) : res Z :=
    match ss with
    | [] => Ok i
    | s :: ss => match idx with [] => UB | x :: idx => index_loop ss idx (u64 (i + u64 (x * s))) end
    end.
  Definition index (a : nd) (idx : list Z) : res Z :=
    match idx with [] => UB | i0 :: t => index_loop (tl (strd a)) t i0 end.

  (** The variadic forms [p[i0+i1*s[1]+...]], ndarray.hh:104-118 and 128-147: one term per argument. *)
  Fixpoint index_var_loop (args ss : list Z) (i : Z) : res Z :=
    match args with
    | [] => Ok i
    | x :: args => match ss with [] => UB | s :: ss => index_var_loop args ss (u64 (i + u64 (x * s))) end
    end.
  Definition index_var (a : nd) (args : list Z) : res Z :=
    match args with [] => UB | i0 :: t => index_var_loop t (tl (strd a)) i0 end.

  (** [at(idx)] (ndarray.hh:94-95), and assignment through the returned reference *)
  Definition at_ (a : nd) (idx : list Z) : res A := let* i := index a idx in zget (buf a) i.
  Definition at_var (a : nd) (args : list Z) : res A := let* i := index_var a args in zget (buf a) i.
  Definition with_buf (a : nd) (p : list A) : nd :=
    {| dims := dims a; strd := strd a; ncd := ncd a; tv := tv a; buf := p |}.
  Definition put (a : nd) (idx : list Z) (v : A) : res nd :=
    let* i := index a idx in let* p := zput (buf a) i v in Ok (with_buf a p).
  Definition put_var (a : nd) (args : list Z) (v : A) : res nd :=
    let* i := index_var a args in let* p := zput (buf a) i v in Ok (with_buf a p).

  (** [nelem()], ndarray_base.hh:79: [std::accumulate] with an [int] accumulator. *)
  Definition nelem (a : nd) : Z :=
    match buf a with
    | [] => 0
    | _ => u64 (fold_left (fun acc d => i32 (u64 (u64 acc * d))) (dims a) 1)
    end.

  (** [slice(lattice)], ndarray.hh:1020-1029; [l.from_integer] yields [int]s which [index] converts
      to [size_t]. *)
  Definition slice (a : nd) (l : lattice) : res nd :=
    let* b := reshape nd_empty (map snd l) in
    let* n := lat_n l in
    let* p := copy_loop (zseq n) (fun i => Ok i) (fun i => at_ a (map u64 (from_integer l i))) (buf b) in
    Ok (with_buf b p).

  (** [memcpy(&dst[0], &src[from], n * sizeof(T))] *)
  Definition memcpy (dst src : list A) (from n : Z) : res (list A) :=
    if (0 <=? from) && (0 <=? n) && (from + n <=? Z.of_nat (length src)) && (n <=? Z.of_nat (length dst)) then
      Ok (firstn (Z.to_nat n) (skipn (Z.to_nat from) src) ++ skipn (Z.to_nat n) dst)
    else UB.

  (** [slice_time(t)], ndarray.hh:1037-1047 *)
  Definition slice_time (a : nd) (t : Z) : res nd :=
    let* b := reshape nd_empty (removelast (dims a)) in
    let s := last (strd a) 0 in
    let* p := memcpy (buf b) (buf a) (u64 (t * s)) s in
    Ok (with_buf b p).

  Fixpoint mapM {X Y} (f : X -> res Y) (l : list X) : res (list Y) :=
    match l with [] => Ok [] | x :: t => let* y := f x in let* ys := mapM f t in Ok (y :: ys) end.

  (** [slice_time()], ndarray.hh:1050-1058 *)
  Definition slice_time_all (a : nd) : res (list nd) :=
    match dims a with
    | [] => UB
    | _ => mapM (slice_time a) (zseq (last (dims a) 0))
    end.

  (** [arrays[j][i]] *)
  Definition elem2 (arrays : list nd) (j i : Z) : res A := let* a := zget arrays j in zget (buf a) i.

  (** [concat], ndarray.hh:1156-1171 *)
  Definition concat_nd (arrays : list nd) : res nd :=
    let* a0 := zget arrays 0 in
    let n1 := Z.of_nat (length arrays) in
    let* b := reshape nd_empty (n1 :: dims a0) in
    let* p := copy_loop (list_prod (zseq (nelem a0)) (zseq n1))
                (fun ij => Ok (u64 (u64 (fst ij * n1) + snd ij))) (fun ij => elem2 arrays (snd ij) (fst ij)) (buf b) in
    Ok (with_buf b p).

  (** [stack], ndarray.hh:1174-1189 *)
  Definition stack (arrays : list nd) : res nd :=
    let* a0 := zget arrays 0 in
    let n1 := Z.of_nat (length arrays) in
    let* b := reshape nd_empty (dims a0 ++ [n1]) in
    let n := nelem a0 in
    let* p := copy_loop (list_prod (zseq n1) (zseq n))
                (fun ji => Ok (u64 (snd ji + u64 (fst ji * n)))) (fun ji => elem2 arrays (fst ji) (snd ji)) (buf b) in
    Ok (with_buf b p).

  (** All multi-indices in the order of nested loops, first index outermost. *)
  Fixpoint all_idx (ds : list Z) : list (list Z) :=
    match ds with
    | [] => [[]]
    | d :: t => flat_map (fun i => map (cons i) (all_idx t)) (zseq d)
    end.

  (** [get_transpose()], ndarray.hh:1123-1153: nested loops for 2, 3 and 4 dimensions, [fatal]
      otherwise. *)
  Definition get_transpose (a : nd) : res nd :=
    if existsb (Nat.eqb (length (dims a))) [2; 3; 4]%nat then
      let* b := reshape nd_empty (rev (dims a)) in
      let* p := copy_loop (all_idx (dims a)) (fun idx => index_var b (rev idx)) (fun idx => at_var a idx) (buf b) in
      Ok (with_buf b p)
    else UB.

  (** [min_max()], ndarray.hh:746-757.  [tmax]/[tmin] are [numeric_limits<T>::max()] and
      [numeric_limits<T>::min()]; [std::min(a,b)] is [b < a ? b : a], [std::max(a,b)] is [a < b ? b : a]. *)
  Context `{OrdKey A}.
  Definition std_min (a b : A) : A := if kltb b a then b else a.
  Definition std_max (a b : A) : A := if kltb a b then b else a.
  Fixpoint min_max_loop (is : list Z) (p : list A) (mn mx : A) : res (A * A) :=
    match is with
    | [] => Ok (mn, mx)
    | i :: t => let* v := zget p i in min_max_loop t p (std_min mn v) (std_max mx v)
    end.
  Definition min_max (tmin tmax : A) (a : nd) : res (A * A) :=
    min_max_loop (zseq (nelem a)) (buf a) tmax tmin.
End Nd.
Arguments nd A : clear implicits.
