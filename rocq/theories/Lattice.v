(** Model of [ftk::lattice] (include/ftk/mesh/lattice.hh) and [ftk::lattice_partitioner]
    (include/ftk/mesh/lattice_partitioner.hh). *)
From Verif Require Import Base UnionFind.
Local Open Scope Z_scope.

(** Machine integers: [size_t]/[uint64_t] wrap modulo 2^64; conversion to [int] keeps the low 32 bits. *)
Definition u64 (x : Z) : Z := x mod 2 ^ 64.
Definition i32 (x : Z) : Z := (x + 2 ^ 31) mod 2 ^ 32 - 2 ^ 31.

(** A lattice is the list of (start, size) per dimension: [starts_] and [sizes_] (lattice.hh:67)
    zipped; [prod_] (lattice.hh:68, filled by [reshape], lines 156-167) is recomputed. *)
Definition lattice := list (Z * Z).

(** [prod_] as computed by [reshape], lattice.hh:162-166. *)
Fixpoint prods_from (p : Z) (l : lattice) : list Z :=
  match l with
  | [] => []
  | (_, n) :: t => p :: prods_from (u64 (p * n)) t
  end.
Definition prods (l : lattice) : list Z := prods_from 1 l.

(** [n()], lattice.hh:38. [nd() == 0] would index [prod_[-1]]. *)
Definition lat_n (l : lattice) : res Z :=
  match l with
  | [] => UB
  | _ => Ok (u64 (last (prods l) 0 * snd (last l (0, 0))))
  end.

(** [contains], lattice.hh:148-154; [x[i]] with [i >= x.size()] is undefined, so the model asks for
    one coordinate per dimension. *)
Fixpoint contains (l : lattice) (x : list Z) : bool :=
  match l, x with
  | [], [] => true
  | (s, n) :: t, c :: xs => (s <=? c) && (c <? s + n) && contains t xs
  | _, _ => false
  end.

(** [to_integer], lattice.hh:197-207 ([prod_[0] = 1]). *)
Fixpoint to_integer_loop (l : lattice) (ps : list Z) (x : list Z) : Z :=
  match l, ps, x with
  | (s, _) :: t, p :: ps, c :: xs => u64 (u64 (i32 (c - s) * p) + to_integer_loop t ps xs)
  | _, _, _ => 0
  end.
Definition to_integer (l : lattice) (x : list Z) : Z := to_integer_loop l (prods l) x.

(** [from_integer], lattice.hh:210-223: dimensions are peeled from the highest to the lowest; the
    result is (coordinates, what is left of [i]). *)
Fixpoint from_integer_loop (l : lattice) (ps : list Z) (i : Z) : list Z * Z :=
  match l, ps with
  | (s, _) :: t, p :: ps =>
      let (cs, i1) := from_integer_loop t ps i in
      let c := i32 (i1 / p) in
      (i32 (c + s) :: cs, u64 (i1 - u64 (c * p)))
  | _, _ => ([], i)
  end.
Definition from_integer (l : lattice) (i : Z) : list Z := fst (from_integer_loop l (prods l) i).

(** [unlimited_time], lattice.hh:59, and [nd_cuttable], lattice.hh:32. *)
Definition unlimited_time (l : lattice) : bool := (snd (last l (0, 0)) =? 2 ^ 31 - 1).
Definition nd_cuttable (l : lattice) : nat := if unlimited_time l then (length l - 1)%nat else length l.

(** ** lattice_partitioner *)

(** [while (n % i == 0)] loops of [prime_factorization], lattice_partitioner.hh:54-57 and 60-63;
    [factors] is kept reversed, which is what line 70 returns. *)
Fixpoint divide_out (fuel : nat) (i n : Z) (factors : list Z) : res (Z * list Z) :=
  match fuel with
  | O => OutOfFuel
  | S f => if n mod i =? 0 then divide_out f i (n / i) (i :: factors) else Ok (n, factors)
  end.

(** [for (int i = 3; i <= sqrt(n); i += 2)], lines 59-64.  [i <= sqrt(n)] is modelled as [i*i <= n]
    (exact square root). *)
Fixpoint odd_loop (fuel : nat) (i n : Z) (factors : list Z) : res (Z * list Z) :=
  match fuel with
  | O => OutOfFuel
  | S f =>
      if i * i <=? n then
        let* (n', fs) := divide_out f i n factors in
        odd_loop f (i + 2) n' fs
      else Ok (n, factors)
  end.

(** [prime_factorization], lines 51-72. *)
Definition prime_factorization (fuel : nat) (n : Z) : res (list Z) :=
  let* (n1, f1) := divide_out fuel 2 n [] in
  let* (n2, f2) := odd_loop fuel 3 n1 f1 in
  Ok (if 1 <? n2 then n2 :: f2 else f2).

(** [is_vector_zero], lines 74-80. *)
Definition is_vector_zero (v : list Z) : bool :=
  match v with [] => true | [z] => z =? 0 | _ => false end.

(** Lines 119-129: divide [np] by the given cuts; [None] = refused (the early [return]). *)
Fixpoint given_loop (given : list Z) (np : Z) (has_zero : bool) : option (Z * bool) :=
  match given with
  | [] => Some (np, has_zero)
  | g :: t => if g =? 0 then given_loop t np true
              else if np mod g =? 0 then given_loop t (np / g) has_zero else None
  end.

(** Lines 135-141: the factors of the given dimensions. *)
Fixpoint given_factors (fuel : nat) (i : nat) (given : list Z) (pfd : list (list Z)) : res (list (list Z)) :=
  match given with
  | [] => Ok pfd
  | g :: t =>
      let* pfd' := (if 1 <? g then let* fs := prime_factorization fuel g in vput pfd i fs else Ok pfd) in
      given_factors fuel (S i) t pfd'
  end.

(** Lines 150-152: skip given dimensions. *)
Fixpoint skip_given (fuel : nat) (given : list Z) (ndim curr : nat) : res nat :=
  match fuel with
  | O => OutOfFuel
  | S f =>
      if is_vector_zero given then Ok curr
      else
        let* g := vget given curr in
        if g =? 0 then Ok curr
        else match ndim with O => UB | _ => skip_given f given ndim ((curr + 1) mod ndim) end
  end.

(** Lines 149-155: distribute the remaining factors round-robin. *)
Fixpoint distribute (fuel : nat) (given : list Z) (ndim : nat) (primes : list Z) (curr : nat)
    (pfd : list (list Z)) : res (list (list Z)) :=
  match primes with
  | [] => Ok pfd
  | p :: t =>
      let* c := skip_given fuel given ndim curr in
      let* old := vget pfd c in
      let* pfd' := vput pfd c (old ++ [p]) in
      match ndim with O => UB | _ => distribute fuel given ndim t ((c + 1) mod ndim) pfd' end
  end.

(** Lines 217-228: cut one block along [curr] into [nslice] slices of [ns], the last one taking
    the remainder. *)
Fixpoint slices (k : nat) (p : lattice) (curr : nat) (st ns rest : Z) : list lattice :=
  match k with
  | O => [vset p curr (st, rest)]
  | S k => vset p curr (st, ns) :: slices k p curr (st + ns) ns rest
  end.
Definition cut (p : lattice) (curr : nat) (nslice : Z) : res (option (list lattice)) :=
  let* (st, sz) := vget p curr in
  if sz <? nslice then Ok None      (* line 214: refused *)
  else let ns := sz / nslice in
       Ok (Some (slices (Z.to_nat (nslice - 1)) p curr st ns (sz - ns * (nslice - 1)))).

(** Lines 209-231: one pass over the queue for one factor. *)
Fixpoint cut_queue (n : nat) (q : list lattice) (curr : nat) (nslice : Z) : res (option (list lattice)) :=
  match n with
  | O => Ok (Some q)
  | S n' =>
      match q with
      | [] => UB
      | p :: rest =>
          let* o := cut p curr nslice in
          match o with
          | None => Ok None
          | Some bs => cut_queue n' (rest ++ bs) curr nslice
          end
      end
  end.

Fixpoint cut_factors (q : list lattice) (curr : nat) (fs : list Z) : res (option (list lattice)) :=
  match fs with
  | [] => Ok (Some q)
  | f :: t =>
      let* o := cut_queue (length q) q curr f in
      match o with None => Ok None | Some q' => cut_factors q' curr t end
  end.

(** Lines 207-233. *)
Fixpoint cut_dims (q : list lattice) (curr : nat) (pfd : list (list Z)) : res (option (list lattice)) :=
  match pfd with
  | [] => Ok (Some q)
  | fs :: t =>
      let* o := cut_factors q curr fs in
      match o with None => Ok None | Some q' => cut_dims q' (S curr) t end
  end.

(** [add_ghost], lines 308-341, unsigned arithmetic. *)
Fixpoint ghost_loop (n d : nat) (l b : lattice) (gl gh : list Z) : res lattice :=
  match n with
  | O => Ok b
  | S n' =>
      let* (ls, lz) := vget l d in
      let* (s, z) := vget b d in
      let* lo := vget gl d in
      let* hi := vget gh d in
      let off := u64 (s - ls) in
      let off := if lo <? off then lo else off in
      let s' := u64 (s - off) in
      let z' := u64 (z + off) in
      let off2 := u64 (u64 (ls + lz) - u64 (s' + z')) in
      let off2 := if hi <? off2 then hi else off2 in
      let z'' := u64 (z' + off2) in
      ghost_loop n' (S d) l (vset b d (s', z'')) gl gh
  end.
Definition add_ghost (l b : lattice) (gl gh : list Z) : res lattice :=
  match gl, gh with
  | [], _ | _, [] => Ok b
  | _, _ => ghost_loop (nd_cuttable l) 0 l b gl gh
  end.

Fixpoint ghosts (l : lattice) (cores : list lattice) (gl gh : list Z) : res (list lattice) :=
  match cores with
  | [] => Ok []
  | c :: t => let* e := add_ghost l c gl gh in let* es := ghosts l t gl gh in Ok (e :: es)
  end.

(** [partition(np, given, ghost_low, ghost_high)], lines 97-196, on a fresh partitioner.  The result
    is (cores, extents); a refused request leaves both empty. *)
Definition partition (fuel : nat) (l : lattice) (np : Z) (given gl gh : list Z) : res (list lattice * list lattice) :=
  if np <=? 0 then Ok ([], [])
  else
    let ndim := nd_cuttable l in
    let pfd0 := repeat [] ndim in
    let* o :=
      (if is_vector_zero given then Ok (Some (np, pfd0))
       else match given_loop given np false with
            | None => Ok None
            | Some (np', has_zero) =>
                if negb has_zero && (1 <? np') then Ok None
                else let* pfd := given_factors fuel 0 given pfd0 in Ok (Some (np', pfd))
            end) in
    match o with
    | None => Ok ([], [])
    | Some (np', pfd) =>
        let* pfd' := (if 1 <? np' then
                        let* fs := prime_factorization fuel np' in distribute fuel given ndim fs 0 pfd
                      else Ok pfd) in
        let* q := cut_dims [l] 0 pfd' in
        match q with
        | None => Ok ([], [])
        | Some cores => let* es := ghosts l cores gl gh in Ok (cores, es)
        end
    end.
