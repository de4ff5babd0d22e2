(** Model of diy serialization (include/ftk/external/diy/serialization.hpp), the string buffer of
    include/ftk/utils/serialization.hh and the ndarray serializer (include/ftk/ndarray.hh:1412-1437).
    Bytes are integers in 0..255. *)
From Verif Require Import Base UnionFind Lattice NdArray.
Local Open Scope Z_scope.

(** [StringBuffer], utils/serialization.hh:16-45 *)
Record sbuf := { str : list Z; pos : nat }.

(** [save_binary], utils/serialization.hh:27-31 *)
Definition save_binary (b : sbuf) (x : list Z) : sbuf :=
  let e := (pos b + length x)%nat in
  let s := if (length (str b) <? e)%nat then str b ++ repeat 0 (e - length (str b)) else str b in
  {| str := firstn (pos b) s ++ x ++ skipn e s; pos := e |}.

(** [load_binary], utils/serialization.hh:37-40; reading past the end of the string is undefined *)
Definition load_binary (b : sbuf) (count : nat) : res (list Z * sbuf) :=
  if (pos b + count <=? length (str b))%nat then
    Ok (firstn count (skipn (pos b) (str b)), {| str := str b; pos := (pos b + count)%nat |})
  else UB.

(** [Serialization<T>]: [save] and [load] into an existing object. *)
Record ser (A : Type) := { sv : A -> sbuf -> sbuf; ld : A -> sbuf -> res (A * sbuf) }.
Arguments sv {A}. Arguments ld {A}.

(** trivially copyable types, serialization.hpp:90-101: [sz] bytes, copied by [enc]/[dec] *)
Definition ser_pod {A} (sz : nat) (enc : A -> list Z) (dec : list Z -> A) : ser A :=
  {| sv := fun x b => save_binary b (enc x);
     ld := fun _ b => let* (l, b') := load_binary b sz in Ok (dec l, b') |}.

(** little-endian unsigned integers of [n] bytes *)
Fixpoint le_enc (n : nat) (x : Z) : list Z :=
  match n with O => [] | S n => x mod 256 :: le_enc n (x / 256) end.
Fixpoint le_dec (l : list Z) : Z := match l with [] => 0 | b :: t => b + 256 * le_dec t end.
Definition ser_size_t : ser Z := ser_pod 8 (le_enc 8) le_dec.
Definition ser_bool : ser bool := ser_pod (A := bool) 1 (fun b : bool => [if b then 1 else 0]) (fun l => match l with x :: _ => negb (x =? 0) | [] => false end).

(** loading the elements of a vector in place, serialization.hpp:156-164 *)
Fixpoint load_elems {A} (S : ser A) (v : list A) (b : sbuf) : res (list A * sbuf) :=
  match v with
  | [] => Ok ([], b)
  | x :: t => let* (y, b1) := ld S x b in let* (ys, b2) := load_elems S t b1 in Ok (y :: ys, b2)
  end.

(** [std::vector<U>], serialization.hpp:192-213.  Trivially copyable elements are written with one
    [save_binary] of the whole block, which leaves the same bytes as one call per element. *)
Definition ser_vec {A} (d0 : A) (S : ser A) : ser (list A) :=
  {| sv := fun v b => fold_left (fun b x => sv S x b) v (sv ser_size_t (Z.of_nat (length v)) b);
     ld := fun v b => let* (n, b1) := ld ser_size_t 0 b in load_elems S (resize d0 v (Z.to_nat n)) b1 |}.

(** [std::pair], serialization.hpp:263-280 *)
Definition ser_pair {A B} (SA : ser A) (SB : ser B) : ser (A * B) :=
  {| sv := fun p b => sv SB (snd p) (sv SA (fst p) b);
     ld := fun p b => let* (x, b1) := ld SA (fst p) b in let* (y, b2) := ld SB (snd p) b1 in Ok ((x, y), b2) |}.

(** [std::map], serialization.hpp:283-306: [m[k]] is created if missing and loaded in place. *)
Fixpoint load_map {K V} `{OrdKey K} (k0 : K) (v0 : V) (SK : ser K) (SV : ser V) (n : nat) (m : list (K * V)) (b : sbuf)
  : res (list (K * V) * sbuf) :=
  match n with
  | O => Ok (m, b)
  | S n =>
      let* (k, b1) := ld SK k0 b in
      let old := match mfind k m with Some v => v | None => v0 end in
      let* (v, b2) := ld SV old b1 in
      load_map k0 v0 SK SV n (mset k v m) b2
  end.
Definition ser_map {K V} `{OrdKey K} (k0 : K) (v0 : V) (SK : ser K) (SV : ser V) : ser (list (K * V)) :=
  {| sv := fun m b => fold_left (fun b kv => sv (ser_pair SK SV) kv b) m (sv ser_size_t (Z.of_nat (length m)) b);
     ld := fun m b => let* (n, b1) := ld ser_size_t 0 b in load_map k0 v0 SK SV (Z.to_nat n) m b1 |}.

(** [std::set], serialization.hpp:309-331 *)
Fixpoint load_set {K} `{OrdKey K} (k0 : K) (SK : ser K) (n : nat) (m : list K) (b : sbuf) : res (list K * sbuf) :=
  match n with
  | O => Ok (m, b)
  | S n => let* (k, b1) := ld SK k0 b in load_set k0 SK n (sins k m) b1
  end.
Definition ser_set {K} `{OrdKey K} (k0 : K) (SK : ser K) : ser (list K) :=
  {| sv := fun m b => fold_left (fun b k => sv SK k b) m (sv ser_size_t (Z.of_nat (length m)) b);
     ld := fun m b => let* (n, b1) := ld ser_size_t 0 b in load_set k0 SK (Z.to_nat n) m b1 |}.

(** [Serialization<ftk::ndarray<T>>], ndarray.hh:1417-1432 *)
Definition ser_nd {A} (d0 : A) (S : ser A) : ser (nd A) :=
  {| sv := fun a b =>
       let b := sv (ser_vec 0 ser_size_t) (dims a) b in
       let b := sv (ser_vec 0 ser_size_t) (strd a) b in
       let b := sv ser_size_t (ncd a) b in
       let b := sv ser_bool (tv a) b in
       sv (ser_vec d0 S) (buf a) b;
     ld := fun a b =>
       let* (ds, b) := ld (ser_vec 0 ser_size_t) (dims a) b in
       let* (ss, b) := ld (ser_vec 0 ser_size_t) (strd a) b in
       let* (c, b) := ld ser_size_t (ncd a) b in
       let* (t, b) := ld ser_bool (tv a) b in
       let* (p, b) := ld (ser_vec d0 S) (buf a) b in
       Ok ({| dims := ds; strd := ss; ncd := c; tv := t; buf := p |}, b) |}.

(** [serializeToString] and [unserializeFromString], utils/serialization.hh:48-53 and 75-80 *)
Definition serialize_to_string {A} (S : ser A) (x : A) : list Z := str (sv S x {| str := []; pos := 0 |}).
Definition unserialize_from_string {A} (S : ser A) (old : A) (s : list Z) : res A :=
  let* (x, _) := ld S old {| str := s; pos := 0 |} in Ok x.

(** saving and loading several objects in sequence *)
Definition save_all {A} (S : ser A) (xs : list A) (b : sbuf) : sbuf := fold_left (fun b x => sv S x b) xs b.
Definition load_all {A} (S : ser A) (olds : list A) (b : sbuf) : res (list A * sbuf) := load_elems S olds b.
