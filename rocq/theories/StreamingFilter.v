(** Model of streaming_filter (include/ftk/filters/streaming_filter.hh) with T = ndarray: arrays of one type with [plus] (operator+=) and [scale]
    (operator* with a kernel weight), arbitrary operations here.  [T result] is an empty array: [result += x] makes it [x] (ndarray.hh:344).  With a
    scalar T the result is not initialised; this is not modelled.  A callback is set.  Sizes are small enough for [int]. *)
From Verif Require Import Base UnionFind.
Local Open Scope Z_scope. Local Open Scope list_scope.

Section Filter.
  Context {T K : Type} (plus : T -> T -> T) (scale : K -> T -> T).
  (** members data, cursor, finishing, n_fetched_timesteps (lines 33-39), and the calls of the callback so far *)
  Record sf := mksf { kernel : list K; data : list T; cursor : Z; finishing : bool; fetched : Z; calls : list (Z * T) }.
  (** lines 13, 33-39 after set_kernel (lines 44-49) *)
  Definition sf_new (k : list K) : sf := mksf k [] 0 false 0 [].
  (** lines 22-23 *)
  Definition kernel_size (s : sf) : Z := Z.of_nat (length (kernel s)).
  Definition half_kernel_size (s : sf) : Z := (kernel_size s + 1) / 2.
  (** line 29 *)
  Definition ready (s : sf) : bool := half_kernel_size s <=? Z.of_nat (length (data s)).
  (** the index of the frame for weight [i], lines 77-80 *)
  Definition index (s : sf) (i : Z) : Z :=
    if finishing s then Z.min (Z.of_nat (length (data s)) - 1) i else Z.max 0 (i + cursor s - half_kernel_size s + 1).
  (** the loop of get(), lines 75-83 *)
  Fixpoint accumulate (s : sf) (i : Z) (ks : list K) (result : option T) : res (option T) :=
    match ks with
    | [] => Ok result
    | k :: ks =>
        let j := index s i in
        let* x := (if j <? 0 then UB else vget (data s) (Z.to_nat j)) in
        accumulate s (i + 1) ks (Some (match result with None => scale k x | Some r => plus r (scale k x) end))
    end.
  (** get() and the call of the callback, lines 68-90 and 62-65 *)
  Definition emit (s : sf) : res sf :=
    let* r := accumulate s 0 (kernel s) None in
    let* r := of_option r in
    Ok (mksf (kernel s) (data s) (if finishing s then cursor s - 1 else cursor s + 1) (finishing s) (fetched s + 1) (calls s ++ [(fetched s, r)])).
  (** push(), lines 51-66 *)
  Definition sf_push (s : sf) (d : T) : res sf :=
    let data' := data s ++ [d] in
    let s := if (length (kernel s) <? length data')%nat
             then mksf (kernel s) (tl data') (cursor s - 1) (finishing s) (fetched s) (calls s)
             else mksf (kernel s) data' (cursor s) (finishing s) (fetched s) (calls s) in
    if ready s then emit s else Ok s.
  (** the loop of finish(), lines 96-102; pop_front() of an empty deque is undefined *)
  Fixpoint drain (fuel : nat) (s : sf) : res sf :=
    match fuel with
    | O => OutOfFuel
    | S fuel =>
        match data s with
        | [] => UB
        | _ :: d =>
            let s := mksf (kernel s) d (cursor s) (finishing s) (fetched s) (calls s) in
            let* s := (if ready s then emit s else Ok s) in
            if negb (ready s) then Ok s else drain fuel s
        end
    end.
  (** finish(), lines 92-103 *)
  Definition sf_finish (s : sf) : res sf := drain (S (length (data s))) (mksf (kernel s) (data s) (cursor s) true (fetched s) (calls s)).
  Fixpoint push_all (s : sf) (xs : list T) : res sf := match xs with [] => Ok s | x :: xs => let* s := sf_push s x in push_all s xs end.
  Definition filter_all (k : list K) (xs : list T) : res (list (Z * T)) := let* s := push_all (sf_new k) xs in let* s := sf_finish s in Ok (calls s).
End Filter.
