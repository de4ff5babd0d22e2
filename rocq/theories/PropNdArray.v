(** C10-C15: ndarray.  Statements only; proofs in [NdArrayProofs], [NdArrayProofs2], [SerialProofs]. *)
From Verif Require Import Base UnionFind Lattice LatticeSpec NdArray NdArraySpec NdArrayProofs NdArrayProofs2 Serial SerialSpec SerialProofs.
Local Open Scope Z_scope.

(** C10: after [reshape(ds)] every in-range multi-index addresses its column-major position inside
    the buffer, through the vector form and the variadic form alike; a write is read back and
    changes no other element (so distinct indices address distinct positions). *)
Theorem C10_addressing : forall (A : Type) (d0 : A) (a : nd A) ds,
  ds <> [] -> Forall (fun d => 0 <= d) ds -> numel ds < 2 ^ 64 ->
  exists b, reshape d0 a ds = Ok b /\ dims b = ds /\ Z.of_nat (length (buf b)) = numel ds /\
    forall idx, in_range ds idx ->
      index b idx = Ok (lin ds idx) /\ index_var b idx = Ok (lin ds idx) /\
      0 <= lin ds idx < Z.of_nat (length (buf b)) /\
      (exists v, at_ b idx = Ok v /\ at_var b idx = Ok v) /\
      forall x, exists b', put b idx x = Ok b' /\ put_var b idx x = Ok b' /\ dims b' = ds /\
        at_ b' idx = Ok x /\
        forall idx', in_range ds idx' -> idx' <> idx -> at_ b' idx' = at_ b idx'.
Proof. exact @reshape_addressing_lemma. Qed.
Print Assumptions C10_addressing.

Definition arr234 : nd Z := {| dims := [2; 3; 4]; strd := [1; 2; 6]; ncd := 0; tv := false; buf := zseq 24 |}.
Lemma arr234_wf : nd_wf arr234.
Proof. unfold nd_wf. repeat split; try reflexivity; [discriminate|repeat constructor; lia]. Qed.
Example C10_nonvacuous : in_range [2; 3; 4] [1; 2; 3] /\ index arr234 [1; 0; 3] = Ok 19 /\ at_ arr234 [1; 2; 3] = Ok 23 /\
  exists b, reshape 0 arr234 [5; 2] = Ok b /\ buf b = zseq 10.
Proof. split; [repeat constructor; lia|]. split; [reflexivity|]. split; [reflexivity|]. eexists. split; [vm_compute; reflexivity|]. vm_compute; reflexivity. Qed.

(** C11: [slice] copies exactly the requested box. *)
Theorem C11_slice : forall (A : Type) (d0 : A) (a : nd A) (l : lattice),
  nd_wf a -> l <> [] -> lat_ok l = true -> volume l < 2 ^ 31 -> length l = length (dims a) ->
  (forall d s z m, nth_error l d = Some (s, z) -> nth_error (dims a) d = Some m -> s + z <= m) ->
  exists b, slice d0 a l = Ok b /\ nd_wf b /\ dims b = map snd l /\
    forall k, in_range (map snd l) k ->
      exists v, at_ b k = Ok v /\ at_ a (addv (map fst l) k) = Ok v.
Proof. exact @slice_lemma. Qed.
Print Assumptions C11_slice.

Example C11_nonvacuous : nd_wf arr234 /\ lat_ok [(1, 1); (1, 2); (0, 3)] = true /\
  exists b, slice 0 arr234 [(1, 1); (1, 2); (0, 3)] = Ok b /\ buf b = [3; 5; 9; 11; 15; 17].
Proof. split; [exact arr234_wf|]. split; [reflexivity|]. eexists. split; [vm_compute; reflexivity|]. vm_compute; reflexivity. Qed.

(** C12: slicing a stack returns the stacked arrays; stacking all slices returns the array;
    [concat] interleaves components. *)
Theorem C12_stack_then_slice_time : forall (A : Type) (d0 : A) (arrays : list (nd A)) ds,
  arrays <> [] -> same_shape ds arrays -> numel ds * Z.of_nat (length arrays) < 2 ^ 31 -> numel ds < 2 ^ 31 ->
  exists b, stack d0 arrays = Ok b /\ dims b = ds ++ [Z.of_nat (length arrays)] /\
    forall t a, nth_error arrays t = Some a ->
      exists c, slice_time d0 b (Z.of_nat t) = Ok c /\ nd_eq c a.
Proof. exact @stack_slice_time_lemma. Qed.
Print Assumptions C12_stack_then_slice_time.

Theorem C12_slice_time_then_stack : forall (A : Type) (d0 : A) (a : nd A),
  nd_wf a -> (2 <= length (dims a))%nat -> 1 <= last (dims a) 0 -> numel (dims a) < 2 ^ 31 ->
  exists arrays b, slice_time_all d0 a = Ok arrays /\ Z.of_nat (length arrays) = last (dims a) 0 /\
    stack d0 arrays = Ok b /\ nd_eq b a.
Proof. exact @slice_time_stack_lemma. Qed.
Print Assumptions C12_slice_time_then_stack.

Theorem C12_concat : forall (A : Type) (d0 : A) (arrays : list (nd A)) ds,
  arrays <> [] -> same_shape ds arrays -> numel ds * Z.of_nat (length arrays) < 2 ^ 31 -> numel ds < 2 ^ 31 ->
  exists b, concat_nd d0 arrays = Ok b /\ nd_wf b /\ dims b = Z.of_nat (length arrays) :: ds /\
    forall j a idx, nth_error arrays j = Some a -> in_range ds idx ->
      exists v, at_ b (Z.of_nat j :: idx) = Ok v /\ at_ a idx = Ok v.
Proof. exact @concat_lemma. Qed.
Print Assumptions C12_concat.

Example C12_nonvacuous : same_shape [2; 3; 4] [arr234; arr234] /\
  (exists l b, slice_time_all 0 arr234 = Ok l /\ stack 0 l = Ok b /\ length l = 4%nat /\ buf b = buf arr234) /\
  exists b, concat_nd 0 [arr234; arr234] = Ok b /\ at_ b [1; 0; 2; 1] = Ok 10.
Proof.
  split; [intros a [<-|[<-|[]]]; split; try reflexivity; exact arr234_wf|]. split.
  - eexists _, _. split; [vm_compute; reflexivity|]. split; [vm_compute; reflexivity|]. split; reflexivity.
  - eexists. split; [vm_compute; reflexivity|]. vm_compute; reflexivity.
Qed.

(** C13: [get_transpose] reverses the axes and is an involution. *)
Theorem C13_transpose : forall (A : Type) (d0 : A) (a : nd A), nd_wf a -> (2 <= length (dims a) <= 4)%nat ->
  exists b, get_transpose d0 a = Ok b /\ dims b = rev (dims a) /\
    (forall idx, in_range (dims a) idx -> exists v, at_ b (rev idx) = Ok v /\ at_ a idx = Ok v) /\
    exists c, get_transpose d0 b = Ok c /\ nd_eq c a.
Proof. exact @transpose_lemma. Qed.
Print Assumptions C13_transpose.

Example C13_nonvacuous : (2 <= length (dims arr234) <= 4)%nat /\
  exists b, get_transpose 0 arr234 = Ok b /\ dims b = [4; 3; 2] /\ at_ b [3; 0; 1] = Ok 19.
Proof. split; [cbn; lia|]. eexists. split; [vm_compute; reflexivity|]. split; vm_compute; reflexivity. Qed.

(** C14 for integer element types ([lo], [hi] are numeric_limits<T>::min() and max()). *)
Theorem C14_min_max_integers_partial : forall lo hi (a : nd Z), nd_wf a -> numel (dims a) < 2 ^ 31 -> buf a <> [] ->
  Forall (fun v => lo <= v <= hi) (buf a) ->
  exists mn mx, min_max lo hi a = Ok (mn, mx) /\ is_least (buf a) mn /\ is_greatest (buf a) mx.
Proof. exact min_max_int_lemma. Qed.
Print Assumptions C14_min_max_integers_partial.

(** C14 for finite floats: exact as soon as one element is at least [numeric_limits<float>::min()]. *)
Theorem C14_min_max_floats_partial : forall (a : nd Z), nd_wf a -> numel (dims a) < 2 ^ 31 ->
  Forall (fun v => v <= flt_max) (buf a) -> Exists (fun v => flt_min <= v) (buf a) ->
  exists mn mx, min_max flt_min flt_max a = Ok (mn, mx) /\ is_least (buf a) mn /\ is_greatest (buf a) mx.
Proof. exact (min_max_float_lemma flt_min flt_max). Qed.
Print Assumptions C14_min_max_floats_partial.

(** C14 refuted for floats: the array {-2, -1} (in units of 2^-149: multiples of 2^149) has maximum
    -1, the call returns 2^-126. *)
Definition neg_floats : nd Z := {| dims := [2]; strd := [1]; ncd := 0; tv := false; buf := [-2 * 2 ^ 149; -1 * 2 ^ 149] |}.
Theorem C14_min_max_refuted : nd_wf neg_floats /\ Forall (fun v => - flt_max <= v <= flt_max) (buf neg_floats) /\
  exists mn mx, min_max flt_min flt_max neg_floats = Ok (mn, mx) /\ ~ is_greatest (buf neg_floats) mx.
Proof.
  split; [unfold nd_wf; repeat split; try reflexivity; [discriminate|repeat constructor; lia]|].
  split; [repeat constructor; vm_compute; discriminate|].
  exists (-2 * 2 ^ 149), flt_min. split; [reflexivity|]. intros [[H|[H|[]]] _]; vm_compute in H; discriminate.
Qed.
Print Assumptions C14_min_max_refuted.

Example C14_nonvacuous : Forall (fun v => - 2 ^ 31 <= v <= 2 ^ 31 - 1) [3; -7; 5] /\
  min_max (- 2 ^ 31) (2 ^ 31 - 1) {| dims := [3]; strd := [1]; ncd := 0; tv := false; buf := [3; -7; 5] |} = Ok (-7, 5).
Proof. split; [repeat constructor; lia|reflexivity]. Qed.

(** C15: any number of arrays of a trivially copyable element type, saved in sequence after any
    earlier contents, are loaded back in order, into whatever objects, field for field, and the
    read position ends exactly at the end of the bytes written. *)
Theorem C15_ndarray_roundtrip : forall (A : Type) (d0 : A) sz (enc : A -> list Z) dec (ok : A -> Prop),
  (forall x, ok x -> length (enc x) = sz /\ dec (enc x) = x) ->
  forall xs olds pre, Forall (nd_fits ok) xs -> length olds = length xs ->
  let S := ser_nd d0 (ser_pod sz enc dec) in
  let b := save_all S xs {| str := pre; pos := length pre |} in
  load_all S olds {| str := str b; pos := length pre |} = Ok (xs, {| str := str b; pos := length (str b) |}).
Proof. exact @nd_roundtrip_lemma. Qed.
Print Assumptions C15_ndarray_roundtrip.

Theorem C15_ndarray_string_roundtrip : forall (A : Type) (d0 : A) sz (enc : A -> list Z) dec (ok : A -> Prop),
  (forall x, ok x -> length (enc x) = sz /\ dec (enc x) = x) ->
  forall x old, nd_fits ok x ->
  let S := ser_nd d0 (ser_pod sz enc dec) in
  unserialize_from_string S old (serialize_to_string S x) = Ok x.
Proof. exact @nd_string_roundtrip_lemma. Qed.
Print Assumptions C15_ndarray_string_roundtrip.

Example C15_nonvacuous : (forall x, 0 <= x < 2 ^ 32 -> length (le_enc 4 x) = 4%nat /\ le_dec (le_enc 4 x) = x) /\
  nd_fits (fun x => 0 <= x < 2 ^ 32) arr234 /\
  length (serialize_to_string (ser_nd 0 (ser_pod 4 (le_enc 4) le_dec)) arr234) = 177%nat.
Proof.
  split; [intros x H; split; [apply le_enc_length|apply le_dec_enc; exact H]|]. split; [|vm_compute; reflexivity].
  unfold nd_fits, is_u64. repeat split; try (repeat constructor; cbn; lia); cbn; lia.
Qed.
