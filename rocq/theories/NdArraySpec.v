(** Specification vocabulary for multi-dimensional arrays. *)
From Verif Require Import Base Lattice NdArray.
Local Open Scope Z_scope.

(** number of elements of a shape *)
Definition numel (ds : list Z) : Z := fold_right Z.mul 1 ds.

(** a multi-index inside a shape: one coordinate per dimension, each in range *)
Definition in_range (ds idx : list Z) : Prop := Forall2 (fun d i => 0 <= i < d) ds idx.

(** column-major position of a multi-index *)
Fixpoint lin (ds idx : list Z) : Z :=
  match ds, idx with
  | d :: ds, i :: idx => i + d * lin ds idx
  | _, _ => 0
  end.

(** An array as left by [reshape]: a shape, strides of that shape, and one element per index. *)
Definition nd_wf {A} (a : nd A) : Prop :=
  dims a <> [] /\ Forall (fun d => 0 <= d) (dims a) /\ numel (dims a) < 2 ^ 64 /\
  strd a = strides_from 1 (dims a) /\ Z.of_nat (length (buf a)) = numel (dims a).

(** [operator==], ndarray.hh:150: same shape, same elements. *)
Definition nd_eq {A} (a b : nd A) : Prop := dims a = dims b /\ buf a = buf b.

(** coordinate-wise sum *)
Definition addv (a b : list Z) : list Z := map (fun xy => fst xy + snd xy) (combine a b).

(** well-formed arrays of one common shape *)
Definition same_shape {A} (ds : list Z) (arrays : list (nd A)) : Prop :=
  forall a, In a arrays -> nd_wf a /\ dims a = ds.

(** least and greatest element of a list of integers *)
Definition is_least (l : list Z) (m : Z) : Prop := In m l /\ forall v, In v l -> m <= v.
Definition is_greatest (l : list Z) (m : Z) : Prop := In m l /\ forall v, In v l -> v <= m.

(** Finite single-precision values in units of 2^-149 (every finite float is such an integer):
    [numeric_limits<float>::min()] is 2^-126 and [max()] is (2^24-1)*2^104. *)
Definition flt_min : Z := 2 ^ 23.
Definition flt_max : Z := (2 ^ 24 - 1) * 2 ^ 253.
