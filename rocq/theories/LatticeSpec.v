(** Specification vocabulary for lattices and partitions. *)
From Verif Require Import Base Lattice.
Local Open Scope Z_scope.

(** number of points of a lattice *)
Fixpoint volume (l : lattice) : Z := match l with [] => 1 | (_, n) :: t => n * volume t end.

(** a lattice whose coordinates fit an [int] and whose sizes are positive *)
Fixpoint lat_ok (l : lattice) : bool :=
  match l with
  | [] => true
  | (s, n) :: t => (0 <=? s) && (1 <=? n) && (s + n <=? 2 ^ 31) && lat_ok t
  end.


(** all sizes are positive *)
Definition sizes_pos (l : lattice) : Prop := Forall (fun d => 0 < snd d) l.

(** Number of blocks of [bs] that contain the point [x]. *)
Definition count (bs : list lattice) (x : list Z) : nat := length (filter (fun b => contains b x) bs).

(** [bs] tiles [l]: every point of [l] is in exactly one block, no other point is in any. *)
Definition tiles (l : lattice) (bs : list lattice) : Prop :=
  forall x, count bs x = if contains l x then 1%nat else 0%nat.

(** Product of the non-zero entries of [given]. *)
Definition given_product (given : list Z) : Z := fold_right (fun g a => if g =? 0 then a else g * a) 1 given.

(** Dimension-wise hypotheses of [add_ghost]: the core is inside the domain, ghost widths are
    unsigned and nothing overflows 64 bits. *)
Definition core_inside (l b : lattice) : Prop :=
  length b = length l /\
  forall d ls lz s z, nth_error l d = Some (ls, lz) -> nth_error b d = Some (s, z) ->
    0 <= ls /\ ls <= s /\ 0 <= z /\ s + z <= ls + lz /\ ls + lz < 2 ^ 64.
Definition ghost_widths (n : nat) (g : list Z) : Prop :=
  (n <= length g)%nat /\ Forall (fun w => 0 <= w) g.

(** The ghost vectors have an entry for every cuttable dimension, or one of them is empty. *)
Definition ghosts_ok (l : lattice) (gl gh : list Z) : Prop :=
  gl = [] \/ gh = [] \/ ((nd_cuttable l <= length gl)%nat /\ (nd_cuttable l <= length gh)%nat).

(** The requested cuts are unsigned, and there is one per cuttable dimension (or none / a single 0,
    which the code treats as "no request"). *)
Definition given_wf (l : lattice) (given : list Z) : Prop :=
  Forall (fun g => 0 <= g) given /\ (is_vector_zero given = true \/ length given = nd_cuttable l).
