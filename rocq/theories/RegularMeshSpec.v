(** Specification vocabulary for the simplicial regular mesh. *)
From Verif Require Import Base NdArray RegularMesh.
Local Open Scope Z_scope.

(** a corner of the unit cube of dimension [n] *)
Definition cube_point (n : nat) (p : point) : Prop := length p = n /\ Forall (fun x => x = 0 \/ x = 1) p.

(** coordinatewise order, and its strict version *)
Definition ple (p q : point) : Prop := Forall2 Z.le p q.
Definition plt (p q : point) : Prop := ple p q /\ p <> q.

(** A unit [k]-simplex type of the [n]-cube: [k+1] cube corners, strictly increasing, starting at the
    origin. *)
Definition unit_type (n k : nat) (s : simplex) : Prop :=
  length s = S k /\ Forall (cube_point n) s /\ nth_error s 0 = Some (repeat 0 n) /\ StronglySorted plt s.

(** an element of the unbounded [n]-dimensional mesh *)
Definition el_ok (n : nat) (e : element) : Prop :=
  (edim e <= n)%nat /\ (etype e < ntypes n (edim e))%nat /\ length (corner e) = n.

(** the corner of an element lies within the bounds *)
Definition in_bounds (lb ub c : point) : Prop :=
  Forall2 (fun l x => l <= x) lb c /\ Forall2 (fun x u => x <= u) c ub.
Definition npoints (lb ub : point) : Z := fold_right Z.mul 1 (map (fun lu => snd lu - fst lu + 1) (combine lb ub)).

(** coordinates that fit an [int] *)
Definition int_list (l : list Z) : Prop := Forall (fun x => - 2 ^ 31 <= x < 2 ^ 31) l.

(** a type all of whose vertices are in the first time step *)
Definition flat_type (n d t : nat) : Prop :=
  exists s, nth_error (unit_simplices n d) t = Some s /\ Forall (fun v => nth (n - 1) v 0 = 0) s.
