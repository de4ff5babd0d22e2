(** Specification vocabulary for C36, C37: sets of points, written without the model's predicates. *)
From Verif Require Import Base Interval.
Local Open Scope Z_scope.

Section Bounds.
Variables linf uinf : Z.

(** an ordinary (finite) point: strictly between the two extreme values *)
Definition finite (x : Z) : Prop := linf < x < uinf.
(** a value of the element type *)
Definition value (x : Z) : Prop := linf <= x <= uinf.

(** the points of an interval with ends [l], [u]; [lo_open]/[up_open]: is the end excluded *)
Definition points (i : ival) (x : Z) : Prop :=
  (if lof i then lo i < x else lo i <= x) /\ (if upf i then x < up i else x <= up i).

(** What a user may do with closed intervals, with the set of points the result should denote. *)
Inductive closed_history : dint -> (Z -> Prop) -> Prop :=
| ch_empty : closed_history [] (fun _ => False)
| ch_complete : closed_history (d_complete linf uinf) (fun _ => True)
| ch_point : forall v, finite v -> closed_history (d_point v) (fun x => x = v)
| ch_range : forall l u, value l -> value u -> l < u -> closed_history (d_range l u) (fun x => l <= x <= u)
| ch_join : forall d P l u, value l -> value u -> closed_history d P ->
    closed_history (d_join linf uinf d (iv l u)) (fun x => P x \/ l <= x <= u)
| ch_inter : forall d P l u, value l -> value u -> closed_history d P ->
    closed_history (d_intersect linf uinf d (iv l u)) (fun x => P x /\ l <= x <= u)
| ch_inter_d : forall d P J Q, closed_history d P -> closed_history J Q ->
    closed_history (d_intersect_d linf uinf d J) (fun x => P x /\ Q x).

(** Joins of intervals of any kind, with the ends used so far. *)
Inductive join_history : dint -> (Z -> Prop) -> list Z -> Prop :=
| jh_empty : join_history [] (fun _ => False) []
| jh_join : forall d P E i, value (lo i) -> value (up i) -> lo i < up i -> join_history d P E ->
    join_history (d_join linf uinf d i) (fun x => P x \/ points i x) (lo i :: up i :: E).
End Bounds.
