(** Vocabulary for curves. *)
From Verif Require Import Base FeatureCurve.
Local Open Scope Z_scope. Local Open Scope list_scope.
(** all points have one type *)
Definition constant (l : list fpoint) : Prop := forall p q, In p l -> In q l -> ptype p = ptype q.
(** [a] results from [b] by leaving out points *)
Inductive subseq {A} : list A -> list A -> Prop :=
| ss_nil : subseq [] []
| ss_keep x a b : subseq a b -> subseq (x :: a) (x :: b)
| ss_drop x a b : subseq a b -> subseq a (x :: b).
(** the [i]-th point *)
Definition is_at (l : list fpoint) (i : nat) (p : fpoint) : Prop := nth_error l i = Some p.
Definition ordinal_at (l : list fpoint) (i : nat) : Prop := exists p, is_at l i p /\ ordinal p = true.
Definition has_type (l : list fpoint) (i : nat) (ty : Z) : Prop := exists p, is_at l i p /\ ptype p = ty.
(** times do not decrease *)
Definition monotone (l : list fpoint) : Prop := forall i j p q, (i < j)%nat -> is_at l i p -> is_at l j q -> ptime p <= ptime q.
(** times of the ordinal points do not decrease *)
Definition ordinals_monotone (l : list fpoint) : Prop :=
  forall i j p q, (i < j)%nat -> is_at l i p -> is_at l j q -> ordinal p = true -> ordinal q = true -> ptime p <= ptime q.
(** equal up to the types / up to the times / up to the coordinate [k] *)
Definition same_but_type (p q : fpoint) : Prop := set_type p 0 = set_type q 0.
Definition same_but_time (p q : fpoint) : Prop := set_time p 0 = set_time q 0.
Definition same_but_x (k : nat) (p q : fpoint) : Prop := set_x p (put3 k 0 (px p)) = set_x q (put3 k 0 (px q)).
(** the greatest / least value of [f] over the points *)
Definition is_max (f : fpoint -> Z) (l : list fpoint) (m : Z) : Prop := (exists p, In p l /\ f p = m) /\ forall p, In p l -> f p <= m.
Definition is_min (f : fpoint -> Z) (l : list fpoint) (m : Z) : Prop := (exists p, In p l /\ f p = m) /\ forall p, In p l -> m <= f p.
(** no ordinal point strictly between [o] and [o'] *)
Definition consecutive (l : list fpoint) (o o' : nat) : Prop :=
  (o < o')%nat /\ ordinal_at l o /\ ordinal_at l o' /\ forall i, (o < i < o')%nat -> ~ ordinal_at l i.
Definition first_ordinal (l : list fpoint) (o : nat) : Prop := ordinal_at l o /\ forall i, (i < o)%nat -> ~ ordinal_at l i.
Definition last_ordinal (l : list fpoint) (o : nat) : Prop := ordinal_at l o /\ forall i, (o < i)%nat -> ~ ordinal_at l i.
(** [os] lists the indices of the ordinal points in order; the [i]-th of them is an outlier in its window of [h] ordinals on
    either side: all the others have the type [t] *)
Definition isolated (l : list fpoint) (os : list nat) (h i : nat) (t : Z) : Prop :=
  (1 <= h <= i)%nat /\ (i + h < length os)%nat /\ t <> 0 /\
  forall j o, (i - h <= j <= i + h)%nat -> j <> i -> nth_error os j = Some o -> has_type l o t.
