(** Model of [basic_interval] (include/ftk/numeric/basic_interval.hh:13-250) and [disjoint_intervals]
    (include/ftk/numeric/disjoint_intervals.hh:10-173).

    The element type [T] is used by the modelled functions only through [<], [==], [std::min], [std::max] and the
    two extreme values [lower_inf()], [upper_inf()].  Every C++ arithmetic type is a finite totally ordered set
    (NaN is excluded), hence order-isomorphic to an interval of [Z]; the model therefore takes values in [Z], with
    the extreme values [linf], [uinf] as parameters: [-inf]/[+inf] for floating-point types, [min()]/[max()]
    for integers.  [sample], stream output and the quantised-conversion constructor are not modelled. *)
From Verif Require Import Base.
Local Open Scope Z_scope.

(** members [_lower], [_upper], [_lower_open], [_upper_open], basic_interval.hh:248-249 *)
Record ival := { lo : Z; up : Z; lof : bool; upf : bool }.

(** [basic_interval(T l, T u)], line 16: closed ends (default member initialisers, line 249) *)
Definition iv (l u : Z) : ival := {| lo := l; up := u; lof := false; upf := false |}.
(** line 17 *)
Definition iv1 (v : Z) : ival := iv v v.
(** [set_lower_open], [set_upper_open], lines 47-50 *)
Definition set_flags (i : ival) (l u : bool) : ival := {| lo := lo i; up := up i; lof := l; upf := u |}.

Section Bounds.
Variables linf uinf : Z.

(** [set_to_empty], lines 70-73: the open flags keep their values *)
Definition set_to_empty (i : ival) : ival := {| lo := uinf; up := linf; lof := lof i; upf := upf i |}.
(** [set_to_complete], lines 75-78, and [complete_interval], lines 64-68 *)
Definition set_to_complete (i : ival) : ival := {| lo := linf; up := uinf; lof := lof i; upf := upf i |}.
Definition complete_iv : ival := set_to_complete (set_to_empty (iv 0 0)).
(** [set_lower_inf], lines 35-40; [hasinf] is [numeric_limits<T>::has_infinity] *)
Definition set_lower_inf (hasinf : bool) (i : ival) : ival :=
  if hasinf then {| lo := linf; up := up i; lof := lof i; upf := upf i |}
  else {| lo := lo i; up := linf; lof := lof i; upf := upf i |}.
(** [set_upper_inf], lines 41-46 *)
Definition set_upper_inf (i : ival) : ival := {| lo := lo i; up := uinf; lof := lof i; upf := upf i |}.

(** [lower_open], [upper_open], lines 87-100 *)
Definition lopen (i : ival) : bool := if lo i =? linf then true else lof i.
Definition uopen (i : ival) : bool := if up i =? uinf then true else upf i.
(** [complete], lines 121-124 *)
Definition iv_complete (i : ival) : bool := (lo i =? linf) && (up i =? uinf).
(** [empty], lines 126-132 *)
Definition iv_empty (i : ival) : bool :=
  if up i <? lo i then true
  else if (lo i =? up i) && (lopen i || uopen i) then true else false.
(** [singleton], lines 134-136 *)
Definition iv_singleton (i : ival) : bool := (lo i =? up i) && negb (lopen i) && negb (uopen i).
(** [contains], lines 138-144 *)
Definition iv_contains (i : ival) (x : Z) : bool :=
  if iv_singleton i then x =? lo i
  else if (x =? lo i) && negb (lopen i) then true
  else if (x =? up i) && negb (uopen i) then true
  else (lo i <? x) && (x <? up i).
(** [overlaps], lines 154-159 *)
Definition iv_overlaps (t i : ival) : bool :=
  if (up i <? lo t) || (up t <? lo i) then false
  else if (up t =? lo i) && (uopen t || lopen i) then false
  else if (lo t =? up i) && (lopen t || uopen i) then false
  else true.
(** [join], lines 161-170: the new value and the returned flag *)
Definition iv_join (t i : ival) : ival * bool :=
  if (up i <? lo t) || (up t <? lo i) then (t, false)
  else if (up t =? lo i) && uopen t && lopen i then (t, false)
  else if (lo t =? up i) && lopen t && uopen i then (t, false)
  else ({| lo := Z.min (lo t) (lo i); up := Z.max (up t) (up i); lof := lof t; upf := upf t |}, true).
(** [intersect], lines 172-194 *)
Definition iv_intersect (t i : ival) : ival :=
  if iv_overlaps t i then
    let t1 := if lo t =? lo i then (if lopen i then set_flags t true (upf t) else t)
              else if lo t <? lo i then {| lo := lo i; up := up t; lof := lopen i; upf := upf t |}
              else t in
    if up t1 =? up i then (if uopen i then set_flags t1 (lof t1) true else t1)
    else if up i <? up t1 then {| lo := lo t1; up := up i; lof := lof t1; upf := uopen i |}
    else t1
  else set_to_empty t.

(** ** disjoint_intervals

    [std::set<basic_interval<T>>] ordered by [lower()] (basic_interval.hh:241-245): a list sorted by lower end. *)
Definition dint := list ival.

(** [std::set::insert]: an element equivalent to one already present (same lower end) is not inserted *)
Fixpoint set_ins (i : ival) (d : dint) : dint :=
  match d with
  | [] => [i]
  | j :: d' => if lo i <? lo j then i :: d else if lo j <? lo i then j :: set_ins i d' else d
  end.

(** constructors, disjoint_intervals.hh:12-18; [set_to_complete], lines 51-56 *)
Definition d_range (l u : Z) : dint := set_ins (iv l u) [].
Definition d_point (v : Z) : dint := set_ins (iv1 v) [].
Definition d_complete : dint := set_ins complete_iv [].
(** [complete], [empty], lines 58-65 *)
Definition d_is_complete (d : dint) : bool := match d with [i] => iv_complete i | _ => false end.
Definition d_is_empty (d : dint) : bool := match d with [] => true | _ => false end.
(** [contains], lines 72-76 *)
Definition d_contains (d : dint) (x : Z) : bool := existsb (fun i => iv_contains i x) d.
(** [overlaps], lines 78-82 *)
Definition d_overlaps (d : dint) (i : ival) : bool := existsb (fun j => iv_overlaps j i) d.

(** the loop of [join], lines 94-103: the interval accumulated so far and the subintervals that stay *)
Fixpoint join_loop (ii : ival) (d : dint) : ival * dint :=
  match d with
  | [] => (ii, [])
  | it :: d' =>
      if iv_overlaps it ii then join_loop (fst (iv_join ii it)) d'
      else let (jj, keep) := join_loop ii d' in (jj, it :: keep)
  end.
(** [join], lines 88-106 *)
Definition d_join (d : dint) (i : ival) : dint :=
  if iv_empty i then d
  else let (ii, keep) := join_loop i d in set_ins ii keep.
(** [intersect(const basic_interval&)], lines 112-120 *)
Definition d_intersect (d : dint) (i : ival) : dint :=
  fold_left (fun I j => d_join I (iv_intersect i j)) d [].
(** [intersect(const disjoint_intervals&)], lines 122-133 *)
Definition d_intersect_d (d J : dint) : dint :=
  fold_left (fun I i => fold_left (fun I j => d_join I (iv_intersect i j)) J I) d [].
End Bounds.
