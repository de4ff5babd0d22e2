(** Model of include/ftk/basic/kd.hh: build, build_recursive, dist2, closest, find_nearest_recursive, find_nearest,
    find_nearest_naive, find_leaf_recursive.
    The coordinate type [F] is the set of rationals with arithmetic [rnd (exact result)]: [rnd] is the rounding function of
    the type ([rnd = id] gives exact arithmetic).  Infinities, NaN and fused multiply-add are not modelled.
    [std::array<F, n>] is a function from the index; only indices below [n] are read.
    [std::nth_element] may return any arrangement the standard allows: [ne level offset] is its outcome in the call of
    build_recursive with this level and offset (these identify the call).
    find_nearest_nonrecursive (lines 224-274) does not compile when instantiated (no matching dist2) and is not modelled;
    print (lines 155-172) only prints. *)
From Verif Require Import Base UnionFind NdArray.
From Coq Require Import QArith.
Local Open Scope nat_scope. Local Open Scope list_scope.

(** lines 12-18 *)
Inductive node : Type := Node (id offset size : nat) (left right : option node).
Definition node_id (t : node) : nat := let 'Node i _ _ _ _ := t in i.
Definition is_leaf (t : node) : bool := match t with Node _ _ _ None None => true | _ => false end.
Definition qltb (x y : Q) : bool := negb (Qle_bool y x).

Section Kd.
  Context (rnd : Q -> Q) (n : nat) (pts : list (nat -> Q)) (fmax : Q).
  Context (ne : nat -> nat -> list nat -> list nat).
  (** reading [pts[i]]: outside the vector it is undefined *)
  Definition pt (i : nat) : res (nat -> Q) := match nth_error pts i with Some p => Ok p | None => UB end.
  (** lines 89-98: the loop over k of dist2, from k on, [m] steps left *)
  Fixpoint dist2_from (x y : nat -> Q) (k m : nat) (dist : Q) : Q :=
    match m with
    | O => dist
    | S m => let d := rnd (x k - y k) in dist2_from x y (1 + k) m (rnd (dist + rnd (d * d)))
    end.
  Definition dist2 (x y : nat -> Q) : Q := dist2_from x y 0 n 0%Q.

  (** lines 118-152.  [fuel] bounds the recursion depth. *)
  Fixpoint build_rec (fuel max_level level offset size : nat) (ids : list nat) : res (node * list nat) :=
    match fuel with
    | O => OutOfFuel
    | S fuel =>
        let ids := firstn offset ids ++ ne level offset (firstn size (skipn offset ids)) ++ skipn (offset + size) ids in
        let i := size / 2 in
        match nth_error ids (offset + i) with
        | None => UB
        | Some id =>
            if (level <? max_level) && (1 <? size) then
              let* (l, ids) := build_rec fuel max_level (1 + level) offset i ids in
              let* (r, ids) := build_rec fuel max_level (1 + level) (offset + i) (size - i) ids in
              Ok (Node id offset size (Some l) (Some r), ids)
            else Ok (Node id offset size None None, ids)
        end
    end.
  (** lines 79-87: [&ids[0]] of an empty vector is undefined *)
  Definition build (max_level : nat) : res node :=
    match pts with
    | [] => UB
    | _ => let* (t, ids) := build_rec (1 + length pts) max_level 0 0 (length pts) (seq 0 (length pts)) in Ok t
    end.
  (** lines 207-221 *)
  Definition closest (x : nat -> Q) (a b : option node) : res (option node) :=
    match a, b with
    | None, _ => Ok b
    | _, None => Ok a
    | Some n1, Some n2 => let* p1 := pt (node_id n1) in let* p2 := pt (node_id n2) in
                          Ok (if qltb (dist2 x p1) (dist2 x p2) then a else b)
    end.
  (** lines 276-313, for a node that is not null *)
  Fixpoint nearest_rec (t : node) (x : nat -> Q) (depth : nat) : res node :=
    let 'Node id _ _ lc rc := t in
    let axis := depth mod n in
    let* p := pt id in
    let near_left := qltb (x axis) (p axis) in
    let* temp := match (if near_left then lc else rc) with
                 | None => Ok None
                 | Some c => let* r := nearest_rec c x (1 + depth) in Ok (Some r)
                 end in
    let* best := closest x temp (Some t) in
    match best with
    | None => UB
    | Some b =>
        let* pb := pt (node_id b) in
        let d2 := dist2 x pb in
        let dp := rnd (x axis - p axis) in
        let dp2 := rnd (dp * dp) in
        if Qle_bool dp2 d2 then
          let* temp := match (if near_left then rc else lc) with
                       | None => Ok None
                       | Some c => let* r := nearest_rec c x (1 + depth) in Ok (Some r)
                       end in
          let* best := closest x temp (Some b) in
          match best with Some b => Ok b | None => UB end
        else Ok b
    end.
  (** lines 182-189 *)
  Definition find_nearest (root : node) (x : nat -> Q) : res nat :=
    let* t := nearest_rec root x 0 in
    if node_id t <? length pts then Ok (node_id t) else UB.
  (** lines 191-205 *)
  Fixpoint naive_from (x : nat -> Q) (l : list (nat -> Q)) (i mi : nat) (mindist : Q) : nat :=
    match l with
    | [] => mi
    | p :: l => let d2 := dist2 x p in
                if qltb d2 mindist then naive_from x l (1 + i) i d2 else naive_from x l (1 + i) mi mindist
    end.
  Definition find_nearest_naive (x : nat -> Q) : nat := naive_from x pts 0 0 fmax.
  (** lines 315-329; calling it on a null child is undefined *)
  Fixpoint leaf_rec (t : node) (x : nat -> Q) (depth : nat) : res node :=
    if is_leaf t then Ok t
    else
      let 'Node id _ _ lc rc := t in
      let* p := pt id in
      match (if qltb (x (depth mod n)) (p (depth mod n)) then lc else rc) with
      | None => UB
      | Some c => leaf_rec c x (1 + depth)
      end.
End Kd.
