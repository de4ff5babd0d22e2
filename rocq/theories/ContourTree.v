(** Model of [contour_tree] (include/ftk/basic/contour_tree.hh:12-116).  [IdType] is any ordered type and
    [neg1] is [IdType(-1)].  [print*] only output; [upper_nodes]/[lower_nodes] (lines 68-78) do not compile
    when instantiated. *)
From Verif Require Import Base UnionFind NdArray.
Local Open Scope list_scope.
Section CT.
  Context {K : Type} `{OrdKey K} (neg1 : K).
  (** members, lines 113-115 *)
  Record ct := mkct { ct_nodes : list K; upper_links : list (K * list K); lower_links : list (K * list K) }.
  Definition ct_new : ct := mkct [] [] [].
  (** [m[k]] used as an lvalue: what is there, or a fresh empty set *)
  Definition links (k : K) (m : list (K * list K)) : list K := match mfind k m with Some s => s | None => [] end.
  (** line 12 *)
  Definition ct_add_node (g : ct) (i : K) : ct := mkct (sins i (ct_nodes g)) (upper_links g) (lower_links g).
  (** line 13 *)
  Definition ct_has_node (g : ct) (i : K) : bool := smem i (ct_nodes g).
  (** lines 15-18 *)
  Definition ct_add_arc (g : ct) (lo hi : K) : ct :=
    mkct (ct_nodes g) (mset lo (sins hi (links lo (upper_links g))) (upper_links g))
                      (mset hi (sins lo (links hi (lower_links g))) (lower_links g)).
  (** lines 44-54 *)
  Definition upper_degree (g : ct) (i : K) : nat := match mfind i (upper_links g) with Some s => length s | None => 0 end.
  Definition lower_degree (g : ct) (i : K) : nat := match mfind i (lower_links g) with Some s => length s | None => 0 end.
  (** lines 40-42 *)
  Definition is_leaf (g : ct) (i : K) : bool := Nat.eqb (upper_degree g i + lower_degree g i) 1.
  (** [*begin()] of a set: undefined behaviour when it is empty *)
  Definition first (m : list (K * list K)) (i : K) : res K :=
    match mfind i m with Some (x :: _) => Ok x | Some [] => UB | None => Ok neg1 end.
  (** lines 56-66 *)
  Definition upper_node (g : ct) (i : K) : res K := first (upper_links g) i.
  Definition lower_node (g : ct) (i : K) : res K := first (lower_links g) i.
  Definition erase_in (k i : K) (m : list (K * list K)) := mset k (sdel i (links k m)) m.
  Definition insert_in (k i : K) (m : list (K * list K)) := mset k (sins i (links k m)) m.
  (** lines 34-36 *)
  Definition drop_node (g : ct) (i : K) : ct := mkct (sdel i (ct_nodes g)) (mdel i (upper_links g)) (mdel i (lower_links g)).
  (** [reduce_node], lines 20-38 *)
  Definition reduce_node (g : ct) (i : K) : res (ct * bool) :=
    let ud := upper_degree g i in let ld := lower_degree g i in
    if Nat.ltb 1 ud || Nat.ltb 1 ld then Ok (g, false)
    else if Nat.eqb ud 1 && Nat.eqb ld 0 then
      let* hi := upper_node g i in
      Ok (drop_node (mkct (ct_nodes g) (upper_links g) (erase_in hi i (lower_links g))) i, true)
    else if Nat.eqb ud 0 && Nat.eqb ld 1 then
      let* lo := lower_node g i in
      Ok (drop_node (mkct (ct_nodes g) (erase_in lo i (upper_links g)) (lower_links g)) i, true)
    else
      let* hi := upper_node g i in
      let* lo := lower_node g i in
      let lower := erase_in hi i (lower_links g) in
      let upper := erase_in lo i (upper_links g) in
      let lower := insert_in hi lo lower in
      let upper := insert_in lo hi upper in
      Ok (drop_node (mkct (ct_nodes g) upper lower) i, true).
  (** the second loop of [reduce], lines 108-110 *)
  Fixpoint reduce_all (g : ct) (l : list K) : res ct :=
    match l with
    | [] => Ok g
    | i :: l => let* p := reduce_node g i in reduce_all (fst p) l
    end.
  (** [reduce], lines 101-111 *)
  Definition reduce (g : ct) : res ct :=
    let to_remove := filter (fun i => Nat.eqb (upper_degree g i) 1 && Nat.eqb (lower_degree g i) 1) (ct_nodes g) in
    reduce_all g to_remove.
End CT.
Arguments ct : clear implicits.
