(** Model of include/ftk/algorithms/hoshen_kopelman.hh. [LabelIdType] is modelled by [nat] (an unbounded
    unsigned type: only zero / non-zero of an unprocessed cell matters, and labels are counted up from 1);
    the matrix is its buffer, cell (i, j) at i + dim(0) * j (include/ftk/ndarray.hh, operator()). *)
From Verif Require Import Base UnionFind NdArray.

(** lines 17-21 *)
Definition hk_make_set (labels : list nat) : res (list nat * nat) :=
  let* l0 := vget labels 0 in
  let* labels := vput labels 0 (l0 + 1) in
  let* l0 := vget labels 0 in
  let* labels := vput labels l0 l0 in
  let* l0 := vget labels 0 in
  Ok (labels, l0).
(** lines 24-26 *)
Fixpoint hk_root (fuel : nat) (labels : list nat) (y : nat) : res nat :=
  match fuel with
  | O => OutOfFuel
  | S fuel => let* z := vget labels y in if Nat.eqb z y then Ok y else hk_root fuel labels z
  end.
(** lines 27-31 *)
Fixpoint hk_compress (fuel : nat) (labels : list nat) (x y : nat) : res (list nat) :=
  match fuel with
  | O => OutOfFuel
  | S fuel => let* z := vget labels x in
              if Nat.eqb z x then Ok labels
              else let* labels := vput labels x y in hk_compress fuel labels z y
  end.
(** lines 23-33; the height of the label forest is at most the number of labels *)
Definition hk_find (labels : list nat) (x : nat) : res (list nat * nat) :=
  let* y := hk_root (S (length labels)) labels x in
  let* labels := hk_compress (S (length labels)) labels x y in
  Ok (labels, y).
(** lines 35-37; the right operand of the assignment is evaluated first *)
Definition hk_unite (labels : list nat) (x y : nat) : res (list nat * nat) :=
  let* (labels, ry) := hk_find labels y in
  let* (labels, rx) := hk_find labels x in
  let* labels := vput labels rx ry in
  Ok (labels, ry).

(** one cell of the first pass, lines 42-57 *)
Definition hk_cell1 (d0 : nat) (i j : nat) (m labels : list nat) : res (list nat * list nat) :=
  let* v := vget m (i + d0 * j) in
  if Nat.eqb v 0 then Ok (m, labels)
  else
    let* lft := if Nat.eqb i 0 then Ok 0 else vget m ((i - 1) + d0 * j) in
    let* up := if Nat.eqb j 0 then Ok 0 else vget m (i + d0 * (j - 1)) in
    let nz x := if Nat.eqb x 0 then 0 else 1 in
    match nz lft + nz up with
    | 0 => let* (labels, l) := hk_make_set labels in let* m := vput m (i + d0 * j) l in Ok (m, labels)
    | 1 => let* m := vput m (i + d0 * j) (Nat.max up lft) in Ok (m, labels)
    | _ => let* (labels, l) := hk_unite labels up lft in let* m := vput m (i + d0 * j) l in Ok (m, labels)
    end.
Fixpoint hk_pass1 (d0 : nat) (cells : list (nat * nat)) (m labels : list nat) : res (list nat * list nat) :=
  match cells with
  | [] => Ok (m, labels)
  | (i, j) :: t => let* (m, labels) := hk_cell1 d0 i j m labels in hk_pass1 d0 t m labels
  end.
(** one cell of the second pass, lines 64-73 *)
Definition hk_cell2 (d0 : nat) (i j : nat) (m labels nl : list nat) : res (list nat * list nat * list nat) :=
  let* v := vget m (i + d0 * j) in
  if Nat.eqb v 0 then Ok (m, labels, nl)
  else
    let* (labels, x) := hk_find labels v in
    let* nx := vget nl x in
    let* nl := if Nat.eqb nx 0 then
                 let* n0 := vget nl 0 in let* nl := vput nl 0 (n0 + 1) in
                 let* n0 := vget nl 0 in vput nl x n0
               else Ok nl in
    let* nx := vget nl x in
    let* m := vput m (i + d0 * j) nx in
    Ok (m, labels, nl).
Fixpoint hk_pass2 (d0 : nat) (cells : list (nat * nat)) (m labels nl : list nat) : res (list nat * list nat) :=
  match cells with
  | [] => Ok (m, nl)
  | (i, j) :: t => let* (m, labels, nl) := hk_cell2 d0 i j m labels nl in hk_pass2 d0 t m labels nl
  end.
(** the loop nest: [j] outside, [i] inside *)
Definition hk_cells (d0 d1 : nat) : list (nat * nat) := flat_map (fun j => map (fun i => (i, j)) (seq 0 d0)) (seq 0 d1).
(** the function: the returned count and the labelled matrix *)
Definition hoshen_kopelman_2d (dims : list nat) (m : list nat) : res (nat * list nat) :=
  match dims with
  | [d0; d1] =>
      let labels := repeat 0 (length m / 2) in
      let* (m, labels) := hk_pass1 d0 (hk_cells d0 d1) m labels in
      let* (m, nl) := hk_pass2 d0 (hk_cells d0 d1) m labels (repeat 0 (length labels)) in
      let* n := vget nl 0 in
      Ok (n, m)
  | _ => Ok (0, m)
  end.
