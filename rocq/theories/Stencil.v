(** Model of the derivative and convolution functions on arrays (include/ftk/ndarray/grad.hh, conv.hh) in exact real arithmetic.  The arrays are those of
    [NdArray]: reads and writes go through the strides, size_t indices wrap, an access outside of the buffer is UB.  A loop nest is the list of its assignments in
    order (every value is read from the arguments only, so the order of the OpenMP threads does not matter unless two iterations write the same element; then the
    model takes the order of the sequential program). *)
From Coq Require Import List ZArith Reals.
From Verif Require Import Base UnionFind Lattice NdArray.
Import ListNotations. Local Open Scope Z_scope.

(** an assignment [g(idx) = v] *)
Definition asg := (list Z * res R)%type.
Fixpoint assign (ws : list asg) (g : nd R) : res (nd R) :=
  match ws with [] => Ok g | (idx, v) :: ws => let* v := v in let* g := put_var g idx v in assign ws g end.
(** for (i = lo; i < hi; i ++) *)
Definition range (lo hi : Z) : list Z := map (Z.add lo) (zseq (hi - lo)).
Definition loop {A} (lo hi : Z) (body : Z -> list A) : list A := flat_map body (range lo hi).
(** dim(i), ndarray_base.hh line 77; [idim] is converted to int *)
Definition dim (a : nd R) (i : nat) : res Z := vget (dims a) i.
Definition idim (a : nd R) (i : nat) : res Z := let* d := dim a i in Ok (i32 d).
Definition new (ds : list Z) : res (nd R) := reshape 0%R nd_empty ds.
(** set_multicomponents, ndarray_base.hh line 100 *)
Definition set_multicomponents (a : nd R) (n : Z) : nd R := {| dims := dims a; strd := strd a; ncd := n; tv := tv a; buf := buf a |}.
Definition rsub (a b : res R) : res R := let* a := a in let* b := b in Ok (a - b)%R.
Definition radd2 (a b : res R) : res R := let* a := a in let* b := b in Ok (a + b)%R.
Definition rmul (a b : res R) : res R := let* a := a in let* b := b in Ok (a * b)%R.
Definition rscale (c : R) (a : res R) : res R := let* a := a in Ok (c * a)%R.
(** std::min(std::max(0, i), D-1) *)
Definition clamp (i D : Z) : Z := Z.min (Z.max 0 i) (D - 1).

(** gradient2D, grad.hh lines 10-31 *)
Definition gradient2D (s : nd R) : res (nd R) :=
  let* DW := idim s 0 in let* DH := idim s 1 in
  let* g := new [2; DW; DH] in
  let f i j := at_var s [clamp i DW; clamp j DH] in
  assign (loop 0 DH (fun j => loop 0 DW (fun i =>
    [([0; i; j], rscale (IZR (DW - 1)) (rsub (f (i + 1) j) (f (i - 1) j)));
     ([1; i; j], rscale (IZR (DH - 1)) (rsub (f i (j + 1)) (f i (j - 1))))]))) g.
(** gradient2Dt, grad.hh lines 34-52 *)
Definition gradient2Dt (s : nd R) : res (nd R) :=
  let* DW := idim s 0 in let* DH := idim s 1 in let* DT := idim s 2 in
  let* g := new [2; DW; DH; DT] in
  assign (loop 0 DT (fun k => loop 1 (DH - 1) (fun j => loop 1 (DW - 1) (fun i =>
    [([0; i; j; k], rscale (IZR (DW - 1)) (rscale (/ 2) (rsub (at_var s [i + 1; j; k]) (at_var s [i - 1; j; k]))));
     ([1; i; j; k], rscale (IZR (DH - 1)) (rscale (/ 2) (rsub (at_var s [i; j + 1; k]) (at_var s [i; j - 1; k]))))])))) g.
(** jacobian2D, grad.hh lines 55-87: the scaling applies to the second operand of each difference only, and without [symmetric] the off-diagonal entries
    are assigned through the two-argument operator(), i.e. always to those of the first grid point *)
Definition jacobian2D (symmetric : bool) (v : nd R) : res (nd R) :=
  let* DW := idim v 1 in let* DH := idim v 2 in
  let* g := new [2; 2; DW; DH] in
  let f c i j := at_var v [c; clamp i DW; clamp j DH] in
  assign (loop 0 DH (fun j => loop 0 DW (fun i =>
    let H00 := rsub (f 0 (i + 1) j) (rscale (IZR (DW - 1)) (f 0 (i - 1) j)) in
    let H01 := rsub (f 0 i (j + 1)) (rscale (IZR (DH - 1)) (f 0 i (j - 1))) in
    let H10 := rsub (f 1 (i + 1) j) (rscale (IZR (DW - 1)) (f 1 (i - 1) j)) in
    let H11 := rsub (f 1 i (j + 1)) (rscale (IZR (DH - 1)) (f 1 i (j - 1))) in
    [([0; 0; i; j], H00); ([1; 1; i; j], H11)] ++
    (if symmetric then [([1; 0; i; j], rscale (/ 2) (radd2 H01 H10)); ([0; 1; i; j], rscale (/ 2) (radd2 H01 H10))]
     else [([0; 1], H01); ([1; 0], H10)])))) g.
(** jacobian2Dt, grad.hh lines 106-129 *)
Definition jacobian2Dt (v : nd R) : res (nd R) :=
  let* DW := idim v 1 in let* DH := idim v 2 in let* DT := idim v 3 in
  let* g := new [2; 2; DW; DH; DT] in
  assign (loop 0 DT (fun k => loop 2 (DH - 2) (fun j => loop 2 (DW - 2) (fun i =>
    [([0; 0; i; j; k], rscale (IZR (DW - 1)) (rscale (/ 2) (rsub (at_var v [0; i + 1; j; k]) (at_var v [0; i - 1; j; k]))));
     ([0; 1; i; j; k], rscale (IZR (DH - 1)) (rscale (/ 2) (rsub (at_var v [0; i; j + 1; k]) (at_var v [0; i; j - 1; k]))));
     ([1; 0; i; j; k], rscale (IZR (DW - 1)) (rscale (/ 2) (rsub (at_var v [1; i + 1; j; k]) (at_var v [1; i - 1; j; k]))));
     ([1; 1; i; j; k], rscale (IZR (DH - 1)) (rscale (/ 2) (rsub (at_var v [1; i; j + 1; k]) (at_var v [1; i; j - 1; k]))))])))) g.
(** gradient3D, grad.hh lines 132-152 *)
Definition gradient3D (s : nd R) : res (nd R) :=
  let* DW := idim s 0 in let* DH := idim s 1 in let* DD := idim s 2 in
  let* g := new [3; DW; DH; DD] in
  assign (loop 1 (DD - 1) (fun k => loop 1 (DH - 1) (fun j => loop 1 (DW - 1) (fun i =>
    [([0; i; j; k], rscale (/ 2) (rsub (at_var s [i + 1; j; k]) (at_var s [i - 1; j; k])));
     ([1; i; j; k], rscale (/ 2) (rsub (at_var s [i; j + 1; k]) (at_var s [i; j - 1; k])));
     ([2; i; j; k], rscale (/ 2) (rsub (at_var s [i; j; k + 1]) (at_var s [i; j; k - 1])))])))) g.
(** gradient3Dt, grad.hh lines 154-175 *)
Definition gradient3Dt (s : nd R) : res (nd R) :=
  let* DW := idim s 0 in let* DH := idim s 1 in let* DD := idim s 2 in let* DT := idim s 3 in
  let* g := new [3; DW; DH; DD; DT] in
  assign (loop 0 DT (fun t => loop 1 (DD - 1) (fun k => loop 1 (DH - 1) (fun j => loop 1 (DW - 1) (fun i =>
    [([0; i; j; k; t], rscale (/ 2) (rsub (at_var s [i + 1; j; k; t]) (at_var s [i - 1; j; k; t])));
     ([1; i; j; k; t], rscale (/ 2) (rsub (at_var s [i; j + 1; k; t]) (at_var s [i; j - 1; k; t])));
     ([2; i; j; k; t], rscale (/ 2) (rsub (at_var s [i; j; k + 1; t]) (at_var s [i; j; k - 1; t])))]))))) g.
(** jacobian3D, grad.hh lines 178-216: the row for each of the three components *)
Definition jacobian3D (v : nd R) (b : Z) : res (nd R) :=
  let* DW := idim v 1 in let* DH := idim v 2 in let* DD := idim v 3 in
  let* g := new [3; 3; DW; DH; DD] in
  let g := set_multicomponents g 2 in
  assign (loop b (DD - b) (fun k => loop b (DH - b) (fun j => loop b (DW - b) (fun i => flat_map (fun c =>
    [([c; 0; i; j; k], rscale (/ 2) (rsub (at_var v [c; i + 1; j; k]) (at_var v [c; i - 1; j; k])));
     ([c; 1; i; j; k], rscale (/ 2) (rsub (at_var v [c; i; j + 1; k]) (at_var v [c; i; j - 1; k])));
     ([c; 2; i; j; k], rscale (/ 2) (rsub (at_var v [c; i; j; k + 1]) (at_var v [c; i; j; k - 1])))]) [0; 1; 2])))) g.
(** jacobian3Dt, grad.hh lines 219-259: k starts at 0, and J(0, 1) and J(0, 2) are assigned without time index *)
Definition jacobian3Dt (v : nd R) : res (nd R) :=
  let* DW := idim v 1 in let* DH := idim v 2 in let* DD := idim v 3 in let* DT := idim v 4 in
  let* g := new [3; 3; DW; DH; DD; DT] in
  assign (loop 0 DT (fun t => loop 0 (DD - 2) (fun k => loop 2 (DH - 2) (fun j => loop 2 (DW - 2) (fun i => flat_map (fun c =>
    let idx a := if (c =? 0) && negb (a =? 0) then [c; a; i; j; k] else [c; a; i; j; k; t] in
    [(idx 0, rscale (/ 2) (rsub (at_var v [c; i + 1; j; k; t]) (at_var v [c; i - 1; j; k; t])));
     (idx 1, rscale (/ 2) (rsub (at_var v [c; i; j + 1; k; t]) (at_var v [c; i; j - 1; k; t])));
     (idx 2, rscale (/ 2) (rsub (at_var v [c; i; j; k + 1; t]) (at_var v [c; i; j; k - 1; t])))]) [0; 1; 2]))))) g.
(** the loops of the next four functions: for (k = 1; k < V.dim(3) - 1; ..), with size_t upper bounds *)
Definition interior (v : nd R) (body : Z -> Z -> Z -> list asg) : res (list asg) :=
  let* DD := dim v 3 in let* DH := dim v 2 in let* DW := dim v 1 in
  Ok (loop 1 (u64 (DD - 1)) (fun k => loop 1 (u64 (DH - 1)) (fun j => loop 1 (u64 (DW - 1)) (fun i => body i j k)))).
(** vorticity3D, grad.hh lines 261-277 *)
Definition vorticity3D (v : nd R) : res (nd R) :=
  let* g := new (dims v) in let g := set_multicomponents g 1 in
  let* ws := interior v (fun i j k =>
    [([0; i; j; k], rsub (rsub (at_var v [2; i; j + 1; k]) (at_var v [2; i; j - 1; k])) (rsub (at_var v [1; i; j; k + 1]) (at_var v [1; i; j; k - 1])));
     ([1; i; j; k], rsub (rsub (at_var v [0; i; j; k + 1]) (at_var v [0; i; j; k - 1])) (rsub (at_var v [2; i + 1; j; k]) (at_var v [2; i - 1; j; k])));
     ([2; i; j; k], rsub (rsub (at_var v [1; i + 1; j; k]) (at_var v [1; i - 1; j; k])) (rsub (at_var v [0; i; j + 1; k]) (at_var v [0; i; j - 1; k])))]) in
  assign ws g.
(** cross_product3D, grad.hh lines 279-297 *)
Definition cross_product3D (v w : nd R) : res (nd R) :=
  let* g := new (dims v) in let g := set_multicomponents g 1 in
  let* ws := interior v (fun i j k =>
    [([0; i; j; k], rsub (rmul (at_var v [1; i; j; k]) (at_var w [2; i; j; k])) (rmul (at_var v [2; i; j; k]) (at_var w [1; i; j; k])));
     ([1; i; j; k], radd2 (rmul (rscale (-1) (at_var v [0; i; j; k])) (at_var w [2; i; j; k])) (rmul (at_var v [2; i; j; k]) (at_var w [0; i; j; k])));
     ([2; i; j; k], rsub (rmul (at_var v [0; i; j; k]) (at_var w [1; i; j; k])) (rmul (at_var v [1; i; j; k]) (at_var w [0; i; j; k])))]) in
  assign ws g.
(** JvT_dot_v, grad.hh lines 299-319 *)
Definition JvT_dot_v (v : nd R) : res (nd R) :=
  let* J := jacobian3D v 1 in
  let* g := new (dims v) in let g := set_multicomponents g 1 in
  let* ws := interior v (fun i j k => flat_map (fun c =>
    [([c; i; j; k], radd2 (radd2 (rmul (at_var J [0; c; i; j; k]) (at_var v [0; i; j; k])) (rmul (at_var J [1; c; i; j; k]) (at_var v [1; i; j; k]))) (rmul (at_var J [2; c; i; j; k]) (at_var v [2; i; j; k])))]) [0; 1; 2]) in
  assign ws g.
(** Jv_dot_v, grad.hh lines 321-341 *)
Definition Jv_dot_v (v : nd R) : res (nd R) :=
  let* J := jacobian3D v 1 in
  let* g := new (dims v) in let g := set_multicomponents g 1 in
  let* ws := interior v (fun i j k => flat_map (fun c =>
    [([c; i; j; k], radd2 (radd2 (rmul (at_var J [c; 0; i; j; k]) (at_var v [0; i; j; k])) (rmul (at_var J [c; 1; i; j; k]) (at_var v [1; i; j; k]))) (rmul (at_var J [c; 2; i; j; k]) (at_var v [2; i; j; k])))]) [0; 1; 2]) in
  assign ws g.

(** ** conv.hh *)
(** one term of the sum, conv.hh lines 33-38: real* is size_t, so >= 0 always holds and a negative one wraps *)
Definition tap (data kernel : nd R) (dimx dimy padding x y : Z) (acc : res R) (k : Z * Z) : res R :=
  let (kx, ky) := k in
  let realy := u64 (y - padding + ky) in let realx := u64 (x - padding + kx) in
  if (realx <? dimx) && (realy <? dimy) then radd2 acc (rmul (at_var data [realx; realy]) (at_var kernel [kx; ky])) else acc.
(** conv2D, conv.hh lines 12-46; res(x, y) is accumulated before it is written *)
Definition conv2D (data kernel : nd R) (padding : Z) : res (nd R) :=
  let* dimx := dim data 0 in let* dimy := dim data 1 in
  let* ksizex := dim kernel 0 in let* ksizey := dim kernel 1 in
  let dimx_r := u64 (dimx + padding * 2 - ksizex + 1) in let dimy_r := u64 (dimy + padding * 2 - ksizey + 1) in
  let* g := new [dimx_r; dimy_r] in
  assign (loop 0 dimy_r (fun y => loop 0 dimx_r (fun x =>
    [([x; y], let* s := fold_left (tap data kernel dimx dimy padding x y) (loop 0 ksizey (fun ky => loop 0 ksizex (fun kx => [(kx, ky)]))) (Ok 0%R) in
              Ok (s / IZR (ksizey * ksizex))%R)]))) g.
(** exp(-r / s) at position [i] from the centre of [size] elements; conv.hh lines 51-60 *)
Definition off (size i : Z) : R := (IZR i - IZR (size - 1) * / 2)%R.
(** gaussian_kernel, conv.hh lines 48-70 *)
Definition gaussian_kernel (sigma : R) (size : Z) : list R :=
  let s := (2 * sigma * sigma)%R in
  let kernel := map (fun i => exp (- (off size i * off size i) / s)) (range 0 size) in
  let sum := fold_left Rplus kernel 0%R in
  map (fun v => v / sum)%R kernel.
(** gaussian_kernel2D, conv.hh lines 72-98: the buffer is filled row by row (kernel(i, j) is element i + j * ksizex) and divided by the sum *)
Definition gaussian_kernel2D (sigma : R) (ksizex ksizey : Z) : res (nd R) :=
  let* g := new [ksizex; ksizey] in
  let s := (2 * sigma * sigma)%R in
  let e i j := exp (- (off ksizex i * off ksizex i + off ksizey j * off ksizey j) / s) in
  let* g := assign (loop 0 ksizey (fun j => loop 0 ksizex (fun i => [([i; j], Ok (e i j))]))) g in
  let sum := fold_left Rplus (loop 0 ksizey (fun j => loop 0 ksizex (fun i => [e i j]))) 0%R in
  Ok (with_buf g (map (fun v => v / sum)%R (buf g))).
(** conv2D_gaussian, conv.hh lines 100-112 *)
Definition conv2D_gaussian (data : nd R) (sigma : R) (ksizex ksizey padding : Z) : res (nd R) :=
  let* kernel := gaussian_kernel2D sigma ksizex ksizey in conv2D data kernel padding.
(** conv3D, conv.hh lines 115-158 *)
Definition tap3 (data kernel : nd R) (dimx dimy dimz padding x y z : Z) (acc : res R) (k : Z * Z * Z) : res R :=
  let '(kx, ky, kz) := k in
  let realz := u64 (z - padding + kz) in let realy := u64 (y - padding + ky) in let realx := u64 (x - padding + kx) in
  if (realx <? dimx) && (realy <? dimy) && (realz <? dimz) then radd2 acc (rmul (at_var data [realx; realy; realz]) (at_var kernel [kx; ky; kz])) else acc.
Definition conv3D (data kernel : nd R) (padding : Z) : res (nd R) :=
  let* dimx := dim data 0 in let* dimy := dim data 1 in let* dimz := dim data 2 in
  let* ksizex := dim kernel 0 in let* ksizey := dim kernel 1 in let* ksizez := dim kernel 2 in
  let dimx_r := u64 (dimx + padding * 2 - ksizex + 1) in let dimy_r := u64 (dimy + padding * 2 - ksizey + 1) in let dimz_r := u64 (dimz + padding * 2 - ksizez + 1) in
  let* g := new [dimx_r; dimy_r; dimz_r] in
  assign (loop 0 dimz_r (fun z => loop 0 dimy_r (fun y => loop 0 dimx_r (fun x =>
    [([x; y; z], let* s := fold_left (tap3 data kernel dimx dimy dimz padding x y z) (loop 0 ksizez (fun kz => loop 0 ksizey (fun ky => loop 0 ksizex (fun kx => [(kx, ky, kz)])))) (Ok 0%R) in
                 Ok (s / IZR (ksizez * ksizey * ksizex))%R)])))) g.
(** gaussian_kernel3D, conv.hh lines 160-192 *)
Definition gaussian_kernel3D (sigma : R) (ksizex ksizey ksizez : Z) : res (nd R) :=
  let* g := new [ksizex; ksizey; ksizez] in
  let s := (2 * sigma * sigma)%R in
  let e i j k := exp (- (off ksizex i * off ksizex i + off ksizey j * off ksizey j + off ksizez k * off ksizez k) / s) in
  let* g := assign (loop 0 ksizey (fun j => loop 0 ksizex (fun i => loop 0 ksizez (fun k => [([i; j; k], Ok (e i j k))])))) g in
  let sum := fold_left Rplus (loop 0 ksizey (fun j => loop 0 ksizex (fun i => loop 0 ksizez (fun k => [e i j k])))) 0%R in
  Ok (with_buf g (map (fun v => v / sum)%R (buf g))).
(** conv3D_gaussian, conv.hh lines 194-208 *)
Definition conv3D_gaussian (data : nd R) (sigma : R) (ksizex ksizey ksizez padding : Z) : res (nd R) :=
  let* kernel := gaussian_kernel3D sigma ksizex ksizey ksizez in conv3D data kernel padding.
(** conv_gaussian, conv.hh lines 210-218 *)
Definition conv_gaussian (data : nd R) (sigma : R) (ksize padding : Z) : res (nd R) :=
  if Nat.eqb (length (dims data)) 2 then conv2D_gaussian data sigma ksize ksize padding
  else if Nat.eqb (length (dims data)) 3 then conv3D_gaussian data sigma ksize ksize ksize padding
  else Ok nd_empty.
