(** Specification vocabulary for the simulation-of-simplicity predicates. *)
From Coq Require Import QArith.
From Verif Require Import Base.
Local Open Scope Q_scope.

(** [e^n] *)
Fixpoint qpow (e : Q) (n : nat) : Q := match n with O => 1 | S n => e * qpow e n end.

(** sign of a rational: -1, 0 or 1 *)
Definition qsgn (x : Q) : Z := Z.sgn (Qnum x).

(** Edelsbrunner-Mucke perturbation of the point number [i] (counted from 0) in dimension [d]: the
    coordinate [j] (counted from 1) is moved by [e ^ (2 ^ (i*d + d - j))]. *)
Definition pert1 (e : Q) (i : nat) (p : Z) : Q := inject_Z p + qpow e (2 ^ i).
Definition pert2 (e : Q) (i : nat) (p : Z * Z) : Q * Q :=
  (inject_Z (fst p) + qpow e (2 ^ (i * 2 + 1)), inject_Z (snd p) + qpow e (2 ^ (i * 2))).
Definition pert3 (e : Q) (i : nat) (p : Z * Z * Z) : Q * Q * Q :=
  (inject_Z (fst (fst p)) + qpow e (2 ^ (i * 3 + 2)), inject_Z (snd (fst p)) + qpow e (2 ^ (i * 3 + 1)),
   inject_Z (snd p) + qpow e (2 ^ (i * 3))).

(** integer points as rational points *)
Definition q2 (p : Z * Z) : Q * Q := (inject_Z (fst p), inject_Z (snd p)).
Definition q3 (p : Z * Z * Z) : Q * Q * Q := (inject_Z (fst (fst p)), inject_Z (snd (fst p)), inject_Z (snd p)).

(** orientation determinants [| p 1 |] *)
Definition odet1 (a b : Q) : Q := a - b.
Definition odet2 (a b c : Q * Q) : Q :=
  (fst a - fst c) * (snd b - snd c) - (snd a - snd c) * (fst b - fst c).
Definition vdet3 (a b c : Q * Q * Q) : Q :=
  let '(a0, a1, a2) := a in let '(b0, b1, b2) := b in let '(c0, c1, c2) := c in
  a0 * (b1 * c2 - b2 * c1) - a1 * (b0 * c2 - b2 * c0) + a2 * (b0 * c1 - b1 * c0).
Definition vsub3 (a b : Q * Q * Q) : Q * Q * Q :=
  (fst (fst a) - fst (fst b), snd (fst a) - snd (fst b), snd a - snd b).
Definition odet3 (a b c d : Q * Q * Q) : Q := vdet3 (vsub3 a d) (vsub3 b d) (vsub3 c d).

(** number of pairs of positions whose keys are in decreasing order *)
Fixpoint inversions {A} (l : list (Z * A)) : nat :=
  match l with
  | [] => O
  | x :: t => (length (filter (fun y => (fst y <? fst x)%Z) t) + inversions t)%nat
  end.

(** the facets of a simplex: drop one vertex *)
Definition facets {A} (l : list A) : list (list A) :=
  map (fun i => firstn i l ++ skipn (S i) l) (seq 0 (length l)).
Definition count_true (l : list bool) : nat := length (filter (fun b => b) l).

(** the open simplex: the point [o] is a convex combination of the corners with all weights positive *)
Definition inside2 (o a b c : Q * Q) : Prop :=
  exists l0 l1 l2, 0 < l0 /\ 0 < l1 /\ 0 < l2 /\ l0 + l1 + l2 == 1 /\
    l0 * fst a + l1 * fst b + l2 * fst c == fst o /\ l0 * snd a + l1 * snd b + l2 * snd c == snd o.
Definition inside3 (o a b c d : Q * Q * Q) : Prop :=
  exists l0 l1 l2 l3, 0 < l0 /\ 0 < l1 /\ 0 < l2 /\ 0 < l3 /\ l0 + l1 + l2 + l3 == 1 /\
    l0 * fst (fst a) + l1 * fst (fst b) + l2 * fst (fst c) + l3 * fst (fst d) == fst (fst o) /\
    l0 * snd (fst a) + l1 * snd (fst b) + l2 * snd (fst c) + l3 * snd (fst d) == snd (fst o) /\
    l0 * snd a + l1 * snd b + l2 * snd c + l3 * snd d == snd o.
(** The perturbed zero is inside the perturbed simplex, for every small enough perturbation.  The simplex is a list of (index, vector)
    pairs; the vector with index [i] is number [i+1] of the perturbation and the zero is number 0. *)
Definition zero_inside2 (L : list (Z * (Z * Z))) : Prop :=
  match L with
  | [a; b; c] => let w := fun e p => pert2 e (Z.to_nat (fst p + 1)) (snd p) in
      exists e0, 0 < e0 /\ forall e, 0 < e -> e <= e0 -> inside2 (pert2 e 0 (0, 0)%Z) (w e a) (w e b) (w e c)
  | _ => False
  end.
Definition zero_inside3 (L : list (Z * (Z * Z * Z))) : Prop :=
  match L with
  | [a; b; c; d] => let w := fun e p => pert3 e (Z.to_nat (fst p + 1)) (snd p) in
      exists e0, 0 < e0 /\ forall e, 0 < e -> e <= e0 -> inside3 (pert3 e 0 (0, 0, 0)%Z) (w e a) (w e b) (w e c) (w e d)
  | _ => False
  end.
