(** Specification vocabulary: 4-connectivity of the non-zero cells of a [d0 x d1] matrix. *)
From Verif Require Import Base.
Definition cell := (nat * nat)%type.
Definition value (d0 : nat) (m : list nat) (c : cell) : nat := nth (fst c + d0 * snd c) m 0.
Definition inside (d0 d1 : nat) (c : cell) : Prop := fst c < d0 /\ snd c < d1.
Definition occupied (d0 d1 : nat) (m : list nat) (c : cell) : Prop := inside d0 d1 c /\ value d0 m c <> 0.
Definition adjacent (c e : cell) : Prop :=
  (snd c = snd e /\ (fst c = S (fst e) \/ fst e = S (fst c))) \/ (fst c = fst e /\ (snd c = S (snd e) \/ snd e = S (snd c))).
Definition connected4 (d0 d1 : nat) (m : list nat) : cell -> cell -> Prop :=
  clos_refl_sym_trans cell (fun c e => occupied d0 d1 m c /\ occupied d0 d1 m e /\ adjacent c e).
(** a non-zero cell with no non-zero cell to the left of it nor above it *)
Definition is_start (d0 : nat) (m : list nat) (c : cell) : bool :=
  negb (value d0 m c =? 0) &&
  (match fst c with 0 => true | S i => value d0 m (i, snd c) =? 0 end) &&
  (match snd c with 0 => true | S j => value d0 m (fst c, j) =? 0 end).
Definition starts (d0 d1 : nat) (m : list nat) : nat :=
  length (filter (is_start d0 m) (list_prod (seq 0 d0) (seq 0 d1))).
