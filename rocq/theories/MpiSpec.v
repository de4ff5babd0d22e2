(** Specification vocabulary for C46-C48, C60, C61. *)
From Verif Require Import Base Serial.
Local Open Scope nat_scope. Local Open Scope list_scope.
(** the value of [k] in the first of the maps that has it *)
Fixpoint lookup_first {K V} `{OrdKey K} (k : K) (ms : list (list (K * V))) : option V :=
  match ms with [] => None | m :: ms => match mfind k m with Some v => Some v | None => lookup_first k ms end end.
(** all ranks' values but one, in rank order *)
Definition others {A} (l : list A) (r : nat) : list A := firstn r l ++ skipn (1 + r) l.
Fixpoint sum (l : list nat) : nat := match l with [] => 0 | x :: l => x + sum l end.
(** serialized size, in bytes *)
Definition size {A} (S : ser A) (x : A) : nat := length (serialize_to_string S x).
(** fits an [int] *)
Definition fits_int (n : nat) : Prop := (Z.of_nat n < 2 ^ 31)%Z.
(** a two-level lookup *)
Definition find2 {K V} `{OrdKey K} (k j : K) (t : list (K * list (K * V))) : option V :=
  match mfind k t with Some m => mfind j m | None => None end.
Fixpoint find2_first {K V} `{OrdKey K} (k j : K) (ts : list (list (K * list (K * V)))) : option V :=
  match ts with [] => None | t :: ts => match find2 k j t with Some v => Some v | None => find2_first k j ts end end.
(** the entries of a table whose key belongs to rank [r] of [np] *)
Definition owned {K A} (hash : K -> Z) (np r : nat) (t : list (K * A)) : list (K * A) :=
  filter (fun kv => (hash (fst kv) mod Z.of_nat np =? Z.of_nat r)%Z) t.
