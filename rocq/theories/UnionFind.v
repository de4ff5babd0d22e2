(** Model of [simple_union_find] and [union_find]. *)
From Verif Require Import Base.

(** ** Vectors: out-of-bounds [operator[]] is undefined behaviour *)
Definition vget {A} (l : list A) (i : nat) : res A := of_option (nth_error l i).

Fixpoint vset {A} (l : list A) (i : nat) (v : A) : list A :=
  match l, i with
  | [], _ => []
  | _ :: t, O => v :: t
  | x :: t, S i => x :: vset t i v
  end.

(** [l[i] = v] *)
Definition vput {A} (l : list A) (i : nat) (v : A) : res (list A) :=
  if Nat.ltb i (length l) then Ok (vset l i v) else UB.

(** [size_t] arithmetic wraps. *)
Definition szadd (a b : Z) : Z := ((a + b) mod 2 ^ 64)%Z.

(** ** simple_union_find.hh:15-67 *)
(** The two vectors, lines 65-66. Ids are [nat] (the default [IdType] is [size_t]). *)
Record suf := { spar : list nat; ssz : list Z }.

(** Constructor and [reset], lines 17-28. *)
Definition suf_new (n : nat) : suf := {| spar := seq 0 n; ssz := repeat 1%Z n |}.

(** [reset], lines 25-28: only [id2parent] is reinitialised, [sz] is kept. *)
Definition suf_reset (s : suf) : suf := {| spar := seq 0 (length (spar s)); ssz := ssz s |}.

(** [find], lines 52-58 (path halving). *)
Fixpoint suf_find_loop (fuel : nat) (p : list nat) (i : nat) : res (nat * list nat) :=
  match fuel with
  | O => OutOfFuel
  | S f =>
      let* pi := vget p i in
      if Nat.eqb i pi then Ok (i, p)
      else
        let* g := vget p pi in
        let* p1 := vput p i g in
        let* i1 := vget p1 i in
        suf_find_loop f p1 i1
  end.

(** The fuel [length + 1] bounds the loop; theorems show it is never exhausted. *)
Definition suf_find (s : suf) (i : nat) : res (nat * suf) :=
  let* (r, p) := suf_find_loop (S (length (spar s))) (spar s) i in
  Ok (r, {| spar := p; ssz := ssz s |}).

(** [unite], lines 33-46. *)
Definition suf_unite (s : suf) (p q : nat) : res suf :=
  let* (i, s1) := suf_find s p in
  let* (j, s2) := suf_find s1 q in
  let* si := vget (ssz s2) i in
  let* sj := vget (ssz s2) j in
  if (si <? sj)%Z then
    let* par' := vput (spar s2) i j in
    let* sz' := vput (ssz s2) j (szadd sj si) in
    Ok {| spar := par'; ssz := sz' |}
  else
    let* par' := vput (spar s2) j i in
    let* sz' := vput (ssz s2) i (szadd si sj) in
    Ok {| spar := par'; ssz := sz' |}.

(** [same_set], lines 60-62. *)
Definition suf_same (s : suf) (p q : nat) : res (bool * suf) :=
  let* (i, s1) := suf_find s p in
  let* (j, s2) := suf_find s1 q in
  Ok (Nat.eqb i j, s2).

(** A history of public calls. *)
Inductive suf_op := SUnite (p q : nat) | SFind (p : nat) | SSame (p q : nat) | SReset.

Definition suf_step (s : suf) (o : suf_op) : res suf :=
  match o with
  | SUnite p q => suf_unite s p q
  | SFind p => let* (_, s') := suf_find s p in Ok s'
  | SSame p q => let* (_, s') := suf_same s p q in Ok s'
  | SReset => Ok (suf_reset s)
  end.

Fixpoint suf_run (s : suf) (ops : list suf_op) : res suf :=
  match ops with
  | [] => Ok s
  | o :: t => let* s' := suf_step s o in suf_run s' t
  end.

(** ** union_find.hh:25-149 *)
Section UF.
  Context {K : Type} `{OrdKey K}.

  (** The data members, lines 143-148. *)
  Record uf := { ueles : list K; upar : list (K * K); usz : list (K * Z) }.

  Definition uf_new : uf := {| ueles := []; upar := []; usz := [] |}.

  (** [id2parent.find(i)->second]: dereferencing [end()] is undefined behaviour. *)
  Definition deref (m : list (K * K)) (i : K) : res K := of_option (mfind i m).

  (** [id2parent.find(i)->second = v] *)
  Definition assign (m : list (K * K)) (i v : K) : res (list (K * K)) :=
    match mfind i m with Some _ => Ok (mset i v m) | None => UB end.

  (** [has], lines 70-72 *)
  Definition uf_has (s : uf) (i : K) : bool := smem i (ueles s).

  (** [add], lines 33-42 *)
  Definition uf_add (s : uf) (i : K) : uf :=
    if uf_has s i then s
    else {| ueles := sins i (ueles s); upar := mins i i (upar s); usz := mset i 1%Z (usz s) |}.

  (** [find], lines 86-101.  [IdType& parent_i] is a reference bound once to the slot of the
      argument [i0]; reading [parent_i] reads [id2parent[i0]] and line 97 writes it. *)
  Fixpoint uf_find_loop (fuel : nat) (m : list (K * K)) (i0 i : K) : res (K * list (K * K)) :=
    match fuel with
    | O => OutOfFuel
    | S f =>
        let* parent_i := deref m i0 in
        if keqb i parent_i then Ok (i, m)
        else
          let* g := deref m parent_i in
          let* m1 := assign m i g in
          let* i1 := deref m1 i in
          let* v := deref m1 i1 in
          let* m2 := assign m1 i0 v in
          uf_find_loop f m2 i0 i1
    end.

  Definition uf_find (s : uf) (i : K) : res (K * uf) :=
    let* (r, m) := uf_find_loop (S (length (upar s))) (upar s) i i in
    Ok (r, {| ueles := ueles s; upar := m; usz := usz s |}).

  (** [sz[i]]: [std::map::operator[]] value-initialises a missing entry to 0. *)
  Definition szat (m : list (K * Z)) (i : K) : Z := match mfind i m with Some v => v | None => 0%Z end.

  (** [unite], lines 47-66 *)
  Definition uf_unite (s : uf) (i j : K) : res uf :=
    let* (ri, s1) := uf_find s i in
    let* (rj, s2) := uf_find s1 j in
    let si := szat (usz s2) ri in
    let sj := szat (usz s2) rj in
    if (si <? sj)%Z then
      let* m := assign (upar s2) ri rj in
      Ok {| ueles := ueles s2; upar := m; usz := mset rj (szadd sj si) (usz s2) |}
    else
      let* m := assign (upar s2) rj ri in
      Ok {| ueles := ueles s2; upar := m; usz := mset ri (szadd si sj) (usz s2) |}.

  (** [same_set], lines 111-117 *)
  Definition uf_same (s : uf) (i j : K) : res (bool * uf) :=
    let* (ri, s1) := uf_find s i in
    let* (rj, s2) := uf_find s1 j in
    Ok (keqb ri rj, s2).

  (** [get_sets], lines 121-133: the loop over [eles]. *)
  Fixpoint uf_sets_loop (s : uf) (todo : list K) (r2s : list (K * list K)) : res (list (K * list K) * uf) :=
    match todo with
    | [] => Ok (r2s, s)
    | e :: t =>
        let* (r, s') := uf_find s e in
        let old := match mfind r r2s with Some x => x | None => [] end in
        uf_sets_loop s' t (mset r (sins e old) r2s)
    end.

  Definition uf_get_sets (s : uf) : res (list (list K) * uf) :=
    let* (r2s, s') := uf_sets_loop s (ueles s) [] in
    Ok (map snd r2s, s').

  (** A history of public calls. *)
  Inductive uf_op := UAdd (i : K) | UUnite (i j : K) | UFind (i : K) | USame (i j : K) | UGetSets.

  Definition uf_step (s : uf) (o : uf_op) : res uf :=
    match o with
    | UAdd i => Ok (uf_add s i)
    | UUnite i j => uf_unite s i j
    | UFind i => let* (_, s') := uf_find s i in Ok s'
    | USame i j => let* (_, s') := uf_same s i j in Ok s'
    | UGetSets => let* (_, s') := uf_get_sets s in Ok s'
    end.

  Fixpoint uf_run (s : uf) (ops : list uf_op) : res uf :=
    match ops with
    | [] => Ok s
    | o :: t => let* s' := uf_step s o in uf_run s' t
    end.
End UF.
