(** Specification vocabulary for [parallel_for] and [async_ptr]. *)
From Verif Require Import Base Parallel.
Local Open Scope Z_scope.

(** the task indices with which [f] was entered / from which it returned, in trace order *)
Definition entered (e : ev) : list Z := match e with Enter j => [j] | Leave _ => [] end.
Definition left_ (e : ev) : list Z := match e with Leave j => [j] | Enter _ => [] end.

(** number of live handles *)
Definition handles (ts : list athread) : Z := fold_right (fun t a => held t + a) 0 ts.

(** no destructor is in progress *)
Definition all_idle (ts : list athread) : Prop := Forall (fun t => apc_of t = AIdle) ts.

(** A schedule in which the decrement of [clear()] and the read that follows it are never separated
    by another thread's step. *)
Definition glue (b : nat * aop) : list (nat * aop) :=
  match snd b with ADestroy => [b; (fst b, AStep)] | _ => [b] end.
