(** Model of [ftk::duf] (include/ftk/basic/duf.hh). *)
From Verif Require Import Base.

Section Duf.
  Context {K : Type} `{OrdKey K}.

  (** [mutable std::map<T, T, Compare> parents], duf.hh:27.  [Compare] is [std::less<T>] and agrees
      with the [operator>] used by [unite]. *)
  Definition dmap := list (K * K).

  (** [parents[i]].  [operator[]] on a missing key would insert a value-initialised entry; the
      model reports this as [UB] and the theorems show that it never happens. *)
  Definition dat (m : dmap) (i : K) : res K := of_option (mfind i m).

  (** The while loop of [find], duf.hh:66-70. *)
  Fixpoint duf_find_loop (fuel : nat) (m : dmap) (i : K) : res (K * dmap) :=
    match fuel with
    | O => OutOfFuel
    | S f =>
        let* p := dat m i in
        if keqb i p then Ok (i, m)
        else
          let* g := dat m p in
          let m1 := mset i g m in
          let* i1 := dat m1 i in
          duf_find_loop f m1 i1
    end.

  (** [find], duf.hh:58-72: one critical section. *)
  Definition duf_find (m : dmap) (i : K) : res (K * dmap) :=
    match mfind i m with
    | None => Ok (i, mins i i m)
    | Some _ => duf_find_loop (S (length m)) m i
    end.

  (** The locked write of [unite], duf.hh:51-54. *)
  Definition duf_write (m : dmap) (lo hi : K) : dmap := mset hi lo m.

  (** [if (i > j) std::swap(i, j)], duf.hh:48; the result is (smaller, larger). *)
  Definition order2 (i j : K) : K * K := if kltb j i then (j, i) else (i, j).

  (** [unite], duf.hh:42-55, executed without interference. *)
  Definition duf_unite (m : dmap) (i j : K) : res dmap :=
    let* (ri, m1) := duf_find m i in
    let* (rj, m2) := duf_find m1 j in
    if keqb ri rj then Ok m2
    else let (lo, hi) := order2 ri rj in Ok (duf_write m2 lo hi).

  (** [has], duf.hh:35-39, and [size], duf.hh:18. *)
  Definition duf_has (m : dmap) (i : K) : bool := match mfind i m with Some _ => true | None => false end.
  Definition duf_size (m : dmap) : nat := length m.

  (** [get_roots], duf.hh:85-94: the range-for visits the keys in order; [find] only rewrites
      mapped values, so the visited keys are those present at entry. *)
  Fixpoint duf_roots_loop (m : dmap) (todo : list K) (roots : list K) : res (list K * dmap) :=
    match todo with
    | [] => Ok (roots, m)
    | k :: t =>
        let* v := dat m k in
        let* (r, m') := duf_find m v in
        duf_roots_loop m' t (if keqb k r then sins k roots else roots)
    end.
  Definition duf_get_roots (m : dmap) : res (list K * dmap) := duf_roots_loop m (mkeys m) [].

  (** ** Sequential histories *)
  Inductive duf_op := DUnite (i j : K) | DFind (i : K).

  Definition duf_step (m : dmap) (o : duf_op) : res dmap :=
    match o with
    | DUnite i j => duf_unite m i j
    | DFind i => let* (_, m') := duf_find m i in Ok m'
    end.

  Fixpoint duf_run (m : dmap) (ops : list duf_op) : res dmap :=
    match ops with
    | [] => Ok m
    | o :: t => let* m' := duf_step m o in duf_run m' t
    end.

  (** ** Concurrent histories
      Each [find] and the final write of [unite] is one mutex-protected section, hence one atomic
      step; everything between them works on thread-local copies. *)
  (** [i0 j0] are the arguments of the call in progress, kept for the specification only. *)
  Inductive pc :=
  | Idle
  | Got1 (i0 j0 : K) (ri : K)      (* [i = find(i)] done (duf.hh:44) *)
  | Got2 (i0 j0 : K) (lo hi : K).  (* both finds and the swap done (duf.hh:45-48), write pending *)

  Record thread := { tpc : pc; todo : list duf_op }.

  Definition thread_step (m : dmap) (t : thread) : res (dmap * thread) :=
    match tpc t with
    | Idle =>
        match todo t with
        | [] => Ok (m, t)
        | DFind i :: rest => let* (_, m') := duf_find m i in Ok (m', {| tpc := Idle; todo := rest |})
        | DUnite i j :: rest => let* (ri, m') := duf_find m i in Ok (m', {| tpc := Got1 i j ri; todo := rest |})
        end
    | Got1 i j ri =>
        let* (rj, m') := duf_find m j in
        if keqb ri rj then Ok (m', {| tpc := Idle; todo := todo t |})
        else let (lo, hi) := order2 ri rj in Ok (m', {| tpc := Got2 i j lo hi; todo := todo t |})
    | Got2 _ _ lo hi => Ok (duf_write m lo hi, {| tpc := Idle; todo := todo t |})
    end.

  Fixpoint upd_nth (l : list thread) (n : nat) (t : thread) : list thread :=
    match l, n with
    | [], _ => []
    | _ :: r, O => t :: r
    | x :: r, S n => x :: upd_nth r n t
    end.

  Record config := { mem : dmap; threads : list thread }.

  Definition conc_step (c : config) (tid : nat) : res config :=
    match nth_error (threads c) tid with
    | None => Ok c
    | Some t => let* (m, t') := thread_step (mem c) t in
                Ok {| mem := m; threads := upd_nth (threads c) tid t' |}
    end.

  Fixpoint conc_run (c : config) (sched : list nat) : res config :=
    match sched with
    | [] => Ok c
    | tid :: s => let* c' := conc_step c tid in conc_run c' s
    end.

  Definition conc_init (progs : list (list duf_op)) : config :=
    {| mem := []; threads := map (fun p => {| tpc := Idle; todo := p |}) progs |}.
End Duf.

(** ** Specification vocabulary *)
Section Spec.
  Context {K : Type} `{OrdKey K}.
  Definition united (ops : list (duf_op (K:=K))) : list (K * K) :=
    flat_map (fun o => match o with DUnite i j => [(i, j)] | _ => [] end) ops.
  Definition mentioned (ops : list (duf_op (K:=K))) : list K :=
    flat_map (fun o => match o with DUnite i j => [i; j] | DFind i => [i] end) ops.
  (** [r] is the smallest element connected to [i]. *)
  Definition is_min (us : list (K * K)) (i r : K) : Prop :=
    conn us i r /\ forall y, conn us i y -> r = y \/ klt r y.
  Definition finished (c : config (K:=K)) : Prop :=
    forall t, In t (threads c) -> tpc t = Idle /\ todo t = [].
  (** A write is clean when its target is still a root at the moment of the write. *)
  Definition clean_step (c : config (K:=K)) (tid : nat) : Prop :=
    forall t i j lo hi, nth_error (threads c) tid = Some t -> tpc t = Got2 i j lo hi -> mfind hi (mem c) = Some hi.
  Fixpoint clean_run (c : config (K:=K)) (sched : list nat) : Prop :=
    match sched with
    | [] => True
    | tid :: s => clean_step c tid /\ match conc_step c tid with Ok c' => clean_run c' s | _ => True end
    end.
End Spec.
