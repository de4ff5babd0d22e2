(** Model of [object::parallel_for] (include/ftk/object.hh:61-105, pthread backend) and of
    [async_ptr] (include/ftk/utils/async_ptr.hh). *)
From Verif Require Import Base UnionFind Lattice NdArray.
Local Open Scope Z_scope.

(** Signed [int] arithmetic: overflow is undefined behaviour. *)
Definition in_int (x : Z) : bool := (- 2 ^ 31 <=? x) && (x <? 2 ^ 31).
Definition chk (x : Z) : res Z := if in_int x then Ok x else UB.

(** What is visible of [f]: the moment it is entered and the moment it returns. *)
Inductive ev := Enter (j : Z) | Leave (j : Z).

(** [for (auto j = i; j < ntasks; j += nthreads) f(j);], object.hh:73-74 and 79-80 *)
Fixpoint task_loop (fuel : nat) (j ntasks nthreads : Z) : res (list ev) :=
  match fuel with
  | O => OutOfFuel
  | S n =>
      if j <? ntasks then
        let* j' := chk (j + nthreads) in
        let* t := task_loop n j' ntasks nthreads in
        Ok (Enter j :: Leave j :: t)
      else Ok []
  end.

(** The threads of one call, object.hh:67-80: the main thread runs [j = 0, nthreads, ...], worker [i]
    runs [j = i, i + nthreads, ...].  Thread affinity is not modelled. *)
Definition parallel_for (fuel : nat) (ntasks nthreads : Z) : res (list (list ev)) :=
  let nthreads := if nthreads <? ntasks then nthreads else ntasks in
  mapM (fun i => task_loop fuel i ntasks nthreads) (0 :: map (fun i => i + 1) (zseq (nthreads - 1))).

(** An execution of several threads is any interleaving of their programs; [t.join()] (object.hh:82)
    makes the call return after all of them. *)
Inductive interleave {A} : list (list A) -> list A -> Prop :=
| il_done : forall ps, Forall (fun p => p = []) ps -> interleave ps []
| il_step : forall ps i x p tr, nth_error ps i = Some (x :: p) -> interleave (vset ps i p) tr -> interleave ps (x :: tr).

(** ** async_ptr

    One pointee and its counter.  Handles are created by copying (lines 17-20) and destroyed by
    [clear()] (lines 61-67), which is three or four separate memory accesses: [__sync_fetch_and_sub],
    the plain read [*count == 0], [delete p], [delete count].  A handle may also be moved to another
    thread (the creator copies it into the thread's closure).  [unsigned] wrap-around of the counter
    and [operator=] are not modelled. *)
Inductive apc := AIdle | ASubbed | AFree1 | AFree2.
Record athread := { held : Z; apc_of : apc }.
Record aheap := { cnt : Z; cnt_live : bool; obj_live : bool; deletes : Z }.
Inductive aop := ACopy | ADestroy | ASend (to : nat) | AStep.

(** One step of thread [tid]; [UB] is a use after free or a double free. *)
Definition async_step (s : aheap * list athread) (tid : nat) (o : aop) : res (aheap * list athread) :=
  let (h, ts) := s in
  match nth_error ts tid with
  | None => Ok s
  | Some t =>
      match apc_of t, o with
      | AIdle, ACopy =>                                     (* lines 17-20 *)
          if held t <? 1 then Ok s
          else if cnt_live h then
            Ok ({| cnt := cnt h + 1; cnt_live := cnt_live h; obj_live := obj_live h; deletes := deletes h |},
                vset ts tid {| held := held t + 1; apc_of := AIdle |})
          else UB
      | AIdle, ADestroy =>                                  (* line 62 *)
          if held t <? 1 then Ok s
          else if cnt_live h then
            Ok ({| cnt := cnt h - 1; cnt_live := cnt_live h; obj_live := obj_live h; deletes := deletes h |},
                vset ts tid {| held := held t - 1; apc_of := ASubbed |})
          else UB
      | AIdle, ASend to =>
          if (held t <? 1) || (Nat.eqb to tid) then Ok s
          else match nth_error ts to with
               | Some u => Ok (h, vset (vset ts tid {| held := held t - 1; apc_of := AIdle |}) to
                                 {| held := held u + 1; apc_of := apc_of u |})
               | None => Ok s
               end
      | ASubbed, AStep =>                                   (* line 63 *)
          if cnt_live h then
            Ok (h, vset ts tid {| held := held t; apc_of := if cnt h =? 0 then AFree1 else AIdle |})
          else UB
      | AFree1, AStep =>                                    (* line 64 *)
          if obj_live h then
            Ok ({| cnt := cnt h; cnt_live := cnt_live h; obj_live := false; deletes := deletes h + 1 |},
                vset ts tid {| held := held t; apc_of := AFree2 |})
          else UB
      | AFree2, AStep =>                                    (* line 65 *)
          if cnt_live h then
            Ok ({| cnt := cnt h; cnt_live := false; obj_live := obj_live h; deletes := deletes h |},
                vset ts tid {| held := held t; apc_of := AIdle |})
          else UB
      | _, _ => Ok s
      end
  end.

Fixpoint async_run (s : aheap * list athread) (sched : list (nat * aop)) : res (aheap * list athread) :=
  match sched with
  | [] => Ok s
  | (tid, o) :: t => let* s' := async_step s tid o in async_run s' t
  end.

(** the pointer constructor (line 11) in thread 0 of [n + 1] threads *)
Definition async_start (n : nat) : aheap * list athread :=
  ({| cnt := 1; cnt_live := true; obj_live := true; deletes := 0 |},
   {| held := 1; apc_of := AIdle |} :: repeat {| held := 0; apc_of := AIdle |} n).
