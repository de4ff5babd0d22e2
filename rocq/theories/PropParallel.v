(** C44, C45: parallel_for and async_ptr.  Statements only; proofs in [ParallelProofs]. *)
From Verif Require Import Base UnionFind Lattice NdArray Parallel ParallelSpec ParallelProofs.
Local Open Scope Z_scope.

(** C44 for at least one thread and task counts that leave room for one more stride: whatever the
    interleaving of the threads, [f] is entered and left exactly once for each index [0 .. ntasks-1]
    and never for another index. *)
Theorem C44_parallel_for_partial : forall ntasks nthreads,
  1 <= nthreads -> 0 <= ntasks -> ntasks + nthreads <= 2 ^ 31 ->
  exists F, forall fuel, (F <= fuel)%nat -> exists threads,
    parallel_for fuel ntasks nthreads = Ok threads /\
    Z.of_nat (length threads) = Z.max 1 (Z.min ntasks nthreads) /\
    forall tr, interleave threads tr ->
      Permutation (flat_map entered tr) (zseq ntasks) /\ Permutation (flat_map left_ tr) (zseq ntasks).
Proof. exact parallel_for_lemma. Qed.
Print Assumptions C44_parallel_for_partial.

(** C44 refuted for [nthreads == 0] (which [std::thread::hardware_concurrency()] may return): the call
    never returns. *)
Theorem C44_zero_threads_refuted : forall ntasks fuel, 1 <= ntasks < 2 ^ 31 -> parallel_for fuel ntasks 0 = OutOfFuel.
Proof. exact parallel_for_zero_lemma. Qed.
Print Assumptions C44_zero_threads_refuted.

(** C44 refuted for task counts near INT_MAX: the loop counter overflows. *)
Theorem C44_overflow_refuted : exists F, forall fuel, (F <= fuel)%nat -> parallel_for fuel (2 ^ 31 - 1) 2 = UB.
Proof. exact parallel_for_overflow_lemma. Qed.
Print Assumptions C44_overflow_refuted.

Example C44_nonvacuous :
  parallel_for 10 5 2 = Ok [[Enter 0; Leave 0; Enter 2; Leave 2; Enter 4; Leave 4]; [Enter 1; Leave 1; Enter 3; Leave 3]] /\
  interleave [[Enter 0; Leave 0]; [Enter 1; Leave 1]] [Enter 0; Enter 1; Leave 1; Leave 0].
Proof.
  split; [vm_compute; reflexivity|].
  apply il_step with (i := 0%nat) (p := [Leave 0]); [reflexivity|].
  apply il_step with (i := 1%nat) (p := [Leave 1]); [reflexivity|].
  apply il_step with (i := 1%nat) (p := []); [reflexivity|].
  apply il_step with (i := 0%nat) (p := []); [reflexivity|].
  apply il_done. repeat constructor.
Qed.

(** C45, what holds in every interleaving: as long as no memory error has happened the object is
    never deleted while a handle exists and never deleted twice; and when all handles are gone and
    all destructors have returned it has been deleted exactly once. *)
Theorem C45_async_ptr_safety_partial : forall n sched h ts,
  async_run (async_start n) sched = Ok (h, ts) ->
  (obj_live h = false -> handles ts = 0) /\ (obj_live h = true -> deletes h = 0) /\ (obj_live h = false -> deletes h = 1) /\
  (all_idle ts -> handles ts = 0 -> deletes h = 1 /\ obj_live h = false /\ cnt_live h = false).
Proof. exact async_safety_lemma. Qed.
Print Assumptions C45_async_ptr_safety_partial.

(** C45 when the decrement and the test of [clear()] are not separated (in particular on a single
    thread, or under an outer lock): no schedule leads to a memory error. *)
Theorem C45_async_ptr_unseparated_partial : forall n blocks,
  exists h ts, async_run (async_start n) (flat_map glue blocks) = Ok (h, ts).
Proof. exact async_glued_lemma. Qed.
Print Assumptions C45_async_ptr_unseparated_partial.

(** C45 refuted: two threads with one handle each; both decrement before either tests, both see 0,
    both delete. *)
Theorem C45_async_ptr_double_free_refuted :
  async_run (async_start 1)
    [(0%nat, ACopy); (0%nat, ASend 1); (0%nat, ADestroy); (1%nat, ADestroy);
     (0%nat, AStep); (1%nat, AStep); (0%nat, AStep); (1%nat, AStep)] = UB.
Proof. reflexivity. Qed.
Print Assumptions C45_async_ptr_double_free_refuted.

Example C45_nonvacuous : exists h ts,
  async_run (async_start 1) (flat_map glue
    [(0%nat, ACopy); (0%nat, ASend 1); (0%nat, ADestroy); (1%nat, ACopy); (1%nat, ADestroy); (1%nat, ADestroy); (1%nat, AStep); (1%nat, AStep)]) = Ok (h, ts) /\
  handles ts = 0 /\ deletes h = 1.
Proof. eexists _, _. split; [vm_compute; reflexivity|]. split; reflexivity. Qed.
