(** C01-C04: union-find properties.  Statements only; proofs are in [UnionFindProofs]/[DufProofs]. *)
From Verif Require Import Base UnionFind UnionFindSpec UnionFindProofs Duf DufProofs.

(** C01: after any in-range history, [same_set] decides connectivity by the unions since the last
    reset, [find] returns a member of the class, the same for every member, and nothing is
    undefined or non-terminating.  (Any intermediate call is covered: histories are arbitrary.) *)
Theorem C01_simple_union_find_is_closure : forall n ops, forallb (suf_op_ok n) ops = true ->
  exists s, suf_run (suf_new n) ops = Ok s /\
    (forall p q, p < n -> q < n ->
       exists b s', suf_same s p q = Ok (b, s') /\ (b = true <-> conn (live_unions ops) p q)) /\
    (forall p, p < n ->
       exists r s', suf_find s p = Ok (r, s') /\ r < n /\ conn (live_unions ops) p r /\
         forall q, q < n ->
           exists r' s'', suf_find s' q = Ok (r', s'') /\ (r' = r <-> conn (live_unions ops) p q)).
Proof. exact suf_partition_lemma. Qed.
Print Assumptions C01_simple_union_find_is_closure.

Example C01_nonvacuous :
  forallb (suf_op_ok 5) [SUnite 0 1; SUnite 1 2; SSame 0 2; SReset; SUnite 3 4; SFind 3] = true /\
  live_unions [SUnite 0 1; SUnite 1 2; SSame 0 2; SReset; SUnite 3 4; SFind 3] = [(3, 4)].
Proof. split; reflexivity. Qed.

(** C02: [union_find] with add-before-use histories. *)
Theorem C02_union_find_get_sets : forall (K : Type) (H : OrdKey K) (ops : list (uf_op (K:=K))),
  add_before_use ops ->
  exists s, uf_run uf_new ops = Ok s /\
    (exists sets s', uf_get_sets s = Ok (sets, s') /\ is_partition (uf_added ops) (conn (uf_united ops)) sets) /\
    (forall i j, In i (uf_added ops) -> In j (uf_added ops) ->
       exists b s', uf_same s i j = Ok (b, s') /\ (b = true <-> conn (uf_united ops) i j)) /\
    (forall i, In i (uf_added ops) ->
       exists r s', uf_find s i = Ok (r, s') /\ In r (uf_added ops) /\ conn (uf_united ops) i r /\
         forall j, In j (uf_added ops) ->
           exists r' s'', uf_find s' j = Ok (r', s'') /\ (r' = r <-> conn (uf_united ops) i j)) /\
    (forall i, ~ In i (uf_added ops) -> uf_find s i = UB).
Proof. exact @uf_lemma. Qed.
Print Assumptions C02_union_find_get_sets.

Definition C02_ops : list (uf_op (K:=Z)) :=
  [UAdd 7; UAdd 3; UUnite 7 3; UAdd 5; UAdd 9; UUnite 9 5; UGetSets; UUnite 3 9; UAdd 1]%Z.
Example C02_nonvacuous : add_before_use C02_ops /\
  match uf_run uf_new C02_ops with Ok s => exists s', uf_get_sets s = Ok ([[1]; [3; 5; 7; 9]]%Z, s') | _ => False end.
Proof.
  split.
  - intros pre o post E. unfold C02_ops in E.
    repeat (destruct pre as [|?x pre]; cbn [app] in E;
      [injection E as <- _; intros y Hy; cbn in *; tauto | injection E as <- E]).
    destruct pre; discriminate E.
  - vm_compute. eexists; reflexivity.
Qed.

(** C03: in every single-threaded history, [find] returns the least connected element, equality of
    [find] decides connectivity, [has]/[size] count the mentioned elements and [get_roots] returns
    exactly the minima. *)
Theorem C03_duf_sequential : forall (K : Type) (H : OrdKey K) (ops : list (duf_op (K:=K))),
  exists m, duf_run [] ops = Ok m /\
    (forall i, exists r m', duf_find m i = Ok (r, m') /\ is_min (united ops) i r) /\
    (forall i j, exists r m' r' m'', duf_find m i = Ok (r, m') /\ duf_find m' j = Ok (r', m'') /\
        (r = r' <-> conn (united ops) i j)) /\
    (forall i, duf_has m i = true <-> In i (mentioned ops)) /\
    duf_size m = length (sof (mentioned ops)) /\
    (exists roots m', duf_get_roots m = Ok (roots, m') /\ sorted roots /\
        forall x, In x roots <-> In x (mentioned ops) /\ is_min (united ops) x x).
Proof. exact @duf_seq_lemma. Qed.
Print Assumptions C03_duf_sequential.

Example C03_nonvacuous :
  match duf_run [] [DUnite 5 9; DUnite 9 2; DFind 4; DUnite 7 4]%Z with
  | Ok m => match duf_find m 9%Z with Ok (r, _) => r = 2%Z | _ => False end /\
            match duf_get_roots m with Ok (r, _) => r = [2; 4]%Z | _ => False end
  | _ => False end.
Proof. vm_compute. split; reflexivity. Qed.

(** C04, safety half: in every interleaving nothing is undefined, every [find] terminates and two
    elements never get the same root unless the requested unions connect them. *)
Theorem C04_duf_concurrent_safety_partial :
  forall (K : Type) (H : OrdKey K) (progs : list (list (duf_op (K:=K)))) (sched : list nat),
  exists c, conc_run (conc_init progs) sched = Ok c /\
    forall i j, exists ri m' rj m'', duf_find (mem c) i = Ok (ri, m') /\ duf_find m' j = Ok (rj, m'') /\
      (ri = rj -> conn (united (concat progs)) i j).
Proof. exact @duf_conc_safe_lemma. Qed.
Print Assumptions C04_duf_concurrent_safety_partial.

(** C04, completeness under the extra hypothesis that no write hits a key that stopped being a
    root since it was looked up; then the result is exact. *)
Theorem C04_duf_concurrent_exact_if_no_interference_partial :
  forall (K : Type) (H : OrdKey K) (progs : list (list (duf_op (K:=K)))) (sched : list nat),
  clean_run (conc_init progs) sched ->
  exists c, conc_run (conc_init progs) sched = Ok c /\
    (finished c ->
     forall i j, exists ri m' rj m'', duf_find (mem c) i = Ok (ri, m') /\ duf_find m' j = Ok (rj, m'') /\
      (ri = rj <-> conn (united (concat progs)) i j)).
Proof. exact @duf_conc_clean_lemma. Qed.
Print Assumptions C04_duf_concurrent_exact_if_no_interference_partial.

Example C04_clean_nonvacuous :
  clean_run (conc_init [[DUnite 1 3]; [DUnite 4 5]]%Z) [0; 1; 0; 1; 0; 1] /\
  match conc_run (conc_init [[DUnite 1 3]; [DUnite 4 5]]%Z) [0; 1; 0; 1; 0; 1] with
  | Ok c => finished c | _ => False end.
Proof.
  split.
  - repeat (cbn; split; [intros t i j lo hi E P; cbn in E; injection E as <-; cbn in P;
      first [discriminate P | injection P as <- <- <- <-; reflexivity] | ]). cbn. exact I.
  - vm_compute. intros t [<-|[<-|[]]]; split; reflexivity.
Qed.

(** C04, the full claim is false: two threads, [unite(1,3)] and [unite(2,3)], both finished, yet
    1 and 3 have different roots. *)
Theorem C04_duf_concurrent_union_refuted :
  exists (progs : list (list (duf_op (K:=Z)))) (sched : list nat) c,
    conc_run (conc_init progs) sched = Ok c /\ finished c /\
    exists i j, In (i, j) (united (concat progs)) /\
      exists ri m' rj m'', duf_find (mem c) i = Ok (ri, m') /\ duf_find m' j = Ok (rj, m'') /\ ri <> rj.
Proof.
  exists [[DUnite 1 3]; [DUnite 2 3]]%Z, [0; 1; 0; 1; 0; 1].
  eexists. split; [vm_compute; reflexivity|]. split.
  - vm_compute. intros t [<-|[<-|[]]]; split; reflexivity.
  - exists 1%Z, 3%Z. split; [left; reflexivity|].
    do 4 eexists. split; [vm_compute; reflexivity|]. split; [vm_compute; reflexivity|]. discriminate.
Qed.
Print Assumptions C04_duf_concurrent_union_refuted.
