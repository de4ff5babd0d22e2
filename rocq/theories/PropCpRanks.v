(** C72: critical points on several ranks. *)
From Coq Require Import QArith Qabs.
From Verif Require Import Base UnionFind Lattice LatticeSpec NdArray NdArraySpec ListOrd Parallel RegularMesh RegularMeshSpec SoS SoSSpec Graph FeatureCurve FeatureCurveSet
  CpTracker CpTrackerSpec CpTrackerProofs CpTrackerRun CpRanks CpExamples PropCpTracker.
Local Close Scope Q_scope. Local Open Scope Z_scope. Local Open Scope list_scope.

(** C72: with the default partition every critical point is found by exactly one rank, and the root gathers what a single rank finds; so the traced
    trajectories are the same.  Partial: every rank must use the scaling factor of the whole data ([same_data]); this is so when the ranks are given whole
    arrays (next theorem), and may fail for partial ones (refuted below). *)
Theorem C72_ranks_partial : forall measure c t0 rs fin fuel np partial mr rr,
  config_ok c -> local_domain c = domain c -> streaming c = false -> Forall (snapshot_ok c) (all_pushed rs) -> timely rs -> scheduled c rs -> 0 <= t0 -> t0 + Z.of_nat (length rs) < 2 ^ 31 -> (1 <= np)%nat ->
  (partial = true -> unlimited_time (local_array c) = false /\ Forall (fun x => 0 <= fst x) (local_array c) /\ Forall (fun x => fst x + snd x < 2 ^ 64) (local_array c)) ->
  (forall r, (r < np)%nat -> exists core a, rank_parts fuel (domain c) (local_array c) partial np r = Ok (core, a) /\
     let cr := on_rank c core a in Forall (snapshot_ok cr) (all_pushed (rr r)) /\ timely (rr r) /\ scheduled cr (rr r) /\ same_data measure (mr r) c cr t0 rs (rr r)) ->
  exists st dms, run measure c (init t0) (commands fin rs) = Ok st /\ length dms = np /\
    (forall r core a, (r < np)%nat -> rank_parts fuel (domain c) (local_array c) partial np r = Ok (core, a) ->
       exists sr, run (mr r) (on_rank c core a) (init t0) (commands fin (rr r)) = Ok sr /\ nth_error dms r = Some (disc sr)) /\
    (forall k p, mfind k (disc st) = Some p -> exists r dm, nth_error dms r = Some dm /\ mfind k dm = Some p /\ forall r' dm' p', nth_error dms r' = Some dm' -> mfind k dm' = Some p' -> r' = r) /\
    gathered dms = disc st /\ trace_offline (sdim c) dms = trace_offline (sdim c) [disc st].
Proof.
  intros measure c t0 rs fin fuel np partial mr rr OK Whole Str SO TI SC T0 T1 Np Pa Each. destruct (ranks_lemma measure c t0 rs fin fuel np partial mr rr OK Whole Str SO TI SC T0 T1 Np Pa Each) as (st & dms & H1 & H2 & H3 & H4 & H5).
  exists st, dms. split; [exact H1|]. split; [exact H2|]. split; [exact H3|]. split; [exact H4|]. split; [exact H5|]. unfold trace_offline. rewrite H5. reflexivity.
Qed.
Print Assumptions C72_ranks_partial.
(** every rank is given the whole arrays; the ranks' threads take the tasks in any order *)
Theorem C72_whole_arrays : forall measure c t0 rs fin fuel np rr,
  config_ok c -> local_domain c = domain c -> streaming c = false -> Forall (snapshot_ok c) (all_pushed rs) -> timely rs -> scheduled c rs -> 0 <= t0 -> t0 + Z.of_nat (length rs) < 2 ^ 31 -> (1 <= np)%nat ->
  (forall r, (r < np)%nat -> exists core, rank_parts fuel (domain c) (local_array c) false np r = Ok (core, local_array c) /\ map batch (rr r) = map batch rs /\ scheduled (on_rank c core (local_array c)) (rr r)) ->
  exists st dms, run measure c (init t0) (commands fin rs) = Ok st /\ length dms = np /\
    (forall r core a, (r < np)%nat -> rank_parts fuel (domain c) (local_array c) false np r = Ok (core, a) ->
       exists sr, run measure (on_rank c core a) (init t0) (commands fin (rr r)) = Ok sr /\ nth_error dms r = Some (disc sr)) /\
    (forall k p, mfind k (disc st) = Some p -> exists r dm, nth_error dms r = Some dm /\ mfind k dm = Some p /\ forall r' dm' p', nth_error dms r' = Some dm' -> mfind k dm' = Some p' -> r' = r) /\
    gathered dms = disc st /\ trace_offline (sdim c) dms = trace_offline (sdim c) [disc st].
Proof.
  intros measure c t0 rs fin fuel np rr OK Whole Str SO TI SC T0 T1 Np Each. apply (C72_ranks_partial measure c t0 rs fin fuel np false (fun _ => measure) rr); try assumption; [discriminate|].
  intros r Hr. destruct (Each r Hr) as (core & E & B & Sd). exists core, (local_array c). split; [exact E|]. cbv zeta. assert (A : all_pushed (rr r) = all_pushed rs) by (unfold all_pushed; rewrite B; reflexivity).
  split; [rewrite A; exact SO|]. split; [|split; [exact Sd|apply same_data_whole; exact B]].
  intros i Hi. assert (L : length (rr r) = length rs) by (rewrite <- (map_length batch), B, map_length; reflexivity). unfold pushed. assert (Fi : all_pushed (firstn (S i) (rr r)) = all_pushed (firstn (S i) rs)) by (unfold all_pushed; rewrite <- !firstn_map, B; reflexivity). rewrite Fi, A. apply TI. lia.
Qed.
Print Assumptions C72_whole_arrays.
Example C72_nonvacuous : let c := square 2 None false in forall r, (r < 2)%nat -> exists core, rank_parts 20 (domain c) (local_array c) false 2 r = Ok (core, local_array c) /\
  let cr := on_rank c core (local_array c) in let rr := [mkr [bowl 2 9 4; bowl 2 19 4] (backwards cr); mkr [] (in_turn cr)] in map batch rr = map batch (ex_rounds c) /\ scheduled cr rr.
Proof.
  cbv zeta. intros r Hr. destruct r as [|[|r]]; [| |lia]; (eexists; split; [vm_compute; reflexivity|]; split; [reflexivity|]; apply scheduled_ok; [left; reflexivity|]; apply Forall_cons; [right; reflexivity|]; apply Forall_cons; [left; reflexivity|]; apply Forall_nil).
Qed.

(** A strip of 5 x 2 vertices on two ranks with partial arrays.  The first rank does not see the tiny value at the far end and scales by 256 instead of
    2^20: a critical point that a single rank finds is found by no rank. *)
Definition strip : config := mkcf 2 [(0, 5); (0, 2)] [(0, 5); (0, 2)] [(0, 5); (0, 2)] 0 4 None false.
Definition strip_value (x y : Z) : list Z :=
  if x =? 4 then [1; 3145728]
  else if 2 <=? x then [3145728; 3145728]
  else if y =? 0 then (if x =? 0 then [-1048576; -1048576] else [1049600; 1050624])
  else [1048576; -1048576].
(** the first [w] columns *)
Definition strip_field (w : Z) : snapshot := arr [2; w; 2] (flat_map (fun y => flat_map (fun x => strip_value x y) (zseq w)) (zseq 2)) 1048576.
Definition strip_run (c : config) (w : Z) := run still c (init 0) (commands true [mkr [strip_field w] (in_turn c)]).
Theorem C72_partial_arrays_refuted :
  let c0 := on_rank strip [(0, 2); (0, 2)] [(0, 4); (0, 2)] in let c1 := on_rank strip [(2, 3); (0, 2)] [(0, 5); (0, 2)] in
  rank_parts 20 (domain strip) (local_array strip) true 2 0 = Ok (local_domain c0, local_array c0) /\ rank_parts 20 (domain strip) (local_array strip) true 2 1 = Ok (local_domain c1, local_array c1) /\
  config_ok strip /\ snapshot_ok strip (strip_field 5) /\ config_ok c0 /\ snapshot_ok c0 (strip_field 4) /\ config_ok c1 /\ snapshot_ok c1 (strip_field 5) /\
  (forall x y j, 0 <= x < 4 -> 0 <= y < 2 -> (j < 2)%nat -> field_value c0 [strip_field 4] 0 [x; y; 0] j = field_value strip [strip_field 5] 0 [x; y; 0] j) /\
  exists st s0 s1 k p, strip_run strip 5 = Ok st /\ strip_run c0 4 = Ok s0 /\ strip_run c1 5 = Ok s1 /\ mfind k (disc st) = Some p /\ mfind k (disc s0) = None /\ mfind k (disc s1) = None.
Proof.
  cbv zeta. split; [vm_compute; reflexivity|]. split; [vm_compute; reflexivity|].
  assert (OK : config_ok strip). { constructor; cbn -[Z.pow Z.add Z.mul]; [left; reflexivity|split; [reflexivity|vm_compute; reflexivity]|by_cases; cbn; lia| |lia|vm_compute; reflexivity].
    split; [reflexivity|]. intros i a l e H1 H2 H3. destruct i as [|[|i]]; cbn in *; [| |destruct i; discriminate]; injection H1 as <-; injection H2 as <-; injection H3 as <-; cbn; lia. }
  assert (OKr : forall r core a, rank_parts 20 (domain strip) (local_array strip) true 2 r = Ok (core, a) -> config_ok (on_rank strip core a)).
  { intros r core a H. eapply rank_parts_ok; [exact OK|reflexivity| |exact H]. intros _. split; [reflexivity|]. split; repeat constructor; cbn; lia. }
  split; [exact OK|]. split; [apply arr_ok; vm_compute; reflexivity|]. split; [apply (OKr 0%nat); vm_compute; reflexivity|]. split; [apply arr_ok; vm_compute; reflexivity|]. split; [apply (OKr 1%nat); vm_compute; reflexivity|]. split; [apply arr_ok; vm_compute; reflexivity|]. split.
  - intros x y j Hx Hy Hj. assert (x = 0 \/ x = 1 \/ x = 2 \/ x = 3) as Dx by lia. assert (y = 0 \/ y = 1) as Dy by lia. assert (j = 0 \/ j = 1)%nat as Dj by lia.
    destruct Dx as [-> |[-> |[-> | ->]]], Dy as [-> | ->], Dj as [-> | ->]; vm_compute; reflexivity.
  - unfold strip_run. rewrite !fast2 by reflexivity.
    assert (E : match fast_run still strip tyo2 tyi2 (init 0) (commands true [mkr [strip_field 5] (in_turn strip)]) with Ok st => Some (map fst (disc st)) | _ => None end = Some [([0; 0; 0], 8%nat)]) by (vm_compute; reflexivity).
    destruct (fast_run still strip _ _ _ _) as [st| |]; [|discriminate E|discriminate E]. injection E as E.
    assert (E0 : match fast_run still (on_rank strip [(0, 2); (0, 2)] [(0, 4); (0, 2)]) tyo2 tyi2 (init 0) (commands true [mkr [strip_field 4] (in_turn (on_rank strip [(0, 2); (0, 2)] [(0, 4); (0, 2)]))]) with Ok st => Some (map fst (disc st)) | _ => None end = Some []) by (vm_compute; reflexivity).
    destruct (fast_run still (on_rank strip [(0, 2); (0, 2)] [(0, 4); (0, 2)]) _ _ _ _) as [s0| |]; [|discriminate E0|discriminate E0]. injection E0 as E0.
    assert (E1 : match fast_run still (on_rank strip [(2, 3); (0, 2)] [(0, 5); (0, 2)]) tyo2 tyi2 (init 0) (commands true [mkr [strip_field 5] (in_turn (on_rank strip [(2, 3); (0, 2)] [(0, 5); (0, 2)]))]) with Ok st => Some (map fst (disc st)) | _ => None end = Some []) by (vm_compute; reflexivity).
    destruct (fast_run still (on_rank strip [(2, 3); (0, 2)] [(0, 5); (0, 2)]) _ _ _ _) as [s1| |]; [|discriminate E1|discriminate E1]. injection E1 as E1.
    destruct (disc st) as [|[k p] l] eqn:Ed; [discriminate E|]. injection E as Ek _. exists st, s0, s1, k, p. split; [reflexivity|]. split; [reflexivity|]. split; [reflexivity|]. rewrite Ed. cbn [mfind]. rewrite keqb_refl.
    split; [reflexivity|]. split; [destruct (disc s0); [reflexivity|discriminate E0]|destruct (disc s1); [reflexivity|discriminate E1]].
Qed.
Print Assumptions C72_partial_arrays_refuted.
