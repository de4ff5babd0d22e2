(** C73: streaming trajectories on several ranks. *)
From Coq Require Import QArith Qabs.
From Verif Require Import Base UnionFind Lattice LatticeSpec NdArray NdArraySpec ListOrd Parallel RegularMesh RegularMeshSpec SoS SoSSpec Graph FeatureCurve FeatureCurveSet
  CpTracker CpTrackerSpec CpTrackerProofs CpTrackerRun CpRanks CpExamples PropCpTracker PropCpRanks.
Local Close Scope Q_scope. Local Open Scope Z_scope. Local Open Scope list_scope.

Lemma scan_keeps measure c ks : forall st st', scan measure c st ks = Ok st' -> snaps st' = snaps st /\ cur st' = cur st /\ reso st' = reso st /\ traced st' = traced st.
Proof.
  induction ks as [|k ks IH]; intros st st' H; cbn [scan] in H; [injection H as <-; auto|]. destruct (check_simplex measure c st k) as [o| |]; cbn [bind] in H; try discriminate. apply IH in H as (-> & -> & -> & ->).
  destruct o as [p|]; [destruct (passes c p)|]; auto.
Qed.
Lemma scope_keeps measure c sc o st st' : scan_scope measure c st sc o = Ok st' -> snaps st' = snaps st /\ cur st' = cur st /\ reso st' = reso st /\ traced st' = traced st.
Proof. unfold scan_scope. destruct (mapM _ o) as [els| |]; cbn [bind]; try discriminate. apply scan_keeps. Qed.
(** streaming is detection followed by tracing *)
Lemma update_detects measure c st o : streaming c = true ->
  update_timestep measure c st o = let* s := update_timestep measure (detecting c) st o in
    if (2 <=? length (snaps st))%nat then let* t := trace_online c (traced s) (disc s) in Ok (mkst (snaps s) (cur s) (reso s) [] t) else Ok s.
Proof.
  intros Str. unfold update_timestep. rewrite Str. cbn [detecting streaming].
  assert (Sc : forall s sc o', scan_scope measure (detecting c) s sc o' = scan_scope measure c s sc o').
  { intros s sc o'. unfold scan_scope. cbn [detecting sdim]. change (slab (detecting c) s) with (slab c s). destruct (mapM _ o') as [els| |]; cbn [bind]; try reflexivity. generalize (map key_of els). intros ks. revert s. induction ks as [|k ks IH]; intros s; [reflexivity|]. cbn [scan]. change (check_simplex measure (detecting c) s k) with (check_simplex measure c s k). destruct (check_simplex measure c s k); cbn [bind]; try reflexivity. apply IH. }
  rewrite !Sc. set (s0 := mkst _ _ _ _ _). destruct (scan_scope measure c s0 ScopeOrdinal (fst o)) as [s1| |] eqn:E1; cbn [bind]; try reflexivity. destruct (scope_keeps _ _ _ _ _ _ E1) as (Q & _). rewrite Q. cbn [s0 snaps].
  destruct (2 <=? length (snaps st))%nat; [|reflexivity]. rewrite Sc. destruct (scan_scope measure c s1 ScopeInterval (snd o)) as [s2| |] eqn:E2; cbn [bind]; reflexivity.
Qed.
Lemma detecting_keeps measure c st o st' : update_timestep measure (detecting c) st o = Ok st' -> snaps st' = snaps st /\ traced st' = traced st.
Proof.
  unfold update_timestep. cbn [detecting streaming]. set (s0 := mkst _ _ _ _ _). destruct (scan_scope measure _ s0 ScopeOrdinal (fst o)) as [s1| |] eqn:E1; cbn [bind]; try discriminate. destruct (scope_keeps _ _ _ _ _ _ E1) as (Q & _ & _ & Q').
  destruct (2 <=? length (snaps s1))%nat; [|intros H; injection H as <-; auto]. destruct (scan_scope measure _ s1 ScopeInterval (snd o)) as [s2| |] eqn:E2; cbn [bind]; try discriminate. intros H. injection H as <-. destruct (scope_keeps _ _ _ _ _ _ E2) as (R & _ & _ & R'). rewrite R, R'. auto.
Qed.
Lemma push_ranks measure cs np ss : length cs = np -> forall l xss t, run_ranks measure cs (repeat (mkst l t None [] []) np) (map (fun s => repeat (Push s) np) ss ++ xss) = run_ranks measure cs (repeat (mkst (l ++ ss) t None [] []) np) xss.
Proof.
  intros L. induction ss as [|s ss IH]; intros l xss t; [rewrite app_nil_r; reflexivity|]. cbn [map app run_ranks].
  assert (E : step_ranks measure cs (repeat (mkst l t None [] []) np) (repeat (Push s) np) = Ok (repeat (mkst (l ++ [s]) t None [] []) np)).
  { unfold step_ranks. assert (M : mapM (fun x => step measure (detecting (fst (fst x))) (snd (fst x)) (snd x)) (combine (combine cs (repeat (mkst l t None [] []) np)) (repeat (Push s) np)) = Ok (repeat (mkst (l ++ [s]) t None [] []) np)).
    { subst np. clear. induction cs as [|c cs IH]; [reflexivity|]. cbn [length repeat combine mapM fst snd step snaps cur reso disc traced bind]. rewrite IH. reflexivity. }
    rewrite M. cbn [bind]. destruct cs as [|c cs]; [reflexivity|]. subst np. reflexivity. }
  rewrite E. cbn [bind]. rewrite IH, <- app_assoc. reflexivity.
Qed.

(** C73: the first time the trajectories are traced on several ranks (each with the whole arrays), the root has the trajectories of a single rank.
    Partial: only the first time (refuted below for later times).
    [calls]: every rank is given the snapshots [ss], then updates; [tks r] are the tasks of rank [r] in the order in which its threads take them. *)
Theorem C73_first_round_partial : forall measure c t0 ss tk fuel np tks st,
  config_ok c -> local_domain c = domain c -> streaming c = true -> Forall (snapshot_ok c) ss -> (2 <= length ss)%nat -> scheduled c [mkr ss tk] -> 0 <= t0 -> t0 + 1 < 2 ^ 31 -> (1 <= np)%nat ->
  (forall r, (r < np)%nat -> exists core, rank_parts fuel (domain c) (local_array c) false np r = Ok (core, local_array c) /\ scheduled (on_rank c core (local_array c)) [mkr ss (tks r)]) ->
  run measure c (init t0) (commands true [mkr ss tk]) = Ok st ->
  exists cs root others, length cs = np /\ (forall r core a, (r < np)%nat -> rank_parts fuel (domain c) (local_array c) false np r = Ok (core, a) -> nth_error cs r = Some (on_rank c core a)) /\
    run_ranks measure cs (repeat (init t0) np) (map (fun s => repeat (Push s) np) ss ++ [map (fun r => Update (tks r)) (seq 0 np)]) = Ok (root :: others) /\
    traced root = traced st /\ disc root = [] /\ disc st = [].
Proof.
  intros measure c t0 ss tk fuel np tks st OK Whole Str SO L2 SC T0 T1 Np Each R.
  assert (OKd : config_ok (detecting c)) by (destruct OK; constructor; assumption).
  assert (TI : timely [mkr ss tk]). { intros i Hi. cbn in Hi. destruct i; [|lia]. unfold pushed, all_pushed. cbn. rewrite app_nil_r. lia. }
  destruct (C72_whole_arrays measure (detecting c) t0 [mkr ss tk] true fuel np (fun r => [mkr ss (tks r)])) as (sd & dms & Rd & Ld & Hd & _ & G & _); try assumption; try reflexivity.
  { cbn. rewrite app_nil_r. exact SO. }
  { intros r Hr. destruct (Each r Hr) as (core & E & S). exists core. split; [exact E|]. split; [reflexivity|exact S]. }
  destruct (build_list (fun r cr => exists core, rank_parts fuel (domain c) (local_array c) false np r = Ok (core, local_array c) /\ cr = on_rank c core (local_array c)) np) as (cs & Lc & Hc); [intros r Hr; destruct (Each r Hr) as (core & E & _); eauto|].
  set (s0 := mkst ss t0 None [] [] : state).
  assert (Rc : update_timestep measure c s0 tk = Ok st). { cbn [commands batch tasks] in R. rewrite run_app, run_pushes in R. cbn [bind run step] in R. change (mkst (snaps (init t0) ++ ss) (cur (init t0)) (reso (init t0)) (disc (init t0)) (traced (init t0))) with s0 in R. destruct (update_timestep measure c s0 tk); cbn [bind] in R; congruence. }
  assert (Rdc : update_timestep measure (detecting c) s0 tk = Ok sd). { cbn [commands batch tasks] in Rd. rewrite run_app, run_pushes in Rd. cbn [bind run step] in Rd. change (mkst (snaps (init t0) ++ ss) (cur (init t0)) (reso (init t0)) (disc (init t0)) (traced (init t0))) with s0 in Rd. destruct (update_timestep measure (detecting c) s0 tk); cbn [bind] in Rd; congruence. }
  assert (Le : (2 <=? length ss)%nat = true) by (apply Nat.leb_le; exact L2).
  rewrite update_detects, Rdc in Rc by exact Str. cbn [bind s0 snaps] in Rc. rewrite Le in Rc. destruct (trace_online c (traced sd) (disc sd)) as [t| |] eqn:Et; cbn [bind] in Rc; try discriminate. injection Rc as <-.
  (* the ranks *)
  assert (M : exists sts, mapM (fun x => step measure (detecting (fst (fst x))) (snd (fst x)) (snd x)) (combine (combine cs (repeat s0 np)) (map (fun r => Update (tks r)) (seq 0 np))) = Ok sts /\ map disc sts = dms /\ Forall (fun s => traced s = []) sts).
  { assert (G' : forall n a cs' dms', length cs' = n -> length dms' = n -> (forall r cr, nth_error cs' r = Some cr -> exists s, update_timestep measure (detecting cr) s0 (tks (a + r)%nat) = Ok s /\ nth_error dms' r = Some (disc s)) ->
      exists sts, mapM (fun x => step measure (detecting (fst (fst x))) (snd (fst x)) (snd x)) (combine (combine cs' (repeat s0 n)) (map (fun r => Update (tks r)) (seq a n))) = Ok sts /\ map disc sts = dms' /\ Forall (fun s => traced s = []) sts).
    { clear. induction n as [|n IH]; intros a cs' dms' L1 L2 H.
      - destruct cs', dms'; try discriminate. exists []. auto.
      - destruct cs' as [|c cs'], dms' as [|d dms']; try discriminate. injection L1 as L1. injection L2 as L2. destruct (H 0%nat c eq_refl) as (s & E & Ed). rewrite Nat.add_0_r in E. injection Ed as ->.
        destruct (IH (S a) cs' dms' L1 L2) as (sts & Em & Ed & Ft); [intros r cr Hr; destruct (H (S r) cr Hr) as (s' & E1 & E2); exists s'; split; [replace (S a + r)%nat with (a + S r)%nat by lia; exact E1|exact E2]|].
        exists (s :: sts). cbn [repeat combine seq map mapM fst snd step]. rewrite E. cbn [bind]. rewrite Em. cbn [bind map]. rewrite Ed. split; [reflexivity|]. split; [reflexivity|]. constructor; [|exact Ft]. apply detecting_keeps in E as [_ E]. exact E. }
    apply (G' np 0%nat cs dms Lc Ld). intros r cr Hr. assert (Hn : (r < np)%nat) by (rewrite <- Lc; apply nth_error_Some; congruence). destruct (Hc r cr Hr) as (core & Ep & ->). destruct (Hd r core (local_array c) Hn Ep) as (s & Es & En).
    exists s. split; [|exact En]. cbn [commands batch tasks] in Es. rewrite run_app, run_pushes in Es. cbn [bind run step] in Es. change (mkst (snaps (init t0) ++ ss) (cur (init t0)) (reso (init t0)) (disc (init t0)) (traced (init t0))) with s0 in Es.
    change (detecting (on_rank c core (local_array c))) with (on_rank (detecting c) core (local_array c)). cbn [Nat.add]. destruct (update_timestep measure (on_rank (detecting c) core (local_array c)) s0 (tks r)); cbn [bind] in Es; congruence. }
  destruct M as (sts & Em & Ed & Ft). destruct sts as [|root others]; [cbn in Ed; subst dms; cbn in Ld; lia|].
  destruct cs as [|c0 cs]; [cbn in Lc; lia|]. destruct (Hc 0%nat c0 eq_refl) as (core0 & Ep0 & ->).
  exists (on_rank c core0 (local_array c) :: cs), (mkst (snaps root) (cur root) (reso root) [] t), others. split; [exact Lc|]. split.
  { intros r core a Hr Ep. destruct (nth_error (on_rank c core0 (local_array c) :: cs) r) as [cr|] eqn:Er; [|apply nth_error_None in Er; lia]. destruct (Hc r cr Er) as (core' & Ep' & ->). rewrite Ep in Ep'. injection Ep' as -> ->. reflexivity. }
  split; [|auto]. change (init t0) with (mkst [] t0 None [] []). rewrite push_ranks by exact Lc. cbn [app]. fold s0. cbn [run_ranks]. unfold step_ranks. rewrite Em. cbn [bind].
  destruct np as [|np]; [lia|]. cbn [repeat seq map s0 snaps]. rewrite Le. change (disc root :: map disc others) with (map disc (root :: others)). rewrite Ed, G. rewrite Forall_inv with (1 := Ft).
  apply detecting_keeps in Rdc as [_ Rdc]. rewrite Rdc in Et. cbn [s0 traced] in Et. change (trace_online (on_rank c core0 (local_array c)) [] (disc sd)) with (trace_online c [] (disc sd)). rewrite Et. reflexivity.
Qed.
Print Assumptions C73_first_round_partial.

(** two ranks, each with a column of vertices of the 2 x 2 grid; a critical point moves to the right, out of the grid *)
Definition c2 : config := square 2 None true.
Definition rank0 : config := on_rank c2 [(0, 1); (0, 2)] [(0, 2); (0, 2)].
Definition rank1 : config := on_rank c2 [(1, 1); (0, 2)] [(0, 2); (0, 2)].
Definition moving (x : config) : list round := [mkr [bowl 2 9 4; bowl 2 19 4] (in_turn x); mkr [bowl 2 29 4] (in_turn x)].
(** the calls on both ranks *)
Definition both (f : config -> list cmd) : list (list cmd) := map (fun p => [fst p; snd p]) (combine (f rank0) (f rank1)).
Example C73_nonvacuous : config_ok c2 /\ local_domain c2 = domain c2 /\ Forall (snapshot_ok c2) [bowl 2 9 4; bowl 2 19 4] /\ scheduled c2 [mkr [bowl 2 9 4; bowl 2 19 4] (in_turn c2)] /\
  (forall r, (r < 2)%nat -> exists core, rank_parts 20 (domain c2) (local_array c2) false 2 r = Ok (core, local_array c2) /\
     let cr := on_rank c2 core (local_array c2) in scheduled cr [mkr [bowl 2 9 4; bowl 2 19 4] (backwards cr)]) /\
  exists st, run still c2 (init 0) (commands true [mkr [bowl 2 9 4; bowl 2 19 4] (in_turn c2)]) = Ok st /\ map (fun e => map ptag (pts (snd e))) (traced st) = [[8; 15]].
Proof.
  split; [apply square_ok; lia|]. split; [reflexivity|]. split; [repeat (constructor; [apply arr_ok; reflexivity|]); constructor|]. split; [apply scheduled_ok; [left; reflexivity|constructor; [left; reflexivity|constructor]]|]. split.
  - intros r Hr. destruct r as [|[|r]]; [| |lia]; (eexists; split; [vm_compute; reflexivity|]; apply scheduled_ok; [left; reflexivity|]; constructor; [right; reflexivity|constructor]).
  - rewrite fast2 by reflexivity. assert (E : match fast_run still c2 tyo2 tyi2 (init 0) (commands true [mkr [bowl 2 9 4; bowl 2 19 4] (in_turn c2)]) with Ok st => Some (map (fun e => map ptag (pts (snd e))) (traced st)) | _ => None end = Some [[8; 15]]) by (vm_compute; reflexivity).
    destruct (fast_run still c2 _ _ _ _) as [st| |]; [|discriminate E|discriminate E]. injection E as E. eauto.
Qed.
(** Ranks other than the root never clear their points: one that was found in the first round is gathered and appended to its trajectory again in the
    second. *)
Theorem C73_streaming_ranks_refuted :
  rank_parts 20 (domain c2) (local_array c2) false 2 0 = Ok (local_domain rank0, local_array rank0) /\ rank_parts 20 (domain c2) (local_array c2) false 2 1 = Ok (local_domain rank1, local_array rank1) /\
  config_ok c2 /\ config_ok rank0 /\ config_ok rank1 /\ (forall x, In x [c2; rank0; rank1] -> Forall (snapshot_ok x) (all_pushed (moving x)) /\ timely (moving x) /\ scheduled x (moving x)) /\
  exists st root others, run still c2 (init 0) (commands true (moving c2)) = Ok st /\ run_ranks still [rank0; rank1] [init 0; init 0] (both (fun x => commands true (moving x))) = Ok (root :: others) /\
    map (fun e => map ptag (pts (snd e))) (traced st) = [[8; 15]] /\ map (fun e => map ptag (pts (snd e))) (traced root) = [[8; 15; 15]].
Proof.
  assert (P0 : rank_parts 20 (domain c2) (local_array c2) false 2 0 = Ok (local_domain rank0, local_array rank0)) by (vm_compute; reflexivity).
  assert (P1 : rank_parts 20 (domain c2) (local_array c2) false 2 1 = Ok (local_domain rank1, local_array rank1)) by (vm_compute; reflexivity).
  assert (OK : config_ok c2) by (apply square_ok; lia).
  split; [exact P0|]. split; [exact P1|]. split; [exact OK|]. split; [apply (rank_parts_ok c2 20 2 false 0); [exact OK|reflexivity|discriminate|exact P0]|]. split; [apply (rank_parts_ok c2 20 2 false 1); [exact OK|reflexivity|discriminate|exact P1]|]. split.
  { intros x Hx. assert (D : sdim x = 2%nat /\ local_array x = [(0, 2); (0, 2)]) by (destruct Hx as [<-|[<-|[<-|[]]]]; split; reflexivity). destruct D as [D1 D2]. split; [|split].
    - cbn [all_pushed moving map batch concat app]. repeat (constructor; [apply arr_ok; try reflexivity; rewrite D1, D2; reflexivity|]). constructor.
    - apply timely_ok. reflexivity.
    - apply scheduled_ok; [left; exact D1|]. do 2 (constructor; [left; reflexivity|]). constructor. }
  rewrite fast2 by reflexivity. rewrite fast_ranks2 by (repeat constructor).
  assert (E : match fast_run still c2 tyo2 tyi2 (init 0) (commands true (moving c2)) with Ok st => Some (map (fun e => map ptag (pts (snd e))) (traced st)) | _ => None end = Some [[8; 15]]) by (vm_compute; reflexivity).
  destruct (fast_run still c2 _ _ _ _) as [st| |]; [|discriminate E|discriminate E]. injection E as E.
  assert (E' : match fast_run_ranks still [rank0; rank1] [init 0; init 0] (both (fun x => commands true (moving x))) with Ok (r :: _) => Some (map (fun e => map ptag (pts (snd e))) (traced r)) | _ => None end = Some [[8; 15; 15]]) by (vm_compute; reflexivity).
  destruct (fast_run_ranks _ _ _ _) as [[|root others]| |]; [discriminate E'| |discriminate E'|discriminate E']. injection E' as E'. exists st, root, others. auto.
Qed.
Print Assumptions C73_streaming_ranks_refuted.
