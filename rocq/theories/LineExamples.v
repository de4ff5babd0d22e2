(** A run of the critical line tracker that meets the hypotheses of C146 and C147. *)
From Coq Require Import QArith Qabs Lia.
From Verif Require Import Base UnionFind Lattice LatticeSpec NdArray NdArraySpec ListOrd Parallel RegularMesh RegularMeshSpec MeshIndex SoS SoSSpec SoSInside CpTracker CpTrackerSpec CpExamples ContourTracker TriTracker TriSpec CritLine LineSpec LineCells PropLine.
Local Close Scope Q_scope. Local Open Scope Z_scope. Local Open Scope list_scope.

Definition n_tris (sc : scope) : Z := match scope_types 4 2 sc with Ok l => Z.of_nat (length l) | _ => 0 end.
Definition tris_in_turn (c : config) : list Z * list Z := (zseq (volume (local_domain c) * n_tris ScopeOrdinal), zseq (volume (local_domain c) * n_tris ScopeInterval)).
Lemma tris_scheduled {S} c (rs : list (tround S)) : Forall (fun r => ttasks r = tris_in_turn c) rs -> tscheduled c rs.
Proof.
  intros F. rewrite Forall_forall in F. unfold tscheduled.
  assert (exists ord int, scope_types 4 2 ScopeOrdinal = Ok ord /\ scope_types 4 2 ScopeInterval = Ok int) as (ord & int & Eo & Ei).
  { eexists; eexists; split; vm_compute; reflexivity. }
  exists ord, int. split; [exact Eo|]. split; [exact Ei|]. intros r Hr. assert (tris_in_turn c = (zseq (volume (local_domain c) * Z.of_nat (length ord)), zseq (volume (local_domain c) * Z.of_nat (length int)))) as Et by (unfold tris_in_turn, n_tris; rewrite Eo, Ei; reflexivity).
  rewrite (F r Hr), Et. cbn [fst snd]. split; reflexivity.
Qed.
Lemma ttimely_ok {S} (rs : list (tround S)) : forallb (fun i => (i + 1 <=? tpushed rs i)%nat && (negb (i + 1 <? length (tall rs))%nat || (i + 2 <=? tpushed rs i)%nat)) (seq 0 (length rs)) = true -> ttimely rs.
Proof.
  intros H i Hi. rewrite forallb_forall in H. specialize (H i). rewrite in_seq in H. specialize (H ltac:(lia)). apply andb_true_iff in H as [H1 H2]. apply Nat.leb_le in H1. split; [exact H1|]. intros H3. apply Nat.ltb_lt in H3. rewrite H3 in H2. cbn in H2. apply Nat.leb_le. exact H2.
Qed.
(** u = 4 x - 1 and v = 10 y - 1 on a grid of 2 x 2 x 2 vertices, at two time steps *)
Definition straight : snapshot := arr [2; 2; 2; 2] [-1; -1; 3; -1; -1; 9; 3; 9; -1; -1; 3; -1; -1; 9; 3; 9] 1.
Definition straight_rounds : list (tround snapshot) := let o := tris_in_turn (cube 2 None false) in [mktr [straight; straight] o; mktr [] o].
Lemma straight_ok : uv_ok (cube 2 None false) straight.
Proof.
  split; [|split].
  - split; [discriminate|]. split; [repeat constructor; discriminate|]. split; [vm_compute; reflexivity|]. split; reflexivity.
  - exists 2. split; [lia|reflexivity].
  - intros x Hx. cbn in Hx. apply (proj1 (in_map_iff (fun z => Fin (Qmake z 1)) _ x)) in Hx || idtac. repeat (destruct Hx as [<-|Hx]; [eexists; split; [reflexivity|vm_compute; reflexivity]|]). destruct Hx.
Qed.
Lemma types_34 : vertices 4 (el 2 ([0; 0; 0; 0], 34%nat)) = Ok [[0; 0; 0; 0]; [1; 0; 0; 0]; [1; 1; 0; 0]].
Proof. vm_compute. reflexivity. Qed.
Lemma straight_setup : let c := cube 2 None false in let rs := straight_rounds in
  config_ok c /\ sdim c = 3%nat /\ local_domain c = domain c /\ Forall (uv_ok c) (tall rs) /\ ttimely rs /\ tscheduled c rs /\ 0 <= 0 /\ 0 + Z.of_nat (length rs) < 2 ^ 31 /\ length rs = length (tall rs).
Proof.
  cbv zeta. split; [apply cube_ok; lia|]. split; [reflexivity|]. split; [reflexivity|]. split; [change (tall straight_rounds) with [straight; straight]; constructor; [exact straight_ok|constructor; [exact straight_ok|constructor]]|].
  split; [apply ttimely_ok; reflexivity|]. split; [apply tris_scheduled; repeat constructor|]. cbn. lia.
Qed.
Lemma straight_pierced : pierced (cube 2 None false) [straight; straight] 0 ([0; 0; 0; 0], 34%nat).
Proof.
  exists [[0; 0; 0; 0]; [1; 0; 0; 0]; [1; 1; 0; 0]], [(Qmake (-1) 1, Qmake (-1) 1); (Qmake 3 1, Qmake (-1) 1); (Qmake 3 1, Qmake 9 1)]. split; [|split].
  - split; [exact types_34|]. repeat (constructor; [split; repeat (constructor; [cbn; lia|]); constructor|]). constructor.
  - repeat (constructor; [split; (split; [cbn; lia|]; eexists; split; [reflexivity|vm_compute; reflexivity])|]). constructor.
  - set (L := combine _ _). destruct (inside_lemma2 L) as (b & E1 & E2); [reflexivity|vm_compute; repeat constructor; cbn; lia|vm_compute; repeat constructor; discriminate|]. apply E2.
    assert (Q : robust_critical_point_in_simplex2 (map snd L) (map fst L) = Ok true) by (vm_compute; reflexivity). congruence.
Qed.
(** the run ends, with a point on that triangle *)
Theorem C146_nonvacuous : exists st p, trun check_line false (cube 2 None false) (tinit 0) (tcommands false straight_rounds) = Ok st /\ In (([0; 0; 0; 0], 34%nat), p) (tfound st).
Proof.
  destruct straight_setup as (OK & D & LD & UV & TI & SC & T0 & T1 & L). destruct (C146_points _ 0 straight_rounds false OK D UV TI SC T0 T1) as (st & E & _ & K & _).
  assert (I : In ([0; 0; 0; 0], 34%nat) (map fst (tfound st))).
  { apply K. exists 0%nat. split; [cbn; lia|]. split; [|exact straight_pierced]. split; [vm_compute; reflexivity|vm_compute; lia]. }
  apply in_map_iff in I as ((k & p) & Ek & I). cbn in Ek. subst k. exists st, p. auto.
Qed.
Definition cell_no : nat := Eval vm_compute in match find (fun p => match snd p with [_; b; c; d; _] => (nth 0 b 0 =? 1) && (nth 1 b 0 + nth 2 b 0 + nth 3 b 0 =? 0) && (nth 1 c 0 =? 1) && (nth 2 c 0 + nth 3 c 0 =? 0) && (nth 2 d 0 =? 0) | _ => false end) (combine (seq 0 24) (unit_simplices 4 4)) with Some p => fst p | None => 99%nat end.
(** a cell with that triangle is one of those that get a surface *)
Theorem C147_nonvacuous : exists st C, trun check_line false (cube 2 None false) (tinit 0) (tcommands false straight_rounds) = Ok st /\ all_cells false (cube 2 None false) st = Ok C /\
  In ([0; 0; 0; 0], cell_no) C /\ complete_pent (cube 2 None false) (tall straight_rounds) 0 ([0; 0; 0; 0], cell_no).
Proof.
  destruct straight_setup as (OK & D & LD & UV & TI & SC & T0 & T1 & L). destruct (C147_surfaces_partial _ 0 straight_rounds false OK D LD UV TI SC T0 T1 L) as (st & C & E & EC & _ & IC & _).
  assert (V : vertices 4 (el 4 ([0; 0; 0; 0], cell_no)) = Ok [[0; 0; 0; 0]; [1; 0; 0; 0]; [1; 1; 0; 0]; [1; 1; 0; 1]; [1; 1; 1; 1]]) by (vm_compute; reflexivity).
  assert (G : Forall (in_bounds (mesh_lb (cube 2 None false)) (mesh_ub (cube 2 None false))) [[0; 0; 0; 0]; [1; 0; 0; 0]; [1; 1; 0; 0]; [1; 1; 0; 1]; [1; 1; 1; 1]]) by (repeat (constructor; [split; repeat constructor; cbn; lia|]); constructor).
  exists st, C. split; [exact E|]. split; [exact EC|]. split.
  - apply IC. exists ([0; 0; 0; 0], 34%nat). destruct C146_nonvacuous as (st' & p & E' & I). rewrite E in E'. injection E' as <-. split; [apply in_map_iff; exists (([0; 0; 0; 0], 34%nat), p); auto|].
    exists [[0; 0; 0; 0]; [1; 0; 0; 0]; [1; 1; 0; 0]; [1; 1; 0; 1]; [1; 1; 1; 1]], [[0; 0; 0; 0]; [1; 0; 0; 0]; [1; 1; 0; 0]]. split; [exact V|]. split; [exact G|]. split; [split; [cbn; lia|split; [vm_compute; lia|reflexivity]]|]. split; [exact types_34|]. intros v [<-|[<-|[<-|[]]]]; cbn; auto.
  - eexists. exists [(Qmake (-1) 1, Qmake (-1) 1); (Qmake 3 1, Qmake (-1) 1); (Qmake 3 1, Qmake 9 1); (Qmake 3 1, Qmake 9 1); (Qmake 3 1, Qmake 9 1)]. split; [exact V|]. split; [split; [cbn; lia|split; [vm_compute; lia|reflexivity]]|]. split; [exact G|].
    change (tall straight_rounds) with [straight; straight]. repeat (constructor; [split; (split; [cbn; lia|]; eexists; split; [reflexivity|vm_compute; reflexivity])|]). constructor.
Qed.
