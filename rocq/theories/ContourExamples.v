(** Concrete runs for the non-vacuity examples and the counterexamples. *)
From Coq Require Import QArith Qabs.
From Verif Require Import Base UnionFind Lattice LatticeSpec NdArray NdArraySpec ListOrd Parallel RegularMesh RegularMeshSpec FeatureCurve CpTracker CpTrackerSpec CpTrackerProofs CpExamples ContourTracker ContourSpec.
Local Close Scope Q_scope. Local Open Scope Z_scope. Local Open Scope list_scope.

Lemma edge_types2 : scope_types 3 1 ScopeOrdinal = Ok [1; 3; 5]%nat /\ scope_types 3 1 ScopeInterval = Ok [0; 2; 4; 6]%nat.
Proof. split; vm_compute; reflexivity. Qed.
(** the tasks of both loops in order *)
Definition edges_in_turn (c : config) : list Z * list Z := (zseq (volume (scan_domain c) * 3), zseq (volume (scan_domain c) * 4)).
Lemma edges_scheduled_ok c rs : sdim c = 2%nat -> Forall (fun r => tasks r = edges_in_turn c) rs -> edges_scheduled c rs.
Proof.
  intros E H. exists [1; 3; 5]%nat, [0; 2; 4; 6]%nat. rewrite E. destruct edge_types2 as [-> ->]. split; [reflexivity|]. split; [reflexivity|].
  rewrite Forall_forall in H. intros r Hr. rewrite (H r Hr). split; reflexivity.
Qed.
Lemma square_contour_ok n tf str : 1 <= n <= 1000 -> contour_ok (square n tf str).
Proof. intros H. split; [exact (square_ok n tf str H)|]. intros Q. discriminate Q. Qed.
Lemma arr_scalars_ok c ds b den : ds = map snd (local_array c) -> ds <> [] -> forallb (fun d => 0 <=? d) ds = true -> (numel ds <? 2 ^ 64) = true -> (Z.of_nat (length b) =? numel ds) = true ->
  forallb (fun z => Z.abs z <? 2 ^ 41) b = true -> scalars_ok c (arr ds b den).
Proof.
  intros E NE P N L H. apply Z.ltb_lt in N. apply Z.eqb_eq in L. rewrite forallb_forall in H, P. split; [|split; [exact E|]].
  - split; [exact NE|]. split; [apply Forall_forall; intros x Hx; apply P, Z.leb_le in Hx; exact Hx|]. split; [exact N|]. split; [reflexivity|]. cbn. rewrite map_length. exact L.
  - intros x Hq. cbn in Hq. apply in_map_iff in Hq as (z & Q & Hz). exists (Qmake z den). split; [symmetry; exact Q|]. apply H, Z.ltb_lt in Hz. unfold Qabs, Qlt. cbn [Qnum Qden inject_Z]. rewrite Z.mul_1_r. assert (1 <= Zpos den) by lia. nia.
Qed.
(** Values above the threshold at one vertex of a grid of 2 x 2 vertices, at time step 0 only *)
Definition bump_rounds : list round := let o := edges_in_turn (square 2 None false) in [mkr [arr [2; 2] [1; -1; -1; -1] 1; arr [2; 2] [-1; -1; -1; -1] 1] o; mkr [] o].
Definition low_rounds : list round := let o := edges_in_turn (square 2 None false) in [mkr [arr [2; 2] [1; 3; 3; 3] 4194304] o].
Lemma rounds_ok rs : rs = bump_rounds \/ rs = low_rounds -> let c := square 2 None false in
  contour_ok c /\ Forall (scalars_ok c) (all_pushed rs) /\ threshold_ok 0 /\ timely rs /\ edges_scheduled c rs /\ 0 <= 0 /\ 0 + Z.of_nat (length rs) < 2 ^ 31 /\ length rs = length (all_pushed rs).
Proof.
  intros H c. split; [apply square_contour_ok; lia|].
  assert (A : Forall (scalars_ok c) (all_pushed rs)).
  { destruct H as [-> | ->]; cbn [all_pushed bump_rounds low_rounds map batch concat app]; repeat (constructor; [apply arr_scalars_ok; try reflexivity; discriminate|]); constructor. }
  split; [exact A|]. split; [reflexivity|]. split; [apply timely_ok; destruct H as [-> | ->]; reflexivity|].
  split; [apply edges_scheduled_ok; [reflexivity|]; destruct H as [-> | ->]; repeat constructor|].
  destruct H as [-> | ->]; cbn; lia.
Qed.
Lemma edge_vertices : vertices 3 (el 1 ([0; 0; 0], 3%nat)) = Ok [[0; 0; 0]; [1; 0; 0]] /\ vertices 3 (el 1 ([0; 0; 0], 5%nat)) = Ok [[0; 0; 0]; [1; 1; 0]].
Proof. split; vm_compute; reflexivity. Qed.
Lemma cell_vertices : vertices 3 (el 3 ([0; 0; 0], 5%nat)) = Ok [[0; 0; 0]; [1; 0; 0]; [1; 1; 0]; [1; 1; 1]].
Proof. vm_compute. reflexivity. Qed.
Ltac inb := repeat constructor; cbn; lia.
Ltac value := split; [cbn; lia|]; eexists; split; [vm_compute; reflexivity|]; vm_compute; reflexivity.
Lemma bump_crossed : let c := square 2 None false in crossed_by c (all_pushed bump_rounds) 0 0 ([0; 0; 0], 3%nat) [0; 0; 0] [1; 0; 0] (Qmake 1 1) (Qmake (-1) 1) /\
  crossed_by c (all_pushed bump_rounds) 0 0 ([0; 0; 0], 5%nat) [0; 0; 0] [1; 1; 0] (Qmake 1 1) (Qmake (-1) 1).
Proof.
  cbv zeta. assert (A : ~ (above 0 (Qmake 1 1) <-> above 0 (Qmake (-1) 1))).
  { intros [H _]. assert (above 0 (Qmake 1 1)) as U by (unfold above, Qle; cbn; lia). apply H in U. unfold above, Qle in U. cbn in U. lia. }
  split; (split; [apply edge_vertices|]; split; [inb|]; split; [inb|]; split; [value|]; split; [value|exact A]).
Qed.
Lemma low_crossed : let c := square 2 None false in crossed_by c (all_pushed low_rounds) 0 0 ([0; 0; 0], 3%nat) [0; 0; 0] [1; 0; 0] (Qmake 1 4194304) (Qmake 3 4194304).
Proof.
  cbv zeta. assert (A : ~ (above 0 (Qmake 1 4194304) <-> above 0 (Qmake 3 4194304))).
  { intros [_ H]. assert (above 0 (Qmake 3 4194304)) as U by (unfold above, Qle; cbn; lia). apply H in U. unfold above, Qle in U. cbn in U. lia. }
  split; [apply edge_vertices|]; split; [inb|]; split; [inb|]; split; [value|]; split; [value|exact A].
Qed.
