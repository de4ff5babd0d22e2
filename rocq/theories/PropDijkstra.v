(** C35: shortest paths.  [wpath]/[shortest]/[reachable] are in DijkstraSpec.v. *)
From Verif Require Import Base UnionFind NdArray Dijkstra DijkstraSpec DijkstraProofs.

Theorem C35_shortest_partial : forall (K : Type) (O : OrdKey K) (neighbors : K -> list K) (w : K -> K -> Z) (tmax : Z) (junk : option K) (src dst : K) (R : list K) (fuel : nat),
  (forall u v, reachable neighbors w src u -> In v (neighbors u) -> (0 <= w u v)%Z) ->
  (0 < tmax)%Z -> (forall u v d, shortest neighbors w src u d -> In v (neighbors u) -> (d + w u v < tmax)%Z) ->
  (forall x, reachable neighbors w src x -> In x R) -> length R < fuel ->
  reachable neighbors w src dst ->
  exists l d, dijkstra neighbors w tmax junk fuel src dst = Ok l /\ wpath neighbors w l src dst d /\
    forall l' d', wpath neighbors w l' src dst d' -> (d <= d')%Z.
Proof. intros K O nb w tmax junk src dst R fuel H1 H2 H3 H4 H5 H6. apply (dijkstra_lemma nb w tmax junk src H1 H2 H3 R fuel dst H4 H5). exact H6. Qed.
Print Assumptions C35_shortest_partial.
(** an unreachable destination with a built-in node type: an uninitialised variable is read *)
Theorem C35_unreachable_undefined : forall (K : Type) (O : OrdKey K) (neighbors : K -> list K) (w : K -> K -> Z) (tmax : Z) (src dst : K) (R : list K) (fuel : nat),
  (forall u v, reachable neighbors w src u -> In v (neighbors u) -> (0 <= w u v)%Z) ->
  (0 < tmax)%Z -> (forall u v d, shortest neighbors w src u d -> In v (neighbors u) -> (d + w u v < tmax)%Z) ->
  (forall x, reachable neighbors w src x -> In x R) -> length R < fuel ->
  ~ reachable neighbors w src dst ->
  dijkstra neighbors w tmax None fuel src dst = UB.
Proof. intros K O nb w tmax src dst R fuel H1 H2 H3 H4 H5 H6. apply (dijkstra_lemma nb w tmax None src H1 H2 H3 R fuel dst H4 H5); [reflexivity|exact H6]. Qed.
Print Assumptions C35_unreachable_undefined.
(** The claim that no path is returned for an unreachable destination is false: with a class type whose
    default value is 7, an edge 7 -> 9 and no edge at all from 0, the path 7, 9 is returned from 0 to 9. *)
Theorem C35_unreachable_refuted : ~ (forall (neighbors : nat -> list nat) (w : nat -> nat -> Z) (tmax : Z) (junk : option nat) (src dst : nat) (fuel : nat) l,
  (forall u v, (0 <= w u v)%Z) -> ~ reachable neighbors w src dst -> dijkstra neighbors w tmax junk fuel src dst <> Ok l).
Proof.
  intros G. apply (G (fun x => match x with 7 => [9] | _ => [] end) (fun _ _ => 1%Z) 100%Z (Some 7) 0 9 10 [7; 9]); [intros; lia| |reflexivity].
  intros (l & d & P). assert (Q : forall l x y d, wpath (fun x => match x with 7 => [9] | _ => [] end) (fun _ _ => 1%Z) l x y d -> x = 0 -> y = 0).
  { clear. intros l x y d P. induction P as [x|l x y z d P IH Hz]; intros ->; [reflexivity|]. rewrite (IH eq_refl) in Hz. destruct Hz. }
  specialize (Q _ _ _ _ P eq_refl). discriminate.
Qed.
Print Assumptions C35_unreachable_refuted.

(** a graph with a zero-length edge where the direct edge is not the shortest way *)
Definition exd (x : nat) : list nat := match x with 0 => [1; 2] | 1 => [2; 3] | 2 => [3] | _ => [] end.
Definition exw (x y : nat) : Z := match x, y with 0, 2 => 5 | 1, 2 => 0 | 1, 3 => 9 | _, _ => 1 end.
Example C35_nonvacuous : dijkstra exd exw 100 None 9 0 3 = Ok [0; 1; 2; 3] /\ reachable exd exw 0 3 /\
  (forall u v, (0 <= exw u v)%Z) /\ (forall x, reachable exd exw 0 x -> In x [0; 1; 2; 3]) /\
  (forall u v d, shortest exd exw 0 u d -> In v (exd u) -> (d + exw u v < 100)%Z).
Proof.
  split; [reflexivity|]. split.
  { exists [0; 2; 3], 6%Z. apply (w_snoc exd exw [0; 2] 0 2 3 5); [|cbn; auto]. apply (w_snoc exd exw [0] 0 0 2 0); [constructor|cbn; auto]. }
  split. { intros [|[|u]] [|[|[|[|v]]]]; cbn; lia. }
  assert (W : forall l x y d, wpath exd exw l x y d -> x = 0 -> In y [0; 1; 2; 3]).
  { intros l x y d P. induction P as [x|l x y z d P IH Hz]; intros ->; [left; reflexivity|]. specialize (IH eq_refl). destruct IH as [<-|[<-|[<-|[<-|[]]]]]; cbn in Hz; cbn; intuition. }
  split. { intros x (l & d & P). eapply W; [exact P|reflexivity]. }
  intros u v d [[l P] S] Hv. assert (U := W _ _ _ _ P eq_refl).
  assert (P0 : wpath exd exw [0] 0 0 0) by constructor. assert (P1 : wpath exd exw [0; 1] 0 1 1) by (apply (w_snoc exd exw [0] 0 0 1 0); [exact P0|cbn; auto]). assert (P2 : wpath exd exw [0; 2] 0 2 5) by (apply (w_snoc exd exw [0] 0 0 2 0); [exact P0|cbn; auto]).
  destruct U as [<-|[<-|[<-|[<-|[]]]]]; cbn in Hv; [apply S in P0|apply S in P1|apply S in P2|destruct Hv]; destruct Hv as [<-|Hv]; try destruct Hv as [<-|Hv]; try contradiction; cbn; lia.
Qed.
