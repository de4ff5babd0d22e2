(** Loop nests of assignments. *)
From Coq Require Import List ZArith Lia Reals Lra.
From Verif Require Import Base UnionFind UnionFindProofs Lattice NdArray NdArraySpec NdArrayProofs NdArrayProofs2 Stencil.
Import ListNotations. Local Open Scope Z_scope.

(** the array [a] has the shape [ds] and the elements [F] *)
Definition holds (a : nd R) (ds : list Z) (F : list Z -> R) : Prop := nd_wf a /\ dims a = ds /\ forall idx, in_range ds idx -> at_var a idx = Ok (F idx).

Lemma In_range lo hi i : In i (range lo hi) <-> lo <= i < hi.
Proof. unfold range. rewrite in_map_iff. split; [intros (k & <- & H); apply In_zseq in H; lia|]. intros H. exists (i - lo). split; [lia|]. apply In_zseq. lia. Qed.
Lemma In_loop {A} lo hi (body : Z -> list A) w : In w (loop lo hi body) <-> exists i, lo <= i < hi /\ In w (body i).
Proof. unfold loop. rewrite in_flat_map. split; intros (i & H & W); exists i; rewrite In_range in *; auto. Qed.

Lemma put_var_spec (a : nd R) idx v : nd_wf a -> in_range (dims a) idx -> exists b, put_var a idx v = Ok b /\ nd_wf b /\ dims b = dims a /\ ncd b = ncd a /\
  at_var b idx = Ok v /\ forall idx', in_range (dims a) idx' -> idx' <> idx -> at_var b idx' = at_var a idx'.
Proof.
  intros W R. destruct (index_spec a idx W R) as [_ I]. pose proof (lin_bounds _ _ R) as L. assert (Ln : Z.of_nat (length (buf a)) = numel (dims a)) by apply W.
  unfold put_var. rewrite I. cbn [bind]. rewrite zput_ok by lia. cbn [bind]. eexists. split; [reflexivity|].
  assert (W' : nd_wf (with_buf a (vset (buf a) (Z.to_nat (lin (dims a) idx)) v))) by (apply with_buf_wf; [exact W|apply vset_length]).
  split; [exact W'|]. split; [reflexivity|]. split; [reflexivity|]. split.
  - destruct (at_spec _ idx W' R) as [_ ->]. cbn [with_buf dims buf]. rewrite zget_vset by lia. rewrite Z.eqb_refl. reflexivity.
  - intros idx' R' N. destruct (at_spec _ idx' W' R') as [_ ->]. destruct (at_spec a idx' W R') as [_ ->]. cbn [with_buf dims buf]. pose proof (lin_bounds _ _ R') as L'. rewrite zget_vset by lia. destruct (Z.eqb_spec (lin (dims a) idx') (lin (dims a) idx)) as [E|]; [|reflexivity]. destruct N. exact (lin_inj _ _ R' _ R E).
Qed.
Lemma idx_dec (x y : list Z) : {x = y} + {x <> y}. Proof. apply list_eq_dec, Z.eq_dec. Qed.
Lemma assign_spec V : forall ws a, nd_wf a -> (forall idx v, In (idx, v) ws -> in_range (dims a) idx /\ v = Ok (V idx)) ->
  exists b, assign ws a = Ok b /\ nd_wf b /\ dims b = dims a /\ ncd b = ncd a /\
    forall idx, in_range (dims a) idx -> (In idx (map fst ws) -> at_var b idx = Ok (V idx)) /\ (~ In idx (map fst ws) -> at_var b idx = at_var a idx).
Proof.
  induction ws as [|[idx v] ws IH]; intros a W H; [exists a; cbn; tauto|]. destruct (H idx v ltac:(cbn; tauto)) as [R ->]. cbn [assign bind]. destruct (put_var_spec a idx (V idx) W R) as (b & -> & Wb & Db & Nb & E & O). cbn [bind].
  destruct (IH b Wb) as (c & -> & Wc & Dc & Nc & P). { intros i v Hi. rewrite Db. apply H. cbn. tauto. }
  exists c. split; [reflexivity|]. split; [exact Wc|]. split; [congruence|]. split; [congruence|]. intros i Ri. rewrite Db in P. destruct (P i Ri) as [P1 P2]. cbn [map fst In]. split.
  - intros [<-|I]; [|exact (P1 I)]. destruct (in_dec idx_dec idx (map fst ws)) as [I|N]; [exact (P1 I)|]. rewrite (P2 N). exact E.
  - intros N. rewrite P2 by tauto. apply O; [exact Ri|]. intros ->. tauto.
Qed.
Lemma new_spec ds : ds <> [] -> Forall (fun d => 0 <= d) ds -> numel ds < 2 ^ 64 -> exists a, new ds = Ok a /\ holds a ds (fun _ => 0%R).
Proof.
  intros N P B. destruct (reshape_wf 0%R nd_empty ds N P B) as (a & E & W & D & _ & _ & Bf). exists a. split; [exact E|]. split; [exact W|]. split; [exact D|]. intros idx R. destruct (at_spec a idx W ltac:(rewrite D; exact R)) as [_ ->]. rewrite D, Bf. cbn [nd_empty buf].
  pose proof (lin_bounds _ _ R) as L. apply zget_nth; [lia|]. unfold resize. rewrite firstn_nil. cbn [app length]. rewrite Nat.sub_0_r. rewrite nth_error_repeat; [reflexivity|lia].
Qed.
Lemma holds_multicomponents a ds F n : holds a ds F -> holds (set_multicomponents a n) ds F.
Proof. intros (W & D & H). split; [exact W|]. split; [exact D|]. intros idx R. exact (H idx R). Qed.
(** the result of a loop nest on a new array: [V] at the indices [P], 0 elsewhere *)
Lemma assign_holds V (P : list Z -> bool) ds a ws : holds a ds (fun _ => 0%R) -> (forall idx v, In (idx, v) ws -> in_range ds idx /\ v = Ok (V idx)) -> (forall idx, in_range ds idx -> In idx (map fst ws) <-> P idx = true) ->
  exists b, assign ws a = Ok b /\ holds b ds (fun idx => if P idx then V idx else 0%R) /\ ncd b = ncd a.
Proof.
  intros (W & D & H) Ws Pi. destruct (assign_spec V ws a W ltac:(rewrite D; exact Ws)) as (b & E & Wb & Db & Nb & S). exists b. split; [exact E|]. split; [|exact Nb]. split; [exact Wb|]. split; [congruence|]. intros idx R. rewrite D in S. destruct (S idx R) as [S1 S2]. destruct (P idx) eqn:Q.
  - apply S1, Pi; assumption.
  - rewrite S2; [apply H; exact R|]. rewrite Pi by exact R. congruence.
Qed.
Lemma holds_ext a ds F G : holds a ds F -> (forall idx, in_range ds idx -> F idx = G idx) -> holds a ds G.
Proof. intros (W & D & H) E. split; [exact W|]. split; [exact D|]. intros idx R. rewrite <- E by exact R. apply H. exact R. Qed.
(** every array holds something *)
Lemma holds_exists a : nd_wf a -> exists F, holds a (dims a) F.
Proof. intros W. exists (fun idx => match at_var a idx with Ok v => v | _ => 0%R end). split; [exact W|]. split; [reflexivity|]. intros idx R. destruct (at_ok a idx W R) as (v & E). destruct (at_spec a idx W R) as [E1 E2]. rewrite E2, <- E1, E. reflexivity. Qed.

(** shapes of arrays the int loops handle *)
Definition shape (ds : list Z) : Prop := ds <> [] /\ Forall (fun d => 1 <= d < 2 ^ 31 - 1) ds /\ numel ds < 2 ^ 60.
Lemma shape_new k ds : shape ds -> 1 <= k <= 9 -> Forall (fun d => 0 <= d) (k :: ds) /\ numel (k :: ds) < 2 ^ 64.
Proof. intros (N & F & B) K. split; [constructor; [lia|]; eapply Forall_impl; [|exact F]; cbn; intros; lia|]. rewrite numel_cons. assert (0 <= numel ds) by (apply numel_nonneg; eapply Forall_impl; [|exact F]; cbn; intros; lia). nia. Qed.
(** an array can hold any values *)
Lemma sample ds F : ds <> [] -> Forall (fun d => 0 <= d) ds -> numel ds < 2 ^ 64 -> exists a, holds a ds F.
Proof.
  intros N P B. destruct (new_spec ds N P B) as (a & _ & Wa & Da & _). destruct (assign_spec F (map (fun idx => (idx, Ok (F idx))) (all_idx ds)) a Wa) as (b & _ & Wb & Db & _ & S).
  - intros idx v I. apply in_map_iff in I. destruct I as (i & E & I). injection E as <- <-. rewrite Da. split; [apply In_all_idx, I|reflexivity].
  - exists b. split; [exact Wb|]. split; [congruence|]. intros idx R. rewrite Da in S. apply S; [exact R|]. rewrite map_map. cbn [fst]. rewrite map_id. apply In_all_idx, R.
Qed.
