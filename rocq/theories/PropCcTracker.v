(** C74: connected component tracking.  C75: threshold tracking. *)
From Coq Require Import QArith.
From Verif Require Import Base UnionFind NdArray Lattice Graph TrackingGraph TrackingGraphSpec TrackingGraphProofs PropTracking HK HKSpec PropHK CcTracker.
Local Close Scope Q_scope. Local Open Scope list_scope.

(** ** specification *)
(** the usual loop: every frame is pushed, then the tracker advances *)
Definition in_loop (frames : list (list nat)) : list ccmd := flat_map (fun l => [CPush l; CAdvance]) frames.
(** component [a] (time step, label) and component [b] of the next time step share a cell *)
Definition overlap (frames : list (list nat)) (a b : Z * nat) : Prop :=
  exists t i l l', a = (Z.of_nat t, snd a) /\ b = (Z.of_nat (S t), snd b) /\ nth_error frames t = Some l /\ nth_error frames (S t) = Some l' /\
    nth_error l i = Some (snd a) /\ nth_error l' i = Some (snd b) /\ snd a <> 0 /\ snd b <> 0.

(** ** proofs *)
Lemma link_ok t0 t1 l0 l1 : length l1 = length l0 -> forall is ops, Forall (fun i => i < length l0) is ->
  exists ops', link t0 t1 l0 l1 is (run ops) = Ok (run (ops ++ ops')) /\ (forall t l, ~ In (AddNode t l) ops') /\
    forall ta la tb lb, In (AddEdge ta la tb lb) ops' <-> ta = t0 /\ tb = t1 /\ exists i, In i is /\ nth_error l0 i = Some la /\ nth_error l1 i = Some lb /\ la <> 0 /\ lb <> 0.
Proof.
  intros L. induction is as [|i is IH]; intros ops F.
  { exists []. rewrite app_nil_r. split; [reflexivity|]. split; [intros t l []|]. intros ta la tb lb. split; [intros []|intros (_ & _ & i & [] & _)]. }
  inversion F as [|? ? Hi Fi]; subst. cbn [link]. unfold vget. destruct (nth_error l0 i) as [a|] eqn:Ea; [|apply nth_error_None in Ea; lia]. cbn [of_option bind].
  destruct (Nat.eqb_spec a 0) as [->|Na].
  { destruct (IH ops Fi) as (o & E & N & H). exists o. split; [exact E|]. split; [exact N|]. intros ta la tb lb. rewrite H. split; intros (A & B & j & Hj & H1 & H2 & H3 & H4); (split; [exact A|]; split; [exact B|]; exists j).
    - split; [right; exact Hj|auto].
    - destruct Hj as [<-|Hj]; [rewrite Ea in H1; injection H1 as <-; congruence|auto]. }
  destruct (nth_error l1 i) as [b|] eqn:Eb; [|apply nth_error_None in Eb; lia]. cbn [of_option bind]. destruct (Nat.eqb_spec b 0) as [->|Nb].
  { destruct (IH ops Fi) as (o & E & N & H). exists o. split; [exact E|]. split; [exact N|]. intros ta la tb lb. rewrite H. split; intros (A & B & j & Hj & H1 & H2 & H3 & H4); (split; [exact A|]; split; [exact B|]; exists j).
    - split; [right; exact Hj|auto].
    - destruct Hj as [<-|Hj]; [rewrite Eb in H2; injection H2 as <-; congruence|auto]. }
  destruct (IH (ops ++ [AddEdge t0 a t1 b]) Fi) as (o & E & N & H). exists (AddEdge t0 a t1 b :: o).
  assert (R : run (ops ++ [AddEdge t0 a t1 b]) = add_edge (run ops) t0 a t1 b) by (unfold run; rewrite fold_left_app; reflexivity). rewrite <- R, E, <- app_assoc. split; [reflexivity|]. split; [intros t l [Q|Q]; [discriminate|exact (N t l Q)]|].
  intros ta la tb lb. split.
  - intros [Q|Q]; [injection Q as <- <- <- <-; split; [reflexivity|]; split; [reflexivity|]; exists i; repeat split; auto; left; reflexivity|].
    apply H in Q as (A & B & j & Hj & Q). split; [exact A|]. split; [exact B|]. exists j. split; [right; exact Hj|exact Q].
  - intros (-> & -> & j & Hj & H1 & H2 & H3 & H4). destruct Hj as [<-|Hj]; [left; congruence|]. right. apply H. split; [reflexivity|]. split; [reflexivity|]. exists j. auto.
Qed.
(** the invariant of the loop *)
Definition followed (frames : list (list nat)) (st : cct) : Prop :=
  lsnaps st = match rev frames with [] => [] | l :: _ => [l] end /\ ctime st = Z.of_nat (length frames) /\
  exists ops, graph st = run ops /\ (forall t l, ~ In (AddNode t l) ops) /\ forall a b, is_edge ops a b <-> overlap frames a b.
Lemma overlap_snoc frames l0 l1 a b : overlap (frames ++ [l0] ++ [l1]) a b <-> overlap (frames ++ [l0]) a b \/
  (fst a = Z.of_nat (length frames) /\ fst b = Z.of_nat (S (length frames)) /\ exists i, nth_error l0 i = Some (snd a) /\ nth_error l1 i = Some (snd b) /\ snd a <> 0 /\ snd b <> 0).
Proof.
  assert (G : forall t x, nth_error (frames ++ [l0] ++ [l1]) t = Some x <-> nth_error (frames ++ [l0]) t = Some x \/ (t = S (length frames) /\ x = l1)).
  { intros t x. rewrite app_assoc. destruct (Nat.lt_ge_cases t (length (frames ++ [l0]))) as [Ht|Ht].
    - rewrite nth_error_app1 by exact Ht. split; [auto|]. intros [Q|[-> _]]; [exact Q|]. rewrite app_length in Ht. cbn in Ht. lia.
    - rewrite nth_error_app2 by exact Ht. rewrite (proj2 (nth_error_None _ _) Ht). rewrite app_length in *. cbn in *. destruct (t - (length frames + 1)) as [|k] eqn:E; cbn.
      + split; [intros Q; injection Q as <-; right; split; [lia|reflexivity]|]. intros [Q|[_ ->]]; [discriminate|reflexivity].
      + split; [destruct k; discriminate|]. intros [Q|[-> _]]; [discriminate|lia]. }
  split.
  - intros (t & i & l & l' & A & B & E1 & E2 & H). apply G in E1, E2. destruct E2 as [E2|[E2 ->]].
    + destruct E1 as [E1|[-> ->]]; [left; exists t, i, l, l'; auto|]. assert (S (S (length frames)) < length (frames ++ [l0])) by (apply nth_error_Some; congruence). rewrite app_length in *. cbn in *. lia.
    + injection E2 as ->. right. destruct E1 as [E1|[E1 _]]; [|lia]. rewrite nth_error_app2, Nat.sub_diag in E1 by lia. injection E1 as <-. split; [rewrite A; reflexivity|]. split; [rewrite B; reflexivity|]. exists i. exact H.
  - intros [(t & i & l & l' & A & B & E1 & E2 & H)|(A & B & i & H)].
    + exists t, i, l, l'. split; [exact A|]. split; [exact B|]. split; [apply G; auto|]. split; [apply G; auto|exact H].
    + exists (length frames), i, l0, l1. split; [rewrite <- A; destruct a; reflexivity|]. split; [rewrite <- B; destruct b; reflexivity|]. split; [apply G; left; rewrite nth_error_app2, Nat.sub_diag by lia; reflexivity|]. split; [apply G; auto|exact H].
Qed.
Lemma advance_ok n frames l st : Forall (fun l => length l = n) (frames ++ [l]) -> (Z.of_nat (S (length frames)) < 2 ^ 64)%Z -> followed frames st ->
  exists st', cc_advance (cc_push st l) = Ok (st', true) /\ followed (frames ++ [l]) st'.
Proof.
  intros F B (S1 & S2 & ops & S3 & S4 & S5). unfold cc_advance, cc_update, cc_push. cbn [lsnaps ctime graph]. rewrite S1, S2.
  assert (U : u64 (Z.of_nat (length frames) + 1) = Z.of_nat (length (frames ++ [l]))) by (rewrite app_length; cbn [length]; unfold u64; rewrite Z.mod_small; lia).
  destruct (rev frames) as [|l0 fr] eqn:Er.
  - assert (frames = []) as -> by (rewrite <- (rev_involutive frames), Er; reflexivity). cbn [app bind lsnaps length Nat.ltb Nat.leb graph ctime]. eexists. split; [reflexivity|]. split; [reflexivity|]. split; [reflexivity|].
    exists ops. split; [exact S3|]. split; [exact S4|]. intros a b. rewrite S5. split; intros (t & i & x & y & _ & _ & E1 & E2 & _); cbn in E1, E2; destruct t; discriminate.
  - assert (frames = rev fr ++ [l0]) as -> by (rewrite <- (rev_involutive frames), Er; reflexivity). set (fs := rev fr) in *. cbn [app lsnaps].
    apply Forall_app in F as [F1 F2]. apply Forall_app in F1 as [_ F1]. assert (L0 := Forall_inv F1). assert (L1 := Forall_inv F2). cbn beta in L0, L1.
    rewrite S3. destruct (link_ok (u64 (Z.of_nat (length (fs ++ [l0])) - 1)) (Z.of_nat (length (fs ++ [l0]))) l0 l ltac:(congruence) (seq 0 (length l0)) ops) as (ops' & E & N & H).
    { apply Forall_forall. intros i Hi. apply in_seq in Hi. lia. }
    rewrite E. cbn [bind lsnaps length Nat.ltb Nat.leb tl graph ctime]. eexists. split; [reflexivity|].
    assert (T0 : u64 (Z.of_nat (length (fs ++ [l0])) - 1) = Z.of_nat (length fs)) by (rewrite app_length in *; cbn [length] in *; unfold u64; rewrite Z.mod_small; lia).
    split; [cbn [lsnaps]; rewrite rev_app_distr; reflexivity|]. split; [exact U|]. exists (ops ++ ops'). split; [reflexivity|]. split; [intros t x Q; apply in_app_iff in Q as [Q|Q]; [exact (S4 t x Q)|exact (N t x Q)]|].
    intros a b. rewrite <- app_assoc, overlap_snoc, <- S5. unfold is_edge. rewrite in_app_iff, H, T0. assert (Z.of_nat (length (fs ++ [l0])) = Z.of_nat (S (length fs))) as -> by (rewrite app_length; cbn; lia).
    split; (intros [Q|(A & A' & i & Q)]; [left; exact Q|right; split; [exact A|]; split; [exact A'|]; exists i]).
    + tauto.
    + split; [apply in_seq; split; [lia|]; apply nth_error_Some; rewrite (proj1 Q); discriminate|exact Q].
Qed.
Lemma loop_ok n frames : Forall (fun l => length l = n) frames -> (Z.of_nat (length frames) < 2 ^ 64)%Z -> exists st, cc_run cct_new (in_loop frames) = Ok st /\ followed frames st.
Proof.
  assert (G : forall f2 f1 st, Forall (fun l => length l = n) (f1 ++ f2) -> (Z.of_nat (length (f1 ++ f2)) < 2 ^ 64)%Z -> followed f1 st -> exists st', cc_run st (in_loop f2) = Ok st' /\ followed (f1 ++ f2) st').
  { induction f2 as [|l f2 IH]; intros f1 st F B S; [exists st; rewrite app_nil_r; auto|]. change (l :: f2) with ([l] ++ f2) in *. rewrite app_assoc in *. cbn [in_loop flat_map app cc_run cc_step bind].
    destruct (advance_ok n f1 l st) as (st' & E & S'); [apply Forall_app in F; apply F|rewrite !app_length in B; cbn in B; lia|exact S|]. rewrite E. cbn [bind]. apply IH; assumption. }
  intros F B. apply (G frames [] cct_new F B). split; [reflexivity|]. split; [reflexivity|]. exists []. split; [reflexivity|]. split; [intros t l []|]. intros a b. split; [intros []|]. intros (t & i & l & l' & _ & _ & E & _). destruct t; discriminate.
Qed.

(** ** C74: after the usual loop, an edge leads from a component to a component of the next time step exactly if they overlap; finalize() gives
    global labels 1..N to exactly the components that overlap one of the time step before or after, with equal labels exactly along chains of edges that are
    simple on a side (see C40); the events are those of the overlap graph (see C41).
    Partial: components that overlap nothing are not in the graph (refuted below), and the caller must advance after every push (refuted below). *)
Theorem C74_components_partial : forall n frames, Forall (fun l => length l = n) frames -> (Z.of_nat (length frames) < 2 ^ 64)%Z ->
  exists st ops, cc_run cct_new (in_loop frames) = Ok st /\ graph st = run ops /\ (forall a b, is_edge ops a b <-> overlap frames a b) /\
    (forall a, is_node ops a <-> exists b, overlap frames a b \/ overlap frames b a) /\
    detects_all ops /\
    exists st' N, cc_finalize st = Ok st' /\
      (forall t l, (exists b, overlap frames (t, l) b \/ overlap frames b (t, l)) -> exists k, get_global_label (graph st') t l = Some k /\ 1 <= k <= N) /\
      (forall t l, ~ (exists b, overlap frames (t, l) b \/ overlap frames b (t, l)) -> get_global_label (graph st') t l = None) /\
      (forall k, 1 <= k <= N -> exists t l, get_global_label (graph st') t l = Some k) /\
      forall a b, is_node ops a -> is_node ops b -> get_global_label (graph st') (fst a) (snd a) = get_global_label (graph st') (fst b) (snd b) <-> clos_refl_sym_trans _ (half_simple_edge ops) a b.
Proof.
  intros n frames F B. destruct (loop_ok n frames F B) as (st & E & S1 & S2 & ops & S3 & S4 & S5). exists st, ops. split; [exact E|]. split; [exact S3|]. split; [exact S5|].
  assert (Nd : forall a, is_node ops a <-> exists b, overlap frames a b \/ overlap frames b a).
  { intros a. unfold is_node. split; [intros [Q|(m & Q)]; [destruct (S4 _ _ Q)|exists m; rewrite <- !S5; exact Q]|]. intros (b & Q). right. exists b. rewrite !S5. exact Q. }
  split; [exact Nd|]. split.
  - apply C41_events_partial. intros a b Q. apply S5 in Q as (t & i & l & l' & A & B' & _). rewrite A, B'. cbn [fst]. lia.
  - destruct (C40_relabel_partial ops) as (g & N & R & A & B' & C & D). exists (mkcct g (lsnaps st) (ctime st)), N. split; [unfold cc_finalize; rewrite S3, R; reflexivity|]. cbn [graph].
    split; [intros t l Q; apply A, Nd; exact Q|]. split; [intros t l Q; apply B'; rewrite Nd; exact Q|]. split; [|exact D]. intros k Hk. destruct (C k Hk) as (t & l & _ & Q). eauto.
Qed.
Print Assumptions C74_components_partial.
(** a component that splits *)
Example C74_nonvacuous : let frames := [[1; 1; 1]; [1; 0; 2]; [1; 0; 0]] in Forall (fun l => length l = 3) frames /\
  overlap frames (0%Z, 1) (1%Z, 1) /\ overlap frames (0%Z, 1) (1%Z, 2) /\ overlap frames (1%Z, 1) (2%Z, 1) /\ ~ overlap frames (1%Z, 2) (2%Z, 1).
Proof.
  cbv zeta. split; [repeat constructor|]. split; [exists 0, 0, [1; 1; 1], [1; 0; 2]; cbn; auto 10|]. split; [exists 0, 2, [1; 1; 1], [1; 0; 2]; cbn; auto 10|]. split; [exists 1, 0, [1; 0; 2], [1; 0; 0]; cbn; auto 10|].
  intros (t & i & l & l' & A & _ & E1 & E2 & H1 & H2 & _ & N2). cbn [snd] in *. injection A as A. assert (t = 1) by lia. subst t. cbn in E1, E2. injection E1 as <-. injection E2 as <-. destruct i as [|[|[|i]]]; cbn in *; try discriminate; try congruence.
Qed.
(** A component that overlaps nothing is not in the graph: it gets no label, and its birth and death are not reported. *)
Theorem C74_isolated_refuted : ~ (forall n frames, Forall (fun l => length l = n) frames -> (Z.of_nat (length frames) < 2 ^ 64)%Z ->
  exists st st', cc_run cct_new (in_loop frames) = Ok st /\ cc_finalize st = Ok st' /\
    forall t l c, nth_error frames t = Some l -> In c l -> c <> 0 -> get_global_label (graph st') (Z.of_nat t) c <> None).
Proof.
  intros G. destruct (G 2 [[1; 0]; [0; 1]]) as (st & st' & E & E' & H); [repeat constructor|cbn; lia|]. vm_compute in E. injection E as <-. vm_compute in E'. injection E' as <-. exact (H 0 [1; 0] 1 eq_refl (or_introl eq_refl) ltac:(discriminate) eq_refl).
Qed.
Print Assumptions C74_isolated_refuted.
(** Two pushes before the first advance, as with the other trackers (src/cli/ftk.cpp:295-297): the edges leave from time step 2^64 - 1. *)
Theorem C74_ahead_refuted : forall l0 l1, length l1 = length l0 -> (exists i a b, nth_error l0 i = Some a /\ nth_error l1 i = Some b /\ a <> 0 /\ b <> 0) ->
  exists st ops, cc_run cct_new [CPush l0; CPush l1; CAdvance] = Ok st /\ graph st = run ops /\ (forall l, ~ is_node ops (1%Z, l)) /\ exists a b, is_edge ops ((2 ^ 64 - 1)%Z, a) (0%Z, b).
Proof.
  intros l0 l1 L (i & a & b & Ea & Eb & Na & Nb). cbn [cc_run cc_step bind cct_new cc_push lsnaps app graph ctime]. unfold cc_advance, cc_update. cbn [lsnaps graph ctime].
  destruct (link_ok (u64 (0 - 1)) 0%Z l0 l1 L (seq 0 (length l0)) []) as (ops & E & N & H); [apply Forall_forall; intros j Hj; apply in_seq in Hj; lia|]. change (run []) with (tg_new (T := Z) (L := nat)) in E.
  change (cc_push (cc_push cct_new l0) l1) with (mkcct tg_new [l0; l1] 0%Z). cbn [lsnaps graph ctime].   match goal with |- context [link ?a ?b ?x ?y ?s ?g] => change (link a b x y s g) with (link (u64 (0 - 1)) 0%Z l0 l1 (seq 0 (length l0)) tg_new) end. rewrite E. cbn [bind lsnaps length Nat.ltb Nat.leb tl graph ctime].
  eexists. exists ops. split; [reflexivity|]. split; [reflexivity|]. split.
  - intros l [Q|([t m] & Q)]; [destruct (N _ _ Q)|]. unfold is_edge in Q. cbn [fst snd] in Q. rewrite !H in Q. change (u64 (0 - 1)) with (2 ^ 64 - 1)%Z in Q. destruct Q as [(Q & _)|(_ & Q & _)]; discriminate Q.
  - exists a, b. unfold is_edge. cbn [fst snd]. apply H. split; [reflexivity|]. split; [reflexivity|]. exists i. split; [apply in_seq; split; [lia|]; apply nth_error_Some; congruence|auto].
Qed.
Print Assumptions C74_ahead_refuted.
(** advance_timestep() returns true for ever once a frame was pushed: [while (advance_timestep())] does not end. *)
Theorem C74_advance_never_false : forall k st, lsnaps st <> [] -> Forall (fun l => length l = length (hd [] (lsnaps st))) (lsnaps st) ->
  exists st' b, cc_run st (repeat CAdvance k) = Ok st' /\ cc_advance st' = Ok b /\ snd b = true.
Proof.
  assert (One : forall st, lsnaps st <> [] -> Forall (fun l => length l = length (hd [] (lsnaps st))) (lsnaps st) -> exists st', cc_advance st = Ok (st', true) /\ lsnaps st' <> [] /\ Forall (fun l => length l = length (hd [] (lsnaps st'))) (lsnaps st')).
  { intros [g sn t] N F. cbn [lsnaps] in *. unfold cc_advance, cc_update. cbn [lsnaps graph ctime]. destruct sn as [|l0 [|l1 sn]]; [congruence| |].
    - cbn. eexists. split; [reflexivity|]. cbn. split; [discriminate|]. repeat constructor.
    - cbn [hd] in F. inversion F as [|? ? _ F']; subst. inversion F' as [|? ? L F'']; subst. assert (Lk : exists g', link (u64 (t - 1)) t l0 l1 (seq 0 (length l0)) g = Ok g').
      { assert (G : forall is g, Forall (fun i => i < length l0) is -> exists g', link (u64 (t - 1)) t l0 l1 is g = Ok g').
        { induction is as [|i is IH]; intros h Hs; [eexists; reflexivity|]. inversion Hs; subst. cbn [link]. unfold vget. destruct (nth_error l0 i) as [a|] eqn:Ea; [|apply nth_error_None in Ea; lia]. cbn [of_option bind]. destruct (Nat.eqb a 0); [auto|]. destruct (nth_error l1 i) as [b|] eqn:Eb; [|apply nth_error_None in Eb; lia]. cbn [of_option bind]. auto. }
        apply G, Forall_forall. intros i Hi. apply in_seq in Hi. lia. }
      destruct Lk as (g' & ->). cbn [bind lsnaps length Nat.ltb Nat.leb tl graph ctime]. eexists. split; [reflexivity|]. cbn [lsnaps hd]. split; [discriminate|]. constructor; [reflexivity|]. apply Forall_forall. intros l Hl. rewrite Forall_forall in F''. rewrite (F'' l Hl). congruence. }
  induction k as [|k IH]; intros st N F; destruct (One st N F) as (st' & E & N' & F').
  - exists st, (st', true). auto.
  - cbn [repeat cc_run cc_step]. rewrite E. cbn [bind]. apply IH; assumption.
Qed.
Print Assumptions C74_advance_never_false.

(** ** C75 *)
(** the order of the doubles: NaN compares false *)
Definition at_most (a b : dbl) : Prop := a <> NaN /\ b <> NaN /\ (a = NInf \/ b = PInf \/ exists p q, a = Num p /\ b = Num q /\ (p <= q)%Q).
Definition less (a b : dbl) : Prop := at_most a b /\ ~ at_most b a.
(** [x] is beyond the threshold *)
Definition beyond (m : cmode) (threshold x : dbl) : Prop :=
  match m with CompareGE => at_most threshold x | CompareGT => less threshold x | CompareLE => at_most x threshold | CompareLT => less x threshold end.
Lemma dle_spec a b : dle a b = true <-> at_most a b.
Proof.
  unfold at_most. split.
  - intros H. destruct a as [p| | |]; destruct b as [q| | |]; cbn in H; try discriminate H; (split; [discriminate|split; [discriminate|]]); auto. apply Qle_bool_iff in H. right. right. eauto.
  - intros (A & B & [->|[->|(p & q & -> & -> & L)]]).
    + destruct b; try reflexivity. congruence.
    + destruct a; try reflexivity. congruence.
    + cbn. apply Qle_bool_iff. exact L.
Qed.
Lemma dlt_spec a b : dlt a b = true <-> less a b.
Proof.
  unfold less. rewrite <- !dle_spec. destruct a as [p| | |]; destruct b as [q| | |]; cbn; split; try (intros; discriminate); try (intros [? ?]; congruence); try (intros _; split; congruence).
  - destruct (Qle_bool q p) eqn:E; [discriminate|]. intros _. split; [|congruence]. apply Qle_bool_iff. apply Qlt_le_weak, Qnot_le_lt. intros L. apply Qle_bool_iff in L. congruence.
  - intros [_ H]. destruct (Qle_bool q p); [congruence|reflexivity].
Qed.
(** the comparison made for every value is the one the mode names *)
Theorem C75_comparison : forall m threshold x, accepts m threshold x = true <-> beyond m threshold x.
Proof. intros [] threshold x; cbn [accepts beyond]; first [apply dle_spec|apply dlt_spec]. Qed.
Print Assumptions C75_comparison.
(** the cells a frame accepts, as a matrix of zeros and ones *)
Definition mask (m : cmode) (threshold : dbl) (a : list dbl) : list nat := map (fun x => if accepts m threshold x then 1 else 0) a.
(** [labels] numbers the 4-connected regions of accepted cells of [a] from 1, and is 0 elsewhere *)
Definition regions (m : cmode) (threshold : dbl) (d0 d1 : nat) (a : list dbl) (labels : list nat) : Prop :=
  length labels = length a /\ exists N, let M := mask m threshold a in
    (forall c, inside d0 d1 c -> value d0 labels c <= N) /\
    (forall c, inside d0 d1 c -> value d0 labels c = 0 <-> exists x, nth_error a (fst c + d0 * snd c) = Some x /\ ~ beyond m threshold x) /\
    (forall c e, occupied d0 d1 M c -> occupied d0 d1 M e -> value d0 labels c = value d0 labels e <-> connected4 d0 d1 M c e) /\
    (forall v, 1 <= v <= N -> exists c, occupied d0 d1 M c /\ value d0 labels c = v).
(** C75: regions beyond the threshold are numbered per frame, and linked exactly if they overlap in consecutive frames.
    Partial: as C34, only for frames in which fewer than half as many cells as there are cells start a run (otherwise the label buffer is overrun), and
    as C74. *)
Theorem C75_threshold_partial : forall m threshold d0 d1 arrays, Forall (fun a => length a = d0 * d1 /\ starts d0 d1 (mask m threshold a) < length a / 2) arrays -> (Z.of_nat (length arrays) < 2 ^ 64)%Z ->
  exists frames st ops, threshold_run m threshold d0 d1 cct_new arrays = Ok st /\ Forall2 (regions m threshold d0 d1) arrays frames /\ cc_run cct_new (in_loop frames) = Ok st /\
    graph st = run ops /\ forall a b, is_edge ops a b <-> overlap frames a b.
Proof.
  intros m threshold d0 d1 arrays F B.
  assert (Fr : exists frames, Forall2 (fun a l => (exists N, hoshen_kopelman_2d [d0; d1] (mask m threshold a) = Ok (N, l)) /\ regions m threshold d0 d1 a l) arrays frames).
  { clear B. induction F as [|a arrays [La Sa] F IH]; [exists []; constructor|]. destruct IH as (frames & IH).
    assert (Lm : length (mask m threshold a) = length a) by (unfold mask; apply map_length). destruct (C34_labels_partial d0 d1 (mask m threshold a)) as (N & l & E & Ll & H1 & H2 & H3 & H4); [congruence|rewrite Lm; exact Sa|].
    exists (l :: frames). constructor; [|exact IH]. split; [eauto|]. split; [congruence|]. exists N. cbv zeta. split; [exact H1|]. split; [|split; [exact H3|exact H4]].
    intros c Hc. rewrite (H2 c Hc). unfold value. destruct Hc as [C1 C2]. assert (Hl : fst c + d0 * snd c < length a) by nia. destruct (nth_error a (fst c + d0 * snd c)) as [x|] eqn:Ex; [|apply nth_error_None in Ex; lia].
    assert (V : nth (fst c + d0 * snd c) (mask m threshold a) 0 = if accepts m threshold x then 1 else 0) by (apply nth_error_nth; unfold mask; exact (map_nth_error (fun x => if accepts m threshold x then 1 else 0) _ a Ex)). rewrite V. split.
    - intros Q. exists x. split; [reflexivity|]. rewrite <- C75_comparison. destruct (accepts m threshold x); [discriminate|congruence].
    - intros (y & Q & A). injection Q as <-. rewrite <- C75_comparison in A. destruct (accepts m threshold x); [congruence|reflexivity]. }
  destruct Fr as (frames & Fr). assert (Ln : length frames = length arrays) by (clear -Fr; induction Fr; cbn; congruence).
  assert (Fl : Forall (fun l => length l = d0 * d1) frames). { clear -Fr F. induction Fr as [|a l arrays frames [_ [L _]] Fr IH]; [constructor|]. inversion F; subst. constructor; [destruct H1; congruence|auto]. }
  destruct (loop_ok (d0 * d1) frames Fl ltac:(rewrite Ln; exact B)) as (st & E & _ & _ & ops & S3 & _ & S5). exists frames, st, ops. split; [|split; [|split; [exact E|split; [exact S3|exact S5]]]].
  - rewrite <- E. clear -Fr. generalize cct_new. induction Fr as [|a l arrays frames [(N & Q) _] Fr IH]; intros st; [reflexivity|]. cbn [threshold_run in_loop flat_map app cc_run cc_step]. unfold push_scalar. fold (mask m threshold a). rewrite Q. cbn [bind]. destruct (cc_advance (cc_push st l)) as [[s b]| |]; cbn [bind]; auto.
  - clear -Fr. induction Fr as [|a l arrays frames [_ H] Fr IH]; constructor; assumption.
Qed.
Print Assumptions C75_threshold_partial.
Definition num (z : Z) : dbl := Num (inject_Z z).
Example C75_nonvacuous : let a := [num 5; num 1; num 7; num 2; NaN; num 3; PInf; num 0; num 1] in let b := [num 5; num 5; num 7; num 2; NaN; num 3; NInf; num 0; num 1] in
  Forall (fun a => length a = 3 * 3 /\ starts 3 3 (mask CompareGE (num 4) a) < length a / 2) [a; b] /\
  exists st, threshold_run CompareGE (num 4) 3 3 cct_new [a; b] = Ok st /\ mget (0%Z, 1) (right_links (graph st)) = [(1%Z, 1)] /\ mget (1%Z, 1) (left_links (graph st)) = [(0%Z, 1); (0%Z, 2)].
Proof. cbv zeta. split; [repeat constructor; cbv; lia|]. eexists. split; [vm_compute; reflexivity|]. split; vm_compute; reflexivity. Qed.
