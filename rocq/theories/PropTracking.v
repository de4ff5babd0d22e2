(** C40-C42: tracking graphs.  [op], [run], [is_node], [is_edge], [simple_edge], [consecutive], [component] are in
    TrackingGraphSpec.v; [events_ok] below spells out what a reported list of events must be. *)
From Coq Require Import String.
From Verif Require Import Base NdArray Graph TrackingGraph TrackingGraphSpec TrackingGraphProofs.
Local Open Scope nat_scope. Local Open Scope list_scope.

Section S.
  Context {T L : Type} `{OrdKey T} `{OrdKey L}.
  (** what [relabel] must compute, for the relation [R] that is to be the meaning of "same global label" *)
  Definition labels_by (ops : list (op T L)) (R : T * L -> T * L -> Prop) : Prop :=
    exists g N, relabel (run ops) = Ok g /\
      (forall t l, is_node ops (t, l) -> exists k, get_global_label g t l = Some k /\ 1 <= k <= N) /\
      (forall t l, ~ is_node ops (t, l) -> get_global_label g t l = None) /\
      (forall k, 1 <= k <= N -> exists t l, is_node ops (t, l) /\ get_global_label g t l = Some k) /\
      (forall a b, is_node ops a -> is_node ops b ->
         get_global_label g (fst a) (snd a) = get_global_label g (fst b) (snd b) <-> clos_refl_sym_trans _ R a b).
  (** what [detect_events] must compute *)
  Definition detects_all (ops : list (op T L)) : Prop :=
    exists g, detect_events (run ops) = Ok g /\
      (forall t0 t1, consecutive ops t0 t1 ->
         let es := mget t0 (events g) in
         NoDup es /\ forall e, In e es <->
           e_int e = (t0, t1) /\ component ops t0 t1 (e_lhs e) (e_rhs e) /\ ~ (length (e_lhs e) = 1 /\ length (e_rhs e) = 1)) /\
      (forall t0, (forall t1, ~ consecutive ops t0 t1) -> mget t0 (events g) = []).

  (** the code chains edges with degree one on EITHER linked side *)
  Theorem C40_relabel_partial : forall ops : list (op T L), labels_by ops (half_simple_edge ops).
  Proof.
    intros ops. destruct (relabel_spec ops) as (g & N & E & A & B & C & D). exists g, N. split; [exact E|].
    split. { intros t l Hn. destruct (B t l Hn) as [k Hk]. exists k. split; [exact Hk|]. apply (A _ _ _ Hk). }
    split. { intros t l Hn. destruct (get_global_label g t l) as [k|] eqn:Q; [|reflexivity]. exfalso; apply Hn. apply (A _ _ _ Q). }
    split; [|exact D]. intros k Hk. destruct (C k Hk) as (t & l & Q). exists t, l. split; [apply (A _ _ _ Q)|exact Q].
  Qed.
  (** where no edge has degree one on exactly one of its sides, that is the claimed relation *)
  Theorem C40_relabel_unbranched_partial : forall ops : list (op T L),
    (forall a b, is_edge ops a b -> only_succ ops a b <-> only_pred ops a b) -> labels_by ops (simple_edge ops).
  Proof.
    intros ops U. destruct (C40_relabel_partial ops) as (g & N & E & A & B & C & D). exists g, N.
    split; [exact E|]. split; [exact A|]. split; [exact B|]. split; [exact C|]. intros a b Ha Hb. rewrite (D a b Ha Hb).
    split; apply rst_mono; intros x y K; apply rst_step.
    - destruct K as [K|K]; (split; [|]); try exact K; apply (U x y (proj1 K)); exact K.
    - left. apply K.
  Qed.
  (** no edge may join two nodes of one timestep *)
  Theorem C41_events_partial : forall ops : list (op T L), (forall a b, is_edge ops a b -> fst a <> fst b) -> detects_all ops.
  Proof.
    intros ops NE. destruct (detect_events_spec ops NE) as (g & E & A & B). exists g. split; [exact E|]. split; [|exact B].
    intros t0 t1 C. exact (A t0 t1 C).
  Qed.
  Theorem C42_event_type : forall e : event T L,
    let nl := length (e_lhs e) in let nr := length (e_rhs e) in
    (event_type e = FTK_EVENT_NONE <-> nl = 1 /\ nr = 1) /\ (event_type e = FTK_EVENT_BIRTH <-> nl = 0 /\ nr = 1) /\
    (event_type e = FTK_EVENT_DEATH <-> nl = 1 /\ nr = 0) /\ (event_type e = FTK_EVENT_SPLIT <-> nl = 1 /\ nr = 2) /\
    (event_type e = FTK_EVENT_MERGE <-> nl = 2 /\ nr = 1) /\ (event_type e = FTK_EVENT_RECOMBINATION <-> nl = 2 /\ nr = 2) /\
    (event_type e = FTK_EVENT_COMPOUND <-> ~ In (nl, nr) [(1, 1); (0, 1); (1, 0); (1, 2); (2, 1); (2, 2)]).
  Proof.
    intros e nl nr. unfold event_type. fold nl nr. clearbody nl nr. unfold event_type_of.
    destruct nl as [|[|[|nl]]], nr as [|[|[|nr]]]; cbn; cbv [FTK_EVENT_NONE FTK_EVENT_BIRTH FTK_EVENT_DEATH FTK_EVENT_MERGE FTK_EVENT_SPLIT FTK_EVENT_RECOMBINATION FTK_EVENT_COMPOUND];
      repeat match goal with |- _ /\ _ => split end; intuition congruence.
  Qed.
End S.
Print Assumptions C40_relabel_partial. Print Assumptions C40_relabel_unbranched_partial. Print Assumptions C41_events_partial. Print Assumptions C42_event_type.
(** every event's type has its name *)
Theorem C42_event_name : forall (T L : Type) (e : event T L), exists s, eventTypeToString (event_type e) = Ok s /\
  (event_type e = FTK_EVENT_NONE <-> s = "none"%string) /\ (event_type e = FTK_EVENT_BIRTH <-> s = "birth"%string) /\
  (event_type e = FTK_EVENT_DEATH <-> s = "death"%string) /\ (event_type e = FTK_EVENT_MERGE <-> s = "merge"%string) /\
  (event_type e = FTK_EVENT_SPLIT <-> s = "split"%string) /\ (event_type e = FTK_EVENT_RECOMBINATION <-> s = "recombination"%string) /\
  (event_type e = FTK_EVENT_COMPOUND <-> s = "compound"%string).
Proof.
  intros T L e. unfold event_type, event_type_of.
  repeat match goal with |- context [if ?b then _ else _] => destruct b end;
    (eexists; split; [reflexivity|]); cbv; repeat match goal with |- (_ -> _) /\ (_ -> _) => fail 1 | |- _ /\ _ => split end; split; intros Q; (discriminate Q || reflexivity).
Qed.
Print Assumptions C42_event_name.

(** ** non-vacuity and refutations *)
Local Definition chain : list (op Z nat) := [AddEdge 0%Z 7 1%Z 7; AddEdge 1%Z 7 2%Z 8; AddNode 2%Z 9; AddNode 1%Z 5].
Example C40_nonvacuous : (forall a b, is_edge chain a b -> only_succ chain a b <-> only_pred chain a b) /\
  (exists g, relabel (run chain) = Ok g /\ get_global_label g 0%Z 7 = Some 1 /\ get_global_label g 2%Z 8 = Some 1 /\ get_global_label g 2%Z 9 = Some 3).
Proof.
  split; [|eexists; split; [reflexivity|]; repeat split; reflexivity].
  assert (EE : forall a b, is_edge chain a b -> (a = (0%Z, 7) /\ b = (1%Z, 7)) \/ (a = (1%Z, 7) /\ b = (2%Z, 8))).
  { intros [ta la] [tb lb] [Q|[Q|[Q|[Q|[]]]]]; inversion Q; auto. }
  intros a b K. unfold only_succ, only_pred.
  split; (intros _; split; [exact K|]); intros c Kc; apply EE in K; apply EE in Kc;
    destruct K as [[-> ->]|[-> ->]], Kc as [[E1 E2]|[E1 E2]]; congruence.
Qed.
(** a split: all three nodes get one label though neither edge is simple *)
Local Definition split3 : list (op Z nat) := [AddEdge 0%Z 1 1%Z 1; AddEdge 0%Z 1 1%Z 2].
Theorem C40_relabel_refuted : ~ forall ops : list (op Z nat), labels_by ops (simple_edge ops).
Proof.
  intros F. destruct (F split3) as (g & N & E & _ & _ & _ & D).
  assert (N0 : is_node split3 (0%Z, 1)) by (right; exists (1%Z, 1); left; left; reflexivity).
  assert (N1 : is_node split3 (1%Z, 1)) by (right; exists (0%Z, 1); right; left; reflexivity).
  assert (Q := proj1 (D _ _ N0 N1)). vm_compute in E. inversion E; subst g. specialize (Q eq_refl).
  assert (NS : forall a b, ~ simple_edge split3 a b).
  { intros a b [[K U] _]. assert (Ea : a = (0%Z, 1)) by (destruct a as [ta la], b as [tb lb]; destruct K as [K|[K|[]]]; inversion K; reflexivity). subst a.
    assert (b = (1%Z, 1)) by (symmetry; apply U; left; reflexivity). assert (b = (1%Z, 2)) by (symmetry; apply U; right; left; reflexivity). congruence. }
  assert (W : forall a b, clos_refl_sym_trans _ (simple_edge split3) a b -> a = b).
  { intros a b K. induction K as [a b K| | |]; [destruct (NS _ _ K)|reflexivity|congruence|congruence]. }
  apply W in Q. discriminate Q.
Qed.
Print Assumptions C40_relabel_refuted.

Local Definition hist : list (op Z nat) := [AddEdge 0%Z 1 3%Z 1; AddEdge 0%Z 1 3%Z 2; AddEdge 0%Z 5 3%Z 5; AddNode 3%Z 9; AddNode 0%Z 4; AddEdge 3%Z 1 7%Z 1].
Example C41_nonvacuous : (forall a b, is_edge hist a b -> fst a <> fst b) /\ consecutive hist 0%Z 3%Z /\ component hist 0%Z 3%Z [1] [1; 2] /\
  exists g, detect_events (run hist) = Ok g /\
    mget 0%Z (events g) = [ {| e_int := (0%Z, 3%Z); e_lhs := [1]; e_rhs := [1; 2] |}; {| e_int := (0%Z, 3%Z); e_lhs := [4]; e_rhs := [] |}; {| e_int := (0%Z, 3%Z); e_lhs := []; e_rhs := [9] |} ].
Proof.
  assert (E : exists g, detect_events (run hist) = Ok g /\
    mget 0%Z (events g) = [ {| e_int := (0%Z, 3%Z); e_lhs := [1]; e_rhs := [1; 2] |}; {| e_int := (0%Z, 3%Z); e_lhs := [4]; e_rhs := [] |}; {| e_int := (0%Z, 3%Z); e_lhs := []; e_rhs := [9] |} ]).
  { eexists; split; [vm_compute; reflexivity|reflexivity]. }
  assert (NE : forall a b, is_edge hist a b -> fst a <> fst b).
  { intros [ta la] [tb lb] [Q|[Q|[Q|[Q|[Q|[Q|[]]]]]]]; inversion Q; cbn; lia. }
  assert (C : consecutive hist 0%Z 3%Z).
  { split; [reflexivity|]. split; [exists 4; left; cbn; tauto|]. split; [exists 9; left; cbn; tauto|].
    intros t l Hn [A B]. apply (proj1 (Z.compare_lt_iff _ _)) in A. apply (proj1 (Z.compare_lt_iff _ _)) in B. unfold is_node, is_edge, hist in Hn; cbn [fst snd In] in Hn. assert (t = 0 \/ t = 3 \/ t = 7)%Z; [|clear Hn NE E; lia]. destruct Hn as [Hn|[[t' l'] Hn]]; cbn [fst snd] in Hn; intuition congruence. }
  split; [exact NE|]. split; [exact C|]. split; [|exact E].
  destruct (C41_events_partial hist NE) as (g & E' & D & _). destruct E as (g0 & E0 & M). assert (g = g0) by congruence. subst g0.
  destruct (D _ _ C) as [_ D']. rewrite M in D'. apply (D' {| e_int := (0%Z, 3%Z); e_lhs := [1]; e_rhs := [1; 2] |}). left; reflexivity.
Qed.
(** an edge inside one timestep hides the death of both its ends *)
Local Definition inside : list (op Z nat) := [AddEdge 0%Z 1 0%Z 2; AddNode 1%Z 3].
Theorem C41_events_refuted : ~ forall ops : list (op Z nat), detects_all ops.
Proof.
  intros F. destruct (F inside) as (g & E & A & _). vm_compute in E. inversion E; subst g; clear E.
  assert (C : consecutive inside 0%Z 1%Z).
  { split; [reflexivity|]. split; [exists 1; right; exists (0%Z, 2); left; left; reflexivity|]. split; [exists 3; left; right; left; reflexivity|]. intros t l _ [X Y]. apply (proj1 (Z.compare_lt_iff _ _)) in X. apply (proj1 (Z.compare_lt_iff _ _)) in Y. lia. }
  destruct (A _ _ C) as [_ B]. specialize (B {| e_int := (0%Z, 1%Z); e_lhs := [1]; e_rhs := [] |}). cbn in B.
  destruct (proj2 B) as [Q|[]]; [|discriminate Q]. split; [reflexivity|]. split; [|lia].
  assert (W : forall a b, clos_refl_sym_trans _ (between inside 0%Z 1%Z) a b -> a = b).
  { intros a b K. induction K as [a b (K & F0 & F1)| | |]; [|reflexivity|congruence|congruence].
    destruct a as [ta la], b as [tb lb]. cbn in F0, F1. subst. destruct K as [K|[K|[]]]; inversion K. }
  split; [repeat constructor|]. split; [constructor|]. exists (0%Z, 1).
  assert (Nn : is_node inside (0%Z, 1)) by (right; exists (0%Z, 2); left; left; reflexivity).
  split; [exact Nn|]. split; [left; reflexivity|]. split; intros l; split.
  - intros [<-|[]]. split; [exact Nn|apply rst_refl].
  - intros [_ K]. apply W in K. inversion K. left; reflexivity.
  - intros [].
  - intros [_ K]. apply W in K. inversion K.
Qed.
Print Assumptions C41_events_refuted.
Example C42_nonvacuous : event_type {| e_int := (0, 1); e_lhs := [1; 4]; e_rhs := [2; 3; 5] |} = FTK_EVENT_COMPOUND /\ eventTypeToString FTK_EVENT_RECOMBINATION = Ok "recombination"%string.
Proof. split; reflexivity. Qed.
