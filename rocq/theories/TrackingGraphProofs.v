From Verif Require Import Base UnionFind UnionFindSpec NdArray Graph GraphSpec GraphProofs GraphProofs2 TrackingGraph TrackingGraphSpec.

Section P.
  Context {T L : Type} `{OT : OrdKey T} `{OL : OrdKey L}.
  Notation node := (T * L)%type.
  Notation op := (op T L).

  Lemma In_mget_mset {A V} `{OrdKey A} (k k' : A) (m : list (A * list V)) s : mget k' (mset k s m) = if keqb k' k then s else mget k' m.
  Proof. unfold mget. rewrite mfind_mset. destruct (keqb k' k); reflexivity. Qed.

  (** the invariant tying the containers to the history *)
  Record inv (ops : list op) (g : tg T L) : Prop := {
    i_nodes : forall t n, In n (mget t (nodes g)) <-> fst n = t /\ is_node ops n;
    i_keys : forall t, In t (mkeys (nodes g)) <-> exists l, is_node ops (t, l);
    i_sorted : msorted (nodes g);
    i_nsorted : forall t, sorted (mget t (nodes g));
    i_left : forall a b, In a (mget b (left_links g)) <-> is_edge ops a b;
    i_right : forall a b, In b (mget a (right_links g)) <-> is_edge ops a b;
    i_lsorted : forall n, sorted (mget n (left_links g));
    i_rsorted : forall n, sorted (mget n (right_links g)) }.

  Lemma pair_eta (n : node) : n = (fst n, snd n). Proof. destruct n; reflexivity. Qed.

  Lemma inv_add_node ops g t l : inv ops g -> inv (ops ++ [AddNode t l]) (add_node g t l).
  Proof.
    intros I.
    assert (E : forall a b, is_edge (ops ++ [AddNode t l]) a b <-> is_edge ops a b).
    { intros. unfold is_edge. rewrite in_app_iff. cbn. split; [intros [K|[K|[]]]; [exact K|discriminate]|auto]. }
    assert (N : forall n, is_node (ops ++ [AddNode t l]) n <-> is_node ops n \/ n = (t, l)).
    { intros n. unfold is_node. setoid_rewrite E. rewrite in_app_iff. cbn. split.
      - intros [[K|[K|[]]]|K]; [left; auto|right; inversion K; apply pair_eta|left; auto].
      - intros [[K|K]| ->]; cbn; auto. }
    constructor; cbn [nodes left_links right_links add_node].
    - intros t' n. rewrite In_mget_mset, N. destruct (keqb t' t) eqn:Q.
      + apply keqb_eq in Q. subst t'. rewrite In_sins, (i_nodes _ _ I). split; [intros [->|[K1 K2]]; cbn; auto|]. intros [K1 [K2|K2]]; auto.
      + apply keqb_neq in Q. rewrite (i_nodes _ _ I). split; [tauto|]. intros [K1 [K2| ->]]; [auto|]. cbn in K1. congruence.
    - intros t'. rewrite In_mset_keys, (i_keys _ _ I). setoid_rewrite N. split.
      + intros [->|[l' K]]; [exists l; auto|exists l'; auto].
      + intros [l' [K|K]]; [right; exists l'; exact K|left; congruence].
    - apply msorted_mset, (i_sorted _ _ I).
    - intros t'. rewrite In_mget_mset. destruct (keqb t' t); [apply sorted_sins|]; apply (i_nsorted _ _ I).
    - intros a b. rewrite E. apply (i_left _ _ I).
    - intros a b. rewrite E. apply (i_right _ _ I).
    - apply (i_lsorted _ _ I).
    - apply (i_rsorted _ _ I).
  Qed.
  Lemma inv_add_edge ops g t0 l0 t1 l1 : inv ops g -> inv (ops ++ [AddEdge t0 l0 t1 l1]) (add_edge g t0 l0 t1 l1).
  Proof.
    intros I.
    assert (E : forall a b, is_edge (ops ++ [AddEdge t0 l0 t1 l1]) a b <-> is_edge ops a b \/ (a = (t0, l0) /\ b = (t1, l1))).
    { intros a b. unfold is_edge. rewrite in_app_iff. cbn. split; [intros [K|[K|[]]]; [auto|inversion K; right; split; apply pair_eta]|intros [K|[-> ->]]; cbn; auto]. }
    assert (N : forall n, is_node (ops ++ [AddEdge t0 l0 t1 l1]) n <-> is_node ops n \/ n = (t0, l0) \/ n = (t1, l1)).
    { intros n. unfold is_node. setoid_rewrite E. rewrite in_app_iff. cbn. split.
      - intros [[K|[K|[]]]|(m & [[K|[K1 K2]]|[K|[K1 K2]]])]; [left; auto|discriminate|left; right; exists m; auto|right; auto|left; right; exists m; auto|right; auto].
      - intros [[K|(m & [K|K])]|[->| ->]]; [auto|right; exists m; auto|right; exists m; auto|right; exists (t1, l1); auto|right; exists (t0, l0); auto]. }
    constructor; cbn [nodes left_links right_links add_edge].
    - intros t n. rewrite N. rewrite !In_mget_mset.
      destruct (keqb t t1) eqn:Q1; destruct (keqb t1 t0) eqn:Q2; destruct (keqb t t0) eqn:Q3; rewrite ?keqb_eq, ?keqb_neq in *; subst; rewrite ?In_sins, ?(i_nodes _ _ I);
        (split; [intros K; intuition (subst; cbn; auto)|intros [K1 [K2|[K2|K2]]]; subst; cbn in *; subst; auto; try congruence]).
    - intros t. rewrite !In_mset_keys, (i_keys _ _ I). setoid_rewrite N. split.
      + intros [->|[->|[l K]]]; [exists l1; auto|exists l0; auto|exists l; auto].
      + intros [l [K|[K|K]]]; [right; right; exists l; exact K|right; left; congruence|left; congruence].
    - apply msorted_mset, msorted_mset, (i_sorted _ _ I).
    - intros t. rewrite !In_mget_mset. destruct (keqb t t1), (keqb t1 t0), (keqb t t0); repeat apply sorted_sins; apply (i_nsorted _ _ I).
    - intros a b. rewrite E, In_mget_mset. destruct (keqb b (t1, l1)) eqn:Q.
      + apply keqb_eq in Q. subst. rewrite In_sins, (i_left _ _ I). tauto.
      + apply keqb_neq in Q. rewrite (i_left _ _ I). tauto.
    - intros a b. rewrite E, In_mget_mset. destruct (keqb a (t0, l0)) eqn:Q.
      + apply keqb_eq in Q. subst. rewrite In_sins, (i_right _ _ I). tauto.
      + apply keqb_neq in Q. rewrite (i_right _ _ I). tauto.
    - intros n. rewrite In_mget_mset. destruct (keqb n (t1, l1)); [apply sorted_sins|]; apply (i_lsorted _ _ I).
    - intros n. rewrite In_mget_mset. destruct (keqb n (t0, l0)); [apply sorted_sins|]; apply (i_rsorted _ _ I).
  Qed.
  Lemma inv_run (ops : list op) : inv ops (run ops).
  Proof.
    unfold run. assert (W : forall ops2 ops1 g, inv ops1 g -> inv (ops1 ++ ops2) (fold_left apply_op ops2 g)).
    { induction ops2 as [|o ops2 IH]; intros ops1 g I; [rewrite app_nil_r; exact I|]. cbn [fold_left].
      replace (ops1 ++ o :: ops2) with ((ops1 ++ [o]) ++ ops2) by (rewrite <- app_assoc; reflexivity).
      apply IH. destruct o; [apply inv_add_node|apply inv_add_edge]; exact I. }
    apply (W ops []). constructor; cbn; try (intros; split; [tauto|]); try (intros; constructor).
    - intros [_ [[]|(m & [[]|[]])]].
    - intros (l & [[]|(m & [[]|[]])]).
    - intros [].
    - intros [].
  Qed.
  Lemma edge_nodes (ops : list op) a b : is_edge ops a b -> is_node ops a /\ is_node ops b.
  Proof. intros E. split; right; [exists b|exists a]; auto. Qed.
  Lemma ev_run (ops : list op) : events (run ops) = [].
  Proof.
    unfold run. assert (W : forall (ops2 : list op) (g : tg T L), events (fold_left apply_op ops2 g) = events g).
    { induction ops2 as [|o ops2 IH]; intros g; [reflexivity|]. cbn [fold_left]. rewrite IH. destruct o; reflexivity. }
    apply W.
  Qed.

  (** ** relabel *)
  Lemma sorted_length1 {A} `{OrdKey A} (s : list A) x : sorted s -> In x s -> length s = 1 <-> forall y, In y s -> y = x.
  Proof.
    intros S I. split.
    - destruct s as [|a [|]]; cbn; try discriminate. intros _ y [<-|[]]. destruct I as [->|[]]. reflexivity.
    - intros U. assert (N := sorted_NoDup _ S). destruct s as [|a [|b s]]; [destruct I|reflexivity|]. exfalso.
      assert (a = b) by (rewrite (U a), (U b); cbn; auto). subst. inversion N; cbn in *; tauto.
  Qed.
  Lemma In_relabel_neighbors ops g x y : inv ops g -> In y (relabel_neighbors g x) <-> only_pred ops y x \/ only_succ ops x y.
  Proof.
    intros I. unfold relabel_neighbors.
    assert (Hl : forall P : Prop, (In y (if Nat.eqb (length (mget x (left_links g))) 1 then fold_left (fun s x => sins x s) (mget x (left_links g)) [] else []) <-> only_pred ops y x)).
    { intros _. unfold only_pred. rewrite <- (i_left _ _ I). destruct (Nat.eqb_spec (length (mget x (left_links g))) 1) as [Q|Q].
      - rewrite In_fold_sins. cbn. split; [intros [K|[]]|intros [K _]; auto]. split; [exact K|]. intros a'. rewrite <- (i_left _ _ I). apply (sorted_length1 _ y (i_lsorted _ _ I x) K). exact Q.
      - cbn. split; [tauto|]. intros [K U]. apply Q. apply (sorted_length1 _ y (i_lsorted _ _ I x) K). intros z Hz. apply U. apply (i_left _ _ I). exact Hz. }
    specialize (Hl True). destruct (Nat.eqb_spec (length (mget x (right_links g))) 1) as [Q|Q].
    - rewrite In_fold_sins, Hl. unfold only_succ. rewrite <- (i_right _ _ I). split.
      + intros [K|K]; [right; split; [exact K|]|auto]. intros a'. rewrite <- (i_right _ _ I). apply (sorted_length1 _ y (i_rsorted _ _ I x) K). exact Q.
      + intros [K|[K _]]; auto.
    - rewrite Hl. split; [auto|]. intros [K|[K U]]; [exact K|]. exfalso. apply Q. apply (i_right _ _ I) in K. apply (sorted_length1 _ y (i_rsorted _ _ I x) K). intros z Hz. apply U. apply (i_right _ _ I). exact Hz.
  Qed.
  Lemma In_allnodes ops g x : inv ops g -> In x (fold_left (fun s kv => fold_left (fun s x => sins x s) (snd kv) s) (nodes g) []) <-> is_node ops x.
  Proof.
    intros I. assert (W : forall (m : list (T * list node)) s, In x (fold_left (fun s kv => fold_left (fun s x => sins x s) (snd kv) s) m s) <-> In x s \/ exists kv, In kv m /\ In x (snd kv)).
    { induction m as [|kv m IH]; intros s; cbn [fold_left]; [split; [auto|intros [K|(? & [] & _)]; exact K]|].
      rewrite IH, In_fold_sins. cbn. split.
      - intros [[K|K]|(kv' & K1 & K2)]; [right; exists kv; auto|auto|right; exists kv'; auto].
      - intros [K|(kv' & [<-|K1] & K2)]; [auto|auto|right; exists kv'; auto]. }
    rewrite W. cbn. split.
    - intros [[]|([t s] & K1 & K2)]. cbn in K2. apply (In_mfind t s) in K1; [|apply (i_sorted _ _ I)].
      assert (In x (mget t (nodes g))) by (unfold mget; rewrite K1; exact K2). apply (i_nodes _ _ I) in H. tauto.
    - intros N. right. assert (K : In x (mget (fst x) (nodes g))) by (apply (i_nodes _ _ I); auto). unfold mget in K.
      destruct (mfind (fst x) (nodes g)) as [s|] eqn:F; [|destruct K]. exists (fst x, s). split; [apply mfind_In; exact F|exact K].
  Qed.

  Lemma rst_mono {A} (R S : A -> A -> Prop) x y : (forall a b, R a b -> clos_refl_sym_trans A S a b) -> clos_refl_sym_trans A R x y -> clos_refl_sym_trans A S x y.
  Proof. intros M C. induction C; [apply M; assumption|apply rst_refl|apply rst_sym; assumption|eapply rst_trans; eassumption]. Qed.

  Lemma label_components_spec : forall (cs : list (list node)) c m x,
    (forall i j S T x, nth_error cs i = Some S -> nth_error cs j = Some T -> In x S -> In x T -> i = j) ->
    (forall i S, nth_error cs i = Some S -> In x S -> mfind x (label_components cs c m) = Some (1 + (c + i))) /\
    ((forall S, In S cs -> ~ In x S) -> mfind x (label_components cs c m) = mfind x m).
  Proof.
    assert (F : forall (c : list node) (v : nat) (m : list (node * nat)) x, mfind x (fold_left (fun m n => mset n v m) c m) = if smem x c then Some v else mfind x m).
    { induction c as [|n c IH]; intros v m x; [reflexivity|]. cbn [fold_left smem]. rewrite IH, mfind_mset. destruct (smem x c); [rewrite orb_true_r; reflexivity|]. rewrite orb_false_r. reflexivity. }
    induction cs as [|S0 cs IH]; intros c m x D; cbn [label_components].
    - split; [intros [|i] S Hi; discriminate|reflexivity].
    - assert (D' : forall i j S T x, nth_error cs i = Some S -> nth_error cs j = Some T -> In x S -> In x T -> i = j).
      { intros i j S T' y Hi Hj Y1 Y2. specialize (D (1 + i) (1 + j) S T' y Hi Hj Y1 Y2). lia. }
      destruct (IH (1 + c) (fold_left (fun m n => mset n (1 + c) m) S0 m) x D') as [A B]. split.
      + intros [|i] S Hi HS; cbn in Hi.
        * inversion Hi; subst S0. etransitivity; [apply B|].
          -- intros S' HS' Hx. apply In_nth_error in HS'. destruct HS' as [j Hj]. specialize (D 0 (1 + j) S S' x eq_refl Hj HS Hx). lia.
          -- rewrite F. rewrite (proj2 (smem_In x S) HS). f_equal. lia.
        * etransitivity; [apply (A i S Hi HS)|]. f_equal. lia.
      + intros N. etransitivity; [apply B; intros S HS; apply N; right; exact HS|]. rewrite F.
        assert (E : smem x S0 = false) by (apply smem_not_In, N; left; reflexivity). rewrite E. reflexivity.
  Qed.

  Lemma relabel_spec (ops : list op) : exists g' N, relabel (run ops) = Ok g' /\
    (forall t l k, get_global_label g' t l = Some k -> is_node ops (t, l) /\ 1 <= k <= N) /\
    (forall t l, is_node ops (t, l) -> exists k, get_global_label g' t l = Some k) /\
    (forall k, 1 <= k <= N -> exists t l, get_global_label g' t l = Some k) /\
    (forall a b, is_node ops a -> is_node ops b ->
       get_global_label g' (fst a) (snd a) = get_global_label g' (fst b) (snd b) <-> clos_refl_sym_trans _ (half_simple_edge ops) a b).
  Proof.
    assert (I := inv_run ops). unfold relabel. set (q := fold_left (fun s kv => fold_left (fun s x => sins x s) (snd kv) s) (nodes (run ops)) []).
    assert (Hq : forall x, In x q <-> is_node ops x) by (intros x; apply In_allnodes; exact I).
    destruct (cca_lemma (relabel_neighbors (run ops)) q) as (sets & E & NE & _ & D & Cov & Cl). rewrite E. cbn [bind].
    eexists _, (length sets). split; [reflexivity|]. unfold get_global_label; cbn [node_label].
    assert (Lab : forall x i S, nth_error sets i = Some S -> In x S -> mfind x (label_components sets 0 []) = Some (1 + i)).
    { intros x i S Hi Hx. apply (proj1 (label_components_spec sets 0 [] x D) i S Hi Hx). }
    assert (Wh : forall x, is_node ops x -> exists i S, nth_error sets i = Some S /\ In x S).
    { intros x Nx. apply Hq, Cov in Nx. destruct Nx as (S & HS & Hx). apply In_nth_error in HS. destruct HS as [i Hi]. exists i, S. auto. }
    assert (Con : forall x y, connected (relabel_neighbors (run ops)) q x y <-> clos_refl_sym_trans _ (half_simple_edge ops) x y).
    { intros x y. split; apply rst_mono.
      - intros a b (Ha & Hb & K). apply (In_relabel_neighbors ops _ _ _ I) in K. destruct K as [K|K]; [apply rst_sym, rst_step; right; exact K|apply rst_step; left; exact K].
      - intros a b [K|K]; (destruct (edge_nodes ops a b) as [Na Nb]; [apply K|]); [apply rst_step|apply rst_sym, rst_step]; (split; [apply Hq; assumption|split; [apply Hq; assumption|apply (In_relabel_neighbors ops _ _ _ I); auto]]). }
    split; [|split; [|split]].
    - intros t l k F. destruct (in_dec kdec (t, l) q) as [K|K].
      + apply Hq in K. split; [exact K|]. destruct (Wh _ K) as (i & S & Hi & Hx). rewrite (Lab _ i S Hi Hx) in F. inversion F. assert (i < length sets) by (apply nth_error_Some; congruence). lia.
      + exfalso. rewrite (proj2 (label_components_spec sets 0 [] (t, l) D)) in F; [discriminate|]. intros S HS Hx. apply K, Cov. exists S; auto.
    - intros t l K. destruct (Wh _ K) as (i & S & Hi & Hx). exists (1 + i). apply (Lab _ i S Hi Hx).
    - intros k [K1 K2]. destruct k as [|i]; [lia|]. change (Datatypes.S i) with (1 + i). destruct (nth_error sets i) as [S|] eqn:Hi; [|apply nth_error_None in Hi; lia].
      assert (NS := NE S (nth_error_In _ _ Hi)). destruct S as [|[t l] S']; [congruence|]. exists t, l. apply (Lab _ i _ Hi). left; reflexivity.
    - intros a b Na Nb. rewrite <- !pair_eta. destruct (Wh _ Na) as (i & S & Hi & Ha). destruct (Wh _ Nb) as (j & S' & Hj & Hb).
      rewrite (Lab _ i S Hi Ha), (Lab _ j S' Hj Hb), <- Con. split.
      + intros Q. inversion Q; subst j. rewrite Hi in Hj. inversion Hj; subst S'. apply (Cl S a (nth_error_In _ _ Hi) Ha b). exact Hb.
      + intros Q. f_equal. f_equal. assert (Hb' : In b S) by (apply (Cl S a (nth_error_In _ _ Hi) Ha b); split; [apply Hq; exact Nb|exact Q]). apply (D i j S S' b Hi Hj Hb' Hb).
  Qed.

  (** ** detect_events *)
  Lemma mget_mins (k k' : T) (m : list (T * list node)) : mget k' (mins k [] m) = mget k' m.
  Proof. unfold mget. rewrite mfind_mins. destruct (mfind k' m) eqn:E; [reflexivity|]. destruct (keqb k' k); reflexivity. Qed.

  Lemma event_of_spec t0 t1 (c : list node) :
    let e := event_of t0 t1 c in e_int e = (t0, t1) /\ sorted (e_lhs e) /\ sorted (e_rhs e) /\
    (forall l, In l (e_lhs e) <-> In (t0, l) c) /\ (forall l, In l (e_rhs e) <-> exists t, t <> t0 /\ In (t, l) c).
  Proof.
    unfold event_of.
    assert (W : forall (c : list node) (e : event T L), sorted (e_lhs e) -> sorted (e_rhs e) ->
      let e' := fold_left (fun e n => if keqb (fst n) t0 then {| e_int := e_int e; e_lhs := sins (snd n) (e_lhs e); e_rhs := e_rhs e |} else {| e_int := e_int e; e_lhs := e_lhs e; e_rhs := sins (snd n) (e_rhs e) |}) c e in
      e_int e' = e_int e /\ sorted (e_lhs e') /\ sorted (e_rhs e') /\ (forall l, In l (e_lhs e') <-> In l (e_lhs e) \/ In (t0, l) c) /\ (forall l, In l (e_rhs e') <-> In l (e_rhs e) \/ exists t, t <> t0 /\ In (t, l) c)).
    { clear c. induction c as [|[t l0] c IH]; intros e S1 S2; cbn [fold_left].
      - repeat split; auto; try (intros [K|[]]; exact K). intros [K|(? & _ & [])]; exact K.
      - cbn [fst snd]. destruct (keqb t t0) eqn:Q.
        + apply keqb_eq in Q. subst t. destruct (IH {| e_int := e_int e; e_lhs := sins l0 (e_lhs e); e_rhs := e_rhs e |}) as (A & B & C & D & E); [apply sorted_sins; exact S1|exact S2|]. cbn [e_int e_lhs e_rhs] in *.
          split; [exact A|]. split; [exact B|]. split; [exact C|]. split.
          * intros l. etransitivity; [apply D|]. rewrite In_sins. cbn. split; [intros [[->|K]|K]; auto|intros [K|[K|K]]; auto]. inversion K; auto.
          * intros l. etransitivity; [apply E|]. split; [intros [K|(t & K1 & K2)]; [auto|right; exists t; cbn; auto]|intros [K|(t & K1 & [K2|K2])]; [auto|inversion K2; congruence|right; exists t; auto]].
        + apply keqb_neq in Q. destruct (IH {| e_int := e_int e; e_lhs := e_lhs e; e_rhs := sins l0 (e_rhs e) |}) as (A & B & C & D & E); [exact S1|apply sorted_sins; exact S2|]. cbn [e_int e_lhs e_rhs] in *.
          split; [exact A|]. split; [exact B|]. split; [exact C|]. split.
          * intros l. etransitivity; [apply D|]. cbn. split; [intros [K|K]; auto|intros [K|[K|K]]; auto]. inversion K; congruence.
          * intros l. etransitivity; [apply E|]. rewrite In_sins. cbn. split; [intros [[->|K]|(t' & K1 & K2)]; [right; exists t; auto|auto|right; exists t'; auto]|intros [K|(t' & K1 & [K2|K2])]; [auto|inversion K2; auto|right; exists t'; auto]]. }
    destruct (W c {| e_int := (t0, t1); e_lhs := []; e_rhs := [] |}) as (A & B & C & D & E); [constructor|constructor|]. cbn [e_int e_lhs e_rhs] in *.
    split; [exact A|]. split; [exact B|]. split; [exact C|]. split; intros l; [etransitivity; [apply D|]|etransitivity; [apply E|]]; cbn; tauto.
  Qed.

  Lemma events_of_spec t0 t1 (cs : list (list node)) ev k :
    mget k (events_of t0 t1 cs ev) = if keqb k t0 then mget t0 ev ++ map (event_of t0 t1) (filter (fun c => negb (Nat.eqb (length c) 2)) cs) else mget k ev.
  Proof.
    unfold events_of. revert ev. induction cs as [|c cs IH]; intros ev; cbn [fold_left filter map].
    - destruct (keqb k t0) eqn:Q; [apply keqb_eq in Q; subst; rewrite app_nil_r; reflexivity|reflexivity].
    - rewrite IH. destruct (Nat.eqb (length c) 2); cbn [negb map]; [reflexivity|]. rewrite !In_mget_mset. rewrite keqb_refl. destruct (keqb k t0); [|reflexivity]. rewrite <- app_assoc. reflexivity.
  Qed.

  (** in a bipartite graph a node connected to another one has a neighbour on the other side *)
  Lemma rst_step_first {A} (R : A -> A -> Prop) x y : clos_refl_sym_trans A R x y -> x = y \/ exists z, (R x z \/ R z x) /\ clos_refl_sym_trans A R x z.
  Proof.
    intros C. apply clos_rst_rst1n_iff in C. inversion C as [|y' z' S R']; subst; [left; reflexivity|right]. exists y'. split; [exact S|].
    destruct S; [apply rst_step|apply rst_sym, rst_step]; assumption.
  Qed.

  Lemma split_length t0 t1 (c : list node) Lh Rh : t0 <> t1 -> NoDup c -> NoDup Lh -> NoDup Rh -> (forall n, In n c -> fst n = t0 \/ fst n = t1) ->
    (forall l, In l Lh <-> In (t0, l) c) -> (forall l, In l Rh <-> In (t1, l) c) -> length c = length Lh + length Rh.
  Proof.
    intros N Nc Nl Nr T0 Hl Hr. transitivity (length (map (fun l => (t0, l)) Lh ++ map (fun l => (t1, l)) Rh)); [|rewrite app_length, !map_length; reflexivity].
    apply Permutation_length, NoDup_Permutation; [exact Nc| |].
    - assert (G : forall (a : list node) b, NoDup a -> NoDup b -> (forall x, In x a -> ~ In x b) -> NoDup (a ++ b)).
      { induction a as [|x a IH]; intros b A B D; [exact B|]. inversion A; subst. cbn. constructor.
        - rewrite in_app_iff. intros [K|K]; [contradiction|]. apply (D x); [left; reflexivity|exact K].
        - apply IH; auto. intros y Hy. apply D. right; exact Hy. }
      apply G.
      + apply FinFun.Injective_map_NoDup; [intros u v E; inversion E; reflexivity|exact Nl].
      + apply FinFun.Injective_map_NoDup; [intros u v E; inversion E; reflexivity|exact Nr].
      + intros x Hx Hx'. apply in_map_iff in Hx. apply in_map_iff in Hx'. destruct Hx as (u & <- & _), Hx' as (v & E & _). inversion E. congruence.
    - intros [t l]. rewrite in_app_iff, !in_map_iff. split.
      + intros K. destruct (T0 _ K) as [E|E]; cbn in E; subst t; [left|right]; exists l; (split; [reflexivity|]); [apply Hl|apply Hr]; exact K.
      + intros [(u & E & K)|(u & E & K)]; inversion E; subst; [apply Hl|apply Hr]; exact K.
  Qed.

  Lemma component_size (ops : list op) (t0 t1 : T) (c : list node) n : t0 <> t1 -> NoDup c -> (forall n, In n c -> fst n = t0 \/ fst n = t1) -> In n c ->
    (forall y, In y c <-> is_node ops y /\ (fst y = t0 \/ fst y = t1) /\ clos_refl_sym_trans _ (between ops t0 t1) n y) ->
    forall Lh Rh, NoDup Lh -> NoDup Rh -> (forall l, In l Lh <-> In (t0, l) c) -> (forall l, In l Rh <-> In (t1, l) c) ->
    length c = 2 <-> (length Lh = 1 /\ length Rh = 1).
  Proof.
    intros N Nc T0 Hn Cl Lh Rh Nl Nr Hl Hr. assert (E := split_length t0 t1 c Lh Rh N Nc Nl Nr T0 Hl Hr). split; [|lia].
    intros Two. rewrite Two in E.
    assert (W : forall t s x, (t = t0 /\ s = t1) \/ (t = t1 /\ s = t0) -> In x c -> fst x = t -> (forall z, In z c -> fst z <> s) -> length c = 2 -> False).
    { intros t s x TS Hx Fx NS L2. destruct c as [|a [|b [|]]]; try discriminate L2.
      assert (AB : a <> b) by (inversion Nc; cbn in *; intuition).
      assert (Y : exists y, In y [a; b] /\ y <> x). { destruct Hx as [->|[->|[]]]; [exists b|exists a]; cbn; auto. }
      destruct Y as (y & Hy & Ny). assert (Cx := proj1 (Cl x) Hx). assert (Cy := proj1 (Cl y) Hy).
      assert (R : clos_refl_sym_trans _ (between ops t0 t1) x y) by (eapply rst_trans; [apply rst_sym; apply Cx|apply Cy]).
      destruct (rst_step_first _ _ _ R) as [->|(z & Z1 & Z2)]; [congruence|].
      assert (Hz : In z [a; b] /\ fst z = s).
      { destruct Z1 as [(Ed & F1 & F2)|(Ed & F1 & F2)]; destruct (edge_nodes ops _ _ Ed) as [N1 N2].
        - assert (fst z = s) by (destruct TS as [[-> ->]|[-> ->]]; congruence). split; [|assumption]. apply Cl. split; [exact N2|]. split; [auto|]. eapply rst_trans; [apply Cx|exact Z2].
        - assert (fst z = s) by (destruct TS as [[-> ->]|[-> ->]]; congruence). split; [|assumption]. apply Cl. split; [exact N1|]. split; [auto|]. eapply rst_trans; [apply Cx|exact Z2]. }
      destruct Hz as [Hz1 Hz2]. apply (NS z Hz1 Hz2). }
    destruct Lh as [|l Lh], Rh as [|r Rh]; cbn in *; try lia.
    - exfalso. apply (W t1 t0 (t1, r)); [auto|apply Hr; auto|reflexivity| |exact Two]. intros z Hz Fz. destruct z as [t l]. cbn in Fz. subst t. apply Hl in Hz. destruct Hz.
    - exfalso. apply (W t0 t1 (t0, l)); [auto|apply Hl; auto|reflexivity| |exact Two]. intros z Hz Fz. destruct z as [t r]. cbn in Fz. subst t. apply Hr in Hz. destruct Hz.
  Qed.

  Definition events_ok (ops : list op) t0 t1 (es : list (event T L)) : Prop :=
    NoDup es /\ forall e, In e es <-> e_int e = (t0, t1) /\ component ops t0 t1 (e_lhs e) (e_rhs e) /\ ~ (length (e_lhs e) = 1 /\ length (e_rhs e) = 1).

  Lemma NoDup_map_inj {A B} (f : A -> B) l : NoDup l -> (forall x y, In x l -> In y l -> f x = f y -> x = y) -> NoDup (map f l).
  Proof.
    induction 1 as [|a l Na N IH]; intros F; cbn; [constructor|]. constructor.
    - intros K. apply in_map_iff in K. destruct K as (b & E & Hb). apply Na. rewrite <- (F b a); auto; [right; exact Hb|left; reflexivity].
    - apply IH. intros; apply F; auto; right; assumption.
  Qed.

  Lemma detect_in_spec (ops : list op) g t0 t1 : inv ops g -> t0 <> t1 -> In t0 (mkeys (nodes g)) -> In t1 (mkeys (nodes g)) ->
    (forall a b, is_edge ops a b -> fst a <> fst b) ->
    exists g' es, detect_events_in g t0 t1 = Ok g' /\ nodes g' = nodes g /\ left_links g' = left_links g /\ right_links g' = right_links g /\ node_label g' = node_label g /\
      events_ok ops t0 t1 es /\ forall k, mget k (events g') = if keqb k t0 then mget t0 (events g) ++ es else mget k (events g).
  Proof.
    intros I N K0 K1 NE. unfold detect_events_in.
    assert (Tch : forall t, In t (mkeys (nodes g)) -> touch t (nodes g) = nodes g).
    { intros t K. unfold touch, mins. apply mfind_In_keys in K. destruct K as [v ->]. reflexivity. }
    rewrite (Tch t0 K0), (Tch t1 K1).
    set (q := fold_left (fun s x => sins x s) (mget t1 (nodes g)) (fold_left (fun s x => sins x s) (mget t0 (nodes g)) [])).
    set (nb := fun n : node => if keqb (fst n) t0 then mget n (right_links g) else mget n (left_links g)).
    assert (Hq : forall x, In x q <-> is_node ops x /\ (fst x = t0 \/ fst x = t1)).
    { intros x. unfold q. rewrite !In_fold_sins, !(i_nodes _ _ I). cbn. tauto. }
    destruct (cca_lemma nb q) as (sets & E & Hne & So & D & Cov & Cl). rewrite E. cbn [bind].
    assert (Con : forall x y, connected nb q x y <-> clos_refl_sym_trans _ (between ops t0 t1) x y).
    { intros x y. split; apply rst_mono.
      - intros a b (Ha & Hb & K). apply Hq in Ha. apply Hq in Hb. unfold nb in K. destruct (keqb (fst a) t0) eqn:Q.
        + apply keqb_eq in Q. apply (i_right _ _ I) in K. apply rst_step. split; [exact K|]. split; [exact Q|]. specialize (NE _ _ K). destruct Hb as [_ [Hb|Hb]]; congruence.
        + apply keqb_neq in Q. apply (i_left _ _ I) in K. apply rst_sym, rst_step. assert (Fa : fst a = t1) by (destruct Ha as [_ [Ha|Ha]]; congruence). split; [exact K|]. split; [|exact Fa]. specialize (NE _ _ K). destruct Hb as [_ [Hb|Hb]]; congruence.
      - intros a b (K & Fa & Fb). destruct (edge_nodes ops _ _ K) as [Na Nb]. apply rst_step. split; [apply Hq; auto|]. split; [apply Hq; auto|]. unfold nb. rewrite (proj2 (keqb_eq (fst a) t0) Fa). apply (i_right _ _ I). exact K. }
    assert (Tm : forall S, In S sets -> forall n, In n S -> fst n = t0 \/ fst n = t1).
    { intros S HS n Hn. apply Hq. apply Cov. exists S; auto. }
    assert (Sp : forall S, In S sets -> let e := event_of t0 t1 S in e_int e = (t0, t1) /\ sorted (e_lhs e) /\ sorted (e_rhs e) /\ (forall l, In l (e_lhs e) <-> In (t0, l) S) /\ (forall l, In l (e_rhs e) <-> In (t1, l) S)).
    { intros S HS. destruct (event_of_spec t0 t1 S) as (A1 & A2 & A3 & A4 & A5). cbn zeta. repeat (split; [assumption|]). intros l. rewrite A5. split.
      - intros (t & Nt & K). destruct (Tm S HS _ K) as [F|F]; cbn in F; congruence.
      - intros K. exists t1. auto. }
    assert (Clq : forall S n, In S sets -> In n S -> forall y, In y S <-> is_node ops y /\ (fst y = t0 \/ fst y = t1) /\ clos_refl_sym_trans _ (between ops t0 t1) n y).
    { intros S n HS Hn y. rewrite (Cl S n HS Hn y), Hq, Con. tauto. }
    assert (Sz : forall S, In S sets -> length S = 2 <-> length (e_lhs (event_of t0 t1 S)) = 1 /\ length (e_rhs (event_of t0 t1 S)) = 1).
    { intros S HS. assert (X := Hne S HS). destruct S as [|n S']; [congruence|]. destruct (Sp _ HS) as (A1 & A2 & A3 & A4 & A5).
      apply (component_size ops t0 t1 (n :: S') n N (sorted_NoDup _ (So _ HS)) (Tm _ HS) (or_introl eq_refl) (Clq _ _ HS (or_introl eq_refl))
        _ _ (sorted_NoDup _ A2) (sorted_NoDup _ A3) A4 A5). }
    assert (Inj : forall S S', In S sets -> In S' sets -> event_of t0 t1 S = event_of t0 t1 S' -> S = S').
    { intros S S' HS HS' Q. destruct (Sp S HS) as (_ & _ & _ & A4 & A5). destruct (Sp S' HS') as (_ & _ & _ & B4 & B5). rewrite <- Q in B4, B5.
      assert (X := Hne S HS). assert (Y : exists n, In n S) by (destruct S as [|n ?]; [congruence|exists n; left; reflexivity]). destruct Y as [[t l] Hn].
      assert (Hn' : In (t, l) S'). { destruct (Tm S HS _ Hn) as [F|F]; cbn in F; subst t; [apply B4, A4|apply B5, A5]; exact Hn. }
      apply In_nth_error in HS. apply In_nth_error in HS'. destruct HS as [i Hi], HS' as [j Hj]. assert (i = j) by (eapply D; eauto). subst j. congruence. }
    eexists _, (map (event_of t0 t1) (filter (fun c => negb (Nat.eqb (length c) 2)) sets)).
    split; [reflexivity|]. cbn [nodes left_links right_links node_label events]. do 4 (split; [reflexivity|]). split; [|intros k; apply events_of_spec].
    split.
    - apply NoDup_map_inj.
      + apply NoDup_filter. apply NoDup_nth_error. intros i j Li Q. destruct (nth_error sets i) as [S|] eqn:Hi; [|apply nth_error_Some in Li; congruence].
        assert (X := Hne S (nth_error_In _ _ Hi)). destruct S as [|n S']; [congruence|]. eapply (D i j); [exact Hi|symmetry; exact Q|left; reflexivity|left; reflexivity].
      + intros x y Hx Hy. apply filter_In in Hx. apply filter_In in Hy. apply Inj; tauto.
    - intros e. rewrite in_map_iff. split.
      + intros (S & <- & HS). apply filter_In in HS. destruct HS as [HS L2]. apply negb_true_iff, Nat.eqb_neq in L2. destruct (Sp S HS) as (A1 & A2 & A3 & A4 & A5).
        split; [exact A1|]. split; [|intros Q; apply L2, Sz; assumption].
        assert (X := Hne S HS). destruct S as [|n S']; [congruence|]. set (S := n :: S') in *.
        split; [exact A2|]. split; [exact A3|]. exists n. assert (Hn : In n S) by (left; reflexivity). assert (Nn := proj1 (Clq S n HS Hn n) Hn).
        split; [tauto|]. split; [tauto|]. split; intros l; [rewrite A4|rewrite A5]; rewrite (Clq S n HS Hn); cbn [fst]; tauto.
      + intros (A1 & (A2 & A3 & n & Nn & Fn & A4 & A5) & NZ).
        assert (Hn : In n q) by (apply Hq; auto). apply Cov in Hn. destruct Hn as (S & HS & Hn). exists S.
        destruct (Sp S HS) as (B1 & B2 & B3 & B4 & B5).
        assert (EL : e_lhs (event_of t0 t1 S) = e_lhs e). { apply sorted_ext; auto. intros l. rewrite B4, A4, (Clq S n HS Hn). cbn [fst]. tauto. }
        assert (ER : e_rhs (event_of t0 t1 S) = e_rhs e). { apply sorted_ext; auto. intros l. rewrite B5, A5, (Clq S n HS Hn). cbn [fst]. tauto. }
        split.
        * destruct e as [i a b], (event_of t0 t1 S) as [i' a' b']; cbn in *; congruence.
        * apply filter_In. split; [exact HS|]. apply negb_true_iff, Nat.eqb_neq. intros L2. apply NZ. apply (Sz S HS) in L2. rewrite EL, ER in L2. exact L2.
  Qed.

  Definition adjacent {A} (l : list A) (a b : A) : Prop := exists p s, l = p ++ a :: b :: s.
  Lemma detect_loop_spec (ops : list op) (NE : forall a b, is_edge ops a b -> fst a <> fst b) : forall ts g, inv ops g -> StronglySorted klt ts -> incl ts (mkeys (nodes g)) ->
    (forall k, In k ts -> mget k (events g) = []) ->
    exists g', detect_loop g ts = Ok g' /\ nodes g' = nodes g /\ left_links g' = left_links g /\ right_links g' = right_links g /\
      (forall k k', adjacent ts k k' -> events_ok ops k k' (mget k (events g'))) /\
      (forall k, (forall k', ~ adjacent ts k k') -> mget k (events g') = mget k (events g)).
  Proof.
    induction ts as [|t0 ts IH]; intros g I S Inc Emp.
    - exists g. cbn. repeat split; auto; destruct H as (p & s & Q); destruct p; discriminate.
    - destruct ts as [|t1 ts].
      + exists g. cbn. do 4 (split; [reflexivity|]). split; [|reflexivity]. intros k k' (p & s & Q). destruct p as [|? [|]]; discriminate.
      + inversion S as [|? ? S' Ft]; subst. inversion S' as [|? ? S'' Ft1]; subst. inversion Ft as [|? ? L1 Ft']; subst.
        assert (N : t0 <> t1) by (intros ->; apply klt_irrefl in L1; exact L1).
        destruct (detect_in_spec ops g t0 t1 I N) as (g1 & es & E & A1 & A2 & A3 & A4 & A5 & A6); [apply Inc; left; reflexivity|apply Inc; right; left; reflexivity|exact NE|].
        assert (I1 : inv ops g1). { destruct I. constructor; rewrite ?A1, ?A2, ?A3; assumption. }
        assert (Nt0 : ~ In t0 (t1 :: ts)). { intros K. rewrite Forall_forall in Ft. apply Ft in K. apply klt_irrefl in K. exact K. }
        destruct (IH g1 I1 S') as (g' & E' & B1 & B2 & B3 & B4 & B5).
        { rewrite A1. intros x Hx. apply Inc. right; exact Hx. }
        { intros k Hk. rewrite A6. destruct (keqb k t0) eqn:Q; [apply keqb_eq in Q; subst; contradiction|]. apply Emp. right; exact Hk. }
        exists g'. split; [cbn [detect_loop]; rewrite E; cbn [bind]; exact E'|]. split; [congruence|]. split; [congruence|]. split; [congruence|].
        assert (T0 : mget t0 (events g') = es).
        { rewrite B5; [rewrite A6, keqb_refl, (Emp t0); [reflexivity|left; reflexivity]|]. intros k' (p & s & Q). apply Nt0. rewrite Q. apply in_elt. }
        split.
        * intros k k' (p & s & Q). destruct p as [|x p]; cbn in Q.
          -- injection Q as E1 E2 E3. rewrite <- E1, <- E2, T0. exact A5.
          -- injection Q as E1 E2. apply B4. exists p, s. exact E2.
        * intros k NA. rewrite B5.
          -- rewrite A6. destruct (keqb k t0) eqn:Q; [|reflexivity]. apply keqb_eq in Q. subst k. exfalso. apply (NA t1). exists [], ts. reflexivity.
          -- intros k' (p & s & Q). apply (NA k'). exists (t0 :: p), s. cbn. rewrite Q. reflexivity.
  Qed.
  Lemma adjacent_consecutive (ops : list op) k k' : adjacent (get_timesteps (run ops)) k k' <-> consecutive ops k k'.
  Proof.
    assert (I := inv_run ops). assert (S := i_sorted _ _ I). unfold get_timesteps, msorted, sorted in *. assert (K := i_keys _ _ I).
    set (l := mkeys (nodes (run ops))) in *. clearbody l. clear I. split.
    - intros (p & s & ->).
      assert (W : forall p, StronglySorted klt (p ++ k :: k' :: s) -> klt k k' /\ forall t, In t (p ++ k :: k' :: s) -> t = k \/ t = k' \/ klt t k \/ klt k' t).
      { induction p0 as [|x p0 IH]; cbn [app]; intros S0; inversion S0 as [|? ? S1 F]; subst.
        - inversion S1 as [|? ? S2 F2]; subst. inversion F; subst. split; [assumption|]. intros t [->|[->|Ht]]; auto. rewrite Forall_forall in F2. auto.
        - destruct (IH S1) as [A B]. split; [exact A|]. intros t [->|Ht]; [|auto]. rewrite Forall_forall in F. right; right; left. apply F. apply in_elt. }
      destruct (W p S) as [A B]. split; [exact A|]. split; [apply K; apply in_elt|]. split; [apply K; apply in_or_app; right; right; left; reflexivity|].
      intros t l Hn [L1 L2]. assert (Ht : In t (p ++ k :: k' :: s)) by (apply K; exists l; exact Hn). destruct (B t Ht) as [->|[->|[Q|Q]]].
      + apply klt_irrefl in L1; exact L1.
      + apply klt_irrefl in L2; exact L2.
      + exact (klt_irrefl _ (klt_trans _ _ _ L1 Q)).
      + exact (klt_irrefl _ (klt_trans _ _ _ L2 Q)).
    - intros (L1 & N0 & N1 & Bt). apply K in N0. apply K in N1. assert (Bt' : forall t, In t l -> ~ (klt k t /\ klt t k')) by (intros t Ht; apply K in Ht; destruct Ht as [x Hx]; eapply Bt; exact Hx).
      clear K Bt. induction S as [|x l S IH F]; [destruct N0|]. rewrite Forall_forall in F.
      destruct N0 as [->|N0].
      + destruct N1 as [->|N1]; [apply klt_irrefl in L1; destruct L1|]. destruct l as [|y l]; [destruct N1|].
        assert (y = k').
        { destruct N1 as [->|N1]; [reflexivity|]. exfalso. apply (Bt' y); [right; left; reflexivity|]. split; [apply F; left; reflexivity|]. inversion S as [|? ? S2 F2]; subst. rewrite Forall_forall in F2. apply F2. exact N1. }
        subst y. exists [], l. reflexivity.
      + destruct N1 as [->|N1]; [exfalso; exact (klt_irrefl _ (klt_trans _ _ _ L1 (F _ N0)))|].
        destruct IH as (p & s & ->); auto. { intros t Ht; apply Bt'; right; exact Ht. } exists (x :: p), s. reflexivity.
  Qed.
  Lemma detect_events_spec (ops : list op) : (forall a b, is_edge ops a b -> fst a <> fst b) ->
    exists g', detect_events (run ops) = Ok g' /\
      (forall t0 t1, consecutive ops t0 t1 -> events_ok ops t0 t1 (mget t0 (events g'))) /\
      (forall t0, (forall t1, ~ consecutive ops t0 t1) -> mget t0 (events g') = []).
  Proof.
    intros NE. assert (I := inv_run ops). unfold detect_events.
    destruct (detect_loop_spec ops NE (get_timesteps (run ops)) (run ops) I) as (g' & E & _ & _ & _ & A & B).
    { apply (i_sorted _ _ I). } { intros x Hx; exact Hx. } { intros k _. rewrite ev_run. reflexivity. }
    exists g'. split; [exact E|]. split.
    - intros t0 t1 C. apply A, adjacent_consecutive, C.
    - intros t0 N. rewrite B; [rewrite ev_run; reflexivity|]. intros k' C. apply (N k'), adjacent_consecutive, C.
  Qed.
End P.
