(** Lemmas about [UMesh2]: the edges of a mesh. *)
From Coq Require Import ZArith.
From Verif Require Import Base UnionFind UnionFindProofs SoS UMesh2 UMesh2Proofs.
Local Open Scope Z_scope.

(** which triangle [t] has edge [key] in position [k] *)
Definition einv (n2 : nat) (P : Z -> Z -> Z * Z -> Prop) (s : smap (Z * Z) Z * Z * smap Z (sset Z) * list Z) : Prop :=
  let '(ids, count, side, te) := s in
  msorted ids /\ length te = (3 * n2)%nat /\ count = Z.of_nat (length ids) /\
  (forall key, (exists id, mfind key ids = Some id) <-> exists t k, P t k key) /\
  (forall key id, mfind key ids = Some id -> 0 <= id < count) /\
  (forall id, 0 <= id < count -> exists key, mfind key ids = Some id) /\
  (forall key key' id, mfind key ids = Some id -> mfind key' ids = Some id -> key = key') /\
  (forall id t, (exists s, mfind id side = Some s /\ In t s) <-> exists k key, P t k key /\ mfind key ids = Some id) /\
  (forall id s, mfind id side = Some s -> sorted s) /\
  (forall t k key, P t k key -> 0 <= t < Z.of_nat n2 /\ 0 <= k < 3 /\ exists id, mfind key ids = Some id /\ zget te (k + 3 * t) = Ok id).
Lemma einv_ext n2 P Q s : (forall t k key, P t k key <-> Q t k key) -> einv n2 P s -> einv n2 Q s.
Proof.
  intros E. destruct s as [[[ids count] side] te]. cbn. intros (A & B & C & D & F & G & H & I & J & K).
  repeat (split; [assumption|]). split; [intros key; rewrite D; split; intros (t & k & X); exists t, k; apply E, X|]. split; [exact F|]. split; [exact G|]. split; [exact H|]. split; [intros id t; rewrite I; split; intros (k & key & X & Y); exists k, key; split; try exact Y; apply E, X|]. split; [exact J|]. intros t k key X. apply K, E, X.
Qed.
Lemma order2_lt u v : u < v -> order2 u v = (u, v) /\ order2 v u = (u, v).
Proof. intros H. unfold order2. rewrite !Z.gtb_ltb. destruct (Z.ltb_spec v u), (Z.ltb_spec u v); try lia; auto. Qed.
Lemma add_edge_ok n2 P tid k v0 v1 s : einv n2 P s -> 0 <= tid < Z.of_nat n2 -> 0 <= k < 3 -> (forall key, ~ P tid k key) ->
  exists s', add_edge tid k v0 v1 s = Ok s' /\ einv n2 (fun t k' key => P t k' key \/ (t = tid /\ k' = k /\ key = order2 v0 v1)) s'.
Proof.
  destruct s as [[[ids count] side] te]. intros (A & B & C & D & F & G & H & I & J & K) Ht Hk NP. unfold add_edge. set (key0 := order2 v0 v1).
  assert (X : exists id ids' count', (match mfind key0 ids with None => (count, mset key0 count ids, count + 1) | Some id => (id, ids, count) end) = (id, ids', count') /\
     msorted ids' /\ count' = Z.of_nat (length ids') /\ mfind key0 ids' = Some id /\
     (forall key id, mfind key ids' = Some id -> 0 <= id < count') /\ (forall id, 0 <= id < count' -> exists key, mfind key ids' = Some id) /\
     (forall key key' id, mfind key ids' = Some id -> mfind key' ids' = Some id -> key = key') /\
     (forall key id', mfind key ids' = Some id' <-> mfind key ids = Some id' \/ (key = key0 /\ id' = id)) /\ (forall key, mfind key ids = Some id -> key = key0)).
  { destruct (mfind key0 ids) as [id|] eqn:E.
    - exists id, ids, count. repeat (split; [assumption || reflexivity|]). split; [|intros key Hk'; apply (H _ _ _ Hk' E)]. intros key id'. split; [auto|intros [Y|[-> ->]]; assumption].
    - exists count, (mset key0 count ids), (count + 1). split; [reflexivity|]. split; [apply msorted_mset, A|]. split; [rewrite length_mset by exact E; lia|]. split; [apply mfind_mset_eq|].
      assert (M : forall key id', mfind key (mset key0 count ids) = Some id' <-> mfind key ids = Some id' \/ (key = key0 /\ id' = count)).
      { intros key id'. rewrite mfind_mset. destruct (keqb key key0) eqn:Q; [apply keqb_eq in Q; subst key; rewrite E; split; [intros Y; injection Y as <-; auto|intros [Y|[_ ->]]; [discriminate|reflexivity]]|]. apply keqb_neq in Q. split; [auto|intros [Y|[Y _]]; [exact Y|contradiction]]. }
      split; [intros key id Y; apply M in Y; destruct Y as [Y|[_ ->]]; [apply F in Y; lia|lia]|]. split; [intros id Y; destruct (Z.eq_dec id count) as [->|N]; [exists key0; apply M; auto|destruct (G id) as (key & Ek); [lia|exists key; apply M; auto]]|].
      split; [|split; [exact M|intros key Y; apply F in Y; lia]]. intros key key' id Y Y'. apply M in Y, Y'. destruct Y as [Y|[-> ->]], Y' as [Y'|[-> Y2]]; [exact (H _ _ _ Y Y')|subst id; apply F in Y; lia|apply F in Y'; lia|reflexivity]. }
  destruct X as (id & ids' & count' & -> & A' & C' & Eid & F' & G' & H' & M & U). 
  destruct (zput_ok te (k + 3 * tid) id) as (te' & -> & Lt & Gt); [lia|]. cbn [bind]. eexists. split; [reflexivity|]. cbn [einv]. split; [exact A'|]. split; [congruence|]. split; [exact C'|].
  set (S0 := match mfind id side with Some t => t | None => [] end). assert (S0s : sorted S0) by (unfold S0; destruct (mfind id side) eqn:E; [exact (J _ _ E)|constructor]).
  assert (S0i : forall t, In t S0 <-> exists k key, P t k key /\ mfind key ids = Some id).
  { intros t. rewrite <- I. unfold S0. destruct (mfind id side) as [s|]; split; [intros Y; eauto|intros (s' & Es & Y); injection Es as <-; exact Y|intros []|intros (s' & Es & _); discriminate]. }
  split; [|split; [exact F'|split; [exact G'|split; [exact H'|split; [|split]]]]].
  - intros key. split.
    + intros (id' & Y). apply M in Y. destruct Y as [Y|[-> ->]]; [destruct (proj1 (D key) (ex_intro _ _ Y)) as (t & k' & Z); exists t, k'; auto|exists tid, k; auto].
    + intros (t & k' & [Y|(-> & -> & ->)]); [destruct (proj2 (D key) ltac:(eauto)) as (id' & Z); exists id'; apply M; auto|eauto].
  - intros id' t. rewrite mfind_mset. destruct (keqb id' id) eqn:Q.
    + apply keqb_eq in Q. subst id'. split.
      * intros (s & Es & Hs). injection Es as <-. apply In_sins in Hs. destruct Hs as [->|Hs]; [exists k, key0; auto|]. apply S0i in Hs. destruct Hs as (k' & key & Y & Z). exists k', key. split; [auto|apply M; auto].
      * intros (k' & key & Y & Z). eexists. split; [reflexivity|]. apply In_sins. destruct Y as [Y|(-> & -> & ->)]; [right; apply S0i|auto]. exists k', key. split; [exact Y|]. pose proof (H' _ _ _ Z Eid) as ->. destruct (proj2 (D key0) ltac:(eauto)) as (id2 & W). rewrite W. f_equal. assert (mfind key0 ids' = Some id2) as V by (apply M; auto). congruence.
    + apply keqb_neq in Q. rewrite I. split; intros (k' & key & Y & Z).
      * exists k', key. split; [auto|apply M; auto].
      * apply M in Z. destruct Z as [Z|[_ Z]]; [|congruence]. destruct Y as [Y|(-> & -> & ->)]; [eauto|]. exfalso. apply Q. assert (mfind key0 ids' = Some id') as V by (apply M; auto). congruence.
  - intros id' s. rewrite mfind_mset. destruct (keqb id' id); [intros Y; injection Y as <-; apply sorted_sins, S0s|apply J].
  - intros t k' key [Y|(-> & -> & ->)].
    + destruct (K _ _ _ Y) as (Rt & Rk & id' & Z & W). split; [exact Rt|]. split; [exact Rk|]. exists id'. split; [apply M; auto|]. rewrite Gt. destruct (Z.eqb_spec (k' + 3 * t) (k + 3 * tid)) as [Q|]; [|exact W]. exfalso. assert (t = tid /\ k' = k) as [-> ->] by lia. exact (NP _ Y).
    + split; [exact Ht|]. split; [exact Hk|]. exists id. split; [exact Eid|]. rewrite Gt, Z.eqb_refl. reflexivity.
Qed.

Definition has_edge (T : list (Z * Z * Z)) (n t k : Z) (key : Z * Z) : Prop :=
  0 <= t < n /\ exists tr, tri_at T t = Some tr /\ let '(x, y, z) := srt tr in (k = 0 /\ key = (x, y)) \/ (k = 1 /\ key = (y, z)) \/ (k = 2 /\ key = (x, z)).
Lemma edge_loop n0 T ts : well_formed n0 T -> (forall j t, tri_at T j = Some t -> get_tri ts j = Ok (srt t)) ->
  exists s, for_in (edge_step ts) (zseq (length T)) ([], 0, [], repeat 0 (3 * length T)) = Ok s /\ einv (length T) (has_edge T (Z.of_nat (length T))) s.
Proof.
  intros (_ & Wd & _) G. apply (for_z_inv (edge_step ts) (length T) (fun n s => einv (length T) (has_edge T n) s)).
  - assert (N : forall t k key, ~ has_edge T 0 t k key) by (intros t k key [H _]; lia). cbn. split; [constructor|]. split; [apply repeat_length|]. split; [reflexivity|].
    split; [intros key; split; [intros (id & H); discriminate|intros (t & k & H); destruct (N _ _ _ H)]|]. split; [discriminate|]. split; [lia|]. split; [discriminate|]. split; [intros id t; split; [intros (s & H & _); discriminate|intros (k & key & H & _); destruct (N _ _ _ H)]|]. split; [discriminate|]. intros t k key H. destruct (N _ _ _ H).
  - intros i s Hi Hs. destruct (tri_at_ok T i Hi) as (t & Et). pose proof (G _ _ Et) as Gt. destruct t as [[a b] c]. destruct (srt_spec a b c (Wd _ _ Et)) as (x & y & z & Es & Lt & _). rewrite Es in Gt. unfold edge_step. unfold get_tri in Gt.
    replace (0 + 3 * i) with (i * 3) by lia. replace (1 + 3 * i) with (i * 3 + 1) by lia. replace (2 + 3 * i) with (i * 3 + 2) by lia.
    destruct (zget ts (i * 3)) as [a'| |]; try discriminate Gt. cbn [bind] in *. destruct (zget ts (i * 3 + 1)) as [b'| |]; try discriminate Gt. cbn [bind] in *. destruct (zget ts (i * 3 + 2)) as [c'| |]; try discriminate Gt. cbn [bind] in *. injection Gt as -> -> ->.
    destruct (add_edge_ok (length T) _ i 0 x y s Hs Hi) as (s1 & -> & H1); [lia|intros key [H _]; lia|]. cbn [bind].
    destruct (add_edge_ok (length T) _ i 1 y z s1 H1 Hi) as (s2 & -> & H2); [lia|intros key [[H _]|(_ & H & _)]; lia|]. cbn [bind].
    destruct (add_edge_ok (length T) _ i 2 z x s2 H2 Hi) as (s3 & E3 & H3); [lia|intros key [[[H _]|(_ & H & _)]|(_ & H & _)]; lia|].
    exists s3. split; [exact E3|]. revert H3. apply einv_ext. intros t k key. rewrite (proj1 (order2_lt x y ltac:(lia))), (proj1 (order2_lt y z ltac:(lia))), (proj2 (order2_lt x z ltac:(lia))). unfold has_edge. split.
    + intros [[[[R H]|(-> & -> & ->)]|(-> & -> & ->)]|(-> & -> & ->)]; (split; [lia|]); [exact H|exists (a, b, c); rewrite Es; auto..].
    + intros [R (tr & Etr & H)]. destruct (Z.eq_dec t i) as [->|N]; [|left; left; left; split; [lia|eauto]]. rewrite Et in Etr. injection Etr as <-. rewrite Es in H. tauto.
Qed.
(** the pairs of corners *)
Lemma has_edge_corners n0 T t u v : well_formed n0 T -> (exists k, has_edge T (Z.of_nat (length T)) t k (u, v)) <-> u < v /\ corner T t u /\ corner T t v.
Proof.
  intros (_ & Wd & _). split.
  - intros (k & R & [[a b] c] & Et & H). destruct (srt_spec a b c (Wd _ _ Et)) as (x & y & z & Es & Lt & Am & _). rewrite Es in H. unfold corner. split; [|split; exists (a, b, c); (split; [exact Et|]); apply Am; unfold among]; destruct H as [[_ H]|[[_ H]|[_ H]]]; injection H; lia.
  - intros (L & (tr & Et & Hu) & (tr' & Et' & Hv)). rewrite Et in Et'. injection Et' as <-. pose proof (tri_at_range _ _ _ Et) as R. unfold has_edge. destruct tr as [[a b] c]. destruct (srt_spec a b c (Wd _ _ Et)) as (x & y & z & Es & Lt & Am & _).
    apply Am in Hu, Hv. unfold among in Hu, Hv. assert (C : (u = x /\ v = y) \/ (u = y /\ v = z) \/ (u = x /\ v = z)) by lia. destruct C as [[-> ->]|[[-> ->]|[-> ->]]]; [exists 0|exists 1|exists 2]; (split; [exact R|]); exists (a, b, c); rewrite Es; auto.
Qed.
