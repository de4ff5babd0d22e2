(** Lemmas about [UMesh3]. *)
From Coq Require Import ZArith Permutation.
From Verif Require Import Base ListOrd UnionFind UnionFindProofs SoS SoSPerm UMesh2 UMesh2Proofs UMesh3.
Local Open Scope Z_scope.

Lemma zseq_length n : length (zseq n) = n. Proof. unfold zseq. rewrite map_length, seq_length. reflexivity. Qed.
Lemma zget_nth {A} (l : list A) i x : zget l i = Ok x <-> 0 <= i /\ nth_error l (Z.to_nat i) = Some x.
Proof.
  unfold zget, vget. destruct (Z.ltb_spec i 0); [split; [discriminate|lia]|]. destruct (nth_error l (Z.to_nat i)); split; [intros E; injection E as ->; auto|intros [_ E]; injection E as ->; reflexivity|discriminate|intros [_ E]; discriminate].
Qed.
Lemma nth_number {A} (l : list A) : forall k i x, nth_error (number l) k = Some (i, x) <-> i = Z.of_nat k /\ nth_error l k = Some x.
Proof.
  unfold number, zseq. assert (G : forall l s k i (x : A), nth_error (combine (map Z.of_nat (seq s (length l))) l) k = Some (i, x) <-> i = Z.of_nat (s + k) /\ nth_error l k = Some x).
  { clear l. induction l as [|y l IH]; intros s k i x; cbn [length seq map combine]; [destruct k; cbn; split; [discriminate|intros [_ E]; discriminate|discriminate|intros [_ E]; discriminate]|].
    destruct k as [|k]; cbn [nth_error]; [rewrite Nat.add_0_r; split; [intros E; injection E as <- <-; auto|intros [-> E]; injection E as <-; reflexivity]|]. rewrite IH. replace (S s + k)%nat with (s + S k)%nat by lia. reflexivity. }
  intros k i x. rewrite G. reflexivity.
Qed.
Lemma In_number {A} (l : list A) i x : In (i, x) (number l) <-> zget l i = Ok x.
Proof.
  rewrite zget_nth. split.
  - intros I. apply In_nth_error in I. destruct I as (k & E). apply nth_number in E. destruct E as [-> E]. rewrite Nat2Z.id. split; [lia|exact E].
  - intros [P E]. apply nth_error_In with (Z.to_nat i). apply nth_number. split; [lia|exact E].
Qed.
(** ** id_map *)
Lemma id_map_spec l : NoDup l -> msorted (id_map l) /\ forall k i, mfind k (id_map l) = Some i <-> zget l i = Ok k.
Proof.
  intros ND. unfold id_map.
  assert (G : forall (r : list (Z * list Z)) (m : smap (list Z) Z), msorted m -> (forall k, (exists i, mfind k m = Some i) -> ~ exists i, In (i, k) r) -> (forall i j k, In (i, k) r -> In (j, k) r -> i = j) -> NoDup (map snd r) ->
     msorted (fold_left (fun m iv => mset (snd iv) (fst iv) m) r m) /\ forall k i, mfind k (fold_left (fun m iv => mset (snd iv) (fst iv) m) r m) = Some i <-> mfind k m = Some i \/ In (i, k) r).
  { induction r as [|[i0 k0] r IH]; intros m S D U N; cbn [fold_left fst snd]; [split; [exact S|intros; cbn; tauto]|]. cbn [map] in N. inversion N as [|? ? N1 N2]; subst.
    destruct (IH (mset k0 i0 m)) as [A B].
    - apply msorted_mset, S.
    - intros k (i & E) (j & I). rewrite mfind_mset in E. destruct (keqb k k0) eqn:Ek; [apply keqb_eq in Ek; subst k; apply N1, in_map_iff; exists (j, k0); auto|]. apply (D k); [eauto|exists j; right; exact I].
    - intros i j k I J. apply (U i j k); right; assumption.
    - exact N2.
    - split; [exact A|]. intros k i. rewrite B, mfind_mset. destruct (keqb k k0) eqn:Ek.
      + apply keqb_eq in Ek. subst k. cbn [In]. split; [intros [E|I]; [injection E as <-; auto|auto]|]. intros [E|[E|I]]; [exfalso; apply (D k0); [eauto|exists i0; left; reflexivity]|injection E as <-; auto|auto].
      + apply keqb_neq in Ek. cbn [In]. split; [tauto|]. intros [E|[E|I]]; [auto|injection E as _ E; congruence|auto]. }
  destruct (G (number l) []) as [A B].
  - constructor.
  - intros k (i & E). discriminate.
  - intros i j k I J. apply In_number in I, J. rewrite zget_nth in I, J. destruct I as [Pi I], J as [Pj J]. assert (Z.to_nat i = Z.to_nat j); [|lia]. apply (proj1 (NoDup_nth_error l) ND); [apply nth_error_Some; congruence|congruence].
  - unfold number. replace (map snd (combine (zseq (length l)) l)) with l; [exact ND|]. symmetry. assert (H : length (zseq (length l)) = length l) by apply zseq_length. revert H. generalize (zseq (length l)). clear. induction l as [|x l IH]; intros [|y z] H; try discriminate; [reflexivity|]. cbn. f_equal. apply IH. injection H as H. exact H.
  - split; [exact A|]. intros k i. rewrite B, In_number. cbn. split; [intros [E|E]; [discriminate|exact E]|auto].
Qed.
(** ** sides_map *)
Lemma add_sides l : forall m, msorted m -> (forall k s, mfind k m = Some s -> sorted s /\ s <> []) ->
  let m' := fold_left (fun m kv => add_side kv m) l m in
  msorted m' /\ (forall k s, mfind k m' = Some s -> sorted s /\ s <> []) /\ (forall k x, (exists s, mfind k m' = Some s /\ In x s) <-> (exists s, mfind k m = Some s /\ In x s) \/ In (k, x) l).
Proof.
  induction l as [|[k0 x0] l IH]; intros m S H; cbn [fold_left]; [split; [exact S|]; split; [exact H|]; intros; cbn; tauto|].
  assert (S1 : msorted (add_side (k0, x0) m)) by (apply msorted_mset, S).
  assert (F : forall k, mfind k (add_side (k0, x0) m) = if keqb k k0 then Some (sins x0 (match mfind k0 m with Some s => s | None => [] end)) else mfind k m) by (intros k; unfold add_side; cbn [fst snd]; apply mfind_mset).
  assert (H1 : forall k s, mfind k (add_side (k0, x0) m) = Some s -> sorted s /\ s <> []).
  { intros k s E. rewrite F in E. destruct (keqb k k0); [|exact (H k s E)]. injection E as <-. split; [apply sorted_sins; destruct (mfind k0 m) eqn:E0; [apply (H k0), E0|constructor]|]. intros X. assert (I : In x0 []) by (rewrite <- X; apply In_sins; left; reflexivity). destruct I. }
  destruct (IH _ S1 H1) as (A & B & C). split; [exact A|]. split; [exact B|]. intros k x. rewrite C. cbn [In].
  assert (Q : (exists s, mfind k (add_side (k0, x0) m) = Some s /\ In x s) <-> (exists s, mfind k m = Some s /\ In x s) \/ (k0, x0) = (k, x)).
  { rewrite F. destruct (keqb k k0) eqn:Ek.
    - apply keqb_eq in Ek. subst k. split.
      + intros (s & E & I). injection E as <-. apply In_sins in I. destruct I as [->|I]; [auto|]. destruct (mfind k0 m) eqn:E0; [left; eauto|destruct I].
      + intros [(s & E & I)|E]; (eexists; split; [reflexivity|]); apply In_sins; [right; rewrite E; exact I|left; congruence].
    - apply keqb_neq in Ek. split; [auto|]. intros [X|X]; [exact X|congruence]. }
  rewrite Q. tauto.
Qed.
Lemma sides_map_spec f l : let m := sides_map f l in
  msorted m /\ (forall k s, mfind k m = Some s -> sorted s /\ s <> []) /\ (forall k x, (exists s, mfind k m = Some s /\ In x s) <-> exists i v, zget l i = Ok v /\ In (k, x) (f i v)).
Proof.
  destruct (add_sides (flat_map (fun iv => f (fst iv) (snd iv)) (number l)) []) as (A & B & C); [constructor|intros ? ? E; discriminate|]. split; [exact A|]. split; [exact B|]. intros k x. unfold sides_map. rewrite C, in_flat_map. split.
  - intros [(s & E & _)|([i v] & I & J)]; [discriminate|]. apply In_number in I. eauto.
  - intros (i & v & E & J). right. exists (i, v). split; [apply In_number, E|exact J].
Qed.
Lemma nth_keys {V} (m : smap (list Z) V) i k : zget (mkeys m) i = Ok k -> exists v, zget (map snd m) i = Ok v /\ In (k, v) m.
Proof.
  rewrite zget_nth. intros [P E]. unfold mkeys in E. rewrite nth_error_map in E. destruct (nth_error m (Z.to_nat i)) as [[k' v]|] eqn:En; [|discriminate]. cbn in E. injection E as <-. exists v. split; [apply zget_nth; split; [exact P|]; rewrite nth_error_map, En; reflexivity|apply nth_error_In in En; exact En].
Qed.
Lemma in_keys {V} (m : smap (list Z) V) k : In k (mkeys m) <-> exists i, zget (mkeys m) i = Ok k.
Proof.
  split; [intros I; apply In_nth_error in I; destruct I as (j & E); exists (Z.of_nat j); apply zget_nth; rewrite Nat2Z.id; split; [lia|exact E]|]. intros (i & E). apply zget_nth in E. destruct E as [_ E]. apply nth_error_In in E. exact E.
Qed.
(** ** sort4 *)
Lemma sort4_spec v : NoDup v -> Permutation v (sort4 v) /\ StronglySorted Z.lt (sort4 v).
Proof.
  intros ND. unfold sort4, nswaps_bubble_sort. assert (F : map fst (combine v (seq 0 (length v))) = v). { assert (H : length (seq 0 (length v)) = length v) by apply seq_length. revert H. generalize (seq 0 (length v)). clear. induction v as [|x v IH]; intros [|y s] H; try discriminate; [reflexivity|]. cbn. f_equal. apply IH. injection H as H. exact H. }
  set (c := combine v (seq 0 (length v))) in *. assert (Lc : length c = length v) by (rewrite <- (map_length fst c), F; reflexivity).
  pose proof (gsort_perm c) as P. pose proof (gsort_sorted c) as S. unfold gsort in P, S. rewrite Lc in P, S.
  assert (P2 : Permutation v (map fst (fst (bubble_loop (length v - 1) c)))) by (rewrite <- F at 1; apply Permutation_map, P). split; [exact P2|].
  assert (N2 : NoDup (map fst (fst (bubble_loop (length v - 1) c)))) by (eapply Permutation_NoDup; [exact P2|exact ND]). revert S N2. generalize (fst (bubble_loop (length v - 1) c)). clear. intros l S. induction S as [|x l S IH H]; cbn; intros N; constructor; inversion N as [|? ? N1 N2]; subst; auto.
  rewrite Forall_forall in *. intros y I. assert (y <> fst x) by (intros ->; contradiction). apply in_map_iff in I. destruct I as (q & <- & I). specialize (H q I). unfold kle in H. lia.
Qed.
(** ** the loop over the edges *)
Lemma vert3_loop n0 (ids : smap (list Z) Z) : (forall k i, In (k, i) ids -> exists u v, k = [u; v] /\ 0 <= u < Z.of_nat n0 /\ 0 <= v < Z.of_nat n0) ->
  exists vo ve, for_in vert3_step ids (repeat [] n0, repeat [] n0) = Ok (vo, ve) /\ length vo = n0 /\ length ve = n0 /\
    (forall w e, zin vo w e <-> exists u v, In ([u; v], e) ids /\ (w = u \/ w = v)) /\ (forall w x, zin ve w x <-> exists e, In ([w; x], e) ids \/ In ([x; w], e) ids) /\
    (forall w s, zget vo w = Ok s -> sorted s) /\ (forall w s, zget ve w = Ok s -> sorted s).
Proof.
  intros R.
  assert (Z0 : forall w x, ~ zin (repeat [] n0) w x). { intros w x (s & E & I). pose proof (zget_range _ _ _ E) as Rg. rewrite repeat_length in Rg. rewrite zget_repeat in E by exact Rg. injection E as <-. destruct I. }
  assert (S0 : forall w (s : sset Z), zget (repeat [] n0) w = Ok s -> sorted s). { intros w s E. pose proof (zget_range _ _ _ E) as Rg. rewrite repeat_length in Rg. rewrite zget_repeat in E by exact Rg. injection E as <-. constructor. }
  assert (Sv : forall vs v x vs', vins vs v x = Ok vs' -> (forall w s, zget vs w = Ok s -> sorted s) -> forall w s, zget vs' w = Ok s -> sorted s).
  { intros vs v x vs'. unfold vins. destruct (zget vs v) as [s0| |] eqn:E; try discriminate. cbn [bind]. intros E' H w s' Es'. destruct (zput_ok vs v (sins x s0) (zget_range _ _ _ E)) as (l & El & _ & G). rewrite E' in El. injection El as <-. rewrite G in Es'. destruct (w =? v); [injection Es' as <-; apply sorted_sins, (H _ _ E)|exact (H _ _ Es')]. }
  destruct (for_in_inv vert3_step (fun d s => let (vo, ve) := s in length vo = n0 /\ length ve = n0 /\ (forall w e, zin vo w e <-> exists u v, In ([u; v], e) d /\ (w = u \/ w = v)) /\ (forall w x, zin ve w x <-> exists e, In ([w; x], e) d \/ In ([x; w], e) d) /\
    (forall w s, zget vo w = Ok s -> sorted s) /\ (forall w s, zget ve w = Ok s -> sorted s)) ids (repeat [] n0, repeat [] n0)) as ([vo ve] & E & H).
  - rewrite repeat_length. split; [reflexivity|]. split; [reflexivity|]. split; [|split; [|split; exact S0]].
    + intros w e. split; [intros X; destruct (Z0 _ _ X)|intros (u & v & [] & _)].
    + intros w e. split; [intros X; destruct (Z0 _ _ X)|intros (u & [[]|[]])].
  - intros d [k i] r [vo ve] El (Lo & Le & Ho & He & So & Se). destruct (R k i) as (u & v & -> & Ru & Rv); [rewrite El; apply in_or_app; right; left; reflexivity|]. cbn [vert3_step fst snd].
    destruct (vins_ok vo u i) as (vo1 & E1 & L1 & Z1); [lia|]. rewrite E1. cbn [bind]. destruct (vins_ok vo1 v i) as (vo2 & E2 & L2 & Z2); [lia|]. rewrite E2. cbn [bind].
    destruct (vins_ok ve u v) as (ve1 & E3 & L3 & Z3); [lia|]. rewrite E3. cbn [bind]. destruct (vins_ok ve1 v u) as (ve2 & E4 & L4 & Z4); [lia|]. rewrite E4. cbn [bind]. eexists. split; [reflexivity|]. cbn.
    split; [lia|]. split; [lia|]. split; [|split; [|split; [apply (Sv _ _ _ _ E2), (Sv _ _ _ _ E1), So|apply (Sv _ _ _ _ E4), (Sv _ _ _ _ E3), Se]]].
    + intros w e. rewrite Z2, Z1, Ho. split.
      * intros [[(a & b & I & Q)|[-> ->]]|[-> ->]]; [exists a, b; split; [apply in_or_app; auto|exact Q]|exists u, v; split; [apply in_or_app; cbn; auto|auto]..].
      * intros (a & b & I & Q). apply in_app_or in I. destruct I as [I|[X|[]]]; [left; left; eauto|]. injection X as <- <- <-. destruct Q as [->| ->]; auto.
    + intros w x. rewrite Z4, Z3, He. split.
      * intros [[(e & [I|I])|[-> ->]]|[-> ->]]; [exists e; left; apply in_or_app; auto|exists e; right; apply in_or_app; auto|exists i; left; apply in_or_app; cbn; auto|exists i; right; apply in_or_app; cbn; auto].
      * intros (e & [I|I]); apply in_app_or in I; (destruct I as [I|[X|[]]]; [left; left; eauto|]); injection X as <- <- <-; auto.
  - exists vo, ve. split; [exact E|]. exact H.
Qed.
