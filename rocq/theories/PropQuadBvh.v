(** C121: point location with the flat array of the quadtree (QuadLocator.v, to_bvh and the functions bvh2_locate_point.. ), in exact real arithmetic. *)
From Coq Require Import List Arith ZArith Reals Lra Lia Bool.
From Verif Require Import Base UnionFind Numeric NumericRoots PropNumericRoots QuadLocator PropQuadLocator.
Import ListNotations. Local Open Scope R_scope.

(** ** The numbering *)
Fixpoint all_nodes (a : address) (q : quad_node) : list (address * quad_node) :=
  match q with Null => [] | Node b e c0 c1 c2 c3 => (a, q) :: all_nodes (3%nat :: a) c3 ++ all_nodes (2%nat :: a) c2 ++ all_nodes (1%nat :: a) c1 ++ all_nodes (0%nat :: a) c0 end.
Definition sizes (s : list (address * quad_node)) : nat := fold_right (fun p n => (nodes (snd p) + n)%nat) 0%nat s.
Lemma number_spec : forall fuel stack, (sizes stack < fuel)%nat -> number_nodes fuel stack = flat_map (fun p => all_nodes (fst p) (snd p)) stack.
Proof.
  induction fuel as [|fuel IH]; intros stack F; [lia|]. destruct stack as [|[a q] stack]; [reflexivity|]. cbn [number_nodes flat_map fst snd]. destruct q as [|b e c0 c1 c2 c3]; cbn [sizes fold_right snd nodes] in F; change (fold_right _ 0%nat stack) with (sizes stack) in F.
  - cbn [all_nodes app]. apply IH. lia.
  - cbn [all_nodes app]. f_equal. rewrite IH; [|cbn [push4 sizes fold_right snd]; change (fold_right _ 0%nat stack) with (sizes stack); lia]. cbn [push4 flat_map fst snd]. rewrite <- !app_assoc. reflexivity.
Qed.
Lemma all_ext : forall q a b p, In (b, p) (all_nodes a q) -> exists s, b = s ++ a.
Proof.
  induction q as [|bx e c0 I0 c1 I1 c2 I2 c3 I3]; intros a b p H; [destruct H|]. cbn [all_nodes] in H. destruct H as [H|H]; [injection H as -> _; exists []; reflexivity|]. rewrite !in_app_iff in H.
  destruct H as [H|[H|[H|H]]]; [apply I3 in H|apply I2 in H|apply I1 in H|apply I0 in H]; destruct H as [s ->]; [exists (s ++ [3%nat])|exists (s ++ [2%nat])|exists (s ++ [1%nat])|exists (s ++ [0%nat])]; rewrite <- app_assoc; reflexivity.
Qed.
Lemma all_nodup : forall q a, NoDup (map fst (all_nodes a q)).
Proof.
  assert (D : forall i j (s t a : address), s ++ i :: a = t ++ j :: a -> i = j). { intros i j s t a H. assert (K : (s ++ [i]) ++ a = (t ++ [j]) ++ a) by (rewrite <- !app_assoc; exact H). apply app_inv_tail in K. apply app_inj_tail in K. apply K. }
  assert (N : forall (l1 l2 : list address), NoDup l1 -> NoDup l2 -> (forall x, In x l1 -> In x l2 -> False) -> NoDup (l1 ++ l2)). { induction l1 as [|x l1 IH]; intros l2 H1 H2 H3; [exact H2|]. inversion H1; subst. cbn [app]. constructor; [rewrite in_app_iff; intros [K|K]; [contradiction|apply (H3 x); [left; reflexivity|exact K]]|]. apply IH; [assumption|exact H2|]. intros y Y. apply H3. right. exact Y. }
  induction q as [|bx e c0 I0 c1 I1 c2 I2 c3 I3]; intros a; [constructor|]. cbn [all_nodes map fst].
  assert (X : forall j c y, In y (map fst (all_nodes (j :: a) c)) -> exists s, y = s ++ j :: a). { intros j c y H. apply in_map_iff in H. destruct H as ([b p] & <- & H). apply all_ext in H. exact H. }
  constructor.
  - rewrite !map_app, !in_app_iff. assert (Y : forall j c, ~ In a (map fst (all_nodes (j :: a) c))). { intros j c H. apply X in H. destruct H as [s H]. apply (f_equal (@length nat)) in H. rewrite app_length in H. cbn [length] in H. lia. } intros [H|[H|[H|H]]]; eapply Y; exact H.
  - rewrite !map_app. repeat apply N; try (apply I0 || apply I1 || apply I2 || apply I3).
    all: intros y Y1 Y2; rewrite ?in_app_iff in Y2; apply X in Y1; destruct Y1 as [s ->]; repeat destruct Y2 as [Y2|Y2]; apply X in Y2; destruct Y2 as [t Y2]; apply D in Y2; discriminate Y2.
Qed.
Definition child_of (q : quad_node) (j : nat) : quad_node := match q with Null => Null | Node _ _ c0 c1 c2 c3 => match j with 0%nat => c0 | 1%nat => c1 | 2%nat => c2 | _ => c3 end end.
Lemma all_child : forall q a b p j, In (b, p) (all_nodes a q) -> (j < 4)%nat -> child_of p j <> Null -> In (j :: b, child_of p j) (all_nodes a q).
Proof.
  assert (H0 : forall c a, c <> Null -> In (a, c) (all_nodes a c)) by (intros [|b e c0 c1 c2 c3] a N; [contradiction|left; reflexivity]).
  induction q as [|bx e c0 I0 c1 I1 c2 I2 c3 I3]; intros a b p j H Hj N; [destruct H|]. cbn [all_nodes] in *. right. rewrite !in_app_iff in *. destruct H as [H|H].
  - injection H as -> <-. cbn [child_of] in *. destruct j as [|[|[|[|j]]]]; try lia; auto 6.
  - rewrite !in_app_iff in H. destruct H as [H|[H|[H|H]]]; [apply (I3 _ _ _ j) in H|apply (I2 _ _ _ j) in H|apply (I1 _ _ _ j) in H|apply (I0 _ _ _ j) in H]; auto.
Qed.
Lemma all_node : forall q a b p, In (b, p) (all_nodes a q) -> p <> Null.
Proof. induction q as [|bx e c0 I0 c1 I1 c2 I2 c3 I3]; intros a b p H; [destruct H|]. cbn [all_nodes] in H. destruct H as [H|H]; [injection H as _ <-; discriminate|]. rewrite !in_app_iff in H. destruct H as [H|[H|[H|H]]]; eauto. Qed.
Lemma map_index l : NoDup (map fst l) -> forall i b p, nth_error l i = Some (b, p) -> node_map l b = Z.of_nat i.
Proof.
  induction l as [|[a q] l IH]; intros N i b p H; [destruct i; discriminate H|]. cbn [map fst] in N. inversion N as [|? ? N1 N2]; subst. cbn [node_map]. destruct i as [|i]; cbn [nth_error] in H.
  - injection H as -> ->. destruct (list_eq_dec Nat.eq_dec b b); [reflexivity|contradiction].
  - destruct (list_eq_dec Nat.eq_dec b a) as [->|_]; [exfalso; apply N1; apply nth_error_In in H; apply (in_map fst) in H; exact H|]. rewrite (IH N2 i b p H). lia.
Qed.

(** ** The array encodes the tree *)
Fixpoint enc (bvh : list bvh_node) (i : Z) (q : quad_node) : Prop :=
  match q with
  | Null => False
  | Node b e c0 c1 c2 c3 => (0 <= i)%Z /\ exists n k0 k1 k2 k3, nth_error bvh (Z.to_nat i) = Some n /\ childrenIds n = [k0; k1; k2; k3] /\ Ax n = A0 b /\ Ay n = A1 b /\ Bx n = B0 b /\ By n = B1 b /\
      match e with [] => triangleId n = (-1)%Z | t :: _ => triangleId n = Z.of_nat (bid t) /\ exists ids p0 p1 p2, vertices n = Some (ids, (p0, p1, p2)) end /\
      (k0 = (-1)%Z /\ c0 = Null \/ (0 < k0)%Z /\ enc bvh k0 c0) /\ (k1 = (-1)%Z /\ c1 = Null \/ (0 < k1)%Z /\ enc bvh k1 c1) /\ (k2 = (-1)%Z /\ c2 = Null \/ (0 < k2)%Z /\ enc bvh k2 c2) /\ (k3 = (-1)%Z /\ c3 = Null \/ (0 < k3)%Z /\ enc bvh k3 c3)
  end.
(** a leaf's vertices are those of its triangle *)
Definition leaf_ok (m : mesh) (bvh : list bvh_node) : Prop :=
  forall i n, nth_error bvh i = Some n -> (0 <= triangleId n)%Z -> exists ids p0 p1 p2, vertices n = Some (ids, (p0, p1, p2)) /\ triangle m (Z.to_nat (triangleId n)) p0 p1 p2.
Lemma map_res_ok {A B} (f : A -> res B) : forall l, (forall a, In a l -> exists b, f a = Ok b) -> exists r, map_res f l = Ok r /\ length r = length l /\ forall i a, nth_error l i = Some a -> exists b, nth_error r i = Some b /\ f a = Ok b.
Proof.
  induction l as [|a l IH]; intros H; [exists []; split; [reflexivity|]; split; [reflexivity|]; intros [|i] a K; discriminate K|]. destruct (H a (or_introl eq_refl)) as [b E]. destruct IH as (r & R & L & N); [intros c C; apply H; right; exact C|]. cbn [map_res]. rewrite E. cbn [bind]. rewrite R. cbn [bind]. exists (b :: r). split; [reflexivity|]. split; [cbn [length]; lia|]. intros [|i] c K; cbn [nth_error] in *; [injection K as <-; exists b; auto|apply N; exact K].
Qed.
Lemma leaf_elements : forall q a b bx e l d0 d1 d2 d3, In (b, Node bx (e :: l) d0 d1 d2 d3) (all_nodes a q) -> (forall p b' bx' e' l' f0 f1 f2 f3, In (b', p) (all_nodes a q) -> p = Node bx' (e' :: l') f0 f1 f2 f3 -> f0 = Null /\ f1 = Null /\ f2 = Null /\ f3 = Null) -> In e (leaves q).
Proof.
  induction q as [|x es c0 I0 c1 I1 c2 I2 c3 I3]; intros a b bx e l d0 d1 d2 d3 H W; [destruct H|]. destruct es as [|f es].
  - cbn [all_nodes leaves] in *. destruct H as [H|H]; [discriminate H|]. rewrite !in_app_iff in *. destruct H as [H|[H|[H|H]]]; [apply I3 in H|apply I2 in H|apply I1 in H|apply I0 in H]; auto; intros; eapply W; try eassumption; right; rewrite !in_app_iff; eauto.
  - destruct (W (Node x (f :: es) c0 c1 c2 c3) a x f es c0 c1 c2 c3) as (-> & -> & -> & ->); [left; reflexivity|reflexivity|]. cbn [all_nodes app leaves] in *. destruct H as [H|[]]. injection H as -> -> -> -> -> -> -> ->. left. reflexivity.
Qed.
Lemma subdivide_leaf_null : forall fuel r b es q, subdivide fuel r b es = Ok q -> forall a p b' bx' e' l' f0 f1 f2 f3, In (b', p) (all_nodes a q) -> p = Node bx' (e' :: l') f0 f1 f2 f3 -> f0 = Null /\ f1 = Null /\ f2 = Null /\ f3 = Null.
Proof.
  induction fuel as [|fuel IH]; intros r b es q H a p b' bx' e' l' f0 f1 f2 f3 I E; [discriminate H|]. apply subdivide_ok in H. destruct H as [[L ->]|(L & c & HC & ->)].
  - cbn [all_nodes app] in I. destruct I as [I|[]]. injection I as _ <-. injection E as _ _ <- <- <- <-. auto.
  - cbn [all_nodes] in I. destruct I as [I|I]; [injection I as _ <-; discriminate E|]. rewrite !in_app_iff in I.
    assert (K : forall j a, (j < 4)%nat -> In (b', p) (all_nodes a (c j)) -> f0 = Null /\ f1 = Null /\ f2 = Null /\ f3 = Null). { intros j a' Hj Q. specialize (HC j Hj). unfold children_of in HC. destruct (filter (goes_to b j) es) as [|g l]; [injection HC as HC; rewrite <- HC in Q; destruct Q|]. eapply IH; eassumption. }
    destruct I as [I|[I|[I|I]]]; [apply (K 3%nat) in I|apply (K 2%nat) in I|apply (K 1%nat) in I|apply (K 0%nat) in I]; auto; lia.
Qed.
Lemma bvh_encodes m fuel root : well_formed m -> initialize fuel m = Ok root -> exists bvh, to_bvh m root = Ok bvh /\ length bvh = length (all_nodes [] root) /\ enc bvh 0 root /\ leaf_ok m bvh.
Proof.
  intros W H. assert (RN : root <> Null). { destruct (initialize_tree m fuel root W H) as (l & _ & _ & Q). destruct fuel as [|fuel]; [discriminate Q|]. apply subdivide_ok in Q. destruct Q as [[_ ->]|(_ & c & _ & ->)]; discriminate. }
  unfold to_bvh. rewrite number_spec by (cbn [sizes fold_right snd]; lia). cbn [flat_map fst snd]. rewrite app_nil_r. set (l := all_nodes [] root). cbv zeta.
  destruct (initialize_tree m fuel root W H) as (es & _ & _ & SD).
  assert (T : forall b bx e s d0 d1 d2 d3, In (b, Node bx (e :: s) d0 d1 d2 d3) l -> exists i0 i1 i2 p0 p1 p2, nth_error (triangles m) (bid e) = Some (i0, i1, i2) /\ triangle m (bid e) p0 p1 p2).
  { intros b bx e s d0 d1 d2 d3 I. assert (LE : In e (leaves root)) by (eapply leaf_elements; [exact I|intros; eapply (subdivide_leaf_null _ _ _ _ _ SD); eassumption]). destruct (tree_leaves m fuel root e W H LE) as (p & q & r & TR & _). pose proof TR as (i0 & i1 & i2 & TI & _). exists i0, i1, i2, p, q, r. auto. }
  destruct (map_res_ok (bvh_entry m l) l) as (bvh & E & L & N).
  { intros [a q] I. destruct q as [|bx [|e s] c0 c1 c2 c3]; [exfalso; apply (all_node _ _ _ _ I); reflexivity|eexists; reflexivity|]. destruct (T _ _ _ _ _ _ _ _ I) as (i0 & i1 & i2 & p0 & p1 & p2 & TI & TR). cbn [bvh_entry]. unfold vget. rewrite TI. cbn [of_option bind]. rewrite (proj1 (triangle_corners _ _ _ _ _) TR). eexists. reflexivity. }
  exists bvh. split; [exact E|]. split; [exact L|].
  assert (ND : NoDup (map fst l)) by apply all_nodup. 
  assert (HEAD : exists l', l = ([], root) :: l'). { unfold l. destruct root as [|b e c0 c1 c2 c3]; [contradiction|]. eexists. reflexivity. }
  assert (G : forall q i a, nth_error l i = Some (a, q) -> enc bvh (Z.of_nat i) q).
  { induction q as [|bx es' c0 I0 c1 I1 c2 I2 c3 I3]; intros i a K; [exfalso; apply (all_node _ _ _ _ (nth_error_In _ _ K)); reflexivity|].
    assert (CH : forall j, (j < 4)%nat -> let c := child_of (Node bx es' c0 c1 c2 c3) j in (forall i a, nth_error l i = Some (a, c) -> enc bvh (Z.of_nat i) c) -> let k := match c with Null => (-1)%Z | _ => node_map l (j :: a) end in k = (-1)%Z /\ c = Null \/ (0 < k)%Z /\ enc bvh k c).
    { intros j Hj c IC k. destruct c as [|y e' f0 f1 f2 f3] eqn:EC; [left; auto|]. right. assert (IN : In (j :: a, c) l) by (unfold c; apply all_child; [exact (nth_error_In _ _ K)|exact Hj|fold c; rewrite EC; discriminate]). rewrite EC in IN. apply In_nth_error in IN. destruct IN as [i' IN]. assert (KI : k = Z.of_nat i') by (apply (map_index l ND i' (j :: a) _ IN)). rewrite KI. split; [|apply IC with (j :: a); exact IN]. destruct i' as [|i']; [|lia]. exfalso. destruct HEAD as [l' HL]. rewrite HL in IN. discriminate IN. }
    pose proof (CH 0%nat ltac:(lia) I0) as D0. pose proof (CH 1%nat ltac:(lia) I1) as D1. pose proof (CH 2%nat ltac:(lia) I2) as D2. pose proof (CH 3%nat ltac:(lia) I3) as D3. cbn [child_of] in *. cbn zeta in D0, D1, D2, D3. clear CH.
    destruct (N i _ K) as (n & NE & BE). cbn [enc]. split; [lia|]. exists n. rewrite Nat2Z.id. cbn [bvh_entry] in BE. destruct es' as [|e s].
    - injection BE as <-. eexists. eexists. eexists. eexists. split; [exact NE|]. split; [reflexivity|]. cbn [Ax Ay Bx By triangleId]. auto 12.
    - destruct (vget (triangles m) (bid e)) as [[[i0 i1] i2]| |]; cbn [bind] in BE; try discriminate BE. destruct (corners m (bid e)) as [[[p0 p1] p2]| |]; cbn [bind] in BE; try discriminate BE. injection BE as <-. eexists. eexists. eexists. eexists. split; [exact NE|]. split; [reflexivity|]. cbn [Ax Ay Bx By triangleId vertices]. repeat (split; [reflexivity|]). split; [split; [reflexivity|]; exists (i0, i1, i2), p0, p1, p2; reflexivity|]. auto. }
  split.
  - destruct HEAD as [l' HL]. apply (G root 0%nat []). rewrite HL. reflexivity.
  - intros i n NI TI. destruct (nth_error l i) as [[a q]|] eqn:LI; [|apply nth_error_None in LI; assert (i < length bvh)%nat by (apply nth_error_Some; congruence); lia]. destruct (N i _ LI) as (n' & NE & BE). rewrite NI in NE. injection NE as <-. destruct q as [|bx [|e s] c0 c1 c2 c3]; cbn [bvh_entry] in BE; [discriminate BE|injection BE as <-; cbn [triangleId] in TI; lia|].
    destruct (vget (triangles m) (bid e)) as [[[i0 i1] i2]| |]; cbn [bind] in BE; try discriminate BE. destruct (corners m (bid e)) as [[[p0 p1] p2]| |] eqn:CO; cbn [bind] in BE; try discriminate BE. injection BE as <-. cbn [vertices triangleId]. exists (i0, i1, i2), p0, p1, p2. split; [reflexivity|]. rewrite Nat2Z.id. apply triangle_corners. exact CO.
Qed.

(** ** The traversal *)
Fixpoint height (q : quad_node) : nat := match q with Null => 0%nat | Node _ (_ :: _) _ _ _ _ => 0%nat | Node _ [] c0 c1 c2 c3 => Datatypes.S (Nat.max (Nat.max (height c0) (height c1)) (Nat.max (height c2) (height c3))) end.
Lemma subdivide_height : forall n r b es q, subdivide n r b es = Ok q -> (height q <= n)%nat.
Proof.
  induction n as [|n IH]; intros r b es q H; [discriminate H|]. apply subdivide_ok in H. destruct H as [[L ->]|(L & c & HC & ->)]; [destruct es; cbn; lia|].
  assert (K : forall j, (j < 4)%nat -> (height (c j) <= n)%nat). { intros j Hj. specialize (HC j Hj). unfold children_of in HC. destruct (filter (goes_to b j) es); [injection HC as <-; cbn; lia|]. eapply IH; exact HC. }
  pose proof (K 0%nat ltac:(lia)). pose proof (K 1%nat ltac:(lia)). pose proof (K 2%nat ltac:(lia)). pose proof (K 3%nat ltac:(lia)). cbn [height]. lia.
Qed.
(** the stack of 64 elements is large enough for what is on it *)
Fixpoint fits (s : list quad_node) : Prop := match s with [] => True | q :: s => (length s + 3 * height q + 1 <= 64)%nat /\ fits s end.
Definition pushed (s : list quad_node) (c : quad_node) : list quad_node := match c with Null => s | _ => c :: s end.
Lemma fits_push s c h : fits s -> (height c <= h)%nat -> (length s + 3 * h + 1 <= 64)%nat -> fits (pushed s c) /\ (length (pushed s c) <= S (length s))%nat.
Proof. intros F H L. destruct c as [|b e c0 c1 c2 c3]; cbn [pushed fits length]; [split; [exact F|lia]|]. split; [split; [lia|exact F]|lia]. Qed.
Lemma push_one bvh k c ids qs : k = (-1)%Z /\ c = Null \/ (0 < k)%Z /\ enc bvh k c -> Forall2 (enc bvh) ids qs -> (length ids < 64)%nat -> exists ids', (if (0 <? k)%Z then push k ids else Ok ids) = Ok ids' /\ Forall2 (enc bvh) ids' (pushed qs c).
Proof.
  intros [[-> ->]|[K E]] F L; [exists ids; split; [reflexivity|exact F]|]. exists (k :: ids). rewrite (proj2 (Z.ltb_lt 0 k) K). unfold push. rewrite (proj2 (Nat.ltb_lt _ _) L). split; [reflexivity|]. destruct c as [|b e c0 c1 c2 c3]; [destruct E|]. cbn [pushed]. constructor; assumption.
Qed.
Lemma push_four bvh k0 k1 k2 k3 c0 c1 c2 c3 ids qs : k0 = (-1)%Z /\ c0 = Null \/ (0 < k0)%Z /\ enc bvh k0 c0 -> k1 = (-1)%Z /\ c1 = Null \/ (0 < k1)%Z /\ enc bvh k1 c1 -> k2 = (-1)%Z /\ c2 = Null \/ (0 < k2)%Z /\ enc bvh k2 c2 -> k3 = (-1)%Z /\ c3 = Null \/ (0 < k3)%Z /\ enc bvh k3 c3 ->
  Forall2 (enc bvh) ids qs -> (length qs + 4 <= 64)%nat -> exists ids', push_positive [k0; k1; k2; k3] ids = Ok ids' /\ Forall2 (enc bvh) ids' (pushed (pushed (pushed (pushed qs c0) c1) c2) c3).
Proof.
  intros H0 H1 H2 H3 F L. assert (LE : forall i q, Forall2 (enc bvh) i q -> length i = length q) by (induction 1; cbn [length]; congruence). assert (LP : forall s c, (length (pushed s c) <= S (length s))%nat) by (intros s [|b e d0 d1 d2 d3]; cbn; lia).
  pose proof (LP qs c0). pose proof (LP (pushed qs c0) c1). pose proof (LP (pushed (pushed qs c0) c1) c2).
  destruct (push_one bvh k0 c0 ids qs H0 F) as (i0 & E0 & F0); [rewrite (LE _ _ F); lia|]. destruct (push_one bvh k1 c1 i0 _ H1 F0) as (i1 & E1 & F1); [rewrite (LE _ _ F0); lia|]. destruct (push_one bvh k2 c2 i1 _ H2 F1) as (i2 & E2 & F2); [rewrite (LE _ _ F1); lia|]. destruct (push_one bvh k3 c3 i2 _ H3 F2) as (i3 & E3 & F3); [rewrite (LE _ _ F2); lia|].
  exists i3. split; [|exact F3]. cbn [push_positive]. rewrite E0. cbn [bind]. rewrite E1. cbn [bind]. rewrite E2. cbn [bind]. rewrite E3. reflexivity.
Qed.
Definition inside_closed (b : box) (x : point) : bool := leb ((fst x - A0 b) * (fst x - B0 b)) 0 && leb ((snd x - A1 b) * (snd x - B1 b)) 0.
Fixpoint reach_closed (x : point) (q : quad_node) (e : box) : Prop :=
  match q with Null => False | Node b (f :: _) _ _ _ _ => f = e | Node b [] c0 c1 c2 c3 => inside_closed b x = true /\ (reach_closed x c0 e \/ reach_closed x c1 e \/ reach_closed x c2 e \/ reach_closed x c3 e) end.
Lemma closed_spec b x : (A0 b <= fst x <= B0 b) -> (A1 b <= snd x <= B1 b) -> inside_closed b x = true.
Proof.
  assert (P : forall u a c, a <= u <= c -> (u - a) * (u - c) <= 0). { intros u a c H. assert (0 <= (u - a) * (c - u)) by (apply Rmult_le_pos; lra). lra. }
  intros H0 H1. unfold inside_closed. rewrite !(proj2 (leb_true _ 0)) by (apply P; assumption). reflexivity.
Qed.
Lemma stored_closed x e : (A0 e <= fst x <= B0 e) -> (A1 e <= snd x <= B1 e) -> forall q, stored q e -> reach_closed x q e.
Proof. intros X Y. induction q as [|b [|f l] c0 I0 c1 I1 c2 I2 c3 I3]; cbn [stored reach_closed]; [tauto| |tauto]. intros [C H]. split; [apply closed_spec; unfold covers in C; lra|tauto]. Qed.
(** the reciprocals of the determinants *)
Definition inverse_determinants (m : mesh) (invdet : list R) : Prop := forall i p q r, triangle m i p q r -> area p q r <> 0 /\ nth_error invdet i = Some (/ area p q r).
Lemma inside_bvh m bvh invdet n x i : leaf_ok m bvh -> inverse_determinants m invdet -> nth_error bvh i = Some n -> (0 <= triangleId n)%Z -> exists succ mu, bvh2_inside_triangle n x invdet = Ok (succ, mu) /\ (succ = true -> in_triangle m (Z.to_nat (triangleId n)) x mu) /\ (succ = false -> forall nu, ~ in_triangle m (Z.to_nat (triangleId n)) x nu).
Proof.
  intros LO ID N T. destruct (LO i n N T) as (ids & p0 & p1 & p2 & V & TR). destruct (ID _ _ _ _ TR) as [A I]. unfold bvh2_inside_triangle. rewrite (proj2 (Z.ltb_ge _ 0) T). unfold vget. rewrite I, V. cbn [of_option bind].
  set (l0 := _ * / area p0 p1 p2). set (l1 := ((snd p2 - snd p0) * _ + _) * / area p0 p1 p2). assert (E0 : l0 = area x p1 p2 / area p0 p1 p2) by (unfold l0, Rdiv; f_equal; unfold area; ring). assert (E1 : l1 = area p0 x p2 / area p0 p1 p2) by (unfold l1, Rdiv; f_equal; unfold area; ring). assert (E2 : 1 - l0 - l1 = area p0 p1 x / area p0 p1 p2) by (rewrite E0, E1; unfold area in *; field; exact A).
  eexists. eexists. split; [reflexivity|]. split.
  - intros H. rewrite !andb_true_iff, !leb_true in H. exists p0, p1, p2. split; [exact TR|]. split; [exact A|]. apply (area_weights _ _ _ _ _ A). rewrite <- E2, <- E0, <- E1. split; [reflexivity|tauto].
  - intros H nu (q0 & q1 & q2 & TR' & _ & B). destruct (triangle_unique _ _ _ _ _ _ _ _ TR TR') as (<- & <- & <-). apply (area_weights _ _ _ _ _ A) in B. rewrite <- E2, <- E0, <- E1 in B. destruct B as (_ & B0 & B1 & B2). rewrite !(proj2 (leb_true _ _)) in H by lra. discriminate H.
Qed.
Fixpoint count (q : quad_node) : nat := match q with Null => 0%nat | Node _ _ c0 c1 c2 c3 => (1 + count c0 + count c1 + count c2 + count c3)%nat end.
Lemma count_all : forall q a, length (all_nodes a q) = count q.
Proof. induction q as [|b e c0 I0 c1 I1 c2 I2 c3 I3]; intros a; [reflexivity|]. cbn [all_nodes length count]. rewrite !app_length, I0, I1, I2, I3. lia. Qed.
Lemma bvh_loop_spec m bvh invdet x : leaf_ok m bvh -> inverse_determinants m invdet -> forall fuel ids qs, (total count qs < fuel)%nat -> Forall2 (enc bvh) ids qs -> fits qs ->
  exists r, bvh2_loop fuel bvh x invdet ids = Ok r /\
    (forall i mu, r = Some (i, mu) -> (0 <= i)%Z /\ exists n, nth_error bvh (Z.to_nat i) = Some n /\ (0 <= triangleId n)%Z /\ in_triangle m (Z.to_nat (triangleId n)) x mu) /\
    (r = None -> forall q e mu, In q qs -> reach_closed x q e -> ~ in_triangle m (bid e) x mu).
Proof.
  intros LO ID. induction fuel as [|fuel IH]; intros ids qs F FA FI; [lia|]. inversion FA as [|i q ids' qs' E FA']; subst; [exists None; split; [reflexivity|]; split; [discriminate|intros _ q e mu []]|].
  destruct q as [|b es c0 c1 c2 c3]; [destruct E|]. cbn [enc] in E. destruct E as (I0 & n & k0 & k1 & k2 & k3 & N & CH & EA & EB & EC & ED & ET & H0 & H1 & H2 & H3). cbn [fits] in FI. destruct FI as [FI FI']. cbn [total fold_right count] in F. change (fold_right (fun q n => (count q + n)%nat) 0%nat qs') with (total count qs') in F.
  cbn [bvh2_loop]. rewrite (proj2 (Z.ltb_ge i 0) I0). unfold vget at 1. rewrite N. cbn [of_option bind]. destruct es as [|e es].
  - rewrite ET. cbn [Z.leb Z.compare]. replace (bvh2_inside_quad n x) with (inside_closed b x) by (unfold inside_closed, bvh2_inside_quad; rewrite EA, EB, EC, ED; reflexivity). destruct (inside_closed b x) eqn:IC.
    + cbn [height] in FI. destruct (push_four bvh k0 k1 k2 k3 c0 c1 c2 c3 ids' qs' H0 H1 H2 H3 FA') as (ids2 & E2 & F2); [lia|]. rewrite CH, E2. cbn [bind].
      set (h := Nat.max (Nat.max (height c0) (height c1)) (Nat.max (height c2) (height c3))) in *. destruct (fits_push qs' c0 h FI' ltac:(lia) ltac:(lia)) as [G0 L0]. destruct (fits_push _ c1 h G0 ltac:(lia) ltac:(lia)) as [G1 L1]. destruct (fits_push _ c2 h G1 ltac:(lia) ltac:(lia)) as [G2 L2]. destruct (fits_push _ c3 h G2 ltac:(lia) ltac:(lia)) as [G3 L3].
      assert (TC : forall s c, total count (pushed s c) = (count c + total count s)%nat) by (intros s [|y z d0 d1 d2 d3]; reflexivity).
      destruct (IH ids2 (pushed (pushed (pushed (pushed qs' c0) c1) c2) c3)) as (r & E & P & Q); [rewrite !TC; lia|exact F2|exact G3|]. exists r. split; [exact E|]. split; [exact P|]. intros K q e mu [<-|IN] R.
      * cbn [reach_closed] in R. destruct R as [_ R]. assert (PI : forall s c, c <> Null -> In c (pushed s c)) by (intros s [|y z d0 d1 d2 d3] NN; [contradiction|left; reflexivity]). assert (PS : forall s c d, In d s -> In d (pushed s c)) by (intros s [|y z d0 d1 d2 d3] d ID'; [exact ID'|right; exact ID']).
        assert (NR : forall c, reach_closed x c e -> c <> Null) by (intros c RC ->; destruct RC). destruct R as [R|[R|[R|R]]]; apply (Q K _ e mu) with (2 := R); pose proof (NR _ R); auto 6.
      * apply (Q K q e mu); [|exact R]. assert (PS : forall s c d, In d s -> In d (pushed s c)) by (intros s [|y z d0 d1 d2 d3] d ID'; [exact ID'|right; exact ID']). auto.
    + destruct (IH ids' qs' ltac:(lia) FA' FI') as (r & E & P & Q). exists r. split; [exact E|]. split; [exact P|]. intros K q e mu [<-|IN] R; [cbn [reach_closed] in R; destruct R as [R _]; congruence|apply (Q K q e mu IN R)].
  - destruct ET as [ET _]. assert (TP : (0 <= triangleId n)%Z) by (rewrite ET; lia). rewrite (proj2 (Z.leb_le 0 _) TP). destruct (inside_bvh m bvh invdet n x (Z.to_nat i) LO ID N TP) as (succ & mu & E & S1 & S2). rewrite E. cbn [bind]. destruct succ.
    + eexists. split; [reflexivity|]. split; [|discriminate]. intros i' mu' K. injection K as <- <-. split; [exact I0|]. exists n. auto.
    + destruct (IH ids' qs' ltac:(lia) FA' FI') as (r & E' & P & Q). exists r. split; [exact E'|]. split; [exact P|]. intros K q e' nu [<-|IN] R; [|apply (Q K q e' nu IN R)]. cbn [reach_closed] in R. subst e'. specialize (S2 eq_refl nu). rewrite ET, Nat2Z.id in S2. exact S2.
Qed.
(** the array can be built, and with a tree of at most 21 levels the search finds a triangle if and only if the point is in one: the triangle and the barycentric coordinates are right.
    Here the boundary of the mesh is included *)
Theorem C121_bvh_partial : forall m levels root invdet, well_formed m -> initialize levels m = Ok root -> (levels <= 21)%nat -> inverse_determinants m invdet ->
  exists bvh, to_bvh m root = Ok bvh /\ forall x, exists r, bvh2_locate_point_tri bvh x invdet = Ok r /\ (forall i mu, r = Some (i, mu) -> (0 <= i)%Z /\ in_triangle m (Z.to_nat i) x mu) /\ (r = None -> forall i mu, ~ in_triangle m i x mu).
Proof.
  intros m levels root invdet W H LV ID. destruct (bvh_encodes m levels root W H) as (bvh & E & L & EN & LO). exists bvh. split; [exact E|]. intros x. destruct (initialize_tree m levels root W H) as (es & _ & _ & SD). pose proof (subdivide_height _ _ _ _ _ SD) as HT.
  destruct (bvh_loop_spec m bvh invdet x LO ID (length bvh + 1) [0%Z] [root]) as (r & ER & P & Q); [rewrite L, count_all; cbn [total fold_right]; lia|constructor; [exact EN|constructor]|cbn [fits length]; split; [lia|exact I]|].
  unfold bvh2_locate_point_tri, bvh2_locate_point. rewrite ER. cbn [bind]. destruct r as [[i mu]|].
  - destruct (P i mu eq_refl) as (I0 & n & N & T & IN). rewrite (proj2 (Z.ltb_ge i 0) I0). unfold vget. rewrite N. cbn [of_option bind]. eexists. split; [reflexivity|]. split; [|discriminate]. intros j nu K. injection K as <- <-. auto.
  - exists None. split; [reflexivity|]. split; [discriminate|]. intros _ i mu IN. pose proof IN as (p & q & s & T & A & B). apply (Q eq_refl root (box_of i p q s) mu (or_introl eq_refl)); [|exact IN]. apply stored_closed; [| |apply (tree_stored m levels); assumption].
    + destruct mu as [[a b] c]. destruct B as (Ha & Hb & Hc & S & ->). cbn [weighted box_of A0 B0 fst snd]. pose proof (min3_spec (fst p) (fst q) (fst s)) as (M1 & M2 & M3 & _). pose proof (max3_spec (fst p) (fst q) (fst s)) as (X1 & X2 & X3 & _). set (mn := min3 (fst p) (fst q) (fst s)) in *. set (mx := max3 (fst p) (fst q) (fst s)) in *. assert (C : c = 1 - a - b) by lra.
      assert (0 <= a * (fst p - mn)) by (apply Rmult_le_pos; lra). assert (0 <= b * (fst q - mn)) by (apply Rmult_le_pos; lra). assert (0 <= c * (fst s - mn)) by (apply Rmult_le_pos; lra). assert (0 <= a * (mx - fst p)) by (apply Rmult_le_pos; lra). assert (0 <= b * (mx - fst q)) by (apply Rmult_le_pos; lra). assert (0 <= c * (mx - fst s)) by (apply Rmult_le_pos; lra). rewrite C in *. lra.
    + destruct mu as [[a b] c]. destruct B as (Ha & Hb & Hc & S & ->). cbn [weighted box_of A1 B1 fst snd]. pose proof (min3_spec (snd p) (snd q) (snd s)) as (M1 & M2 & M3 & _). pose proof (max3_spec (snd p) (snd q) (snd s)) as (X1 & X2 & X3 & _). set (mn := min3 (snd p) (snd q) (snd s)) in *. set (mx := max3 (snd p) (snd q) (snd s)) in *. assert (C : c = 1 - a - b) by lra.
      assert (0 <= a * (snd p - mn)) by (apply Rmult_le_pos; lra). assert (0 <= b * (snd q - mn)) by (apply Rmult_le_pos; lra). assert (0 <= c * (snd s - mn)) by (apply Rmult_le_pos; lra). assert (0 <= a * (mx - snd p)) by (apply Rmult_le_pos; lra). assert (0 <= b * (mx - snd q)) by (apply Rmult_le_pos; lra). assert (0 <= c * (mx - snd s)) by (apply Rmult_le_pos; lra). rewrite C in *. lra.
Qed.
Print Assumptions C121_bvh_partial.
(** the search that starts from the node found last: any sequence of points, each search given the result of the one before (-1 at first and after a miss) *)
Fixpoint searches (bvh : list bvh_node) (invdet : list R) (last : Z) (xs : list point) : list (res (option (Z * weights))) :=
  match xs with [] => [] | x :: xs => let r := bvh2_locate_point_coherent bvh last x invdet in r :: searches bvh invdet (match r with Ok (Some (i, _)) => i | _ => (-1)%Z end) xs end.
Theorem C121_coherent_partial : forall m levels root invdet, well_formed m -> initialize levels m = Ok root -> (levels <= 21)%nat -> inverse_determinants m invdet ->
  exists bvh, to_bvh m root = Ok bvh /\ forall xs, Forall2 (fun x r => exists o, r = Ok o /\ (forall i mu, o = Some (i, mu) -> exists n, nth_error bvh (Z.to_nat i) = Some n /\ in_triangle m (Z.to_nat (triangleId n)) x mu) /\ (o = None -> forall i mu, ~ in_triangle m i x mu)) xs (searches bvh invdet (-1) xs).
Proof.
  intros m levels root invdet W H LV ID. destruct (bvh_encodes m levels root W H) as (bvh & E & L & EN & LO). destruct (C121_bvh_partial m levels root invdet W H LV ID) as (bvh' & E' & C). rewrite E in E'. injection E' as <-. exists bvh. split; [exact E|].
  destruct (initialize_tree m levels root W H) as (es & _ & _ & SD). pose proof (subdivide_height _ _ _ _ _ SD) as HT.
  assert (ST : forall x, exists o, bvh2_locate_point bvh x invdet = Ok o /\ (forall i mu, o = Some (i, mu) -> (0 <= i)%Z /\ exists n, nth_error bvh (Z.to_nat i) = Some n /\ (0 <= triangleId n)%Z /\ in_triangle m (Z.to_nat (triangleId n)) x mu) /\ (o = None -> forall i mu, ~ in_triangle m i x mu)).
  { intros x. destruct (bvh_loop_spec m bvh invdet x LO ID (length bvh + 1) [0%Z] [root]) as (r & ER & P & Q); [rewrite L, count_all; cbn [total fold_right]; lia|constructor; [exact EN|constructor]|cbn [fits length]; split; [lia|exact I]|]. exists r. split; [exact ER|]. split; [exact P|]. intros ->. destruct (C x) as (r' & E' & _ & N). unfold bvh2_locate_point_tri, bvh2_locate_point in E'. rewrite ER in E'. cbn [bind] in E'. injection E' as <-. apply N. reflexivity. }
  assert (G : forall xs last, (last < 0)%Z \/ (exists n, nth_error bvh (Z.to_nat last) = Some n /\ (0 <= triangleId n)%Z) -> Forall2 (fun x r => exists o, r = Ok o /\ (forall i mu, o = Some (i, mu) -> exists n, nth_error bvh (Z.to_nat i) = Some n /\ in_triangle m (Z.to_nat (triangleId n)) x mu) /\ (o = None -> forall i mu, ~ in_triangle m i x mu)) xs (searches bvh invdet last xs)).
  { induction xs as [|x xs IH]; intros last HL; [constructor|]. cbn [searches].
    assert (K : exists o, bvh2_locate_point_coherent bvh last x invdet = Ok o /\ (forall i mu, o = Some (i, mu) -> exists n, nth_error bvh (Z.to_nat i) = Some n /\ (0 <= triangleId n)%Z /\ in_triangle m (Z.to_nat (triangleId n)) x mu) /\ (o = None -> forall i mu, ~ in_triangle m i x mu)).
    { destruct (ST x) as (o & EO & P & Q). unfold bvh2_locate_point_coherent. destruct (Z.ltb_spec last 0) as [LN|LN]; [exists o; split; [exact EO|]; split; [intros i mu Z; apply (P i mu Z)|exact Q]|]. destruct HL as [HL|(n & N & T)]; [lia|]. unfold vget. rewrite N. cbn [of_option bind]. destruct (inside_bvh m bvh invdet n x _ LO ID N T) as (succ & mu & EI & S1 & S2). rewrite EI. cbn [bind]. destruct succ.
      - exists (Some (last, mu)). split; [reflexivity|]. split; [|discriminate]. intros i nu Z. injection Z as <- <-. exists n. auto.
      - exists o. split; [exact EO|]. split; [intros i nu Z; apply (P i nu Z)|exact Q]. }
    destruct K as (o & EO & P & Q). rewrite EO. constructor.
    - exists o. split; [reflexivity|]. split; [|exact Q]. intros i mu Z. destruct (P i mu Z) as (n & N & _ & IN). exists n. auto.
    - apply IH. destruct o as [[i mu]|]; [|left; lia]. right. destruct (P i mu eq_refl) as (n & N & T & _). exists n. auto. }
  intros xs. apply G. left. lia.
Qed.
Print Assumptions C121_coherent_partial.

(** ** Example *)
Example C121_example : exists root bvh, initialize 3 square = Ok root /\ to_bvh square root = Ok bvh /\ inverse_determinants square [1; 1] /\ exists i mu, bvh2_locate_point_tri bvh (1, 1 / 2) [1; 1] = Ok (Some (i, mu)).
Proof.
  destruct C119_example as (root & H & _ & IN & _). destruct C118_example as (W & _).
  assert (ID : inverse_determinants square [1; 1]).
  { intros i p q r T. apply square_triangle in T. assert (A : area p q r = 1) by (destruct T as [(-> & -> & -> & ->)|(-> & -> & -> & ->)]; unfold area; cbn [fst snd]; lra).
    rewrite A, Rinv_1. split; [lra|]. destruct T as [(-> & _)|(-> & _)]; reflexivity. }
  assert (L3 : (3 <= 21)%nat) by lia.
  destruct (C121_bvh_partial square 3 root [1; 1] W H L3 ID) as (bvh & E & C). exists root, bvh. split; [exact H|]. split; [exact E|]. split; [exact ID|]. destruct (C (1, 1 / 2)) as (r & R & _ & N). destruct r as [r|]; [destruct r as [i mu]; exists i, mu; exact R|]. exfalso. apply (N eq_refl 0%nat _ IN).
Qed.
