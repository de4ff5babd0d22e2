(** C118-C121: point location in triangular meshes with a quadtree (QuadLocator.v), in exact real arithmetic. *)
From Coq Require Import List Arith ZArith Reals Lra Lia Bool.
From Verif Require Import Base UnionFind Numeric NumericRoots PropNumericRoots QuadLocator.
Import ListNotations. Local Open Scope R_scope.

(** ** Specification *)
(** the corners of triangle [i] *)
Definition triangle (m : mesh) (i : nat) (p q r : point) : Prop :=
  exists a b c, nth_error (triangles m) i = Some (a, b, c) /\ nth_error (vertex_coords m) a = Some p /\ nth_error (vertex_coords m) b = Some q /\ nth_error (vertex_coords m) c = Some r.
(** every triangle has three vertices, and the coordinates are finite *)
Definition well_formed (m : mesh) : Prop :=
  (forall i t, nth_error (triangles m) i = Some t -> exists p q r, triangle m i p q r) /\ forall x, In x (vertex_coords m) -> Rabs (fst x) <= double_max /\ Rabs (snd x) <= double_max.
(** twice the signed area *)
Definition area (p q r : point) : R := (fst p - fst r) * (snd q - snd r) - (fst q - fst r) * (snd p - snd r).
(** the point with barycentric coordinates [mu] *)
Definition weighted (mu : weights) (p q r : point) : point := let '(a, b, c) := mu in (a * fst p + b * fst q + c * fst r, a * snd p + b * snd q + c * snd r).
Definition barycentric (mu : weights) (x p q r : point) : Prop := let '(a, b, c) := mu in 0 <= a /\ 0 <= b /\ 0 <= c /\ a + b + c = 1 /\ x = weighted mu p q r.
(** [x] is in triangle [i], which is not degenerate, with barycentric coordinates [mu] *)
Definition in_triangle (m : mesh) (i : nat) (x : point) (mu : weights) : Prop := exists p q r, triangle m i p q r /\ area p q r <> 0 /\ barycentric mu x p q r.
Definition centroid (m : mesh) (i : nat) (c : point) : Prop := exists p q r, triangle m i p q r /\ c = weighted (1 / 3, 1 / 3, 1 / 3) p q r.

(** ** Boxes *)
Lemma contains_spec b x : contains b x = true <-> (A0 b <= fst x < B0 b) /\ (A1 b <= snd x < B1 b).
Proof.
  unfold contains. rewrite andb_true_iff, !negb_true_iff, !orb_false_iff, !ltb_false, !leb_false. tauto.
Qed.
Definition centered (b : box) : Prop := C0 b = (A0 b + B0 b) / 2 /\ C1 b = (A1 b + B1 b) / 2.
Definition ctr (e : box) : point := (C0 e, C1 e).
Lemma child_centered b j : centered (child_box b j). Proof. destruct j as [|[|[|j]]]; split; reflexivity. Qed.
Lemma child_sides b j : centered b -> B0 (child_box b j) - A0 (child_box b j) = (B0 b - A0 b) / 2 /\ B1 (child_box b j) - A1 (child_box b j) = (B1 b - A1 b) / 2.
Proof. intros [E F]. destruct j as [|[|[|j]]]; cbn [child_box update_centroid A0 A1 B0 B1]; rewrite ?E, ?F; split; lra. Qed.
Lemma which_some b c j : which_child b c = Some j -> (j < 4)%nat /\ contains (child_box b j) c = true.
Proof. intros H. apply find_some in H. destruct H as [I H]. apply in_seq in I. split; [lia|exact H]. Qed.
Lemma which_total b c : centered b -> contains b c = true -> exists j, which_child b c = Some j.
Proof.
  intros [E F] H. apply contains_spec in H. destruct (which_child b c) as [j|] eqn:W; [exists j; reflexivity|]. exfalso. pose proof (fun j I => find_none _ _ W j I) as N.
  assert (K : forall j, (j < 4)%nat -> ~ ((A0 (child_box b j) <= fst c < B0 (child_box b j)) /\ (A1 (child_box b j) <= snd c < B1 (child_box b j)))). { intros j Hj Q. apply contains_spec in Q. rewrite (N j) in Q; [discriminate|]. apply in_seq. lia. }
  pose proof (K 0%nat ltac:(lia)) as K0. pose proof (K 1%nat ltac:(lia)) as K1. pose proof (K 2%nat ltac:(lia)) as K2. pose proof (K 3%nat ltac:(lia)) as K3. cbn [child_box update_centroid A0 A1 B0 B1] in *.
  destruct (Rlt_dec (fst c) (C0 b)); destruct (Rlt_dec (snd c) (C1 b)); [apply K0|apply K3|apply K1|apply K2]; lra.
Qed.
Lemma goes_spec b j e : goes_to b j e = true <-> which_child b (ctr e) = Some j.
Proof. unfold goes_to, ctr. destruct (which_child b _) as [k|]; [|split; discriminate]. rewrite Nat.eqb_eq. split; [intros ->; reflexivity|intros H; injection H; auto]. Qed.
(** box [b] covers box [e] *)
Definition covers (b e : box) : Prop := A0 b <= A0 e /\ A1 b <= A1 e /\ B0 e <= B0 b /\ B1 e <= B1 b.
Lemma fold_extend_covers : forall l b, covers (fold_left extend l b) b /\ forall e, In e l -> covers (fold_left extend l b) e.
Proof.
  assert (T : forall a b c, covers a b -> covers b c -> covers a c) by (unfold covers; intros; lra).
  assert (X : forall b e, covers (extend b e) b /\ covers (extend b e) e). { intros b e. unfold covers, extend. cbn [A0 A1 B0 B1]. pose proof (Rmin_l (A0 b) (A0 e)). pose proof (Rmin_r (A0 b) (A0 e)). pose proof (Rmin_l (A1 b) (A1 e)). pose proof (Rmin_r (A1 b) (A1 e)). pose proof (Rmax_l (B0 b) (B0 e)). pose proof (Rmax_r (B0 b) (B0 e)). pose proof (Rmax_l (B1 b) (B1 e)). pose proof (Rmax_r (B1 b) (B1 e)). lra. }
  induction l as [|a l IH]; intros b; cbn [fold_left]; [split; [unfold covers; lra|intros e []]|]. destruct (IH (extend b a)) as [P Q]. destruct (X b a) as [X1 X2]. split; [eapply T; eassumption|]. intros e [->|I]; [eapply T; eassumption|apply Q; exact I].
Qed.
Lemma update_covers b l e : In e l -> covers (update_bounds b l) e.
Proof. intros I. pose proof (proj2 (fold_extend_covers l b) e I) as H. exact H. Qed.

(** ** The tree *)
(** the loop over the four children *)
Definition children_of (fuel : nat) (b : box) (es : list box) (j : nat) : res quad_node := match filter (goes_to b j) es with [] => Ok Null | l => subdivide fuel false (child_box b j) l end.
Lemma subdivide_S fuel r b es : subdivide (S fuel) r b es = if Nat.leb (length es) 1 then Ok (Node (update_bounds b es) es Null Null Null Null) else
  let* c0 := children_of fuel b es 0 in let* c1 := children_of fuel b es 1 in let* c2 := children_of fuel b es 2 in let* c3 := children_of fuel b es 3 in Ok (Node (if r then b else update_bounds b es) [] c0 c1 c2 c3).
Proof. reflexivity. Qed.
Lemma subdivide_ok fuel r b es q : subdivide (S fuel) r b es = Ok q ->
  ((length es <= 1)%nat /\ q = Node (update_bounds b es) es Null Null Null Null) \/
  (1 < length es)%nat /\ exists c, (forall j, (j < 4)%nat -> children_of fuel b es j = Ok (c j)) /\ q = Node (if r then b else update_bounds b es) [] (c 0%nat) (c 1%nat) (c 2%nat) (c 3%nat).
Proof.
  rewrite subdivide_S. destruct (Nat.leb (length es) 1) eqn:L; [apply Nat.leb_le in L|apply Nat.leb_gt in L].
  - intros H. injection H as <-. left. auto.
  - destruct (children_of fuel b es 0) as [c0| |] eqn:E0; cbn [bind]; try discriminate. destruct (children_of fuel b es 1) as [c1| |] eqn:E1; cbn [bind]; try discriminate. destruct (children_of fuel b es 2) as [c2| |] eqn:E2; cbn [bind]; try discriminate. destruct (children_of fuel b es 3) as [c3| |] eqn:E3; cbn [bind]; try discriminate.
    intros H. injection H as <-. right. split; [exact L|]. exists (fun j => match j with 0%nat => c0 | 1%nat => c1 | 2%nat => c2 | _ => c3 end). split; [|reflexivity]. intros [|[|[|[|j]]]] Hj; try assumption; lia.
Qed.
Lemma subdivide_children fuel r b es (c : nat -> quad_node) : (forall j, (j < 4)%nat -> children_of fuel b es j = Ok (c j)) -> (1 < length es)%nat -> exists q, subdivide (S fuel) r b es = Ok q.
Proof. intros H L. rewrite subdivide_S. apply Nat.leb_gt in L. rewrite L, !H by lia. eexists. reflexivity. Qed.
(** [e] is in a leaf, and the boxes of all nodes above cover it *)
Fixpoint stored (q : quad_node) (e : box) : Prop :=
  match q with Null => False | Node b (f :: _) _ _ _ _ => f = e | Node b [] c0 c1 c2 c3 => covers b e /\ (stored c0 e \/ stored c1 e \/ stored c2 e \/ stored c3 e) end.
Lemma subdivide_stored : forall fuel r b es q, subdivide fuel r b es = Ok q -> centered b -> (r = true -> forall e, In e es -> covers b e) -> forall e, In e es -> contains b (ctr e) = true -> stored q e.
Proof.
  induction fuel as [|fuel IH]; intros r b es q H CB R e I K; [discriminate H|]. apply subdivide_ok in H. destruct H as [[L ->]|(L & c & HC & ->)].
  - destruct es as [|f [|g es]]; [destruct I|destruct I as [->|[]]; reflexivity|cbn [length] in L; lia].
  - cbn [stored]. split; [destruct r; [apply R; auto|apply update_covers; exact I]|]. destruct (which_total b (ctr e) CB K) as [j W]. destruct (which_some _ _ _ W) as [Hj KJ]. specialize (HC j Hj). unfold children_of in HC.
    assert (IJ : In e (filter (goes_to b j) es)) by (apply filter_In; split; [exact I|apply goes_spec; exact W]). assert (SJ : stored (c j) e). { destruct (filter (goes_to b j) es) as [|f l] eqn:F; [destruct IJ|]. apply (IH _ _ _ _ HC); [apply child_centered|discriminate|exact IJ|exact KJ]. }
    destruct j as [|[|[|[|j]]]]; try lia; auto.
Qed.
(** the elements in the leaves *)
Fixpoint leaves (q : quad_node) : list box := match q with Null => [] | Node b (e :: _) _ _ _ _ => [e] | Node b [] c0 c1 c2 c3 => leaves c0 ++ leaves c1 ++ leaves c2 ++ leaves c3 end.
Lemma subdivide_leaves : forall fuel r b es q, subdivide fuel r b es = Ok q -> incl (leaves q) es.
Proof.
  induction fuel as [|fuel IH]; intros r b es q H; [discriminate H|]. apply subdivide_ok in H. destruct H as [[L ->]|(L & c & HC & ->)].
  - destruct es as [|f [|g es]]; cbn; [intros x []|intros x X; exact X|cbn [length] in L; lia].
  - assert (K : forall j, (j < 4)%nat -> incl (leaves (c j)) es). { intros j Hj. specialize (HC j Hj). unfold children_of in HC. destruct (filter (goes_to b j) es) as [|f l] eqn:F; [injection HC as <-; intros x []|]. intros x X. apply (IH _ _ _ _ HC) in X. rewrite <- F in X. apply filter_In in X. apply X. }
    cbn [leaves]. repeat apply incl_app; apply K; lia.
Qed.
Lemma subdivide_mono : forall fuel r b es q, subdivide fuel r b es = Ok q -> forall fuel', (fuel <= fuel')%nat -> subdivide fuel' r b es = Ok q.
Proof.
  induction fuel as [|fuel IH]; intros r b es q H fuel' L; [discriminate H|]. destruct fuel' as [|fuel']; [lia|]. rewrite subdivide_S in *. destruct (Nat.leb (length es) 1); [exact H|].
  assert (K : forall j c, children_of fuel b es j = Ok c -> children_of fuel' b es j = Ok c). { intros j c. unfold children_of. destruct (filter _ _); [auto|]. intros G. apply (IH _ _ _ _ G). lia. }
  destruct (children_of fuel b es 0) as [c0| |] eqn:E0; cbn [bind] in H; try discriminate. rewrite (K _ _ E0). destruct (children_of fuel b es 1) as [c1| |] eqn:E1; cbn [bind] in H; try discriminate. rewrite (K _ _ E1). destruct (children_of fuel b es 2) as [c2| |] eqn:E2; cbn [bind] in H; try discriminate. rewrite (K _ _ E2).
  destruct (children_of fuel b es 3) as [c3| |] eqn:E3; cbn [bind] in H; try discriminate. rewrite (K _ _ E3). exact H.
Qed.
Lemma subdivide_no_UB : forall fuel r b es, subdivide fuel r b es <> UB.
Proof.
  induction fuel as [|fuel IH]; intros r b es; [discriminate|]. rewrite subdivide_S. destruct (Nat.leb (length es) 1); [discriminate|].
  assert (K : forall j, children_of fuel b es j <> UB) by (intros j; unfold children_of; destruct (filter _ _); [discriminate|apply IH]).
  repeat match goal with |- context [bind (children_of fuel b es ?j) _] => let E := fresh in destruct (children_of fuel b es j) eqn:E; cbn [bind]; [|exfalso; exact (K _ E)|discriminate] end. discriminate.
Qed.

(** ** C118: building the tree *)
Definition apart (d : R) (e f : box) : Prop := d <= Rabs (C0 e - C0 f) \/ d <= Rabs (C1 e - C1 f).
Lemma filter_apart d p : forall l, ForallOrdPairs (apart d) l -> ForallOrdPairs (apart d) (filter p l).
Proof.
  induction l as [|a l IH]; intros H; [constructor|]. inversion H as [|? ? H1 H2]; subst. cbn [filter]. destruct (p a); [|apply IH; exact H2]. constructor; [|apply IH; exact H2]. apply Forall_forall. intros x X. apply filter_In in X. rewrite Forall_forall in H1. apply H1, X.
Qed.
Lemma subdivide_terminates d : 0 < d -> forall n r b es, centered b -> (n = 0%nat -> forall e, In e es -> contains b (ctr e) = true) -> ForallOrdPairs (apart d) es -> B0 b - A0 b < d * 2 ^ n -> B1 b - A1 b < d * 2 ^ n ->
  exists q, subdivide (S n) r b es = Ok q.
Proof.
  intros D. induction n as [|n IH]; intros r b es CB CE AP S0 S1.
  - destruct es as [|e [|f es]]; [eexists; reflexivity|eexists; reflexivity|]. exfalso. pose proof (CE eq_refl e (or_introl eq_refl)) as He. pose proof (CE eq_refl f (or_intror (or_introl eq_refl))) as Hf. inversion AP as [|? ? H1 _]; subst. inversion H1 as [|? ? H2 _]; subst.
    apply contains_spec in He, Hf. cbn [ctr fst snd] in *. rewrite pow_O, Rmult_1_r in S0, S1. destruct H2 as [H2|H2]; revert H2; unfold Rabs; destruct (Rcase_abs _); lra.
  - destruct (le_lt_dec (length es) 1) as [L|L]; [rewrite subdivide_S; apply Nat.leb_le in L; rewrite L; eexists; reflexivity|].
    assert (K : forall j, (j < 4)%nat -> exists c, children_of (S n) b es j = Ok c).
    { intros j Hj. unfold children_of. destruct (filter (goes_to b j) es) as [|f l] eqn:F; [eexists; reflexivity|]. destruct (child_sides b j CB) as [T0 T1]. cbn [pow] in S0, S1. apply IH.
      - apply child_centered.
      - intros _ e I. rewrite <- F in I. apply filter_In in I. destruct I as [_ I]. apply goes_spec in I. apply (which_some _ _ _ I).
      - rewrite <- F. apply filter_apart. exact AP.
      - lra. - lra. }
    destruct (K 0%nat ltac:(lia)) as [c0 E0]. destruct (K 1%nat ltac:(lia)) as [c1 E1]. destruct (K 2%nat ltac:(lia)) as [c2 E2]. destruct (K 3%nat ltac:(lia)) as [c3 E3].
    apply (subdivide_children (S n) r b es (fun j => match j with 0%nat => c0 | 1%nat => c1 | 2%nat => c2 | _ => c3 end)); [|exact L]. intros [|[|[|[|j]]]] Hj; try assumption; lia.
Qed.
Lemma separation : forall es, ForallOrdPairs (fun e f => ctr e <> ctr f) es -> exists d, 0 < d /\ ForallOrdPairs (apart d) es.
Proof.
  assert (M : forall d d' l, 0 < d' <= d -> ForallOrdPairs (apart d) l -> ForallOrdPairs (apart d') l). { intros d d' l D. induction 1 as [|a l H1 H2 IH]; constructor; [|exact IH]. eapply Forall_impl; [|exact H1]. intros x [X|X]; [left|right]; lra. }
  induction es as [|e es IH]; intros H; [exists 1; split; [lra|constructor]|]. inversion H as [|? ? H1 H2]; subst. destruct (IH H2) as (d & D & P). clear IH H H2.
  assert (Q : exists d', 0 < d' /\ Forall (apart d' e) es).
  { clear P. induction es as [|f es IH]; [exists 1; split; [lra|constructor]|]. inversion H1 as [|? ? N H2]; subst. destruct (IH H2) as (d1 & D1 & P1).
    assert (X : exists d2, 0 < d2 /\ apart d2 e f). { destruct (Req_EM_T (C0 e) (C0 f)) as [E|E]; [|exists (Rabs (C0 e - C0 f)); split; [apply Rabs_pos_lt; lra|left; lra]]. exists (Rabs (C1 e - C1 f)). split; [|right; lra]. apply Rabs_pos_lt. intros Z. apply N. unfold ctr. f_equal; lra. }
    destruct X as (d2 & D2 & P2). exists (Rmin d1 d2). pose proof (Rmin_l d1 d2). pose proof (Rmin_r d1 d2). split; [apply Rmin_glb_lt; assumption|]. constructor; [destruct P2; [left|right]; lra|]. eapply Forall_impl; [|exact P1]. intros x [X|X]; [left|right]; lra. }
  destruct Q as (d' & D' & Q). exists (Rmin d d'). pose proof (Rmin_l d d'). pose proof (Rmin_r d d'). assert (0 < Rmin d d') by (apply Rmin_glb_lt; assumption). split; [assumption|]. constructor; [|apply (M d); [lra|exact P]]. eapply Forall_impl; [|exact Q]. intros x [X|X]; [left|right]; lra.
Qed.
Lemma power_above x d : 0 < d -> exists n, x < d * 2 ^ n.
Proof.
  intros D. destruct (Pow_x_infinity 2 ltac:(rewrite Rabs_pos_eq; lra) (x / d + 1)) as [N H]. exists N. specialize (H N (le_n N)). rewrite Rabs_pos_eq in H by (apply pow_le; lra). apply Rlt_le_trans with (d * (x / d + 1)); [field_simplify; lra|]. apply Rmult_le_compat_l; lra.
Qed.
Lemma subdivide_total r b es : centered b -> ForallOrdPairs (fun e f => ctr e <> ctr f) es -> exists n q, subdivide n r b es = Ok q.
Proof.
  intros CB H. destruct (separation es H) as (d & D & P). destruct (power_above (B0 b - A0 b) d D) as [n0 N0]. destruct (power_above (B1 b - A1 b) d D) as [n1 N1]. set (n := S (n0 + n1)). exists (S n).
  assert (W : forall k, (k <= n)%nat -> d * 2 ^ k <= d * 2 ^ n) by (intros k K; apply Rmult_le_compat_l; [lra|]; apply Rle_pow; [lra|exact K]). apply (subdivide_terminates d D); [exact CB|discriminate|exact P| |].
  - pose proof (W n0 ltac:(unfold n; lia)). lra.
  - pose proof (W n1 ltac:(unfold n; lia)). lra.
Qed.
Lemma subdivide_diverges c : forall fuel r b l1 e l2 f l3, centered b -> contains b c = true -> ctr e = c -> ctr f = c -> subdivide fuel r b (l1 ++ e :: l2 ++ f :: l3) = OutOfFuel.
Proof.
  induction fuel as [|fuel IH]; intros r b l1 e l2 f l3 CB K E F; [reflexivity|]. rewrite subdivide_S. set (es := l1 ++ e :: l2 ++ f :: l3). assert (L : Nat.leb (length es) 1 = false) by (apply Nat.leb_gt; unfold es; rewrite app_length; cbn [length]; rewrite app_length; cbn [length]; lia). rewrite L.
  destruct (which_total b c CB K) as [j W]. destruct (which_some _ _ _ W) as [Hj KJ].
  assert (X : children_of fuel b es j = OutOfFuel). { unfold children_of, es. rewrite filter_app. cbn [filter]. rewrite (proj2 (goes_spec b j e)) by (rewrite E; exact W). rewrite filter_app. cbn [filter]. rewrite (proj2 (goes_spec b j f)) by (rewrite F; exact W). destruct (filter (goes_to b j) l1 ++ _) as [|g l] eqn:G; [destruct (filter (goes_to b j) l1); discriminate G|]. rewrite <- G. apply IH; [apply child_centered|exact KJ|exact E|exact F]. }
  assert (N : forall i, children_of fuel b es i <> UB) by (intros i; unfold children_of; destruct (filter _ _); [discriminate|apply subdivide_no_UB]).
  assert (J : j = 0%nat \/ j = 1%nat \/ j = 2%nat \/ j = 3%nat) by lia.
  repeat match goal with |- context [bind (children_of fuel b es ?j) _] => let Q := fresh in destruct (children_of fuel b es j) eqn:Q; cbn [bind]; [|exfalso; exact (N _ Q)|reflexivity] end.
  exfalso. destruct J as [->|[->|[->| ->]]]; congruence.
Qed.

(** ** The mesh *)
Definition box_of (i : nat) (p q r : point) : box :=
  {| bid := i; C0 := (fst p + fst q + fst r) / 3; C1 := (snd p + snd q + snd r) / 3; A0 := min3 (fst p) (fst q) (fst r); A1 := min3 (snd p) (snd q) (snd r); B0 := max3 (fst p) (fst q) (fst r); B1 := max3 (snd p) (snd q) (snd r) |}.
Lemma triangle_corners m i p q r : triangle m i p q r <-> corners m i = Ok (p, q, r).
Proof.
  unfold triangle, corners, vget. split.
  - intros (a & b & c & -> & E1 & E2 & E3). cbn [of_option bind]. rewrite E1, E2, E3. reflexivity.
  - destruct (nth_error (triangles m) i) as [[[a b] c]|]; cbn [of_option bind]; [|discriminate]. destruct (nth_error _ a) eqn:E1; cbn [of_option bind]; [|discriminate]. destruct (nth_error _ b) eqn:E2; cbn [of_option bind]; [|discriminate]. destruct (nth_error _ c) eqn:E3; cbn [of_option bind]; [|discriminate]. intros H. injection H as <- <- <-. exists a, b, c. auto.
Qed.
Lemma triangle_unique m i p q r p' q' r' : triangle m i p q r -> triangle m i p' q' r' -> p = p' /\ q = q' /\ r = r'.
Proof. rewrite !triangle_corners. intros -> H. injection H as <- <- <-. auto. Qed.
Lemma boxes_spec m : well_formed m -> exists l, triangle_boxes (vertex_coords m) 0 (triangles m) = Ok l /\ length l = length (triangles m) /\ forall i e, nth_error l i = Some e <-> exists p q r, triangle m i p q r /\ e = box_of i p q r.
Proof.
  intros [W _]. 
  assert (G : forall ts k, (forall i, nth_error (triangles m) (k + i) = nth_error ts i) -> exists l, triangle_boxes (vertex_coords m) k ts = Ok l /\ length l = length ts /\ forall i e, nth_error l i = Some e <-> exists p q r, triangle m (k + i) p q r /\ e = box_of (k + i) p q r).
  { induction ts as [|t ts IH]; intros k H.
    - exists []. split; [reflexivity|]. split; [reflexivity|]. intros i e. split; [destruct i; discriminate|]. intros (p & q & r & (a & b & c & N & _) & _). rewrite H in N. destruct i; discriminate N.
    - destruct (IH (S k)) as (l & E & L & SP). { intros i. replace (S k + i)%nat with (k + S i)%nat by lia. rewrite H. reflexivity. }
      destruct (W k t) as (p & q & r & T). { rewrite <- (Nat.add_0_r k), H. reflexivity. } pose proof T as T'. destruct T as (a & b & c & N & P1 & P2 & P3). rewrite <- (Nat.add_0_r k) in N at 1. rewrite H in N. cbn in N. injection N as ->. cbn [triangle_boxes triangle_box]. unfold vget. rewrite P1, P2, P3. cbn [of_option bind]. rewrite E. cbn [bind].
      exists (box_of k p q r :: l). split; [reflexivity|]. split; [cbn [length]; lia|]. intros [|i] e.
      + cbn [nth_error]. rewrite Nat.add_0_r. split; [intros K; injection K as <-; exists p, q, r; auto|]. intros (p' & q' & r' & T1 & ->). destruct (triangle_unique _ _ _ _ _ _ _ _ T' T1) as (<- & <- & <-). reflexivity.
      + cbn [nth_error]. replace (k + S i)%nat with (S k + i)%nat by lia. apply SP. }
  apply (G (triangles m) 0%nat). reflexivity.
Qed.
Lemma min3_spec x y z : min3 x y z <= x /\ min3 x y z <= y /\ min3 x y z <= z /\ (min3 x y z = x \/ min3 x y z = y \/ min3 x y z = z).
Proof. unfold min3, Rmin. repeat destruct (Rle_dec _ _); lra. Qed.
Lemma max3_spec x y z : x <= max3 x y z /\ y <= max3 x y z /\ z <= max3 x y z /\ (max3 x y z = x \/ max3 x y z = y \/ max3 x y z = z).
Proof. unfold max3, Rmax. repeat destruct (Rle_dec _ _); lra. Qed.
Lemma global_spec coords : (forall x, In x coords -> Rabs (fst x) <= double_max /\ Rabs (snd x) <= double_max) -> forall b, b = global_bounds coords ->
  centered b /\ (forall x, In x coords -> (A0 b <= fst x <= B0 b) /\ (A1 b <= snd x <= B1 b)) /\ (coords <> [] -> (exists x, In x coords /\ B0 b = fst x) /\ (exists x, In x coords /\ B1 b = snd x)).
Proof.
  intros F b ->. split; [split; reflexivity|]. unfold global_bounds.
  assert (G : forall l b, let f := fold_left bound l b in (A0 f <= A0 b /\ A1 f <= A1 b /\ B0 b <= B0 f /\ B1 b <= B1 f) /\ (forall x, In x l -> (A0 f <= fst x <= B0 f) /\ (A1 f <= snd x <= B1 f)) /\ (B0 f = B0 b \/ exists x, In x l /\ B0 f = fst x) /\ (B1 f = B1 b \/ exists x, In x l /\ B1 f = snd x)).
  { induction l as [|a l IH]; intros b; cbn [fold_left]; [cbn zeta; repeat split; try lra; try (left; reflexivity); destruct H|]. specialize (IH (bound b a)). cbn zeta in *. set (f := fold_left bound l (bound b a)) in *. destruct IH as ((I1 & I2 & I3 & I4) & J & K1 & K2). cbn [bound A0 A1 B0 B1] in *.
    pose proof (Rmin_l (A0 b) (fst a)). pose proof (Rmin_r (A0 b) (fst a)). pose proof (Rmin_l (A1 b) (snd a)). pose proof (Rmin_r (A1 b) (snd a)). pose proof (Rmax_l (B0 b) (fst a)). pose proof (Rmax_r (B0 b) (fst a)). pose proof (Rmax_l (B1 b) (snd a)). pose proof (Rmax_r (B1 b) (snd a)).
    split; [lra|]. split; [intros x [->|X]; [lra|apply J; exact X]|]. split.
    - destruct K1 as [K1|(x & X & K1)]; [|right; exists x; split; [right; exact X|exact K1]]. rewrite K1. unfold Rmax. destruct (Rle_dec _ _); [right; exists a; split; [left; reflexivity|reflexivity]|left; reflexivity].
    - destruct K2 as [K2|(x & X & K2)]; [|right; exists x; split; [right; exact X|exact K2]]. rewrite K2. unfold Rmax. destruct (Rle_dec _ _); [right; exists a; split; [left; reflexivity|reflexivity]|left; reflexivity]. }
  destruct (G coords empty_box) as (_ & J & K1 & K2). split; [exact J|]. intros NE. destruct coords as [|x0 coords]; [contradiction|]. clear NE. cbn [update_centroid A0 A1 B0 B1]. set (f := fold_left bound (x0 :: coords) empty_box) in *. cbn [empty_box B0 B1] in K1, K2.
  destruct (J x0 (or_introl eq_refl)) as [J0 J1]. destruct (F x0 (or_introl eq_refl)) as [F0 F1]. assert (Z : forall y, Rabs y <= double_max -> - double_max <= y) by (intros y; unfold Rabs; destruct (Rcase_abs y); lra). pose proof (Z _ F0). pose proof (Z _ F1). split.
  - destruct K1 as [K1|K1]; [|exact K1]. exists x0. split; [left; reflexivity|lra].
  - destruct K2 as [K2|K2]; [|exact K2]. exists x0. split; [left; reflexivity|lra].
Qed.
Lemma box_in_bounds m i p q r : well_formed m -> triangle m i p q r -> covers (global_bounds (vertex_coords m)) (box_of i p q r).
Proof.
  intros [_ F] (a & b & c & _ & P1 & P2 & P3). destruct (global_spec _ F _ eq_refl) as (_ & J & _). pose proof (J _ (nth_error_In _ _ P1)). pose proof (J _ (nth_error_In _ _ P2)). pose proof (J _ (nth_error_In _ _ P3)). unfold covers, box_of. cbn [A0 A1 B0 B1].
  pose proof (min3_spec (fst p) (fst q) (fst r)). pose proof (min3_spec (snd p) (snd q) (snd r)). pose proof (max3_spec (fst p) (fst q) (fst r)). pose proof (max3_spec (snd p) (snd q) (snd r)). lra.
Qed.
Lemma area_distinct p q r : area p q r <> 0 -> (fst p < max3 (fst p) (fst q) (fst r) \/ fst q < max3 (fst p) (fst q) (fst r) \/ fst r < max3 (fst p) (fst q) (fst r)) /\ (snd p < max3 (snd p) (snd q) (snd r) \/ snd q < max3 (snd p) (snd q) (snd r) \/ snd r < max3 (snd p) (snd q) (snd r)).
Proof.
  intros N. pose proof (max3_spec (fst p) (fst q) (fst r)) as X. pose proof (max3_spec (snd p) (snd q) (snd r)) as Y. set (mx := max3 (fst p) (fst q) (fst r)) in *. set (my := max3 (snd p) (snd q) (snd r)) in *. split.
  - destruct (Rlt_dec (fst p) mx); [auto|]. destruct (Rlt_dec (fst q) mx); [auto|]. destruct (Rlt_dec (fst r) mx); [auto|]. exfalso. apply N. unfold area. replace (fst p) with mx by lra. replace (fst q) with mx by lra. replace (fst r) with mx by lra. ring.
  - destruct (Rlt_dec (snd p) my); [auto|]. destruct (Rlt_dec (snd q) my); [auto|]. destruct (Rlt_dec (snd r) my); [auto|]. exfalso. apply N. unfold area. replace (snd p) with my by lra. replace (snd q) with my by lra. replace (snd r) with my by lra. ring.
Qed.
Lemma centroid_in_bounds m i p q r : well_formed m -> triangle m i p q r -> area p q r <> 0 -> contains (global_bounds (vertex_coords m)) (ctr (box_of i p q r)) = true.
Proof.
  intros W T N. pose proof (box_in_bounds m i p q r W T) as C. apply contains_spec. unfold covers, box_of, ctr in *. cbn [A0 A1 B0 B1 C0 C1 fst snd] in *.
  pose proof (min3_spec (fst p) (fst q) (fst r)). pose proof (min3_spec (snd p) (snd q) (snd r)). pose proof (max3_spec (fst p) (fst q) (fst r)). pose proof (max3_spec (snd p) (snd q) (snd r)). destruct (area_distinct p q r N). lra.
Qed.
Lemma ctr_centroid i p q r : ctr (box_of i p q r) = weighted (1 / 3, 1 / 3, 1 / 3) p q r.
Proof. unfold ctr, box_of, weighted. cbn [C0 C1]. f_equal; field. Qed.
(** the tree is built, with a finite depth of the recursion, if no two triangles have the same centroid *)
Theorem C118_terminates : forall m, well_formed m -> (forall i j c, centroid m i c -> centroid m j c -> i = j) -> exists depth root, forall fuel, (depth <= fuel)%nat -> initialize fuel m = Ok root.
Proof.
  intros m W D. destruct (boxes_spec m W) as (l & E & L & S). pose proof (global_spec _ (proj2 W) _ eq_refl) as (CB & _).
  assert (P : ForallOrdPairs (fun e f => ctr e <> ctr f) l).
  { assert (G : forall k l', (forall i, nth_error l (k + i) = nth_error l' i) -> ForallOrdPairs (fun e f => ctr e <> ctr f) l'). 2: { apply (G 0%nat). reflexivity. }
    intros k l'. revert k. induction l' as [|e l' IH]; intros k H; constructor.
    - apply Forall_forall. intros f F Q. apply In_nth_error in F. destruct F as [j F]. pose proof (H 0%nat) as H0. rewrite Nat.add_0_r in H0. cbn in H0. apply S in H0. specialize (H (Datatypes.S j)). cbn in H. rewrite F in H. apply S in H. destruct H0 as (p & q & r & T & ->). destruct H as (p' & q' & r' & T' & ->). rewrite !ctr_centroid in Q.
      assert (K : k = (k + Datatypes.S j)%nat); [|lia]. apply (D _ _ (weighted (1 / 3, 1 / 3, 1 / 3) p q r)); [exists p, q, r; auto|exists p', q', r'; auto].
    - apply (IH (Datatypes.S k)). intros i. replace (Datatypes.S k + i)%nat with (k + Datatypes.S i)%nat by lia. rewrite H. reflexivity. }
  destruct (subdivide_total true _ l CB P) as (n & root & H). exists n, root. intros fuel F. unfold initialize. rewrite E. cbn [bind]. apply (subdivide_mono _ _ _ _ _ H). exact F.
Qed.
Print Assumptions C118_terminates.
(** in particular if the triangles are not degenerate and no point is strictly inside two of them *)
Definition strictly_inside (x p q r : point) : Prop := exists a b c, 0 < a /\ 0 < b /\ 0 < c /\ a + b + c = 1 /\ x = weighted (a, b, c) p q r.
Theorem C118_disjoint : forall m, well_formed m -> (forall x i j p q r p' q' r', triangle m i p q r -> triangle m j p' q' r' -> strictly_inside x p q r -> strictly_inside x p' q' r' -> i = j) ->
  exists depth root, forall fuel, (depth <= fuel)%nat -> initialize fuel m = Ok root.
Proof.
  intros m W D. apply C118_terminates; [exact W|]. intros i j c (p & q & r & T & E) (p' & q' & r' & T' & E'). apply (D c i j p q r p' q' r' T T'); exists (1 / 3), (1 / 3), (1 / 3); repeat split; try lra; assumption.
Qed.
Print Assumptions C118_disjoint.
(** with two such triangles the recursion never ends *)
Theorem C118_same_centroid_refuted : forall m i j p q r p' q' r', well_formed m -> (i < j)%nat -> triangle m i p q r -> triangle m j p' q' r' -> area p q r <> 0 ->
  weighted (1 / 3, 1 / 3, 1 / 3) p q r = weighted (1 / 3, 1 / 3, 1 / 3) p' q' r' -> forall fuel, initialize fuel m = OutOfFuel.
Proof.
  intros m i j p q r p' q' r' W IJ T T' N E fuel. destruct (boxes_spec m W) as (l & EL & L & S). unfold initialize. rewrite EL. cbn [bind]. pose proof (global_spec _ (proj2 W) _ eq_refl) as (CB & _).
  assert (Li : nth_error l i = Some (box_of i p q r)) by (apply S; exists p, q, r; auto). assert (Lj : nth_error l j = Some (box_of j p' q' r')) by (apply S; exists p', q', r'; auto).
  apply nth_error_split in Li. destruct Li as (l1 & l2 & -> & L1). rewrite nth_error_app2 in Lj by lia. replace (j - length l1)%nat with (Datatypes.S (j - i - 1)) in Lj by lia. cbn [nth_error] in Lj. apply nth_error_split in Lj. destruct Lj as (l3 & l4 & -> & L3).
  apply (subdivide_diverges (ctr (box_of i p q r))); [exact CB|apply centroid_in_bounds; assumption|reflexivity|]. rewrite !ctr_centroid. symmetry. exact E.
Qed.
Print Assumptions C118_same_centroid_refuted.

(** ** C119: locating a point *)
(** the leaves whose boxes above contain the point *)
Fixpoint reach (x : point) (q : quad_node) (e : box) : Prop :=
  match q with Null => False | Node b (f :: _) _ _ _ _ => f = e | Node b [] c0 c1 c2 c3 => contains b x = true /\ (reach x c0 e \/ reach x c1 e \/ reach x c2 e \/ reach x c3 e) end.
Lemma stored_reach x e : (A0 e <= fst x < B0 e) -> (A1 e <= snd x < B1 e) -> forall q, stored q e -> reach x q e.
Proof. intros X Y. induction q as [|b [|f l] c0 I0 c1 I1 c2 I2 c3 I3]; cbn [stored reach]; [tauto| |tauto]. intros [C H]. split; [apply contains_spec; unfold covers in C; lra|tauto]. Qed.
Lemma reach_leaves x e : forall q, reach x q e -> In e (leaves q).
Proof. induction q as [|b [|f l] c0 I0 c1 I1 c2 I2 c3 I3]; cbn [reach leaves]; [tauto| |intros ->; left; reflexivity]. rewrite !in_app_iff. tauto. Qed.
Definition total (f : quad_node -> nat) (s : list quad_node) : nat := fold_right (fun q n => (f q + n)%nat) 0%nat s.
Lemma locate_loop_spec m x : forall fuel stack, (total nodes stack < fuel)%nat -> (forall q e, In q stack -> In e (leaves q) -> exists p0 p1 p2, triangle m (bid e) p0 p1 p2) ->
  exists r, locate_loop fuel m x stack = Ok r /\
    (forall i mu, r = Some (i, mu) -> exists q e p0 p1 p2, In q stack /\ reach x q e /\ bid e = i /\ triangle m i p0 p1 p2 /\ inside_triangle x p0 p1 p2 = (true, mu)) /\
    (r = None -> forall q e p0 p1 p2, In q stack -> reach x q e -> triangle m (bid e) p0 p1 p2 -> fst (inside_triangle x p0 p1 p2) = false).
Proof.
  induction fuel as [|fuel IH]; intros stack F T; [lia|]. destruct stack as [|q stack]; [exists None; split; [reflexivity|]; split; [discriminate|intros _ q e p0 p1 p2 []]|].
  assert (T' : forall p e, In p stack -> In e (leaves p) -> exists p0 p1 p2, triangle m (bid e) p0 p1 p2) by (intros p e P; apply T; right; exact P). cbn [total fold_right] in F. change (fold_right (fun q n => (nodes q + n)%nat) 0%nat stack) with (total nodes stack) in F.
  destruct q as [|b [|e l] c0 c1 c2 c3]; cbn [locate_loop].
  - destruct (IH stack) as (r & E & P & Q); [cbn [nodes] in F; lia|exact T'|]. exists r. split; [exact E|]. split; [intros i mu K; destruct (P i mu K) as (q & e & p0 & p1 & p2 & I & H); exists q, e, p0, p1, p2; split; [right; exact I|exact H]|]. intros K q e p0 p1 p2 [<-|I] R; [destruct R|apply (Q K q e p0 p1 p2 I R)].
  - cbn [nodes] in F. destruct (contains b x) eqn:C.
    + destruct (IH (push_children c0 c1 c2 c3 stack)) as (r & E & P & Q). { unfold push_children, total. cbn [fold_right]. unfold total in F. lia. } { intros p e [<-|[<-|[<-|[<-|I]]]]; intros L; [..|apply (T' p e I L)]; (apply (T (Node b [] c0 c1 c2 c3) e (or_introl eq_refl)); cbn [leaves]; rewrite !in_app_iff; tauto). }
      exists r. split; [exact E|]. split.
      * intros i mu K. destruct (P i mu K) as (q & e & p0 & p1 & p2 & I & R & H). destruct I as [<-|[<-|[<-|[<-|I]]]]; [exists (Node b [] c0 c1 c2 c3)|exists (Node b [] c0 c1 c2 c3)|exists (Node b [] c0 c1 c2 c3)|exists (Node b [] c0 c1 c2 c3)|exists q]; exists e, p0, p1, p2; (split; [left; reflexivity|]; split; [cbn [reach]; tauto|exact H]) || (split; [right; exact I|split; [exact R|exact H]]).
      * intros K q e p0 p1 p2 [<-|I] R; [|apply (Q K q e p0 p1 p2); [do 4 right; exact I|exact R]]. cbn [reach] in R. destruct R as [_ [R|[R|[R|R]]]]; [apply (Q K c0 e p0 p1 p2)|apply (Q K c1 e p0 p1 p2)|apply (Q K c2 e p0 p1 p2)|apply (Q K c3 e p0 p1 p2)]; cbn [push_children In]; auto.
    + destruct (IH stack) as (r & E & P & Q); [lia|exact T'|]. exists r. split; [exact E|]. split; [intros i mu K; destruct (P i mu K) as (q & e & p0 & p1 & p2 & I & H); exists q, e, p0, p1, p2; split; [right; exact I|exact H]|]. intros K q e p0 p1 p2 [<-|I] R; [cbn [reach] in R; destruct R as [R _]; congruence|apply (Q K q e p0 p1 p2 I R)].
  - destruct (T (Node b (e :: l) c0 c1 c2 c3) e (or_introl eq_refl)) as (p0 & p1 & p2 & TR); [cbn [leaves]; left; reflexivity|]. rewrite (proj1 (triangle_corners _ _ _ _ _) TR). cbn [bind]. destruct (inside_triangle x p0 p1 p2) as [succ mu] eqn:IN. destruct succ.
    + eexists. split; [reflexivity|]. split; [|discriminate]. intros i mu' K. injection K as <- <-. exists (Node b (e :: l) c0 c1 c2 c3), e, p0, p1, p2. split; [left; reflexivity|]. split; [reflexivity|]. auto.
    + cbn [nodes] in F. destruct (IH stack) as (r & E & P & Q); [lia|exact T'|]. exists r. split; [exact E|]. split; [intros i mu' K; destruct (P i mu' K) as (q & f & s0 & s1 & s2 & I & H); exists q, f, s0, s1, s2; split; [right; exact I|exact H]|].
      intros K q f s0 s1 s2 [<-|I] R TF; [|apply (Q K q f s0 s1 s2 I R TF)]. cbn [reach] in R. subst f. destruct (triangle_unique _ _ _ _ _ _ _ _ TR TF) as (<- & <- & <-). rewrite IN. reflexivity.
Qed.
Lemma inside_spec x p q r : (forall mu, inside_triangle x p q r = (true, mu) -> area p q r <> 0 /\ barycentric mu x p q r) /\ (area p q r <> 0 -> forall mu, barycentric mu x p q r -> inside_triangle x p q r = (true, mu)).
Proof.
  unfold inside_triangle. set (d := (snd q - snd r) * _ + _). assert (D : d = area p q r) by (unfold d, area; ring). destruct (Req_EM_T d 0) as [Z|Z]; [split; [discriminate|rewrite <- D; contradiction]|]. split.
  - intros mu H. injection H as H <-. apply andb_true_iff in H. destruct H as [H H2]. apply andb_true_iff in H. destruct H as [H0 H1]. apply leb_true in H0, H1, H2. split; [rewrite <- D; exact Z|]. unfold barycentric. repeat split; try assumption; [ring|]. unfold weighted. destruct x as [x y]. cbn [fst snd] in *. unfold d in *. f_equal; field; exact Z.
  - intros _ [[a b] c] (Ha & Hb & Hc & S & ->). cbn [weighted fst snd]. assert (C : c = 1 - a - b) by lra. subst c.
    match goal with |- context [leb 0 (?n0 / d) && leb 0 (?n1 / d) && _] => assert (E0 : n0 / d = a) by (apply (Rmult_eq_reg_r d); [|exact Z]; transitivity n0; [field; exact Z|unfold d; ring]); assert (E1 : n1 / d = b) by (apply (Rmult_eq_reg_r d); [|exact Z]; transitivity n1; [field; exact Z|unfold d; ring]) end.
    rewrite E0, E1. rewrite !(proj2 (leb_true 0 _)) by lra. reflexivity.
Qed.
Lemma nodes_bound q : (total nodes [q] < nodes q + 2)%nat. Proof. unfold total. cbn [fold_right]. lia. Qed.
Lemma initialize_tree m fuel root : well_formed m -> initialize fuel m = Ok root -> exists l, (length l = length (triangles m)) /\ (forall i e, nth_error l i = Some e <-> exists p q r, triangle m i p q r /\ e = box_of i p q r) /\ subdivide fuel true (global_bounds (vertex_coords m)) l = Ok root.
Proof. intros W H. destruct (boxes_spec m W) as (l & E & L & S). unfold initialize in H. rewrite E in H. cbn [bind] in H. exists l. auto. Qed.
Lemma tree_leaves m fuel root e : well_formed m -> initialize fuel m = Ok root -> In e (leaves root) -> exists p q r, triangle m (bid e) p q r /\ e = box_of (bid e) p q r.
Proof. intros W H I. destruct (initialize_tree m fuel root W H) as (l & _ & S & Q). apply (subdivide_leaves _ _ _ _ _ Q) in I. apply In_nth_error in I. destruct I as [i I]. apply S in I. destruct I as (p & q & r & T & ->). exists p, q, r. auto. Qed.
Lemma tree_stored m fuel root i p q r : well_formed m -> initialize fuel m = Ok root -> triangle m i p q r -> area p q r <> 0 -> stored root (box_of i p q r).
Proof.
  intros W H T N. destruct (initialize_tree m fuel root W H) as (l & _ & S & Q). apply (subdivide_stored _ _ _ _ _ Q).
  - apply (global_spec _ (proj2 W) _ eq_refl).
  - intros _ e I. apply In_nth_error in I. destruct I as [k I]. apply S in I. destruct I as (a & b & c & T' & ->). apply box_in_bounds; assumption.
  - apply nth_error_In with i. apply S. exists p, q, r. auto.
  - apply centroid_in_bounds; assumption.
Qed.
(** locate answers; a triangle that it returns contains the point, with the barycentric coordinates returned *)
Theorem C119_sound : forall m fuel root x, well_formed m -> initialize fuel m = Ok root -> exists r, locate m root x = Ok r /\ forall i mu, r = Some (i, mu) -> in_triangle m i x mu.
Proof.
  intros m fuel root x W H. destruct (locate_loop_spec m x (nodes root + 2) [root] (nodes_bound root)) as (r & E & P & _).
  { intros q e [<-|[]] I. destruct (tree_leaves m fuel root e W H I) as (p & s & t & T & _). exists p, s, t. exact T. }
  exists r. split; [exact E|]. intros i mu K. destruct (P i mu K) as (q & e & p0 & p1 & p2 & _ & _ & _ & T & IN). apply (inside_spec x p0 p1 p2) in IN. exists p0, p1, p2. split; [exact T|exact IN].
Qed.
Print Assumptions C119_sound.
(** a point is found if it is in a triangle and below the largest of the coordinates of its corners *)
Theorem C119_complete_partial : forall m fuel root x i mu p q r, well_formed m -> initialize fuel m = Ok root -> in_triangle m i x mu -> triangle m i p q r -> fst x < max3 (fst p) (fst q) (fst r) -> snd x < max3 (snd p) (snd q) (snd r) ->
  exists j nu, locate m root x = Ok (Some (j, nu)).
Proof.
  intros m fuel root x i mu p q r W H (p' & q' & r' & T & N & B) T' X Y. destruct (triangle_unique _ _ _ _ _ _ _ _ T T') as (-> & -> & ->). clear T'. destruct (locate_loop_spec m x (nodes root + 2) [root] (nodes_bound root)) as (res & E & _ & Q).
  { intros s e [<-|[]] I. destruct (tree_leaves m fuel root e W H I) as (a & b & c & T1 & _). exists a, b, c. exact T1. }
  destruct res as [[j nu]|]; [exists j, nu; exact E|]. exfalso.
  assert (R : reach x root (box_of i p q r)). { apply stored_reach; [| |apply (tree_stored m fuel); assumption].
    - destruct mu as [[a b] c]. destruct B as (Ha & Hb & Hc & S & ->). cbn [weighted box_of A0 B0 fst snd] in *. split; [|exact X]. pose proof (min3_spec (fst p) (fst q) (fst r)) as (M1 & M2 & M3 & _). set (mn := min3 _ _ _) in *. assert (0 <= a * (fst p - mn)) by (apply Rmult_le_pos; lra). assert (0 <= b * (fst q - mn)) by (apply Rmult_le_pos; lra). assert (0 <= c * (fst r - mn)) by (apply Rmult_le_pos; lra). assert (C : c = 1 - a - b) by lra. subst c. lra.
    - destruct mu as [[a b] c]. destruct B as (Ha & Hb & Hc & S & ->). cbn [weighted box_of A1 B1 fst snd] in *. split; [|exact Y]. pose proof (min3_spec (snd p) (snd q) (snd r)) as (M1 & M2 & M3 & _). set (mn := min3 _ _ _) in *. assert (0 <= a * (snd p - mn)) by (apply Rmult_le_pos; lra). assert (0 <= b * (snd q - mn)) by (apply Rmult_le_pos; lra). assert (0 <= c * (snd r - mn)) by (apply Rmult_le_pos; lra). assert (C : c = 1 - a - b) by lra. subst c. lra. }
  specialize (Q eq_refl root _ p q r (or_introl eq_refl) R T). rewrite (proj2 (inside_spec x p q r) N mu B) in Q. discriminate Q.
Qed.
Print Assumptions C119_complete_partial.
(** hence every point is found if the points next to it, to the upper right, are covered by the mesh *)
Definition shifted (x : point) (s : R) : point := (fst x + s, snd x + s).
Lemma area_weights x p q r mu : area p q r <> 0 -> barycentric mu x p q r <-> mu = (area x q r / area p q r, area p x r / area p q r, area p q x / area p q r) /\ 0 <= area x q r / area p q r /\ 0 <= area p x r / area p q r /\ 0 <= area p q x / area p q r.
Proof.
  intros N. destruct mu as [[a b] c]. unfold barycentric. split.
  - intros (Ha & Hb & Hc & S & ->). assert (C : c = 1 - a - b) by lra. cbn [weighted].
    assert (E0 : area (a * fst p + b * fst q + c * fst r, a * snd p + b * snd q + c * snd r) q r / area p q r = a) by (apply (Rmult_eq_reg_r (area p q r)); [|exact N]; unfold Rdiv; rewrite Rmult_assoc, Rinv_l, Rmult_1_r by exact N; unfold area; cbn [fst snd]; rewrite C; ring).
    assert (E1 : area p (a * fst p + b * fst q + c * fst r, a * snd p + b * snd q + c * snd r) r / area p q r = b) by (apply (Rmult_eq_reg_r (area p q r)); [|exact N]; unfold Rdiv; rewrite Rmult_assoc, Rinv_l, Rmult_1_r by exact N; unfold area; cbn [fst snd]; rewrite C; ring).
    assert (E2 : area p q (a * fst p + b * fst q + c * fst r, a * snd p + b * snd q + c * snd r) / area p q r = c) by (apply (Rmult_eq_reg_r (area p q r)); [|exact N]; unfold Rdiv; rewrite Rmult_assoc, Rinv_l, Rmult_1_r by exact N; unfold area; cbn [fst snd]; rewrite C; ring).
    rewrite E0, E1, E2. auto.
  - intros (E & H0 & H1 & H2). injection E as -> -> ->. repeat split; try assumption; [|destruct x as [x y]; cbn [weighted]; f_equal]; unfold area in *; cbn [fst snd] in *; field; exact N.
Qed.
Lemma affine_sign a b : 0 <= a \/ exists d, 0 < d /\ forall s, 0 < s < d -> a + s * b < 0.
Proof.
  destruct (Rle_dec 0 a) as [P|P]; [left; exact P|]. right. destruct (Rle_dec b 0) as [B|B]; [exists 1; split; [lra|]; intros s S; assert (s * b <= 0) by (rewrite <- (Rmult_0_r s); apply Rmult_le_compat_l; lra); lra|].
  exists (- a / b). assert (Hb : 0 < b) by lra. split; [apply Rdiv_lt_0_compat; lra|]. intros s [S1 S2]. assert (s * b < - a / b * b) by (apply Rmult_lt_compat_r; assumption). replace (- a / b * b) with (- a) in H by (field; lra). lra.
Qed.
Lemma near_triangle m x i p q r : triangle m i p q r -> area p q r <> 0 ->
  ((exists mu, in_triangle m i x mu) /\ fst x < max3 (fst p) (fst q) (fst r) /\ snd x < max3 (snd p) (snd q) (snd r)) \/ exists d, 0 < d /\ forall s mu, 0 < s < d -> ~ in_triangle m i (shifted x s) mu.
Proof.
  intros T N. set (D := area p q r) in *.
  assert (IN : forall s mu, in_triangle m i (shifted x s) mu -> 0 <= area (shifted x s) q r / D /\ 0 <= area p (shifted x s) r / D /\ 0 <= area p q (shifted x s) / D /\ fst x + s <= max3 (fst p) (fst q) (fst r) /\ snd x + s <= max3 (snd p) (snd q) (snd r)).
  { intros s mu (p' & q' & r' & T' & _ & B). destruct (triangle_unique _ _ _ _ _ _ _ _ T T') as (<- & <- & <-). pose proof B as B'. apply (area_weights _ _ _ _ _ N) in B'. fold D in B'. destruct B' as (_ & K). split; [tauto|]. split; [tauto|]. split; [tauto|]. destruct mu as [[a b] c]. destruct B as (Ha & Hb & Hc & S & E). unfold shifted in E. cbn [weighted] in E. injection E as E0 E1. rewrite E0, E1.
    pose proof (max3_spec (fst p) (fst q) (fst r)) as (X1 & X2 & X3 & _). pose proof (max3_spec (snd p) (snd q) (snd r)) as (Y1 & Y2 & Y3 & _). set (mx := max3 (fst p) (fst q) (fst r)) in *. set (my := max3 (snd p) (snd q) (snd r)) in *. assert (C : c = 1 - a - b) by lra. split.
    - assert (0 <= a * (mx - fst p)) by (apply Rmult_le_pos; lra). assert (0 <= b * (mx - fst q)) by (apply Rmult_le_pos; lra). assert (0 <= c * (mx - fst r)) by (apply Rmult_le_pos; lra). rewrite C in *. lra.
    - assert (0 <= a * (my - snd p)) by (apply Rmult_le_pos; lra). assert (0 <= b * (my - snd q)) by (apply Rmult_le_pos; lra). assert (0 <= c * (my - snd r)) by (apply Rmult_le_pos; lra). rewrite C in *. lra. }
  destruct (Rlt_dec (fst x) (max3 (fst p) (fst q) (fst r))) as [X|X]; [|right; exists 1; split; [lra|]; intros s mu S K; apply IN in K; lra].
  destruct (Rlt_dec (snd x) (max3 (snd p) (snd q) (snd r))) as [Y|Y]; [|right; exists 1; split; [lra|]; intros s mu S K; apply IN in K; lra].
  assert (F0 : forall s, area (shifted x s) q r / D = area x q r / D + s * ((snd q - snd r - (fst q - fst r)) / D)) by (intros s; unfold area, shifted; cbn [fst snd]; field; exact N).
  assert (F1 : forall s, area p (shifted x s) r / D = area p x r / D + s * ((fst p - fst r - (snd p - snd r)) / D)) by (intros s; unfold area, shifted; cbn [fst snd]; field; exact N).
  assert (F2 : forall s, area p q (shifted x s) / D = area p q x / D + s * ((snd p - snd q + fst q - fst p) / D)) by (intros s; unfold area, shifted; cbn [fst snd]; field; exact N).
  destruct (affine_sign (area x q r / D) ((snd q - snd r - (fst q - fst r)) / D)) as [P0|(d & Dp & Q)]; [|right; exists d; split; [exact Dp|]; intros s mu S K; apply IN in K; rewrite F0 in K; specialize (Q s S); lra].
  destruct (affine_sign (area p x r / D) ((fst p - fst r - (snd p - snd r)) / D)) as [P1|(d & Dp & Q)]; [|right; exists d; split; [exact Dp|]; intros s mu S K; apply IN in K; rewrite F1 in K; specialize (Q s S); lra].
  destruct (affine_sign (area p q x / D) ((snd p - snd q + fst q - fst p) / D)) as [P2|(d & Dp & Q)]; [|right; exists d; split; [exact Dp|]; intros s mu S K; apply IN in K; rewrite F2 in K; specialize (Q s S); lra].
  left. split; [|split; assumption]. eexists. exists p, q, r. split; [exact T|]. split; [exact N|]. apply (area_weights _ _ _ _ _ N). fold D. split; [reflexivity|]. auto.
Qed.
Theorem C119_interior : forall m fuel root x, well_formed m -> initialize fuel m = Ok root -> (exists d, 0 < d /\ forall s, 0 < s < d -> exists i mu, in_triangle m i (shifted x s) mu) -> exists j nu, locate m root x = Ok (Some (j, nu)).
Proof.
  intros m fuel root x W H (d & D & C).
  assert (G : forall n, (exists j nu, locate m root x = Ok (Some (j, nu))) \/ exists e, 0 < e /\ forall i s mu, (i < n)%nat -> 0 < s < e -> ~ in_triangle m i (shifted x s) mu).
  { induction n as [|n IH]; [right; exists 1; split; [lra|intros; lia]|]. destruct IH as [IH|(e & E & IH)]; [left; exact IH|].
    assert (K : (exists j nu, locate m root x = Ok (Some (j, nu))) \/ exists e, 0 < e /\ forall s mu, 0 < s < e -> ~ in_triangle m n (shifted x s) mu).
    { destruct (nth_error (triangles m) n) as [t|] eqn:T; [|right; exists 1; split; [lra|]; intros s mu _ (p & q & r & (a & b & c & T' & _) & _); congruence]. destruct (proj1 W n t T) as (p & q & r & TR). destruct (Req_EM_T (area p q r) 0) as [Z|Z]; [right; exists 1; split; [lra|]; intros s mu _ (p' & q' & r' & TR' & N' & _); destruct (triangle_unique _ _ _ _ _ _ _ _ TR TR') as (<- & <- & <-); contradiction|].
      destruct (near_triangle m x n p q r TR Z) as [([mu I] & X & Y)|K]; [left; apply (C119_complete_partial m fuel root x n mu p q r W H I TR X Y)|right; exact K]. }
    destruct K as [K|(e' & E' & K)]; [left; exact K|]. right. exists (Rmin e e'). pose proof (Rmin_l e e'). pose proof (Rmin_r e e'). split; [apply Rmin_glb_lt; assumption|]. intros i s mu Hi Hs. destruct (Nat.eq_dec i n) as [->|]; [apply K; lra|apply IH; [lia|lra]]. }
  destruct (G (length (triangles m))) as [K|(e & E & K)]; [exact K|]. exfalso. pose proof (Rmin_l e d). pose proof (Rmin_r e d). assert (0 < Rmin e d) by (apply Rmin_glb_lt; assumption). destruct (C (Rmin e d / 2)) as (i & mu & I); [lra|]. apply (K i (Rmin e d / 2) mu); [|lra|exact I]. destruct I as (p & q & r & (a & b & c & T & _) & _). apply nth_error_Some. congruence.
Qed.
Print Assumptions C119_interior.
(** but no point on the right or upper boundary of the bounding box is found, if there are at least two triangles *)
Theorem C119_boundary_refuted : forall m fuel root x, well_formed m -> initialize fuel m = Ok root -> (2 <= length (triangles m))%nat -> (forall y, In y (vertex_coords m) -> fst y <= fst x) \/ (forall y, In y (vertex_coords m) -> snd y <= snd x) -> locate m root x = Ok None.
Proof.
  intros m fuel root x W H L X. destruct (initialize_tree m fuel root W H) as (l & EL & S & Q). destruct fuel as [|fuel]; [discriminate Q|]. apply subdivide_ok in Q. destruct Q as [[K _]|(_ & c & _ & ->)]; [lia|]. unfold locate. rewrite Nat.add_comm. change (2 + ?n)%nat with (Datatypes.S (Datatypes.S n)). cbn [locate_loop].
  assert (V : vertex_coords m <> []). { destruct (nth_error (triangles m) 0) as [t|] eqn:T; [|apply nth_error_None in T; lia]. destruct (proj1 W 0%nat t T) as (p & q & r & (a & b & e & _ & P & _)). intros Z. rewrite Z in P. destruct a; discriminate P. }
  destruct (global_spec _ (proj2 W) _ eq_refl) as (_ & _ & K). destruct (K V) as [(y0 & I0 & E0) (y1 & I1 & E1)]. assert (C : contains (global_bounds (vertex_coords m)) x = false). { destruct (contains _ x) eqn:C; [|reflexivity]. apply contains_spec in C. exfalso. destruct X as [X|X]; [specialize (X y0 I0)|specialize (X y1 I1)]; lra. }
  rewrite C. reflexivity.
Qed.
Print Assumptions C119_boundary_refuted.
(** a mesh with a single triangle *)
Theorem C119_single : forall m fuel root x mu, well_formed m -> initialize fuel m = Ok root -> length (triangles m) = 1%nat -> in_triangle m 0 x mu -> locate m root x = Ok (Some (0%nat, mu)).
Proof.
  intros m fuel root x mu W H L (p & q & r & T & N & B). destruct (initialize_tree m fuel root W H) as (l & EL & S & Q). destruct fuel as [|fuel]; [discriminate Q|]. apply subdivide_ok in Q. destruct Q as [[_ ->]|(K & _)]; [|lia].
  assert (E : l = [box_of 0 p q r]). { destruct l as [|e [|f l]]; cbn [length] in EL; try lia. pose proof (proj2 (S 0%nat (box_of 0 p q r)) (ex_intro _ p (ex_intro _ q (ex_intro _ r (conj T eq_refl))))) as K. cbn in K. injection K as ->. reflexivity. }
  subst l. unfold locate. cbn [nodes Nat.add locate_loop bid box_of]. rewrite (proj1 (triangle_corners _ _ _ _ _) T). cbn [bind]. rewrite (proj2 (inside_spec x p q r) N mu B). reflexivity.
Qed.
Print Assumptions C119_single.

(** ** C120: evaluating a field *)
(** the value of a scalar field is the weighted sum of the values at the corners; a linear function is reproduced *)
Theorem C120_scalar : forall m fuel root f x, well_formed m -> initialize fuel m = Ok root -> length f = length (vertex_coords m) ->
  exists v, eval_scalar m root f x = Ok v /\ (v = None <-> locate m root x = Ok None) /\
    forall a b c y, (forall i p, nth_error (vertex_coords m) i = Some p -> nth_error f i = Some (a + b * fst p + c * snd p)) -> v = Some y -> y = a + b * fst x + c * snd x.
Proof.
  intros m fuel root f x W H L. destruct (C119_sound m fuel root x W H) as (r & E & S). unfold eval_scalar. rewrite E. cbn [bind]. destruct r as [[i [[mu0 mu1] mu2]]|]; [|exists None; split; [reflexivity|]; split; [tauto|discriminate]].
  destruct (S i _ eq_refl) as (p & q & s & (i0 & i1 & i2 & T & P0 & P1 & P2) & N & B). unfold vget. rewrite T. cbn [of_option bind].
  assert (F : forall k z, nth_error (vertex_coords m) k = Some z -> exists w, nth_error f k = Some w). { intros k z K. destruct (nth_error f k) as [w|] eqn:Q; [exists w; reflexivity|]. apply nth_error_None in Q. assert (k < length (vertex_coords m))%nat by (apply nth_error_Some; congruence). lia. }
  destruct (F _ _ P0) as [f0 F0]. destruct (F _ _ P1) as [f1 F1]. destruct (F _ _ P2) as [f2 F2]. rewrite F0, F1, F2. cbn [of_option bind]. eexists. split; [reflexivity|]. split; [split; [discriminate|intros K; injection K as K; discriminate K]|].
  intros a b c y A K. injection K as <-. pose proof (A _ _ P0) as A0. pose proof (A _ _ P1) as A1. pose proof (A _ _ P2) as A2. rewrite F0 in A0. rewrite F1 in A1. rewrite F2 in A2. injection A0 as ->. injection A1 as ->. injection A2 as ->. destruct B as (_ & _ & _ & SM & ->). unfold lerp_s2, elems. cbn [nth weighted fst snd]. assert (M : mu2 = 1 - mu0 - mu1) by lra. rewrite M. ring.
Qed.
Print Assumptions C120_scalar.
(** vector fields: with one, two, or more than three components, memory outside of an array is read at every point that is found *)
Theorem C120_vector_undefined_refuted : forall m fuel root d f x j mu, well_formed m -> initialize fuel m = Ok root -> length f = length (vertex_coords m) -> (forall v, In v f -> length v = d) -> (d = 1 \/ d = 2 \/ 4 <= d)%nat -> locate m root x = Ok (Some (j, mu)) -> eval_vector m root d f x = UB.
Proof.
  intros m fuel root d f x j mu W H L LV D E. destruct (C119_sound m fuel root x W H) as (r & E' & S). rewrite E in E'. injection E' as <-. destruct (S j mu eq_refl) as (p & q & s & (i0 & i1 & i2 & T & P0 & P1 & P2) & _ & _). unfold eval_vector. rewrite E. destruct mu as [[mu0 mu1] mu2]. cbn [bind]. unfold vget at 1. rewrite T. cbn [of_option bind].
  assert (F : forall k z, nth_error (vertex_coords m) k = Some z -> exists w, nth_error f k = Some w /\ length w = d). { intros k z K. destruct (nth_error f k) as [w|] eqn:Q; [exists w; split; [reflexivity|apply LV; apply nth_error_In with k; exact Q]|]. apply nth_error_None in Q. assert (k < length (vertex_coords m))%nat by (apply nth_error_Some; congruence). lia. }
  destruct (F _ _ P0) as (f0 & F0 & L0). destruct (F _ _ P1) as (f1 & F1 & L1). destruct (F _ _ P2) as (f2 & F2 & L2). unfold vget at 1 2 3. rewrite F0, F1, F2. cbn [of_option bind].
  destruct D as [->|[->|D]].
  - destruct f0 as [|a [|b f0]]; try discriminate L0. reflexivity.
  - destruct f0 as [|a [|b [|c f0]]]; try discriminate L0. reflexivity.
  - destruct f0 as [|a0 [|b0 [|c0 f0]]]; cbn [length] in L0; try lia. destruct f1 as [|a1 [|b1 [|c1 f1]]]; cbn [length] in L1; try lia. destruct f2 as [|a2 [|b2 [|c2 f2]]]; cbn [length] in L2; try lia. destruct d as [|[|[|[|d]]]]; try lia. reflexivity.
Qed.
Print Assumptions C120_vector_undefined_refuted.
(** with three components, a constant field (a, b, c) gives three equal components *)
Theorem C120_vector_constant_refuted : forall m fuel root a b c x, well_formed m -> initialize fuel m = Ok root -> forall j mu, locate m root x = Ok (Some (j, mu)) ->
  let '(mu0, mu1, mu2) := mu in let y := a * mu0 + b * mu1 + c * mu2 in eval_vector m root 3 (repeat [a; b; c] (length (vertex_coords m))) x = Ok (Some [y; y; y]).
Proof.
  intros m fuel root a b c x W H j mu E. destruct (C119_sound m fuel root x W H) as (r & E' & S). rewrite E in E'. injection E' as <-. destruct (S j mu eq_refl) as (p & q & s & (i0 & i1 & i2 & T & P0 & P1 & P2) & _ & _). unfold eval_vector. rewrite E. destruct mu as [[mu0 mu1] mu2]. cbn [bind]. unfold vget at 1. rewrite T. cbn [of_option bind].
  assert (F : forall k z, nth_error (vertex_coords m) k = Some z -> nth_error (repeat [a; b; c] (length (vertex_coords m))) k = Some [a; b; c]). { intros k z K. apply nth_error_repeat. apply nth_error_Some. congruence. }
  unfold vget at 1 2 3. rewrite (F _ _ P0), (F _ _ P1), (F _ _ P2). cbn [of_option bind]. reflexivity.
Qed.
Print Assumptions C120_vector_constant_refuted.

(** ** Examples *)
(** the unit square, cut along a diagonal *)
Definition square : mesh := {| vertex_coords := [(0, 0); (1, 0); (1, 1); (0, 1)]; triangles := [(0, 1, 2); (0, 2, 3)]%nat |}.
Lemma one_le_max : 1 <= double_max.
Proof.
  assert (1 <= 2 ^ 52) by (apply pow_R1_Rle; lra). assert (1 <= 2 ^ 1023) by (apply pow_R1_Rle; lra). assert (/ 2 ^ 52 <= 1) by (rewrite <- Rinv_1; apply Rinv_le_contravar; lra).
  unfold double_max. generalize dependent (/ 2 ^ 52). generalize dependent (2 ^ 1023). intros u U v V. assert (0 <= (1 - v) * u) by (apply Rmult_le_pos; lra). lra.
Qed.
Lemma square_triangle i p q r : triangle square i p q r -> i = 0%nat /\ p = (0, 0) /\ q = (1, 0) /\ r = (1, 1) \/ i = 1%nat /\ p = (0, 0) /\ q = (1, 1) /\ r = (0, 1).
Proof.
  intros (a & b & c & T & P & Q & U). destruct i as [|[|[|i]]]; cbn in T; try discriminate T; injection T as <- <- <-; cbn in P, Q, U; injection P as <-; injection Q as <-; injection U as <-; [left|right]; auto.
Qed.
Example C118_example : well_formed square /\ (forall i j c, centroid square i c -> centroid square j c -> i = j) /\ exists root, initialize 3 square = Ok root.
Proof.
  assert (W : well_formed square).
  { split.
    - intros i t T. destruct i as [|[|[|i]]]; cbn in T; try discriminate T; injection T as <-; (do 3 eexists); (do 3 eexists); (split; [reflexivity|]); (split; [reflexivity|]); split; reflexivity.
    - pose proof one_le_max. assert (Rabs 0 <= double_max /\ Rabs 1 <= double_max) by (rewrite Rabs_R0, Rabs_R1; lra). intros x X. cbn in X. destruct X as [<-|[<-|[<-|[<-|[]]]]]; cbn [fst snd]; tauto. }
  split; [exact W|]. split.
  - intros i j c (p & q & r & T & E) (p' & q' & r' & T' & E'). apply square_triangle in T. apply square_triangle in T'. destruct T as [(-> & -> & -> & ->)|(-> & -> & -> & ->)]; destruct T' as [(-> & -> & -> & ->)|(-> & -> & -> & ->)]; try reflexivity; rewrite E in E'; cbn [weighted fst snd] in E'; injection E' as E1 _; exfalso; lra.
  - destruct (boxes_spec square W) as (l & EL & LL & SL). unfold initialize. rewrite EL. cbn [bind]. pose proof (global_spec _ (proj2 W) _ eq_refl) as (CB & _).
    assert (B : forall u v, 0 <= u <= 1 -> 0 <= v <= 1 -> Rmin (Rmin (Rmin (Rmin double_max 0) u) 1) v = 0 /\ True) by (intros; split; [|exact I]; pose proof one_le_max; unfold Rmin; repeat destruct Rle_dec; lra).
    pose proof one_le_max as OM.
    assert (G : B0 (global_bounds (vertex_coords square)) - A0 (global_bounds (vertex_coords square)) = 1 /\ B1 (global_bounds (vertex_coords square)) - A1 (global_bounds (vertex_coords square)) = 1).
    { unfold global_bounds. cbn [square vertex_coords fold_left update_centroid bound empty_box A0 A1 B0 B1 fst snd]. generalize dependent double_max. intros M _ OM. rewrite (Rmin_right M), (Rmax_right (- M)) by lra. split; unfold Rmin, Rmax; repeat destruct Rle_dec; lra. }
    apply (subdivide_terminates (1 / 3)); [lra|exact CB|discriminate| | |].
    + destruct l as [|e [|f [|g l]]]; try discriminate LL. assert (T0 : triangle square 0 (0, 0) (1, 0) (1, 1)) by (exists 0%nat, 1%nat, 2%nat; cbn; auto). assert (T1 : triangle square 1 (0, 0) (1, 1) (0, 1)) by (exists 0%nat, 2%nat, 3%nat; cbn; auto).
      destruct (proj1 (SL 0%nat e) eq_refl) as (p & q & r & T & ->). destruct (triangle_unique _ _ _ _ _ _ _ _ T T0) as (-> & -> & ->). destruct (proj1 (SL 1%nat f) eq_refl) as (p & q & r & T' & ->). destruct (triangle_unique _ _ _ _ _ _ _ _ T' T1) as (-> & -> & ->).
      constructor; [constructor; [|constructor]|constructor; [constructor|constructor]]. left. unfold box_of. cbn [C0 fst snd]. rewrite Rabs_right; lra.
    + rewrite (proj1 G). lra.
    + rewrite (proj2 G). lra.
Qed.
(** (1/2, 1/4) is found; (1, 1/2) is in a triangle but is not *)
Example C119_example : exists root, initialize 3 square = Ok root /\ (exists j nu, locate square root (1 / 2, 1 / 4) = Ok (Some (j, nu))) /\ in_triangle square 0 (1, 1 / 2) (0, 1 / 2, 1 / 2) /\ locate square root (1, 1 / 2) = Ok None.
Proof.
  destruct C118_example as (W & _ & root & H). exists root. split; [exact H|]. assert (T0 : triangle square 0 (0, 0) (1, 0) (1, 1)) by (exists 0%nat, 1%nat, 2%nat; cbn; auto). split; [|split].
  - apply (C119_complete_partial square 3 root _ 0 (1 / 2, 1 / 4, 1 / 4) (0, 0) (1, 0) (1, 1) W H); [|exact T0| |].
    + exists (0, 0), (1, 0), (1, 1). split; [exact T0|]. split; [unfold area; cbn [fst snd]; lra|]. cbn [barycentric weighted fst snd]. repeat split; try lra. f_equal; lra.
    + cbn [fst snd]. unfold max3, Rmax. repeat destruct Rle_dec; lra.
    + cbn [fst snd]. unfold max3, Rmax. repeat destruct Rle_dec; lra.
  - exists (0, 0), (1, 0), (1, 1). split; [exact T0|]. split; [unfold area; cbn [fst snd]; lra|]. cbn [barycentric weighted fst snd]. repeat split; try lra. f_equal; lra.
  - apply (C119_boundary_refuted square 3); [exact W|exact H|cbn; lia|]. left. intros y Y. cbn in Y. destruct Y as [<-|[<-|[<-|[<-|[]]]]]; cbn [fst]; lra.
Qed.
(** the same triangle twice: the locator is never built *)
Example C118_twice_example : forall fuel, initialize fuel {| vertex_coords := [(0, 0); (1, 0); (0, 1)]; triangles := [(0, 1, 2); (1, 2, 0)]%nat |} = OutOfFuel.
Proof.
  intros fuel. apply (C118_same_centroid_refuted _ 0 1 (0, 0) (1, 0) (0, 1) (1, 0) (0, 1) (0, 0)); [|lia|exists 0%nat, 1%nat, 2%nat; cbn; auto|exists 1%nat, 2%nat, 0%nat; cbn; auto|unfold area; cbn [fst snd]; lra|cbn [weighted fst snd]; f_equal; lra].
  split.
  - intros i t T. destruct i as [|[|[|i]]]; cbn in T; try discriminate T; injection T as <-; (do 3 eexists); (do 3 eexists); (split; [reflexivity|]); (split; [reflexivity|]); split; reflexivity.
  - pose proof one_le_max. assert (Rabs 0 <= double_max /\ Rabs 1 <= double_max) by (rewrite Rabs_R0, Rabs_R1; lra). intros x X. cbn in X. destruct X as [<-|[<-|[<-|[]]]]; cbn [fst snd]; tauto.
Qed.
(** the constant field (1, 2, 3) is evaluated to three equal numbers *)
Example C120_example : exists root y, initialize 3 square = Ok root /\ eval_vector square root 3 (repeat [1; 2; 3] 4) (1 / 2, 1 / 4) = Ok (Some [y; y; y]).
Proof.
  destruct C119_example as (root & H & (j & [[mu0 mu1] mu2] & L) & _). destruct C118_example as (W & _). pose proof (C120_vector_constant_refuted square 3 root 1 2 3 _ W H j _ L) as E. cbv zeta in E. exists root. eexists. split; [exact H|exact E].
Qed.
