(** The part of a surface inside of one cell: the finitely many ways in which the vertices of a tetrahedron can lie on the two sides. *)
From Verif Require Import Base UnionFind RegularMesh CpTracker CpTrackerSpec ContourTracker ContourSpec ContourEdges.
Local Open Scope list_scope.

(** side of a vertex: [None] without a value *)
Definition cross (p : option bool * option bool) : bool := match p with (Some a, Some b) => xorb a b | _ => false end.
Definition found_idx (s : list (option bool)) : list nat := filter (fun j => cross (nth j (pairs s) (None, None))) (seq 0 (length (pairs s))).
Definition map3 (r : nat -> nat) (t : triangle) : triangle := let '(a, b, c) := t in (r a, r b, r c).
Lemma cell_triangles_map r l : cell_triangles (map r l) = let* ts := cell_triangles l in Ok (map (map3 r) ts).
Proof. destruct l as [|a [|b [|c [|d [|e l]]]]]; reflexivity. Qed.

Definition idx_pair (s : list (option bool)) (j : nat) : nat * nat := nth j (pairs (seq 0 (length s))) (0, 0)%nat.
Definition share (s : list (option bool)) (j j' : nat) : bool :=
  let (a, b) := idx_pair s j in let (a', b') := idx_pair s j' in Nat.eqb a a' || Nat.eqb a b' || Nat.eqb b a' || Nat.eqb b b'.
Definition known (s : list (option bool)) : bool := forallb (fun o => match o with Some _ => true | None => false end) s.
Definition count (i j : nat) (ts : list triangle) : nat := length (filter (uses i j) ts).
Definition check4 (s : list (option bool)) : bool :=
  match cell_triangles (found_idx s) with
  | Ok ts =>
      forallb (fun t => known s && forallb (fun j => existsb (Nat.eqb j) (found_idx s)) (corners t) && (let '(a, b, c) := t in negb (Nat.eqb a b) && negb (Nat.eqb a c) && negb (Nat.eqb b c))) ts &&
      forallb (fun j => forallb (fun j' => Nat.eqb j j' ||
        (if known s then if share s j j' then Nat.eqb (count j j' ts) 1 else Nat.eqb (count j j' ts) 0 || Nat.eqb (count j j' ts) 2 else Nat.eqb (count j j' ts) 0)) (found_idx s)) (found_idx s)
  | _ => false
  end.
Lemma check4_all s : length s = 4%nat -> check4 s = true.
Proof. destruct s as [|a [|b [|c [|d [|? ?]]]]]; try discriminate. intros _. destruct a as [[]|], b as [[]|], c as [[]|], d as [[]|]; reflexivity. Qed.

Lemma uses_map3 r i j t : (forall a, In a (corners t) -> (r a = r i -> a = i) /\ (r a = r j -> a = j)) -> uses (r i) (r j) (map3 r t) = uses i j t.
Proof.
  destruct t as [[a b] c]. intros H. unfold uses. cbn [map3 corners existsb].
  assert (E : forall a' x, In a' [a; b; c] -> (x = i \/ x = j) -> Nat.eqb (r x) (r a') = Nat.eqb x a').
  { intros a' x Ha Hx. destruct (H a' Ha) as [H1 H2]. destruct (Nat.eqb_spec (r x) (r a')), (Nat.eqb_spec x a'); auto; try congruence. exfalso. destruct Hx as [-> | ->]; [apply n; symmetry; apply H1; auto|apply n; symmetry; apply H2; auto]. }
  rewrite !E by (cbn; auto). reflexivity.
Qed.
Lemma count_map3 r i j ts : (forall a t, In t ts -> In a (corners t) -> (r a = r i -> a = i) /\ (r a = r j -> a = j)) -> count (r i) (r j) (map (map3 r) ts) = count i j ts.
Proof.
  intros H. unfold count. induction ts as [|t ts IH]; [reflexivity|]. cbn [map filter]. rewrite uses_map3 by (intros; eapply H; [left; reflexivity|assumption]). destruct (uses i j t); cbn [length]; rewrite IH; auto; intros; eapply H; eauto; right; assumption.
Qed.

(** ranks *)
Lemma rank_of_shift {V} (k : key) (m : list (key * V)) : forall i, rank_of k m i = option_map (fun j => (i + j)%nat) (rank_of k m 0).
Proof. induction m as [|[k' v] m IH]; intros i; cbn [rank_of]; [reflexivity|]. destruct (keqb k k'); cbn; [f_equal; lia|]. rewrite (IH (S i)), (IH 1%nat). destruct (rank_of k m 0); cbn; [f_equal; lia|reflexivity]. Qed.
Lemma rank_of_spec {V} (m : list (key * V)) k i : msorted m -> rank_of k m 0 = Some i <-> exists p, nth_error m i = Some (k, p).
Proof.
  intros Ms. revert i. induction m as [|[k' v] m IH]; intros i; cbn [rank_of].
  - split; [discriminate|]. intros (p & Q). destruct i; discriminate.
  - inversion Ms as [|? ? Ms' F]; subst. destruct (keqb k k') eqn:E.
    + apply keqb_eq in E. subst. split; [intros Q; injection Q as <-; exists v; reflexivity|]. intros (p & Q). destruct i as [|i]; [reflexivity|]. exfalso. cbn in Q. apply nth_error_In in Q. rewrite Forall_forall in F.
      apply (klt_irrefl k'). apply F. apply in_map_iff. exists (k', p). auto.
    + apply keqb_neq in E. rewrite rank_of_shift. destruct i as [|i].
      * split; [destruct (rank_of k m 0); cbn; discriminate|]. intros (p & Q). cbn in Q. congruence.
      * cbn [nth_error]. rewrite <- IH by exact Ms'. destruct (rank_of k m 0); cbn; split; congruence.
Qed.
Lemma rank_of_mfind {V} (m : list (key * V)) k : (exists i, rank_of k m 0 = Some i) <-> exists p, mfind k m = Some p.
Proof.
  induction m as [|[k' v] m IH]; cbn [rank_of mfind]; [split; intros (x & Q); discriminate|]. destruct (keqb k k'); [split; eauto|]. rewrite <- IH, rank_of_shift. destruct (rank_of k m 0); cbn; split; intros (x & Q); try discriminate; eauto.
Qed.
Definition rk {V} (m : list (key * V)) (ks : list key) (j : nat) : nat := match rank_of (nth j ks ([], 0%nat)) m 0 with Some i => i | None => 0%nat end.
Lemma edge_ids_idx {V} (m : list (key * V)) ks : forall ps, Forall2 (fun k p => (exists i, rank_of k m 0 = Some i) <-> cross p = true) ks ps ->
  edge_ids m ks = map (rk m ks) (filter (fun j => cross (nth j ps (None, None))) (seq 0 (length ps))).
Proof.
  induction ks as [|k ks IH]; intros ps F; inversion F as [|? p ? ps' H F']; subst; [reflexivity|]. unfold edge_ids in *. cbn [flat_map length seq filter nth]. rewrite (IH ps' F').
  rewrite <- seq_shift. assert (E : map (rk m ks) (filter (fun j => cross (nth j ps' (None, None))) (seq 0 (length ps'))) = map (rk m (k :: ks)) (filter (fun j => cross (nth j (p :: ps') (None, None))) (map S (seq 0 (length ps'))))).
  { clear. induction (seq 0 (length ps')) as [|j l IH]; [reflexivity|]. cbn [map filter]. change (nth (S j) (p :: ps') (None, None)) with (nth j ps' (None, None)). destruct (cross (nth j ps' (None, None))); cbn [map]; rewrite IH; reflexivity. }
  destruct (cross p) eqn:Ep.
  - destruct (proj2 H eq_refl) as (i & Hi). rewrite Hi. cbn [app map]. unfold rk at 2. cbn [nth]. rewrite Hi. rewrite E. reflexivity.
  - destruct (rank_of k m 0) as [i|] eqn:Ei; [assert (false = true) by (apply H; eauto); discriminate|]. cbn [app]. exact E.
Qed.
