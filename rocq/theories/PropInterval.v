(** C36, C37: intervals.  [closed_history], [join_history], [points], [finite], [value] are in IntervalSpec.v. *)
From Verif Require Import Base Interval IntervalSpec IntervalProofs.
Local Open Scope Z_scope.

Theorem C36_contains : forall linf uinf d P, linf < uinf -> closed_history linf uinf d P ->
  forall x, finite linf uinf x -> d_contains linf uinf d x = true <-> P x.
Proof.
  intros linf uinf d P Hb H x F. destruct (closed_history_spec linf uinf Hb d P H) as [[G S] E].
  rewrite d_contains_good by assumption. apply E, F.
Qed.
Print Assumptions C36_contains.

(** no point lies in two stored subintervals *)
Theorem C36_disjoint : forall linf uinf d P, linf < uinf -> closed_history linf uinf d P ->
  forall m n i j x, nth_error d m = Some i -> nth_error d n = Some j -> m <> n -> finite linf uinf x ->
    iv_contains linf uinf i x = true -> iv_contains linf uinf j x = true -> False.
Proof.
  intros linf uinf d P Hb H. destruct (closed_history_spec linf uinf Hb d P H) as [[G S] _].
  assert (W : forall m n i j x, (m < n)%nat -> nth_error d m = Some i -> nth_error d n = Some j -> finite linf uinf x ->
    iv_contains linf uinf i x = true -> iv_contains linf uinf j x = true -> False).
  { intros m n i j x L Hm Hn F Ci Cj. rewrite Forall_forall in G.
    apply contains_cl in Ci; [|apply G; eapply nth_error_In; eassumption|exact F].
    apply contains_cl in Cj; [|apply G; eapply nth_error_In; eassumption|exact F].
    clear H G F P. revert m n L Hm Hn. induction S as [|a d S IH Fa]; intros m n L Hm Hn; [destruct m; discriminate|].
    destruct n as [|n]; [lia|]. cbn in Hn. destruct m as [|m]; cbn in Hm.
    - inversion Hm; subst a. rewrite Forall_forall in Fa. specialize (Fa j (nth_error_In _ _ Hn)). unfold sep in Fa. lia.
    - apply (IH m n); auto. lia. }
  intros m n i j x Hm Hn N F Ci Cj. destruct (Nat.lt_total m n) as [L|[L|L]]; [eapply (W m n); eauto|contradiction|eapply (W n m); eauto].
Qed.
Print Assumptions C36_disjoint.

Lemma common_point : forall linf uinf l u l' u', (exists x, finite linf uinf x) -> value linf uinf l -> value linf uinf u -> value linf uinf l' -> value linf uinf u' ->
  (l < u \/ l = u /\ finite linf uinf l) -> (l' < u' \/ l' = u' /\ finite linf uinf l') -> l <= u' -> l' <= u ->
  exists x, finite linf uinf x /\ l <= x <= u /\ l' <= x <= u'.
Proof.
  intros linf uinf l u l' u' [f F] (? & ?) (? & ?) (? & ?) (? & ?) A B C D. unfold finite in *.
  destruct (Z_lt_dec linf (Z.max l l')).
  - destruct (Z_lt_dec (Z.max l l') uinf); [exists (Z.max l l'); lia|exfalso; lia].
  - destruct (Z_lt_dec (Z.min u u') uinf); [exists (Z.min u u'); lia|exists f; lia].
Qed.

(** [overlaps(i)] tells whether some point of the set lies in [i] *)
Theorem C36_overlaps : forall linf uinf d P l u, (exists x, finite linf uinf x) -> closed_history linf uinf d P ->
  value linf uinf l -> value linf uinf u -> (l < u \/ l = u /\ finite linf uinf l) ->
  d_overlaps linf uinf d (iv l u) = true <-> exists x, finite linf uinf x /\ P x /\ l <= x <= u.
Proof.
  intros linf uinf d P l u EF H Vl Vu N. assert (Hb : linf < uinf) by (destruct EF as [x F]; unfold finite in F; lia).
  destruct (closed_history_spec linf uinf Hb d P H) as [[G S] E]. rewrite Forall_forall in G.
  assert (C : cl linf uinf (iv l u)) by (unfold cl; cbn; intuition; discriminate).
  unfold d_overlaps. rewrite existsb_exists. split.
  - intros (j & Hj & O). apply overlaps_cl in O; auto. cbn in O. destruct (G j Hj) as (V1 & V2 & V3 & _).
    destruct (common_point linf uinf l u (lo j) (up j) EF Vl Vu V1 V2 N V3) as (x & F & K1 & K2); [lia|lia|].
    exists x. split; [exact F|]. split; [apply E; [exact F|exists j; auto]|exact K1].
  - intros (x & F & K1 & K2). apply E in K1; [|exact F]. destruct K1 as (j & Hj & K). exists j. split; [exact Hj|]. apply overlaps_cl; auto. cbn. lia.
Qed.
Print Assumptions C36_overlaps.

(** [empty()] tells whether the set is empty *)
Theorem C36_empty : forall linf uinf d P, (exists x, finite linf uinf x) -> closed_history linf uinf d P ->
  d_is_empty d = true <-> forall x, finite linf uinf x -> ~ P x.
Proof.
  intros linf uinf d P EF H. assert (Hb : linf < uinf) by (destruct EF as [x F]; unfold finite in F; lia).
  destruct (closed_history_spec linf uinf Hb d P H) as [[G S] E]. destruct d as [|i d]; cbn [d_is_empty].
  - split; [|reflexivity]. intros _ x F K. apply E in K; [|exact F]. destruct K as (? & [] & _).
  - split; [discriminate|]. intros N. exfalso. inversion G as [|? ? (V1 & V2 & V3 & _) _]; subst.
    destruct (common_point linf uinf (lo i) (up i) (lo i) (up i) EF V1 V2 V1 V2 V3 V3) as (x & F & K1 & K2); [lia|lia|].
    apply (N x F), E; [exact F|]. exists i. split; [left; reflexivity|exact K1].
Qed.
Print Assumptions C36_empty.

(** -100 and 100 as extreme values: ([1,3] u [5,7] u [2,6] u [20,inf]) n [4,25] minus nothing *)
Example C36_nonvacuous : closed_history (-100) 100
    (d_intersect (-100) 100 (d_join (-100) 100 (d_join (-100) 100 (d_join (-100) 100 (d_range 1 3) (iv 5 7)) (iv 2 6)) (iv 20 100)) (iv 4 25))
    (fun x => (((1 <= x <= 3 \/ 5 <= x <= 7) \/ 2 <= x <= 6) \/ 20 <= x <= 100) /\ 4 <= x <= 25) /\
  map (d_contains (-100) 100 (d_intersect (-100) 100 (d_join (-100) 100 (d_join (-100) 100 (d_join (-100) 100 (d_range 1 3) (iv 5 7)) (iv 2 6)) (iv 20 100)) (iv 4 25))) [3; 4; 7; 8; 19; 20; 25; 26]
  = [false; true; true; false; false; true; true; false].
Proof.
  split; [|reflexivity]. apply (ch_inter (-100) 100 _ (fun x => ((1 <= x <= 3 \/ 5 <= x <= 7) \/ 2 <= x <= 6) \/ 20 <= x <= 100)); [split; lia..|].
  apply (ch_join (-100) 100 _ (fun x => (1 <= x <= 3 \/ 5 <= x <= 7) \/ 2 <= x <= 6)); [split; lia..|].
  apply (ch_join (-100) 100 _ (fun x => 1 <= x <= 3 \/ 5 <= x <= 7)); [split; lia..|].
  apply (ch_join (-100) 100 _ (fun x => 1 <= x <= 3)); [split; lia..|]. apply ch_range; [split; lia..|lia].
Qed.

(** ** C37: open and half-open ends *)

(** a single intersection is exact whatever the ends ... *)
Theorem C37_intersect_exact : forall linf uinf i j, linf < uinf ->
  (forall k, k = i \/ k = j -> value linf uinf (lo k) /\ value linf uinf (up k) /\ (lo k < up k \/ lo k = up k /\ finite linf uinf (lo k) /\ lof k = false /\ upf k = false)) ->
  forall x, finite linf uinf x -> iv_contains linf uinf (iv_intersect linf uinf i j) x = true <-> points i x /\ points j x.
Proof.
  intros linf uinf i j Hb H x F. destruct (intersect_proper linf uinf i j (H i (or_introl eq_refl)) (H j (or_intror eq_refl))) as [[Q|[L U]] P].
  - rewrite contains_proper by assumption. apply P, F.
  - rewrite <- (P x F). unfold iv_contains, iv_singleton, points. unfold finite in F. rewrite L, U.
    destruct (Z.eqb_spec uinf linf); [lia|]. destruct (Z.eqb_spec x uinf); [lia|]. destruct (Z.eqb_spec x linf); [lia|]. cbn [andb].
    split; [intros K; apply andb_true_iff in K; rewrite !Z.ltb_lt in K; lia|]. destruct (lof (iv_intersect linf uinf i j)), (upf (iv_intersect linf uinf i j)); intros K; lia.
Qed.
Print Assumptions C37_intersect_exact.
Example C37_intersect_nonvacuous : map (iv_contains (-9) 9 (iv_intersect (-9) 9 (set_flags (iv 0 5) true false) (set_flags (iv 2 7) true true))) [2; 3; 5; 6] = [false; true; true; false].
Proof. reflexivity. Qed.

(** ... and after any sequence of joins of intervals with more than one point, [contains] is right
    everywhere except possibly at the ends of the intervals joined. *)
Theorem C37_joins_partial : forall linf uinf d P E, linf < uinf -> join_history linf uinf d P E ->
  forall x, ~ In x E -> d_contains linf uinf d x = true <-> P x.
Proof.
  intros linf uinf d P E Hb H x N. destruct (join_history_spec linf uinf d P E H) as ([G S] & IE & W).
  rewrite <- (W x N). unfold d_contains, inno. rewrite existsb_exists. rewrite Forall_forall in G.
  split; intros (i & Hi & K); exists i; (split; [exact Hi|]); destruct (IE i Hi);
    (apply (contains_op linf uinf i x (G i Hi)) in K || apply (contains_op linf uinf i x (G i Hi))); auto; intros ->; contradiction.
Qed.
Print Assumptions C37_joins_partial.
Example C37_joins_nonvacuous : join_history (-99) 99 (d_join (-99) 99 (d_join (-99) 99 [] (set_flags (iv 0 20) true true)) (set_flags (iv 10 30) false true))
   (fun x => (False \/ points (set_flags (iv 0 20) true true) x) \/ points (set_flags (iv 10 30) false true) x) [10; 30; 0; 20] /\
  d_contains (-99) 99 (d_join (-99) 99 (d_join (-99) 99 [] (set_flags (iv 0 20) true true)) (set_flags (iv 10 30) false true)) 20 = true.
Proof.
  split; [|reflexivity]. apply (jh_join (-99) 99 _ (fun x => False \/ points (set_flags (iv 0 20) true true) x) [0; 20] (set_flags (iv 10 30) false true)); cbn; [split; lia..|lia|].
  apply (jh_join (-99) 99 [] (fun _ => False) [] (set_flags (iv 0 20) true true)); cbn; [split; lia..|lia|constructor].
Qed.

(** joining [0,2) to [1,3] gives [0,3): the end 3 is lost *)
Theorem C37_join_flags_refuted : ~ (forall linf uinf i j, finite linf uinf (lo i) -> finite linf uinf (up i) -> finite linf uinf (lo j) -> finite linf uinf (up j) ->
  lo i < up i -> lo j < up j -> forall x, finite linf uinf x ->
  d_contains linf uinf (d_join linf uinf (d_join linf uinf [] i) j) x = true <-> points i x \/ points j x).
Proof.
  intros G. specialize (G (-9) 9 (iv 1 3) (set_flags (iv 0 2) false true)). cbn [lo up iv set_flags] in G. unfold finite in G.
  assert (K := proj2 (G ltac:(lia) ltac:(lia) ltac:(lia) ltac:(lia) ltac:(lia) ltac:(lia) 3 ltac:(lia))).
  vm_compute in K. enough (false = true) by discriminate. apply K. left; split; discriminate.
Qed.
Print Assumptions C37_join_flags_refuted.
(** joining (0,2) to {0} adds nothing at all: the set already has an element with lower end 0 *)
Theorem C37_join_dropped_refuted : ~ (forall linf uinf i j, finite linf uinf (lo i) -> finite linf uinf (up i) -> finite linf uinf (lo j) -> finite linf uinf (up j) ->
  i = iv (lo i) (lo i) -> lo j < up j -> forall x, finite linf uinf x -> lo j < x < up j ->
  d_contains linf uinf (d_join linf uinf (d_join linf uinf [] i) j) x = true).
Proof.
  intros G. specialize (G (-9) 9 (iv 0 0) (set_flags (iv 0 2) true true)). cbn [lo up iv set_flags] in G. unfold finite in G.
  specialize (G ltac:(lia) ltac:(lia) ltac:(lia) ltac:(lia) eq_refl ltac:(lia) 1 ltac:(lia) ltac:(lia)). discriminate.
Qed.
Print Assumptions C37_join_dropped_refuted.
(** intersecting [0,1] u (1,3) with [1,4] loses 2 for the same reason *)
Theorem C37_intersect_dropped_refuted : ~ (forall linf uinf d i, linf < uinf -> 
  (exists P E, join_history linf uinf d P E) -> lo i < up i -> finite linf uinf (lo i) -> finite linf uinf (up i) ->
  forall x, finite linf uinf x -> lo i < x < up i -> d_contains linf uinf d x = true -> d_contains linf uinf (d_intersect linf uinf d i) x = true).
Proof.
  intros G. specialize (G (-9) 9 (d_join (-9) 9 (d_join (-9) 9 [] (iv 0 1)) (set_flags (iv 1 3) true true)) (iv 1 4)). cbn [lo up iv] in G. unfold finite in G.
  assert (K : d_contains (-9) 9 (d_intersect (-9) 9 (d_join (-9) 9 (d_join (-9) 9 [] (iv 0 1)) (set_flags (iv 1 3) true true)) (iv 1 4)) 2 = true); [|discriminate].
  apply G; [lia| |lia|lia|lia|lia|lia|reflexivity].
  eexists _, _. refine (jh_join (-9) 9 (d_join (-9) 9 [] (iv 0 1)) _ _ (set_flags (iv 1 3) true true) _ _ _ (jh_join (-9) 9 [] _ _ (iv 0 1) _ _ _ (jh_empty (-9) 9))); try (cbn; lia); split; cbn; lia.
Qed.
Print Assumptions C37_intersect_dropped_refuted.

(** [set_lower_inf] makes the interval unbounded below when the type has an infinity ... *)
Theorem C37_lower_inf : forall linf uinf i x, finite linf uinf x -> finite linf uinf (up i) ->
  iv_contains linf uinf (set_lower_inf linf true i) x = true <-> (if upf i then x < up i else x <= up i).
Proof.
  intros linf uinf [l u a b] x [F1 F2] [U1 U2]. cbn in *. unfold iv_contains, iv_singleton, lopen, uopen; cbn [lo up lof upf set_lower_inf].
  rewrite Z.eqb_refl. cbn. destruct (Z.eqb_spec linf u); [lia|]. destruct (Z.eqb_spec u uinf); [lia|]. destruct (Z.eqb_spec x linf); [lia|]. cbn [andb].
  destruct b; cbn [negb andb]; rewrite ?andb_false_r, ?andb_true_r.
  - rewrite andb_true_iff, !Z.ltb_lt. lia.
  - destruct (Z.eqb_spec x u); [split; [lia|reflexivity]|]. rewrite andb_true_iff, !Z.ltb_lt. lia.
Qed.
Print Assumptions C37_lower_inf.
(** ... but for integer types it overwrites the upper end *)
Theorem C37_lower_inf_refuted : ~ (forall linf uinf i x, finite linf uinf x -> finite linf uinf (lo i) -> finite linf uinf (up i) ->
  x < up i -> iv_contains linf uinf (set_lower_inf linf false i) x = true).
Proof.
  intros G. specialize (G (-9) 9 (iv 0 5) 2). cbn [lo up iv] in G. unfold finite in G.
  specialize (G ltac:(lia) ltac:(lia) ltac:(lia) ltac:(lia)). discriminate.
Qed.
Print Assumptions C37_lower_inf_refuted.
Example C37_lower_inf_nonvacuous : iv_contains (-9) 9 (set_lower_inf (-9) true (set_flags (iv 0 5) false true)) (-3) = true /\ iv_contains (-9) 9 (set_lower_inf (-9) true (set_flags (iv 0 5) false true)) 5 = false.
Proof. split; reflexivity. Qed.

(** ** C58: [empty()] and [contains()] *)
(** A non-empty interval contains what lies strictly between its ends; an empty interval contains no point other
    than its ends. *)
Theorem C58_empty_partial : forall linf uinf i x,
  (iv_empty linf uinf i = true -> x <> lo i -> x <> up i -> iv_contains linf uinf i x = false) /\
  (lo i < x < up i -> iv_empty linf uinf i = false /\ iv_contains linf uinf i x = true).
Proof.
  intros linf uinf i x. unfold iv_empty, iv_contains, iv_singleton. split.
  - intros E N1 N2. destruct (Z.eqb_spec x (lo i)); [lia|]. destruct (Z.eqb_spec x (up i)); [lia|]. cbn [andb] in *.
    destruct (Z.ltb_spec (up i) (lo i)).
    + destruct (Z.eqb_spec (lo i) (up i)); [lia|]. cbn. destruct (Z.ltb_spec (lo i) x), (Z.ltb_spec x (up i)); cbn; (reflexivity || lia).
    + destruct (Z.eqb_spec (lo i) (up i)); [|discriminate]. cbn [andb] in *. destruct (negb (lopen linf i) && negb (uopen uinf i)); [reflexivity|].
      destruct (Z.ltb_spec (lo i) x), (Z.ltb_spec x (up i)); cbn; (reflexivity || lia).
  - intros L. destruct (Z.ltb_spec (up i) (lo i)); [lia|]. destruct (Z.eqb_spec (lo i) (up i)); [lia|]. cbn [andb]. split; [reflexivity|].
    destruct (Z.eqb_spec x (lo i)); [lia|]. destruct (Z.eqb_spec x (up i)); [lia|]. cbn [andb]. rewrite andb_true_iff, !Z.ltb_lt. lia.
Qed.
Print Assumptions C58_empty_partial.
(** A reversed closed interval reports [empty()] and yet contains its two ends; so does [1,1). *)
Theorem C58_empty_refuted : ~ (forall linf uinf l u x, finite linf uinf l -> finite linf uinf u -> iv_empty linf uinf (iv l u) = true -> iv_contains linf uinf (iv l u) x = false) /\
  ~ (forall linf uinf i x, finite linf uinf (lo i) -> lo i = up i -> iv_empty linf uinf i = true -> iv_contains linf uinf i x = false).
Proof.
  split; intros G.
  - specialize (G (-9) 9 5 3 5). unfold finite in G. specialize (G ltac:(lia) ltac:(lia) eq_refl). discriminate.
  - specialize (G (-9) 9 (set_flags (iv 1 1) false true) 1). cbn [lo up iv set_flags] in G. unfold finite in G. specialize (G ltac:(lia) eq_refl eq_refl). discriminate.
Qed.
Print Assumptions C58_empty_refuted.
Example C58_nonvacuous : iv_empty (-9) 9 (iv 5 3) = true /\ iv_contains (-9) 9 (iv 5 3) 4 = false /\ iv_contains (-9) 9 (iv 5 8) 6 = true.
Proof. repeat split. Qed.
