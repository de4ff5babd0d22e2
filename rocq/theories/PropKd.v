(** C49, C62, C63: nearest-point search in a kd-tree.  [minimal], [rounding], [nth_element_ok], [coord], [euclid2] are in KdSpec.v. *)
From Verif Require Import Base UnionFind NdArray Kd KdSpec KdProofs.
From Coq Require Import QArith Qround Permutation.
Local Open Scope nat_scope. Local Open Scope list_scope.
(** every call of nth_element returns an arrangement the standard allows *)
Definition outcomes (n : nat) (pts : list (nat -> Q)) (ne : nat -> nat -> list nat -> list nat) : Prop :=
  forall level offset seg, (forall i, In i seg -> i < length pts) -> nth_element_ok pts (level mod n) (length seg / 2) seg (ne level offset seg).

(** exact arithmetic *)
Theorem C49_nearest : forall n pts ne lim x, 0 < n -> pts <> [] -> length pts <= 2 ^ lim -> outcomes n pts ne ->
  exists t i, build pts ne lim = Ok t /\ find_nearest id n pts t x = Ok i /\ minimal (euclid2 n x) pts i.
Proof.
  intros n pts ne lim x Hn NE L O. destruct (build_ok n pts ne Hn O lim NE) as (t & _ & E & _). exists t.
  destruct (find_nearest_ok id n pts ne Hn O rounding_id lim t x L E) as (i & Ei & p & Np & M). exists i. split; [exact E|]. split; [exact Ei|]. exists p. split; [exact Np|].
  intros q J. rewrite <- !dist2_exact. apply M, J.
Qed.
(** rounded arithmetic: minimal with respect to the distances as they are computed *)
Theorem C49_nearest_rounded : forall rnd n pts ne lim x, rounding rnd -> 0 < n -> pts <> [] -> length pts <= 2 ^ lim -> outcomes n pts ne ->
  exists t i, build pts ne lim = Ok t /\ find_nearest rnd n pts t x = Ok i /\ minimal (dist2 rnd n x) pts i.
Proof.
  intros rnd n pts ne lim x R Hn NE L O. destruct (build_ok n pts ne Hn O lim NE) as (t & _ & E & _). exists t.
  destruct (find_nearest_ok rnd n pts ne Hn O R lim t x L E) as (i & Ei & M). exists i. auto.
Qed.
(** the same distance as the brute-force search, whenever no distance exceeds the largest number *)
Theorem C49_as_naive : forall rnd n pts ne lim x fmax, rounding rnd -> 0 < n -> pts <> [] -> length pts <= 2 ^ lim -> outcomes n pts ne ->
  (forall q, In q pts -> (dist2 rnd n x q <= fmax)%Q) ->
  exists t i p q, build pts ne lim = Ok t /\ find_nearest rnd n pts t x = Ok i /\ nth_error pts i = Some p /\
    nth_error pts (find_nearest_naive rnd n pts fmax x) = Some q /\ (dist2 rnd n x p == dist2 rnd n x q)%Q /\ minimal (dist2 rnd n x) pts (find_nearest_naive rnd n pts fmax x).
Proof.
  intros rnd n pts ne lim x fmax R Hn NE L O Hf. destruct (C49_nearest_rounded rnd n pts ne lim x R Hn NE L O) as (t & i & E & Ei & p & Np & M).
  assert (Na := naive_ok rnd n fmax pts x NE Hf). destruct Na as (q & Nq & Mq). exists t, i, p, q. repeat (split; [assumption|]). split.
  - apply Qle_antisym; [apply M; eapply nth_error_In; exact Nq|apply Mq; eapply nth_error_In; exact Np].
  - exists q. auto.
Qed.
(** the default level limit (the largest size_t) is large enough for any number of points *)
Theorem C49_default_limit : forall npts, npts <= 2 ^ npts.
Proof. intros k. apply Nat.lt_le_incl, Nat.pow_gt_lin_r. lia. Qed.
(** valid outcomes exist for every point set, and a rounding function other than the identity *)
Theorem C49_outcomes_exist : forall n pts, outcomes n pts (sorting n pts).
Proof. intros n pts level offset seg _. apply sorting_ok. Qed.
Definition round_down (x : Q) : Q := inject_Z (Qfloor x).
Theorem C49_rounding_exists : rounding round_down.
Proof.
  unfold rounding, round_down. split; [|split].
  - intros x y L. rewrite <- Zle_Qle. apply Qfloor_resp_le, L.
  - intros x. rewrite Qfloor_Z. reflexivity.
  - reflexivity.
Qed.
Definition pxy (x y : Z) : nat -> Q := fun k => match k with O => inject_Z x | _ => inject_Z y end.
Definition five : list (nat -> Q) := [pxy 0 0; pxy 4 1; pxy 1 5; pxy 1 3; pxy 1 (-2)].
Example C49_example : exists t, build five (sorting 2 five) 3 = Ok t /\ find_nearest id 2 five t (pxy 2 5) = Ok 2 /\ find_nearest id 2 five t (pxy 2 (-1)) = Ok 4.
Proof. eexists. split; [reflexivity|]. split; vm_compute; reflexivity. Qed.

(** C62: find_leaf *)
Definition leaf_of_point (n : nat) (pts : list (nat -> Q)) (ne : nat -> nat -> list nat -> list nat) (lim k : nat) : Prop :=
  forall t p, build pts ne lim = Ok t -> nth_error pts k = Some p -> exists c, leaf_rec n pts t p 0 = Ok c /\ is_leaf c = true /\ node_id c = k.
Theorem C62_leaf_partial : forall n pts ne lim k, 0 < n -> length pts <= 2 ^ lim -> outcomes n pts ne ->
  (forall j a, j < length pts -> a < n -> (coord pts j a == coord pts k a)%Q -> j = k) -> leaf_of_point n pts ne lim k.
Proof. intros n pts ne lim k Hn L O D t p E Ek. eapply find_leaf_ok; eauto. Qed.
Definition column : list (nat -> Q) := [pxy 0 0; pxy 0 1].
Theorem C62_shared_coordinate_refuted : ~ (forall n pts ne lim k, 0 < n -> length pts <= 2 ^ lim -> outcomes n pts ne -> NoDup pts -> leaf_of_point n pts ne lim k).
Proof.
  intros H. specialize (H 2 column (sorting 2 column) 1 0 ltac:(lia) ltac:(cbn; lia) (C49_outcomes_exist 2 column)).
  destruct (H ltac:(constructor; [intros [E|[]]; assert (X : pxy 0 1 1 = pxy 0 0 1) by (rewrite E; reflexivity); vm_compute in X; discriminate|constructor; [intros []|constructor]]) _ _ eq_refl eq_refl) as (c & E & _ & C).
  vm_compute in E. injection E as <-. discriminate C.
Qed.
(** C63: a level limit *)
Theorem C63_limit_partial : forall n pts ne lim x, 0 < n -> pts <> [] -> length pts <= 2 ^ lim -> outcomes n pts ne ->
  exists t i, build pts ne lim = Ok t /\ find_nearest id n pts t x = Ok i /\ minimal (euclid2 n x) pts i.
Proof. exact C49_nearest. Qed.
Theorem C63_limit_refuted : ~ (forall n pts ne lim x, 0 < n -> pts <> [] -> outcomes n pts ne ->
  exists t i, build pts ne lim = Ok t /\ find_nearest id n pts t x = Ok i /\ minimal (euclid2 n x) pts i).
Proof.
  intros H. destruct (H 2 column (sorting 2 column) 0 (pxy 0 0) ltac:(lia) ltac:(discriminate) (C49_outcomes_exist 2 column)) as (t & i & E & Ei & p & Np & M).
  vm_compute in E. injection E as <-. vm_compute in Ei. injection Ei as <-. vm_compute in Np. injection Np as <-. specialize (M (pxy 0 0) (or_introl eq_refl)).
  apply Qle_bool_iff in M. vm_compute in M. discriminate M.
Qed.
