(** Lemmas about ParticleTracer.v *)
From Coq Require Import List Arith ZArith Reals Lra Lia Bool.
From Verif Require Import Numeric Motion ParticleTracer.
Import ListNotations. Local Open Scope R_scope.

(** ** mlerp *)
(** linear interpolation along the last axis between the interpolants of the two slices *)
Fixpoint multilinear (n : nat) (x0 : nat -> nat) (mu : vec) (g : list nat -> R) : R :=
  match n with
  | O => g []
  | S n => (1 - mu n) * multilinear n x0 mu (fun l => g (l ++ [x0 n])) + mu n * multilinear n x0 mu (fun l => g (l ++ [S (x0 n)]))
  end.

Lemma fold_sum (A : Type) (f : A -> R) l a : fold_left (fun v c => v + f c) l a = a + fold_left (fun v c => v + f c) l 0.
Proof. revert a. induction l as [|c l IH]; intros a; cbn; [lra|]. rewrite IH, (IH (0 + f c)). lra. Qed.
Lemma fold_sum_scale (A : Type) (f : A -> R) q l : fold_left (fun v c => v + q * f c) l 0 = q * fold_left (fun v c => v + f c) l 0.
Proof. induction l as [|c l IH]; cbn; [lra|]. rewrite (fold_sum _ (fun c => q * f c)), (fold_sum _ f), IH. lra. Qed.
Lemma fold_sum_ext (A : Type) (f g : A -> R) l : (forall c, In c l -> f c = g c) -> forall a, fold_left (fun v c => v + f c) l a = fold_left (fun v c => v + g c) l a.
Proof. induction l as [|c l IH]; intros H a; cbn; [reflexivity|]. rewrite (H c (or_introl eq_refl)). apply IH. intros; apply H; right; assumption. Qed.
Lemma fold_sum_map (A B : Type) (h : B -> A) (f : A -> R) l : forall a, fold_left (fun v c => v + f c) (map h l) a = fold_left (fun v c => v + f (h c)) l a.
Proof. induction l as [|c l IH]; intros a; cbn; [reflexivity|]. apply IH. Qed.
Lemma seq_map_add m : forall s n, seq (m + s) n = map (fun c => (m + c)%nat) (seq s n).
Proof. intros s n. revert s. induction n as [|n IH]; intros s; cbn; [reflexivity|]. f_equal. rewrite <- IH. f_equal. lia. Qed.
Lemma testbit_low c n i : (c < 2 ^ n)%nat -> (i < n)%nat -> Nat.testbit (2 ^ n + c) i = Nat.testbit c i.
Proof.
  intros Hc Hi. rewrite <- (Nat.mod_pow2_bits_low (2 ^ n + c) n i Hi). f_equal.
  rewrite Nat.add_mod by (apply Nat.pow_nonzero; lia). rewrite Nat.mod_same by (apply Nat.pow_nonzero; lia). cbn. rewrite Nat.mod_mod by (apply Nat.pow_nonzero; lia). apply Nat.mod_small, Hc.
Qed.
Lemma testbit_high c n : (c < 2 ^ n)%nat -> Nat.testbit (2 ^ n + c) n = true.
Proof.
  intros Hc. rewrite Nat.testbit_true. replace (2 ^ n + c)%nat with (c + 1 * 2 ^ n)%nat by lia. rewrite Nat.div_add by (apply Nat.pow_nonzero; lia). rewrite Nat.div_small by exact Hc. reflexivity.
Qed.
Lemma testbit_over c n : (c < 2 ^ n)%nat -> Nat.testbit c n = false.
Proof. intros Hc. rewrite Nat.testbit_false. rewrite Nat.div_small by exact Hc. reflexivity. Qed.
Lemma coef_S n mu cur : corner_coef (S n) mu cur = corner_coef n mu cur * (if Nat.testbit cur n then mu n else 1 - mu n).
Proof. unfold corner_coef. rewrite seq_S, fold_left_app. cbn [fold_left plus]. destruct (Nat.testbit cur n); reflexivity. Qed.
Lemma verts_S n x0 cur : corner_verts (S n) x0 cur = corner_verts n x0 cur ++ [(x0 n + (if Nat.testbit cur n then 1 else 0))%nat].
Proof. unfold corner_verts. rewrite seq_S, map_app. reflexivity. Qed.
Lemma coef_ext n mu c c' : (forall i, (i < n)%nat -> Nat.testbit c i = Nat.testbit c' i) -> corner_coef n mu c = corner_coef n mu c'.
Proof. induction n as [|n IH]; intros H; [reflexivity|]. rewrite !coef_S, IH by (intros; apply H; lia). rewrite (H n) by lia. reflexivity. Qed.
Lemma verts_ext n x0 c c' : (forall i, (i < n)%nat -> Nat.testbit c i = Nat.testbit c' i) -> corner_verts n x0 c = corner_verts n x0 c'.
Proof. induction n as [|n IH]; intros H; [reflexivity|]. rewrite !verts_S, IH by (intros; apply H; lia). rewrite (H n) by lia. reflexivity. Qed.

Lemma corners_multilinear n x0 mu : forall g, fold_left (fun v cur => v + corner_coef n mu cur * g (corner_verts n x0 cur)) (seq 0 (2 ^ n)) 0 = multilinear n x0 mu g.
Proof.
  induction n as [|n IH]; intros g.
  - cbn. lra.
  - cbn [multilinear]. rewrite <- !IH. rewrite Nat.pow_succ_r'. replace (2 * 2 ^ n)%nat with (2 ^ n + 2 ^ n)%nat by lia.
    rewrite seq_app, fold_left_app. cbn [plus]. pose proof (seq_map_add (2 ^ n) 0 (2 ^ n)) as Q. rewrite Nat.add_0_r in Q. rewrite Q, fold_sum_map.
    rewrite (fold_sum _ (fun c => corner_coef (S n) mu (2 ^ n + c) * g (corner_verts (S n) x0 (2 ^ n + c)))). f_equal.
    + rewrite <- fold_sum_scale. apply fold_sum_ext. intros c Hc. apply in_seq in Hc. rewrite coef_S, verts_S, testbit_over by lia. rewrite Nat.add_0_r. ring.
    + rewrite <- fold_sum_scale. apply fold_sum_ext. intros c Hc. apply in_seq in Hc. rewrite coef_S, verts_S, testbit_high by lia.
      rewrite (coef_ext n mu (2 ^ n + c) c), (verts_ext n x0 (2 ^ n + c) c) by (intros; apply testbit_low; lia). rewrite Nat.add_1_r. ring.
Qed.

Lemma in_bounds_spec ds x : forall i, in_bounds ds x i = true <-> forall j, (j < length ds)%nat -> 0 <= x (i + j)%nat < INR (nth j ds 0%nat) - 1.
Proof.
  induction ds as [|d ds IH]; intros i; cbn [in_bounds length].
  - split; [intros _ j Hj; lia|reflexivity].
  - destruct (Rlt_dec (x i) 0) as [H|H]; [|destruct (Rge_dec (x i) (INR d - 1)) as [H'|H']].
    + split; [discriminate|]. intros A. specialize (A 0%nat ltac:(lia)). rewrite Nat.add_0_r in A. lra.
    + split; [discriminate|]. intros A. specialize (A 0%nat ltac:(lia)). rewrite Nat.add_0_r in A. cbn in A. lra.
    + rewrite IH. split.
      * intros A [|j] Hj; [rewrite Nat.add_0_r; cbn; lra|]. specialize (A j ltac:(lia)). rewrite <- Nat.add_succ_comm. exact A.
      * intros A j Hj. specialize (A (S j) ltac:(lia)). rewrite Nat.add_succ_comm. exact A.
Qed.

Lemma floor_spec x : 0 <= x -> INR (floor x) <= x < INR (floor x) + 1.
Proof.
  intros H. unfold floor. destruct (base_Int_part x) as [A B].
  assert (0 <= Int_part x)%Z. { assert (-1 < Int_part x)%Z; [|lia]. apply lt_IZR. lra. }
  rewrite INR_IZR_INZ, Z2Nat.id by assumption. lra.
Qed.
Lemma floor_INR n : floor (INR n) = n.
Proof. destruct (floor_spec (INR n) (pos_INR n)) as [A B]. rewrite <- S_INR in B. apply INR_le in A. apply INR_lt in B. lia. Qed.

(** the sum c_0 l_0 + ... of an affine function on the grid *)
Fixpoint affine_sum (n : nat) (c : vec) (y : vec) : R := match n with O => 0 | S n => affine_sum n c y + c n * y n end.
Lemma affine_sum_ext n c y z : (forall i, (i < n)%nat -> y i = z i) -> affine_sum n c y = affine_sum n c z.
Proof. induction n as [|n IH]; intros H; cbn; [reflexivity|]. rewrite IH by (intros; apply H; lia). rewrite H by lia. reflexivity. Qed.

(** membership of the indices multilinear reads *)
Definition cell_corner (n : nat) (x0 : nat -> nat) (l : list nat) : Prop := length l = n /\ forall i, (i < n)%nat -> nth i l 0%nat = x0 i \/ nth i l 0%nat = S (x0 i).
Lemma cell_corner_snoc n x0 l j : cell_corner n x0 l -> (j = x0 n \/ j = S (x0 n)) -> cell_corner (S n) x0 (l ++ [j]).
Proof.
  intros [L H] Hj. split; [rewrite app_length, L; cbn; lia|]. intros i Hi. destruct (Nat.eq_dec i n) as [->|].
  - rewrite app_nth2 by lia. rewrite L, Nat.sub_diag. exact Hj.
  - rewrite app_nth1 by lia. apply H. lia.
Qed.
Lemma multilinear_ext n x0 mu : forall g h, (forall l, cell_corner n x0 l -> g l = h l) -> multilinear n x0 mu g = multilinear n x0 mu h.
Proof.
  induction n as [|n IH]; intros g h H; cbn.
  - apply H. split; [reflexivity|]. intros; lia.
  - rewrite (IH (fun l => g (l ++ [x0 n])) (fun l => h (l ++ [x0 n]))), (IH (fun l => g (l ++ [S (x0 n)])) (fun l => h (l ++ [S (x0 n)]))); [reflexivity|intros l Hl; apply H, cell_corner_snoc; auto|intros l Hl; apply H, cell_corner_snoc; auto].
Qed.
Lemma multilinear_bounds n x0 mu lo hi : (forall i, (i < n)%nat -> 0 <= mu i <= 1) -> forall g, (forall l, cell_corner n x0 l -> lo <= g l <= hi) -> lo <= multilinear n x0 mu g <= hi.
Proof.
  intros Hm. induction n as [|n IH]; intros g H; cbn.
  - apply H. split; [reflexivity|]. intros; lia.
  - assert (A := IH ltac:(intros; apply Hm; lia) (fun l => g (l ++ [x0 n])) ltac:(intros l Hl; apply H, cell_corner_snoc; auto)).
    assert (B := IH ltac:(intros; apply Hm; lia) (fun l => g (l ++ [S (x0 n)])) ltac:(intros l Hl; apply H, cell_corner_snoc; auto)).
    specialize (Hm n ltac:(lia)). set (a := multilinear n x0 mu _) in *. set (b := multilinear n x0 mu (fun l => g (l ++ [S (x0 n)]))) in *. cbv beta in *. split; nra.
Qed.
Lemma multilinear_const n x0 mu w : forall g, (forall l, cell_corner n x0 l -> g l = w) -> multilinear n x0 mu g = w.
Proof.
  induction n as [|n IH]; intros g H; cbn.
  - apply H. split; [reflexivity|]. intros; lia.
  - rewrite (IH (fun l => g (l ++ [x0 n]))), (IH (fun l => g (l ++ [S (x0 n)]))); [ring|intros l Hl; apply H, cell_corner_snoc; auto|intros l Hl; apply H, cell_corner_snoc; auto].
Qed.
Lemma affine_snoc n c l j : length l = n -> affine_sum (S n) c (fun i => INR (nth i (l ++ [j]) 0%nat)) = affine_sum n c (fun i => INR (nth i l 0%nat)) + c n * INR j.
Proof.
  intros L. cbn. rewrite app_nth2, L, Nat.sub_diag by lia. cbn. f_equal. apply affine_sum_ext. intros i Hi. rewrite app_nth1 by lia. reflexivity.
Qed.
Lemma multilinear_affine n x0 mu c : forall c0 g, (forall l, cell_corner n x0 l -> g l = c0 + affine_sum n c (fun i => INR (nth i l 0%nat))) ->
  multilinear n x0 mu g = c0 + affine_sum n c (fun i => INR (x0 i) + mu i).
Proof.
  induction n as [|n IH]; intros c0 g H; cbn [multilinear].
  - rewrite H by (split; [reflexivity|intros; lia]). reflexivity.
  - rewrite (IH (c0 + c n * INR (x0 n))), (IH (c0 + c n * INR (S (x0 n)))).
    + cbn [affine_sum]. rewrite S_INR. ring.
    + intros l Hl. rewrite H by (apply cell_corner_snoc; auto). rewrite affine_snoc by apply Hl. ring.
    + intros l Hl. rewrite H by (apply cell_corner_snoc; auto). rewrite affine_snoc by apply Hl. ring.
Qed.
Lemma multilinear_corner n x0 mu : (forall i, (i < n)%nat -> mu i = 0) -> forall g, multilinear n x0 mu g = g (map x0 (seq 0 n)).
Proof.
  induction n as [|n IH]; intros Hm g; cbn [multilinear]; [reflexivity|].
  rewrite !IH by (intros; apply Hm; lia). rewrite Hm by lia. rewrite seq_S, map_app. cbn [map plus]. ring.
Qed.

Lemma mlerp_some a x v : mlerp a x = Some v -> forall k, v k = multilinear (length (adims a)) (fun i => floor (x i)) (fun i => x i - INR (floor (x i))) (val a k).
Proof. unfold mlerp. destruct (in_bounds (adims a) x 0); [|discriminate]. intros E k. injection E as <-. apply corners_multilinear. Qed.
Lemma mlerp_inside a x : (exists v, mlerp a x = Some v) <-> forall i, (i < length (adims a))%nat -> 0 <= x i < INR (nth i (adims a) 0%nat) - 1.
Proof.
  unfold mlerp. pose proof (in_bounds_spec (adims a) x 0) as H. cbn [plus] in H. rewrite <- H. destruct (in_bounds (adims a) x 0); split; try (intros [v E]); try discriminate; eauto. 
Qed.

Lemma corner_verts_corner n x0 cur : cell_corner n x0 (corner_verts n x0 cur).
Proof.
  induction n as [|n IH]; [split; [reflexivity|intros; lia]|]. rewrite verts_S. apply cell_corner_snoc; [exact IH|]. destruct (Nat.testbit cur n); [right|left]; lia.
Qed.
Lemma corner_inside ds (x : vec) l : (forall i, (i < length ds)%nat -> 0 <= x i < INR (nth i ds 0%nat) - 1) -> cell_corner (length ds) (fun i => floor (x i)) l ->
  forall i, (i < length ds)%nat -> (nth i l 0%nat < nth i ds 0%nat)%nat.
Proof.
  intros H [L C] i Hi. specialize (H i Hi). destruct (floor_spec (x i)) as [A B]; [lra|].
  assert (S (floor (x i)) < nth i ds 0%nat)%nat; [|destruct (C i Hi) as [E|E]; rewrite E; lia].
  apply INR_lt. rewrite S_INR. lra.
Qed.

(** a field that has the same value w everywhere on the grid *)
Definition uniform (a : narray) (w : vec) : Prop := forall k l, (k < ncomp a)%nat -> length l = length (adims a) -> (forall i, (i < length l)%nat -> (nth i l 0 < nth i (adims a) 0)%nat) -> val a k l = w k.
Lemma mlerp_uniform a w x : uniform a w -> (forall i, (i < length (adims a))%nat -> 0 <= x i < INR (nth i (adims a) 0%nat) - 1) ->
  exists v, mlerp a x = Some v /\ forall k, (k < ncomp a)%nat -> v k = w k.
Proof.
  intros U H. destruct (proj2 (mlerp_inside a x) H) as [v E]. exists v. split; [exact E|]. intros k Hk. rewrite (mlerp_some _ _ _ E).
  apply multilinear_const. intros l Hl. apply U; [exact Hk|apply Hl|]. intros i Hi. apply (corner_inside _ x); [exact H|exact Hl|]. destruct Hl as [L _]. lia.
Qed.

(** ** the steps *)
(** [flows s j x y]: j successive steps of the tracer, all of them accepted, lead from x to y *)
Inductive flows (s : tracer) : nat -> vec -> vec -> Prop :=
| flows_0 x : flows s 0 x x
| flows_S j x y z : rk4 x (eval_vt s) (delta s) = Moved y -> flows s j y z -> flows s (S j) x z.
Lemma flows_det s j : forall x y z, flows s j x y -> flows s j x z -> y = z.
Proof.
  induction j as [|j IH]; intros x y z A B; inversion A; inversion B; subst; [reflexivity|]. match goal with H1 : rk4 x _ _ = Moved ?a, H2 : rk4 x _ _ = Moved ?b |- _ => rewrite H1 in H2; injection H2 as <- end. eapply IH; eassumption.
Qed.
Lemma flows_snoc s j : forall x y z, flows s j x y -> rk4 y (eval_vt s) (delta s) = Moved z -> flows s (S j) x z.
Proof. induction j as [|j IH]; intros x y z A B; inversion A; subst; econstructor; eauto; constructor. Qed.
Lemma flows_last s j : forall x z, flows s (S j) x z -> exists y, flows s j x y /\ rk4 y (eval_vt s) (delta s) = Moved z.
Proof.
  induction j as [|j IH]; intros x z A; inversion A; subst.
  - match goal with H : flows s 0 _ _ |- _ => inversion H; subst end. exists x. split; [constructor|assumption].
  - match goal with H : flows s (S j) _ _ |- _ => destruct (IH _ _ H) as [y1 [B C]] end. exists y1. split; [econstructor; eassumption|exact C].
Qed.
Lemma rk4_nan f h x : rk4 x f h <> NotANumber.
Proof. unfold rk4. destruct (f x); [|discriminate]. destruct (f _); [|discriminate]. destruct (f _); [|discriminate]. destruct (f _); discriminate. Qed.
Lemma rk4_moved_first f h x y : rk4 x f h = Moved y -> exists v, f x = Some v.
Proof. unfold rk4. destruct (f x) as [v|]; [eauto|discriminate]. Qed.

(** the velocity stored with the point reached after i steps: the one at the beginning of the last step *)
Definition stored_velocity (s : tracer) (x : vec) (v0 : option vec) (i : nat) (v : option vec) : Prop :=
  match i with O => v = v0 | S i' => exists y, flows s i' x y /\ v = eval_vt s y end.
Definition recorded (s : tracer) (x : vec) (v0 : option vec) (q : ppoint) (i : nat) : Prop :=
  flows s i x (px q) /\ pt q = px q (nd s) /\ stored_velocity s x v0 i (pv q).

Lemma filter_ext_in' (A : Type) (f g : A -> bool) l : (forall a, In a l -> f a = g a) -> filter f l = filter g l.
Proof. induction l as [|a l IH]; intros H; cbn; [reflexivity|]. rewrite (H a (or_introl eq_refl)), IH by (intros; apply H; right; assumption). reflexivity. Qed.
Lemma filter_map_S f l : filter f (map S l) = map S (filter (fun i => f (S i)) l).
Proof. induction l as [|a l IH]; cbn; [reflexivity|]. destruct (f (S a)); cbn; rewrite IH; reflexivity. Qed.
Lemma Forall2_map_r (A B C : Type) (P : A -> C -> Prop) (h : B -> C) l m : Forall2 (fun a b => P a (h b)) l m -> Forall2 P l (map h m).
Proof. induction 1; constructor; assumption. Qed.
Lemma Forall2_impl' (A B : Type) (P Q : A -> B -> Prop) l m : (forall a b, P a b -> Q a b) -> Forall2 P l m -> Forall2 Q l m.
Proof. intros H. induction 1; constructor; auto. Qed.

Lemma steps_spec s : forall n k x v traj, exists new j y x' v',
  steps s n k x v traj = (traj ++ new, x', v') /\ (j <= n)%nat /\ flows s j x y /\
  (j = n /\ x' = y /\ stored_velocity s x v j v' \/ (j < n)%nat /\ rk4 y (eval_vt s) (delta s) = Refused x') /\
  Forall2 (recorded s x v) new (filter (fun i => ((k + i) mod nsteps_per_checkpoint s =? 0)%nat) (seq 0 (min (S j) n))).
Proof.
  induction n as [|n IH]; intros k x v traj.
  - exists [], 0%nat, x, x, v. cbn. rewrite app_nil_r. split; [reflexivity|]. split; [lia|]. split; [constructor|]. split; [left; auto|constructor].
  - cbn [steps]. unfold rk4_step. destruct (rk4 x (eval_vt s) (delta s)) as [x'| |x'] eqn:E.
    + set (v1 := match eval_vt s x with Some w => Some w | None => v end).
      exists (if (k mod nsteps_per_checkpoint s =? 0)%nat then [checkpoint s x v] else []), 0%nat, x, x', v1.
      split; [destruct (k mod _ =? 0)%nat; [reflexivity|rewrite app_nil_r; reflexivity]|]. split; [lia|]. split; [constructor|]. split; [right; split; [lia|exact E]|].
      replace (min 1 (S n)) with 1%nat by lia. cbn. rewrite Nat.add_0_r. destruct (k mod _ =? 0)%nat; constructor; [|constructor]. split; [constructor|]. split; reflexivity.
    + exfalso. exact (rk4_nan _ _ _ E).
    + set (v1 := match eval_vt s x with Some w => Some w | None => v end).
      set (traj1 := if (k mod nsteps_per_checkpoint s =? 0)%nat then traj ++ [checkpoint s x v] else traj).
      destruct (IH (S k) x' v1 traj1) as [new [j [y [x'' [v'' [H1 [H2 [H3 [H4 H5]]]]]]]]].
      assert (V1 : v1 = eval_vt s x). { unfold v1. destruct (rk4_moved_first _ _ _ _ E) as [w Ew]. rewrite Ew. reflexivity. }
      assert (SV : forall i w, stored_velocity s x' v1 i w -> stored_velocity s x v (S i) w).
      { intros [|i] w; cbn; [intros ->; exists x; split; [constructor|exact V1]|]. intros [y0 [A B]]. exists y0. split; [econstructor; eassumption|exact B]. }
      exists ((if (k mod nsteps_per_checkpoint s =? 0)%nat then [checkpoint s x v] else []) ++ new), (S j), y, x'', v''. rewrite H1.
      split; [unfold traj1; destruct (k mod _ =? 0)%nat; [rewrite <- app_assoc|]; reflexivity|]. split; [lia|]. split; [econstructor; eassumption|].
      split. { destruct H4 as [[A [B C]]|[A B]]; [left|right; split; [lia|exact B]]. split; [lia|]. split; [exact B|]. apply SV, C. }
      replace (min (S (S j)) (S n)) with (S (min (S j) n)) by lia. cbn [seq filter]. rewrite Nat.add_0_r, <- seq_shift, filter_map_S.
      assert (F : Forall2 (recorded s x v) new (map S (filter (fun i => ((k + S i) mod nsteps_per_checkpoint s =? 0)%nat) (seq 0 (min (S j) n))))).
      { apply Forall2_map_r. rewrite (filter_ext_in' _ _ (fun i => ((S k + i) mod nsteps_per_checkpoint s =? 0)%nat)) by (intros; f_equal; f_equal; lia).
        eapply Forall2_impl'; [|exact H5]. intros q i [A [B C]]. split; [econstructor; eassumption|]. split; [exact B|]. apply SV, C. }
      destruct (k mod _ =? 0)%nat; cbn; [|exact F]. constructor; [|exact F]. split; [constructor|]. split; reflexivity.
Qed.

(** where a trajectory starts: the position and the time of its last point *)
Definition start (s : tracer) (p : ppoint) : vec := fun k => if (k =? nd s)%nat then pt p else px p k.
Lemma trace_spec s traj p : exists new q j y,
  trace s (traj ++ [p]) = (traj ++ [p]) ++ new ++ [q] /\ (j <= nsteps_per_interval s)%nat /\ flows s j (start s p) y /\
  (j = nsteps_per_interval s /\ recorded s (start s p) None q j \/ (j < nsteps_per_interval s)%nat /\ rk4 y (eval_vt s) (delta s) = Refused (px q) /\ pt q = px q (nd s)) /\
  Forall2 (recorded s (start s p) None) new (filter (fun i => (i mod nsteps_per_checkpoint s =? 0)%nat) (seq 0 (min (S j) (nsteps_per_interval s)))).
Proof.
  unfold trace. rewrite rev_unit. fold (start s p). destruct (steps_spec s (nsteps_per_interval s) 0 (start s p) None (traj ++ [p])) as [new [j [y [x' [v' [H1 [H2 [H3 [H4 H5]]]]]]]]].
  rewrite H1. exists new, (checkpoint s x' v'), j, y. split; [rewrite app_assoc; reflexivity|]. split; [exact H2|]. split; [exact H3|]. split; [|exact H5].
  destruct H4 as [[A [B C]]|[A B]]; [left|right; split; [exact A|]; split; [exact B|reflexivity]]. split; [exact A|]. subst x'. split; [exact H3|]. split; [reflexivity|exact C].
Qed.

(** ** time *)
Lemma eval_time s x v : eval_vt s x = Some v -> v (nd s) = 1.
Proof.
  unfold eval_vt. destruct (snapshots s) as [|V0 [|V1 r]]; [discriminate| |].
  - destruct (mlerp V0 x); [|discriminate]. intros E. injection E as <-. rewrite Nat.eqb_refl. reflexivity.
  - destruct (Rlt_dec _ 0); [discriminate|]. destruct (Rgt_dec _ 1); [discriminate|]. destruct (mlerp V0 x); [|discriminate]. destruct (mlerp V1 x); [|discriminate].
    intros E. injection E as <-. rewrite Nat.eqb_refl. reflexivity.
Qed.
Lemma moved_time s x y : rk4 x (eval_vt s) (delta s) = Moved y -> y (nd s) = x (nd s) + delta s.
Proof.
  unfold rk4. cbv zeta. set (f := eval_vt s). destruct (f x) as [k1|] eqn:E1; [|discriminate]. destruct (f (fun i => x i + 0.5 * (delta s * k1 i))) as [k2|] eqn:E2; [|discriminate].
  destruct (f (fun i => x i + 0.5 * (delta s * k2 i))) as [k3|] eqn:E3; [|discriminate]. destruct (f (fun i => x i + delta s * k3 i)) as [k4|] eqn:E4; [|discriminate]. intros E. injection E as <-.
  rewrite (eval_time _ _ _ E1), (eval_time _ _ _ E2), (eval_time _ _ _ E3), (eval_time _ _ _ E4). lra.
Qed.
Lemma flows_time s j : forall x y, flows s j x y -> y (nd s) = x (nd s) + INR j * delta s.
Proof. induction j as [|j IH]; intros x y H; inversion H; subst; [cbn; lra|]. rewrite S_INR, (IH _ y) by eassumption. match goal with A : rk4 x _ _ = Moved _ |- _ => apply moved_time in A; rewrite A end. lra. Qed.

(** ** uniform fields *)
Section Uniform.
Variables (s : tracer) (V0 V1 : narray) (rest : list narray) (w0 w1 M : vec).
Hypotheses (HV : snapshots s = V0 :: V1 :: rest) (D0 : length (adims V0) = nd s) (D1 : adims V1 = adims V0) (C0 : ncomp V0 = nd s) (C1 : ncomp V1 = nd s)
  (U0 : uniform V0 w0) (U1 : uniform V1 w1) (Hd : 0 < current_delta_t s)
  (B0 : forall k, (k < nd s)%nat -> - M k <= w0 k <= M k) (B1 : forall k, (k < nd s)%nat -> - M k <= w1 k <= M k).
Definition tau (t : R) : R := (t - INR (current_timestep s)) / current_delta_t s.
Lemma blend_bounds t k : 0 <= t <= 1 -> (k < nd s)%nat -> - M k <= (1 - t) * w0 k + t * w1 k <= M k.
Proof. intros H Hk. specialize (B0 k Hk). specialize (B1 k Hk). split; nra. Qed.
Lemma eval_uniform z : (forall k, (k < nd s)%nat -> 0 <= z k < INR (nth k (adims V0) 0%nat) - 1) -> 0 <= tau (z (nd s)) <= 1 ->
  exists v, eval_vt s z = Some v /\ v (nd s) = 1 /\ forall k, (k < nd s)%nat -> v k = (1 - tau (z (nd s))) * w0 k + tau (z (nd s)) * w1 k.
Proof.
  intros H T. unfold eval_vt. rewrite HV. fold (tau (z (nd s))). destruct (Rlt_dec (tau (z (nd s))) 0); [lra|]. destruct (Rgt_dec (tau (z (nd s))) 1); [lra|].
  destruct (mlerp_uniform V0 w0 z U0) as [v0 [E0 F0]]; [intros i Hi; apply H; lia|]. destruct (mlerp_uniform V1 w1 z U1) as [v1 [E1 F1]]; [rewrite D1; intros i Hi; apply H; lia|].
  rewrite E0, E1. eexists. split; [reflexivity|]. split; [rewrite Nat.eqb_refl; reflexivity|]. intros k Hk. destruct (Nat.eqb_spec k (nd s)); [lia|]. rewrite F0, F1 by lia. reflexivity.
Qed.
Lemma rk4_uniform x : 0 < delta s -> 0 <= tau (x (nd s)) -> tau (x (nd s) + delta s) <= 1 ->
  (forall k, (k < nd s)%nat -> 0 <= x k - delta s * M k /\ x k + delta s * M k < INR (nth k (adims V0) 0%nat) - 1) ->
  exists y, rk4 x (eval_vt s) (delta s) = Moved y /\ y (nd s) = x (nd s) + delta s /\
    forall k, (k < nd s)%nat -> y k = x k + delta s * ((1 - tau (x (nd s) + delta s / 2)) * w0 k + tau (x (nd s) + delta s / 2) * w1 k).
Proof.
  intros Hh T0 T1 HS. set (h := delta s) in *. set (n := nd s) in *.
  assert (Tm : forall a b, a <= b -> tau a <= tau b). { intros a b Hab. unfold tau, Rdiv. apply Rmult_le_compat_r; [left; apply Rinv_0_lt_compat; exact Hd|lra]. }
  assert (T2 : 0 <= tau (x n + h / 2) <= 1). { split; [apply Rle_trans with (1 := T0)|apply Rle_trans with (2 := T1)]; apply Tm; lra. }
  assert (T3 : 0 <= tau (x n) <= 1). { split; [exact T0|]. apply Rle_trans with (2 := T1). apply Tm. lra. }
  assert (T4 : 0 <= tau (x n + h) <= 1). { split; [|exact T1]. apply Rle_trans with (1 := T0). apply Tm. lra. }
  assert (Mp : forall k, (k < n)%nat -> 0 <= M k). { intros k Hk. specialize (B0 k Hk). lra. }
  assert (ST : forall a q k, 0 <= a <= 1 -> (k < n)%nat -> - M k <= q <= M k -> 0 <= x k + a * (h * q) < INR (nth k (adims V0) 0%nat) - 1).
  { intros a q k Ha Hk Hq. specialize (HS k Hk). specialize (Mp k Hk).
    assert (- (h * M k) <= h * q <= h * M k) by (split; nra). assert (0 <= h * M k) by nra. assert (- (h * M k) <= a * (h * q) <= h * M k) by (split; nra). lra. }
  destruct (eval_uniform x) as [k1 [E1 [F1 G1]]]. { intros k Hk. specialize (HS k Hk). specialize (Mp k Hk). split; [|nra]. assert (0 <= h * M k) by nra. lra. } { exact T3. }
  fold n in F1, G1.
  set (x2 := fun i => x i + 0.5 * (h * k1 i)). assert (X2 : x2 n = x n + h / 2) by (unfold x2; rewrite F1; lra).
  destruct (eval_uniform x2) as [k2 [E2 [F2 G2]]]. { intros k Hk. unfold x2. rewrite G1 by exact Hk. apply ST; [lra|exact Hk|]. apply blend_bounds; [exact T3|exact Hk]. } { fold n. rewrite X2. exact T2. }
  fold n in F2, G2. rewrite X2 in G2.
  set (x3 := fun i => x i + 0.5 * (h * k2 i)). assert (X3 : x3 n = x n + h / 2) by (unfold x3; rewrite F2; lra).
  destruct (eval_uniform x3) as [k3 [E3 [F3 G3]]]. { intros k Hk. unfold x3. rewrite G2 by exact Hk. apply ST; [lra|exact Hk|]. apply blend_bounds; [exact T2|exact Hk]. } { fold n. rewrite X3. exact T2. }
  fold n in F3, G3. rewrite X3 in G3.
  set (x4 := fun i => x i + h * k3 i). assert (X4 : x4 n = x n + h) by (unfold x4; rewrite F3; lra).
  destruct (eval_uniform x4) as [k4 [E4 [F4 G4]]]. { intros k Hk. unfold x4. rewrite G3 by exact Hk. rewrite <- (Rmult_1_l (h * _)). apply ST; [lra|exact Hk|]. apply blend_bounds; [exact T2|exact Hk]. } { fold n. rewrite X4. exact T4. }
  fold n in F4, G4. rewrite X4 in G4.
  unfold rk4. cbv zeta. rewrite E1. fold x2. rewrite E2. fold x3. rewrite E3. fold x4. rewrite E4. eexists. split; [reflexivity|]. split.
  - rewrite F1, F2, F3, F4. lra.
  - intros k Hk. rewrite G1, G2, G3, G4 by exact Hk.
    assert (Q1 : tau (x n) = tau (x n + h / 2) - h / 2 / current_delta_t s) by (unfold tau; field; lra).
    assert (Q2 : tau (x n + h) = tau (x n + h / 2) + h / 2 / current_delta_t s) by (unfold tau; field; lra). rewrite Q1, Q2. generalize (tau (x n + h / 2)). intros t. cbv beta. replace 2.0 with 2 by lra. replace 6.0 with 6 by lra. field. lra.
Qed.

Variables (x : vec) (N : nat).
Hypotheses (HN : nsteps_per_interval s = N) (Np : (0 < N)%nat) (X0 : x (nd s) = INR (current_timestep s))
  (Safe : forall k, (k < nd s)%nat -> 0 <= x k - current_delta_t s * M k /\ x k + current_delta_t s * M k < INR (nth k (adims V0) 0%nat) - 1).
(** the exact solution after the fraction f of the interval *)
Definition exact_at (f : R) (k : nat) : R := x k + current_delta_t s * f * ((1 - f / 2) * w0 k + f / 2 * w1 k).
Lemma INRN : 0 < INR N. Proof. apply lt_0_INR. exact Np. Qed.
Lemma flows_uniform m : (m <= N)%nat -> exists y, flows s m x y /\ forall k, (k < nd s)%nat -> y k = exact_at (INR m / INR N) k.
Proof.
  pose proof INRN as IN. assert (Dl : delta s = current_delta_t s / INR N) by (unfold delta; rewrite HN; reflexivity).
  induction m as [|m IH]; intros Hm.
  - exists x. split; [constructor|]. intros k Hk. unfold exact_at. cbn. field. lra.
  - destruct IH as [y [Fy Ey]]; [lia|]. pose proof (flows_time _ _ _ _ Fy) as Ty. rewrite X0 in Ty.
    assert (Hmn : INR m + 1 <= INR N) by (rewrite <- S_INR; apply le_INR; exact Hm). pose proof (pos_INR m) as Pm.
    assert (Tt : forall a, tau (y (nd s) + a * delta s) = (INR m + a) / INR N) by (intros a; unfold tau; rewrite Ty, Dl; field; split; lra).
    assert (Dp : 0 < delta s) by (rewrite Dl; apply Rdiv_lt_0_compat; assumption).
    destruct (rk4_uniform y) as [z [Ez [Tz Pz]]].
    + exact Dp.
    + replace (y (nd s)) with (y (nd s) + 0 * delta s) by ring. rewrite Tt. rewrite Rplus_0_r. apply Rmult_le_pos; [exact Pm|]. left. apply Rinv_0_lt_compat, IN.
    + replace (y (nd s) + delta s) with (y (nd s) + 1 * delta s) by ring. rewrite Tt. apply Rmult_le_reg_r with (INR N); [exact IN|]. unfold Rdiv. rewrite Rmult_assoc, Rinv_l by lra. lra.
    + intros k Hk. rewrite Ey by exact Hk. unfold exact_at. specialize (Safe k Hk). specialize (B0 k Hk) as Bk.
      set (f := INR m / INR N). assert (Hf : 0 <= f <= 1). { unfold f. split; [apply Rmult_le_pos; [exact Pm|left; apply Rinv_0_lt_compat, IN]|]. apply Rmult_le_reg_r with (INR N); [exact IN|]. unfold Rdiv. rewrite Rmult_assoc, Rinv_l by lra. lra. }
      assert (Hb : - M k <= (1 - f / 2) * w0 k + f / 2 * w1 k <= M k) by (apply blend_bounds; [lra|exact Hk]).
      set (b := (1 - f / 2) * w0 k + f / 2 * w1 k) in *. set (d := current_delta_t s) in *.
      assert (Hs : d * f + delta s <= d). { rewrite Dl. fold d. unfold f. apply Rmult_le_reg_r with (INR N); [exact IN|]. replace ((d * (INR m / INR N) + d / INR N) * INR N) with (d * (INR m + 1)) by (field; lra). apply Rmult_le_compat_l; [lra|exact Hmn]. }
      assert (0 <= M k) by lra. assert (0 <= d * f) by (apply Rmult_le_pos; lra). assert (- (d * f * M k) <= d * f * b <= d * f * M k) by (split; nra). assert ((d * f + delta s) * M k <= d * M k) by (apply Rmult_le_compat_r; lra). nra.
    + exists z. split; [eapply flows_snoc; eassumption|]. intros k Hk. rewrite Pz, Ey by exact Hk.
      replace (y (nd s) + delta s / 2) with (y (nd s) + / 2 * delta s) by field. rewrite Tt. unfold exact_at. rewrite Dl, S_INR. field. lra.
Qed.
End Uniform.
