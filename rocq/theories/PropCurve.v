(** C50-C55, C64, C65: curves.  The vocabulary is in FeatureCurveSpec.v.  [dmax]: the largest number, [nv]: the number of scalars of a point. *)
From Verif Require Import Base UnionFind NdArray FeatureCurve FeatureCurveSpec FeatureCurveProofs FeatureCurveProofs2.
Local Open Scope Z_scope. Local Open Scope list_scope.

(** C50: split *)
Definition splits_well (dmax : Z) (nv : nat) (c : curve) : Prop :=
  (forall piece, In piece (split dmax nv c) -> pts piece <> [] /\ constant (pts piece)) /\ concat (map pts (split dmax nv c)) = pts c.
Theorem C50_split_partial : forall dmax nv c,
  (forall piece, In piece (split dmax nv c) -> pts piece <> [] /\ constant (pts piece)) /\ subseq (concat (map pts (split dmax nv c))) (pts c) /\
  (constant (pts c) -> splits_well dmax nv c).
Proof.
  intros dmax nv c. destruct (split_spec dmax nv c) as (new & E & G & S & _ & C). unfold splits_well. rewrite E. rewrite Forall_forall in G. split; [exact G|]. split; [exact S|]. intros K. split; [exact G|].
  destruct (pts c) as [|p l] eqn:Ep; [rewrite (split_empty dmax nv c Ep) in E; subst; reflexivity|]. rewrite C; [cbn; rewrite app_nil_r; reflexivity|discriminate|exact K].
Qed.
(** every curve whose type changes loses points *)
Theorem C50_split_refuted : forall dmax nv c, ~ constant (pts c) -> ~ splits_well dmax nv c.
Proof. intros dmax nv c N [_ E]. destruct (split_spec dmax nv c) as (new & En & _ & _ & K & _). rewrite En in E. apply N, K, E. Qed.
Definition pt_of (ty t : Z) (o : bool) : fpoint := mkp (t, 0, 0) t t [0; 0; 0] (0, 0, 0) ty o 0 0.
Definition with_points (l : list fpoint) : curve := mkc l (Some 7) false false None 0.
Example C50_example : let c := with_points [pt_of 1 0 true; pt_of 1 1 true; pt_of 2 2 true; pt_of 2 3 true; pt_of 2 4 true] in
  ~ constant (pts c) /\ map pts (split 1000 3 c) = [[pt_of 1 0 true; pt_of 1 1 true]; [pt_of 2 3 true; pt_of 2 4 true]].
Proof. split; [|reflexivity]. intros C. assert (X := C (pt_of 1 0 true) (pt_of 2 2 true) ltac:(cbn; auto) ltac:(cbn; auto)). discriminate X. Qed.

(** C51: adjust_time *)
Theorem C51_adjust_time : forall c, ordinals_monotone (pts c) ->
  monotone (pts (adjust_time c)) /\
  Forall2 (fun p q => same_but_time p q /\ (ordinal p = true -> q = p)) (pts c) (pts (adjust_time c)) /\
  adjust_time (adjust_time c) = adjust_time c.
Proof.
  intros c M. assert (A := adjust_monotone c M). split; [exact A|]. split; [|apply adjust_fix, A].
  assert (F := adjust_pts c). revert F. generalize (pts (adjust_time c)). generalize (pts c). induction 1 as [|p q l l' [X Y] F IH]; constructor; [split; [exact X|intros O; symmetry; auto]|exact IH].
Qed.
(** a curve that already is in order is not changed *)
Theorem C51_no_change : forall c, monotone (pts c) -> adjust_time c = c.
Proof. exact adjust_fix. Qed.
Example C51_example : let c := with_points [pt_of 1 0 true; pt_of 1 9 false; pt_of 1 3 false; pt_of 1 5 true; pt_of 1 2 false] in
  ordinals_monotone (pts c) /\ map ptime (pts (adjust_time c)) = [0; 5; 5; 5; 5].
Proof.
  intros c. split; [|reflexivity]. intros i j p q L A B Op Oq. unfold is_at in *.
  assert (Li : (i < 5)%nat) by (change 5%nat with (length (pts c)); apply nth_error_Some; congruence). assert (Lj : (j < 5)%nat) by (change 5%nat with (length (pts c)); apply nth_error_Some; congruence). unfold c in A, B. clear c.
  destruct i as [|[|[|[|[|i]]]]]; try lia; cbn in A; injection A as <-; try discriminate Op; destruct j as [|[|[|[|[|j]]]]]; try lia; cbn in B; injection B as <-; try discriminate Oq; cbn; lia.
Qed.

(** C52: unwrap *)
Theorem C52_unwrap : forall dmax k period c, pts c <> [] -> 0 < period ->
  exists c', unwrap dmax k period c = Ok c' /\
    Forall2 (fun p q => same_but_x k p q /\ exists m, get3 k (px q) = get3 k (px p) + m * period) (pts c) (pts c') /\
    (forall p, is_at (pts c) 0 p -> is_at (pts c') 0 p) /\
    (forall i p q p' q', is_at (pts c) i p -> is_at (pts c) (1 + i) q -> is_at (pts c') i p' -> is_at (pts c') (1 + i) q' ->
       Z.abs (get3 k (px q) - get3 k (px p)) <= period -> 2 * Z.abs (get3 k (px q') - get3 k (px p')) <= period).
Proof.
  intros dmax k P c NE HP. destruct (unwrap_loop_ok k P (length (pts c) - 1) (pts c)) as (l & E & F & H0 & St); [destruct (pts c); [congruence|cbn; lia]|].
  unfold unwrap. destruct (pts c) as [|p0 l0] eqn:Ep; [congruence|]. rewrite E. cbn [bind]. eexists. split; [reflexivity|]. cbn [pts].
  split; [exact F|]. split; [exact H0|]. intros i p q p' q' A B A' B' D. unfold is_at in *. assert (S1 := steps_nth k _ _ _ _ A B). assert (S2 := steps_nth k _ _ _ _ A' B'). rewrite St in S2. rewrite nth_error_map, S1 in S2. cbn in S2. injection S2 as S2. rewrite <- S2.
  unfold fold_step. destruct (Z.leb_spec P (2 * (get3 k (px q) - get3 k (px p)))); [lia|]. destruct (Z.leb_spec (2 * (get3 k (px q) - get3 k (px p))) (- P)); lia.
Qed.
(** the bounding box along the unwrapped axis is exact afterwards *)
Theorem C52_bounds : forall dmax k period c c' s, (k < 3)%nat -> cstats c = Some s -> unwrap dmax k period c = Ok c' ->
  (forall p, In p (pts c') -> - dmax <= get3 k (px p) <= dmax) ->
  exists s', cstats c' = Some s' /\ is_min (fun p => get3 k (px p)) (pts c') (get3 k (bbmin s')) /\ is_max (fun p => get3 k (px p)) (pts c') (get3 k (bbmax s')).
Proof.
  intros dmax k P c c' s K Es E F. unfold unwrap in E. destruct (pts c) as [|p0 l0] eqn:Ep; [discriminate|]. destruct (unwrap_loop_ok k P (length (p0 :: l0) - 1) (p0 :: l0)) as (l & El & Fl & _); [cbn; lia|].
  rewrite El in E. cbn [bind] in E. rewrite Es in E. injection E as <-. cbn [pts cstats] in *. eexists. split; [reflexivity|]. cbn [bbmin bbmax]. rewrite !get3_put3. inversion Fl; subst.
  split; [apply (fold_min_is (fun p => get3 k (px p)))|apply (fold_max_is (fun p => get3 k (px p)))]; try discriminate; intros p J; apply F in J; lia.
Qed.
Definition at_x (x : Z) : fpoint := mkp (0, 0, x) 0 0 [0; 0; 0] (0, 0, 0) 0 false 0 0.
Example C52_example : exists c', unwrap 1000 2 10 (with_points [at_x 8; at_x 9; at_x 1; at_x 2; at_x 9]) = Ok c' /\ map (fun p => get3 2 (px p)) (pts c') = [8; 9; 11; 12; 9].
Proof. eexists. split; reflexivity. Qed.

(** C53: rotate and reorder *)
Theorem C53_rotate : forall c, pts c <> [] -> exists c' i, rotate c = Ok c' /\ (i <= length (pts c))%nat /\ pts c' = skipn i (pts c) ++ firstn i (pts c) /\
  (loop c = false -> c' = c) /\
  (forall p, is_at (pts c) 0 p -> loop c = true -> ptype (last (pts c) p) = ptype p -> ~ constant (pts c) ->
     (* the new first point is the first one of another type, so the ends now differ *)
     exists q, is_at (pts c) i q /\ ptype q <> ptype p /\ (forall j r, (j < i)%nat -> is_at (pts c) j r -> ptype r = ptype p) /\
       is_at (pts c') 0 q /\ ptype (last (pts c') q) = ptype p).
Proof.
  intros c NE. unfold rotate. destruct (loop c) eqn:L; cbn [negb].
  2:{ exists c, 0%nat. split; [reflexivity|]. split; [lia|]. split; [cbn; rewrite app_nil_r; reflexivity|]. split; [reflexivity|discriminate]. }
  destruct (pts c) as [|p l] eqn:Ep; [congruence|]. rewrite <- Ep in *. destruct (ptype p =? ptype (last (pts c) p)) eqn:Q; cbn [negb].
  2:{ apply Z.eqb_neq in Q. exists c, 0%nat. split; [reflexivity|]. split; [lia|]. split; [cbn; rewrite app_nil_r; reflexivity|]. split; [discriminate|]. intros p' E _ Q'. exfalso. rewrite Ep in E. injection E as <-. congruence. }
  apply Z.eqb_eq in Q. destruct (first_other_spec (ptype p) (pts c)) as (A & B & C). set (i := first_other (ptype p) (pts c)) in *. destruct (Nat.ltb_spec i (length (pts c))) as [Li|Li].
  - exists (set_pts c (skipn i (pts c) ++ firstn i (pts c))), i. split; [reflexivity|]. split; [exact A|]. split; [reflexivity|]. split; [discriminate|]. intros p' E _ _ _. rewrite Ep in E. injection E as <-.
    destruct (nth_error (pts c) i) as [q|] eqn:Eq; [|apply nth_error_None in Eq; lia]. exists q. split; [exact Eq|]. split; [apply C; reflexivity|].
    assert (Bi : forall j r, (j < i)%nat -> is_at (pts c) j r -> ptype r = ptype p).
    { intros j r Lj E. apply B. rewrite <- (firstn_skipn i (pts c)) in E. unfold is_at in E. rewrite nth_error_app1 in E by (rewrite firstn_length; lia). eapply nth_error_In; exact E. }
    split; [exact Bi|]. cbn [set_pts pts]. destruct (nth_error_split _ _ Eq) as (a & b & Es & La). split.
    + unfold is_at. rewrite Es, <- La, skipn_app, skipn_all, Nat.sub_diag. reflexivity.
    + assert (NF : firstn i (pts c) <> []). { assert (0 < i)%nat; [|destruct i as [|i']; [lia|rewrite Ep; discriminate]]. unfold i. rewrite Ep. cbn. rewrite Z.eqb_refl. lia. }
      rewrite last_app_r by exact NF. apply B, last_In, NF.
  - exists c, 0%nat. split; [reflexivity|]. split; [lia|]. split; [cbn; rewrite app_nil_r; reflexivity|]. split; [discriminate|]. intros p' E _ _ NC. exfalso. apply NC. rewrite firstn_all2 in B by exact Li. intros x y Jx Jy. rewrite (B x Jx), (B y Jy). reflexivity.
Qed.
Theorem C53_reorder : forall c, (pts (reorder c) = pts c \/ pts (reorder c) = rev (pts c)) /\ (loop c = true -> reorder c = c) /\
  (loop c = false -> forall p, is_at (pts (reorder c)) 0 p -> let q := last (pts (reorder c)) p in timestep p < timestep q \/ (timestep p = timestep q /\ ptime p <= ptime q)).
Proof.
  intros c. unfold reorder. destruct (pts c) as [|p l] eqn:Ep; [split; [left; exact Ep|]; split; [reflexivity|]; rewrite Ep; discriminate|]. rewrite <- Ep in *. destruct (loop c) eqn:L; [split; [left; reflexivity|]; split; [reflexivity|discriminate]|].
  set (z := last (pts c) p). assert (Lz : forall d, last (pts c) d = z). { intros d. unfold z. destruct (exists_last (l := pts c)) as (a & y & Ea); [rewrite Ep; discriminate|]. rewrite Ea, !last_last. reflexivity. }
  destruct (if timestep p =? timestep z then _ else _) eqn:R; cbn [set_pts pts]; (split; [auto|]); (split; [discriminate|]); intros _ p' E.
  - unfold is_at in E. assert (p' = z). { destruct (exists_last (l := pts c)) as (a & y & Ea); [rewrite Ep; discriminate|]. rewrite Ea, rev_app_distr in E. cbn in E. injection E as <-. unfold z. rewrite Ea, last_last. reflexivity. }
    subst p'. cbn zeta. rewrite last_rev, Ep. destruct (Z.eqb_spec (timestep p) (timestep z)) as [Q|Q]; apply Z.ltb_lt in R; [right; split; lia|left; lia].
  - unfold is_at in E. rewrite Ep in E. injection E as <-. cbn zeta. rewrite Lz. destruct (Z.eqb_spec (timestep p) (timestep z)) as [Q|Q]; apply Z.ltb_ge in R; [right; split; lia|left; lia].
Qed.
Example C53_example : exists c', rotate (mkc [pt_of 1 0 true; pt_of 2 1 true; pt_of 2 2 true; pt_of 1 3 true] (Some 0) false true None 0) = Ok c' /\ map ptime (pts c') = [1; 2; 3; 0]
  /\ map ptime (pts (reorder (with_points [pt_of 1 5 true; pt_of 1 4 true; pt_of 1 2 true]))) = [2; 4; 5].
Proof. eexists. split; [reflexivity|]. split; reflexivity. Qed.

(** C54: smoothing of types *)
Theorem C54_smooth_interval_types : forall c, (exists o, ordinal_at (pts c) o) ->
  exists c', smooth_interval_types c = Ok c' /\ Forall2 same_but_type (pts c) (pts c') /\
    (forall i t, ordinal_at (pts c) i -> has_type (pts c) i t -> has_type (pts c') i t) /\
    (forall o t i, first_ordinal (pts c) o -> has_type (pts c) o t -> (i < o)%nat -> has_type (pts c') i t) /\
    (forall o t i, last_ordinal (pts c) o -> has_type (pts c) o t -> (o < i < length (pts c))%nat -> has_type (pts c') i t) /\
    (forall o o' lt rt i, consecutive (pts c) o o' -> has_type (pts c) o lt -> has_type (pts c) o' rt -> (o < i < o')%nat ->
       (lt = rt -> has_type (pts c') i lt) /\
       ((forall k, (o <= k <= i)%nat -> has_type (pts c) k lt) -> has_type (pts c') i lt) /\
       (lt <> rt -> (exists k, (o <= k <= i)%nat /\ ~ has_type (pts c) k lt) -> has_type (pts c') i rt)).
Proof.
  intros c (o0 & O). destruct (smooth_interval_ok c o0 O) as (r & E & F & A1 & A2 & A3 & A4). exists (set_pts c r). split; [exact E|]. cbn [set_pts pts]. split; [exact F|].
  split; [intros i t Oi T; apply has_type_ty in T; apply has_type_ty; rewrite A1 by exact Oi; exact T|].
  split; [intros o t i Fo T L; apply has_type_ty in T; apply has_type_ty; rewrite (A2 o) by assumption; exact T|].
  split; [intros o t i Fo T L; apply has_type_ty in T; apply has_type_ty; rewrite (A3 o) by assumption; exact T|].
  intros o o' lt rt i C T T' L. apply has_type_ty in T, T'. destruct (A4 o o' C lt rt i T T' L) as [B1 B2]. split; [intros Q; apply has_type_ty, B1, Q|].
  split.
  - intros All. apply has_type_ty. destruct (Z.eq_dec lt rt) as [Q|Q]; [apply B1, Q|]. apply (B2 Q). intros k Hk. apply has_type_ty, All, Hk.
  - intros N (k & Hk & Nk). apply has_type_ty. apply (B2 N). exists k. split; [exact Hk|]. intros X. apply Nk, has_type_ty, X.
Qed.
Theorem C54_no_ordinals : forall c, (forall o, ~ ordinal_at (pts c) o) -> smooth_interval_types c = Ok c.
Proof.
  intros c N. unfold smooth_interval_types. destruct (to_ordinals c) as [|o os] eqn:E; [reflexivity|]. exfalso. apply (N o), ordinals_at. rewrite E. left; reflexivity.
Qed.
(** ordinal points whose neighbours all agree on another type take that type, all at once; nothing else changes *)
Theorem C54_smooth_ordinal_types : forall h c os, incr os -> (forall o, In o os <-> ordinal_at (pts c) o) ->
  exists c', smooth_ordinal_types h c = Ok c' /\ Forall2 same_but_type (pts c) (pts c') /\
    (forall i o t, nth_error os i = Some o -> isolated (pts c) os h i t -> has_type (pts c') o t) /\
    (forall i o t, nth_error os i = Some o -> (forall t', ~ isolated (pts c) os h i t') -> has_type (pts c) o t -> has_type (pts c') o t) /\
    (forall j t, ~ ordinal_at (pts c) j -> has_type (pts c) j t -> has_type (pts c') j t).
Proof.
  intros h c os I M. assert (os = to_ordinals c) as ->.
  { assert (U : forall a b, incr a -> incr b -> (forall x, In x a <-> In x b) -> a = b).
    { induction a as [|x a IH]; intros b Ia Ib E; [destruct b as [|y b]; [reflexivity|]; destruct (proj2 (E y) (or_introl eq_refl))|]. destruct b as [|y b]; [destruct (proj1 (E x) (or_introl eq_refl))|]. inversion Ia as [|? ? Hx Ia']; inversion Ib as [|? ? Hy Ib']; subst.
      assert (x = y). { destruct (proj1 (E x) (or_introl eq_refl)) as [|J]; [auto|]. destruct (proj2 (E y) (or_introl eq_refl)) as [|J']; [auto|]. specialize (Hx y J'). specialize (Hy x J). lia. }
      subst y. f_equal. apply IH; [assumption|assumption|]. intros z. split; intros J; [destruct (proj1 (E z) (or_intror J)) as [<-|X]|destruct (proj2 (E z) (or_intror J)) as [<-|X]]; try exact X; [specialize (Hx x J)|specialize (Hy x J)]; lia. }
    apply U; [exact I|apply select_from_incr|]. intros o. rewrite M. symmetry. apply ordinals_at. }
  destruct (smooth_ordinal_ok h c) as (r & E & F & A & B). exists (set_pts c r). split; [exact E|]. cbn [set_pts pts]. split; [exact F|]. split; [|split].
  - intros i o t Ei G. apply has_type_ty. apply (A i o Ei), G.
  - intros i o t Ei G T. apply has_type_ty in T. apply has_type_ty. rewrite (proj2 (A i o Ei) G). exact T.
  - intros j t N T. apply has_type_ty in T. apply has_type_ty. rewrite B; [exact T|]. intros J. apply N, ordinals_at, J.
Qed.
Example C54_example : exists c', smooth_interval_types (with_points [pt_of 9 0 false; pt_of 1 0 true; pt_of 1 0 false; pt_of 5 0 false; pt_of 1 0 false; pt_of 2 0 true; pt_of 3 0 false]) = Ok c'
  /\ map ptype (pts c') = [1; 1; 1; 2; 2; 2; 2]
  /\ exists c2, smooth_ordinal_types 2 (with_points [pt_of 1 0 true; pt_of 1 0 true; pt_of 5 0 true; pt_of 1 0 true; pt_of 1 0 true]) = Ok c2 /\ map ptype (pts c2) = [1; 1; 1; 1; 1].
Proof. eexists. split; [reflexivity|]. split; [reflexivity|]. eexists. split; reflexivity. Qed.

(** C55: selecting points *)
Theorem C55_discard : forall dmax nv f c, pts (discard dmax nv f c) = filter (fun p => negb (f p)) (pts c) /\
  cid (discard dmax nv f c) = cid c /\ loop (discard dmax nv f c) = loop c /\ complete (discard dmax nv f c) = complete c.
Proof.
  intros dmax nv f c. unfold discard. rewrite discard_fold. cbn [app]. match goal with |- context [update_statistics _ _ ?x] => destruct (update_pts dmax nv x) as (A & B & C & D) end. rewrite A, B, C, D. cbn. auto.
Qed.
Theorem C55_select : forall f c i, In i (select f c) <-> exists p, is_at (pts c) i p /\ f p = true.
Proof. intros f c i. unfold select. rewrite select_from_spec, Nat.sub_0_r. unfold is_at. split; [intros [_ X]; exact X|intros X; split; [lia|exact X]]. Qed.
Theorem C55_select_order : forall f c, incr (select f c).
Proof. intros f c. apply select_from_incr. Qed.
Lemma filter_none {A} (f : A -> bool) : forall l, (forall x, In x l -> f x = false) -> filter f l = [].
Proof. induction l as [|x l IH]; intros H; [reflexivity|]. cbn [filter]. rewrite (H x) by (left; reflexivity). apply IH. intros y J. apply H. right; exact J. Qed.
Theorem C55_intercept : forall dmax nv t0 t1 c i, pts c <> [] -> monotone (pts c) -> cid c = Some i ->
  exists c', intercept dmax nv t0 t1 c = Ok c' /\ pts c' = map (fun p => set_id p (i mod 2^64)) (filter (fun p => (t0 <=? ptime p) && (ptime p <=? t1)) (pts c)).
Proof.
  intros dmax nv t0 t1 c i NE M Ei. unfold intercept. destruct (pts c) as [|p l] eqn:Ep; [congruence|]. rewrite <- Ep in *.
  assert (Hp : forall q, In q (pts c) -> ptime p <= ptime q /\ ptime q <= ptime (last (pts c) p)).
  { apply mono_monotone in M. split.
    - rewrite Ep in M, H. inversion M; subst. destruct H as [<-|J]; [lia|auto].
    - clear Ep NE Ei. induction M as [|a l' Ha M IH]; [destruct H|]. destruct l' as [|b l']; [destruct H as [<-|[]]; cbn; lia|]. cbn [last]. destruct H as [<-|J]; [|exact (IH J)]. apply Ha. assert (X := last_In (b :: l') p). cbn [last] in X. apply X. discriminate. }
  destruct (_ || _) eqn:B.
  - exists new_curve. split; [reflexivity|]. assert (F : filter (fun p0 => (t0 <=? ptime p0) && (ptime p0 <=? t1)) (pts c) = []); [|rewrite F; reflexivity].
    apply orb_true_iff in B. rewrite !Z.ltb_lt in B. apply filter_none. intros q0 J. destruct (Hp q0 J). apply andb_false_iff. rewrite !Z.leb_gt. lia.
  - destruct (filter _ (pts c)) as [|q m] eqn:F; [exists new_curve; split; reflexivity|]. rewrite Ei. eexists. split; [reflexivity|]. match goal with |- context [update_statistics _ _ ?x] => destruct (update_pts dmax nv x) as (A & _) end. rewrite A. reflexivity.
Qed.
Theorem C55_statistics : forall dmax nv c, 0 <= dmax -> pts c <> [] -> (forall p, In p (pts c) -> finite_point dmax nv p) ->
  exists s, cstats (update_statistics dmax nv c) = Some s /\
    is_max ptime (pts c) (tmax s) /\ is_min ptime (pts c) (tmin s) /\ is_max vmag2 (pts c) (vmmax s) /\ is_min vmag2 (pts c) (vmmin s) /\
    (forall k, is_max (fun p => get3 k (px p)) (pts c) (get3 k (bbmax s)) /\ is_min (fun p => get3 k (px p)) (pts c) (get3 k (bbmin s))) /\
    (forall k, (k < nv)%nat -> is_max (fun p => nth k (scalar p) 0) (pts c) (nth k (smax s) 0) /\ is_min (fun p => nth k (scalar p) 0) (pts c) (nth k (smin s) 0) /\ nth k (spers s) 0 = nth k (smax s) 0 - nth k (smin s) 0).
Proof. exact update_stats_spec. Qed.
Theorem C55_consistent_type : forall dmax nv c p, In p (pts c) ->
  (constant (pts c) -> ctype (update_statistics dmax nv c) = ptype p) /\ (~ constant (pts c) -> ctype (update_statistics dmax nv c) = 0).
Proof. intros dmax nv c p J. apply consistent_type_spec; [destruct (pts c); [destruct J|discriminate]|exact J]. Qed.
Example C55_example : (exists c', intercept 1000 3 2 3 (with_points [pt_of 1 1 true; pt_of 1 2 true; pt_of 1 3 true; pt_of 1 4 true]) = Ok c' /\ map ptime (pts c') = [2; 3]) /\
  forall p, In p [pt_of 1 1 true; pt_of 1 2 true] -> finite_point 1000 3 p.
Proof.
  split; [eexists; split; reflexivity|]. intros p [<-|[<-|[]]]; (split; [reflexivity|]); (split; [intros [|[|[|k]]] L; cbn; lia|]); (split; [intros [|[|k]]; cbn; lia|]); split; cbn; lia.
Qed.

(** C64: splitting at jumps of the longitude *)
Theorem C64_split_geo : forall half c, let ps := split_geo half c in concat (map pts ps) = pts c /\
  (forall piece, In piece ps -> pts piece <> [] /\ cid piece = cid c) /\
  (forall piece a p q b, In piece ps -> pts piece = a ++ p :: q :: b -> Z.abs (get3 0 (px q) - get3 0 (px p)) <= half) /\
  (forall a c1 c2 b, ps = a ++ c1 :: c2 :: b -> exists x p q y, pts c1 = x ++ [p] /\ pts c2 = q :: y /\ half < Z.abs (get3 0 (px q) - get3 0 (px p))).
Proof.
  intros half c. unfold split_geo. destruct (split_geo_loop_spec half (cid c) (pts c) [] []) as (new & E & A & B & C & D & _); [intros [|] ? ? ?; discriminate|intros [|] ? ? ?; discriminate|reflexivity|]. cbn zeta. rewrite E. cbn [app]. auto.
Qed.
Definition at_lon (x : Z) : fpoint := mkp (x, 0, 0) 0 0 [0; 0; 0] (0, 0, 0) 0 false 0 0.
Example C64_example : map (fun c => map (fun p => get3 0 (px p)) (pts c)) (split_geo 180 (with_points [at_lon 170; at_lon 179; at_lon (-178); at_lon (-170)])) = [[170; 179]; [-178; -170]].
Proof. reflexivity. Qed.

(** C65: assignment *)
Definition assigns (mem : nat -> curve) (a b : nat) : Prop := assign mem a b a = mem b /\ forall j, j <> a -> assign mem a b j = mem j.
Theorem C65_assign_partial : forall mem a b, a <> b -> assigns mem a b.
Proof.
  intros mem a b N. unfold assigns, assign. rewrite !Nat.eqb_refl. rewrite (proj2 (Nat.eqb_neq b a)) by congruence. cbn. split; [destruct (mem b); reflexivity|]. intros j Nj. rewrite (proj2 (Nat.eqb_neq j a)) by exact Nj. reflexivity.
Qed.
(** assigning a curve to itself deletes all its points *)
Theorem C65_self_assign_refuted : forall mem a, pts (assign mem a a a) = [] /\ (pts (mem a) <> [] -> ~ assigns mem a a).
Proof. intros mem a. assert (E : pts (assign mem a a a) = []) by (unfold assign; rewrite !Nat.eqb_refl; reflexivity). split; [exact E|]. intros NE [A _]. apply NE. rewrite <- A. exact E. Qed.
