(** Proofs about the critical point trackers: what one time step detects. *)
From Coq Require Import QArith Qabs Lqa.
From Verif Require Import Base UnionFind Lattice LatticeSpec LatticeProofs NdArray NdArraySpec NdArrayProofs NdArrayProofs2 ListOrd Parallel ParallelSpec RegularMesh RegularMeshSpec MeshLevels MeshEnum MeshIndex SoS SoSSpec SoSInside FeatureCurve CpTracker CpTrackerSpec.
Local Close Scope Q_scope. Local Open Scope Z_scope. Local Open Scope list_scope.

(** *** vertices of a face *)
Lemma padd_nth c u i : length c = length u -> nth i (padd c u) 0 = nth i c 0 + nth i u 0.
Proof.
  unfold padd. revert u i. induction c as [|x c IH]; intros [|y u] i H; try discriminate; [destruct i; reflexivity|].
  destruct i; cbn; [reflexivity|]. apply IH. cbn in H. lia.
Qed.
Lemma padd_length c u : length c = length u -> length (padd c u) = length u.
Proof. intros H. unfold padd. rewrite map_length, combine_length. lia. Qed.
Lemma padd_inj c u u' : length c = length u -> length c = length u' -> padd c u = padd c u' -> u = u'.
Proof.
  unfold padd. revert u u'. induction c as [|x c IH]; intros [|y u] [|z u'] H H' E; try discriminate; [reflexivity|].
  cbn in E. injection E as E1 E2. f_equal; [lia|]. apply IH; cbn in *; auto; lia.
Qed.
Lemma plt_NoDup s : StronglySorted plt s -> NoDup s.
Proof.
  induction 1 as [|p s S IH F]; constructor; auto. intros H. rewrite Forall_forall in F. destruct (F p H) as [_ N]. auto.
Qed.

Section Face.
  Variables (n d : nat) (k : key).
  Hypothesis (Hn : (1 <= n)%nat) (Hd : (d <= n)%nat) (Lc : length (fst k) = n) (Ht : (snd k < ntypes n d)%nat).
  Lemma face_vertices : exists s, nth_error (unit_simplices n d) (snd k) = Some s /\ unit_type n d s /\
    vertices n (el d k) = Ok (map (padd (fst k)) s) /\ NoDup (map (padd (fst k)) s) /\ length (map (padd (fst k)) s) = S d.
  Proof.
    unfold ntypes in Ht. destruct (nth_error (unit_simplices n d) (snd k)) as [s|] eqn:E; [|apply nth_error_None in E; lia].
    destruct (unit_types_lemma n d Hn Hd) as [_ U]. assert (T : unit_type n d s) by (apply U; eapply nth_error_In; exact E).
    exists s. split; [reflexivity|]. split; [exact T|]. destruct T as (L & C & _ & S). rewrite Forall_forall in C. split; [|split; [|rewrite map_length; exact L]].
    - unfold vertices, vget. cbn [edim etype corner el]. rewrite E. reflexivity.
    - apply plt_NoDup in S. clear -S C Lc. induction S as [|u s Nu S IH]; [constructor|]. cbn [map]. constructor; [|apply IH; intros; apply C; right; assumption].
      intros H. apply in_map_iff in H as (u' & E & Hu'). apply Nu. assert (u' = u); [|subst; exact Hu'].
      apply (padd_inj (fst k)); [| |exact E]; rewrite Lc; symmetry; [apply (C u')|apply (C u)]; cbn; auto.
  Qed.
End Face.

Lemma Forall2_nth (R : Z -> Z -> Prop) : forall l v, length l = length v -> ((forall i, (i < length l)%nat -> R (nth i l 0) (nth i v 0)) <-> Forall2 R l v).
Proof.
  induction l as [|a l IH]; intros [|b v] H; try discriminate; [split; [constructor|cbn; intros; lia]|]. cbn in H. injection H as H. split.
  - intros F. constructor; [apply (F 0%nat); cbn; lia|]. apply IH; [exact H|]. intros i Hi. apply (F (S i)). cbn. lia.
  - intros F. inversion F as [|? ? ? ? F1 F2]; subst. intros [|i] Hi; cbn; [exact F1|]. apply IH; auto. cbn in Hi. lia.
Qed.
Lemma in_bounds_nth lb ub v : length lb = length v -> length ub = length v ->
  (in_bounds lb ub v <-> forall i, (i < length v)%nat -> nth i lb 0 <= nth i v 0 <= nth i ub 0).
Proof.
  intros H1 H2. unfold in_bounds. rewrite <- !Forall2_nth by congruence. rewrite H1. split.
  - intros [A B] i Hi. split; [apply A|apply B]; exact Hi.
  - intros A. split; intros i Hi; apply A; exact Hi.
Qed.

Lemma valid_spec n lb ub d (k : key) s : nth_error (unit_simplices n d) (snd k) = Some s -> unit_type n d s -> length (fst k) = n -> length lb = n -> length ub = n ->
  exists b, valid n lb ub (el d k) = Ok b /\ (b = true <-> Forall (in_bounds lb ub) (map (padd (fst k)) s)).
Proof.
  intros E T Lc Ll Lu. unfold valid. cbn [etype edim el]. destruct (Nat.ltb_spec (snd k) (ntypes n d)) as [_|H].
  2:{ exfalso. unfold ntypes in H. apply nth_error_None in H. congruence. }
  unfold vertices, vget. cbn [edim etype corner el]. rewrite E. cbn [of_option bind]. eexists. split; [reflexivity|].
  destruct T as (_ & C & _ & _). rewrite forallb_forall, Forall_forall. rewrite Forall_forall in C.
  assert (Q : forall v, In v (map (padd (fst k)) s) -> length v = n).
  { intros v Hv. apply in_map_iff in Hv as (u & <- & Hu). destruct (C u Hu) as [Lu' _]. rewrite padd_length; congruence. }
  assert (B : forall v, length v = n -> (forallb (fun i => (nth i lb 0 <=? nth i v 0) && (nth i v 0 <=? nth i ub 0)) (seq 0 n) = true <-> in_bounds lb ub v)).
  { intros v Lv. rewrite forallb_forall, in_bounds_nth by congruence. rewrite Lv. split.
    - intros H i Hi. specialize (H i). rewrite andb_true_iff, !Z.leb_le in H. apply H. apply in_seq. lia.
    - intros H i Hi. apply in_seq in Hi. rewrite andb_true_iff, !Z.leb_le. apply H. lia. }
  split; intros H v Hv; apply B; auto.
Qed.

(** *** quantization *)
Definition qrow (F : Z) (row : list fval) (zs : list Z) : Prop :=
  Forall2 (fun x z => exists q, x = Fin q /\ z = Z.quot (Qnum q * F) (Zpos (Qden q))) row zs.
Definition small (x : fval) : Prop := forall q, x = Fin q -> (Qabs q < inject_Z (2 ^ 42))%Q.
Lemma to_int64_ok q F : 0 < F <= 2 ^ 21 -> (Qabs q < inject_Z (2 ^ 42))%Q -> to_int64 (q * inject_Z F) = Ok (Z.quot (Qnum q * F) (Zpos (Qden q))).
Proof.
  intros HF Hq. unfold to_int64, trunc. cbn [Qmult Qnum Qden inject_Z]. rewrite Pos.mul_1_r.
  destruct q as [a b]. unfold Qabs, Qlt, inject_Z in Hq. cbn [Qnum Qden] in *. rewrite Z.mul_1_r in Hq.
  assert (A : Z.abs (Z.quot (a * F) (Zpos b)) < 2 ^ 63).
  { rewrite <- Z.quot_abs by lia. rewrite Z.quot_div_nonneg by lia. apply Z.div_lt_upper_bound; [lia|]. change (Z.abs (Zpos b)) with (Zpos b).
    rewrite Z.abs_mul, (Z.abs_eq F) by lia. change (2 ^ 63) with (2 ^ 42 * 2 ^ 21). nia. }
  destruct (Z.leb_spec (- 2 ^ 63) (Z.quot (a * F) (Zpos b))); [|lia]. destruct (Z.ltb_spec (Z.quot (a * F) (Zpos b)) (2 ^ 63)); [|lia]. reflexivity.
Qed.
Lemma quantize_spec F row : 0 < F <= 2 ^ 21 -> Forall small row -> exists o, quantize F row = Ok o /\ forall zs, o = Some zs <-> qrow F row zs.
Proof.
  intros HF. induction 1 as [|x row Hx S IH]; [exists (Some []); split; [reflexivity|]; intros zs; split; [intros E; injection E as <-; constructor|intros E; inversion E; reflexivity]|].
  cbn [quantize]. destruct x as [q|].
  - rewrite to_int64_ok by (auto; apply Hx; reflexivity). cbn [bind]. destruct IH as (o & -> & I). cbn [bind]. eexists. split; [reflexivity|]. intros zs. split.
    + destruct o as [l|]; [|discriminate]. intros E. injection E as <-. constructor; [eauto|]. apply I. reflexivity.
    + intros Q. inversion Q as [|? z ? zs' (q' & E & Ez) Q']; subst. injection E as <-. apply I in Q'. subst o. reflexivity.
  - exists None. split; [reflexivity|]. intros zs. split; [discriminate|]. intros Q. inversion Q as [|? z ? zs' (q' & E & Ez) Q']; subst. discriminate.
Qed.
Lemma quantize_rows_spec F rows : 0 < F <= 2 ^ 21 -> Forall (Forall small) rows -> exists o, quantize_rows F rows = Ok o /\ forall V, o = Some V <-> Forall2 (qrow F) rows V.
Proof.
  intros HF. induction 1 as [|row rows Hr S IH]; [exists (Some []); split; [reflexivity|]; intros zs; split; [intros E; injection E as <-; constructor|intros E; inversion E; reflexivity]|].
  cbn [quantize_rows]. destruct (quantize_spec F row HF Hr) as (o1 & -> & I1). cbn [bind]. destruct o1 as [z|].
  - destruct IH as (o & -> & I). cbn [bind]. eexists. split; [reflexivity|]. intros V. split.
    + destruct o as [l|]; [|discriminate]. intros E. injection E as <-. constructor; [apply I1; reflexivity|]. apply I. reflexivity.
    + intros Q. inversion Q as [|? z' ? V' E Q']; subst. apply I in Q'. apply I1 in E. injection E as <-. subst o. reflexivity.
  - exists None. split; [reflexivity|]. intros V. split; [discriminate|]. intros Q. inversion Q as [|? z' ? V' E Q']; subst. apply I1 in E. discriminate.
Qed.

(** *** the scaling factor *)
Definition resolves (r : option Q) (xs : list fval) : Prop :=
  match r with
  | None => forall q, In (Fin q) xs -> (q == 0)%Q
  | Some r => (forall q, In (Fin q) xs -> ~ (q == 0)%Q -> (r <= Qabs q)%Q) /\ exists q, In (Fin q) xs /\ ~ (q == 0)%Q /\ r = Qabs q
  end.
Lemma res_step_spec r xs x : resolves r xs -> resolves (res_step r x) (xs ++ [x]).
Proof.
  intros H. destruct x as [q|]; cbn [res_step].
  - destruct (Qeq_bool q 0) eqn:E.
    + apply Qeq_bool_iff in E. destruct r as [r|]; cbn in *.
      * destruct H as (H1 & q0 & H2 & H3 & H4). split; [|exists q0; rewrite in_app_iff; auto]. intros q' Hq N. apply in_app_iff in Hq as [Hq|[Hq|[]]]; [auto|]. injection Hq as <-. contradiction.
      * intros q' Hq. apply in_app_iff in Hq as [Hq|[Hq|[]]]; [auto|]. injection Hq as <-. exact E.
    + apply Qeq_bool_neq in E. destruct r as [r|]; cbn in *.
      * destruct H as (H1 & q0 & H2 & H3 & H4). destruct (Qle_bool r (Qabs q)) eqn:L; cbn.
        -- apply Qle_bool_iff in L. split; [|exists q0; rewrite in_app_iff; auto]. intros q' Hq N. apply in_app_iff in Hq as [Hq|[Hq|[]]]; [auto|]. injection Hq as <-. exact L.
        -- assert (L' : (Qabs q < r)%Q) by (apply Qnot_le_lt; intros L'; apply Qle_bool_iff in L'; congruence). split.
           ++ intros q' Hq N. apply in_app_iff in Hq as [Hq|[Hq|[]]]; [specialize (H1 q' Hq N); lra|]. injection Hq as <-. lra.
           ++ exists q. rewrite in_app_iff. cbn. auto.
      * split; [|exists q; rewrite in_app_iff; cbn; auto]. intros q' Hq N. apply in_app_iff in Hq as [Hq|[Hq|[]]]; [elim N; auto|]. injection Hq as <-. lra.
  - destruct r as [r|]; cbn in *.
    + destruct H as (H1 & q0 & H2 & H3 & H4). split; [|exists q0; rewrite in_app_iff; auto]. intros q' Hq N. apply in_app_iff in Hq as [Hq|[Hq|[]]]; [auto|discriminate].
    + intros q' Hq. apply in_app_iff in Hq as [Hq|[Hq|[]]]; [auto|discriminate].
Qed.
Lemma resolution_spec r xs a : resolves r xs -> resolves (resolution r a) (xs ++ buf a).
Proof.
  unfold resolution. revert r xs. induction (buf a) as [|x l IH]; intros r xs H; cbn [fold_left]; [rewrite app_nil_r; exact H|].
  replace (xs ++ x :: l) with ((xs ++ [x]) ++ l) by (rewrite <- app_assoc; reflexivity). apply IH, res_step_spec, H.
Qed.
Lemma resolves_ext r xs ys : (forall x, In x xs <-> In x ys) -> resolves r xs -> resolves r ys.
Proof.
  intros E. destruct r as [r|]; cbn.
  - intros (H1 & q0 & H2 & H3 & H4). split; [intros q Hq; apply E in Hq; auto|]. exists q0. split; [apply E; exact H2|auto].
  - intros H q Hq. apply H, E, Hq.
Qed.
Lemma resolutions_spec ss : forall r xs, resolves r xs -> resolves (fold_left resolution ss r) (xs ++ flat_map buf ss).
Proof.
  induction ss as [|s ss IH]; intros r xs H; cbn [fold_left flat_map]; [rewrite app_nil_r; exact H|].
  rewrite app_assoc. apply IH, resolution_spec, H.
Qed.
Lemma pow2_le_Q (r : Q) a b : (0 < r)%Q -> 0 <= a <= b -> (r * inject_Z (2 ^ a) <= r * inject_Z (2 ^ b))%Q.
Proof.
  intros Hr H. rewrite (Qmult_comm r), (Qmult_comm r (inject_Z (2 ^ b))). apply Qmult_le_compat_r; [|lra]. rewrite <- Zle_Qle. apply Z.pow_le_mono_r; lia.
Qed.
Lemma find_seq (f : Z -> bool) n : forall a, match find f (map Z.of_nat (seq a n)) with
  | Some b => Z.of_nat a <= b < Z.of_nat (a + n) /\ f b = true /\ forall b', Z.of_nat a <= b' < b -> f b' = false
  | None => forall b', Z.of_nat a <= b' < Z.of_nat (a + n) -> f b' = false
  end.
Proof.
  induction n as [|n IH]; intros a; cbn [seq map find]; [intros; lia|]. destruct (f (Z.of_nat a)) eqn:E; [split; [lia|split; [exact E|intros; lia]]|].
  specialize (IH (S a)). destruct (find f (map Z.of_nat (seq (S a) n))) as [b|].
  - destruct IH as (H1 & H2 & H3). split; [lia|]. split; [exact H2|]. intros b' Hb. destruct (Z.eq_dec b' (Z.of_nat a)) as [->|N]; [exact E|apply H3; lia].
  - intros b' Hb. destruct (Z.eq_dec b' (Z.of_nat a)) as [->|N]; [exact E|apply IH; lia].
Qed.
Lemma Qabs_pos_lt q : ~ (q == 0)%Q -> (0 < Qabs q)%Q.
Proof. intros H. destruct q as [a b]. unfold Qeq, Qlt, Qabs in *. cbn in *. lia. Qed.
Lemma nbits_range r : 8 <= nbits r <= 21.
Proof.
  destruct r as [r|]; cbn [nbits]; [|lia]. assert (F := find_seq (fun b => Qle_bool 1 (r * inject_Z (2 ^ b))) 13 8).
  destruct (find _ _) as [b|]; [|lia]. destruct F as (F & _). lia.
Qed.
Lemma nbits_scaling r ss : resolves r (flat_map buf ss) -> scaling ss (2 ^ nbits r).
Proof.
  intros H. exists (nbits r). split; [reflexivity|]. split; [apply nbits_range|]. destruct r as [r|]; cbn [nbits].
  - cbn in H. destruct H as (H1 & q0 & H2 & H3 & H4). assert (Rp : (0 < r)%Q) by (subst r; apply Qabs_pos_lt; exact H3).
    apply in_flat_map in H2 as (s0 & Hs0 & Hq0).
    assert (Below : forall b, Qle_bool 1 (r * inject_Z (2 ^ b)) = false -> exists s q, In s ss /\ In (Fin q) (buf s) /\ ~ (q == 0)%Q /\ (Qabs q * inject_Z (2 ^ b) < 1)%Q).
    { intros b Hb. exists s0, q0. subst r. repeat (split; [assumption|]). apply Qnot_le_lt. intros L. apply Qle_bool_iff in L. congruence. }
    assert (F := find_seq (fun b => Qle_bool 1 (r * inject_Z (2 ^ b))) 13 8).
    destruct (find _ _) as [b|].
    + destruct F as (F1 & F2 & F3). split.
      * right. intros s q Hs Hq N. apply Qle_bool_iff in F2. assert (L : (r <= Qabs q)%Q) by (apply H1; [apply in_flat_map; eauto|exact N]).
        eapply Qle_trans; [exact F2|]. apply Qmult_le_compat_r; [exact L|]. unfold Qle. cbn. assert (0 <= 2 ^ b) by (apply Z.pow_nonneg; lia). lia.
      * destruct (Z.eq_dec b 8) as [->|N]; [left; reflexivity|right]. apply Below. apply F3. lia.
    + split; [left; reflexivity|right]. apply Below. apply F. lia.
  - split; [|left; reflexivity]. right. cbn in H. intros s q Hs Hq N. elim N. apply H. apply in_flat_map. eauto.
Qed.

(** *** vertex numbers *)
Lemma to_integer_lin l : forall p x, lat_ok l = true -> 0 < p -> p * volume l < 2 ^ 64 -> contains l x = true ->
  to_integer_loop l (prods_from p l) x = p * lin (map snd l) (psub x (map fst l)) /\ 0 <= lin (map snd l) (psub x (map fst l)) < volume l.
Proof.
  induction l as [|[s n] t IH]; intros p x O Pp B C.
  - destruct x; [|discriminate]. cbn. lia.
  - destruct x as [|y x]; [discriminate|]. apply lat_ok_cons in O as (O1 & O2 & O3 & O4). assert (V := volume_pos t O4). cbn [volume] in B.
    cbn [contains] in C. rewrite !andb_true_iff, Z.leb_le, Z.ltb_lt in C. destruct C as [[C1 C2] C3].
    cbn [prods_from to_integer_loop map fst snd]. unfold psub in *. cbn [combine map fst snd lin volume].
    assert (Up : u64 (p * n) = p * n) by (apply u64_id; nia). rewrite Up.
    destruct (IH (p * n) x O4) as [E R]; [nia|nia|exact C3|]. rewrite E. set (L := lin _ _) in *.
    assert (Pn : p * n < 2 ^ 64) by nia. assert (Py : 0 <= (y - s) * p < p * n) by nia.
    rewrite i32_id by lia. rewrite (u64_id ((y - s) * p)) by lia.
    assert (K : 0 <= y - s + n * L < n * volume t) by nia.
    split; [|exact K]. rewrite u64_id; [ring|]. nia.
Qed.
Lemma contains_nth l : forall x, contains l x = true <-> length x = length l /\ forall i s n, nth_error l i = Some (s, n) -> s <= nth i x 0 < s + n.
Proof.
  induction l as [|[s n] l IH]; intros [|y x]; cbn [contains length].
  - split; [intros _; split; [reflexivity|intros [|i]; discriminate]|reflexivity].
  - split; [discriminate|intros [H _]; discriminate].
  - split; [discriminate|intros [H _]; discriminate].
  - rewrite !andb_true_iff, Z.leb_le, Z.ltb_lt, IH. split.
    + intros [[H1 H2] [H3 H4]]. split; [congruence|]. intros [|i] s' n' E; cbn in *; [injection E as <- <-; lia|eauto].
    + intros [H1 H2]. specialize (H2 0%nat s n eq_refl) as H0. cbn in H0. split; [lia|]. split; [congruence|]. intros i s' n' E. exact (H2 (S i) s' n' E).
Qed.

Section Config.
  Variables (c : config). Hypothesis (OK : config_ok c).
  Let d := sdim c.
  Lemma d_range : (1 <= d <= 3)%nat.
  Proof. unfold d. destruct (ok_dim c OK) as [-> | ->]; lia. Qed.
  Lemma mesh_lengths : length (mesh_lb c) = S d /\ length (mesh_ub c) = S d.
  Proof. destruct (ok_domain c OK) as [L _]. unfold mesh_lb, mesh_ub. rewrite !app_length, !map_length. cbn. fold d in L. lia. Qed.
  Lemma lat_ok_forall (l : lattice) : lat_ok l = true <-> Forall (fun a => 0 <= fst a /\ 1 <= snd a /\ fst a + snd a <= 2 ^ 31) l.
  Proof.
    induction l as [|[s n] l IH]; [split; [constructor|reflexivity]|]. rewrite lat_ok_cons, IH. split.
    - intros (H1 & H2 & H3 & H4). constructor; auto.
    - intros H. inversion H as [|? ? (H1 & H2 & H3) H4]; subst. auto.
  Qed.
  (** the mesh, dimension by dimension *)
  Lemma mesh_dims : mesh_lattice c = domain c ++ [(t_start c, t_end c - t_start c + 1)].
  Proof.
    unfold mesh_lattice, mesh_lb, mesh_ub. induction (domain c) as [|[s n] l IH]; cbn [map app combine fst snd]; [reflexivity|]. rewrite IH. repeat f_equal. lia.
  Qed.
  Lemma mesh_lat_ok : lat_ok (mesh_lattice c) = true.
  Proof.
    rewrite mesh_dims. apply lat_ok_forall. apply Forall_app. split; [apply lat_ok_forall; apply (ok_domain c OK)|]. constructor; [|constructor]. cbn. destruct (ok_time c OK). lia.
  Qed.
  Lemma npoints_volume lb : forall ub, length lb = length ub -> npoints lb ub = volume (map (fun lu => (fst lu, snd lu - fst lu + 1)) (combine lb ub)).
  Proof. induction lb as [|l lb IH]; intros [|u ub] H; try discriminate; [reflexivity|]. rewrite npoints_cons. cbn [combine map volume fst snd]. rewrite <- IH; [reflexivity|]. cbn in H. lia. Qed.
  Lemma mesh_volume : volume (mesh_lattice c) = npoints (mesh_lb c) (mesh_ub c).
  Proof. symmetry. apply npoints_volume. destruct mesh_lengths. congruence. Qed.
  Lemma mesh_fst lb : forall ub, length lb = length ub -> map fst (map (fun lu : Z * Z => (fst lu, snd lu - fst lu + 1)) (combine lb ub)) = lb.
  Proof. induction lb as [|l lb IH]; intros [|u ub] H; try discriminate; [reflexivity|]. cbn. f_equal. apply IH. cbn in H. lia. Qed.
  Lemma mesh_contains lb : forall ub v, length lb = length ub -> in_bounds lb ub v -> contains (map (fun lu : Z * Z => (fst lu, snd lu - fst lu + 1)) (combine lb ub)) v = true.
  Proof.
    induction lb as [|l lb IH]; intros [|u ub] v H [B1 B2]; try discriminate; inversion B1; subst; [reflexivity|]. inversion B2; subst.
    cbn [combine map contains fst snd]. rewrite !andb_true_iff, Z.leb_le, Z.ltb_lt. split; [lia|]. apply IH; [cbn in H; lia|split; assumption].
  Qed.
  Lemma vertex_index_spec v : in_bounds (mesh_lb c) (mesh_ub c) v -> vertex_index c v = vertex_number c v /\ 0 <= vertex_number c v < 2 ^ 31.
  Proof.
    intros B. destruct mesh_lengths as [L1 L2]. assert (C := mesh_contains _ _ _ (eq_trans L1 (eq_sym L2)) B). fold (mesh_lattice c) in C.
    assert (S := ok_size c OK). rewrite <- mesh_volume in S.
    destruct (to_integer_lin (mesh_lattice c) 1 v mesh_lat_ok) as [E R]; [lia|lia|exact C|].
    unfold vertex_index, to_integer, prods. rewrite E. unfold vertex_number. rewrite Z.mul_1_l in *.
    assert (M : map fst (mesh_lattice c) = mesh_lb c) by (apply mesh_fst; congruence). rewrite M in *.
    rewrite i32_id by lia. split; [reflexivity|lia].
  Qed.
  Lemma vertex_number_inj v v' : in_bounds (mesh_lb c) (mesh_ub c) v -> in_bounds (mesh_lb c) (mesh_ub c) v' -> vertex_number c v = vertex_number c v' -> v = v'.
  Proof.
    intros B B' E. destruct mesh_lengths as [L1 L2]. assert (C := mesh_contains _ _ _ (eq_trans L1 (eq_sym L2)) B). assert (C' := mesh_contains _ _ _ (eq_trans L1 (eq_sym L2)) B'). fold (mesh_lattice c) in C, C'.
    assert (S := ok_size c OK). rewrite <- mesh_volume in S.
    destruct (to_integer_lin (mesh_lattice c) 1 v mesh_lat_ok) as [E1 _]; [lia|lia|exact C|]. destruct (to_integer_lin (mesh_lattice c) 1 v' mesh_lat_ok) as [E2 _]; [lia|lia|exact C'|].
    assert (M : map fst (mesh_lattice c) = mesh_lb c) by (apply mesh_fst; congruence). rewrite M in *. unfold vertex_number in E.
    destruct (lattice_bijection_lemma (mesh_lattice c)) as (_ & R & _); [rewrite mesh_dims; destruct (domain c); discriminate|apply mesh_lat_ok|lia|].
    destruct (R v C) as [_ Rv]. destruct (R v' C') as [_ Rv']. rewrite <- Rv, <- Rv'. unfold to_integer, prods. rewrite E1, E2, E. reflexivity.
  Qed.
End Config.

Lemma Forall2_app_last {A B} (R : A -> B -> Prop) l a r b : length l = length r -> Forall2 R (l ++ [a]) (r ++ [b]) -> Forall2 R l r /\ R a b.
Proof.
  revert r. induction l as [|x l IH]; intros [|y r] H F; try discriminate; cbn in *; inversion F; subst; [split; [constructor|assumption]|].
  destruct (IH r) as [F1 F2]; [lia|assumption|]. split; [constructor; assumption|exact F2].
Qed.
Lemma nth_psub v : forall s i, length v = length s -> nth i (psub v s) 0 = nth i v 0 - nth i s 0.
Proof.
  unfold psub. induction v as [|x v IH]; intros [|y s] i H; try discriminate; [destruct i; reflexivity|]. destruct i; cbn; [reflexivity|]. apply IH. cbn in H. lia.
Qed.
Lemma psub_length v s : length v = length s -> length (psub v s) = length v.
Proof. intros H. unfold psub. rewrite map_length, combine_length. lia. Qed.
Lemma nth_ext0 (a b : list Z) : length a = length b -> (forall i, (i < length a)%nat -> nth i a 0 = nth i b 0) -> a = b.
Proof. intros H E. apply (nth_ext a b 0 0 H E). Qed.
Lemma mapM_seq_ok {A} (f : nat -> res A) n : forall a, (forall j, (a <= j < a + n)%nat -> exists x, f j = Ok x) ->
  exists r, mapM f (seq a n) = Ok r /\ length r = n /\ forall j, (j < n)%nat -> exists x, nth_error r j = Some x /\ f (a + j)%nat = Ok x.
Proof.
  induction n as [|n IH]; intros a H; [exists []; cbn; split; [reflexivity|]; split; [reflexivity|intros; lia]|].
  destruct (H a) as (x & Ex); [lia|]. destruct (IH (S a)) as (r & Er & Lr & Hr); [intros; apply H; lia|].
  exists (x :: r). cbn. rewrite Ex. cbn. rewrite Er. cbn. split; [reflexivity|]. split; [congruence|].
  intros [|j] Hj; [exists x; rewrite Nat.add_0_r; auto|]. destruct (Hr j) as (y & E1 & E2); [lia|]. exists y. split; [exact E1|]. rewrite Nat.add_succ_r. exact E2.
Qed.

Lemma nth_firstn0 j : forall n (v : list Z), (j < n)%nat -> nth j (firstn n v) 0 = nth j v 0.
Proof. induction j as [|j IH]; intros [|n] [|x v] H; cbn; try lia; auto. apply IH. lia. Qed.
Lemma nth_error_skipn {A} a : forall (l : list A) b, nth_error (skipn a l) b = nth_error l (a + b).
Proof. induction a as [|a IH]; intros [|x l] b; cbn; auto. destruct b; reflexivity. Qed.
Lemma nth_error_firstn {A} n : forall (l : list A) b x, nth_error (firstn n l) b = Some x -> nth_error l b = Some x.
Proof. induction n as [|n IH]; intros [|y l] [|b] x; cbn; try discriminate; auto. Qed.
Lemma dim_le_numel ds : Forall (fun d => 1 <= d) ds -> 1 <= numel ds /\ Forall (fun d => d <= numel ds) ds.
Proof.
  induction 1 as [|d ds H F [IH1 IH2]]; [cbn; split; [lia|constructor]|]. change (numel (d :: ds)) with (d * numel ds). split; [nia|]. constructor; [nia|].
  eapply Forall_impl; [|exact IH2]. cbn. intros a Ha. nia.
Qed.

Lemma Forall2_nth_error {A B} (R : A -> B -> Prop) : forall l r, Forall2 R l r <-> length l = length r /\ forall j x y, nth_error l j = Some x -> nth_error r j = Some y -> R x y.
Proof.
  induction l as [|a l IH]; intros [|b r].
  - split; [intros _; split; [reflexivity|intros [|j]; discriminate]|constructor].
  - split; [intros H; inversion H|intros [H _]; discriminate].
  - split; [intros H; inversion H|intros [H _]; discriminate].
  - split.
    + intros H. inversion H as [|? ? ? ? H1 H2]; subst. apply IH in H2 as [L H2]. split; [cbn; congruence|]. intros [|j] x y Ex Ey; cbn in *; [congruence|eauto].
    + intros [L H]. constructor; [apply (H 0%nat); reflexivity|]. apply IH. split; [cbn in L; congruence|]. intros j x y Ex Ey. apply (H (S j)); assumption.
Qed.
Lemma qrow_fun F row zs zs' : qrow F row zs -> qrow F row zs' -> zs = zs'.
Proof.
  intros H. revert zs'. induction H as [|x z row zs (q & -> & ->) H IH]; intros zs' H'; inversion H' as [|? z' ? zs2 (q' & E & ->) H2]; subst; [reflexivity|].
  injection E as <-. f_equal. apply IH, H2.
Qed.
Lemma qrows_fun F rows V V' : Forall2 (qrow F) rows V -> Forall2 (qrow F) rows V' -> V = V'.
Proof.
  intros H. revert V'. induction H as [|x z row zs Q H IH]; intros V' H'; inversion H' as [|? z' ? zs2 Q' H2]; subst; [reflexivity|].
  f_equal; [eapply qrow_fun; eauto|apply IH, H2].
Qed.
Lemma map_combine_fst {A B C} (f : B -> C) : forall (l : list A) (r : list B), length l = length r -> map fst (map (fun p : A * B => (fst p, f (snd p))) (combine l r)) = l.
Proof. induction l as [|a l IH]; intros [|b r] H; try discriminate; [reflexivity|]. cbn. f_equal. apply IH. cbn in H. lia. Qed.
Lemma map_combine_snd {A B C} (f : B -> C) : forall (l : list A) (r : list B), length l = length r -> map snd (map (fun p : A * B => (fst p, f (snd p))) (combine l r)) = map f r.
Proof. induction l as [|a l IH]; intros [|b r] H; try discriminate; [reflexivity|]. cbn. f_equal. apply IH. cbn in H. lia. Qed.
Lemma cp_test_spec d idx V : d = 2%nat \/ d = 3%nat -> length idx = S d -> length V = S d -> NoDup idx -> Forall (fun i => 0 <= i) idx ->
  exists b, cp_test d V idx = Ok b /\ (b = true <-> zero_inside d (combine idx V)).
Proof.
  intros [-> | ->] L1 L2 N P; unfold cp_test, zero_inside.
  - set (f := fun v : list Z => (nth 0 v 0, nth 1 v 0)). change (map _ (combine idx V)) with (map (fun p : Z * list Z => (fst p, f (snd p))) (combine idx V)).
    set (L := map _ (combine idx V)). assert (E1 : map fst L = idx) by (apply map_combine_fst; congruence). assert (E2 : map snd L = map f V) by (apply map_combine_snd; congruence).
    rewrite <- E2. assert (Ln : length L = 3%nat) by (rewrite <- (map_length fst), E1; exact L1). rewrite <- E1. apply inside_lemma2; [exact Ln|rewrite E1; exact N|].
    rewrite Forall_forall in *. intros p Hp. apply P. rewrite <- E1. apply in_map, Hp.
  - set (f := fun v : list Z => (nth 0 v 0, nth 1 v 0, nth 2 v 0)). change (map _ (combine idx V)) with (map (fun p : Z * list Z => (fst p, f (snd p))) (combine idx V)).
    set (L := map _ (combine idx V)). assert (E1 : map fst L = idx) by (apply map_combine_fst; congruence). assert (E2 : map snd L = map f V) by (apply map_combine_snd; congruence).
    rewrite <- E2. assert (Ln : length L = 4%nat) by (rewrite <- (map_length fst), E1; exact L1). rewrite <- E1. apply inside_lemma3; [exact Ln|rewrite E1; exact N|].
    rewrite Forall_forall in *. intros p Hp. apply P. rewrite <- E1. apply in_map, Hp.
Qed.
Lemma mesh_ids_range c (k : key) : config_ok c -> length (fst k) = S (sdim c) -> (snd k < ntypes (S (sdim c)) (sdim c))%nat -> in_bounds (mesh_lb c) (mesh_ub c) (fst k) ->
  exists tag, el_to_integer (S (sdim c)) (mesh_lb c) (mesh_ub c) (el (sdim c) k) = Ok tag /\ 0 <= tag < Z.of_nat (ntypes (S (sdim c)) (sdim c)) * npoints (mesh_lb c) (mesh_ub c) /\ el_from_integer (S (sdim c)) (mesh_lb c) (mesh_ub c) (sdim c) tag = Ok (el (sdim c) k).
Proof.
  intros OK Lc Ht B. destruct (mesh_lengths c OK) as [L1 L2]. assert (Sz := ok_size c OK).
  assert (D := mesh_lat_ok c OK). rewrite mesh_dims in D. apply lat_ok_forall in D. apply Forall_app in D as [D1 D2].
  assert (I : int_list (mesh_lb c) /\ int_list (mesh_ub c) /\ Forall2 Z.le (mesh_lb c) (mesh_ub c)).
  { unfold mesh_lb, mesh_ub. inversion D2 as [|? ? (H1 & H2 & H3) _]; subst. cbn [fst snd] in *. clear -D1 H1 H2 H3. split; [|split].
    - apply Forall_app. split; [|constructor; [lia|constructor]]. apply Forall_forall. intros x Hx. apply in_map_iff in Hx as ([s n] & <- & Hx). rewrite Forall_forall in D1. apply D1 in Hx. cbn in *. lia.
    - apply Forall_app. split; [|constructor; [lia|constructor]]. apply Forall_forall. intros x Hx. apply in_map_iff in Hx as ([s n] & <- & Hx). rewrite Forall_forall in D1. apply D1 in Hx. cbn in *. lia.
    - apply Forall2_app; [|constructor; [lia|constructor]]. induction D1 as [|[s n] l H D IH]; cbn; constructor; auto. cbn in H. lia. }
  destruct I as (I1 & I2 & I3). destruct (element_ids_lemma (S (sdim c)) (sdim c) (mesh_lb c) (mesh_ub c)) as (N & _ & EN & E & _); auto; try lia.
  { assert (T : Z.of_nat (ntypes (S (sdim c)) (sdim c)) < 2 ^ 32).
    { destruct (ok_dim c OK) as [-> | ->]; vm_compute; reflexivity. }
    assert (V := npoints_pos _ _ I3). nia. }
  destruct (E (el (sdim c) k)) as (i & H1 & H3 & H2); [|reflexivity|exact B|rewrite EN in H3; eauto].
  split; [cbn; lia|]. split; [exact Ht|exact Lc].
Qed.

Lemma mesh_ids c (k : key) : config_ok c -> length (fst k) = S (sdim c) -> (snd k < ntypes (S (sdim c)) (sdim c))%nat -> in_bounds (mesh_lb c) (mesh_ub c) (fst k) ->
  exists tag, el_to_integer (S (sdim c)) (mesh_lb c) (mesh_ub c) (el (sdim c) k) = Ok tag /\ el_from_integer (S (sdim c)) (mesh_lb c) (mesh_ub c) (sdim c) tag = Ok (el (sdim c) k).
Proof. intros OK L H B. destruct (mesh_ids_range c k OK L H B) as (tag & H1 & _ & H2). eauto. Qed.

Section Check.
  Variables (measure : list snapshot -> Z -> key -> fpoint) (c : config) (all : list snapshot) (t0 : Z) (i m : nat) (st : state).
  Hypothesis (OK : config_ok c) (SO : Forall (snapshot_ok c) all) (T0 : 0 <= t0).
  Hypothesis (Sn : snaps st = skipn i (firstn m all)) (Cu : cur st = t0 + Z.of_nat i).
  Let d := sdim c.

  Lemma local_length : length (local_domain c) = d.
  Proof. unfold d. destruct (ok_domain c OK) as [<- _]. assert (F := ok_local c OK). clear -F. induction F; cbn; congruence. Qed.

  (** a vertex of a face that starts at the current time step *)
  Variables (k : key). Hypothesis (K : starts_at c (cur st) k).
  Lemma corner_facts : length (fst k) = S d /\ nth d (fst k) 0 = cur st /\
    forall j l, nth_error (local_domain c) j = Some l -> fst l <= nth j (fst k) 0 < fst l + snd l.
  Proof.
    destruct K as [Ct _]. apply contains_nth in Ct as [L H]. assert (Ll := local_length).
    rewrite app_length, Ll in L. cbn in L. split; [lia|]. split.
    - assert (E : nth_error (local_domain c ++ [(cur st, 1)]) d = Some (cur st, 1)) by (rewrite nth_error_app2, Ll, Nat.sub_diag by lia; reflexivity).
      apply H in E. lia.
    - intros j [s n] E. cbn. apply H. rewrite nth_error_app1; [exact E|]. apply nth_error_Some. congruence.
  Qed.
  Lemma mesh_ub_nth j dm : nth_error (domain c) j = Some dm -> nth j (mesh_ub c) 0 = fst dm + snd dm - 1.
  Proof.
    intros E. unfold mesh_ub. rewrite app_nth1 by (rewrite map_length; apply nth_error_Some; congruence).
    apply (map_nth_error (fun d => fst d + snd d - 1)) in E. apply (nth_error_nth _ _ 0) in E. exact E.
  Qed.
  Lemma index_in_range u : cube_point (S d) u -> in_bounds (mesh_lb c) (mesh_ub c) (padd (fst k) u) ->
    in_range (map snd (local_array c)) (psub (firstn d (padd (fst k) u)) (map fst (local_array c))).
  Proof.
    intros [Lu Cu'] B. destruct corner_facts as (Lc & _ & Hc). destruct (ok_array c OK) as [La Ha]. fold d in La.
    set (v := padd (fst k) u) in *. assert (Lv : length v = S d) by (unfold v; rewrite padd_length; congruence).
    destruct (mesh_lengths c OK) as [L1 L2]. fold d in L1, L2.
    rewrite in_bounds_nth in B by congruence. rewrite Lv in B.
    assert (Lf : length (firstn d v) = d) by (rewrite firstn_length; lia).
    apply Forall2_nth; [rewrite psub_length by (rewrite map_length; lia); rewrite map_length; congruence|].
    rewrite map_length, La. intros j Hj. rewrite nth_psub by (rewrite map_length; lia).
    destruct (nth_error (local_array c) j) as [a|] eqn:Ea; [|apply nth_error_None in Ea; lia].
    destruct (nth_error (local_domain c) j) as [l|] eqn:El; [|apply nth_error_None in El; rewrite local_length in El; lia].
    destruct (nth_error (domain c) j) as [dm|] eqn:Ed; [|apply nth_error_None in Ed; destruct (ok_domain c OK) as [Ld _]; fold d in Ld; lia].
    destruct (Ha j a l dm Ea El Ed) as [A1 A2]. specialize (Hc j l El). specialize (B j ltac:(lia)). rewrite (mesh_ub_nth j dm Ed) in B.
    assert (N1 := nth_firstn0 j d v Hj).
    assert (N2 : nth j (map fst (local_array c)) 0 = fst a) by (apply nth_error_nth; apply map_nth_error; exact Ea).
    assert (N3 : nth j (map snd (local_array c)) 0 = snd a) by (apply nth_error_nth; apply map_nth_error; exact Ea).
    rewrite N1, N2, N3. assert (Vj : nth j v 0 = nth j (fst k) 0 + nth j u 0) by (unfold v; apply padd_nth; congruence).
    assert (Uj : nth j u 0 = 0 \/ nth j u 0 = 1).
    { rewrite Forall_forall in Cu'. apply Cu'. apply nth_In. lia. }
    rewrite Vj in *. clear - A1 A2 Hc B Uj. lia.
  Qed.
  Lemma time_facts u : cube_point (S d) u -> nth d (padd (fst k) u) 0 = cur st + nth d u 0 /\ (nth d u 0 = 0 \/ nth d u 0 = 1).
  Proof.
    intros [Lu Cu']. destruct corner_facts as (Lc & Tc & _). rewrite padd_nth by congruence. rewrite Tc. split; [reflexivity|].
    rewrite Forall_forall in Cu'. apply Cu'. apply nth_In. lia.
  Qed.
  Lemma vertex_vector_spec u : cube_point (S d) u -> in_bounds (mesh_lb c) (mesh_ub c) (padd (fst k) u) -> (Z.to_nat (nth d u 0%Z) < length (snaps st))%nat ->
    exists row, vertex_vector c st (padd (fst k) u) = Ok row /\ length row = d /\ Forall small row /\
      forall j, (j < d)%nat -> nth_error row j = field_value c all t0 (padd (fst k) u) j /\ exists x, nth_error row j = Some x.
  Proof.
    intros Hu B Hs. destruct (time_facts u Hu) as [Tv Tu]. set (v := padd (fst k) u) in *.
    assert (Lv : length v = S d). { destruct corner_facts as (Lc & _). unfold v. destruct Hu. rewrite padd_length; congruence. }
    assert (IR := index_in_range u Hu B). fold v in IR.
    set (iv := Z.to_nat (nth d u 0)) in *.
    destruct (nth_error (snaps st) iv) as [s|] eqn:Es; [|apply nth_error_None in Es; lia].
    assert (Ea : nth_error all (Z.to_nat (nth d v 0 - t0)) = Some s).
    { rewrite Tv, Cu. replace (Z.to_nat (t0 + Z.of_nat i + nth d u 0 - t0)) with (i + iv)%nat by (unfold iv; lia).
      rewrite Sn, nth_error_skipn in Es. apply nth_error_firstn in Es. exact Es. }
    assert (So : snapshot_ok c s) by (rewrite Forall_forall in SO; apply SO; eapply nth_error_In; exact Ea).
    destruct So as (W & Ds & Sm).
    unfold vertex_vector. fold d. assert (Ei : (if nth d v 0 =? cur st then 0%nat else 1%nat) = iv).
    { rewrite Tv. unfold iv. destruct (Z.eqb_spec (cur st + nth d u 0) (cur st)); destruct Tu as [E|E]; rewrite E; try reflexivity; lia. }
    rewrite Ei. unfold vget. rewrite Es. cbn [of_option bind].
    destruct (ok_array c OK) as [La Ha]. fold d in La.
    assert (Ex : map (fun i0 => u64 (nth i0 v 0 - fst (nth i0 (local_array c) (0, 0)))) (seq 0 d) = psub (firstn d v) (map fst (local_array c))).
    { apply nth_ext0; [rewrite map_length, seq_length, psub_length; rewrite ?firstn_length, ?map_length; lia|].
      rewrite map_length, seq_length. intros j Hj.
      set (f := fun i0 => u64 (nth i0 v 0 - fst (nth i0 (local_array c) (0, 0)))).
      rewrite (nth_indep (map f (seq 0 d)) 0 (f 0%nat)) by (rewrite map_length, seq_length; exact Hj). rewrite map_nth. rewrite seq_nth by exact Hj. cbn [Nat.add]. unfold f.
      rewrite nth_psub by (rewrite firstn_length, map_length; lia).
      assert (N1 := nth_firstn0 j d v Hj).
      assert (E : nth j (map fst (local_array c)) 0 = fst (nth j (local_array c) (0, 0))) by (change 0 with (fst (0, 0)) at 1; apply map_nth).
      rewrite N1, E. apply u64_id.
      assert (LEN : length (map snd (local_array c)) = length (psub (firstn d v) (map fst (local_array c)))) by (rewrite map_length, psub_length; rewrite ?firstn_length, ?map_length; lia).
      assert (IR' := proj2 (Forall2_nth _ _ _ LEN) IR). cbv beta in IR'.
      specialize (IR' j). rewrite map_length, La in IR'. specialize (IR' Hj). rewrite nth_psub in IR' by (rewrite firstn_length, map_length; lia). rewrite N1, E in IR'.
      assert (Nb : numel (map snd (local_array c)) < 2 ^ 64).
      { destruct W as (_ & _ & Nb & _). rewrite Ds in Nb. change (numel (Z.of_nat (sdim c) :: map snd (local_array c))) with (Z.of_nat d * numel (map snd (local_array c))) in Nb.
        assert (D1 := d_range c OK). fold d in D1. destruct (dim_le_numel (map snd (local_array c))) as [P _]; [|nia].
        clear -IR. induction IR; constructor; auto. lia. }
      destruct (dim_le_numel (map snd (local_array c))) as [_ P]; [clear -IR; induction IR; constructor; auto; lia|].
      rewrite Forall_forall in P. assert (P' : nth j (map snd (local_array c)) 0 <= numel (map snd (local_array c))) by (apply P, nth_In; rewrite map_length; lia). lia. }
    rewrite Ex.
    assert (Each : forall j, (j < d)%nat -> exists x, at_var s (Z.of_nat j :: psub (firstn d v) (map fst (local_array c))) = Ok x /\ field_value c all t0 v j = Some x /\ In x (buf s)).
    { intros j Hj. assert (R : in_range (dims s) (Z.of_nat j :: psub (firstn d v) (map fst (local_array c)))).
      { rewrite Ds. constructor; [lia|exact IR]. }
      destruct (at_spec s _ W R) as [_ E]. assert (Lb := lin_bounds _ _ R). assert (Bl := W). destruct Bl as (_ & _ & _ & _ & Bl).
      unfold field_value. fold d. rewrite Ea. rewrite E. unfold zget, vget. destruct (Z.leb_spec 0 (lin (dims s) (Z.of_nat j :: psub (firstn d v) (map fst (local_array c))))); [|lia].
      destruct (nth_error (buf s) _) as [x|] eqn:En; [|apply nth_error_None in En; lia]. exists x. split; [reflexivity|]. split; [reflexivity|eapply nth_error_In; exact En]. }
    destruct (mapM_seq_ok (fun j => at_var s (Z.of_nat j :: psub (firstn d v) (map fst (local_array c)))) d 0) as (row & Er & Lr & Hr).
    { intros j Hj. destruct (Each j) as (x & Hx & _); [lia|]. eauto. }
    exists row. split; [exact Er|]. split; [exact Lr|]. split.
    - apply Forall_forall. intros x Hx. apply In_nth_error in Hx as (j & Hj). assert (Hjd : (j < d)%nat) by (rewrite <- Lr; apply nth_error_Some; congruence).
      destruct (Hr j Hjd) as (y & Ey & Ay). destruct (Each j Hjd) as (y' & Ay' & _ & Iy). cbn in Ay. assert (y = y') by congruence. assert (x = y) by congruence. subst.
      intros q ->. apply Sm. exact Iy.
    - intros j Hj. destruct (Hr j Hj) as (y & Ey & Ay). destruct (Each j Hj) as (y' & Ay' & Fy & _). cbn in Ay. rewrite Ey. split; [congruence|eauto].
  Qed.
  Lemma vector_at_qrow F v row zs : length row = d -> (forall j, (j < d)%nat -> nth_error row j = field_value c all t0 v j) -> (vector_at c all t0 F v zs <-> qrow F row zs).
  Proof.
    intros Lr Hr. unfold vector_at, qrow. rewrite Forall2_nth_error. fold d. split.
    - intros [L H]. split; [congruence|]. intros j x z Ex Ez. destruct (H j z Ez) as (q & E & ->). exists q. split; [|reflexivity].
      rewrite <- Hr in E by (rewrite <- L; apply nth_error_Some; congruence). congruence.
    - intros [L H]. split; [congruence|]. intros j z Ez. assert (Hj : (j < d)%nat) by (rewrite <- Lr, L; apply nth_error_Some; congruence).
      destruct (nth_error row j) as [x|] eqn:Ex; [|apply nth_error_None in Ex; lia]. destruct (H j x z Ex Ez) as (q & -> & ->). exists q. split; [|reflexivity]. rewrite <- Hr by exact Hj. exact Ex.
  Qed.
  Lemma factor_range : 0 < factor st <= 2 ^ 21.
  Proof. unfold factor. assert (R := nbits_range (reso st)). split; [apply Z.pow_pos_nonneg; lia|]. apply Z.pow_le_mono_r; lia. Qed.
  Lemma check_spec : (1 <= length (snaps st))%nat -> (flat_type (S d) d (snd k) \/ (2 <= length (snaps st))%nat) ->
    exists o, check_simplex measure c st k = Ok o /\
      forall p, o = Some p <-> punctured c all t0 (factor st) k /\ describes c (cur st) k (measure (snaps st) (cur st) k) p.
  Proof.
    intros S1 S2. destruct corner_facts as (Lc & Tc & _). assert (Ht := proj2 K). fold d in Ht. assert (Dr := d_range c OK). fold d in Dr.
    destruct (face_vertices (S d) d k ltac:(lia) ltac:(lia) Lc Ht) as (s & Es & Ty & Ev & ND & Ls).
    destruct (mesh_lengths c OK) as [L1 L2]. fold d in L1, L2.
    destruct (valid_spec (S d) (mesh_lb c) (mesh_ub c) d k s Es Ty Lc L1 L2) as (b & Eb & Ib).
    unfold check_simplex. fold d. rewrite Eb. cbn [bind]. destruct b; cbn [negb].
    2:{ exists None. split; [reflexivity|]. intros p. split; [discriminate|]. intros ((vs & V & E & B & _) & _). fold d in E. rewrite Ev in E. injection E as <-. apply Ib in B. discriminate. }
    assert (B : Forall (in_bounds (mesh_lb c) (mesh_ub c)) (map (padd (fst k)) s)) by (apply Ib; reflexivity). clear Ib Eb.
    rewrite Ev. cbn [bind]. set (vs := map (padd (fst k)) s) in *.
    assert (Cs := Ty). destruct Cs as (Lsu & Cs & O0 & _).
    assert (Each : forall v, In v vs -> exists row, vertex_vector c st v = Ok row /\ length row = d /\ Forall small row /\ forall j, (j < d)%nat -> nth_error row j = field_value c all t0 v j).
    { intros v Hv. assert (Bv : in_bounds (mesh_lb c) (mesh_ub c) v) by (rewrite Forall_forall in B; apply B, Hv). apply in_map_iff in Hv as (u & <- & Hu). rewrite Forall_forall in Cs.
      destruct (vertex_vector_spec u (Cs u Hu) Bv) as (row & H1 & H2 & H3 & H4).
      - destruct (time_facts u (Cs u Hu)) as [_ [Z0|Z1]]; [rewrite Z0; cbn; lia|]. destruct S2 as [Fl|S2]; [|rewrite Z1; cbn; lia].
        destruct Fl as (s' & Es' & Fl). rewrite Es in Es'. injection Es' as <-. rewrite Forall_forall in Fl. specialize (Fl u Hu). replace (S d - 1)%nat with d in Fl by lia. lia.
      - exists row. split; [exact H1|]. split; [exact H2|]. split; [exact H3|]. intros j Hj. apply H4, Hj. }
    destruct (mapM_all_ok (vertex_vector c st) vs) as (rows & Er & F2); [intros v Hv; destruct (Each v Hv) as (row & E & _); eauto|].
    rewrite Er. cbn [bind].
    assert (Hrows : Forall2 (fun v row => length row = d /\ Forall small row /\ forall j, (j < d)%nat -> nth_error row j = field_value c all t0 v j) vs rows).
    { clear -F2 Each. induction F2 as [|v row vs rows E F IH]; constructor; [|apply IH; intros; apply Each; right; assumption]. destruct (Each v (or_introl eq_refl)) as (row' & E' & H). assert (row' = row) by congruence. subst. exact H. }
    destruct (quantize_rows_spec (factor st) rows factor_range) as (o & Eo & Io).
    { clear -Hrows. induction Hrows as [|v row vs rows (_ & H & _) F IH]; constructor; auto. }
    rewrite Eo. cbn [bind].
    assert (VA : forall V, Forall2 (vector_at c all t0 (factor st)) vs V <-> Forall2 (qrow (factor st)) rows V).
    { assert (G : forall vs rows, Forall2 (fun v row => length row = d /\ Forall small row /\ forall j, (j < d)%nat -> nth_error row j = field_value c all t0 v j) vs rows ->
        forall V, Forall2 (vector_at c all t0 (factor st)) vs V <-> Forall2 (qrow (factor st)) rows V); [|exact (G vs rows Hrows)].
      intros vs' rows' Hr'. induction Hr' as [|v row vs'' rows'' (H1 & _ & H2) F IH]; intros V.
      - split; intros H; inversion H; constructor.
      - split; intros H; inversion H as [|? zs ? V' Q1 Q2]; subst; constructor; try (apply IH; exact Q2); apply (vector_at_qrow _ v row zs); assumption. }
    destruct o as [V|].
    2:{ exists None. split; [reflexivity|]. intros p. split; [discriminate|]. intros ((vs' & V & E & _ & Fv & _) & _). fold d in E. rewrite Ev in E. injection E as <-. apply VA in Fv. apply Io in Fv. discriminate. }
    assert (QV : Forall2 (qrow (factor st)) rows V) by (apply Io; reflexivity).
    assert (LV : length V = S d). { apply Forall2_nth_error in QV as [E _]. apply Forall2_nth_error in F2 as [E' _]. congruence. }
    assert (Ix : map (vertex_index c) vs = map (vertex_number c) vs).
    { apply map_ext_in. intros v Hv. rewrite Forall_forall in B. apply vertex_index_spec; [exact OK|apply B, Hv]. }
    rewrite Ix.
    destruct (cp_test_spec d (map (vertex_number c) vs) V) as (b & Eb & Ib); [apply (ok_dim c OK)|rewrite map_length; exact Ls|exact LV| | |].
    { clear -ND B OK. induction ND as [|v vs Nv ND IH]; [constructor|]. inversion B as [|? ? B1 B2]; subst. cbn. constructor; [|apply IH; exact B2].
      intros H. apply in_map_iff in H as (v' & E & Hv'). rewrite Forall_forall in B2. assert (v' = v) by (apply (vertex_number_inj c OK); auto). subst. contradiction. }
    { apply Forall_forall. intros x Hx. apply in_map_iff in Hx as (v & <- & Hv). rewrite Forall_forall in B. apply vertex_index_spec; [exact OK|apply B, Hv]. }
    rewrite Eb. cbn [bind].
    assert (Pb : punctured c all t0 (factor st) k <-> b = true).
    { rewrite Ib. split.
      - intros (vs' & V' & E & _ & Fv & Z). fold d in E, Z. rewrite Ev in E. injection E as <-. apply VA in Fv. assert (V' = V) by (eapply qrows_fun; eauto). subst. exact Z.
      - intros Z. exists vs, V. split; [exact Ev|]. split; [exact B|]. split; [apply VA; exact QV|exact Z]. }
    destruct b; cbn [negb].
    2:{ exists None. split; [reflexivity|]. intros p. split; [discriminate|]. intros [P _]. apply Pb in P. discriminate. }
    destruct (mesh_ids c k OK Lc Ht) as (tag & Et & _).
    { rewrite Forall_forall in B. apply nth_error_In in O0. assert (E0 : padd (fst k) (repeat 0 (S d)) = fst k); [|rewrite <- E0; apply B; unfold vs; apply in_map; exact O0].
      apply nth_ext0; [rewrite padd_length; rewrite repeat_length; congruence|]. intros j Hj. rewrite padd_nth by (rewrite repeat_length; exact Lc).
      rewrite nth_repeat. lia. }
    fold d in Et. rewrite Et. cbn [bind]. destruct (is_ordinal_spec (S d) d (snd k) ltac:(lia) ltac:(lia) Ht) as (ob & Eob & Iob). cbn [etype el]. rewrite Eob. cbn [bind].
    eexists. split; [reflexivity|]. intros p. split.
    - intros E. injection E as <-. split; [apply Pb; reflexivity|]. unfold describes. cbn. fold d. rewrite Et. repeat (split; [reflexivity|]). exact Iob.
    - intros [_ D]. destruct D as (D1 & D2 & D3 & D4 & D5 & D6 & D7 & D8 & D9). fold d in D8, D9. rewrite Et in D8. injection D8 as D8. f_equal. destruct p; cbn in *. subst.
      f_equal. destruct ob, ordinal; try reflexivity; [symmetry; apply D9, Iob; reflexivity|apply Iob, D9; reflexivity].
  Qed.
End Check.
