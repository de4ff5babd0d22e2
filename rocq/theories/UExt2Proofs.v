(** Lemmas about [UExt2]: the simplices between two layers. *)
From Coq Require Import ZArith.
From Verif Require Import Base UnionFind UnionFindProofs SoS UMesh2 UMesh2Proofs PropUMesh2 UExt2.
Local Open Scope Z_scope.

Lemma cmod_enc i t n : 0 <= i < n -> cmod (i + t * n) n = Ok (if (t <? 0) && (i =? 0) then n else i).
Proof.
  intros H. unfold cmod. destruct (Z.eqb_spec n 0); [lia|]. f_equal. destruct (Z.ltb_spec t 0) as [Ht|Ht]; cbn [andb].
  - destruct (Z.eqb_spec i 0) as [->|Ni].
    + destruct (Z.ltb_spec (0 + t * n) 0); [|nia]. rewrite Z.add_0_l, Z.rem_mul by lia. lia.
    + destruct (Z.ltb_spec (i + t * n) 0); [|nia]. rewrite <- (Z.opp_involutive (i + t * n)), Z.rem_opp_l by lia. rewrite Z.rem_mod_nonneg by lia. replace (- (i + t * n)) with ((n - i) + (- t - 1) * n) by ring. rewrite Z.mod_add, Z.mod_small by lia. lia.
  - destruct (Z.ltb_spec (i + t * n) 0); [nia|]. rewrite Z.rem_mod_nonneg by lia. rewrite Z.mod_add, Z.mod_small by lia. reflexivity.
Qed.
Lemma cmod_small i n : 0 <= i < n -> cmod i n = Ok i.
Proof. intros H. pose proof (cmod_enc i 0 n H) as E. rewrite Z.mul_0_l, Z.add_0_r in E. exact E. Qed.
Lemma cmod_self n : 0 < n -> cmod n n = Ok 0.
Proof. intros H. pose proof (cmod_enc 0 1 n ltac:(lia)) as E. rewrite Z.mul_1_l, Z.add_0_l in E. exact E. Qed.
Lemma div_enc i t n : 0 <= i < n -> (i + t * n) / n = t.
Proof. intros H. rewrite Z.div_add, Z.div_small by lia. reflexivity. Qed.
Lemma umod_enc b c n : 0 <= b < n -> 0 <= c -> umod (b + c * n) n = Ok b.
Proof. intros H Hc. unfold umod. destruct (Z.eqb_spec n 0); [lia|]. rewrite Z.rem_mod_nonneg, Z.mod_add, Z.mod_small by nia. reflexivity. Qed.
(** reducing twice *)
Lemma cmod_twice i t n : 0 <= i < n -> exists j, cmod (i + t * n) n = Ok j /\ cmod j n = Ok i /\ (j = i \/ j = n /\ i = 0 /\ t < 0).
Proof.
  intros H. rewrite (cmod_enc i t n H). destruct (Z.ltb_spec t 0); cbn [andb]; [destruct (Z.eqb_spec i 0)|]; eexists; (split; [reflexivity|]); [subst; split; [apply cmod_self; lia|auto]|split; [apply cmod_small, H|auto]..].
Qed.

(** ** Specification: vertex v of layer t has the id v + n0*t.  A simplex lies between two layers t (where it has a vertex) and t+1, over a triangle (or a vertex) of the mesh.
    Staircase triangulation of the prisms: the base vertex of a lower vertex is not greater than that of an upper one *)
Definition st_simplex (n0 : nat) (T : list (Z * Z * Z)) (w : list Z) : Prop :=
  let layer x := x / Z.of_nat n0 in let base x := x mod Z.of_nat n0 in
  StronglySorted Z.lt w /\
  exists t, (exists x, In x w /\ layer x = t) /\ (forall x, In x w -> layer x = t \/ layer x = t + 1) /\
    (forall x y, In x w -> In y w -> layer x = t -> layer y = t + 1 -> base x <= base y) /\
    ((exists b, forall x, In x w -> corner T b (base x)) \/ (exists v, forall x, In x w -> base x = v)).
(** the same with the lower and upper vertices apart *)
Definition stair (n0 : nat) (T : list (Z * Z * Z)) (L U : list Z) : Prop :=
  L <> [] /\ StronglySorted Z.lt L /\ StronglySorted Z.lt U /\ (forall v, In v (L ++ U) -> 0 <= v < Z.of_nat n0) /\ (forall l u, In l L -> In u U -> l <= u) /\
  ((exists b, forall v, In v (L ++ U) -> corner T b v) \/ (exists v, forall x, In x (L ++ U) -> x = v)).
Definition lift (n0 : nat) (t : Z) (L U : list Z) : list Z := map (fun v => v + t * Z.of_nat n0) (L ++ map (fun v => v + Z.of_nat n0) U).
Lemma dm v t n : 0 <= v < n -> (v + t * n) / n = t /\ (v + t * n) mod n = v.
Proof. intros H. rewrite Z.div_add, Z.mod_add, Z.div_small, Z.mod_small by lia. lia. Qed.
Lemma dm1 v t n : 0 <= v < n -> (v + n + t * n) / n = t + 1 /\ (v + n + t * n) mod n = v.
Proof. intros H. replace (v + n + t * n) with (v + (t + 1) * n) by ring. apply dm, H. Qed.
Lemma sorted_map (f : Z -> Z) l : (forall x y, x < y -> f x < f y) -> StronglySorted Z.lt l -> StronglySorted Z.lt (map f l).
Proof. intros H. induction 1 as [|a l S IH F]; cbn; constructor; auto. rewrite Forall_forall in *. intros y Hy. apply in_map_iff in Hy. destruct Hy as (x & <- & Hx). auto. Qed.
Lemma sorted_app (l l' : list Z) : StronglySorted Z.lt l -> StronglySorted Z.lt l' -> (forall x y, In x l -> In y l' -> x < y) -> StronglySorted Z.lt (l ++ l').
Proof. induction 1 as [|a l S IH F]; cbn; intros S' H; [exact S'|]. constructor; [apply IH; [exact S'|intros; apply H; auto]|]. rewrite Forall_forall in *. intros y Hy. apply in_app_or in Hy. destruct Hy as [Hy|Hy]; [auto|apply H; auto]. Qed.
Lemma stair_simplex n0 T t L U : stair n0 T L U -> st_simplex n0 T (lift n0 t L U).
Proof.
  intros (N & SL & SU & R & LU & B). set (n := Z.of_nat n0) in *. assert (X : forall x, In x (lift n0 t L U) -> (exists v, In v L /\ x = v + t * n) \/ exists v, In v U /\ x = v + n + t * n).
  { intros x H. unfold lift in H. apply in_map_iff in H. destruct H as (y & <- & H). apply in_app_or in H. destruct H as [H|H]; [left; eauto|]. apply in_map_iff in H. destruct H as (v & <- & H). right. exists v. split; [exact H|reflexivity]. }
  assert (RL : forall v, In v L -> 0 <= v < n) by (intros; apply R, in_or_app; auto). assert (RU : forall v, In v U -> 0 <= v < n) by (intros; apply R, in_or_app; auto).
  split.
  - unfold lift. apply sorted_map; [intros; lia|]. apply sorted_app; [exact SL|apply sorted_map; [intros; lia|exact SU]|]. intros x y Hx Hy. apply in_map_iff in Hy. destruct Hy as (u & <- & Hu). specialize (RL _ Hx). specialize (RU _ Hu). fold n. lia.
  - exists t. fold n. split; [|split; [|split]].
    + destruct L as [|l L']; [contradiction|]. exists (l + t * n). split; [left; reflexivity|apply dm, RL; left; reflexivity].
    + intros x H. destruct (X x H) as [(v & Hv & ->)|(v & Hv & ->)]; [left; apply dm; auto|right; apply dm1; auto].
    + intros x y Hx Hy. destruct (X x Hx) as [(v & Hv & ->)|(v & Hv & ->)], (X y Hy) as [(u & Hu & ->)|(u & Hu & ->)]; intros A B'; try (rewrite (proj1 (dm1 v t n ltac:(auto))) in A; lia); try (rewrite (proj1 (dm u t n ltac:(auto))) in B'; lia). rewrite (proj2 (dm v t n ltac:(auto))), (proj2 (dm1 u t n ltac:(auto))). auto.
    + assert (Y : forall x, In x (lift n0 t L U) -> exists v, In v (L ++ U) /\ x mod n = v) by (intros x H; destruct (X x H) as [(v & Hv & ->)|(v & Hv & ->)]; exists v; (split; [apply in_or_app; auto|]); [apply dm|apply dm1]; auto).
      destruct B as [(b & B)|(v & B)]; [left; exists b; intros x H; destruct (Y x H) as (u & Hu & ->); auto|right; exists v; intros x H; destruct (Y x H) as (u & Hu & ->); auto].
Qed.
Lemma split_layers n o : 0 < n -> forall w, StronglySorted Z.lt w -> (forall x, In x w -> o <= x < o + 2 * n) -> exists L U, w = map (fun v => v + o) (L ++ map (fun v => v + n) U) /\ (forall v, In v L -> 0 <= v < n) /\ (forall v, In v U -> 0 <= v < n) /\ StronglySorted Z.lt L /\ StronglySorted Z.lt U.
Proof.
  intros Hn. induction 1 as [|x w S IH F]; intros H.
  - exists [], []. split; [reflexivity|]. split; [intros v []|]. split; [intros v []|]. split; constructor.
  - destruct (Z.lt_ge_cases x (o + n)) as [Lt|Ge].
    + destruct IH as (L & U & E & RL & RU & SL & SU); [intros; apply H; cbn; auto|]. exists ((x - o) :: L), U. split; [cbn [app map]; rewrite <- E; f_equal; lia|]. split; [intros v [<-|Hv]; [specialize (H x); cbn in H; lia|auto]|]. split; [exact RU|]. split; [|exact SU]. constructor; [exact SL|]. rewrite Forall_forall in *. intros v Hv. specialize (F (v + o)). rewrite E in F. assert (In (v + o) (map (fun v => v + o) (L ++ map (fun v => v + n) U))) as I by (apply in_map_iff; exists v; split; [reflexivity|apply in_or_app; auto]). specialize (F I). lia.
    + exists [], (map (fun y => y - o - n) (x :: w)). cbn [app]. rewrite !map_map. assert (M : forall l, map (fun y => y - o - n + n + o) l = l) by (intros l; rewrite <- (map_id l) at 2; apply map_ext; intros; lia). split; [symmetry; apply M|]. split; [intros v []|]. split.
      * intros v Hv. apply in_map_iff in Hv. destruct Hv as (y & <- & Hy). pose proof (H y Hy). destruct Hy as [<-|Hy]; [lia|]. rewrite Forall_forall in F. specialize (F _ Hy). lia.
      * split; [constructor|]. apply (sorted_map (fun y => y - o - n)); [intros; lia|constructor; assumption].
Qed.
Lemma simplex_stair n0 T w : (0 < n0)%nat -> st_simplex n0 T w -> exists t L U, w = lift n0 t L U /\ stair n0 T L U.
Proof.
  intros P (S & t & (x0 & I0 & E0) & La & Le & B). set (n := Z.of_nat n0) in *. assert (Pn : 0 < n) by lia.
  destruct (split_layers n (t * n) Pn w S) as (L & U & E & RL & RU & SL & SU).
  { intros x Hx. destruct (La x Hx) as [A|A]; pose proof (Z.div_mod x n ltac:(lia)); pose proof (Z.mod_pos_bound x n Pn); rewrite A in *; nia. }
  exists t, L, U. split; [exact E|].
  assert (IL : forall v, In v L -> In (v + t * n) w) by (intros v Hv; rewrite E; apply in_map_iff; exists v; split; [reflexivity|apply in_or_app; auto]).
  assert (IU : forall v, In v U -> In (v + n + t * n) w) by (intros v Hv; rewrite E; apply in_map_iff; exists (v + n); split; [reflexivity|apply in_or_app; right; apply in_map_iff; eauto]).
  split; [|split; [exact SL|split; [exact SU|split; [|split]]]].
  - intros ->. cbn [app] in E. rewrite E in I0. apply in_map_iff in I0. destruct I0 as (y & Ey & Iy). apply in_map_iff in Iy. destruct Iy as (v & <- & Iv). rewrite <- Ey in E0. rewrite (proj1 (dm1 v t n ltac:(auto))) in E0. lia.
  - intros v Hv. apply in_app_or in Hv. destruct Hv; auto.
  - intros l u Hl Hu. specialize (Le _ _ (IL l Hl) (IU u Hu)). rewrite (proj1 (dm l t n ltac:(auto))), (proj2 (dm l t n ltac:(auto))), (proj1 (dm1 u t n ltac:(auto))), (proj2 (dm1 u t n ltac:(auto))) in Le. auto.
  - assert (Y : forall v, In v (L ++ U) -> exists x, In x w /\ x mod n = v) by (intros v Hv; apply in_app_or in Hv; destruct Hv as [Hv|Hv]; [exists (v + t * n)|exists (v + n + t * n)]; (split; [auto|]); [apply dm|apply dm1]; auto).
    destruct B as [(b & B)|(v & B)]; [left; exists b; intros v Hv; destruct (Y v Hv) as (x & Ix & <-); auto|right; exists v; intros u Hv; destruct (Y u Hv) as (x & Ix & <-); auto].
Qed.

Section Ext.
Variables (n0 : nat) (T : list (Z * Z * Z)) (m : mesh2).
Hypotheses (W : well_formed n0 T) (D : describes n0 T m).
Notation N0 := (m_n m 0). Notation N1 := (m_n m 1). Notation N2 := (m_n m 2).


Definition tri (b x y z : Z) : Prop := 0 <= b < N2 /\ get_triangle m b = Ok (x, y, z).
Definition edg (e u v : Z) : Prop := get_edge m e = Ok (u, v).
Lemma tri_ok b x y z : tri b x y z -> 0 <= b < N2 /\ 0 <= x /\ x < y < z /\ z < N0 /\ forall v, corner T b v <-> among v (x, y, z).
Proof.
  intros [R E]. rewrite (d_triangles _ _ _ D) in *. rewrite (d_vertices _ _ _ D). destruct (tri_at_ok T b R) as (t & Et). destruct (d_triangle _ _ _ D b t Et) as (x' & y' & z' & E' & L & Am & _). rewrite E in E'. injection E' as <- <- <-.
  assert (C : forall v, corner T b v <-> among v (x, y, z)). { intros v. rewrite Am. split; [intros (t' & Et' & H); rewrite Et in Et'; injection Et' as <-; exact H|intros H; exists t; auto]. }
  destruct W as (Wr & _). pose proof (Wr b x ltac:(apply C; cbn; auto)). pose proof (Wr b z ltac:(apply C; cbn; auto)). repeat (split; [lia|]). exact C.
Qed.
Lemma tri_ex b : 0 <= b < N2 -> exists x y z, tri b x y z.
Proof. intros R. pose proof R as R'. rewrite (d_triangles _ _ _ D) in R'. destruct (tri_at_ok T b R') as (t & Et). destruct (d_triangle _ _ _ D b t Et) as (x & y & z & E & _). exists x, y, z. split; assumption. Qed.
Lemma tri_corner b v : corner T b v -> 0 <= b < N2.
Proof. intros (t & E & _). rewrite (d_triangles _ _ _ D). exact (tri_at_range _ _ _ E). Qed.
Lemma tri_inj b b' x y z : tri b x y z -> tri b' x y z -> b = b'.
Proof.
  intros H H'. destruct (tri_ok _ _ _ _ H) as (R & _ & _ & _ & C). destruct (tri_ok _ _ _ _ H') as (R' & _ & _ & _ & C'). rewrite (d_triangles _ _ _ D) in *. destruct (tri_at_ok T b R) as (t & Et). destruct (tri_at_ok T b' R') as (t' & Et').
  destruct W as (_ & _ & Wu & _). apply (Wu _ _ _ _ Et Et'). intros v. assert (K : corner T b v <-> corner T b' v) by (rewrite C, C'; reflexivity). unfold corner in K. rewrite Et, Et' in K. split; intros Q; [destruct (proj1 K ltac:(eauto)) as (s & Es & Hs)|destruct (proj2 K ltac:(eauto)) as (s & Es & Hs)]; injection Es as <-; exact Hs.
Qed.
Lemma find_tri b x y z : tri b x y z -> find_triangle m x y z = Some b.
Proof. intros H. destruct (tri_ok _ _ _ _ H) as (R & _ & L & _ & C). apply (d_find_triangle _ _ _ D). split; [cbn; lia|]. split; [|split]; apply C; cbn; auto. Qed.
Lemma edg_ok e u v : edg e u v -> 0 <= e < N1 /\ 0 <= u /\ u < v /\ v < N0.
Proof.
  intros E. pose proof (d_edge_range _ _ _ D _ _ _ E) as R. split; [exact R|]. destruct (d_edge _ _ _ D e R) as (u' & v' & E' & L & t & A & B). unfold edg in E. rewrite E in E'. injection E' as <- <-. destruct W as (Wr & _). pose proof (Wr _ _ A). pose proof (Wr _ _ B). rewrite (d_vertices _ _ _ D). lia.
Qed.
Lemma edg_ex e : 0 <= e < N1 -> exists u v, edg e u v.
Proof. intros R. destruct (d_edge _ _ _ D e R) as (u & v & E & _). eauto. Qed.
Lemma edg_inj e e' u v : edg e u v -> edg e' u v -> e = e'.
Proof. apply (d_edge_once _ _ _ D). Qed.
Lemma find_edg e u v : edg e u v -> find_edge m u v = Some e.
Proof. intros H. apply (d_find_edge _ _ _ D). auto. Qed.
Lemma edg_tri b u v : u < v -> corner T b u -> corner T b v -> exists e, edg e u v.
Proof. intros L A B. destruct (d_edge_onto _ _ _ D b u v L A B) as (e & _ & E). eauto. Qed.

(** ** Codes of simplices: type, base simplex, layer *)
Definition id3 (ty b t : Z) : Z := b + ty * N2 + t * xn m 3.
Definition tet3 (ty x y z : Z) : list Z := if ty =? 0 then [x; y; z; z + N0] else if ty =? 1 then [x; y; y + N0; z + N0] else [x; x + N0; y + N0; z + N0].
Definition id2 (ty b t : Z) : Z := b + ty * N2 + t * xn m 2.
Definition tri2 (ty x y z : Z) : list Z := if ty =? 0 then [x; y; z] else if ty =? 1 then [x; y; z + N0] else [x; y + N0; z + N0].
Definition id2e (ty e t : Z) : Z := e + 3 * N2 + ty * N1 + t * xn m 2.
Definition tri2e (ty u v : Z) : list Z := if ty =? 0 then [u; v; v + N0] else [u; u + N0; v + N0].
Definition id1 (ty e t : Z) : Z := e + ty * N1 + t * xn m 1.
Definition edg1 (ty u v : Z) : list Z := if ty =? 0 then [u; v] else [u; v + N0].
Definition id1v (v t : Z) : Z := v + 2 * N1 + t * xn m 1.
Definition up (t : Z) (l : list Z) : list Z := map (fun v => v + t * N0) l.
Ltac xns := unfold xn; cbn [Z.eqb Pos.eqb].
Lemma xn0 : xn m 0 = N0. Proof. reflexivity. Qed.
Lemma xn1 : xn m 1 = N1 * 2 + N0. Proof. reflexivity. Qed.
Lemma xn2 : xn m 2 = N2 + N2 * 2 + N1 * 2. Proof. reflexivity. Qed.
Lemma xn3 : xn m 3 = 3 * N2. Proof. reflexivity. Qed.
Lemma gs3 ty b t x y z : tri b x y z -> 0 <= ty < 3 -> get_simplex m 3 (id3 ty b t) = Ok (id3 ty b t, up t (tet3 ty x y z)).
Proof.
  intros H Ht. destruct (tri_ok _ _ _ _ H) as (R & _). assert (Ri : 0 <= b + ty * N2 < xn m 3) by (rewrite xn3; nia). unfold get_simplex, id3. rewrite (div_enc _ t _ Ri). destruct (cmod_twice _ t _ Ri) as (j & -> & Ej & Hj). cbn [bind]. unfold simplex_type. rewrite Ej. cbn [bind Z.eqb Pos.eqb].
  destruct (Z.eqb_spec N2 0); [lia|]. replace ((b + ty * N2) / N2) with ty by (symmetry; rewrite Z.div_add, Z.div_small by lia; lia). cbn [bind].
  assert (U : umod j N2 = Ok b). { destruct Hj as [->|(-> & E0 & _)]; [apply umod_enc; lia|]. rewrite xn3. assert (b = 0) by nia. subst b. pose proof (umod_enc 0 3 N2 ltac:(lia) ltac:(lia)) as X. rewrite Z.add_0_l in X. exact X. }
  rewrite U. cbn [bind]. rewrite (proj2 H). cbn [bind]. assert (ty = 0 \/ ty = 1 \/ ty = 2) as [->|[->| ->]] by lia; cbn [Z.eqb Pos.eqb bind tet3]; unfold up; cbn [map]; rewrite ?xn0; f_equal; f_equal; ring.
Qed.
Lemma gs2 ty b t x y z : tri b x y z -> 0 <= ty < 3 -> 0 <= t \/ b + ty * N2 <> 0 -> get_simplex m 2 (id2 ty b t) = Ok (id2 ty b t, up t (tri2 ty x y z)).
Proof.
  intros H Ht V. destruct (tri_ok _ _ _ _ H) as (R & _). pose proof (d_edges _ _ _ D) as P1. assert (Ri : 0 <= b + ty * N2 < xn m 2) by (rewrite xn2; nia). unfold get_simplex, id2. rewrite (div_enc _ t _ Ri). destruct (cmod_twice _ t _ Ri) as (j & -> & Ej & Hj). destruct Hj as [->|Hj]; [|lia]. cbn [bind]. unfold simplex_type. rewrite Ej. cbn [bind Z.eqb Pos.eqb].
  assert (ty = 0 \/ ty = 1 \/ ty = 2) as [->|[->| ->]] by lia.
  - destruct (Z.ltb_spec (b + 0 * N2) N2); [|lia]. cbn [Z.ltb Z.compare Pos.compare Pos.compare_cont]. rewrite umod_enc by lia. cbn [bind]. rewrite (proj2 H). cbn [bind Z.eqb Pos.eqb tri2]. unfold up. cbn [map]. rewrite ?xn0. f_equal; f_equal; ring.
  - destruct (Z.ltb_spec (b + 1 * N2) N2); [lia|]. destruct (Z.ltb_spec (b + 1 * N2) (2 * N2)); [|lia]. cbn [Z.ltb Z.compare Pos.compare Pos.compare_cont]. rewrite umod_enc by lia. cbn [bind]. rewrite (proj2 H). cbn [bind Z.eqb Pos.eqb tri2]. unfold up. cbn [map]. rewrite ?xn0. f_equal; f_equal; ring.
  - destruct (Z.ltb_spec (b + 2 * N2) N2); [lia|]. destruct (Z.ltb_spec (b + 2 * N2) (2 * N2)); [lia|]. destruct (Z.ltb_spec (b + 2 * N2) (3 * N2)); [|lia]. cbn [Z.ltb Z.compare Pos.compare Pos.compare_cont]. rewrite umod_enc by lia. cbn [bind]. rewrite (proj2 H). cbn [bind Z.eqb Pos.eqb tri2]. unfold up. cbn [map]. rewrite ?xn0. f_equal; f_equal; ring.
Qed.
Lemma gs2e ty e t u v : edg e u v -> 0 <= ty < 2 -> 0 <= t \/ e + 3 * N2 + ty * N1 <> 0 -> get_simplex m 2 (id2e ty e t) = Ok (id2e ty e t, up t (tri2e ty u v)).
Proof.
  intros H Ht V. destruct (edg_ok _ _ _ H) as (R & _). assert (P2 : 0 <= N2) by (rewrite (d_triangles _ _ _ D); lia). assert (Ri : 0 <= e + 3 * N2 + ty * N1 < xn m 2) by (rewrite xn2; nia). unfold get_simplex, id2e. rewrite (div_enc _ t _ Ri). destruct (cmod_twice _ t _ Ri) as (j & -> & Ej & Hj). destruct Hj as [->|Hj]; [|lia]. cbn [bind]. unfold simplex_type. rewrite Ej. cbn [bind Z.eqb Pos.eqb].
  destruct (Z.ltb_spec (e + 3 * N2 + ty * N1) N2); [nia|]. destruct (Z.ltb_spec (e + 3 * N2 + ty * N1) (2 * N2)); [nia|]. destruct (Z.ltb_spec (e + 3 * N2 + ty * N1) (3 * N2)); [nia|].
  assert (ty = 0 \/ ty = 1) as [->| ->] by lia.
  - destruct (Z.ltb_spec (e + 3 * N2 + 0 * N1) (3 * N2 + N1)); [|lia]. cbn [Z.ltb Z.compare Pos.compare Pos.compare_cont]. replace (e + 3 * N2 + 0 * N1 - 3 * N2) with (e + 0 * N1) by ring. rewrite umod_enc by lia. cbn [bind]. rewrite H. cbn [bind Z.eqb Pos.eqb tri2e]. unfold up. cbn [map]. rewrite ?xn0. f_equal; f_equal; ring.
  - destruct (Z.ltb_spec (e + 3 * N2 + 1 * N1) (3 * N2 + N1)); [lia|]. cbn [Z.ltb Z.compare Pos.compare Pos.compare_cont]. replace (e + 3 * N2 + 1 * N1 - 3 * N2) with (e + 1 * N1) by ring. rewrite umod_enc by lia. cbn [bind]. rewrite H. cbn [bind Z.eqb Pos.eqb tri2e]. unfold up. cbn [map]. rewrite ?xn0. f_equal; f_equal; ring.
Qed.
Lemma gs1 ty e t u v : edg e u v -> 0 <= ty < 2 -> 0 <= t \/ e + ty * N1 <> 0 -> get_simplex m 1 (id1 ty e t) = Ok (id1 ty e t, up t (edg1 ty u v)).
Proof.
  intros H Ht V. destruct (edg_ok _ _ _ H) as (R & R0 & R1 & R2). assert (Ri : 0 <= e + ty * N1 < xn m 1) by (rewrite xn1; nia). unfold get_simplex, id1. rewrite (div_enc _ t _ Ri). destruct (cmod_twice _ t _ Ri) as (j & -> & Ej & Hj). destruct Hj as [->|Hj]; [|lia]. cbn [bind]. unfold simplex_type. rewrite Ej. cbn [bind Z.eqb Pos.eqb].
  assert (ty = 0 \/ ty = 1) as [->| ->] by lia.
  - destruct (Z.ltb_spec (e + 0 * N1) N1); [|lia]. cbn [Z.ltb Z.compare Pos.compare Pos.compare_cont]. rewrite umod_enc by lia. cbn [bind]. rewrite H. cbn [bind Z.eqb Pos.eqb edg1]. unfold up. cbn [map]. rewrite ?xn0. f_equal; f_equal; ring.
  - destruct (Z.ltb_spec (e + 1 * N1) N1); [lia|]. destruct (Z.ltb_spec (e + 1 * N1) (2 * N1)); [|lia]. cbn [Z.ltb Z.compare Pos.compare Pos.compare_cont]. rewrite umod_enc by lia. cbn [bind]. rewrite H. cbn [bind Z.eqb Pos.eqb edg1]. unfold up. cbn [map]. rewrite ?xn0. f_equal; f_equal; ring.
Qed.
Lemma gs1v v t : 0 <= v < N0 -> 0 <= t \/ v + 2 * N1 <> 0 -> get_simplex m 1 (id1v v t) = Ok (id1v v t, up t [v; v + N0]).
Proof.
  intros R V. pose proof (d_edges _ _ _ D) as P1. assert (Ri : 0 <= v + 2 * N1 < xn m 1) by (rewrite xn1; nia). unfold get_simplex, id1v. rewrite (div_enc _ t _ Ri). destruct (cmod_twice _ t _ Ri) as (j & -> & Ej & Hj). destruct Hj as [->|Hj]; [|lia]. cbn [bind]. unfold simplex_type. rewrite Ej. cbn [bind Z.eqb Pos.eqb].
  destruct (Z.ltb_spec (v + 2 * N1) N1); [lia|]. destruct (Z.ltb_spec (v + 2 * N1) (2 * N1)); [lia|]. cbn [Z.ltb Z.compare Pos.compare Pos.compare_cont bind]. unfold up. cbn [map]. rewrite ?xn0. replace (v + 2 * N1 - 2 * N1) with v by ring. reflexivity.
Qed.
Lemma gs0 v t : 0 <= v < N0 -> 0 <= t \/ v <> 0 -> get_simplex m 0 (v + t * N0) = Ok (v + t * N0, up t [v]).
Proof.
  intros R V. unfold get_simplex. rewrite xn0. rewrite (div_enc _ t _ R). destruct (cmod_twice _ t _ R) as (j & -> & Ej & Hj). destruct Hj as [->|Hj]; [|lia]. cbn [bind]. unfold simplex_type. rewrite xn0, Ej. cbn [bind Z.eqb Pos.eqb]. reflexivity.
Qed.

(** ** Every id is a code *)
Lemma dec3 k : 0 < xn m 3 -> exists ty b t x y z, k = id3 ty b t /\ 0 <= ty < 3 /\ tri b x y z /\ t = k / xn m 3.
Proof.
  intros P. set (n := xn m 3) in *. pose proof (Z.div_mod k n ltac:(lia)) as E. pose proof (Z.mod_pos_bound k n P) as B. set (i := k mod n) in *. assert (P2 : 0 < N2) by (unfold n in P; rewrite xn3 in P; lia).
  pose proof (Z.div_mod i N2 ltac:(lia)) as Ei. pose proof (Z.mod_pos_bound i N2 P2) as Bi. assert (n = 3 * N2) as En by apply xn3. destruct (tri_ex (i mod N2) ltac:(lia)) as (x & y & z & Ht). exists (i / N2), (i mod N2), (k / n), x, y, z. split; [unfold id3; fold n; nia|]. split; [split; [apply Z.div_pos; lia|apply Z.div_lt_upper_bound; lia]|]. auto.
Qed.
Lemma dec2 k : 0 < xn m 2 -> (exists ty b t x y z, k = id2 ty b t /\ 0 <= ty < 3 /\ tri b x y z /\ t = k / xn m 2) \/ exists ty e t u v, k = id2e ty e t /\ 0 <= ty < 2 /\ edg e u v /\ t = k / xn m 2.
Proof.
  intros P. set (n := xn m 2) in *. pose proof (Z.div_mod k n ltac:(lia)) as E. pose proof (Z.mod_pos_bound k n P) as B. set (i := k mod n) in *. assert (n = N2 + N2 * 2 + N1 * 2) as En by apply xn2. assert (P2 : 0 <= N2) by (rewrite (d_triangles _ _ _ D); lia). pose proof (d_edges _ _ _ D) as P1.
  destruct (Z.lt_ge_cases i (3 * N2)) as [L|L].
  - left. assert (Q2 : 0 < N2) by lia. pose proof (Z.div_mod i N2 ltac:(lia)) as Ei. pose proof (Z.mod_pos_bound i N2 Q2) as Bi. destruct (tri_ex (i mod N2) ltac:(lia)) as (x & y & z & Ht). exists (i / N2), (i mod N2), (k / n), x, y, z. split; [unfold id2; fold n; nia|]. split; [split; [apply Z.div_pos; lia|apply Z.div_lt_upper_bound; lia]|]. auto.
  - right. assert (Q1 : 0 < N1) by lia. set (j := i - 3 * N2) in *. pose proof (Z.div_mod j N1 ltac:(lia)) as Ei. pose proof (Z.mod_pos_bound j N1 Q1) as Bi. destruct (edg_ex (j mod N1) ltac:(lia)) as (u & v & He). exists (j / N1), (j mod N1), (k / n), u, v. split; [unfold id2e; fold n; nia|]. split; [split; [apply Z.div_pos; lia|apply Z.div_lt_upper_bound; lia]|]. auto.
Qed.
Lemma dec1 k : 0 < xn m 1 -> (exists ty e t u v, k = id1 ty e t /\ 0 <= ty < 2 /\ edg e u v /\ t = k / xn m 1) \/ exists v t, k = id1v v t /\ 0 <= v < N0 /\ t = k / xn m 1.
Proof.
  intros P. set (n := xn m 1) in *. pose proof (Z.div_mod k n ltac:(lia)) as E. pose proof (Z.mod_pos_bound k n P) as B. set (i := k mod n) in *. assert (n = N1 * 2 + N0) as En by apply xn1. pose proof (d_edges _ _ _ D) as P1.
  destruct (Z.lt_ge_cases i (2 * N1)) as [L|L].
  - left. assert (Q1 : 0 < N1) by lia. pose proof (Z.div_mod i N1 ltac:(lia)) as Ei. pose proof (Z.mod_pos_bound i N1 Q1) as Bi. destruct (edg_ex (i mod N1) ltac:(lia)) as (u & v & He). exists (i / N1), (i mod N1), (k / n), u, v. split; [unfold id1; fold n; nia|]. split; [split; [apply Z.div_pos; lia|apply Z.div_lt_upper_bound; lia]|]. auto.
  - right. exists (i - 2 * N1), (k / n). split; [unfold id1v; fold n; nia|]. split; [lia|reflexivity].
Qed.
Lemma dec0 k : 0 < N0 -> exists v t, k = v + t * N0 /\ 0 <= v < N0 /\ t = k / N0.
Proof. intros P. exists (k mod N0), (k / N0). pose proof (Z.div_mod k N0 ltac:(lia)). pose proof (Z.mod_pos_bound k N0 P). split; [nia|auto]. Qed.
Lemma time_nonneg k n : 0 <= k -> 0 < n -> 0 <= k / n. Proof. intros. apply Z.div_pos; assumption. Qed.

(** ** Codes are simplices *)
Lemma up_lift t L U : up t (L ++ map (fun v => v + N0) U) = lift n0 t L U.
Proof. unfold up, lift. rewrite (d_vertices _ _ _ D). reflexivity. Qed.
Ltac sts := repeat constructor; lia.
Ltac ins H := cbn [In app] in H; repeat (destruct H as [H|H]); try contradiction.
Lemma stair_tri b x y z L U : tri b x y z -> L <> [] -> StronglySorted Z.lt L -> StronglySorted Z.lt U -> (forall l u, In l L -> In u U -> l <= u) -> (forall v, In v (L ++ U) -> among v (x, y, z)) -> stair n0 T L U.
Proof.
  intros H N SL SU LU A. destruct (tri_ok _ _ _ _ H) as (_ & X & XYZ & Z & C). rewrite (d_vertices _ _ _ D) in Z. repeat (split; [assumption|]). split; [intros v Hv; specialize (A v Hv); cbn in A; lia|]. split; [exact LU|]. left. exists b. intros v Hv. apply C, A, Hv.
Qed.
Lemma stair_edg e u v L U : edg e u v -> L <> [] -> StronglySorted Z.lt L -> StronglySorted Z.lt U -> (forall l u, In l L -> In u U -> l <= u) -> (forall x, In x (L ++ U) -> x = u \/ x = v) -> stair n0 T L U.
Proof.
  intros H N SL SU LU A. destruct (edg_ok _ _ _ H) as (R & X & XYZ & Z). rewrite (d_vertices _ _ _ D) in Z. repeat (split; [assumption|]). split; [intros x Hv; specialize (A x Hv); lia|]. split; [exact LU|]. left. destruct (d_edge _ _ _ D e R) as (u' & v' & E & _ & b & Cu & Cv). unfold edg in H. rewrite H in E. injection E as <- <-. exists b. intros x Hx. destruct (A x Hx) as [->| ->]; assumption.
Qed.
Lemma stair_vert v : 0 <= v < N0 -> stair n0 T [v] [] /\ stair n0 T [v] [v].
Proof.
  intros R. rewrite (d_vertices _ _ _ D) in R. split; (split; [discriminate|]); (split; [sts|]); (split; [sts|]); (split; [intros x H; ins H; subst; exact R|]); (split; [intros l u H H'; ins H; ins H'; lia|]); right; exists v; intros x H; ins H; auto.
Qed.
Lemma tet3_simplex ty b t x y z : tri b x y z -> 0 <= ty < 3 -> st_simplex n0 T (up t (tet3 ty x y z)).
Proof.
  intros H Ht. destruct (tri_ok _ _ _ _ H) as (_ & _ & L & _). assert (ty = 0 \/ ty = 1 \/ ty = 2) as [->|[->| ->]] by lia; cbn [tet3 Z.eqb Pos.eqb].
  - change [x; y; z; z + N0] with ([x; y; z] ++ map (fun v => v + N0) [z]). rewrite up_lift. apply stair_simplex, (stair_tri b x y z); [exact H|discriminate|sts|sts|intros l u Hl Hu; ins Hl; ins Hu; lia|intros v Hv; ins Hv; subst; cbn; auto].
  - change [x; y; y + N0; z + N0] with ([x; y] ++ map (fun v => v + N0) [y; z]). rewrite up_lift. apply stair_simplex, (stair_tri b x y z); [exact H|discriminate|sts|sts|intros l u Hl Hu; ins Hl; ins Hu; lia|intros v Hv; ins Hv; subst; cbn; auto].
  - change [x; x + N0; y + N0; z + N0] with ([x] ++ map (fun v => v + N0) [x; y; z]). rewrite up_lift. apply stair_simplex, (stair_tri b x y z); [exact H|discriminate|sts|sts|intros l u Hl Hu; ins Hl; ins Hu; lia|intros v Hv; ins Hv; subst; cbn; auto].
Qed.
Lemma tri2_simplex ty b t x y z : tri b x y z -> 0 <= ty < 3 -> st_simplex n0 T (up t (tri2 ty x y z)).
Proof.
  intros H Ht. destruct (tri_ok _ _ _ _ H) as (_ & _ & L & _). assert (ty = 0 \/ ty = 1 \/ ty = 2) as [->|[->| ->]] by lia; cbn [tri2 Z.eqb Pos.eqb].
  - change [x; y; z] with ([x; y; z] ++ map (fun v => v + N0) []). rewrite up_lift. apply stair_simplex, (stair_tri b x y z); [exact H|discriminate|sts|sts|intros l u Hl Hu; ins Hl; ins Hu; lia|intros v Hv; ins Hv; subst; cbn; auto].
  - change [x; y; z + N0] with ([x; y] ++ map (fun v => v + N0) [z]). rewrite up_lift. apply stair_simplex, (stair_tri b x y z); [exact H|discriminate|sts|sts|intros l u Hl Hu; ins Hl; ins Hu; lia|intros v Hv; ins Hv; subst; cbn; auto].
  - change [x; y + N0; z + N0] with ([x] ++ map (fun v => v + N0) [y; z]). rewrite up_lift. apply stair_simplex, (stair_tri b x y z); [exact H|discriminate|sts|sts|intros l u Hl Hu; ins Hl; ins Hu; lia|intros v Hv; ins Hv; subst; cbn; auto].
Qed.
Lemma tri2e_simplex ty e t u v : edg e u v -> 0 <= ty < 2 -> st_simplex n0 T (up t (tri2e ty u v)).
Proof.
  intros H Ht. destruct (edg_ok _ _ _ H) as (_ & _ & L & _). assert (ty = 0 \/ ty = 1) as [->| ->] by lia; cbn [tri2e Z.eqb Pos.eqb].
  - change [u; v; v + N0] with ([u; v] ++ map (fun v => v + N0) [v]). rewrite up_lift. apply stair_simplex, (stair_edg e u v); [exact H|discriminate|sts|sts|intros l w Hl Hu; ins Hl; ins Hu; lia|intros x Hv; ins Hv; subst; cbn; auto].
  - change [u; u + N0; v + N0] with ([u] ++ map (fun v => v + N0) [u; v]). rewrite up_lift. apply stair_simplex, (stair_edg e u v); [exact H|discriminate|sts|sts|intros l w Hl Hu; ins Hl; ins Hu; lia|intros x Hv; ins Hv; subst; cbn; auto].
Qed.
Lemma edg1_simplex ty e t u v : edg e u v -> 0 <= ty < 2 -> st_simplex n0 T (up t (edg1 ty u v)).
Proof.
  intros H Ht. destruct (edg_ok _ _ _ H) as (_ & _ & L & _). assert (ty = 0 \/ ty = 1) as [->| ->] by lia; cbn [edg1 Z.eqb Pos.eqb].
  - change [u; v] with ([u; v] ++ map (fun v => v + N0) []). rewrite up_lift. apply stair_simplex, (stair_edg e u v); [exact H|discriminate|sts|sts|intros l w Hl Hu; ins Hl; ins Hu; lia|intros x Hv; ins Hv; subst; cbn; auto].
  - change [u; v + N0] with ([u] ++ map (fun v => v + N0) [v]). rewrite up_lift. apply stair_simplex, (stair_edg e u v); [exact H|discriminate|sts|sts|intros l w Hl Hu; ins Hl; ins Hu; lia|intros x Hv; ins Hv; subst; cbn; auto].
Qed.
Lemma vert_simplex v t : 0 <= v < N0 -> st_simplex n0 T (up t [v]) /\ st_simplex n0 T (up t [v; v + N0]).
Proof.
  intros R. destruct (stair_vert v R) as [A B]. split; [change [v] with ([v] ++ map (fun v => v + N0) [])|change [v; v + N0] with ([v] ++ map (fun v => v + N0) [v])]; rewrite up_lift; apply stair_simplex; assumption.
Qed.
(** ** Simplices are codes *)
Ltac ss := repeat match goal with H : StronglySorted Z.lt (_ :: _) |- _ => inversion H; clear H; subst | H : Forall _ (_ :: _) |- _ => inversion H; clear H; subst | H : Forall _ [] |- _ => clear H | H : StronglySorted Z.lt [] |- _ => clear H end.
Lemma all3 b x y z L : tri b x y z -> (forall v, In v L -> corner T b v) -> Forall (fun v => v = x \/ v = y \/ v = z) L.
Proof. intros H A. destruct (tri_ok _ _ _ _ H) as (_ & _ & _ & _ & C). rewrite Forall_forall. intros v Hv. apply C, A, Hv. Qed.
Lemma st4 w : (0 < n0)%nat -> st_simplex n0 T w -> length w = 4%nat -> exists ty b t x y z, 0 <= ty < 3 /\ tri b x y z /\ w = up t (tet3 ty x y z).
Proof.
  intros P S Len. destruct (simplex_stair _ _ _ P S) as (t & L & U & -> & N & SL & SU & R & LU & B). rewrite <- up_lift in *. unfold up in Len. rewrite map_length, app_length, map_length in Len.
  destruct B as [(b & B)|(v & B)].
  - destruct L as [|l1 L]; [contradiction|]. destruct (tri_ex b) as (x & y & z & Ht); [apply (tri_corner b l1), B; cbn; auto|]. pose proof (all3 b x y z _ Ht B) as F. destruct (tri_ok _ _ _ _ Ht) as (_ & _ & O & _).
    destruct L as [|l2 [|l3 [|l4 [|? ?]]]]; cbn in Len; try lia; destruct U as [|u1 [|u2 [|u3 [|? ?]]]]; cbn in Len; try lia; cbn [app] in F; ss.
    + exists 2, b, t, x, y, z. split; [lia|]. split; [exact Ht|]. pose proof (LU l1 u1 ltac:(cbn; auto) ltac:(cbn; auto)). assert (l1 = x /\ u1 = x /\ u2 = y /\ u3 = z) as (-> & -> & -> & ->) by lia. reflexivity.
    + exists 1, b, t, x, y, z. split; [lia|]. split; [exact Ht|]. pose proof (LU l2 u1 ltac:(cbn; auto) ltac:(cbn; auto)). assert (l1 = x /\ l2 = y /\ u1 = y /\ u2 = z) as (-> & -> & -> & ->) by lia. reflexivity.
    + exists 0, b, t, x, y, z. split; [lia|]. split; [exact Ht|]. pose proof (LU l3 u1 ltac:(cbn; auto) ltac:(cbn; auto)). assert (l1 = x /\ l2 = y /\ l3 = z /\ u1 = z) as (-> & -> & -> & ->) by lia. reflexivity.
    + exfalso. lia.
  - exfalso. assert (SL2 : (length L <= 1)%nat) by (destruct L as [|a [|c L]]; cbn; try lia; exfalso; ss; pose proof (B a ltac:(cbn; auto)); pose proof (B c ltac:(cbn; auto)); lia). assert (SU2 : (length U <= 1)%nat) by (destruct U as [|a [|c U]]; cbn; try lia; exfalso; ss; pose proof (B a ltac:(apply in_or_app; cbn; auto)); pose proof (B c ltac:(apply in_or_app; cbn; auto)); lia). lia.
Qed.
Lemma st3 w : (0 < n0)%nat -> st_simplex n0 T w -> length w = 3%nat -> (exists ty b t x y z, 0 <= ty < 3 /\ tri b x y z /\ w = up t (tri2 ty x y z)) \/ exists ty e t u v, 0 <= ty < 2 /\ edg e u v /\ w = up t (tri2e ty u v).
Proof.
  intros P S Len. destruct (simplex_stair _ _ _ P S) as (t & L & U & -> & N & SL & SU & R & LU & B). rewrite <- up_lift in *. unfold up in Len. rewrite map_length, app_length, map_length in Len.
  destruct B as [(b & B)|(v & B)].
  - destruct L as [|l1 L]; [contradiction|]. destruct (tri_ex b) as (x & y & z & Ht); [apply (tri_corner b l1), B; cbn; auto|]. pose proof (all3 b x y z _ Ht B) as F. destruct (tri_ok _ _ _ _ Ht) as (_ & _ & O & _).
    destruct L as [|l2 [|l3 [|? ?]]]; cbn in Len; try lia; destruct U as [|u1 [|u2 [|? ?]]]; cbn in Len; try lia; cbn [app] in F; ss.
    + pose proof (LU l1 u1 ltac:(cbn; auto) ltac:(cbn; auto)). destruct (Z.eq_dec l1 u1) as [<-|Ne].
      * right. destruct (edg_tri b l1 u2) as (e & He); [lia|apply B; cbn; auto|apply B; cbn; auto|]. exists 1, e, t, l1, u2. split; [lia|]. split; [exact He|reflexivity].
      * left. exists 2, b, t, x, y, z. split; [lia|]. split; [exact Ht|]. assert (l1 = x /\ u1 = y /\ u2 = z) as (-> & -> & ->) by lia. reflexivity.
    + pose proof (LU l2 u1 ltac:(cbn; auto) ltac:(cbn; auto)). destruct (Z.eq_dec l2 u1) as [<-|Ne].
      * right. destruct (edg_tri b l1 l2) as (e & He); [lia|apply B; cbn; auto|apply B; cbn; auto|]. exists 0, e, t, l1, l2. split; [lia|]. split; [exact He|reflexivity].
      * left. exists 1, b, t, x, y, z. split; [lia|]. split; [exact Ht|]. assert (l1 = x /\ l2 = y /\ u1 = z) as (-> & -> & ->) by lia. reflexivity.
    + left. exists 0, b, t, x, y, z. split; [lia|]. split; [exact Ht|]. assert (l1 = x /\ l2 = y /\ l3 = z) as (-> & -> & ->) by lia. reflexivity.
  - exfalso. assert (SL2 : (length L <= 1)%nat) by (destruct L as [|a [|c L]]; cbn; try lia; exfalso; ss; pose proof (B a ltac:(cbn; auto)); pose proof (B c ltac:(cbn; auto)); lia). assert (SU2 : (length U <= 1)%nat) by (destruct U as [|a [|c U]]; cbn; try lia; exfalso; ss; pose proof (B a ltac:(apply in_or_app; cbn; auto)); pose proof (B c ltac:(apply in_or_app; cbn; auto)); lia). lia.
Qed.
Lemma st2 w : (0 < n0)%nat -> st_simplex n0 T w -> length w = 2%nat -> (exists ty e t u v, 0 <= ty < 2 /\ edg e u v /\ w = up t (edg1 ty u v)) \/ exists v t, 0 <= v < N0 /\ w = up t [v; v + N0].
Proof.
  intros P S Len. destruct (simplex_stair _ _ _ P S) as (t & L & U & -> & N & SL & SU & R & LU & B). rewrite <- up_lift in *. unfold up in Len. rewrite map_length, app_length, map_length in Len. rewrite <- (d_vertices _ _ _ D) in R.
  destruct L as [|l1 [|l2 [|? ?]]]; cbn in Len; try lia; [contradiction| |]; destruct U as [|u1 [|? ?]]; cbn in Len; try lia; ss.
  - pose proof (LU l1 u1 ltac:(cbn; auto) ltac:(cbn; auto)). destruct (Z.eq_dec l1 u1) as [<-|Ne]; [right; exists l1, t; split; [apply R; cbn; auto|reflexivity]|]. left.
    destruct B as [(b & B)|(v & B)]; [|pose proof (B l1 ltac:(cbn; auto)); pose proof (B u1 ltac:(cbn; auto)); lia]. destruct (edg_tri b l1 u1) as (e & He); [lia|apply B; cbn; auto|apply B; cbn; auto|]. exists 1, e, t, l1, u1. split; [lia|]. split; [exact He|reflexivity].
  - left. destruct B as [(b & B)|(v & B)]; [|pose proof (B l1 ltac:(cbn; auto)); pose proof (B l2 ltac:(cbn; auto)); lia]. destruct (edg_tri b l1 l2) as (e & He); [lia|apply B; cbn; auto|apply B; cbn; auto|]. exists 0, e, t, l1, l2. split; [lia|]. split; [exact He|reflexivity].
Qed.
Lemma st1 w : (0 < n0)%nat -> st_simplex n0 T w -> length w = 1%nat -> exists v t, 0 <= v < N0 /\ w = up t [v].
Proof.
  intros P S Len. destruct (simplex_stair _ _ _ P S) as (t & L & U & -> & N & SL & SU & R & LU & B). rewrite <- up_lift in *. unfold up in Len. rewrite map_length, app_length, map_length in Len. rewrite <- (d_vertices _ _ _ D) in R.
  destruct L as [|l1 [|? ?]]; cbn in Len; try lia; [contradiction|]. destruct U as [|? ?]; cbn in Len; try lia. exists l1, t. split; [apply R; cbn; auto|reflexivity].
Qed.
(** ** Codes are determined by their vertices *)
Lemma enc_inj v v' t t' n : 0 <= v < n -> 0 <= v' < n -> v + t * n = v' + t' * n -> v = v' /\ t = t'.
Proof. intros H H' E. pose proof (dm v t n H) as [A B]. pose proof (dm v' t' n H') as [A' B']. rewrite E in A, B. lia. Qed.
Ltac lists := match goal with H : up _ _ = up _ _ |- _ => unfold up in H; cbn [tet3 tri2 tri2e edg1 Z.eqb Pos.eqb map] in H; injection H; clear H; intros end.
Ltac heads a a' := match goal with H : a + ?t * ?n = a' + ?t' * ?n |- _ => destruct (enc_inj a a' t t' n ltac:(lia) ltac:(lia) H) as [? ?]; clear H; subst end.
Lemma inj3 ty b t x y z ty' b' t' x' y' z' : tri b x y z -> tri b' x' y' z' -> 0 <= ty < 3 -> 0 <= ty' < 3 -> up t (tet3 ty x y z) = up t' (tet3 ty' x' y' z') -> ty = ty' /\ b = b' /\ t = t'.
Proof.
  intros H H' Hty Hty' E. destruct (tri_ok _ _ _ _ H) as (_ & X & O & Z & _). destruct (tri_ok _ _ _ _ H') as (_ & X' & O' & Z' & _).
  assert (K : ty = ty' /\ t = t' /\ x = x' /\ y = y' /\ z = z'). { assert (ty = 0 \/ ty = 1 \/ ty = 2) as [->|[->| ->]] by lia; assert (ty' = 0 \/ ty' = 1 \/ ty' = 2) as [->|[->| ->]] by lia; lists; heads x x'; lia. }
  destruct K as (-> & -> & -> & -> & ->). split; [reflexivity|]. split; [exact (tri_inj _ _ _ _ _ H H')|reflexivity].
Qed.
Lemma inj2 ty b t x y z ty' b' t' x' y' z' : tri b x y z -> tri b' x' y' z' -> 0 <= ty < 3 -> 0 <= ty' < 3 -> up t (tri2 ty x y z) = up t' (tri2 ty' x' y' z') -> ty = ty' /\ b = b' /\ t = t'.
Proof.
  intros H H' Hty Hty' E. destruct (tri_ok _ _ _ _ H) as (_ & X & O & Z & _). destruct (tri_ok _ _ _ _ H') as (_ & X' & O' & Z' & _).
  assert (K : ty = ty' /\ t = t' /\ x = x' /\ y = y' /\ z = z'). { assert (ty = 0 \/ ty = 1 \/ ty = 2) as [->|[->| ->]] by lia; assert (ty' = 0 \/ ty' = 1 \/ ty' = 2) as [->|[->| ->]] by lia; lists; heads x x'; lia. }
  destruct K as (-> & -> & -> & -> & ->). split; [reflexivity|]. split; [exact (tri_inj _ _ _ _ _ H H')|reflexivity].
Qed.
Lemma inj2e ty e t u v ty' e' t' u' v' : edg e u v -> edg e' u' v' -> 0 <= ty < 2 -> 0 <= ty' < 2 -> up t (tri2e ty u v) = up t' (tri2e ty' u' v') -> ty = ty' /\ e = e' /\ t = t'.
Proof.
  intros H H' Hty Hty' E. destruct (edg_ok _ _ _ H) as (_ & X & O & Z). destruct (edg_ok _ _ _ H') as (_ & X' & O' & Z').
  assert (K : ty = ty' /\ t = t' /\ u = u' /\ v = v'). { assert (ty = 0 \/ ty = 1) as [->| ->] by lia; assert (ty' = 0 \/ ty' = 1) as [->| ->] by lia; lists; heads u u'; lia. }
  destruct K as (-> & -> & -> & ->). split; [reflexivity|]. split; [exact (edg_inj _ _ _ _ H H')|reflexivity].
Qed.
Lemma inj2x ty b t x y z ty' e' t' u' v' : tri b x y z -> edg e' u' v' -> 0 <= ty < 3 -> 0 <= ty' < 2 -> up t (tri2 ty x y z) = up t' (tri2e ty' u' v') -> False.
Proof.
  intros H H' Hty Hty' E. destruct (tri_ok _ _ _ _ H) as (_ & X & O & Z & _). destruct (edg_ok _ _ _ H') as (_ & X' & O' & Z').
  assert (ty = 0 \/ ty = 1 \/ ty = 2) as [->|[->| ->]] by lia; assert (ty' = 0 \/ ty' = 1) as [->| ->] by lia; lists; heads x u'; lia.
Qed.
Lemma inj1 ty e t u v ty' e' t' u' v' : edg e u v -> edg e' u' v' -> 0 <= ty < 2 -> 0 <= ty' < 2 -> up t (edg1 ty u v) = up t' (edg1 ty' u' v') -> ty = ty' /\ e = e' /\ t = t'.
Proof.
  intros H H' Hty Hty' E. destruct (edg_ok _ _ _ H) as (_ & X & O & Z). destruct (edg_ok _ _ _ H') as (_ & X' & O' & Z').
  assert (K : ty = ty' /\ t = t' /\ u = u' /\ v = v'). { assert (ty = 0 \/ ty = 1) as [->| ->] by lia; assert (ty' = 0 \/ ty' = 1) as [->| ->] by lia; lists; heads u u'; lia. }
  destruct K as (-> & -> & -> & ->). split; [reflexivity|]. split; [exact (edg_inj _ _ _ _ H H')|reflexivity].
Qed.
Lemma inj1x ty e t u v v' t' : edg e u v -> 0 <= v' < N0 -> 0 <= ty < 2 -> up t (edg1 ty u v) = up t' [v'; v' + N0] -> False.
Proof. intros H H' Hty E. destruct (edg_ok _ _ _ H) as (_ & X & O & Z). assert (ty = 0 \/ ty = 1) as [->| ->] by lia; lists; heads u v'; lia. Qed.
End Ext.
