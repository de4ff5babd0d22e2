(** Lemmas about [UExt3]: ids are codes of staircase cells. *)
From Coq Require Import ZArith.
From Verif Require Import Base UnionFind UnionFindProofs SoS UMesh2 UMesh2Proofs PropUMesh2 UExt2 UExt2Proofs UMesh3 UMesh3Proofs PropUMesh3 UExt3 UExt3Cells.
Local Open Scope Z_scope.
Notation up := UExt3Cells.up.

(** ** Specification: as for triangle meshes.  Vertex v of layer t has the id v + n0*t; a simplex lies between two layers t (where it has a vertex) and t+1, over a tetrahedron (or a vertex)
    of the mesh; the base vertex of a lower vertex is not greater than that of an upper one *)
Definition st_simplex3 (n0 : nat) (T : list (list Z)) (w : list Z) : Prop :=
  let layer x := x / Z.of_nat n0 in let base x := x mod Z.of_nat n0 in
  StronglySorted Z.lt w /\
  exists t, (exists x, In x w /\ layer x = t) /\ (forall x, In x w -> layer x = t \/ layer x = t + 1) /\
    (forall x y, In x w -> In y w -> layer x = t -> layer y = t + 1 -> base x <= base y) /\
    ((exists b, forall x, In x w -> corner3 T b (base x)) \/ (exists v, forall x, In x w -> base x = v)).
(** get_simplex gives 0 1' 1' 2' 3' instead of 0 0' 1' 2' 3' for the last pentachoron of a prism; [repair] puts 0' back *)
Definition repair (n : Z) (v : list Z) : list Z := match v with [a; b; c; d; e] => if b =? c then [a; a + n; c; d; e] else v | _ => v end.
Definition simplex_of (m : mesh3) (d k : Z) : res (list Z) := let* v := y_get m d k in Ok (repair (m3_n m 0) v).

Section Codes.
Variables (n0 : nat) (T : list (list Z)) (m : mesh3).
Hypotheses (D : describes3 n0 T m) (W : well_formed3 n0 T).
Notation N d := (m3_n m d).

Definition base (k b : Z) (w : list Z) : Prop := (k = 0 /\ 0 <= b < N 0 /\ w = [b]) \/ (1 <= k <= 3 /\ m3_get m k b = Ok w).
Lemma corner_range t v : corner3 T t v -> 0 <= v < N 0.
Proof. intros (w & E & I). rewrite (d3_vertices _ _ _ D). destruct W as (A & _). destruct (A t w E) as (_ & _ & H). auto. Qed.
Lemma base_ok k b w : base k b w -> 0 <= k <= 3 /\ 0 <= b < N k /\ Z.of_nat (length w) = k + 1 /\ increasing w /\ inr (N 0) w.
Proof.
  intros [(-> & R & ->)|(K & G)].
  - split; [lia|]. split; [exact R|]. split; [reflexivity|]. split; [apply inc1|]. intros v [<-|[]]. exact R.
  - split; [lia|]. split; [apply (d3_ids _ _ _ D); eauto|]. destruct (d3_simplex _ _ _ D _ _ _ K G) as (L & I & t & C). split; [exact L|]. split; [exact I|]. intros v Hv. exact (corner_range t v (C v Hv)).
Qed.
Lemma base_ex k b : 0 <= k <= 3 -> 0 <= b < N k -> exists w, base k b w.
Proof. intros K R. destruct (Z.eq_dec k 0) as [->|Nk]; [exists [b]; left; auto|]. apply (d3_ids _ _ _ D) in R; [|lia]. destruct R as (w & G). exists w. right. split; [lia|exact G]. Qed.
Lemma base_inj k b k' b' w : base k b w -> base k' b' w -> k = k' /\ b = b'.
Proof.
  intros B B'. destruct (base_ok _ _ _ B) as (_ & _ & L & _). destruct (base_ok _ _ _ B') as (_ & _ & L' & _). assert (k = k') by lia. subst k'. split; [reflexivity|]. destruct B as [(-> & _ & ->)|(K & G)], B' as [(E & _ & E')|(K' & G')]; try lia; [congruence|]. exact (d3_once _ _ _ D _ _ _ _ K G G').
Qed.
Lemma base_find k b w : 1 <= k -> base k b w -> m3_find m k w = Ok (Some b).
Proof. intros K [(-> & _)|(K' & G)]; [lia|]. destruct (d3_find _ _ _ D k w K') as (o & E & H). rewrite E. f_equal. apply H, G. Qed.
Lemma base_corner k b w : base k b w -> (exists t, forall v, In v w -> corner3 T t v) \/ (exists v, forall x, In x w -> x = v).
Proof. intros [(_ & _ & ->)|(K & G)]; [right; exists b; intros x [<-|[]]; reflexivity|left]. destruct (d3_simplex _ _ _ D _ _ _ K G) as (_ & _ & t & C). eauto. Qed.
Lemma base_onto w : increasing w -> inr (N 0) w -> (1 <= length w <= 4)%nat -> (exists t, forall v, In v w -> corner3 T t v) \/ (exists v, forall x, In x w -> x = v) -> exists b, base (Z.of_nat (length w) - 1) b w.
Proof.
  intros S R L C. destruct w as [|a w]; [cbn in L; lia|]. destruct w as [|a' w].
  - exists a. left. split; [reflexivity|]. split; [apply R; left; reflexivity|reflexivity].
  - set (k := Z.of_nat (length (a :: a' :: w)) - 1). assert (K : 1 <= k <= 3) by (unfold k; cbn [length] in *; lia). destruct C as [(t & C)|(v & C)].
    + destruct (d3_onto _ _ _ D k (a :: a' :: w) t K ltac:(unfold k; lia) S C) as (b & G). exists b. right. auto.
    + exfalso. apply inc_cons in S. destruct S as (S & _). pose proof (C a ltac:(left; reflexivity)). pose proof (C a' ltac:(right; left; reflexivity)). lia.
Qed.
Lemma base_sub k b w phi j : base k b w -> In phi (combos (seq 0 (length w)) (S j)) -> exists b', base (Z.of_nat j) b' (sel w phi).
Proof.
  intros B P. destruct (base_ok _ _ _ B) as (K & _ & L & S & R). destruct (combos_range _ _ _ P) as [I Lp]. assert (Lw : length (sel w phi) = Datatypes.S j) by (unfold sel; rewrite map_length; exact Lp).
  assert (Sub : incl (sel w phi) w). { intros v Hv. unfold sel in Hv. apply in_map_iff in Hv. destruct Hv as (i & <- & Hi). apply nth_In. apply I, in_seq in Hi. lia. }
  assert (Sp : increasing (sel w phi)) by (eapply combos_sorted_sel; eauto).
  assert (Le : (length (sel w phi) <= length w)%nat) by (apply NoDup_incl_length; [apply inc_nodup', Sp|exact Sub]).
  destruct (base_onto (sel w phi) Sp) as (b' & B'); [intros v Hv; auto|rewrite Lw in *; lia|destruct (base_corner _ _ _ B) as [(t & C)|(v & C)]; [left; exists t|right; exists v]; auto|]. exists b'. rewrite Lw in B'. replace (Z.of_nat (Datatypes.S j) - 1) with (Z.of_nat j) in B' by lia. exact B'.
Qed.
Lemma N_nonneg d : 0 <= N d. Proof. apply (d3_counts _ _ _ D). Qed.
Lemma N_4 : N 4 = 0. Proof. reflexivity. Qed.
Lemma yn_eq d : 0 <= d <= 4 -> yn m d = (d + 1) * N d + d * N (d - 1).
Proof. intros H. assert (d = 0 \/ d = 1 \/ d = 2 \/ d = 3 \/ d = 4) as [->|[->|[->|[->| ->]]]] by lia; unfold yn; cbn [Z.eqb Pos.eqb]; try change (1 - 1) with 0; try change (2 - 1) with 1; try change (3 - 1) with 2; try change (4 - 1) with 3; rewrite ?N_4; ring. Qed.

(** ids *)
Definition bd (d : Z) (o : bool) : Z := if o then d - 1 else d.
Definition idx (d : Z) (o : bool) (ty : nat) (b : Z) : Z := b + Z.of_nat ty * N (bd d o) + (if o then (d + 1) * N d else 0).
Definition id (d : Z) (o : bool) (ty : nat) (b t : Z) : Z := idx d o ty b + t * yn m d.
Definition code (d : Z) (o : bool) (ty : nat) (b : Z) (w : list Z) : Prop := 0 <= d <= 4 /\ base (bd d o) b w /\ (ty < length w)%nat.
Lemma code_range d o ty b w : code d o ty b w -> 0 <= idx d o ty b < yn m d.
Proof.
  intros (Hd & B & Ty). destruct (base_ok _ _ _ B) as (K & R & L & _). rewrite (yn_eq d Hd). unfold idx. pose proof (N_nonneg d). pose proof (N_nonneg (d - 1)). destruct o; cbn [bd] in *; nia.
Qed.
Lemma code_dec d k : 0 <= d <= 4 -> 0 < yn m d -> exists o ty b w, code d o ty b w /\ k = id d o ty b (k / yn m d).
Proof.
  intros Hd P. set (n := yn m d) in *. pose proof (Z.div_mod k n ltac:(lia)) as E. pose proof (Z.mod_pos_bound k n P) as B. set (i := k mod n) in *. pose proof (yn_eq d Hd) as En. fold n in En. pose proof (N_nonneg d) as P1. pose proof (N_nonneg (d - 1)) as P2.
  destruct (Z.lt_ge_cases i ((d + 1) * N d)) as [L|L].
  - assert (Q : 0 < N d) by nia. assert (K : d <= 3) by (destruct (Z.eq_dec d 4) as [->|]; [rewrite N_4 in Q; lia|lia]). pose proof (Z.div_mod i (N d) ltac:(lia)) as Ei. pose proof (Z.mod_pos_bound i (N d) Q) as Bi. destruct (base_ex d (i mod N d) ltac:(lia) Bi) as (w & Bw). destruct (base_ok _ _ _ Bw) as (_ & _ & Lw & _).
    exists false, (Z.to_nat (i / N d)), (i mod N d), w. assert (0 <= i / N d) by (apply Z.div_pos; lia). assert (i / N d < d + 1) by (apply Z.div_lt_upper_bound; lia). split; [split; [exact Hd|]; split; [exact Bw|lia]|]. unfold id, idx. cbn [bd]. fold n. rewrite Z2Nat.id by lia. nia.
  - set (j := i - (d + 1) * N d) in *. assert (Q : 0 < d * N (d - 1)) by lia. assert (Q1 : 0 < N (d - 1)) by nia. assert (Q0 : 0 < d) by nia. pose proof (Z.div_mod j (N (d - 1)) ltac:(lia)) as Ei. pose proof (Z.mod_pos_bound j (N (d - 1)) Q1) as Bi. destruct (base_ex (d - 1) (j mod N (d - 1)) ltac:(lia) Bi) as (w & Bw). destruct (base_ok _ _ _ Bw) as (_ & _ & Lw & _).
    exists true, (Z.to_nat (j / N (d - 1))), (j mod N (d - 1)), w. assert (0 <= j / N (d - 1)) by (apply Z.div_pos; lia). assert (j / N (d - 1) < d) by (apply Z.div_lt_upper_bound; lia). split; [split; [exact Hd|]; split; [exact Bw|lia]|]. unfold id, idx. cbn [bd]. fold n. rewrite Z2Nat.id by lia. nia.
Qed.
Lemma id_time d o ty b w t : code d o ty b w -> id d o ty b t / yn m d = t.
Proof. intros C. apply div_enc, (code_range _ _ _ _ _ C). Qed.

(** vertices of a code *)
Ltac sh := cbn [Z.eqb Pos.eqb Z.ltb Z.compare Pos.compare Pos.compare_cont bind andb].
Ltac bools := repeat match goal with |- context [?a <? ?b] => first [replace (a <? b) with true by (symmetry; apply Z.ltb_lt; lia) | replace (a <? b) with false by (symmetry; apply Z.ltb_ge; lia)] end.
Lemma up_repair t l : (length l < 5)%nat -> repair (N 0) (map (fun v => v + t) l) = map (fun v => v + t) l.
Proof. destruct l as [|? [|? [|? [|? [|? [|? ?]]]]]]; cbn [length]; intros; try reflexivity; lia. Qed.
Lemma gs d o ty b w t : code d o ty b w -> 0 <= t \/ 0 < idx d o ty b \/ d = 4 -> simplex_of m d (id d o ty b t) = Ok (up (N 0) t (verts (N 0) o ty w)).
Proof.
  intros C V. pose proof (code_range _ _ _ _ _ C) as Ri. destruct C as (Hd & B & Ty). destruct (base_ok _ _ _ B) as (K & R & L & S & Rg). unfold simplex_of, y_get, id. rewrite (div_enc _ t _ Ri). destruct (cmod_twice _ t _ Ri) as (j & -> & Ej & Hj). cbn [bind]. unfold y_type. rewrite Ej. cbn [bind].
  pose proof (N_nonneg 1) as P1. pose proof (N_nonneg 2) as P2. pose proof (N_nonneg 3) as P3. pose proof (N_nonneg 0) as P0.
  assert (d = 0 \/ d = 1 \/ d = 2 \/ d = 3 \/ d = 4) as [->|[->|[->|[->| ->]]]] by lia.
  1-4: assert (j = idx _ o ty b) as -> by (destruct Hj as [->|(_ & X & Y)]; [reflexivity|lia]); clear Hj V.
  - destruct o; cbn [bd] in *; [lia|]. destruct B as [(_ & _ & ->)|(? & _)]; [|lia]. assert (ty = 0%nat) as -> by (cbn [length] in Ty; lia). unfold idx. cbn [bd]. sh. unfold up, verts, parts. cbn. f_equal. f_equal. unfold yn. cbn [Z.eqb]. ring.
  - destruct o; cbn [bd] in *; change (1 - 1) with 0 in *.
    + destruct B as [(_ & _ & ->)|(? & _)]; [|lia]. assert (ty = 0%nat) as -> by (cbn [length] in Ty; lia). unfold idx. cbn [bd]. change (1 - 1) with 0. change (1 + 1) with 2. sh. bools. sh. unfold up, verts, parts. cbn. unfold yn. cbn [Z.eqb]. f_equal. f_equal; [ring|]. f_equal. ring.
    + destruct B as [(? & _)|(_ & G)]; [lia|]. destruct (len2 w ltac:(lia)) as (x & y & ->). unfold idx. cbn [bd]. sh. assert (ty = 0%nat \/ ty = 1%nat) as [->| ->] by (cbn [length] in Ty; lia); cbn [Z.of_nat Pos.of_succ_nat]; bools; sh; rewrite Z.add_0_r, umod_enc by lia; sh; rewrite G; sh; unfold up, verts, parts; cbn; reflexivity.
  - destruct o; cbn [bd] in *; change (2 - 1) with 1 in *.
    + destruct B as [(? & _)|(_ & G)]; [lia|]. destruct (len2 w ltac:(lia)) as (x & y & ->). unfold idx. cbn [bd]. change (2 - 1) with 1. change (2 + 1) with 3. sh. assert (ty = 0%nat \/ ty = 1%nat) as [->| ->] by (cbn [length] in Ty; lia); cbn [Z.of_nat Pos.of_succ_nat]; bools; sh; [replace (b + 0 * N 1 + 3 * N 2 - 3 * N 2) with (b + 0 * N 1) by ring|replace (b + 1 * N 1 + 3 * N 2 - 3 * N 2) with (b + 1 * N 1) by ring]; rewrite umod_enc by lia; sh; rewrite G; sh; unfold up, verts, parts; cbn; reflexivity.
    + destruct B as [(? & _)|(_ & G)]; [lia|]. destruct (len3 w ltac:(lia)) as (x & y & z & ->). unfold idx. cbn [bd]. sh. assert (ty = 0%nat \/ ty = 1%nat \/ ty = 2%nat) as [->|[->| ->]] by (cbn [length] in Ty; lia); cbn [Z.of_nat Pos.of_succ_nat Pos.succ]; bools; sh; rewrite Z.add_0_r, umod_enc by lia; sh; rewrite G; sh; unfold up, verts, parts; cbn; reflexivity.
  - destruct o; cbn [bd] in *; change (3 - 1) with 2 in *.
    + destruct B as [(? & _)|(_ & G)]; [lia|]. destruct (len3 w ltac:(lia)) as (x & y & z & ->). unfold idx. cbn [bd]. change (3 - 1) with 2. change (3 + 1) with 4. sh. assert (ty = 0%nat \/ ty = 1%nat \/ ty = 2%nat) as [->|[->| ->]] by (cbn [length] in Ty; lia); cbn [Z.of_nat Pos.of_succ_nat Pos.succ]; bools; sh; [replace (b + 0 * N 2 + 4 * N 3 - 4 * N 3) with (b + 0 * N 2) by ring|replace (b + 1 * N 2 + 4 * N 3 - 4 * N 3) with (b + 1 * N 2) by ring|replace (b + 2 * N 2 + 4 * N 3 - 4 * N 3) with (b + 2 * N 2) by ring]; rewrite umod_enc by lia; sh; rewrite G; sh; unfold up, verts, parts; cbn; reflexivity.
    + destruct B as [(? & _)|(_ & G)]; [lia|]. destruct (len4 w ltac:(lia)) as (x & y & z & q & ->). unfold idx. cbn [bd]. sh. assert (ty = 0%nat \/ ty = 1%nat \/ ty = 2%nat \/ ty = 3%nat) as [->|[->|[->| ->]]] by (cbn [length] in Ty; lia); cbn [Z.of_nat Pos.of_succ_nat Pos.succ]; bools; sh; rewrite Z.add_0_r, umod_enc by lia; sh; rewrite G; sh; unfold up, verts, parts; cbn; reflexivity.
  - destruct o; cbn [bd] in *; [|lia]. change (4 - 1) with 3 in *. destruct B as [(? & _)|(_ & G)]; [lia|]. destruct (len4 w ltac:(lia)) as (x & y & z & q & ->). unfold idx in *. cbn [bd] in *. change (4 - 1) with 3 in *. change (m3_n m 4) with 0 in *. rewrite Z.mul_0_r, Z.add_0_r in *.
    assert (U : umod j (N 3) = Ok b). { destruct Hj as [->|(-> & E0 & _)]; [apply umod_enc; lia|]. assert (b = 0) by nia. subst b. pose proof (umod_enc 0 4 (N 3) ltac:(lia) ltac:(lia)) as X. rewrite Z.add_0_l in X. exact X. }
    sh. destruct (Z.eqb_spec (N 3) 0); [lia|]. rewrite (div_enc b (Z.of_nat ty) (N 3)) by lia. sh. rewrite U. sh. rewrite G. sh. rewrite !inc_cons in S. pose proof (Rg x ltac:(cbn; auto)) as Rx. pose proof (Rg y ltac:(cbn; auto)) as Ry. pose proof (Rg z ltac:(cbn; auto)) as Rz. pose proof (Rg q ltac:(cbn; auto)) as Rq.
    assert (ty = 0%nat \/ ty = 1%nat \/ ty = 2%nat \/ ty = 3%nat) as [->|[->|[->| ->]]] by (cbn [length] in Ty; lia); cbn [Z.of_nat Pos.of_succ_nat Pos.succ]; sh; unfold up, verts, parts; cbn [map repair length Nat.sub firstn skipn app]; unfold yn; cbn [Z.eqb].
    + destruct (Z.eqb_spec (y + t * N 0) (z + t * N 0)); [lia|]. reflexivity.
    + destruct (Z.eqb_spec (y + t * N 0) (z + t * N 0)); [lia|]. reflexivity.
    + destruct (Z.eqb_spec (y + t * N 0) (y + N 0 + t * N 0)); [lia|]. reflexivity.
    + rewrite Z.eqb_refl. do 3 f_equal. ring.
Qed.
Lemma simplex_empty d k : yn m d = 0 -> simplex_of m d k = UB.
Proof. intros E. unfold simplex_of, y_get, cmod. rewrite E. reflexivity. Qed.
Lemma yn_nonneg d : 0 <= yn m d.
Proof. destruct (Z_le_gt_dec 0 d); [destruct (Z_le_gt_dec d 4)|]; [rewrite yn_eq by lia; pose proof (N_nonneg d); pose proof (N_nonneg (d - 1)); nia|..]; unfold yn; repeat (match goal with |- context [?a =? ?b] => destruct (Z.eqb_spec a b); [lia|] end); lia. Qed.
Lemma get_decode d k u : 0 <= d <= 4 -> simplex_of m d k = Ok u -> 0 < yn m d.
Proof. intros Hd E. pose proof (yn_nonneg d). destruct (Z.eq_dec (yn m d) 0) as [Z0|]; [|lia]. rewrite (simplex_empty d k Z0) in E. discriminate. Qed.
End Codes.
