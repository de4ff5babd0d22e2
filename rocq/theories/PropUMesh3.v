(** C99: tetrahedral meshes (simplicial_unstructured_3d_mesh.hh). *)
From Coq Require Import ZArith Permutation.
From Verif Require Import Base ListOrd UnionFind UnionFindProofs SoS SoSPerm UMesh2 UMesh2Proofs PropUMesh2 UMesh3 UMesh3Proofs.
Local Open Scope Z_scope.

(** ** Specification.  Tetrahedron [i] of the input is [tet_at T i]; [corner3 T i v]: [v] is one of its vertices *)
Definition tet_at (T : list (list Z)) (i : Z) : option (list Z) := if i <? 0 then None else nth_error T (Z.to_nat i).
Definition corner3 (T : list (list Z)) (i v : Z) : Prop := exists w, tet_at T i = Some w /\ In v w.
(** four different vertices each; no two tetrahedra with the same vertices *)
Definition well_formed3 (n0 : nat) (T : list (list Z)) : Prop :=
  (forall i w, tet_at T i = Some w -> length w = 4%nat /\ NoDup w /\ forall v, In v w -> 0 <= v < Z.of_nat n0) /\
  (forall i j w w', tet_at T i = Some w -> tet_at T j = Some w' -> (forall v, In v w <-> In v w') -> i = j).
Definition increasing (w : list Z) : Prop := StronglySorted Z.lt w.
Record describes3 (n0 : nat) (T : list (list Z)) (m : mesh3) : Prop := {
  d3_vertices : m3_n m 0 = Z.of_nat n0;
  d3_tets : m3_n m 3 = Z.of_nat (length T);
  d3_counts : forall d, 0 <= m3_n m d;
  (* tetrahedra keep their ids, vertices increase *)
  d3_tet : forall i w, tet_at T i = Some w -> exists w', m3_get m 3 i = Ok w' /\ increasing w' /\ forall v, In v w' <-> In v w;
  (* ids of edges, triangles and tetrahedra are 0, ..., n(d)-1; they are the sets of d+1 corners of tetrahedra, once each *)
  d3_ids : forall d i, 1 <= d <= 3 -> 0 <= i < m3_n m d <-> exists w, m3_get m d i = Ok w;
  d3_simplex : forall d i w, 1 <= d <= 3 -> m3_get m d i = Ok w -> Z.of_nat (length w) = d + 1 /\ increasing w /\ exists t, forall v, In v w -> corner3 T t v;
  d3_onto : forall d w t, 1 <= d <= 3 -> Z.of_nat (length w) = d + 1 -> increasing w -> (forall v, In v w -> corner3 T t v) -> exists i, m3_get m d i = Ok w;
  d3_once : forall d i j w, 1 <= d <= 3 -> m3_get m d i = Ok w -> m3_get m d j = Ok w -> i = j;
  (* lookup by increasing vertices; in any other order they are not found *)
  d3_find : forall d w, 1 <= d <= 3 -> exists o, m3_find m d w = Ok o /\ forall i, o = Some i <-> m3_get m d i = Ok w;
  (* incidences *)
  d3_side_of : forall d i w, 1 <= d <= 2 -> m3_get m d i = Ok w -> returns_set (m3_side_of m d i) (fun j => exists w', m3_get m (d + 1) j = Ok w' /\ incl w w');
  d3_side_of_vertex : forall v, 0 <= v < Z.of_nat n0 -> returns_set (m3_side_of m 0 v) (fun e => exists w, m3_get m 1 e = Ok w /\ In v w);
  d3_neighbours : forall v, 0 <= v < Z.of_nat n0 -> returns_set (m3_neighbours m v) (fun x => x <> v /\ exists t, corner3 T t v /\ corner3 T t x) }.

(** ** Proof *)
Lemma inc_cons a b l : increasing (a :: b :: l) <-> a < b /\ increasing (b :: l).
Proof.
  unfold increasing. split.
  - intros H. inversion H as [|? ? H1 H2]; subst. split; [inversion H2; assumption|exact H1].
  - intros [L H]. constructor; [exact H|]. inversion H as [|? ? H1 H2]; subst. constructor; [exact L|]. rewrite Forall_forall in *. intros x I. specialize (H2 x I). lia.
Qed.
Lemma inc1 a : increasing [a]. Proof. repeat constructor. Qed.
Lemma len3 (w : list Z) : length w = 3%nat -> exists a b c, w = [a; b; c].
Proof. destruct w as [|a [|b [|c [|? ?]]]]; try discriminate. eauto. Qed.
Lemma len2 (w : list Z) : length w = 2%nat -> exists a b, w = [a; b].
Proof. destruct w as [|a [|b [|? ?]]]; try discriminate. eauto. Qed.
Lemma len4 (w : list Z) : length w = 4%nat -> exists a b c d, w = [a; b; c; d].
Proof. destruct w as [|a [|b [|c [|d [|? ?]]]]]; try discriminate. eauto 6. Qed.
Lemma tet_sides_spec i v k x : length v = 4%nat -> increasing v -> In (k, x) (tet_sides i v) <-> x = i /\ length k = 3%nat /\ increasing k /\ incl k v.
Proof.
  intros L S. destruct (len4 v L) as (a & b & c & d & ->). rewrite !inc_cons in S. destruct S as (A & B & C & _). cbn [tet_sides In]. split.
  - intros [E|[E|[E|[E|[]]]]]; injection E as <- <-; (split; [reflexivity|]); (split; [reflexivity|]); (split; [rewrite !inc_cons; repeat (split; [lia|]); apply inc1|]); intros q; cbn [In]; intuition.
  - intros (-> & Lk & Sk & I). destruct (len3 k Lk) as (p & q & r & ->). rewrite !inc_cons in Sk. destruct Sk as (P & Q & _). assert (Ip : In p [a; b; c; d]) by (apply I; cbn; auto). assert (Iq : In q [a; b; c; d]) by (apply I; cbn; auto). assert (Ir : In r [a; b; c; d]) by (apply I; cbn; auto). cbn [In] in Ip, Iq, Ir.
    destruct Ip as [<-|[<-|[<-|[<-|[]]]]], Iq as [<-|[<-|[<-|[<-|[]]]]], Ir as [<-|[<-|[<-|[<-|[]]]]]; try lia; auto.
Qed.
Lemma tr_sides_spec i v k x : length v = 3%nat -> increasing v -> In (k, x) (tr_sides i v) <-> x = i /\ length k = 2%nat /\ increasing k /\ incl k v.
Proof.
  intros L S. destruct (len3 v L) as (a & b & c & ->). rewrite !inc_cons in S. destruct S as (A & B & _). cbn [tr_sides In]. split.
  - intros [E|[E|[E|[]]]]; injection E as <- <-; (split; [reflexivity|]); (split; [reflexivity|]); (split; [rewrite !inc_cons; repeat (split; [lia|]); apply inc1|]); intros q; cbn [In]; intuition.
  - intros (-> & Lk & Sk & I). destruct (len2 k Lk) as (p & q & ->). rewrite !inc_cons in Sk. destruct Sk as (P & _). assert (Ip : In p [a; b; c]) by (apply I; cbn; auto). assert (Iq : In q [a; b; c]) by (apply I; cbn; auto). cbn [In] in Ip, Iq.
    destruct Ip as [<-|[<-|[<-|[]]]], Iq as [<-|[<-|[<-|[]]]]; try lia; auto.
Qed.
Lemma inc_nodup w : increasing w -> NoDup w.
Proof. intros S. apply (sorted_NoDup w). exact S. Qed.
Lemma inc_full w w' : increasing w -> increasing w' -> length w = length w' -> incl w w' -> w = w'.
Proof.
  intros S S' L I. apply sorted_ext; [exact S|exact S'|]. intros x. split; [apply I|]. apply (NoDup_length_incl (inc_nodup _ S)); [lia|exact I].
Qed.
Lemma zget_total {A} (l : list A) i : 0 <= i < Z.of_nat (length l) <-> exists x, zget l i = Ok x.
Proof. split; [apply zget_ok|]. intros (x & E). exact (zget_range _ _ _ E). Qed.
Lemma zget_nodup {A} (l : list A) i j x : NoDup l -> zget l i = Ok x -> zget l j = Ok x -> i = j.
Proof. intros ND. rewrite !zget_nth. intros [Pi I] [Pj J]. assert (Z.to_nat i = Z.to_nat j); [|lia]. apply (proj1 (NoDup_nth_error l) ND); [apply nth_error_Some; congruence|congruence]. Qed.
Lemma tet_at_zget T i w : tet_at T i = Some w <-> zget T i = Ok w.
Proof. rewrite zget_nth. unfold tet_at. destruct (Z.ltb_spec i 0); split; [discriminate|lia|auto|tauto]. Qed.
Theorem C99_tetrahedral_mesh : forall n0 T, well_formed3 n0 T -> exists m, build3 n0 T = Ok m /\ describes3 n0 T m.
Proof.
  intros n0 T (W & U). unfold build3. set (ts := map sort4 T). set (tm := sides_map tet_sides ts). set (em := sides_map tr_sides (mkeys tm)).
  (* the tetrahedra *)
  assert (GT : forall i w, tet_at T i = Some w -> zget ts i = Ok (sort4 w)). { intros i w E. apply tet_at_zget, zget_nth in E. destruct E as [P E]. apply zget_nth. split; [exact P|]. unfold ts. rewrite nth_error_map, E. reflexivity. }
  assert (GI : forall i w, zget ts i = Ok w -> exists w0, tet_at T i = Some w0 /\ w = sort4 w0). { intros i w E. apply zget_nth in E. destruct E as [P E]. unfold ts in E. rewrite nth_error_map in E. destruct (nth_error T (Z.to_nat i)) as [w0|] eqn:E0; [|discriminate]. exists w0. split; [apply tet_at_zget, zget_nth; auto|cbn in E; congruence]. }
  assert (ST : forall i w, tet_at T i = Some w -> increasing (sort4 w) /\ length (sort4 w) = 4%nat /\ forall v, In v (sort4 w) <-> In v w).
  { intros i w E. destruct (W _ _ E) as (L & N & _). destruct (sort4_spec w N) as [P S]. split; [exact S|]. split; [rewrite <- (Permutation_length P); exact L|]. intros v. split; apply Permutation_in; [symmetry|]; exact P. }
  assert (TS : forall i w, zget ts i = Ok w -> length w = 4%nat /\ increasing w /\ forall v, In v w <-> corner3 T i v).
  { intros i w E. destruct (GI _ _ E) as (w0 & E0 & ->). destruct (ST _ _ E0) as (S & L & I). split; [exact L|]. split; [exact S|]. intros v. rewrite I. split; [intros H; exists w0; auto|]. intros (w1 & E1 & H). rewrite E0 in E1. injection E1 as <-. exact H. }
  assert (NDt : NoDup ts). { apply NoDup_nth_error. intros i j Li E. destruct (nth_error ts i) as [w|] eqn:Ei; [|apply nth_error_None in Ei; lia]. symmetry in E. assert (A : zget ts (Z.of_nat i) = Ok w) by (apply zget_nth; rewrite Nat2Z.id; split; [lia|exact Ei]). assert (B : zget ts (Z.of_nat j) = Ok w) by (apply zget_nth; rewrite Nat2Z.id; split; [lia|exact E]).
    destruct (GI _ _ A) as (wa & Ea & Xa). destruct (GI _ _ B) as (wb & Eb & Xb). assert (Z.of_nat i = Z.of_nat j); [|lia]. apply (U _ _ _ _ Ea Eb). intros v. rewrite <- (proj2 (proj2 (ST _ _ Ea)) v), <- (proj2 (proj2 (ST _ _ Eb)) v), <- Xa, <- Xb. reflexivity. }
  (* the triangles *)
  destruct (sides_map_spec tet_sides ts) as (Mt & Ft & Ht). fold tm in Mt, Ft, Ht.
  assert (KT : forall k x, (exists s, mfind k tm = Some s /\ In x s) <-> exists w, zget ts x = Ok w /\ length k = 3%nat /\ increasing k /\ incl k w).
  { intros k x. rewrite Ht. split.
    - intros (i & v & E & I). destruct (TS _ _ E) as (L & S & _). apply (tet_sides_spec i v k x L S) in I. destruct I as (-> & I). eauto.
    - intros (w & E & I). destruct (TS _ _ E) as (L & S & _). exists x, w. split; [exact E|]. apply (tet_sides_spec x w k x L S). auto. }
  assert (InT : forall k, In k (mkeys tm) <-> exists x w, zget ts x = Ok w /\ length k = 3%nat /\ increasing k /\ incl k w).
  { intros k. rewrite mfind_In_keys. split.
    - intros (s & E). destruct (Ft _ _ E) as [_ Ne]. destruct s as [|x s]; [contradiction|]. exists x. apply KT. exists (x :: s). split; [exact E|left; reflexivity].
    - intros (x & H). apply KT in H. destruct H as (s & E & _). eauto. }
  assert (NDr : NoDup (mkeys tm)) by (apply sorted_NoDup, Mt).
  assert (TR : forall i k, zget (mkeys tm) i = Ok k -> length k = 3%nat /\ increasing k).
  { intros i k E. destruct (proj1 (InT k)) as (x & w & _ & H); [apply in_keys; eauto|]. tauto. }
  (* the edges *)
  destruct (sides_map_spec tr_sides (mkeys tm)) as (Me & Fe & He). fold em in Me, Fe, He.
  assert (KE : forall k x, (exists s, mfind k em = Some s /\ In x s) <-> exists w, zget (mkeys tm) x = Ok w /\ length k = 2%nat /\ increasing k /\ incl k w).
  { intros k x. rewrite He. split.
    - intros (i & v & E & I). destruct (TR _ _ E) as (L & S). apply (tr_sides_spec i v k x L S) in I. destruct I as (-> & I). eauto.
    - intros (w & E & I). destruct (TR _ _ E) as (L & S). exists x, w. split; [exact E|]. apply (tr_sides_spec x w k x L S). auto. }
  assert (InE : forall k, In k (mkeys em) <-> exists x w, zget (mkeys tm) x = Ok w /\ length k = 2%nat /\ increasing k /\ incl k w).
  { intros k. rewrite mfind_In_keys. split.
    - intros (s & E). destruct (Fe _ _ E) as [_ Ne]. destruct s as [|x s]; [contradiction|]. exists x. apply KE. exists (x :: s). split; [exact E|left; reflexivity].
    - intros (x & H). apply KE in H. destruct H as (s & E & _). eauto. }
  assert (InE' : forall k, In k (mkeys em) <-> exists t, length k = 2%nat /\ increasing k /\ forall v, In v k -> corner3 T t v).
  { intros k. rewrite InE. split.
    - intros (x & w & E & L & S & I). destruct (proj1 (InT w)) as (t & w' & E' & _ & _ & I'); [apply in_keys; eauto|]. exists t. split; [exact L|]. split; [exact S|]. intros v Iv. apply (TS _ _ E'), I', I, Iv.
    - intros (t & L & S & I). destruct (len2 k L) as (p & q & ->). rewrite inc_cons in S. destruct (I p ltac:(cbn; auto)) as (w0 & E0 & _). pose proof (GT _ _ E0) as E. destruct (TS _ _ E) as (Lw & Sw & Iw). assert (Ip : In p (sort4 w0)) by (apply Iw, I; cbn; auto). assert (Iq : In q (sort4 w0)) by (apply Iw, I; cbn; auto). destruct (len4 _ Lw) as (a & b & c & d & Ew). rewrite Ew in *.
      assert (K : exists k3, length k3 = 3%nat /\ increasing k3 /\ incl k3 [a; b; c; d] /\ In p k3 /\ In q k3).
      { rewrite !inc_cons in Sw. destruct Sw as (A & B & C & _). assert (X : forall k3, In (k3, t) (tet_sides t [a; b; c; d]) -> length k3 = 3%nat /\ increasing k3 /\ incl k3 [a; b; c; d]) by (intros k3 H; apply tet_sides_spec in H; [tauto|reflexivity|rewrite !inc_cons; repeat (split; [lia|]); apply inc1]).
        assert (Y : exists k3, In (k3, t) (tet_sides t [a; b; c; d]) /\ In p k3 /\ In q k3). { cbn [In] in Ip, Iq. destruct S as [S _]. destruct Ip as [<-|[<-|[<-|[<-|[]]]]], Iq as [<-|[<-|[<-|[<-|[]]]]]; try lia; [exists [a; b; c]|exists [a; b; c]|exists [a; b; d]|exists [a; b; c]|exists [a; b; d]|exists [a; c; d]]; cbn; auto 12. }
        destruct Y as (k3 & Y & Yp & Yq). destruct (X k3 Y) as (X1 & X2 & X3). eauto 8. }
      destruct K as (k3 & K1 & K2 & K3 & Kp & Kq). destruct (proj1 (in_keys tm k3)) as (x & Ex); [apply InT; exists t; eauto 6|]. exists x, k3. split; [exact Ex|]. split; [reflexivity|]. split; [rewrite inc_cons; tauto|]. intros z [<-|[<-|[]]]; assumption. }
  assert (NDe : NoDup (mkeys em)) by (apply sorted_NoDup, Me).
  destruct (id_map_spec _ NDt) as (_ & It). destruct (id_map_spec _ NDr) as (_ & Ir). destruct (id_map_spec _ NDe) as (Mi & Ie).
  (* the vertices *)
  destruct (vert3_loop n0 (id_map (mkeys em))) as (vo & ve & Ev & Lo & Le & Ho & Hv & So & Sv).
  { intros k i I. apply (In_mfind _ _ _ Mi), Ie in I. destruct (proj1 (InE' k)) as (t & L & S & C); [apply in_keys; eauto|]. destruct (len2 k L) as (u & v & ->). exists u, v. split; [reflexivity|]. assert (Q : forall x, corner3 T t x -> 0 <= x < Z.of_nat n0) by (intros x (w & Ew & Ix); destruct (W _ _ Ew) as (_ & _ & R); auto). split; apply Q, C; cbn; auto. }
  eexists. split; [rewrite Ev; cbn [bind]; reflexivity|].
  assert (EI : forall k i, In (k, i) (id_map (mkeys em)) <-> zget (mkeys em) i = Ok k) by (intros k i; split; [intros I; apply Ie, (In_mfind _ _ _ Mi), I|intros E; apply mfind_In, Ie, E]).
  constructor; unfold m3_n, m3_get, m3_find, m3_side_of, m3_neighbours; cbn [nv3 tets trs tr_of eds ed_of v3_of v3ev tet_ids tr_ids ed_ids Z.eqb Pos.eqb].
  - reflexivity.
  - unfold ts. rewrite map_length. reflexivity.
  - intros d. destruct (d =? 0), (d =? 1), (d =? 2), (d =? 3); lia.
  - intros i w E. exists (sort4 w). split; [apply GT, E|]. destruct (ST _ _ E) as (S & _ & I). auto.
  - intros d i Hd. assert (d = 1 \/ d = 2 \/ d = 3) as [->|[->| ->]] by lia; cbn [Z.eqb Pos.eqb]; apply zget_total.
  - intros d i w Hd. assert (d = 1 \/ d = 2 \/ d = 3) as [->|[->| ->]] by lia; cbn [Z.eqb Pos.eqb]; intros E.
    + destruct (proj1 (InE' w)) as (t & L & S & C); [apply in_keys; eauto|]. split; [lia|]. split; [exact S|eauto].
    + destruct (proj1 (InT w)) as (t & w' & E' & L & S & C); [apply in_keys; eauto|]. split; [lia|]. split; [exact S|]. exists t. intros v I. apply (TS _ _ E'), C, I.
    + destruct (TS _ _ E) as (L & S & I). split; [lia|]. split; [exact S|]. exists i. intros v. apply I.
  - intros d w t Hd L S C. assert (N : exists v, In v w) by (destruct w as [|v w]; [cbn in L; lia|exists v; left; reflexivity]). destruct N as (v0 & Iv0). destruct (C v0 Iv0) as (w0 & E0 & _). pose proof (GT _ _ E0) as E. destruct (TS _ _ E) as (Lw & Sw & Iw). assert (I : incl w (sort4 w0)) by (intros v Iv; apply Iw, C, Iv).
    assert (d = 1 \/ d = 2 \/ d = 3) as [->|[->| ->]] by lia; cbn [Z.eqb Pos.eqb].
    + apply in_keys, InE'. exists t. split; [lia|]. auto.
    + apply in_keys, InT. exists t, (sort4 w0). split; [exact E|]. split; [lia|]. auto.
    + exists t. rewrite E. f_equal. symmetry. apply inc_full; [exact S|exact Sw|lia|exact I].
  - intros d i j w Hd. assert (d = 1 \/ d = 2 \/ d = 3) as [->|[->| ->]] by lia; cbn [Z.eqb Pos.eqb]; apply zget_nodup; assumption.
  - intros d w Hd. assert (d = 1 \/ d = 2 \/ d = 3) as [->|[->| ->]] by lia; cbn [Z.eqb Pos.eqb].
    + eexists. split; [reflexivity|]. apply Ie.
    + eexists. split; [reflexivity|]. apply Ir.
    + exists (mfind w (id_map ts)). split; [|apply It]. destruct (mfind w (id_map ts)) as [i|] eqn:E; [|reflexivity]. apply It in E. rewrite E. cbn [bind]. rewrite keqb_refl. reflexivity.
  - intros d i w Hd. assert (d = 1 \/ d = 2) as [->| ->] by lia; cbn [Z.eqb Pos.eqb Z.add Pos.add Pos.succ]; intros E.
    + destruct (nth_keys _ _ _ E) as (s & Es & I). apply (In_mfind _ _ _ Me) in I. exists s. split; [exact Es|]. split; [exact (sortedZ _ (proj1 (Fe _ _ I)))|]. intros j. destruct (proj1 (InE' w)) as (t & L & S & C); [apply in_keys; eauto|]. split.
      * intros J. destruct (proj1 (KE w j)) as (w' & E' & _ & _ & Q); [eauto|]. eauto.
      * intros (w' & E' & Q). destruct (proj2 (KE w j)) as (s' & I' & J); [exists w'; auto|]. rewrite I in I'. injection I' as <-. exact J.
    + destruct (nth_keys _ _ _ E) as (s & Es & I). apply (In_mfind _ _ _ Mt) in I. exists s. split; [exact Es|]. split; [exact (sortedZ _ (proj1 (Ft _ _ I)))|]. intros j. destruct (TR _ _ E) as (L & S). split.
      * intros J. destruct (proj1 (KT w j)) as (w' & E' & _ & _ & Q); [eauto|]. eauto.
      * intros (w' & E' & Q). destruct (proj2 (KT w j)) as (s' & I' & J); [exists w'; auto|]. rewrite I in I'. injection I' as <-. exact J.
  - intros v R. destruct (zget_ok vo v) as (s & E); [lia|]. exists s. split; [exact E|]. split; [exact (sortedZ _ (So _ _ E))|]. intros e. rewrite <- (zin_get _ _ _ _ E), Ho. split.
    + intros (p & q & I & Q). apply EI in I. exists [p; q]. split; [exact I|]. cbn. destruct Q as [->| ->]; auto.
    + intros (w & Ew & I). destruct (proj1 (InE' w)) as (t & L & S & C); [apply in_keys; eauto|]. destruct (len2 w L) as (p & q & ->). exists p, q. split; [apply EI, Ew|]. destruct I as [<-|[<-|[]]]; auto.
  - intros v R. destruct (zget_ok ve v) as (s & E); [lia|]. exists s. split; [exact E|]. split; [exact (sortedZ _ (Sv _ _ E))|]. intros x. rewrite <- (zin_get _ _ _ _ E), Hv. split.
    + intros (e & [I|I]); apply EI in I; (destruct (proj1 (InE' _) (proj2 (in_keys _ _) (ex_intro _ _ I))) as (t & _ & S & C)); rewrite inc_cons in S; (split; [lia|]); exists t; split; apply C; cbn; auto.
    + intros (N & t & Cv & Cx). assert (Q : forall a b, a < b -> corner3 T t a -> corner3 T t b -> exists e, In ([a; b], e) (id_map (mkeys em))).
      { intros a b L Ca Cb. destruct (proj1 (in_keys em [a; b])) as (e & Ee); [|exists e; apply EI, Ee]. apply InE'. exists t. split; [reflexivity|]. split; [rewrite inc_cons; split; [exact L|apply inc1]|]. intros z [<-|[<-|[]]]; assumption. }
      destruct (Z.lt_total v x) as [L|[L|L]]; [destruct (Q v x L Cv Cx) as (e & H)|congruence|destruct (Q x v L Cx Cv) as (e & H)]; exists e; auto.
Qed.
(** ** The hypothesis is met *)
Example C99_witness : well_formed3 5 [[0; 1; 2; 3]; [4; 2; 1; 3]].
Proof.
  assert (X : forall i w, tet_at [[0; 1; 2; 3]; [4; 2; 1; 3]] i = Some w -> (i = 0 /\ w = [0; 1; 2; 3]) \/ (i = 1 /\ w = [4; 2; 1; 3])).
  { intros i w E. apply tet_at_zget in E. pose proof (zget_range _ _ _ E) as R. cbn in R. assert (i = 0 \/ i = 1) as [->| ->] by lia; cbn in E; injection E as <-; auto. }
  split.
  - intros i w E. destruct (X _ _ E) as [[-> ->]|[-> ->]]; (split; [reflexivity|]); (split; [|intros v I; cbn in I; lia]); repeat constructor; cbn; lia.
  - intros i j w w' E E' H. destruct (X _ _ E) as [[-> ->]|[-> ->]], (X _ _ E') as [[-> ->]|[-> ->]]; try reflexivity; specialize (H 0); cbn in H; lia.
Qed.
(** vertices in another order are not found, although the simplex exists *)
Theorem C99_find_unsorted_refuted : exists m, build3 5 [[0; 1; 2; 3]; [4; 2; 1; 3]] = Ok m /\ m3_find m 3 [4; 2; 1; 3] = Ok None /\ m3_find m 3 [1; 2; 3; 4] = Ok (Some 1) /\ m3_find m 1 [2; 1] = Ok None.
Proof. eexists. split; [reflexivity|]. split; [reflexivity|]. split; reflexivity. Qed.
