(** The detected faces form curves. *)
From Coq Require Import QArith Qabs.
From Verif Require Import Base UnionFind Lattice LatticeSpec LatticeProofs NdArray NdArraySpec NdArrayProofs2 ListOrd Parallel RegularMesh RegularMeshSpec MeshLevels MeshEnum MeshSides MeshCofaces MeshIndex
  SoS SoSSpec Graph GraphSpec GraphCurves FeatureCurve FeatureCurveSet CpTracker CpTrackerSpec CpTrackerProofs CpTrackerRun CpCells CpTraces.
Local Close Scope Q_scope. Local Open Scope Z_scope. Local Open Scope list_scope.

Section Faces.
  Variables (c : config).
  Hypothesis (OK : config_ok c).
  Let d := sdim c.
  Lemma face_el k : is_face c k -> el_ok (S d) (el d k).
  Proof. intros [H1 H2]. split; [cbn; lia|]. split; [exact H2|exact H1]. Qed.
  Lemma el_face e : el_ok (S d) e -> edim e = d -> is_face c (key_of e) /\ el d (key_of e) = e.
  Proof. intros (_ & H1 & H2) D. split; [split; [exact H2|]|]; unfold key_of; cbn. - rewrite D in H1. exact H1. - destruct e. cbn in *. subst. reflexivity. Qed.
  Lemma key_el k : key_of (el d k) = k. Proof. destruct k; reflexivity. Qed.
  Lemma cell_sides e : is_cell c e -> exists si, sides (S d) e = Ok si /\ NoDup si /\ (forall s, In s si -> el_ok (S d) s /\ edim s = d) /\
    exists vs, vertices (S d) e = Ok vs /\ NoDup vs /\ length vs = S (S d) /\ forall k us, is_face c k -> vertices (S d) (el d k) = Ok us -> In (el d k) si <-> exists j, (j <= S d)%nat /\ us = remove_nth j vs.
  Proof.
    intros [O De]. fold d in O, De. destruct (sides_lemma (S d) e ltac:(lia) O ltac:(lia)) as (si & vs & Es & Ev & ND & Ln & Sok & Sp). destruct (el_vertices_ok (S d) e ltac:(lia) O) as (vs' & Ev' & NDv & Lv). rewrite Ev in Ev'. injection Ev' as <-.
    exists si. split; [exact Es|]. split; [exact ND|]. rewrite De in *. replace (S d - 1)%nat with d in * by lia. split; [exact Sok|]. exists vs. split; [exact Ev|]. split; [exact NDv|]. split; [exact Lv|].
    intros k us Hk Eu. apply (Sp (el d k) us (face_el k Hk) eq_refl Eu).
  Qed.
  Lemma face_of_face k e : is_cell c e -> face_of c k e -> is_face c k.
  Proof.
    intros Ce (si & Es & Hin). destruct (cell_sides e Ce) as (si' & Es' & _ & Sok & _). unfold d in *. rewrite Es in Es'. injection Es' as <-. destruct (Sok _ Hin) as [(_ & H1 & H2) _]. split; [exact H2|exact H1].
  Qed.
  Lemma neighbors_spec k : is_face c k -> sorted (neighbors d k) /\ forall k', In k' (neighbors d k) <-> share_cell c k k'.
  Proof.
    intros Hk. assert (Dr := d_range c OK). fold d in Dr. destruct (side_of_lemma (S d) (el d k) ltac:(lia) (face_el k Hk) ltac:(cbn; lia)) as (so & Eo & ND & Ok_ & Io).
    assert (Cs : forall e, In e so -> is_cell c e /\ face_of c k e).
    { intros e He. destruct (Ok_ e He) as [Oe De]. cbn in De. split; [split; assumption|]. destruct (Io e Oe De) as (si & Es & I). exists si. split; [exact Es|]. apply I, He. }
    assert (Cs' : forall e, is_cell c e -> face_of c k e -> In e so).
    { intros e [Oe De] (si & Es & Hin). destruct (Io e Oe De) as (si' & Es' & I). unfold d in *. rewrite Es in Es'. injection Es' as <-. apply I, Hin. }
    destruct (mapM_all_ok (sides (S d)) so) as (fs & Ef & F2). { intros e He. destruct (Cs e He) as [Ce _]. destruct (cell_sides e Ce) as (si & Es & _). eauto. }
    assert (Er : neighbors_res d k = Ok (sof (map key_of (concat fs)))) by (unfold neighbors_res; rewrite Eo; cbn [bind]; rewrite Ef; reflexivity).
    unfold neighbors. rewrite Er. split; [apply sorted_sof|]. intros k'. rewrite In_sof, in_map_iff. split.
    - intros (s & <- & Hs). apply in_concat in Hs as (si & Hsi & Hs). destruct (Forall2_In_r _ _ _ _ F2 Hsi) as (e & He & Es). destruct (Cs e He) as [Ce Fe]. exists e. split; [exact Ce|]. split; [exact Fe|].
      exists si. split; [exact Es|]. destruct (cell_sides e Ce) as (si' & Es' & _ & Sok & _). rewrite Es in Es'. injection Es' as <-. destruct (Sok s Hs) as [Os Ds]. fold d. rewrite (proj2 (el_face s Os Ds)). exact Hs.
    - intros (e & Ce & Fk & (si & Es & Hin)). exists (el d k'). split; [apply key_el|]. apply in_concat. destruct (Forall2_In_l _ _ _ _ F2 (Cs' e Ce Fk)) as (si' & Hsi' & Es'). unfold d in *. rewrite Es in Es'. injection Es' as <-. exists si. auto.
  Qed.
  Lemma share_sym k k' : share_cell c k k' -> share_cell c k' k.
  Proof. intros (e & H1 & H2 & H3). exists e. auto. Qed.
  Lemma share_face k k' : share_cell c k k' -> is_face c k /\ is_face c k'.
  Proof. intros (e & H1 & H2 & H3). split; eapply face_of_face; eauto. Qed.

  Definition nbr (k : key) : list key := if ((length (fst k) =? S d) && (snd k <? ntypes (S d) d))%nat then neighbors d k else [].
  Lemma nbr_face k : is_face c k -> nbr k = neighbors d k.
  Proof. intros [H1 H2]. unfold nbr. fold d in H1, H2. rewrite H1, Nat.eqb_refl. apply Nat.ltb_lt in H2. rewrite H2. reflexivity. Qed.
  Lemma nbr_sym : symmetric_nb nbr.
  Proof.
    intros x y H. assert (Fx : is_face c x).
    { unfold nbr in H. destruct (Nat.eqb_spec (length (fst x)) (S d)) as [E|]; [|destruct H]. destruct (Nat.ltb_spec (snd x) (ntypes (S d) d)) as [L|]; [|destruct H]. split; assumption. }
    rewrite (nbr_face x Fx) in H. apply (proj2 (neighbors_spec x Fx)) in H. destruct (share_face x y H) as [_ Fy]. rewrite (nbr_face y Fy). apply (proj2 (neighbors_spec y Fy)). apply share_sym, H.
  Qed.

  Lemma two_cells k : is_face c k -> exists e1 e2, e1 <> e2 /\ forall e, (is_cell c e /\ face_of c k e) <-> e = e1 \/ e = e2.
  Proof.
    intros Hk. assert (Dr := d_range c OK). fold d in Dr. destruct (side_of_lemma (S d) (el d k) ltac:(lia) (face_el k Hk) ltac:(cbn; lia)) as (so & Eo & ND & Ok_ & Io).
    destruct (facet_lemma (S d) (el d k) ltac:(lia) (face_el k Hk)) as (so' & Eo' & _ & L2); [cbn; lia|]. rewrite Eo in Eo'. injection Eo' as <-.
    destruct so as [|e1 [|e2 [|? ?]]]; try discriminate. exists e1, e2. split; [inversion ND as [|? ? N _]; subst; intros ->; apply N; left; reflexivity|].
    intros e. split.
    - intros [[Oe De] (si & Es & Hin)]. destruct (Io e Oe De) as (si' & Es' & I). unfold d in *. rewrite Es in Es'. injection Es' as <-. apply I in Hin. cbn in Hin. intuition.
    - intros He. assert (He' : In e [e1; e2]) by (cbn; intuition). destruct (Ok_ e He') as [Oe De]. split; [split; assumption|]. destruct (Io e Oe De) as (si & Es & I). exists si. split; [exact Es|]. apply I, He'.
  Qed.
  (** the vertices of a cell are those of any two of its faces *)
  Lemma two_faces k k' e us us' vs : is_cell c e -> face_of c k e -> face_of c k' e -> k <> k' -> vertices (S d) (el d k) = Ok us -> vertices (S d) (el d k') = Ok us' -> vertices (S d) e = Ok vs ->
    forall v, In v vs <-> In v us \/ In v us'.
  Proof.
    intros Ce Fk Fk' N Eu Eu' Ev v. destruct (cell_sides e Ce) as (si & Es & _ & _ & vs' & Ev' & ND & Ln & Sp). rewrite Ev in Ev'. injection Ev' as <-.
    assert (Hk := face_of_face k e Ce Fk). assert (Hk' := face_of_face k' e Ce Fk'). destruct Fk as (si1 & E1 & Hin). destruct Fk' as (si2 & E2 & Hin'). unfold d in *. rewrite Es in E1, E2. injection E1 as <-. injection E2 as <-.
    destruct (proj1 (Sp k us Hk Eu) Hin) as (j & Hj & ->). destruct (proj1 (Sp k' us' Hk' Eu') Hin') as (j' & Hj' & ->).
    split; [|intros [H|H]; eapply remove_nth_In; eauto]. apply remove_nth_other; try lia. intros ->. apply N. rewrite <- (key_el k), <- (key_el k'). f_equal. unfold d. eapply vertices_determine; [|apply face_el; exact Hk|apply face_el; exact Hk'|reflexivity|unfold d; congruence]. lia.
  Qed.
  Lemma cells_meet_once e e' k k' : is_cell c e -> is_cell c e' -> face_of c k e -> face_of c k e' -> face_of c k' e -> face_of c k' e' -> k <> k' -> e = e'.
  Proof.
    intros Ce Ce' F1 F2 F3 F4 N. assert (Hk := face_of_face k e Ce F1). assert (Hk' := face_of_face k' e Ce F3).
    destruct (el_vertices_ok (S d) (el d k) ltac:(lia) (face_el k Hk)) as (us & Eu & _). destruct (el_vertices_ok (S d) (el d k') ltac:(lia) (face_el k' Hk')) as (us' & Eu' & _).
    destruct (el_ok_is (S d) e ltac:(lia) (proj1 Ce)) as (f & I). destruct (el_ok_is (S d) e' ltac:(lia) (proj1 Ce')) as (f' & I').
    assert (Ev := vertices_is _ _ _ I). assert (Ev' := vertices_is _ _ _ I'). apply (vertices_determine (S d)); [lia|apply Ce|apply Ce'|destruct Ce, Ce'; congruence|]. rewrite Ev, Ev'. f_equal.
    apply sorted_ext; [eapply el_vertices_sorted; eauto|eapply el_vertices_sorted; eauto|]. intros v. rewrite (two_faces k k' e us us' _ Ce F1 F3 N Eu Eu' Ev v), (two_faces k k' e' us us' _ Ce' F2 F4 N Eu Eu' Ev' v). reflexivity.
  Qed.

  (** ** punctured faces *)
  Variables (all : list snapshot) (t0 F : Z).
  Lemma data_finite v : (in_bounds (mesh_lb c) (mesh_ub c) v /\ forall j, (j < sdim c)%nat -> exists q, field_value c all t0 v j = Some (Fin q)) <-> finite_at c all t0 F v.
  Proof.
    unfold finite_at. split; intros [B H]; (split; [exact B|]).
    - assert (G : forall n, (n <= sdim c)%nat -> exists row, length row = n /\ forall j z, nth_error row j = Some z -> exists q, field_value c all t0 v j = Some (Fin q) /\ z = Z.quot (Qnum q * F) (Zpos (Qden q))); [|destruct (G (sdim c) ltac:(lia)) as (row & H1 & H2); exists row; split; assumption].
      induction n as [|n IH]; intros Hn; [exists []; split; [reflexivity|]; intros [|j] z E; discriminate|]. destruct (IH ltac:(lia)) as (row & L & R). destruct (H n ltac:(lia)) as (q & Hq).
      exists (row ++ [Z.quot (Qnum q * F) (Zpos (Qden q))]). split; [rewrite app_length; cbn; lia|]. intros j z E. destruct (Nat.lt_ge_cases j n) as [Hj|Hj]; [rewrite nth_error_app1 in E by lia; auto|].
      rewrite nth_error_app2 in E by lia. destruct (j - length row)%nat as [|m] eqn:Ej; [|destruct m; discriminate]. cbn in E. injection E as <-. assert (j = n) by lia. subst. eauto.
    - destruct H as (row & L & R). intros j Hj. destruct (nth_error row j) as [z|] eqn:E; [|apply nth_error_None in E; lia]. destruct (R j z E) as (q & Hq & _). eauto.
  Qed.
  Lemma has_data_finite e vs : is_cell c e -> vertices (S d) e = Ok vs -> has_data c all t0 e <-> Forall (finite_at c all t0 F) vs.
  Proof.
    intros Ce Ev. unfold has_data. split.
    - intros (vs' & Ev' & H). unfold d in *. rewrite Ev in Ev'. injection Ev' as <-. eapply Forall_impl; [|exact H]. intros v. apply data_finite.
    - intros H. exists vs. split; [exact Ev|]. eapply Forall_impl; [|exact H]. intros v. apply data_finite.
  Qed.
  Notation P := (punctured c all t0 F).
  Lemma two_punctured_data k k' e : is_cell c e -> face_of c k e -> face_of c k' e -> k <> k' -> P k -> P k' -> has_data c all t0 e.
  Proof.
    intros Ce Fk Fk' N Pk Pk'. destruct (el_vertices_ok (S d) e ltac:(lia) (proj1 Ce)) as (vs & Ev & _). apply (has_data_finite e vs Ce Ev). apply Forall_forall. intros v Hv.
    assert (Hk := face_of_face k e Ce Fk). assert (Hk' := face_of_face k' e Ce Fk').
    destruct (el_vertices_ok (S d) (el d k) ltac:(lia) (face_el k Hk)) as (us & Eu & _). destruct (el_vertices_ok (S d) (el d k') ltac:(lia) (face_el k' Hk')) as (us' & Eu' & _).
    apply (proj1 (punct_key c all t0 F k us Eu)) in Pk. apply (proj1 (punct_key c all t0 F k' us' Eu')) in Pk'. apply punct_finite in Pk, Pk'. rewrite Forall_forall in Pk, Pk'.
    apply (two_faces k k' e us us' vs Ce Fk Fk' N Eu Eu' Ev) in Hv as [Hv|Hv]; auto.
  Qed.
  Lemma cell_data e : is_cell c e -> has_data c all t0 e -> exists hit, NoDup hit /\ (forall k, In k hit <-> face_of c k e /\ P k) /\ (length hit = 0 \/ length hit = 2)%nat.
  Proof.
    intros Ce H. destruct (cell_lemma c OK all t0 F e (proj1 Ce) (proj2 Ce)) as (si & hit & Es & ND & I & L).
    { intros vs Ev. apply (has_data_finite e vs Ce Ev). exact H. }
    exists hit. split; [exact ND|]. split; [|exact L]. intros k. rewrite I. unfold face_of. split; [intros [H1 H2]; split; [eauto|exact H2]|]. intros [(si' & Es' & H1) H2]. rewrite Es in Es'. injection Es' as <-. auto.
  Qed.
  (** a cell with data has at most one more punctured face, and exactly one if it has data *)
  Lemma other_unique e k k1 k2 : is_cell c e -> face_of c k e -> face_of c k1 e -> face_of c k2 e -> P k -> P k1 -> P k2 -> k <> k1 -> k <> k2 -> k1 = k2.
  Proof.
    intros Ce F0 F1 F2 P0 P1 P2 N1 N2. destruct (cell_data e Ce (two_punctured_data k k1 e Ce F0 F1 N1 P0 P1)) as (hit & ND & I & L).
    assert (Hd : forall a b : key, {a = b} + {a <> b}) by apply kdec. destruct (Hd k1 k2) as [|N]; [assumption|exfalso]. assert (Hl : (length [k; k1; k2] <= length hit)%nat); [|cbn in Hl; lia].
    apply NoDup_incl_length; [repeat constructor; cbn; intuition congruence|]. intros x [<-|[<-|[<-|[]]]]; apply I; auto.
  Qed.
  Lemma other_exists e k : is_cell c e -> face_of c k e -> P k -> has_data c all t0 e -> exists k', k' <> k /\ face_of c k' e /\ P k'.
  Proof.
    intros Ce F0 P0 H. destruct (cell_data e Ce H) as (hit & ND & I & L). assert (Hk : In k hit) by (apply I; auto). destruct L as [L|L]; [destruct hit; [destruct Hk|discriminate]|].
    destruct hit as [|a [|b [|? ?]]]; try discriminate. assert (Nab : a <> b) by (inversion ND as [|? ? N _]; subst; intros ->; apply N; left; reflexivity). destruct Hk as [<-|[<-|[]]].
    - exists b. split; [congruence|]. apply I. right. left. reflexivity.
    - exists a. split; [exact Nab|]. apply I. left. reflexivity.
  Qed.
  Lemma degree_two q x : (forall k, In k q -> P k) -> is_face c x -> P x -> (degree (neighbors d) q x <= 2)%nat.
  Proof.
    intros Hq Fx Px. destruct (neighbors_spec x Fx) as [Sn In_]. destruct (two_cells x Fx) as (e1 & e2 & _ & Hc). unfold degree. set (l := filter _ _).
    assert (Hl : forall y, In y l -> y <> x /\ P y /\ ((face_of c y e1 /\ is_cell c e1 /\ face_of c x e1) \/ (face_of c y e2 /\ is_cell c e2 /\ face_of c x e2))).
    { intros y Hy. apply filter_In in Hy as [Hy Hb]. apply andb_true_iff in Hb as [Hb1 Hb2]. apply negb_true_iff, keqb_neq in Hb1. apply smem_In in Hb2. split; [exact Hb1|]. split; [apply Hq, Hb2|].
      apply In_ in Hy as (e & Ce & F1 & F2). destruct (proj1 (Hc e) (conj Ce F1)) as [-> | ->]; auto. }
    assert (NDl : NoDup l) by (apply NoDup_filter, sorted_NoDup, Sn).
    destruct l as [|a [|b [|z l]]]; cbn [length]; try lia. exfalso.
    inversion NDl as [|? ? N1 N2]; subst. inversion N2 as [|? ? N3 N4]; subst. cbn in N1, N3.
    destruct (Hl a ltac:(cbn; auto)) as (Na & Pa & Ha). destruct (Hl b ltac:(cbn; auto)) as (Nb & Pb & Hb). destruct (Hl z ltac:(cbn; auto)) as (Nz & Pz & Hz).
    assert (U : forall e y y', is_cell c e -> face_of c x e -> face_of c y e -> face_of c y' e -> P y -> P y' -> y <> x -> y' <> x -> y = y') by (intros e y y' H1 H2 H3 H4 H5 H6 H7 H8; eapply (other_unique e x y y'); auto).
    assert (Nab : a <> b) by (intros ->; tauto). assert (Naz : a <> z) by (intros ->; tauto). assert (Nbz : b <> z) by (intros ->; tauto).
    destruct Ha as [(H1 & C1 & X1)|(H1 & C1 & X1)], Hb as [(H2 & C2 & X2)|(H2 & C2 & X2)], Hz as [(H3 & C3 & X3)|(H3 & C3 & X3)];
      first [apply Nab; eapply U; [exact C1|exact X1|assumption..]|apply Naz; eapply U; [exact C1|exact X1|assumption..]|apply Nbz; eapply U; [exact C2|exact X2|assumption..]].
  Qed.
End Faces.

(** ** neighbours are next to each other *)
Section Next.
  Context {K : Type} `{OrdKey K} (nb : K -> list K) (q l : list K).
  Context (Sym : forall x y, In x q -> In y q -> In y (nb x) -> In x (nb y)) (Il : incl l q) (ND : NoDup l) (Ch : chain nb l)
    (Deg : forall x, In x l -> (degree nb q x <= 2)%nat).
  Lemma interior_next x y p u w s : l = p ++ u :: x :: w :: s -> In y l -> y <> x -> In y (nb x) -> y = u \/ y = w.
  Proof.
    intros E Hy N Hn. assert (Ix : In x l) by (rewrite E; apply in_app_iff; cbn; auto). assert (Iu : In u l) by (rewrite E; apply in_app_iff; cbn; auto). assert (Iw : In w l) by (rewrite E; apply in_app_iff; cbn; auto).
    assert (N' : NoDup (u :: x :: w :: s)). { rewrite E in ND. clear -ND. induction p as [|a p IH]; [exact ND|]. inversion ND; subst. auto. }
    inversion N' as [|? ? N1 N2]; subst. inversion N2 as [|? ? N3 N4]; subst. cbn in N1, N3.
    apply (three nb q (p ++ u :: x :: w :: s)) with (x := x).
    - intros z Hz. split; [apply Il; exact Hz|]. exact (Deg z Hz).
    - exact Ix.
    - apply Sym; auto. apply (Ch p u x (w :: s)). reflexivity.
    - apply (Ch (p ++ [u]) x w s). rewrite <- app_assoc. reflexivity.
    - exact Hn.
    - auto.
    - auto.
    - auto.
    - intros ->. tauto.
    - intros ->. tauto.
    - exact N.
    - intros ->. tauto.
  Qed.
  Lemma place x : In x l -> (exists p u w s, l = p ++ u :: x :: w :: s) \/ (exists s, l = x :: s) \/ (exists p, l = p ++ [x]).
  Proof.
    intros Hx. apply in_split in Hx as (p & s & E). destruct s as [|w s]; [right; right; eauto|]. destruct p as [|a p]; [right; left; eexists; exact E|]. destruct (@exists_last _ (a :: p)) as (p' & u & E'); [discriminate|].
    left. exists p', u, w, s. rewrite E, E', <- app_assoc. reflexivity.
  Qed.
  Lemma next_lemma x y : In x l -> In y l -> y <> x -> In y (nb x) -> next_to l x y.
  Proof.
    intros Hx Hy N Hn. assert (Hn' : In x (nb y)) by (apply Sym; auto).
    assert (Int : forall a b, In a l -> In b l -> b <> a -> In b (nb a) -> (exists p u w s, l = p ++ u :: a :: w :: s) -> next_to l a b).
    { intros a b Ha Hb Nab Hab (p & u & w & s & E). destruct (interior_next a b p u w s E Hb Nab Hab) as [-> | ->].
      - right. left. exists p, (w :: s). exact E.
      - left. exists (p ++ [u]), s. rewrite E, <- app_assoc. reflexivity. }
    assert (Swap : next_to l y x -> next_to l x y) by (intros [H1|[H1|[H1|H1]]]; unfold next_to; auto).
    destruct (place x Hx) as [I|Ex]; [apply Int; auto|]. destruct (place y Hy) as [I|Ey]; [apply Swap; apply Int; auto|].
    destruct Ex as [(s & E)|(p & E)], Ey as [(s' & E')|(p' & E')]; try (exfalso; congruence).
    - right. right. left. destruct p' as [|a p']; [cbn in E'; exfalso; congruence|]. rewrite E in E'. cbn in E'. injection E' as <- E'. exists p'. rewrite E, E'. reflexivity.
    - right. right. right. destruct p as [|a p]; [cbn in E; exfalso; congruence|]. rewrite E' in E. cbn in E. injection E as <- E. exists p. rewrite E', E. reflexivity.
    - exfalso. rewrite E in E'. apply app_inj_tail in E' as [_ E']. congruence.
  Qed.
End Next.

Section Pipeline.
  Variables (measure : list snapshot -> Z -> key -> fpoint) (c : config).
  Hypothesis (OK : config_ok c).
  Let d := sdim c.
  Lemma corner_first k vs : is_face c k -> vertices (S d) (el d k) = Ok vs -> In (fst k) vs.
  Proof.
    intros [Lc Ht] Ev. assert (Dr := d_range c OK). fold d in Dr, Lc, Ht. destruct (face_vertices (S d) d k ltac:(lia) ltac:(lia) Lc Ht) as (s & Es & Ty & Ev' & _). rewrite Ev in Ev'. injection Ev' as ->.
    destruct Ty as (_ & _ & O0 & _). apply nth_error_In in O0. assert (E0 : padd (fst k) (repeat 0 (S d)) = fst k); [|rewrite <- E0 at 1; apply in_map; exact O0].
    apply nth_ext0; [rewrite padd_length; rewrite repeat_length; congruence|]. intros j Hj. rewrite padd_nth by (rewrite repeat_length; exact Lc). rewrite nth_repeat. lia.
  Qed.
  Lemma starts_face t k : starts_at c t k -> is_face c k.
  Proof. intros K. destruct (corner_facts c 0%nat (mkst [] t None [] []) OK k K) as (Lc & _). split; [exact Lc|apply K]. Qed.
  Lemma punctured_starts all t0 F k : is_face c k -> punctured c all t0 F k -> local_domain c = domain c -> t_start c = t0 ->
    exists j, (j < length all)%nat /\ starts_at c (t0 + Z.of_nat j) k /\ in_bounds (mesh_lb c) (mesh_ub c) (fst k).
  Proof.
    intros Fk (vs & V & Ev & B & HV & _) Eloc Et. assert (Dr := d_range c OK). fold d in Dr, Ev. assert (Hc := corner_first k vs Fk Ev). destruct Fk as [Lc Ht]. fold d in Lc, Ht.
    destruct (Forall2_In_l _ _ _ _ HV Hc) as (row & _ & Lr & Hr). fold d in Lr. destruct row as [|z row]; [cbn in Lr; lia|]. destruct (Hr 0%nat z eq_refl) as (q & Q & _).
    rewrite Forall_forall in B. assert (Bc := B _ Hc). destruct (ok_domain c OK) as [Ld _]. fold d in Ld.
    assert (Bn : forall i l u, nth_error (mesh_lb c) i = Some l -> nth_error (mesh_ub c) i = Some u -> l <= nth i (fst k) 0 <= u).
    { intros i l u Hl Hu. destruct Bc as [B1 B2]. split.
      - clear -B1 Hl. revert i Hl. induction B1 as [|a b la lb H F IH]; intros [|i] Hl; cbn in *; try discriminate; [congruence|auto].
      - clear -B2 Hu. revert i Hu. induction B2 as [|a b la lb H F IH]; intros [|i] Hl; cbn in *; try discriminate; [congruence|auto]. }
    assert (Tb : t_start c <= nth d (fst k) 0 <= t_end c).
    { apply (Bn d). - unfold mesh_lb. rewrite nth_error_app2; rewrite map_length, Ld; [rewrite Nat.sub_diag; reflexivity|lia]. - unfold mesh_ub. rewrite nth_error_app2; rewrite map_length, Ld; [rewrite Nat.sub_diag; reflexivity|lia]. }
    exists (Z.to_nat (nth d (fst k) 0 - t0)). split; [|split; [|exact Bc]].
    - apply nth_error_Some. unfold field_value in Q. fold d in Q. intros E. rewrite E in Q. discriminate.
    - split; [|exact Ht]. rewrite Eloc. apply contains_nth. split; [rewrite app_length, Ld; cbn; lia|]. intros i s n E. destruct (Nat.lt_ge_cases i d) as [Hi|Hi].
      + rewrite nth_error_app1 in E by lia. assert (Bi := Bn i s (s + n - 1)). unfold mesh_lb, mesh_ub in Bi. rewrite !nth_error_app1, !nth_error_map, E in Bi by (rewrite map_length; lia). cbn in Bi. specialize (Bi eq_refl eq_refl). lia.
      + rewrite nth_error_app2 in E by lia. rewrite Ld in E. destruct (i - d)%nat as [|m] eqn:Ei; [|destruct m; discriminate]. cbn in E. injection E as <- <-. assert (i = d) by lia. subst i. lia.
  Qed.

  Variables (t0 F : Z) (rs : list round).
  Notation all := (all_pushed rs).
  Hypotheses (SO : Forall (snapshot_ok c) all) (TI : timely rs) (SC : scheduled c rs) (T0 : 0 <= t0) (T1 : t0 + Z.of_nat (length rs) < 2 ^ 31).
  Hypotheses (Str : streaming c = false) (Nof : type_filter c = None) (Eloc : local_domain c = domain c) (Et : t_start c = t0) (Len : length rs = length all)
    (Same : forall j, (j < length rs)%nat -> scaling (all_pushed (firstn (S j) rs)) F).
  Lemma disc_punctured k : (exists j p, (j < length rs)%nat /\ detected measure c t0 rs j k p) <-> is_face c k /\ punctured c all t0 F k.
  Proof.
    split.
    - intros (j & p & Hj & (F' & Sc & K & Pk & _)). rewrite (scaling_unique _ _ _ Sc (Same j Hj)) in Pk. split; [eapply starts_face; eauto|exact Pk].
    - intros [Fk Pk]. destruct (punctured_starts all t0 F k Fk Pk Eloc Et) as (j & Hj & K & B). destruct Fk as [Lc Ht]. destruct (mesh_ids c k OK Lc Ht B) as (tag & Etag & _).
      assert (Dr := d_range c OK). fold d in Dr, Lc, Ht. destruct (is_ordinal_spec (S d) d (snd k) ltac:(lia) ltac:(lia) Ht) as (ob & _ & Iob).
      set (m := measure (window rs j) (t0 + Z.of_nat j) k). exists j, (mkp (px m) (ptime m) (t0 + Z.of_nat j) (scalar m) (pv m) (ptype m) ob tag (pid m)). split; [lia|]. exists F. split; [apply Same; lia|].
      split; [exact K|]. split; [exact Pk|]. split; [unfold describes; cbn; repeat (split; [reflexivity|]); split; [exact Etag|exact Iob]|]. unfold passes. rewrite Nof. destruct (sdim c) as [|[|[|?]]]; reflexivity.
  Qed.
  Notation P k := (is_face c k /\ punctured c all t0 F k).
  Lemma pipeline_lemma fin : exists st cs ls, run measure c (init t0) (commands fin rs) = Ok st /\
    (forall k, (exists p, mfind k (disc st) = Some p) <-> P k) /\ trace_offline (sdim c) [disc st] = Ok cs /\
    Forall2 (fun l cv => Forall2 (fun k p => mfind k (disc st) = Some p) l (pts cv) /\ loop cv = is_loop l (neighbors (sdim c))) ls cs /\ Permutation (concat ls) (mkeys (disc st)) /\
    forall l, In l ls -> l <> [] /\ (forall p x y s, l = p ++ x :: y :: s -> share_cell c x y) /\
      (forall x y, In x l -> P y -> share_cell c x y -> y <> x -> next_to l x y) /\
      (forall x, (exists m, l = x :: m) \/ (exists m, l = m ++ [x]) -> (forall e, is_cell c e -> face_of c x e -> has_data c all t0 e) -> closed_curve c l).
  Proof.
    destruct (detection_lemma measure c OK t0 rs SO TI SC T0 T1 fin Str) as (st & E & MD & _ & D).
    assert (DP : forall k, (exists p, mfind k (disc st) = Some p) <-> P k).
    { intros k. rewrite <- disc_punctured. split; [intros (p & Hp); apply D in Hp as (j & Hj & H); eauto|]. intros (j & p & Hj & H). exists p. apply D. eauto. }
    set (q := mkeys (disc st)). assert (Hq : forall k, In k q <-> P k) by (intros k; unfold q; rewrite mfind_In_keys; apply DP).
    destruct (offline_lemma d [disc st] (nbr c)) as (cs & ls & Eo & T1' & T2 & T3 & T4); cbn [gathered fold_left].
    { exact MD. }
    { intros x Hx. symmetry. apply nbr_face. apply Hq, Hx. }
    { apply (nbr_sym c OK). }
    cbn [gathered fold_left] in *. fold q in T2.
    assert (Eord : ordinary_pts (neighbors d) (disc st) = q).
    { unfold ordinary_pts. fold q. rewrite (filter_ext_in _ (fun _ => true)); [clear; induction q as [|x l IH]; [reflexivity|]; cbn; rewrite IH; reflexivity|]. intros x Hx. apply Nat.leb_le. apply Hq in Hx. apply (degree_two c OK all t0 F); [intros k Hk; apply Hq, Hk|apply Hx|apply Hx]. }
    rewrite Eord in *.
    assert (Lq : forall l x, In l ls -> In x l -> In x q) by (intros l x Hl Hx; apply (Permutation_in _ T2), in_concat; eauto).
    assert (NDc : NoDup (concat ls)) by (eapply Permutation_NoDup; [symmetry; exact T2|apply sorted_NoDup; exact MD]).
    assert (NDl : forall l, In l ls -> NoDup l).
    { intros l Hl. apply in_split in Hl as (a & b & ->). rewrite concat_app in NDc. cbn in NDc. clear -NDc. induction (concat a) as [|x xs IH]; cbn in NDc; [|inversion NDc; subst; auto]. clear -NDc. induction l as [|x l IH]; [constructor|]. cbn in NDc. inversion NDc as [|? ? N1 N2]; subst. constructor; [intros Q; apply N1; apply in_or_app; auto|auto]. }
    exists st, cs, ls. split; [exact E|]. split; [exact DP|]. split; [exact Eo|]. split.
    { clear -T1'. induction T1' as [|l cv ls cs (H1 & H2 & _) F2 IH]; constructor; auto. }
    split; [exact T2|]. intros l Hl. destruct (T3 l Hl) as [Ne Ch]. split; [exact Ne|].
    assert (Next : forall x y, In x l -> P y -> share_cell c x y -> y <> x -> next_to l x y).
    { intros x y Hx Py Sh N. assert (Px := proj1 (Hq x) (Lq l x Hl Hx)). assert (Hn : In y (neighbors d x)) by (apply (proj2 (neighbors_spec c OK x (proj1 Px))); exact Sh).
      assert (Hy : In y l) by (apply (T4 l x y Hl Hx); [apply Hq, Py|]; apply rst_step; split; [apply Hq, Px|]; split; [apply Hq, Py|exact Hn]).
      apply (next_lemma (neighbors d) q l); auto.
      - intros a b Ha Hb Hab. apply Hq in Ha, Hb. apply (proj2 (neighbors_spec c OK b (proj1 Hb))). apply share_sym. apply (proj2 (neighbors_spec c OK a (proj1 Ha))). exact Hab.
      - intros z Hz. apply (Lq l z Hl Hz).
      - intros z Hz. assert (Pz := proj1 (Hq z) (Lq l z Hl Hz)). apply (degree_two c OK all t0 F); [intros k Hk; apply Hq, Hk|apply Pz|apply Pz]. }
    split; [|split; [exact Next|]].
    - intros p x y s El. assert (Hx : In x l) by (rewrite El; apply in_or_app; right; left; reflexivity). apply (proj2 (neighbors_spec c OK x (proj1 (proj1 (Hq x) (Lq l x Hl Hx))))). exact (Ch p x y s El).
    - intros x Hend Hd. assert (Hx : In x l) by (destruct Hend as [(m & ->)|(m & ->)]; [left; reflexivity|apply in_or_app; right; left; reflexivity]).
      assert (Px := proj1 (Hq x) (Lq l x Hl Hx)). destruct (two_cells c OK x (proj1 Px)) as (e1 & e2 & Ne12 & Hc). destruct (proj2 (Hc e1) (or_introl eq_refl)) as [C1 F1]. destruct (proj2 (Hc e2) (or_intror eq_refl)) as [C2 F2].
      destruct (other_exists c OK all t0 F e1 x C1 F1 (proj2 Px) (Hd e1 C1 F1)) as (y1 & N1 & G1 & P1). destruct (other_exists c OK all t0 F e2 x C2 F2 (proj2 Px) (Hd e2 C2 F2)) as (y2 & N2 & G2 & P2).
      assert (Ny : y1 <> y2). { intros ->. apply Ne12. apply (cells_meet_once c e1 e2 x y2); auto. }
      assert (X1 : next_to l x y1) by (apply Next; [exact Hx|split; [eapply face_of_face; [exact C1|exact G1]|exact P1]|exists e1; auto|exact N1]).
      assert (X2 : next_to l x y2) by (apply Next; [exact Hx|split; [eapply face_of_face; [exact C2|exact G2]|exact P2]|exists e2; auto|exact N2]).
      assert (S1 : share_cell c x y1) by (exists e1; auto). assert (S2 : share_cell c x y2) by (exists e2; auto).
      assert (NDx := NDl l Hl). clear - Hend X1 X2 NDx Ny N1 N2 S1 S2.
      assert (Hy1 : In y1 l) by (destruct X1 as [(p & s & ->)|[(p & s & ->)|[(m & ->)|(m & ->)]]]; rewrite ?in_app_iff; cbn; rewrite ?in_app_iff; cbn; auto).
      assert (Hy2 : In y2 l) by (destruct X2 as [(p & s & ->)|[(p & s & ->)|[(m & ->)|(m & ->)]]]; rewrite ?in_app_iff; cbn; rewrite ?in_app_iff; cbn; auto).
      assert (Hxl : In x l) by (destruct Hend as [(m & ->)|(m & ->)]; [left; reflexivity|apply in_or_app; right; left; reflexivity]).
      assert (L3 : (3 <= length l)%nat). { change 3%nat with (length [x; y1; y2]). apply NoDup_incl_length; [repeat constructor; cbn; intuition congruence|]. intros z [<-|[<-|[<-|[]]]]; assumption. }
      split; [exact L3|]. destruct Hend as [(m & El)|(m & El)].
      + (* x first *)
        assert (First : forall y, next_to l x y -> (exists s, l = x :: y :: s) \/ exists n, l = x :: n ++ [y]).
        { intros y [(p & s & Q)|[(p & s & Q)|[(n & Q)|(n & Q)]]].
          - destruct p as [|a p]; [left; eauto|]. rewrite El in Q. cbn in Q. injection Q as <- Q. rewrite El in NDx. inversion NDx as [|? ? Nx _]; subst. exfalso. apply Nx. apply in_or_app. right. left. reflexivity.
          - rewrite El in Q. destruct p as [|a p]; cbn in Q; injection Q as <- Q; rewrite El in NDx; inversion NDx as [|? ? Nx _]; subst; exfalso; apply Nx; [left; reflexivity|apply in_or_app; right; right; left; reflexivity].
          - right. eauto.
          - rewrite El in Q. injection Q as <- Q. rewrite El in NDx. inversion NDx as [|? ? Nx _]; subst. exfalso. apply Nx. apply in_or_app. right. left. reflexivity. }
        destruct (First y1 X1) as [(s1 & Q1)|(n1 & Q1)]; [|exists x, n1, y1; auto]. destruct (First y2 X2) as [(s2 & Q2)|(n2 & Q2)]; [exfalso; congruence|exists x, n2, y2; auto].
      + assert (Last : forall y, next_to l x y -> (exists s, l = s ++ [y; x]) \/ exists n, l = y :: n ++ [x]).
        { assert (NoIn : ~ In x m) by (rewrite El in NDx; apply NoDup_remove_2 in NDx; rewrite app_nil_r in NDx; exact NDx).
          intros y [(p & s & Q)|[(p & s & Q)|[(n & Q)|(n & Q)]]].
          - exfalso. destruct (@exists_last _ (y :: s)) as (s' & z & Es); [discriminate|]. rewrite Es in Q. rewrite El in Q. replace (p ++ x :: s' ++ [z]) with ((p ++ x :: s') ++ [z]) in Q by (rewrite <- app_assoc; reflexivity). apply app_inj_tail in Q as [Q _]. apply NoIn. rewrite Q. apply in_or_app. right. left. reflexivity.
          - destruct s as [|b s]; [left; exists p; exact Q|]. exfalso. destruct (@exists_last _ (b :: s)) as (s' & z & Es); [discriminate|]. rewrite Es in Q. rewrite El in Q. replace (p ++ y :: x :: s' ++ [z]) with ((p ++ y :: x :: s') ++ [z]) in Q by (rewrite <- app_assoc; reflexivity). apply app_inj_tail in Q as [Q _]. apply NoIn. rewrite Q. apply in_or_app. right. right. left. reflexivity.
          - exfalso. rewrite El in Q. change (x :: n ++ [y]) with ((x :: n) ++ [y]) in Q. apply app_inj_tail in Q as [Q _]. apply NoIn. rewrite Q. left. reflexivity.
          - right. eauto. }
        destruct (Last y1 X1) as [(s1 & Q1)|(n1 & Q1)]; [|exists y1, n1, x; split; [exact Q1|apply share_sym; exact S1]]. destruct (Last y2 X2) as [(s2 & Q2)|(n2 & Q2)]; [|exists y2, n2, x; split; [exact Q2|apply share_sym; exact S2]].
        exfalso. rewrite Q1 in Q2. change [y1; x] with ([y1] ++ [x]) in Q2. change [y2; x] with ([y2] ++ [x]) in Q2. rewrite !app_assoc in Q2. apply app_inj_tail in Q2 as [Q2 _]. apply app_inj_tail in Q2 as [_ Q2]. congruence.
  Qed.
End Pipeline.
