(** Tracing while time advances. *)
From Coq Require Import QArith Qabs.
From Verif Require Import Base UnionFind Lattice LatticeSpec LatticeProofs NdArray NdArraySpec NdArrayProofs2 ListOrd Parallel RegularMesh RegularMeshSpec MeshLevels MeshEnum MeshSides MeshCofaces MeshIndex
  SoS SoSSpec Graph GraphSpec GraphProofs2 GraphCurves FeatureCurve FeatureCurveSet FeatureCurveSetSpec FeatureCurveSetProofs CpTracker CpTrackerSpec CpTrackerProofs CpTrackerRun CpCells CpTraces CpCurves.
Local Close Scope Q_scope. Local Open Scope Z_scope. Local Open Scope list_scope.

Lemma mkeys_perm_del (dm : list (key * fpoint)) i : msorted dm -> In i (mkeys dm) -> Permutation (mkeys dm) (i :: mkeys (mdel i dm)).
Proof.
  intros M Hi. apply NoDup_Permutation; [apply sorted_NoDup; exact M| |].
  - constructor; [|apply sorted_NoDup; apply msorted_mdel; exact M]. intros Q. apply mfind_In_keys in Q as (p & Q). rewrite mfind_mdel, keqb_refl in Q. discriminate.
  - intros k. cbn [In]. rewrite !mfind_In_keys. destruct (keqb k i) eqn:E.
    + apply keqb_eq in E. subst. split; [auto|]. intros _. apply mfind_In_keys. exact Hi.
    + assert (k <> i) by (apply keqb_neq; exact E). rewrite mfind_mdel, E. split; [auto|]. intros [Q|Q]; [congruence|exact Q].
Qed.

Lemma last_cons {A} (x y : A) l z : last (x :: l) z = last (x :: l) y.
Proof. revert x. induction l as [|a l IH]; intros x; [reflexivity|]. cbn [last] in *. apply IH. Qed.
  Lemma nonempty_count {A} (ls : list (list A)) : (forall l, In l ls -> l <> []) -> (length ls <= length (concat ls))%nat.
  Proof.
    induction ls as [|l ls IH]; intros H; [cbn; lia|]. cbn [concat length]. rewrite app_length. assert (l <> []) by (apply H; left; reflexivity). assert (H' : forall l, In l ls -> l <> []) by (intros; apply H; right; assumption). specialize (IH H'). destruct l; [contradiction|]. cbn [length]. lia.
  Qed.
Section Online.
  Variables (c : config).
  Hypothesis (OK : config_ok c).
  Let d := sdim c.
  Let nb := neighbors d.

  (** the path from [cur] through [ks] *)
  Fixpoint follows (cur : key) (ks : list key) : Prop := match ks with [] => True | k :: ks => In k (nb cur) /\ follows k ks end.
  Lemma extend_spec fuel : forall cur dm, (length dm < fuel)%nat -> msorted dm ->
    exists ks l dm', extend fuel nb cur dm = Ok (l, dm') /\ Forall2 (fun k p => mfind k dm = Some p) ks l /\ msorted dm' /\ (length dm' <= length dm)%nat /\
      (forall k p, mfind k dm' = Some p -> mfind k dm = Some p) /\ Permutation (mkeys dm) (ks ++ mkeys dm') /\ follows cur ks /\
      (forall i, In i (nb (last ks cur)) -> ~ In i (mkeys dm')).
  Proof.
    induction fuel as [|fuel IH]; intros cur dm Lf M; [lia|]. cbn [extend]. destruct (find _ (nb cur)) as [i|] eqn:Ef.
    - apply find_some in Ef as [Hn Hi]. destruct (mfind i dm) as [p|] eqn:Ei; [|discriminate]. cbn [of_option bind].
      assert (Hk : In i (mkeys dm)) by (apply mfind_In_keys; eauto). assert (Pm := mkeys_perm_del dm i M Hk).
      assert (Ll : length dm = S (length (mdel i dm))). { apply Permutation_length in Pm. cbn in Pm. unfold mkeys in Pm. rewrite !map_length in Pm. exact Pm. }
      destruct (IH i (mdel i dm) ltac:(lia) (msorted_mdel i dm M)) as (ks & l & dm' & E & F & M' & L' & Sub & P' & Fo & Mx). rewrite E. cbn [bind].
      exists (i :: ks), (p :: l), dm'. split; [reflexivity|]. split.
      { constructor; [exact Ei|]. clear -F. induction F as [|k q ks l H F IH]; constructor; auto. rewrite mfind_mdel in H. destruct (keqb k i); [discriminate|exact H]. }
      split; [exact M'|]. split; [lia|]. split; [intros k q Hq; apply Sub in Hq; rewrite mfind_mdel in Hq; destruct (keqb k i); [discriminate|exact Hq]|].
      split; [etransitivity; [exact Pm|]; cbn [app]; constructor; exact P'|]. split; [split; assumption|].
      intros j Hj. apply Mx. destruct ks as [|k0 ks]; [exact Hj|]. change (last (i :: k0 :: ks) cur) with (last (k0 :: ks) cur) in Hj. rewrite (last_cons k0 cur ks i). exact Hj.
    - exists [], [], dm. split; [reflexivity|]. split; [constructor|]. split; [exact M|]. split; [lia|]. split; [auto|]. split; [reflexivity|]. split; [exact I|].
      intros i Hi Q. cbn [last] in Hi. apply (find_none _ _ Ef) in Hi. apply mfind_In_keys in Q as (p & Q). rewrite Q in Hi. discriminate.
  Qed.

  Lemma elem_of k q : on_face c k q -> (let* e := el_from_integer (S (sdim c)) (mesh_lb c) (mesh_ub c) (sdim c) (ptag q) in Ok (key_of e)) = Ok k.
  Proof. intros ([L T] & B & E). destruct (mesh_ids c k OK L T B) as (tag & E1 & E2). rewrite E in E1. injection E1 as <-. rewrite E2. cbn [bind]. rewrite key_el. reflexivity. Qed.
  Lemma elem_of' k q : on_face c k q -> exists e, el_from_integer (S (sdim c)) (mesh_lb c) (mesh_ub c) (sdim c) (ptag q) = Ok e /\ key_of e = k.
  Proof. intros H. apply elem_of in H. destruct (el_from_integer _ _ _ _ _) as [e| |]; cbn in H; try discriminate. injection H as H. eauto. Qed.

  Lemma follows_share cur ks : is_face c cur -> follows cur ks -> connected_faces c (cur :: ks) /\ (forall k, In k ks -> is_face c k).
  Proof.
    revert cur. induction ks as [|k ks IH]; intros cur Fc Fo.
    - split; [|intros k []]. intros p a b s E. destruct p as [|? [|? p]]; discriminate.
    - destruct Fo as [Hn Fo]. assert (Sh : share_cell c cur k) by (apply (neighbors_spec c OK cur Fc); exact Hn). destruct (share_face c cur k Sh) as [_ Fk]. destruct (IH k Fk Fo) as [C I]. split.
      + intros p a b s E. destruct p as [|p0 p]; [injection E as <- <- _; exact Sh|]. injection E as <- E. exact (C p a b s E).
      + intros k' [<-|Hk]; auto.
  Qed.
  Lemma join_faces a x b : connected_faces c (a ++ [x]) -> connected_faces c (x :: b) -> connected_faces c (a ++ x :: b).
  Proof.
    induction a as [|y a IH]; intros H1 H2; [exact H2|]. intros p u v s E. destruct p as [|p0 p].
    - injection E as <- E. destruct a as [|z a]; injection E as <- _.
      + apply (H1 [] y x []). reflexivity.
      + apply (H1 [] y z (a ++ [x])). reflexivity.
    - injection E as <- E. apply (IH) with (p := p) (s := s); [|exact H2|exact E]. intros p' u' v' s' E'. apply (H1 (y :: p') u' v' s'). cbn. rewrite E'. reflexivity.
  Qed.
  Lemma rev_faces l : connected_faces c l -> connected_faces c (rev l).
  Proof. intros H p a b s E. apply share_sym. apply (H (rev s) b a (rev p)). rewrite <- (rev_involutive l), E, rev_app_distr. cbn. rewrite <- !app_assoc. reflexivity. Qed.
  Lemma tail_faces x l : connected_faces c (x :: l) -> connected_faces c l.
  Proof. intros H p a b s E. apply (H (x :: p) a b s). cbn. rewrite E. reflexivity. Qed.

  Lemma F2_last {A B} (R : A -> B -> Prop) l m a b : Forall2 R l m -> l <> [] -> R (last l a) (last m b).
  Proof. induction 1 as [|x y l m H F IH]; intros N; [contradiction|]. destruct F as [|x' y' l m H' F]; [exact H|]. apply IH. discriminate. Qed.
  Lemma F2_rev {A B} (R : A -> B -> Prop) l m : Forall2 R l m -> Forall2 R (rev l) (rev m).
  Proof. induction 1 as [|x y l m H F IH]; cbn; [constructor|]. apply Forall2_app; [exact IH|]. constructor; [exact H|constructor]. Qed.
  Lemma F2_nil {A B} (R : A -> B -> Prop) l m : Forall2 R l m -> (l = [] <-> m = []).
  Proof. intros F. destruct F; split; congruence. Qed.
  Lemma end_first l k b : end_of l k -> l <> [] -> k = hd b l \/ k = last l b.
  Proof. intros [(m & ->)|(m & ->)] _; [left; reflexivity|right; rewrite last_last; reflexivity]. Qed.
  Lemma last_app_ne {A} (l m : list A) x : m <> [] -> last (l ++ m) x = last m x.
  Proof. intros N. destruct (@exists_last _ m N) as (m' & z & ->). rewrite app_assoc, !last_last. reflexivity. Qed.

  Lemma continue_spec x dm : strand_ok c x -> msorted dm ->
    exists x' dm', continue_traj c nb (the_curve x) dm = Ok (the_curve x', dm') /\ the_id x' = the_id x /\ msorted dm' /\ (length dm' <= length dm)%nat /\ (forall k p, mfind k dm' = Some p -> mfind k dm = Some p) /\
      grown c dm (mkeys dm') x x' /\ Permutation (the_faces x' ++ mkeys dm') (the_faces x ++ mkeys dm).
  Proof.
    destruct x as [[id cv] l]. unfold strand_ok, the_id, the_curve, the_faces. cbn [fst snd]. intros (Ne & F & C) M. unfold continue_traj. destruct (complete cv) eqn:Ecm.
    - exists ((id, cv), l), dm. cbn [fst snd]. split; [reflexivity|]. split; [reflexivity|]. split; [exact M|]. split; [lia|]. split; [auto|]. split; [|reflexivity].
      unfold grown, the_id, the_curve, the_faces. cbn [fst snd]. repeat (split; [reflexivity|]). exists [], [], [], []. rewrite !app_nil_r. cbn [app]. repeat (split; [reflexivity || constructor|]). split; [exact C|]. split; [auto|]. split; [tauto|]. congruence.
    - destruct l as [|k0 l0] eqn:El; [contradiction|]. rewrite <- El in *. destruct (pts cv) as [|p0 ps] eqn:Ep; [rewrite El in F; inversion F|].
      assert (H0 : on_face c k0 p0) by (rewrite El in F; inversion F; assumption).
      assert (HL : on_face c (last l k0) (last (p0 :: ps) p0)) by (apply F2_last; assumption).
      destruct (elem_of' _ _ HL) as (eL & EL & KL). rewrite EL. cbn [bind].
      destruct (extend_spec (S (length dm)) (key_of eL) dm ltac:(lia) M) as (fs & pf & dm1 & E1 & F1 & M1 & L1 & S1 & P1 & W1 & X1). fold nb. rewrite E1. cbn [bind].
      destruct (elem_of' _ _ H0) as (e0 & E0 & K0). rewrite E0. cbn [bind].
      destruct (extend_spec (S (length dm)) (key_of e0) dm1 ltac:(lia) M1) as (bs & pb & dm2 & E2 & F2 & M2 & L2 & S2 & P2 & W2 & X2). rewrite E2. cbn [bind]. rewrite KL, K0 in *.
      assert (FaceL : is_face c (last l k0)) by apply HL. assert (Face0 : is_face c k0) by apply H0.
      destruct (follows_share _ _ FaceL W1) as [C1 I1]. destruct (follows_share _ _ Face0 W2) as [C2 I2].
      assert (CC : connected_faces c (rev bs ++ l ++ fs)).
      { assert (Cl : connected_faces c (l ++ fs)). { destruct (@exists_last _ l Ne) as (l' & z & Ez). rewrite Ez, last_last in C1. rewrite Ez, <- app_assoc. cbn [app]. apply join_faces; [rewrite <- Ez; exact C|exact C1]. }
        rewrite El. cbn [app]. apply join_faces; [|rewrite El in Cl; exact Cl]. apply rev_faces in C2. cbn [rev] in C2. exact C2. }
      set (cm := match pf, pb with [], [] => true | _, _ => false end).
      exists ((id, mkc (rev pb ++ (p0 :: ps) ++ pf) (cid cv) cm (loop cv) (cstats cv) (ctype cv)), rev bs ++ l ++ fs), dm2. cbn [fst snd].
      split. { unfold set_pts, cm. cbn [cid complete loop cstats ctype pts]. rewrite ?Ep, ?Ecm. destruct pf, pb; reflexivity. }
      split; [reflexivity|]. split; [exact M2|]. split; [lia|]. split; [auto|]. split.
      + unfold grown, the_id, the_curve, the_faces. cbn [fst snd]. split; [reflexivity|]. split; [reflexivity|]. split; [reflexivity|]. exists (rev bs), fs, (rev pb), pf. cbn [pts complete]. rewrite Ep.
        split; [reflexivity|]. split; [reflexivity|]. split.
        { apply F2_rev. clear -F2 S1. induction F2; constructor; auto. }
        split; [exact F1|]. split; [exact CC|]. split; [congruence|]. split.
        { unfold cm. assert (N1 := F2_nil _ _ _ F1). assert (N2 := F2_nil _ _ _ F2). destruct pf, pb.
          - split; [intros _; rewrite (proj2 N1 eq_refl), (proj2 N2 eq_refl); auto|reflexivity].
          - split; [discriminate|]. intros [Q _]. apply (f_equal (@rev _)) in Q. rewrite rev_involutive in Q. apply N2 in Q. discriminate.
          - split; [discriminate|]. intros [_ Q]. apply N1 in Q. discriminate.
          - split; [discriminate|]. intros [_ Q]. apply N1 in Q. discriminate. }
        intros _ k y He Hy Sh. destruct (end_first _ k k0 He) as [-> | ->]; [destruct (rev bs) as [|z zs]; [rewrite El|]; discriminate| |].
        * assert (Eh : hd k0 (rev bs ++ l ++ fs) = last bs k0). { destruct bs as [|z zs]; [rewrite El; reflexivity|]. destruct (@exists_last _ (z :: zs)) as (m & u & Eu); [discriminate|]. rewrite Eu, last_last, rev_app_distr. reflexivity. }
          rewrite Eh in Sh. apply (X2 y); [|exact Hy]. assert (Ff : is_face c (last bs k0)). { destruct bs as [|z zs]; [exact Face0|]. apply I2. destruct (@exists_last _ (z :: zs)) as (m & u & Eu); [discriminate|]. rewrite Eu, last_last. apply in_or_app. right. left. reflexivity. }
          apply (neighbors_spec c OK _ Ff). exact Sh.
        * assert (Eh : last (rev bs ++ l ++ fs) k0 = last fs (last l k0)). { rewrite last_app_ne by (rewrite El; discriminate). destruct fs as [|z zs]; [rewrite app_nil_r; reflexivity|]. rewrite last_app_ne by discriminate. apply last_cons. }
          rewrite Eh in Sh. apply (X1 y); [|eapply Permutation_in; [symmetry; exact P2|]; apply in_or_app; right; exact Hy].
          assert (Ff : is_face c (last fs (last l k0))). { destruct fs as [|z zs]; [exact FaceL|]. apply I1. destruct (@exists_last _ (z :: zs)) as (m & u & Eu); [discriminate|]. rewrite Eu, last_last. apply in_or_app. right. left. reflexivity. }
          apply (neighbors_spec c OK _ Ff). exact Sh.
      + rewrite P1, P2. rewrite <- (Permutation_rev bs). rewrite <- !app_assoc. rewrite (Permutation_app_comm bs). rewrite <- !app_assoc. apply Permutation_app_head. apply Permutation_app_head. apply Permutation_app_comm.
  Qed.

  Lemma grown_mono dm dm' rest rest' x x' : (forall k p, mfind k dm = Some p -> mfind k dm' = Some p) -> incl rest' rest -> grown c dm rest x x' -> grown c dm' rest' x x'.
  Proof.
    intros S I (H1 & H2 & H3 & b & f & pb & pf & H4 & H5 & H6 & H7 & H8 & H9 & H10 & H11). split; [exact H1|]. split; [exact H2|]. split; [exact H3|]. exists b, f, pb, pf. split; [exact H4|]. split; [exact H5|].
    split; [clear -H6 S; induction H6; constructor; auto|]. split; [clear -H7 S; induction H7; constructor; auto|]. split; [exact H8|]. split; [exact H9|]. split; [exact H10|]. intros Hc k y He Hy. apply H11; auto.
  Qed.
  Lemma continue_all_spec : forall T dm, Forall (strand_ok c) T -> msorted dm ->
    exists T' dm', continue_all c nb (map fst T) dm = Ok (map fst T', dm') /\ msorted dm' /\ (length dm' <= length dm)%nat /\ (forall k p, mfind k dm' = Some p -> mfind k dm = Some p) /\
      Forall2 (grown c dm (mkeys dm')) T T' /\ Permutation (concat (map the_faces T') ++ mkeys dm') (concat (map the_faces T) ++ mkeys dm).
  Proof.
    induction T as [|x T IH]; intros dm HT M; cbn [map continue_all].
    - exists [], dm. split; [reflexivity|]. split; [exact M|]. split; [lia|]. split; [auto|]. split; [constructor|reflexivity].
    - inversion HT as [|? ? Hx HT']; subst. destruct (continue_spec x dm Hx M) as (x' & dm1 & E1 & Id & M1 & L1 & S1 & G1 & P1). change (snd (fst x)) with (the_curve x). rewrite E1. cbn [bind].
      destruct (IH dm1 HT' M1) as (T' & dm2 & E2 & M2 & L2 & S2 & G2 & P2). rewrite E2. cbn [bind]. exists (x' :: T'), dm2.
      split; [do 2 f_equal; cbn [map]; f_equal; unfold the_id, the_curve in *; destruct x' as [[i' c'] l']; cbn in *; congruence|]. split; [exact M2|]. split; [lia|]. split; [auto|].
      assert (I2 : incl (mkeys dm2) (mkeys dm1)) by (intros k Hk; apply mfind_In_keys in Hk as (p & Hp); apply mfind_In_keys; eauto).
      split. { constructor; [eapply grown_mono; [|exact I2|exact G1]; auto|]. clear -G2 S1. induction G2 as [|a b l m H F IH]; constructor; auto. eapply grown_mono; [exact S1|apply incl_refl|exact H]. }
      cbn [map concat]. rewrite <- !app_assoc. rewrite P2. rewrite !app_assoc. rewrite (Permutation_app_comm (the_faces x') _), (Permutation_app_comm (the_faces x) _). rewrite <- !app_assoc. apply Permutation_app_head. exact P1.
  Qed.

  (** one call of trace_critical_points_online() *)
  Lemma online_lemma T dm : Forall (strand_ok c) T -> ksorted (map fst T) -> (forall x, In x T -> the_id x + Z.of_nat (length dm) < 2 ^ 31) -> Z.of_nat (length dm) < 2 ^ 31 ->
    msorted dm -> (forall k, In k (mkeys dm) -> is_face c k) -> (forall q x, incl q (mkeys dm) -> In x q -> (degree nb q x <= 2)%nat) ->
    exists T' N, trace_online c (map fst T) dm = Ok (map fst (T' ++ N)) /\ Forall2 (grown c dm (concat (map the_faces N))) T T' /\ Forall (born c dm) N /\
      Permutation (concat (map the_faces (T' ++ N))) (concat (map the_faces T) ++ mkeys dm) /\
      (forall x a b, In x N -> In a (the_faces x) -> In b (concat (map the_faces N)) -> share_cell c a b -> In b (the_faces x)) /\
      exists first, (forall x, In x T -> the_id x < first) /\ map the_id N = map (fun i => first + Z.of_nat i) (seq 0 (length N)) /\ (N <> [] -> get_new_id (map fst T) = Ok first).
  Proof.
    intros HT KS RM LD M Fa Dg. unfold trace_online. fold d nb. destruct (continue_all_spec T dm HT M) as (T' & dm' & E & M' & L' & Sub & G & P). rewrite E. cbn [bind].
    set (q := mkeys dm'). assert (Iq : incl q (mkeys dm)) by (intros k Hk; apply mfind_In_keys in Hk as (p & Hp); apply mfind_In_keys; eauto).
    assert (Agree : forall x, In x q -> nb x = nbr c x) by (intros x Hx; symmetry; apply nbr_face, Fa, Iq, Hx). assert (Sym := nbr_sym c OK).
    rewrite (cca_congr nb (nbr c) q Agree). destruct (cca_lemma (nbr c) q) as (sets & Es & Part). rewrite Es. cbn [bind].
    destruct (curves_lemma nb (nbr c) dm' M' Agree Sym sets (map (fun _ => dm') sets) Part) as (css & ls & Ec & Tr & Pm & Ne & Cn).
    { clear. induction sets as [|a sets IH]; cbn; constructor; auto. }
    assert (Ec' : mapM (component_curves nb dm') sets = Ok css).
    { rewrite <- Ec. clear. induction sets as [|a sets IH]; [reflexivity|]. cbn [map combine mapM fst snd]. rewrite IH. reflexivity. }
    rewrite Ec'. cbn [bind].
    assert (Eord : ordinary_pts nb dm' = q).
    { unfold ordinary_pts. fold q. rewrite (filter_ext_in _ (fun _ => true)); [clear; induction q as [|x l IH]; [reflexivity|]; cbn; rewrite IH; reflexivity|]. intros x Hx. apply Nat.leb_le. apply Dg; [exact Iq|exact Hx]. }
    rewrite Eord in *. set (cs := concat css) in *.
    assert (Lc : (length cs <= length dm)%nat).
    { assert (length ls = length cs) by (clear -Tr; induction Tr; cbn; congruence). assert (B := nonempty_count ls (fun l Hl => proj1 (Ne l Hl))). rewrite (Permutation_length Pm) in B. unfold q, mkeys in B. rewrite map_length in B. lia. }
    assert (Ids : map fst (map fst T') = map fst (map fst T)). { clear -G. induction G as [|x x' T T' H F IH]; [reflexivity|]. cbn [map]. rewrite IH. f_equal. apply H. }
    assert (Ids' : forall x', In x' T' -> exists x, In x T /\ the_id x' = the_id x).
    { intros x' Hx'. apply (in_map fst), (in_map fst) in Hx'. rewrite Ids in Hx'. apply in_map_iff in Hx' as (e & Ee & He). apply in_map_iff in He as (x & <- & Hx). exists x. split; [exact Hx|]. unfold the_id. congruence. }
    assert (KS' : ksorted (map fst T')).
    { assert (K2 : forall s s' : list (Z * curve), map fst s = map fst s' -> ksorted s -> ksorted s').
      { induction s as [|e s IH]; intros [|e' s'] Q K; try discriminate; [constructor|]. injection Q as Q1 Q2. inversion K as [|? ? K1 K3]; subst. constructor; [apply (IH s' Q2 K1)|]. rewrite Forall_forall in *. intros y Hy. apply (in_map fst) in Hy. rewrite <- Q2 in Hy. apply in_map_iff in Hy as (z & Ez & Hz). rewrite <- Ez, <- Q1. apply K3, Hz. }
      apply (K2 (map fst T)); [symmetry; exact Ids|exact KS]. }
    destruct (add_all_ok cs (map fst T') KS') as (s' & first & Ea & Kf & Es').
    { intros e He. apply in_map_iff in He as (x' & <- & Hx'). destruct (Ids' x' Hx') as (x & Hx & Ex). specialize (RM x Hx). unfold the_id in *. lia. }
    { lia. }
    rewrite Ea. cbn [bind].
    (* the new strands *)
    assert (Mk : forall k lz cz, Forall2 (curve_through nb dm') lz cz -> incl lz ls -> exists N, map fst N = map (fun ic : nat * curve => (first + Z.of_nat (fst ic), relabel (snd ic) (first + Z.of_nat (fst ic)))) (combine (seq k (length cz)) cz) /\
      map the_faces N = lz /\ Forall (born c dm) N /\ map the_id N = map (fun i => first + Z.of_nat i) (seq k (length cz)) /\ length N = length cz).
    { intros k lz cz Hz. revert k. induction Hz as [|l cv lz cz (C1 & C2 & C3 & C4 & C5 & C6) Hz IH]; intros k Il; [exists []; repeat (split; [reflexivity || constructor|]); reflexivity|].
      destruct (IH (S k)) as (N & N1 & N2 & N3 & N4 & N5); [intros y Hy; apply Il; right; exact Hy|]. set (id := first + Z.of_nat k). exists (((id, relabel cv id), l) :: N). cbn [map fst length seq combine snd]. rewrite N1, N2, N4, N5.
      split; [reflexivity|]. split; [reflexivity|]. split; [|split; reflexivity]. constructor; [|exact N3]. assert (Hl : In l ls) by (apply Il; left; reflexivity). destruct (Ne l Hl) as [Nn Ch].
      assert (Fl : forall x, In x l -> is_face c x) by (intros x Hx; apply Fa, Iq, (Permutation_in _ Pm), in_concat; eauto).
      unfold born, the_faces, the_curve, the_id. cbn [fst snd relabel pts complete cid loop].
      split; [exact Nn|]. split. { intros p a b s El. assert (Ha : In a l) by (rewrite El; apply in_or_app; right; left; reflexivity). apply (neighbors_spec c OK a (Fl a Ha)). exact (Ch p a b s El). }
      split; [exact C3|]. split; [reflexivity|]. split.
      { rewrite C2. destruct l as [|x [|y l]]; cbn [is_loop].
        - split; [discriminate|]. intros (x & m & y & Q & _). discriminate.
        - split; [discriminate|]. intros (x' & m & y & Q & _). destruct m; discriminate.
        - assert (Sp : In (last (x :: y :: l) x) (neighbors (sdim c) x) <-> share_cell c x (last (x :: y :: l) x)) by (apply (neighbors_spec c OK x (Fl x (or_introl eq_refl)))).
          destruct (@exists_last _ (y :: l)) as (m & z & Em); [discriminate|]. rewrite smem_In. unfold nb, d. rewrite Sp, Em. change (last (x :: m ++ [z]) x) with (last ((x :: m) ++ [z]) x). rewrite last_last. split.
          + intros H. exists x, m, z. auto.
          + intros (x' & m' & z' & Q & H). injection Q as <- Q. apply app_inj_tail in Q as [_ <-]. exact H. }
      clear -C1 Sub. induction C1 as [|k1 p l ps H F IH]; cbn [map]; constructor; [exists p; split; [apply Sub; exact H|reflexivity]|exact IH]. }
    destruct (Mk 0%nat ls cs Tr (incl_refl ls)) as (N & N1 & N2 & N3 & N4 & N5).
    exists T', N. split; [rewrite map_app, Es', N1; reflexivity|].
    assert (PN : Permutation (concat (map the_faces N)) q) by (rewrite N2; exact Pm).
    split. { clear -G PN. induction G as [|x x' T T' H F IH]; constructor; auto. eapply grown_mono; [| |exact H]; [auto|]. intros k Hk. apply (Permutation_in _ PN Hk). }
    split; [exact N3|]. split; [rewrite map_app, concat_app, PN; exact P|]. split.
    - intros x a b Hx Ha Hb Sh. rewrite N2 in Hb. assert (Hl : In (the_faces x) ls) by (rewrite <- N2; apply in_map; exact Hx).
      assert (Haq : In a q) by (apply (Permutation_in _ Pm), in_concat; eauto). assert (Hbq : In b q) by (apply (Permutation_in _ Pm); exact Hb).
      apply (Cn (the_faces x) a b Hl Ha Hbq). apply rst_step. split; [exact Haq|]. split; [exact Hbq|]. apply (neighbors_spec c OK a (Fa a (Iq a Haq))). exact Sh.
    - exists first. split; [|split; [rewrite N5; exact N4|]].
      2: { intros Hn. assert (Gid : forall s s' : list (Z * curve), map fst s = map fst s' -> get_new_id s = get_new_id s').
           { intros u v Q. unfold get_new_id. assert (Qr : map fst (rev u) = map fst (rev v)) by (rewrite !map_rev, Q; reflexivity). destruct (rev u) as [|e u'], (rev v) as [|e' v']; try discriminate; [reflexivity|]. injection Qr as Qr _. rewrite Qr. reflexivity. }
           rewrite (Gid _ _ (eq_sym Ids)). destruct cs as [|cv cs'] eqn:Ecs; [destruct N; [contradiction|discriminate N5]|]. cbn [add_all] in Ea. unfold add in Ea. destruct (get_new_id (map fst T')) as [id| |]; cbn [bind] in Ea; try discriminate.
           destruct (add_all _ cs') as [[s1 i1]| |]; cbn [bind] in Ea; try discriminate. injection Ea as _ Ea _. f_equal. lia. }
      intros x Hx. apply (in_map fst), (in_map fst) in Hx. rewrite <- Ids in Hx. apply in_map_iff in Hx as (e & Ee & He). unfold the_id. rewrite <- Ee. apply Kf. exact He.
  Qed.
End Online.

Section Streaming.
  Variables (measure : list snapshot -> Z -> key -> fpoint) (c : config).
  Hypothesis (OK : config_ok c).
  Variables (t0 F : Z) (rs : list round).
  Notation all := (all_pushed rs).
  Hypotheses (SO : Forall (snapshot_ok c) all) (TI : timely rs) (SC : scheduled c rs) (T0 : 0 <= t0) (T1 : t0 + Z.of_nat (length rs) < 2 ^ 31) (Str : streaming c = true).
  Hypotheses (Same : forall j, (j < length rs)%nat -> scaling (all_pushed (firstn (S j) rs)) F)
    (Few : forall l, NoDup l -> (forall k, In k l -> is_face c k /\ punctured c all t0 F k) -> Z.of_nat (length l) < 2 ^ 31).
  Notation det := (detected measure c t0 rs).

  Lemma det_punctured j k p : (j < length rs)%nat -> det j k p -> is_face c k /\ punctured c all t0 F k.
  Proof. intros Hj (F' & Sc & K & Pk & _). rewrite (scaling_unique _ _ _ Sc (Same j Hj)) in Pk. split; [eapply starts_face; eauto|exact Pk]. Qed.
  Lemma det_face j k p : det j k p -> on_face c k p.
  Proof.
    intros (F' & Sc & K & Pk & D & _). assert (Fk : is_face c k) by (eapply starts_face; eauto). split; [exact Fk|]. split; [|apply D]. destruct Pk as (vs & V & Ev & B & _). rewrite Forall_forall in B. apply B. eapply corner_first; eauto.
  Qed.
  Lemma det_fun j k p p' : det j k p -> det j k p' -> p = p'.
  Proof.
    intros (F1 & _ & _ & _ & D & _) (F2 & _ & _ & _ & D' & _). unfold describes in *. destruct D as (A1 & A2 & A3 & A4 & A5 & A6 & A7 & A8 & A9), D' as (B1 & B2 & B3 & B4 & B5 & B6 & B7 & B8 & B9). rewrite A8 in B8. injection B8 as B8.
    assert (ordinal p = ordinal p') by (destruct (ordinal p), (ordinal p'); try reflexivity; [symmetry; apply B9, A9; reflexivity|apply A9, B9; reflexivity]). destruct p, p'. cbn in *. congruence.
  Qed.
  Lemma det_time j j' k p p' : det j k p -> det j' k p' -> j = j'.
  Proof. intros H H'. assert (E := starts_time c OK _ _ k (detected_start _ _ _ _ _ _ _ H) (detected_start _ _ _ _ _ _ _ H')). lia. Qed.
  Lemma in_length : (length rs <= length all)%nat.
  Proof. destruct (length rs) as [|n] eqn:E; [lia|]. destruct (TI n ltac:(lia)) as [H _]. unfold pushed in H. rewrite <- E in *. rewrite firstn_all2 in H by lia. lia. Qed.

  (** the trajectories after the rounds before [i] *)
  Record woven (i : nat) (s : cset) (T : list strand) : Prop := {
    w_set : s = map fst T;
    w_ids : map the_id T = map Z.of_nat (seq 0 (length T));
    w_ok : Forall (strand_ok c) T;
    w_once : NoDup (concat (map the_faces T));
    w_faces : forall k, In k (concat (map the_faces T)) <-> exists j p, (j < i)%nat /\ det j k p;
    w_points : forall x, In x T -> Forall2 (fun k q => exists j p, det j k p /\ set_id q 0 = set_id p 0) (the_faces x) (pts (the_curve x)) }.
  Lemma woven_init : woven 0 [] [].
  Proof. split; try reflexivity; try constructor; [intros []|intros (j & p & H & _); lia|intros x []]. Qed.

  Lemma F2_impl {A B} (R R' : A -> B -> Prop) l m : (forall a b, R a b -> R' a b) -> Forall2 R l m -> Forall2 R' l m.
  Proof. intros H F2. induction F2; constructor; auto. Qed.
  Lemma F2_In_r {A B} (R : A -> B -> Prop) l m y : Forall2 R l m -> In y m -> exists x, In x l /\ R x y.
  Proof. induction 1 as [|a b l m H F2 IH]; intros Hy; [destruct Hy|]. destruct Hy as [<-|Hy]; [exists a; split; [left; reflexivity|exact H]|]. destruct (IH Hy) as (x & Hx & Rx). exists x. split; [right; exact Hx|exact Rx]. Qed.

  Lemma weave i s T dm : (i < length rs)%nat -> woven i s T -> msorted dm -> (forall k p, mfind k dm = Some p <-> det i k p) ->
    exists T', trace_online c s dm = Ok (map fst T') /\ woven (S i) (map fst T') T'.
  Proof.
    intros Hi W M D. destruct W as [W1 W2 W3 W4 W5 W6]. subst s.
    assert (Kd : forall k, In k (mkeys dm) <-> exists p, det i k p) by (intros k; rewrite mfind_In_keys; split; intros (p & Hp); exists p; apply D; exact Hp).
    assert (Pd : forall k, In k (mkeys dm) -> is_face c k /\ punctured c all t0 F k) by (intros k Hk; apply Kd in Hk as (p & Hp); eapply det_punctured; eauto).
    assert (NDa : NoDup (concat (map the_faces T) ++ mkeys dm)).
    { assert (Nd := sorted_NoDup _ M : NoDup (mkeys dm)). assert (Dj : forall k, In k (concat (map the_faces T)) -> ~ In k (mkeys dm)).
      { intros k H1 H2. apply W5 in H1 as (j & p & Hj & H1). apply Kd in H2 as (p' & H2). assert (j = i) by (eapply det_time; eauto). lia. }
      clear -W4 Nd Dj. induction (concat (map the_faces T)) as [|x l IH]; [exact Nd|]. inversion W4; subst. cbn. constructor; [rewrite in_app_iff; intros [Q|Q]; [contradiction|apply (Dj x); [left; reflexivity|exact Q]]|]. apply IH; [assumption|]. intros k Hk. apply Dj. right. exact Hk. }
    assert (Bound : Z.of_nat (length (concat (map the_faces T)) + length dm) < 2 ^ 31).
    { assert (H := Few _ NDa). rewrite app_length in H. unfold mkeys in H at 2. rewrite map_length in H. apply H. intros k Hk. apply in_app_iff in Hk as [Hk|Hk]; [|apply Pd, Hk]. apply W5 in Hk as (j & p & Hj & Hk). apply (det_punctured j k p); [lia|exact Hk]. }
    assert (LT : (length T <= length (concat (map the_faces T)))%nat).
    { rewrite <- (map_length the_faces T). apply nonempty_count. intros l Hl. apply in_map_iff in Hl as (x & <- & Hx). rewrite Forall_forall in W3. apply (W3 x Hx). }
    assert (IdR : forall x, In x T -> 0 <= the_id x < Z.of_nat (length T)).
    { intros x Hx. apply (in_map the_id) in Hx. rewrite W2 in Hx. apply in_map_iff in Hx as (n & <- & Hn). apply in_seq in Hn. lia. }
    destruct (online_lemma c OK T dm W3) as (T' & N & E & G & Bn & Pm & Nc & first & Kf & Ni & Nf).
    { assert (K : forall (l : list strand) a, map the_id l = map Z.of_nat (seq a (length l)) -> ksorted (map fst l)); [|apply (K T 0%nat W2)].
      induction l as [|x l IH]; intros a Q; [constructor|]. cbn [map length seq] in Q. injection Q as Q1 Q2. cbn [map]. constructor; [apply (IH (S a) Q2)|]. apply Forall_forall. intros e He. apply in_map_iff in He as (y & <- & Hy). apply (in_map the_id) in Hy. rewrite Q2 in Hy. apply in_map_iff in Hy as (n & En & Hn). apply in_seq in Hn. unfold the_id in *. lia. }
    { intros x Hx. apply IdR in Hx. lia. }
    { lia. }
    { exact M. }
    { intros k Hk. apply Pd, Hk. }
    { intros q x Hq Hx. apply (degree_two c OK all t0 F); [intros k Hk; apply Pd, Hq, Hk|apply Pd, Hq, Hx|apply Pd, Hq, Hx]. }
    exists (T' ++ N). split; [exact E|]. assert (LTT : length T' = length T) by (clear -G; induction G; cbn; congruence).
    split.
    - reflexivity.
    - rewrite map_app. assert (EqI : map the_id T' = map the_id T) by (clear -G; induction G as [|x x' l l' H G IH]; [reflexivity|]; cbn; rewrite IH; f_equal; apply H). rewrite EqI, W2, Ni, app_length, LTT, seq_app, map_app. f_equal. cbn [Nat.add].
      destruct N as [|n N]; [reflexivity|]. specialize (Nf ltac:(discriminate)). assert (first = Z.of_nat (length T)).
      { unfold get_new_id in Nf. destruct T as [|x Tz _] using rev_ind; [cbn in Nf; injection Nf as <-; reflexivity|]. rewrite map_app, rev_app_distr in Nf. cbn [map rev app] in Nf. destruct (fst (fst x) + 1 <? 2 ^ 31); [|discriminate]. injection Nf as <-.
        rewrite app_length in W2. cbn [length] in W2. rewrite Nat.add_1_r, seq_S, !map_app in W2. cbn [map] in W2. apply app_inj_tail in W2 as [_ W2]. unfold the_id in W2. rewrite W2, app_length. cbn. lia. }
      subst first. generalize (length (n :: N)). generalize (length T). clear. intros a b. assert (H : forall k, map (fun i => Z.of_nat a + Z.of_nat i) (seq k b) = map Z.of_nat (seq (a + k) b)); [|rewrite H; f_equal; f_equal; lia]. induction b as [|b IH]; intros k; [reflexivity|]. cbn [seq map]. f_equal; [lia|]. rewrite IH. f_equal. f_equal. lia.
    - apply Forall_app. split.
      + apply Forall_forall. intros x' Hx'. destruct (F2_In_r _ _ _ _ G Hx') as (x & Hx & Gx). rewrite Forall_forall in W3. destruct (W3 x Hx) as (A1 & A2 & A3). destruct Gx as (_ & _ & _ & b & f & pb & pf & H4 & H5 & H6 & H7 & H8 & _). split; [|split].
        * rewrite H4. destruct b; [|discriminate]. cbn. destruct (the_faces x); [contradiction|discriminate].
        * rewrite H4, H5. apply Forall2_app; [eapply F2_impl; [|exact H6]|apply Forall2_app; [exact A2|eapply F2_impl; [|exact H7]]]; cbn; intros k p Hk; apply D in Hk; eapply det_face; eauto.
        * exact H8.
      + eapply Forall_impl; [|exact Bn]. intros x (B1 & B2 & _ & _ & _ & B5). split; [exact B1|]. split; [|exact B2]. eapply F2_impl; [|exact B5]. cbn. intros k q (p & Hp & ->). apply D in Hp. apply det_face in Hp. destruct Hp as (C1 & C2 & C3). split; [exact C1|]. split; [exact C2|]. exact C3.
    - eapply Permutation_NoDup; [symmetry; exact Pm|exact NDa].
    - intros k. assert (Ip : In k (concat (map the_faces (T' ++ N))) <-> In k (concat (map the_faces T) ++ mkeys dm)) by (split; apply Permutation_in; [exact Pm|symmetry; exact Pm]). rewrite Ip, in_app_iff, W5, Kd. split.
      + intros [(j & p & Hj & H)|(p & H)]; [exists j, p; split; [lia|exact H]|exists i, p; split; [lia|exact H]].
      + intros (j & p & Hj & H). destruct (Nat.eq_dec j i) as [->|]; [right; eauto|left; exists j, p; split; [lia|exact H]].
    - intros x Hx. apply in_app_iff in Hx as [Hx|Hx].
      + destruct (F2_In_r _ _ _ _ G Hx) as (x0 & Hx0 & Gx). destruct Gx as (_ & _ & _ & b & f & pb & pf & H4 & H5 & H6 & H7 & _). rewrite H4, H5. apply Forall2_app; [eapply F2_impl; [|exact H6]|apply Forall2_app; [apply W6, Hx0|eapply F2_impl; [|exact H7]]]; cbn; intros k p Hk; apply D in Hk; eauto.
      + rewrite Forall_forall in Bn. destruct (Bn x Hx) as (_ & _ & _ & _ & _ & B5). eapply F2_impl; [|exact B5]. cbn. intros k q (p & Hp & ->). apply D in Hp. exists i, p. split; [exact Hp|reflexivity].
  Qed.

  Definition streamed (n : nat) (st : state) (T : list strand) : Prop :=
    woven (Nat.min n (length all - 1)) (traced st) T /\ (forall k p, mfind k (disc st) = Some p <-> exists j, (j < n)%nat /\ S j = length all /\ det j k p).
  Lemma window_length i : (i < length rs)%nat -> length (window rs i) = (pushed rs i - i)%nat /\ (pushed rs i <= length all)%nat.
  Proof.
    intros Hi. assert (H : (pushed rs i <= length all)%nat).
    { unfold pushed, all_pushed. rewrite <- firstn_map. rewrite <- (firstn_skipn (S i) (map batch rs)) at 2. rewrite concat_app, app_length. lia. }
    split; [|exact H]. unfold window. rewrite skipn_length, firstn_length. lia.
  Qed.
  Lemma stream_round rs1 r rs2 st T : rs = rs1 ++ r :: rs2 -> before measure c t0 rs rs1 st (length rs1) -> woven (length rs1) (traced st) T ->
    exists st' T', run measure c st (map Push (batch r) ++ [Update (tasks r)]) = Ok st' /\ streamed (S (length rs1)) st' T' /\
    exists st'', run measure c st (map Push (batch r) ++ [Advance (tasks r)]) = Ok st'' /\ disc st'' = disc st' /\ traced st'' = traced st' /\
      (rs2 <> [] -> before measure c t0 rs (rs1 ++ [r]) st'' (S (length rs1))).
  Proof.
    intros Ers B W. set (i := length rs1) in *. assert (Li : (i < length rs)%nat) by (rewrite Ers, app_length; cbn; unfold i; lia).
    destruct (round_scans measure c OK t0 rs SO TI SC T0 T1 rs1 r rs2 st i Ers B (le_n i)) as (st1 & E1 & E2 & S1 & S1' & S2 & S3 & S4 & S5 & S6). fold i in S1, S1', S2, S6.
    assert (D1 : forall k p, mfind k (disc st1) = Some p <-> det i k p).
    { intros k p. rewrite S6. split; [intros (j & Hj & H); assert (j = i) by lia; subst; exact H|]. intros H. exists i. split; [lia|exact H]. }
    destruct (TI i Li) as [P1 P2]. destruct (window_length i Li) as [WL WB]. assert (IL := in_length).
    assert (Ch : chk (cur st1 + 1) = Ok (cur st1 + 1)) by (apply chk_ok; unfold in_int; rewrite S2; lia).
    assert (Bf : forall dd tt, (forall k p, mfind k dd = Some p <-> exists j, (S i <= j < S i)%nat /\ det j k p) -> msorted dd -> before measure c t0 rs (rs1 ++ [r]) (mkst (tl (snaps st1)) (cur st1 + 1) (reso st1) dd tt) (S i)).
    { intros dd tt Hd Md. split; cbn [snaps cur reso disc].
      - rewrite S1, app_length. cbn. rewrite Nat.add_1_r. apply tl_skipn.
      - rewrite S2, app_length. cbn. unfold i. lia.
      - exact S3.
      - exact Md.
      - intros k p. rewrite Hd, app_length. cbn. rewrite Nat.add_1_r. fold i. reflexivity. }
    rewrite !run_app, E1. cbn [bind run step]. unfold advance_timestep. rewrite update_scans, E2. cbn [bind]. rewrite Str, andb_true_r, S1', WL.
    destruct (Nat.leb_spec 2 (pushed rs i - i)) as [H2|H2].
    - rewrite S5. destruct (weave i (traced st) T (disc st1) Li W S4 D1) as (T' & Et & W'). rewrite Et. cbn [bind cur snaps reso disc traced]. eexists. exists T'. split; [reflexivity|].
      assert (Hlt : (i + 1 < length all)%nat) by lia. split.
      { split; cbn [traced disc]; [rewrite Nat.min_l by lia; exact W'|]. intros k p. split; [discriminate|]. intros (j & H3 & H4 & _). lia. }
      rewrite Ch. cbn [bind]. eexists. split; [reflexivity|]. split; [reflexivity|]. split; [reflexivity|]. intros _. rewrite <- S1'. apply Bf; [|constructor]. intros k p. split; [discriminate|]. intros (j & H3 & _). lia.
    - cbn [bind]. eexists. exists T. split; [reflexivity|]. assert (Hlt : length all = S i) by lia. split.
      { split; [rewrite S5, Nat.min_r, Hlt by lia; cbn; rewrite Nat.sub_0_r; exact W|]. intros k p. rewrite D1. split; [intros H; exists i; auto|]. intros (j & H3 & H4 & H). assert (j = i) by lia. subst. exact H. }
      rewrite Ch. cbn [bind]. eexists. split; [reflexivity|]. split; [reflexivity|]. split; [reflexivity|]. intros Hn. exfalso. assert (El : (length rs = i + S (length rs2))%nat) by (rewrite Ers at 1; rewrite app_length; reflexivity). destruct rs2; [contradiction|]. cbn in El. lia.
  Qed.
  Lemma stream_run fin : forall rs2 rs1 st T, rs = rs1 ++ rs2 -> rs2 <> [] -> before measure c t0 rs rs1 st (length rs1) -> woven (length rs1) (traced st) T ->
    exists st' T', run measure c st (commands fin rs2) = Ok st' /\ streamed (length rs) st' T'.
  Proof.
    induction rs2 as [|r rs2 IH]; intros rs1 st T Ers Hn B W; [contradiction|]. destruct (stream_round rs1 r rs2 st T Ers B W) as (st' & T' & E1 & S1 & st'' & E2 & Ed & Et & B2).
    assert (El : (length rs = length rs1 + S (length rs2))%nat) by (rewrite Ers, app_length; reflexivity). destruct rs2 as [|r' rs2].
    - cbn in El. replace (length rs) with (S (length rs1)) by lia. cbn [commands]. destruct fin; [exists st', T'; auto|]. exists st'', T'. split; [exact E2|]. unfold streamed. rewrite Ed, Et. exact S1.
    - change (commands fin (r :: r' :: rs2)) with (map Push (batch r) ++ Advance (tasks r) :: commands fin (r' :: rs2)).
      replace (map Push (batch r) ++ Advance (tasks r) :: commands fin (r' :: rs2)) with ((map Push (batch r) ++ [Advance (tasks r)]) ++ commands fin (r' :: rs2)) by (rewrite <- app_assoc; reflexivity).
      rewrite run_app, E2. cbn [bind]. assert (IL := in_length). apply (IH (rs1 ++ [r]) st'' T').
      + rewrite <- app_assoc. exact Ers.
      + discriminate.
      + rewrite app_length. cbn. rewrite Nat.add_1_r. apply B2. discriminate.
      + destruct S1 as [S1 _]. rewrite Nat.min_l in S1 by (cbn in El; lia). rewrite Et, app_length. cbn. rewrite Nat.add_1_r. exact S1.
  Qed.
  Lemma stream_lemma fin : rs <> [] -> exists st T, run measure c (init t0) (commands fin rs) = Ok st /\ streamed (length rs) st T.
  Proof. intros Hn. apply (stream_run fin rs [] (init t0) [] eq_refl Hn (before_init measure c t0 rs) woven_init). Qed.
End Streaming.
