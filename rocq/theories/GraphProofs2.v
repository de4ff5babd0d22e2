From Verif Require Import Base UnionFind UnionFindSpec UnionFindProofs Forest NdArray Graph GraphSpec GraphProofs.

Section Cca.
  Context {K : Type} `{OrdKey K}.
  Implicit Types (nb : K -> list K) (q : list K).

  (** *** C28 *)
  Lemma cca_unite_spec q x ns : In x q -> forall s us, uinv s q us ->
    exists s' us', cca_unite s x ns = Ok s' /\ uinv s' q us' /\ (forall a b, In (a, b) us' <-> In (a, b) us \/ (a = x /\ In b ns /\ In b q)).
  Proof.
    intros Hx. induction ns as [|n ns IH]; intros s us I; cbn [cca_unite].
    - exists s, us. split; [reflexivity|]. split; [exact I|]. cbn. tauto.
    - assert (HM : uf_has s n = true <-> In n q). { unfold uf_has. rewrite smem_In. apply I. }
      destruct (uf_has s n) eqn:Eh.
      + assert (Hn : In n q) by (apply HM; reflexivity). destruct (uf_unite_spec s q us x n I Hx Hn) as (s1 & E1 & I1). rewrite E1. cbn [bind].
        destruct (IH s1 _ I1) as (s' & us' & E & I' & U). exists s', us'. split; [exact E|]. split; [exact I'|]. intros a b. rewrite U. cbn. split; intros J.
        * destruct J as [[J|J]|J]; [injection J as <- <-; right; auto|auto|tauto].
        * destruct J as [J|(-> & [->|J] & Hb)]; [auto|auto|tauto].
      + cbn [bind]. destruct (IH s us I) as (s' & us' & E & I' & U). exists s', us'. split; [exact E|]. split; [exact I'|]. intros a b. rewrite U. cbn.
        assert (~ In n q) by (intros J; apply HM in J; discriminate). split; intros J; [tauto|]. destruct J as [J|(-> & [->|J] & Hb)]; tauto.
  Qed.
  Lemma cca_loop_spec nb q qs : incl qs q -> forall s us, uinv s q us ->
    exists s' us', cca_loop s nb qs = Ok s' /\ uinv s' q us' /\ (forall a b, In (a, b) us' <-> In (a, b) us \/ (In a qs /\ In b (nb a) /\ In b q)).
  Proof.
    induction qs as [|x qs IH]; intros Hi s us I; cbn [cca_loop].
    - exists s, us. split; [reflexivity|]. split; [exact I|]. cbn. tauto.
    - destruct (cca_unite_spec q x (nb x) (Hi x (or_introl eq_refl)) s us I) as (s1 & us1 & E1 & I1 & U1). rewrite E1. cbn [bind].
      destruct (IH (fun y Hy => Hi y (or_intror Hy)) s1 us1 I1) as (s' & us' & E & I' & U). exists s', us'. split; [exact E|]. split; [exact I'|].
      intros a b. rewrite U, U1. cbn. split; intros J; [intuition (subst; auto)|]. destruct J as [J|([->|Ha] & Hb & Hq)]; tauto.
  Qed.
  Lemma adds_spec q : forall s es, uinv s es [] -> uinv (fold_left (@uf_add K _) q s) (es ++ q) [].
  Proof.
    induction q as [|x q IH]; intros s es I; cbn [fold_left]; [rewrite app_nil_r; exact I|].
    replace (es ++ x :: q) with ((es ++ [x]) ++ q) by (rewrite <- app_assoc; reflexivity). apply IH. apply uf_add_spec; [exact I|intros ? []|intros ? []].
  Qed.
  Lemma uinv_new : uinv (uf_new (K:=K)) [] [].
  Proof. destruct (uf_run_spec (K:=K) []) as (s & E & I); [intros pre o post Q; destruct pre; discriminate|]. cbn in E. injection E as <-. exact I. Qed.
  Lemma crst_ext (R R' : K -> K -> Prop) : (forall x y, R x y -> clos_refl_sym_trans K R' x y) -> forall x y, clos_refl_sym_trans K R x y -> clos_refl_sym_trans K R' x y.
  Proof. intros E x y. induction 1; [auto|apply rst_refl|apply rst_sym; assumption|eapply rst_trans; eassumption]. Qed.
  Lemma part_ext es (R R' : K -> K -> Prop) sets : (forall x y, R x y <-> R' x y) -> is_partition es R sets -> is_partition es R' sets.
  Proof.
    intros E (P1 & P2 & P3 & P4 & P5). split; [exact P1|]. split; [exact P2|]. split; [exact P3|]. split; [exact P4|]. intros S x HS Hx y. rewrite (P5 S x HS Hx y), E. reflexivity.
  Qed.
  Lemma cca_lemma nb q : exists sets, extract_connected_components nb q = Ok sets /\ is_partition q (connected nb q) sets.
  Proof.
    unfold extract_connected_components. assert (I0 := adds_spec q uf_new [] uinv_new). cbn [app] in I0.
    destruct (cca_loop_spec nb q q (incl_refl q) _ _ I0) as (s' & us & E & I & U). rewrite E. cbn [bind].
    destruct (uf_get_sets_spec s' q us I) as (sets & s2 & E2 & _ & P). rewrite E2. cbn [bind]. exists sets. split; [reflexivity|].
    eapply part_ext; [|exact P]. intros x y. unfold conn, connected. split; apply crst_ext; intros a b J.
    - apply rst_step. apply U in J. destruct J as [[]|J]. unfold linked. tauto.
    - apply rst_step. apply U. right. unfold linked in J. tauto.
  Qed.
  Lemma cca_nodes_lemma nodes nb crit : exists sets, extract_connected_components_nodes nodes nb crit = Ok sets /\
    is_partition (filter crit nodes) (connected nb (filter crit nodes)) sets.
  Proof.
    unfold extract_connected_components_nodes. set (q := fold_left (fun s n => if crit n then sins n s else s) nodes []).
    assert (Q : forall x, In x q <-> In x (filter crit nodes)).
    { assert (G : forall s x, In x (fold_left (fun s n => if crit n then sins n s else s) nodes s) <-> In x s \/ In x (filter crit nodes)).
      { induction nodes as [|n nodes IH]; intros s x; cbn [fold_left filter]; [cbn; tauto|]. rewrite IH. destruct (crit n); [rewrite In_sins; cbn; intuition|reflexivity]. }
      intros x. unfold q. rewrite G. cbn. tauto. }
    destruct (cca_lemma nb q) as (sets & E & P1 & P2 & P3 & P4 & P5). exists sets. split; [exact E|].
    assert (C : forall x y, connected nb q x y <-> connected nb (filter crit nodes) x y).
    { intros x y. split; apply crst_ext; intros a b (A & B & D); apply rst_step; repeat split; try exact D; apply Q; assumption. }
    split; [exact P1|]. split; [exact P2|]. split; [exact P3|]. split; [intros x; rewrite <- Q; apply P4|]. intros S x HS Hx y. rewrite (P5 S x HS Hx y), Q, C. reflexivity.
  Qed.

  (** two partitions of the same set for the same relation are the same family *)
  Lemma part_nodup es R sets : is_partition es R sets -> NoDup sets.
  Proof.
    intros (P1 & P2 & P3 & _). clear P2. induction sets as [|S sets IH]; [constructor|]. constructor.
    - intros J. apply In_nth_error in J. destruct J as [i Hi]. destruct S as [|x S]; [apply (P1 []); [left; reflexivity|reflexivity]|].
      assert (0 = Datatypes.S i); [|discriminate]. eapply (P3 0 (Datatypes.S i)); [reflexivity|exact Hi|left; reflexivity|left; reflexivity].
    - apply IH; [intros T HT; apply P1; right; exact HT|]. intros i j T U x Hi Hj Hx Hy. assert (Datatypes.S i = Datatypes.S j); [|congruence]. eapply P3; [exact Hi|exact Hj|exact Hx|exact Hy].
  Qed.
  Lemma part_unique es R s1 s2 : is_partition es R s1 -> is_partition es R s2 -> Permutation s1 s2.
  Proof.
    assert (G : forall s1 s2, is_partition es R s1 -> is_partition es R s2 -> forall S, In S s1 -> In S s2).
    { intros t1 t2 (P1 & P2 & P3 & P4 & P5) (Q1 & Q2 & Q3 & Q4 & Q5) S HS. destruct S as [|x S']; [exfalso; eapply P1; eauto|]. set (S := x :: S') in *.
      assert (Hx : In x S) by (left; reflexivity). assert (Ex : In x es) by (apply P4; eauto). apply Q4 in Ex. destruct Ex as (T & HT & HxT).
      assert (S = T) as ->; [|exact HT]. apply sorted_ext; [apply P2; exact HS|apply Q2; exact HT|]. intros y. rewrite (P5 S x HS Hx y), (Q5 T x HT HxT y). reflexivity. }
    intros I1 I2. apply NoDup_Permutation; [eapply part_nodup; eauto|eapply part_nodup; eauto|]. intros S. split; apply G; assumption.
  Qed.
End Cca.

(** *** C30 *)
Section CcaBfs.
  Context {K : Type} `{OrdKey K} (nb : K -> list K) (q0 : list K) (Hsym : symmetric_nb nb).

  Lemma connected_sym x y : connected nb q0 x y -> connected nb q0 y x.
  Proof. apply rst_sym. Qed.
  Lemma connected_in x y : connected nb q0 x y -> In x q0 <-> In y q0.
  Proof. induction 1 as [x y (A & B & C)| | |]; tauto. Qed.
  Lemma closed_connected (P : K -> Prop) x : (forall a b, P a -> linked nb q0 a b -> P b) -> P x -> forall y, connected nb q0 x y -> P y.
  Proof.
    intros HC Hx y C. assert (G : P x <-> P y); [|tauto]. clear Hx. induction C as [a b L|a|a b C IH|a b c C1 IH1 C2 IH2]; try tauto. split; intros J; [eapply HC; eauto|]. eapply HC; [exact J|]. destruct L as (A & B & D). repeat split; auto.
  Qed.

  Lemma ccb_push_spec qualified visited ns : forall Q, sorted Q ->
    let Q' := fold_left (ccb_push qualified visited) ns Q in
    sorted Q' /\ (forall x, In x Q' <-> In x Q \/ (In x ns /\ In x qualified /\ ~ In x visited)).
  Proof.
    induction ns as [|n ns IH]; intros Q S; cbn [fold_left].
    - split; [exact S|]. cbn. tauto.
    - unfold ccb_push at 2 4. destruct (smem n qualified) eqn:M1; cbn [andb].
      + destruct (smem n visited) eqn:M2; cbn [negb andb].
        * destruct (IH Q S) as [I1 I2]. split; [exact I1|]. intros x. rewrite I2. cbn. apply smem_In in M1, M2. split; intros J; [tauto|]. destruct J as [J|([->|J] & A & B)]; tauto.
        * apply smem_In in M1. apply smem_not_In in M2. destruct (smem n Q) eqn:M3; cbn [negb].
          -- destruct (IH Q S) as [I1 I2]. split; [exact I1|]. intros x. rewrite I2. cbn. apply smem_In in M3. split; intros J; [tauto|]. destruct J as [J|([->|J] & A & B)]; tauto.
          -- destruct (IH (sins n Q) (sorted_sins n Q S)) as [I1 I2]. split; [exact I1|]. intros x. rewrite I2, In_sins. cbn. split; intros J.
             ++ destruct J as [[->|J]|J]; tauto.
             ++ destruct J as [J|([->|J] & A & B)]; tauto.
      + destruct (IH Q S) as [I1 I2]. split; [exact I1|]. intros x. rewrite I2. cbn. apply smem_not_In in M1. split; intros J; [tauto|]. destruct J as [J|([->|J] & A & B)]; tauto.
  Qed.

  Lemma ccb_inner_spec qualified seed fuel : forall Q visited,
    sorted Q -> sorted visited -> incl Q qualified -> incl visited qualified -> (forall x, In x Q -> ~ In x visited) ->
    (forall x, In x Q \/ In x visited -> reach nb (fun y => smem y qualified) seed x) -> In seed Q \/ In seed visited ->
    (forall x y, In x visited -> In y (nb x) -> In y qualified -> In y Q \/ In y visited) ->
    length qualified < fuel + length visited ->
    exists v, ccb_inner fuel nb qualified Q visited = Ok v /\ sorted v /\ incl v qualified /\ In seed v /\
      (forall x, In x v -> reach nb (fun y => smem y qualified) seed x) /\ (forall x y, In x v -> In y (nb x) -> In y qualified -> In y v).
  Proof.
    induction fuel as [|fuel IH]; intros Q visited SQ SV IQ IV D R Hs Cl Hf.
    - exfalso. assert (length visited <= length qualified) by (apply NoDup_incl_length; [apply sorted_NoDup; exact SV|exact IV]). lia.
    - cbn [ccb_inner]. destruct Q as [|cur Q].
      + exists visited. split; [reflexivity|]. split; [exact SV|]. split; [exact IV|]. split; [destruct Hs as [[]|Hs]; exact Hs|]. split; [intros x Hx; apply R; auto|]. intros x y Hx Hy Hq. destruct (Cl x y Hx Hy Hq) as [[]|J]; exact J.
      + set (Q0 := cur :: Q) in *. assert (Hcur : In cur Q0) by (left; reflexivity). assert (Ncur := D cur Hcur).
        destruct (ccb_push_spec qualified (sins cur visited) (nb cur) (sdel cur Q0) (sorted_sdel cur Q0 SQ)) as [S' I'].
        set (Q' := fold_left _ _ _) in *. apply IH.
        * exact S'.
        * apply sorted_sins. exact SV.
        * intros x Hx. apply I' in Hx. destruct Hx as [Hx|(_ & Hx & _)]; [|exact Hx]. apply In_sdel in Hx. apply IQ. tauto.
        * intros x Hx. apply In_sins in Hx. destruct Hx as [->|Hx]; [apply IQ; exact Hcur|apply IV; exact Hx].
        * intros x Hx J. apply I' in Hx. apply In_sins in J. destruct Hx as [Hx|(_ & _ & Hx)]; [|rewrite In_sins in Hx; tauto]. apply In_sdel in Hx. destruct J as [J|J]; [tauto|]. apply (D x); tauto.
        * intros x [Hx|Hx].
          -- apply I' in Hx. destruct Hx as [Hx|(A & B & C)]; [apply In_sdel in Hx; apply R; tauto|]. destruct (R cur (or_introl Hcur)) as (n & Pn). exists (S n). eapply path_snoc; [exact Pn|exact A|]. apply smem_In. exact B.
          -- apply In_sins in Hx. destruct Hx as [->|Hx]; apply R; auto.
        * destruct Hs as [Hs|Hs]; [|right; apply In_sins; auto]. destruct (kdec seed cur) as [->|N]; [right; apply In_sins; auto|]. left. apply I'. left. apply In_sdel. auto.
        * intros x y Hx Hy Hq. apply In_sins in Hx. destruct (smem y (sins cur visited)) eqn:M; [right; apply smem_In; exact M|]. apply smem_not_In in M. left. apply I'.
          destruct Hx as [->|Hx]; [right; auto|]. destruct (Cl x y Hx Hy Hq) as [J|J]; [|exfalso; apply M; apply In_sins; auto]. left. apply In_sdel. split; [|exact J]. intros ->. apply M. apply In_sins. auto.
        * assert (L : length (sins cur visited) = S (length visited)); [|lia].
          assert (N1 : NoDup (sins cur visited)) by (apply sorted_NoDup, sorted_sins, SV). assert (N2 : NoDup (cur :: visited)) by (constructor; [exact Ncur|apply sorted_NoDup; exact SV]).
          change (S (length visited)) with (length (cur :: visited)). apply Permutation_length. apply NoDup_Permutation; auto. intros x. rewrite In_sins. cbn. intuition.
  Qed.

  Lemma fold_sdel v : forall l x, In x (fold_left (fun q v => sdel v q) v l) <-> In x l /\ ~ In x v.
  Proof. induction v as [|a v IH]; intros l x; cbn [fold_left]; [cbn; tauto|]. rewrite IH, In_sdel. cbn. intuition. Qed.
  Lemma fold_sdel_sorted v : forall l, sorted l -> sorted (fold_left (fun q v => sdel v q) v l).
  Proof. induction v as [|a v IH]; intros l S; cbn [fold_left]; [exact S|]. apply IH, sorted_sdel, S. Qed.

  Lemma reach_connected qualified s x : incl qualified q0 -> In s qualified -> reach nb (fun y => smem y qualified) s x -> In x q0 /\ connected nb q0 s x.
  Proof.
    intros Iq Hs (n & Pn). induction Pn as [x|n x y z Pn IH Hz Hc]; [split; [apply Iq; exact Hs|apply rst_refl]|].
    destruct (IH Hs) as [I1 I2]. apply smem_In in Hc. split; [apply Iq; exact Hc|]. eapply rst_trans; [exact I2|]. apply rst_step. repeat split; auto.
  Qed.

  Definition full (S : list K) : Prop := S <> [] /\ sorted S /\ forall x, In x S -> In x q0 /\ forall y, In y S <-> connected nb q0 x y.

  Lemma ccb_outer_lemma fuel : forall qualified comps, sorted qualified -> incl qualified q0 ->
    (forall x, In x q0 <-> In x qualified \/ exists S, In S comps /\ In x S) ->
    (forall S x, In S comps -> In x S -> ~ In x qualified) -> Forall full comps ->
    (forall i j S T x, nth_error comps i = Some S -> nth_error comps j = Some T -> In x S -> In x T -> i = j) ->
    length qualified < fuel ->
    exists sets, ccb_outer fuel nb qualified comps = Ok sets /\ is_partition q0 (connected nb q0) sets.
  Proof.
    induction fuel as [|fuel IH]; intros qualified comps Sq Iq Cv Dj Fl Un Hf; [lia|]. cbn [ccb_outer]. destruct qualified as [|seed rest].
    - exists comps. split; [reflexivity|]. rewrite Forall_forall in Fl. split; [intros S HS; apply Fl; exact HS|]. split; [intros S HS; apply Fl; exact HS|]. split; [exact Un|].
      split; [intros x; rewrite Cv; cbn; split; [intros [[]|J]; exact J|auto]|]. intros S x HS Hx y. destruct (Fl S HS) as (_ & _ & G). destruct (G x Hx) as [Hq G']. rewrite G'. split; [|tauto]. intros C. split; [|exact C]. apply (connected_in x y C). exact Hq.
    - set (qualified := seed :: rest) in *. assert (Hseed : In seed qualified) by (left; reflexivity).
      destruct (ccb_inner_spec qualified seed (S fuel) [seed] []) as (v & E & Sv & Iv & Hs & Rv & Cl).
      + repeat constructor.
      + constructor.
      + intros x [<-|[]]. exact Hseed.
      + intros x [].
      + intros x _ [].
      + intros x [[<-|[]]|[]]. exists 0. constructor.
      + left; left; reflexivity.
      + intros x y [].
      + cbn [length]. lia.
      + rewrite E. cbn [bind].
        assert (Ccur : forall x y, In x qualified -> In y q0 -> connected nb q0 x y -> In y qualified).
        { intros x y Hx Hy C. apply Cv in Hy. destruct Hy as [Hy|(S & HS & HyS)]; [exact Hy|]. exfalso. rewrite Forall_forall in Fl. destruct (Fl S HS) as (_ & _ & G). destruct (G y HyS) as [_ G']. apply (Dj S x HS); [|exact Hx]. apply G'. apply connected_sym. exact C. }
        assert (Vc : forall x, In x v -> connected nb q0 seed x).
        { intros x Hx. apply (reach_connected qualified seed x Iq Hseed (Rv x Hx)). }
        assert (Vf : forall y, connected nb q0 seed y -> In y v).
        { apply closed_connected; [|exact Hs]. intros a b Ha (L1 & L2 & L3). eapply Cl; [exact Ha|exact L3|]. apply (Ccur a b); [apply Iv; exact Ha|exact L2|]. apply rst_step. repeat split; auto. }
        assert (Fv : full v).
        { split; [intros ->; exact Hs|]. split; [exact Sv|]. intros x Hx. split; [apply Iq, Iv, Hx|]. intros y. split; intros J.
          - eapply rst_trans; [apply rst_sym, Vc, Hx|apply Vc, J].
          - apply Vf. eapply rst_trans; [apply Vc, Hx|exact J]. }
        apply IH.
        * apply fold_sdel_sorted. exact Sq.
        * intros x Hx. apply fold_sdel in Hx. apply Iq. tauto.
        * intros x. rewrite Cv, fold_sdel. split.
          -- intros [J|(S & HS & J)]; [|right; exists S; rewrite in_app_iff; auto]. destruct (smem x v) eqn:M; [right; exists v; rewrite in_app_iff; cbn; apply smem_In in M; auto|left; apply smem_not_In in M; auto].
          -- intros [[J _]|(S & HS & J)]; [auto|]. rewrite in_app_iff in HS. destruct HS as [HS|[<-|[]]]; [right; eauto|left; apply Iv; exact J].
        * intros S x HS Hx J. apply fold_sdel in J. rewrite in_app_iff in HS. destruct HS as [HS|[<-|[]]]; [apply (Dj S x HS Hx); tauto|tauto].
        * apply Forall_app. split; [exact Fl|]. constructor; [exact Fv|constructor].
        * assert (Dis : forall S x, In S comps -> In x S -> In x v -> False) by (intros S x HS Hx J; apply (Dj S x HS Hx), Iv, J).
          assert (Nt : forall k T, nth_error (comps ++ [v]) k = Some T -> (nth_error comps k = Some T /\ k < length comps) \/ (k = length comps /\ T = v)).
          { intros k T Hk. destruct (lt_dec k (length comps)) as [L|L]; [rewrite nth_error_app1 in Hk by lia; auto|]. rewrite nth_error_app2 in Hk by lia. destruct (k - length comps) as [|m] eqn:Em; cbn in Hk; [right; split; [lia|congruence]|destruct m; discriminate]. }
          intros i j S T x Hi Hj Hx Hy. apply Nt in Hi, Hj. destruct Hi as [[Hi Li]|[-> ->]], Hj as [[Hj Lj]|[-> ->]]; [eapply Un; eauto| | |reflexivity]; exfalso.
          -- apply nth_error_In in Hi. eapply Dis; eauto.
          -- apply nth_error_In in Hj. eapply Dis; eauto.
        * assert (length (fold_left (fun q v => sdel v q) v qualified) < length qualified); [|lia].
          assert (N1 : NoDup (seed :: fold_left (fun q v => sdel v q) v qualified)).
          { constructor; [rewrite fold_sdel; tauto|apply sorted_NoDup, fold_sdel_sorted, Sq]. }
          apply (NoDup_incl_length N1). intros x [<-|Hx]; [exact Hseed|]. apply fold_sdel in Hx. tauto.
  Qed.
  Lemma ccb_lemma fuel : sorted q0 -> length q0 < fuel -> exists sets, extract_connected_components_bfs fuel nb q0 = Ok sets /\ is_partition q0 (connected nb q0) sets.
  Proof.
    intros S Hf. apply ccb_outer_lemma; [exact S|apply incl_refl| | |constructor| |exact Hf].
    - intros x. split; [auto|]. intros [J|(? & [] & _)]. exact J.
    - intros ? ? [].
    - intros [|i] j ? ? ?; discriminate.
  Qed.
End CcaBfs.

(** *** C32 *)
Section Track.
  Context {K : Type} `{OrdKey K}.
  Lemma track_lemma (c0 c1 : list (list K)) i j : In (i, j) (track_connected_components c0 c1) <->
    exists S T x, nth_error c0 i = Some S /\ nth_error c1 j = Some T /\ In x S /\ In x T.
  Proof.
    unfold track_connected_components. rewrite In_fold_sins. cbn [In]. rewrite in_flat_map. split.
    - intros [(a & Ha & J)|[]]. apply in_flat_map in J. destruct J as (b & Hb & J). apply in_seq in Ha, Hb. destruct (overlaps _ _) eqn:O; [|destruct J]. destruct J as [J|[]]. injection J as <- <-.
      unfold overlaps in O. apply existsb_exists in O. destruct O as (x & Hx & M). apply smem_In in M. exists (nth a c0 []), (nth b c1 []), x. rewrite !(nth_error_nth' _ []) by lia. auto.
    - intros (S & T & x & HS & HT & Hx & Hy). left. exists i. assert (i < length c0) by (apply nth_error_Some; congruence). assert (j < length c1) by (apply nth_error_Some; congruence).
      split; [apply in_seq; lia|]. apply in_flat_map. exists j. split; [apply in_seq; lia|]. rewrite (nth_error_nth _ _ _ HS), (nth_error_nth _ _ _ HT).
      assert (overlaps S T = true) as ->; [|left; reflexivity]. apply existsb_exists. exists x. split; [exact Hx|]. apply smem_In. exact Hy.
  Qed.
End Track.
Lemma track_labels_lemma l0 : forall l1 r, length l0 <= length l1 -> exists r', track_labels_loop l0 l1 r = Ok r' /\
  forall p q, In (p, q) r' <-> In (p, q) r \/ (p <> q /\ p <> 0%Z /\ q <> 0%Z /\ exists i, nth_error l0 i = Some p /\ nth_error l1 i = Some q).
Proof.
  induction l0 as [|a l0 IH]; intros l1 r Hl; cbn [track_labels_loop].
  - exists r. split; [reflexivity|]. intros p q. split; [auto|]. intros [J|(_ & _ & _ & [|i] & E & _)]; [exact J|discriminate|discriminate].
  - destruct l1 as [|b l1]; [cbn in Hl; lia|]. cbn in Hl. destruct (IH l1 (if negb (a =? b)%Z && negb (a =? 0)%Z && negb (b =? 0)%Z then sins (a, b) r else r) ltac:(lia)) as (r' & E & R). exists r'. split; [exact E|].
    intros p q. rewrite R. destruct (Z.eqb_spec a b), (Z.eqb_spec a 0), (Z.eqb_spec b 0); cbn [negb andb]; rewrite ?In_sins; split; intros J.
    all: try (destruct J as [J|(N1 & N2 & N3 & i & E1 & E2)]; [left; exact J|right; repeat split; auto; exists (S i); auto]; fail).
    all: try (destruct J as [J|(N1 & N2 & N3 & [|i] & E1 & E2)]; [left; exact J|cbn in E1, E2; congruence|right; repeat split; auto; exists i; auto]; fail).
    + destruct J as [[J|J]|(N1 & N2 & N3 & i & E1 & E2)]; [injection J as -> ->; right; repeat split; auto; exists 0; auto|left; exact J|right; repeat split; auto; exists (S i); auto].
    + destruct J as [J|(N1 & N2 & N3 & [|i] & E1 & E2)]; [left; right; exact J|cbn in E1, E2; left; left; congruence|right; repeat split; auto; exists i; auto].
Qed.

(** *** C31 *)
Section Label.
  Context (n : nat) (nb : nat -> list nat) (crit : nat -> bool) (Hsym : symmetric_nb nb).
  Context (Hin : forall x y, x < n -> crit x = true -> In y (nb x) -> crit y = true -> y < n).
  Let q := filter crit (seq 0 n).
  Lemma in_q x : In x q <-> x < n /\ crit x = true.
  Proof. unfold q. rewrite filter_In, in_seq. intuition lia. Qed.
  Lemma reach_conn x y : In x q -> reach nb crit x y <-> connected nb q x y.
  Proof.
    intros Hx. split.
    - intros (m & Pm). assert (G : In y q /\ connected nb q x y); [|tauto]. induction Pm as [|m x y z Pm IH Hz Hc]; [split; [exact Hx|apply rst_refl]|]. destruct (IH Hx) as [I1 I2].
      assert (In z q). { apply in_q. apply in_q in I1. split; [|exact Hc]. eapply Hin; [apply I1|apply I1|exact Hz|exact Hc]. } split; [assumption|]. eapply rst_trans; [exact I2|]. apply rst_step. repeat split; auto.
    - apply closed_connected; [exact Hsym| |exists 0; constructor]. intros a b (m & Pm) (L1 & L2 & L3). exists (S m). econstructor; [exact Pm|exact L3|]. apply in_q in L2. tauto.
  Qed.
  Lemma put_all_spec v is_ : forall labels, Forall (fun i => i < length labels) is_ -> exists l', put_all labels is_ v = Ok l' /\ length l' = length labels /\
    forall x, nth_error l' x = if existsb (Nat.eqb x) is_ then Some v else nth_error labels x.
  Proof.
    induction is_ as [|i is_ IH]; intros labels F; cbn [put_all]; [exists labels; auto|]. inversion F as [|? ? Hi F']; subst. rewrite (vput_lt labels i v Hi). cbn [bind].
    destruct (IH (vset labels i v)) as (l' & E & L & N); [rewrite vset_length; exact F'|]. exists l'. split; [exact E|]. split; [rewrite L; apply vset_length|]. intros x. rewrite N. cbn [existsb]. rewrite nth_error_vset by exact Hi.
    destruct (Nat.eqb_spec x i) as [->|Nx]; cbn [orb]; destruct (existsb _ _); try reflexivity; destruct (Nat.eq_dec _ _); congruence.
  Qed.

  Definition lab (labels : list Z) (x : nat) : Z := nth x labels 0%Z.
  Record linv (s : nat) (labels : list Z) (c : Z) : Prop := {
    l_range : forall x, x < n -> (0 <= lab labels x <= c)%Z;
    l_crit : forall x, x < n -> lab labels x <> 0%Z -> crit x = true;
    l_done : forall x, x < s -> x < n -> crit x = true -> lab labels x <> 0%Z;
    l_conn : forall x y, x < n -> y < n -> lab labels x <> 0%Z -> lab labels x = lab labels y <-> connected nb q x y;
    l_used : forall k, (1 <= k <= c)%Z -> exists x, x < n /\ lab labels x = k;
    l_nonneg : (0 <= c)%Z
  }.
  Lemma lab_err labels x : x < length labels -> nth_error labels x = Some (lab labels x).
  Proof. intros L. unfold lab. apply nth_error_nth'. exact L. Qed.

  Lemma label_loop_lemma fuel : n < fuel -> forall k s labels c, s + k = n -> n <= length labels -> linv s labels c ->
    exists c' labels', label_loop fuel nb crit (seq s k) labels c = Ok (c', labels') /\ length labels' = length labels /\ linv n labels' c'.
  Proof.
    intros Hf. induction k as [|k IH]; intros s labels c Es HL I; cbn [seq label_loop].
    - exists c, labels. split; [reflexivity|]. split; [reflexivity|]. replace n with s by lia. exact I.
    - unfold vget. rewrite (lab_err labels s) by lia. cbn [of_option bind].
      destruct ((lab labels s =? 0)%Z && crit s) eqn:B.
      + apply andb_true_iff in B. destruct B as [B1 B2]. apply Z.eqb_eq in B1.
        assert (Hsq : In s q) by (apply in_q; split; [lia|exact B2]).
        destruct (bfs_lemma nb crit s (seq 0 n) fuel B2) as (calls & E & ND & Rch & _).
        { intros x J. apply reach_conn in J; [|exact Hsq]. apply (connected_in nb q s x) in J. apply J in Hsq. apply in_q in Hsq. apply in_seq. lia. }
        { rewrite seq_length. exact Hf. }
        rewrite E. cbn [bind].
        assert (Cl : forall x, In x calls <-> connected nb q s x) by (intros x; rewrite Rch; apply reach_conn; exact Hsq).
        assert (Cq : forall x, In x calls -> x < n /\ crit x = true). { intros x J. apply Cl in J. apply (connected_in nb q s x) in J. apply in_q, J, Hsq. }
        destruct (put_all_spec (c + 1)%Z calls labels) as (l' & E' & L' & N'); [apply Forall_forall; intros x J; apply Cq in J; lia|]. rewrite E'. cbn [bind].
        assert (Lb : forall x, (In x calls /\ lab l' x = (c + 1)%Z) \/ (~ In x calls /\ lab l' x = lab labels x)).
        { intros x. destruct (existsb (Nat.eqb x) calls) eqn:Ex.
          - left. assert (J : In x calls) by (apply existsb_exists in Ex; destruct Ex as (y & Hy & Ey); apply Nat.eqb_eq in Ey; subst; exact Hy). split; [exact J|]. unfold lab. apply nth_error_nth. rewrite N', Ex. reflexivity.
          - right. split; [intros J; assert (existsb (Nat.eqb x) calls = true); [|congruence]; apply existsb_exists; exists x; split; [exact J|apply Nat.eqb_refl]|].
            unfold lab. specialize (N' x). rewrite Ex in N'. rewrite !nth_default_eq || idtac. destruct (nth_error labels x) as [z|] eqn:Z1; [rewrite (nth_error_nth _ _ _ N'), (nth_error_nth _ _ _ Z1); reflexivity|].
            apply nth_error_None in N', Z1. rewrite !nth_overflow by assumption. reflexivity. }
        assert (Z0 : forall x, In x calls -> lab labels x = 0%Z).
        { intros x J. destruct (Z.eq_dec (lab labels x) 0) as [D|D]; [exact D|]. exfalso. assert (Hx := Cq x J). apply Cl in J. apply rst_sym in J. apply (l_conn _ _ _ I x s) in J; [|lia|lia|exact D]. congruence. }
        destruct (IH (S s) l' (c + 1)%Z) as (c' & l2 & E2 & L2 & I2); [lia|lia| |exists c', l2; split; [exact E2|]; split; [lia|exact I2]].
        assert (Hc := l_nonneg _ _ _ I). constructor.
        * intros x Hx. destruct (Lb x) as [[_ ->]|[_ ->]]; [lia|]. assert (G := l_range _ _ _ I x Hx). lia.
        * intros x Hx. destruct (Lb x) as [[J ->]|[_ ->]]; [intros _; apply Cq; exact J|apply (l_crit _ _ _ I); exact Hx].
        * intros x Hx Hn Hc'. destruct (Lb x) as [[J ->]|[J ->]]; [lia|]. apply (l_done _ _ _ I); [|exact Hn|exact Hc']. destruct (Nat.eq_dec x s) as [->|]; [|lia]. exfalso. apply J, Cl, rst_refl.
        * intros x y Hx Hy. destruct (Lb x) as [[Jx ->]|[Jx ->]], (Lb y) as [[Jy ->]|[Jy ->]].
          -- intros _. split; [intros _|reflexivity]. apply Cl in Jx, Jy. eapply rst_trans; [apply rst_sym; exact Jx|exact Jy].
          -- intros _. assert (G := l_range _ _ _ I y Hy). split; [intros Q; lia|]. intros J. exfalso. apply Jy, Cl. apply Cl in Jx. eapply rst_trans; eauto.
          -- intros D. assert (G := l_range _ _ _ I x Hx). split; [intros Q; lia|]. intros J. exfalso. apply Jx, Cl. apply Cl in Jy. eapply rst_trans; [exact Jy|]. apply rst_sym. exact J.
          -- intros D. apply (l_conn _ _ _ I); assumption.
        * intros k' Hk. destruct (Z.eq_dec k' (c + 1)) as [->|Nk]; [exists s; split; [lia|]; destruct (Lb s) as [[_ J]|[J _]]; [exact J|exfalso; apply J, Cl, rst_refl]|].
          destruct (l_used _ _ _ I k' ltac:(lia)) as (x & Hx & Ex). exists x. split; [exact Hx|]. destruct (Lb x) as [[J _]|[_ ->]]; [|exact Ex]. apply Z0 in J. lia.
        * lia.
      + destruct (IH (S s) labels c) as (c' & l2 & E2 & L2 & I2); [lia|lia| |exists c', l2; auto].
        destruct I as [I1 I2 I3 I4 I5 I6]. constructor; auto. intros x Hx Hn Hc'. destruct (Nat.eq_dec x s) as [->|]; [|apply I3; auto; lia]. intros D. rewrite D, Hc' in B. discriminate.
  Qed.
  Lemma label_lemma fuel labels : n < fuel -> n <= length labels -> Forall (fun l => l = 0%Z) labels ->
    exists N labels', labelConnectedComponents fuel n labels nb crit = Ok (N, labels') /\ length labels' = length labels /\
      (forall x, x < n -> (0 <= nth x labels' 0 <= N)%Z) /\
      (forall x, x < n -> nth x labels' 0%Z = 0%Z <-> crit x = false) /\
      (forall x y, x < n -> y < n -> crit x = true -> crit y = true -> nth x labels' 0%Z = nth y labels' 0%Z <-> connected nb q x y) /\
      (forall k, (1 <= k <= N)%Z -> exists x, x < n /\ crit x = true /\ nth x labels' 0%Z = k).
  Proof.
    intros Hf HL H0. destruct (label_loop_lemma fuel Hf n 0 labels 0%Z eq_refl HL) as (c & l & E & L & I).
    { assert (G : forall x, lab labels x = 0%Z). { intros x. unfold lab. destruct (lt_dec x (length labels)); [|apply nth_overflow; lia]. rewrite Forall_forall in H0. apply H0, nth_In. assumption. }
      constructor; try (intros; rewrite G in *; lia); try lia. }
    exists c, l. split; [exact E|]. split; [exact L|]. destruct I as [I1 I2 I3 I4 I5 I6]. unfold lab in *. split; [exact I1|]. split.
    - intros x Hx. split; intros J.
      + destruct (crit x) eqn:C; [|reflexivity]. exfalso. apply (I3 x Hx Hx C J).
      + destruct (Z.eq_dec (nth x l 0%Z) 0) as [D|D]; [exact D|]. rewrite (I2 x Hx D) in J. discriminate.
    - split; [intros x y Hx Hy Cx Cy; apply I4; auto|]. intros k Hk. destruct (I5 k Hk) as (x & Hx & Ex). exists x. split; [exact Hx|]. split; [|exact Ex]. apply I2; [exact Hx|lia].
  Qed.
End Label.
