From Verif Require Import Base UnionFind UnionFindSpec NdArray Graph GraphSpec GraphProofs GraphProofs2.

Section Lin.
  Context {K : Type} `{OrdKey K} (nb : K -> list K) (Hsym : symmetric_nb nb).

  Notation chain := (GraphSpec.chain nb).
  Lemma chain_nil : chain [].
  Proof. intros p x y s E. destruct p; discriminate. Qed.
  Lemma chain_one x : chain [x].
  Proof. intros p a b s E. destruct p as [|? [|? p]]; discriminate. Qed.
  Lemma chain_cons x y l : In y (nb x) -> chain (y :: l) -> chain (x :: y :: l).
  Proof. intros A C p a b s E. destruct p as [|c p]; cbn in E; [injection E as <- <- _; exact A|]. injection E as _ E. eapply C. exact E. Qed.
  Lemma chain_tl x l : chain (x :: l) -> chain l.
  Proof. intros C p a b s E. apply (C (x :: p) a b s). cbn. rewrite E. reflexivity. Qed.
  Lemma chain_app l1 x l2 : chain (l1 ++ [x]) -> chain (x :: l2) -> chain (l1 ++ x :: l2).
  Proof.
    intros C1 C2. induction l1 as [|a l1 IH]; [exact C2|]. cbn in *. assert (I := IH (chain_tl _ _ C1)). destruct l1 as [|b l1]; cbn in *.
    - apply chain_cons; [|exact I]. apply (C1 [] a x []). reflexivity.
    - apply chain_cons; [|exact I]. apply (C1 [] a b (l1 ++ [x])). reflexivity.
  Qed.
  Lemma chain_rev l : chain l -> chain (rev l).
  Proof.
    intros C p x y s E. apply Hsym. apply (C (rev s) y x (rev p)). apply (f_equal (@rev K)) in E. rewrite rev_involutive in E. rewrite E, rev_app_distr. cbn. rewrite <- !app_assoc. reflexivity.
  Qed.

  Context (cc c : list K).
  Context (Hc : forall x, In x c -> In x cc /\ length (valid_neighbors cc nb x) <= 2).

  Lemma three x u w y : In x c -> In u (nb x) -> In w (nb x) -> In y (nb x) -> In u cc -> In w cc -> In y cc -> u <> x -> w <> x -> y <> x -> u <> w -> y = u \/ y = w.
  Proof.
    intros Hx Nu Nw Ny Cu Cw Cy Xu Xw Xy D. destruct (kdec y u) as [|Du]; [auto|]. destruct (kdec y w) as [|Dw]; [auto|]. exfalso.
    destruct (Hc x Hx) as [_ L]. assert (length [u; w; y] <= length (valid_neighbors cc nb x)); [|cbn in *; lia].
    apply NoDup_incl_length; [repeat constructor; cbn; intuition congruence|].
    assert (V : forall z, In z (nb x) -> In z cc -> z <> x -> In z (valid_neighbors cc nb x)).
    { intros z A B C. unfold valid_neighbors. apply filter_In. split; [exact A|]. apply andb_true_iff. split; [apply negb_true_iff, keqb_neq; exact C|apply smem_In; exact B]. }
    intros z [<-|[<-|[<-|[]]]]; auto.
  Qed.

  (** inner nodes of a chain have no further neighbour in [c] *)
  Lemma interior l p u x w s : chain l -> NoDup l -> incl l c -> l = p ++ u :: x :: w :: s -> forall y, In y (nb x) -> In y c -> y <> x -> In y l.
  Proof.
    intros C N I E y Hy Hyc Dy. assert (A1 : In x (nb u)) by (apply (C p u x (w :: s)); exact E). assert (A2 : In w (nb x)) by (apply (C (p ++ [u]) x w s); rewrite E, <- app_assoc; reflexivity).
    assert (Iu : In u l) by (rewrite E; apply in_app_iff; cbn; auto). assert (Ix : In x l) by (rewrite E; apply in_app_iff; cbn; auto). assert (Iw : In w l) by (rewrite E; apply in_app_iff; cbn; auto).
    assert (N' : NoDup (u :: x :: w :: s)). { rewrite E in N. clear - N. induction p as [|a p IH]; [exact N|]. inversion N; subst. auto. }
    inversion N' as [|? ? N1 N2]; subst. inversion N2 as [|? ? N3 N4]; subst. cbn in N1, N3.
    destruct (three x u w y) as [->| ->]; auto; try (apply Hc, I; assumption); try (apply Hc; assumption); intros ->; tauto.
  Qed.

  Lemma walk_spec fuel : forall cur visited, In cur c -> ~ In cur visited -> sorted visited -> incl visited c -> length c < fuel + length visited ->
    exists l v, walk fuel nb c cur visited = Ok (cur :: l, v) /\ NoDup (cur :: l) /\ (forall x, In x (cur :: l) -> ~ In x visited) /\ incl (cur :: l) c /\ chain (cur :: l) /\
      sorted v /\ (forall x, In x v <-> In x visited \/ In x (cur :: l)) /\
      (forall y, In y (nb (last (cur :: l) cur)) -> In y c -> y <> last (cur :: l) cur -> In y v).
  Proof.
    induction fuel as [|fuel IH]; intros cur visited Hcur Hn Sv Iv Hf.
    - exfalso. assert (length visited <= length c) by (apply NoDup_incl_length; [apply sorted_NoDup; exact Sv|exact Iv]). lia.
    - cbn [walk]. rewrite (proj2 (smem_not_In cur visited) Hn). destruct (find _ (nb cur)) as [n|] eqn:F.
      + apply find_some in F. destruct F as [Fn F]. apply andb_true_iff in F. destruct F as [F F3]. apply andb_true_iff in F. destruct F as [F1 F2].
        apply negb_true_iff, keqb_neq in F1. apply smem_In in F2. apply negb_true_iff, smem_not_In in F3.
        destruct (IH n (sins cur visited) F2 F3 (sorted_sins _ _ Sv)) as (l & v & E & N & D & I & C & S' & V & L).
        { intros x Hx. apply In_sins in Hx. destruct Hx as [->|Hx]; auto. }
        { assert (length (sins cur visited) = S (length visited)); [|lia]. change (S (length visited)) with (length (cur :: visited)). apply Permutation_length. apply NoDup_Permutation.
          - apply sorted_NoDup, sorted_sins, Sv.
          - constructor; [exact Hn|apply sorted_NoDup; exact Sv].
          - intros x. rewrite In_sins. cbn. intuition. }
        rewrite E. cbn [bind app]. exists (n :: l), v. split; [reflexivity|]. split; [constructor; [intros J; apply (D cur J); apply In_sins; auto|exact N]|].
        split; [intros x [<-|Hx]; [exact Hn|]; intros J; apply (D x Hx); apply In_sins; auto|]. split; [intros x [<-|Hx]; [exact Hcur|apply I; exact Hx]|].
        split; [apply chain_cons; [exact Fn|exact C]|]. split; [exact S'|]. split.
        * intros x. rewrite V, In_sins. cbn. intuition.
        * intros y. replace (last (cur :: n :: l) cur) with (last (n :: l) n); [apply L|]. clear. cbn [last]. revert n. induction l as [|a l IH]; intros n; [reflexivity|]. cbn [last] in *. destruct l; [reflexivity|]. apply (IH n).
      + exists [], (sins cur visited). split; [reflexivity|]. split; [repeat constructor; intros []|]. split; [intros x [<-|[]]; exact Hn|]. split; [intros x [<-|[]]; exact Hcur|].
        split; [apply chain_one|]. split; [apply sorted_sins; exact Sv|]. split; [intros x; rewrite In_sins; cbn; intuition|]. cbn [last]. intros y Hy Hyc Dy.
        assert (G := find_none _ _ F y Hy). cbn beta in G. rewrite (proj2 (keqb_neq y cur) Dy), (proj2 (smem_In y c) Hyc) in G. cbn [negb andb] in G. apply negb_false_iff in G. apply smem_In. exact G.
  Qed.
  Lemma walk_stay fuel cur visited : In cur visited -> (forall y, In y (nb cur) -> In y c -> y <> cur -> In y visited) -> walk (S fuel) nb c cur visited = Ok ([], visited).
  Proof.
    intros Hv Cl. cbn [walk]. rewrite (proj2 (smem_In cur visited) Hv). destruct (find _ (nb cur)) as [n|] eqn:F; [|reflexivity]. exfalso. apply find_some in F. destruct F as [Fn F].
    apply andb_true_iff in F. destruct F as [F F3]. apply andb_true_iff in F. destruct F as [F1 F2]. apply negb_true_iff, keqb_neq in F1. apply smem_In in F2. apply negb_true_iff, smem_not_In in F3. apply F3. apply Cl; auto.
  Qed.

  Context (ordinary : list K).
  Context (Ho : incl c ordinary).
  Context (Hconn : forall x y, In x c -> In y c -> connected nb ordinary x y).
  Context (Hfull : forall x y, In x c -> In y (nb x) -> In y ordinary -> In y c).

  Lemma trace_spec fuel : c <> [] -> sorted c -> length c < fuel ->
    exists l, trace_component fuel nb ordinary c = Ok l /\ NoDup l /\ (forall x, In x l <-> In x c) /\ chain l.
  Proof.
    intros Hne Sc Hf. unfold trace_component. destruct c as [|seed c'] eqn:Ec; [congruence|]. rewrite <- Ec in *. clear Hne. assert (Hseed : In seed c) by (rewrite Ec; left; reflexivity).
    set (sn := sof _).
    assert (Isn : forall y, In y sn <-> In y (nb seed) /\ In y c /\ y <> seed).
    { intros y. unfold sn. rewrite In_sof, filter_In, andb_true_iff, negb_true_iff, keqb_neq, smem_In. split; intros J; [|intuition]. destruct J as (J1 & J2 & J3). split; [exact J1|]. split; [eapply Hfull; eauto|exact J2]. }
    assert (Lsn : length sn <= 2).
    { destruct (Hc seed Hseed) as [_ L]. etransitivity; [|exact L]. apply NoDup_incl_length; [apply sorted_NoDup, sorted_sof|]. intros y Hy. apply Isn in Hy. destruct Hy as (A & B & C). unfold valid_neighbors. apply filter_In. split; [exact A|]. apply andb_true_iff. split; [apply negb_true_iff, keqb_neq; exact C|apply smem_In, Hc, B]. }
    assert (Ssn : sorted sn) by apply sorted_sof.
    (* a set of nodes of c closed under neighbours in c is c *)
    assert (Closed : forall l, incl l c -> In seed l -> (forall x y, In x l -> In y (nb x) -> In y c -> y <> x -> In y l) -> forall x, In x l <-> In x c).
    { intros l I Hs Cl x. split; [apply I|]. intros Hx. assert (G : forall y, connected nb ordinary seed y -> In y l); [|apply G, Hconn; assumption].
      apply (closed_connected nb ordinary Hsym); [|exact Hs]. intros a b Ha (L1 & L2 & L3). destruct (kdec b a) as [->|D]; [exact Ha|]. apply (Cl a b Ha L3); [|exact D]. eapply Hfull; [apply I; exact Ha|exact L3|exact L2]. }
    clearbody sn. destruct sn as [|a sn].
    - exists [seed]. split; [reflexivity|]. split; [repeat constructor; intros []|]. split; [|apply chain_one]. apply Closed; [intros x [<-|[]]; exact Hseed|left; reflexivity|]. intros x y [<-|[]] A B D. exfalso. apply (proj2 (Isn y)). auto.
    - assert (Ha : In a (nb seed) /\ In a c /\ a <> seed) by (apply Isn; left; reflexivity). destruct Ha as (Ha1 & Ha2 & Ha3).
      destruct (walk_spec fuel a [seed]) as (l0 & v0 & E0 & N0 & D0 & I0 & C0 & Sv0 & V0 & L0); [exact Ha2|cbn; intuition|repeat constructor|intros x [<-|[]]; exact Hseed|cbn; lia|].
      rewrite E0. cbn [bind].
      assert (NT0 : NoDup (seed :: a :: l0)) by (constructor; [intros J; apply (D0 seed J); left; reflexivity|exact N0]).
      assert (IT0 : incl (seed :: a :: l0) c) by (intros x [<-|J]; [exact Hseed|apply I0; exact J]).
      assert (CT0 : chain (seed :: a :: l0)) by (apply chain_cons; auto).
      assert (V0' : forall x, In x v0 <-> In x (seed :: a :: l0)) by (intros x; rewrite V0; cbn; tauto).
      (* every node other than the seed has its neighbours in T0 *)
      assert (B0 : forall x y, In x (a :: l0) -> In y (nb x) -> In y c -> y <> x -> In y (seed :: a :: l0)).
      { intros x y Hx Hy Hyc Dy. apply in_split in Hx. destruct Hx as (p & s & Ex). destruct s as [|w s].
        - assert (last (a :: l0) a = x) by (rewrite Ex; apply last_last). apply V0'. apply L0; congruence.
        - destruct (@exists_last _ (seed :: p)) as (p' & u & Ep); [discriminate|]. eapply (interior (seed :: a :: l0) p' u x w s); auto. rewrite Ex. change (seed :: p ++ x :: w :: s) with ((seed :: p) ++ x :: w :: s). rewrite Ep, <- app_assoc. reflexivity. }
      destruct sn as [|b sn].
      + cbn [length Nat.eqb]. exists (seed :: a :: l0). split; [reflexivity|]. split; [exact NT0|]. split; [|exact CT0]. apply Closed; [exact IT0|left; reflexivity|].
        intros x y [<-|Hx]; [|apply B0; exact Hx]. intros A B D. assert (J : In y [a]) by (apply Isn; auto). destruct J as [<-|[]]. right. left. reflexivity.
      + assert (sn = []) as -> by (destruct sn; [reflexivity|cbn in Lsn; lia]). cbn [length Nat.eqb last].
        assert (Hb : In b (nb seed) /\ In b c /\ b <> seed) by (apply Isn; right; left; reflexivity). destruct Hb as (Hb1 & Hb2 & Hb3).
        assert (Sd : forall y, In y (nb seed) -> In y c -> y <> seed -> y = a \/ y = b). { intros y A B D. assert (J : In y [a; b]) by (apply Isn; auto). cbn in J. intuition. }
        destruct (smem b v0) eqn:M.
        * apply smem_In in M. destruct fuel as [|fuel]; [lia|]. rewrite (walk_stay fuel b v0 M).
          2: { intros y Hy Hyc Dy. apply V0'. apply V0' in M. destruct M as [M|M]; [congruence|]. eapply B0; eauto. }
          cbn [bind rev app]. exists (seed :: a :: l0). split; [reflexivity|]. split; [exact NT0|]. split; [|exact CT0]. apply Closed; [exact IT0|left; reflexivity|].
          intros x y [<-|Hx]; [|apply B0; exact Hx]. intros A B D. destruct (Sd y A B D) as [->| ->]; [right; left; reflexivity|]. apply V0'. exact M.
        * apply smem_not_In in M.
          destruct (walk_spec fuel b v0) as (l1 & v1 & E1 & N1 & D1 & I1 & C1 & Sv1 & V1 & L1); [exact Hb2|exact M|exact Sv0|intros x J; apply IT0, V0', J|lia|].
          rewrite E1. cbn [bind]. exists (rev (b :: l1) ++ seed :: a :: l0). set (T := rev (b :: l1) ++ seed :: a :: l0).
          assert (InT : forall x, In x T <-> In x (b :: l1) \/ In x (seed :: a :: l0)) by (intros x; unfold T; rewrite in_app_iff, <- in_rev; reflexivity).
          assert (NT : NoDup T).
          { unfold T. assert (Nr : NoDup (rev (b :: l1))) by (apply NoDup_rev; exact N1). assert (Dj : forall x, In x (rev (b :: l1)) -> ~ In x (seed :: a :: l0)) by (intros x J; apply in_rev in J; intros J'; apply V0' in J'; apply (D1 x J J')).
            revert Nr Dj. generalize (rev (b :: l1)). induction l as [|z l IH]; intros Nr Dj; cbn; [exact NT0|]. inversion Nr; subst. constructor; [rewrite in_app_iff; intros [J|J]; [tauto|]; apply (Dj z); [left; reflexivity|exact J]|]. apply IH; [assumption|]. intros x J. apply Dj. right. exact J. }
          assert (IT : incl T c) by (intros x J; apply InT in J; destruct J as [J|J]; auto).
          assert (CT : chain T).
          { unfold T. apply chain_app; [|exact CT0]. change [seed] with (rev [seed]). rewrite <- rev_app_distr. apply chain_rev. cbn [app]. apply chain_cons; [exact Hb1|exact C1]. }
          split; [reflexivity|]. split; [exact NT|]. split; [|exact CT]. apply Closed; [exact IT|apply InT; right; left; reflexivity|].
          intros x y Hx Hy Hyc Dy. apply InT in Hx. destruct Hx as [Hx|[<-|Hx]].
          -- apply in_split in Hx. destruct Hx as (p & s & Ex). destruct s as [|w s].
             ++ assert (last (b :: l1) b = x) by (rewrite Ex; apply last_last). assert (J : In y v1) by (apply L1; congruence). apply V1 in J. apply InT. rewrite <- V0'. tauto.
             ++ destruct (@exists_last _ (seed :: p)) as (p' & u & Ep); [discriminate|].
                assert (ET : T = rev s ++ w :: x :: u :: rev p' ++ a :: l0).
                { assert (T = rev (seed :: b :: l1) ++ a :: l0) as ->. { unfold T. change (rev (seed :: b :: l1)) with (rev (b :: l1) ++ [seed]). rewrite <- app_assoc. reflexivity. }
                  rewrite Ex. change (seed :: p ++ x :: w :: s) with ((seed :: p) ++ x :: w :: s). rewrite Ep, !rev_app_distr. cbn. rewrite <- !app_assoc. reflexivity. }
                eapply (interior T (rev s) w x u (rev p' ++ a :: l0)); auto.
          -- destruct (Sd y Hy Hyc Dy) as [->| ->]; apply InT; cbn; auto.
          -- apply InT. right. eapply B0; eauto.
  Qed.
End Lin.

Section Lin2.
  Context {K : Type} `{OrdKey K} (nb : K -> list K) (Hsym : symmetric_nb nb).
  Definition ordinary_nodes (cc : list K) : list K := filter (fun x => length (valid_neighbors cc nb x) <=? 2) cc.

  Lemma mapM_ex {A B} (P : A -> B -> Prop) (f : A -> res B) l : (forall a, In a l -> exists b, f a = Ok b /\ P a b) -> exists bs, mapM f l = Ok bs /\ Forall2 P l bs.
  Proof.
    induction l as [|a l IH]; intros Hl; cbn [mapM]; [exists []; split; [reflexivity|constructor]|]. destruct (Hl a (or_introl eq_refl)) as (b & E & Pb). rewrite E. cbn [bind].
    destruct IH as (bs & E' & F); [intros x Hx; apply Hl; right; exact Hx|]. rewrite E'. cbn [bind]. exists (b :: bs). split; [reflexivity|]. constructor; assumption.
  Qed.

  Lemma linear_lemma cc fuel : sorted cc -> length cc < fuel ->
    exists ls, connected_component_to_linear_components fuel cc nb = Ok ls /\
      Permutation (concat ls) (ordinary_nodes cc) /\
      (forall l, In l ls -> l <> [] /\ chain nb l) /\
      (forall l x y, In l ls -> In x l -> In y (ordinary_nodes cc) -> In y l <-> connected nb (ordinary_nodes cc) x y).
  Proof.
    intros Sc Hf. unfold connected_component_to_linear_components. destruct cc as [|z cc'] eqn:Ecc.
    { exists []. split; [reflexivity|]. split; [constructor|]. split; [intros ? []|intros ? ? ? []]. }
    rewrite <- Ecc in *. cbn zeta.
    set (special := filter (fun x => 2 <? length (valid_neighbors cc nb x)) cc). set (ord := filter _ cc).
    assert (Eo : ord = ordinary_nodes cc). { unfold ord, ordinary_nodes. apply filter_ext. intros x. rewrite Nat.leb_antisym. reflexivity. }
    destruct (cca_lemma (fun x => filter (fun n => negb (negb (smem n cc) || smem n special)) (nb x)) ord) as (comps & E & P). rewrite E. cbn [bind].
    assert (Io : forall x, In x ord <-> In x cc /\ length (valid_neighbors cc nb x) <= 2). { intros x. rewrite Eo. unfold ordinary_nodes. rewrite filter_In, Nat.leb_le. reflexivity. }
    assert (Is : forall x, In x special <-> In x cc /\ 2 < length (valid_neighbors cc nb x)). { intros x. unfold special. rewrite filter_In, Nat.ltb_lt. reflexivity. }
    assert (P' : is_partition ord (connected nb ord) comps).
    { eapply part_ext; [|exact P]. intros x y. split; apply crst_ext; intros a b (L1 & L2 & L3); apply rst_step; repeat split; auto.
      - apply filter_In in L3. tauto.
      - apply filter_In. split; [exact L3|]. apply Io in L2. rewrite (proj2 (smem_In b cc)) by tauto. cbn [negb orb]. apply negb_true_iff, smem_not_In. rewrite Is. lia. }
    clear P E. assert (Len : length ord <= length cc). { apply NoDup_incl_length; [apply NoDup_filter, sorted_NoDup, Sc|]. intros x J. apply Io in J. tauto. }
    assert (PP := P'). destruct P' as (P1 & P2 & P3 & P4 & P5).
    destruct (mapM_ex (fun c l => NoDup l /\ (forall x, In x l <-> In x c) /\ chain nb l) (trace_component fuel nb ord) comps) as (ls & E & F).
    { intros c Hc. apply (trace_spec nb Hsym cc c).
      - intros x Hx. apply Io. apply P4. eauto.
      - intros x Hx. apply P4. eauto.
      - intros x y Hx Hy. apply (P5 c x Hc Hx y). exact Hy.
      - intros x y Hx Hy Oy. apply (P5 c x Hc Hx y). split; [exact Oy|]. apply rst_step. repeat split; [apply P4; eauto|exact Oy|exact Hy].
      - apply P1; exact Hc.
      - apply P2; exact Hc.
      - assert (length c <= length ord); [|lia]. apply NoDup_incl_length; [apply sorted_NoDup, P2, Hc|]. intros x Hx. apply P4. eauto. }
    exists ls. split; [exact E|]. rewrite <- Eo.
    assert (Fin : forall l, In l ls -> exists c, In c comps /\ (NoDup l /\ (forall x, In x l <-> In x c) /\ chain nb l)).
    { clear - F. intros l J. induction F as [|c l' cs ls' Rc F IH]; [destruct J|]. destruct J as [->|J]; [exists c; split; [left; reflexivity|exact Rc]|]. destruct (IH J) as (c' & A & B). exists c'. split; [right; exact A|exact B]. }
    assert (Fout : forall c, In c comps -> exists l, In l ls /\ (NoDup l /\ (forall x, In x l <-> In x c) /\ chain nb l)).
    { clear - F. intros l J. induction F as [|c l' cs ls' Rc F IH]; [destruct J|]. destruct J as [->|J]; [exists l'; split; [left; reflexivity|exact Rc]|]. destruct (IH J) as (c' & A & B). exists c'. split; [right; exact A|exact B]. }
    split; [|split].
    - apply NoDup_Permutation.
      + assert (ND : NoDup comps) by (eapply part_nodup; exact PP). clear - F ND P3. induction F as [|c l cs ls (N & Q & _) F IH]; [constructor|]. cbn [concat].
        assert (Dj : forall x, In x l -> ~ In x (concat ls)).
        { intros x Hx J. apply in_concat in J. destruct J as (l' & Hl' & Hx'). apply In_nth_error in Hl'. destruct Hl' as [i Hi]. assert (G : exists c', nth_error cs i = Some c' /\ In x c').
          { clear - F Hi Hx'. revert i Hi. induction F as [|c l cs ls (N & Q & _) F IH]; intros i Hi; [destruct i; discriminate|]. destruct i as [|i]; cbn in *; [injection Hi as ->; exists c; split; [reflexivity|apply Q; exact Hx']|apply IH; exact Hi]. }
          destruct G as (c' & G1 & G2). assert (0 = S i); [|discriminate]. apply (P3 0 (S i) c c' x); [reflexivity|exact G1|apply Q; exact Hx|exact G2]. }
        inversion ND; subst. assert (IHn : NoDup (concat ls)). { apply IH; [intros i j S T x Hi Hj Hx Hy; assert (Datatypes.S i = Datatypes.S j); [eapply P3; [exact Hi|exact Hj|exact Hx|exact Hy]|congruence]|assumption]. }
        clear - N Dj IHn. induction l as [|a l IH]; cbn; [exact IHn|]. inversion N; subst. constructor; [rewrite in_app_iff; intros [J|J]; [tauto|]; apply (Dj a); [left; reflexivity|exact J]|]. apply IH; [assumption|]. intros x J. apply Dj. right. exact J.
      + unfold ord. apply NoDup_filter, sorted_NoDup, Sc.
      + intros x. rewrite in_concat, P4. split.
        * intros (l & Hl & Hx). destruct (Fin l Hl) as (c & Hc & _ & Q & _). exists c. split; [exact Hc|]. apply Q. exact Hx.
        * intros (c & Hc & Hx). destruct (Fout c Hc) as (l & Hl & _ & Q & _). exists l. split; [exact Hl|]. apply Q. exact Hx.
    - intros l Hl. destruct (Fin l Hl) as (c & Hc & _ & Q & C). split; [|exact C]. intros ->. apply (P1 c Hc). destruct c as [|x c]; [reflexivity|]. exfalso. apply (Q x). left. reflexivity.
    - intros l x y Hl Hx Hy. destruct (Fin l Hl) as (c & Hc & _ & Q & C). rewrite Q. apply Q in Hx. rewrite (P5 c x Hc Hx y). tauto.
  Qed.
  Lemma is_loop_lemma (l : list K) : is_loop l nb = true <-> exists x m y, l = x :: m ++ [y] /\ In y (nb x).
  Proof.
    unfold is_loop. destruct l as [|x [|z l]].
    - split; [discriminate|]. intros (? & ? & ? & E & _). discriminate.
    - split; [discriminate|]. intros (? & m & ? & E & _). injection E as _ E. destruct m; discriminate.
    - destruct (@exists_last _ (z :: l)) as (m & y & E); [discriminate|]. rewrite E, smem_In. change (x :: m ++ [y]) with ((x :: m) ++ [y]). rewrite last_last. split.
      + intros J. exists x, m, y. auto.
      + intros (x' & m' & y' & E' & J). injection E' as -> E'. apply app_inj_tail in E'. destruct E' as [-> ->]. exact J.
  Qed.
End Lin2.
