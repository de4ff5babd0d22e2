(** From detected points to curves. *)
From Coq Require Import QArith Qabs.
From Verif Require Import Base UnionFind UnionFindSpec UnionFindProofs Lattice NdArray NdArrayProofs2 ListOrd Parallel RegularMesh Duf DufProofs Graph GraphSpec GraphProofs GraphProofs2 GraphCurves
  FeatureCurve FeatureCurveSet CpTracker.
Local Close Scope Q_scope. Local Open Scope Z_scope. Local Open Scope list_scope.

Lemma mapM_ext_in {A B} (f g : A -> res B) l : (forall x, In x l -> f x = g x) -> mapM f l = mapM g l.
Proof. induction l as [|x l IH]; intros E; cbn [mapM]; [reflexivity|]. rewrite (E x (or_introl eq_refl)), IH by (intros; apply E; right; assumption). reflexivity. Qed.

Section Congruence.
  Context {K : Type} `{OrdKey K} (nb nb' : K -> list K).
  Lemma walk_congr c fuel : (forall x, In x c -> nb x = nb' x) -> forall cur v, In cur c -> walk fuel nb c cur v = walk fuel nb' c cur v.
  Proof.
    intros A. induction fuel as [|fuel IH]; intros cur v Hc; cbn [walk]; [reflexivity|]. destruct (if smem cur v then _ else _) as [p v']. rewrite <- (A cur Hc).
    destruct (find _ (nb cur)) as [n|] eqn:F; [|reflexivity]. apply find_some in F as [_ F]. apply andb_true_iff in F as [F _]. apply andb_true_iff in F as [_ F]. apply smem_In in F. rewrite (IH n v' F). reflexivity.
  Qed.
  Lemma cca_congr q : (forall x, In x q -> nb x = nb' x) -> extract_connected_components nb q = extract_connected_components nb' q.
  Proof.
    intros A. unfold extract_connected_components.
    assert (G : forall l UF, incl l q -> cca_loop UF nb l = cca_loop UF nb' l); [|rewrite (G q _ (incl_refl q)); reflexivity].
    induction l as [|x l IH]; intros UF I; cbn [cca_loop]; [reflexivity|]. rewrite (A x (I x (or_introl eq_refl))). destruct (cca_unite UF x (nb' x)); cbn [bind]; try reflexivity. apply IH. intros y Hy. apply I. right. exact Hy.
  Qed.
End Congruence.
Lemma linear_congr {K} `{OrdKey K} (nb nb' : K -> list K) cc fuel : (forall x, In x cc -> nb x = nb' x) ->
  connected_component_to_linear_components fuel cc nb = connected_component_to_linear_components fuel cc nb'.
Proof.
  intros A. unfold connected_component_to_linear_components. destruct cc as [|z cc0] eqn:Ez; [reflexivity|]. rewrite <- Ez in *. cbn zeta.
  assert (V : forall x, In x cc -> valid_neighbors cc nb x = valid_neighbors cc nb' x) by (intros x Hx; unfold valid_neighbors; rewrite (A x Hx); reflexivity).
  assert (E1 : forall f : nat -> bool, filter (fun x => f (length (valid_neighbors cc nb x))) cc = filter (fun x => f (length (valid_neighbors cc nb' x))) cc).
  { intros f. apply filter_ext_in. intros x Hx. rewrite (V x Hx). reflexivity. }
  rewrite (E1 (fun m => (2 <? m)%nat)), (E1 (fun m => negb (2 <? m)%nat)). set (sp := filter (fun x => (2 <? length _)%nat) cc). set (ord := filter _ cc).
  assert (Io : incl ord cc) by (intros x Hx; apply filter_In in Hx; tauto).
  rewrite (cca_congr _ (fun x => filter (fun n => negb (negb (smem n cc) || smem n sp)) (nb' x)) ord) by (intros x Hx; rewrite (A x (Io x Hx)); reflexivity).
  destruct (cca_lemma (fun x => filter (fun n => negb (negb (smem n cc) || smem n sp)) (nb' x)) ord) as (comps & E & P). rewrite E. cbn [bind]. destruct P as (P1 & _ & _ & P4 & P5).
  apply mapM_ext_in. intros c Hc. unfold trace_component. destruct c as [|seed c0] eqn:Ec; [reflexivity|]. rewrite <- Ec in *.
  assert (Ic : incl c ord) by (intros x Hx; apply P4; eauto). assert (Hs : In seed c) by (rewrite Ec; left; reflexivity).
  rewrite (A seed (Io _ (Ic _ Hs))). destruct (sof _) as [|f sn] eqn:Es; [reflexivity|].
  assert (Hsn : forall x, In x (f :: sn) -> In x c).
  { intros x Hx. rewrite <- Es in Hx. apply In_sof, filter_In in Hx as [Hx Hb]. apply andb_true_iff in Hb as [_ Hb]. apply smem_In in Hb. apply (P5 c seed Hc Hs x). split; [exact Hb|]. apply rst_step. split; [apply Ic, Hs|]. split; [exact Hb|].
    apply filter_In. split; [exact Hx|]. rewrite (proj2 (smem_In x cc)) by (apply Io; exact Hb). cbn [negb orb]. apply negb_true_iff, smem_not_In. intros Q. unfold sp, ord in *. apply filter_In in Q as [_ Q]. apply filter_In in Hb as [_ Hb]. rewrite Q in Hb. discriminate. }
  assert (AC : forall x, In x c -> nb x = nb' x) by (intros x Hx; apply A, Io, Ic, Hx).
  rewrite (walk_congr nb nb' c fuel AC f [seed]) by (apply Hsn; left; reflexivity). destruct (walk fuel nb' c f [seed]) as [[l0 v0]| |]; cbn [bind]; try reflexivity.
  destruct (length (f :: sn) =? 1)%nat; [reflexivity|]. rewrite (walk_congr nb nb' c fuel AC (last (f :: sn) f) v0); [reflexivity|]. apply Hsn. destruct (@exists_last _ (f :: sn)) as (l & y & El); [discriminate|]. rewrite El, last_last. apply in_or_app. right. left. reflexivity.
Qed.

Lemma part_concat {K} `{OrdKey K} es R sets : NoDup es -> is_partition es R sets -> Permutation (concat sets) es.
Proof.
  intros ND P. assert (NDs := part_nodup es R sets P). destruct P as (P1 & P2 & P3 & P4 & P5). apply NoDup_Permutation.
  - clear -P2 P3. induction sets as [|a sets IH]; [constructor|]. cbn [concat].
    assert (Na : NoDup a) by (apply sorted_NoDup, P2; left; reflexivity).
    assert (Nc : NoDup (concat sets)). { apply IH; [intros; apply P2; right; assumption|]. intros i j A B x Hi Hj Hx Hy. assert (Datatypes.S i = Datatypes.S j); [|congruence]. eapply P3; [exact Hi|exact Hj|exact Hx|exact Hy]. }
    assert (Dj : forall x, In x a -> ~ In x (concat sets)).
    { intros x Hx Q. apply in_concat in Q as (b & Hb & Hxb). apply In_nth_error in Hb as [i Hi]. assert (0 = Datatypes.S i)%nat; [|discriminate]. apply (P3 0%nat (Datatypes.S i) a b x); auto. }
    clear -Na Nc Dj. induction a as [|x a IH]; [exact Nc|]. inversion Na; subst. cbn. constructor; [rewrite in_app_iff; intros [Q|Q]; [contradiction|apply (Dj x); [left; reflexivity|exact Q]]|]. apply IH; [assumption|]. intros y Hy. apply Dj. right. exact Hy.
  - exact ND.
  - intros x. rewrite in_concat, P4. reflexivity.
Qed.

Lemma perm_filter {A} (f : A -> bool) l l' : Permutation l l' -> Permutation (filter f l) (filter f l').
Proof.
  induction 1 as [|x l l' P IH|x y l|l l' l'' P1 IH1 P2 IH2]; cbn; [constructor| | |etransitivity; eauto].
  - destruct (f x); [apply perm_skip|]; exact IH.
  - destruct (f x), (f y); try reflexivity. apply perm_swap.
Qed.

Section Traces.
  Variables (nb nbr : key -> list key) (dm : list (key * fpoint)).
  Hypotheses (MD : msorted dm) (Agree : forall x, In x (mkeys dm) -> nb x = nbr x) (Sym : symmetric_nb nbr).
  Let q := mkeys dm.
  (** the points with at most two neighbours among the points *)
  Definition ordinary_pts : list key := filter (fun x => (degree nb q x <=? 2)%nat) q.
  (** [cv] is the curve through the faces [l] *)
  Definition curve_through (l : list key) (cv : curve) : Prop :=
    Forall2 (fun k p => mfind k dm = Some p) l (pts cv) /\ loop cv = is_loop l nb /\ complete cv = false /\ cid cv = None /\ cstats cv = None /\ ctype cv = 0.
  Definition traces (ls : list (list key)) (cs : list curve) : Prop :=
    Forall2 curve_through ls cs /\ Permutation (concat ls) ordinary_pts /\ (forall l, In l ls -> l <> [] /\ chain nb l) /\
    (forall l x y, In l ls -> In x l -> In y ordinary_pts -> In y l <-> connected nb ordinary_pts x y).

  Lemma q_sorted : sorted q. Proof. exact MD. Qed.
  Lemma valid_q S x : (forall y, In y S <-> In y q /\ connected nbr q x y) -> In x S -> valid_neighbors S nbr x = valid_neighbors q nb x.
  Proof.
    intros P Hx. assert (Hq : In x q) by (apply P in Hx; tauto). unfold valid_neighbors. rewrite (Agree x Hq). apply filter_ext_in. intros y Hy. destruct (negb (keqb y x)); [|reflexivity]. cbn [andb].
    destruct (smem y q) eqn:E.
    - apply smem_In in E. apply smem_In. apply P. split; [exact E|]. apply rst_step. repeat split; auto.
    - apply smem_not_In in E. apply smem_not_In. intros Q. apply P in Q. tauto.
  Qed.
  Lemma curves_lemma sets (dms : list (list (key * fpoint))) : is_partition q (connected nbr q) sets ->
    Forall2 (fun S m => forall k, In k S -> mfind k m = mfind k dm) sets dms ->
    exists css ls, mapM (fun sm => component_curves nb (snd sm) (fst sm)) (combine sets dms) = Ok css /\ traces ls (concat css).
  Proof.
    intros PT FM. assert (PC := part_concat q _ sets (sorted_NoDup _ q_sorted) PT). assert (PT' := PT). destruct PT as (P1 & P2 & P3 & P4 & P5).
    assert (Iq : forall S x, In S sets -> In x S -> In x q) by (intros S x HS Hx; apply P4; eauto).
    assert (Ord : forall S x, In S sets -> In x S -> In x (ordinary_nodes nbr S) <-> In x ordinary_pts).
    { intros S x HS Hx. unfold ordinary_nodes, ordinary_pts. rewrite !filter_In. change (degree nb q x) with (length (valid_neighbors q nb x)). rewrite (valid_q S x (P5 S x HS Hx) Hx). assert (Hq := Iq S x HS Hx). tauto. }
    assert (Each : forall S m, In (S, m) (combine sets dms) -> exists cs ls, component_curves nb m S = Ok cs /\ Forall2 curve_through ls cs /\ Permutation (concat ls) (ordinary_nodes nbr S) /\
      (forall l, In l ls -> l <> [] /\ chain nb l) /\ (forall l x y, In l ls -> In x l -> In y ordinary_pts -> In y l <-> connected nb ordinary_pts x y)).
    { intros S m HSm. assert (HS : In S sets) by (apply in_combine_l in HSm; exact HSm).
      assert (Hm : forall k, In k S -> mfind k m = mfind k dm).
      { clear -FM HSm. induction FM as [|S' m' sets dms HF FM IH]; cbn in HSm; [destruct HSm|]. destruct HSm as [E|HSm]; [injection E as <- <-; exact HF|auto]. }
      destruct (linear_lemma nbr Sym S (Datatypes.S (length S)) (P2 S HS) ltac:(lia)) as (ls & E & Pe & Ne & Cl).
      assert (Il : forall l x, In l ls -> In x l -> In x (ordinary_nodes nbr S)) by (intros l x Hl Hx; apply (Permutation_in _ Pe), in_concat; eauto).
      assert (Io : forall x, In x (ordinary_nodes nbr S) -> In x S) by (intros x Hx; apply filter_In in Hx; tauto).
      unfold component_curves. rewrite (linear_congr nb nbr) by (intros x Hx; apply Agree, (Iq S x HS Hx)). rewrite E. cbn [bind].
      destruct (mapM_ex curve_through (curve_of nb m) ls) as (cs & Ec & Fc).
      { intros l Hl. unfold curve_of. destruct (mapM_ex (fun k p => mfind k dm = Some p) (fun k => of_option (mfind k m)) l) as (ps & Ep & Fp).
        - intros k Hk. assert (HkS := Io k (Il l k Hl Hk)). rewrite (Hm k HkS). assert (Hq := Iq S k HS HkS). apply mfind_In_keys in Hq as (p & Ek). rewrite Ek. exists p. auto.
        - rewrite Ep. cbn [bind]. eexists. split; [reflexivity|]. unfold curve_through. cbn. auto 10. }
      exists cs, ls. split; [exact Ec|]. split; [exact Fc|]. split; [exact Pe|].
      assert (Cc : forall l, In l ls -> chain nb l).
      { intros l Hl p x y s Q. assert (Hx : In x l) by (rewrite Q; apply in_or_app; right; left; reflexivity). unfold q in *. rewrite (Agree x (Iq S x HS (Io x (Il l x Hl Hx)))). eapply (proj2 (Ne l Hl)); eauto. }
      split; [intros l Hl; split; [apply (Ne l Hl)|apply Cc, Hl]|].
      intros l x y Hl Hx Hy. assert (HxS := Io x (Il l x Hl Hx)).
      assert (Step : forall a b, In a S -> linked nb ordinary_pts a b -> In b S /\ linked nbr (ordinary_nodes nbr S) a b).
      { intros a b Ha (L1 & L2 & L3). assert (Ha' := Iq S a HS Ha). rewrite (Agree a Ha') in L3. assert (Hb' : In b q) by (apply filter_In in L2; tauto).
        assert (Hb : In b S) by (apply (P5 S a HS Ha b); split; [exact Hb'|]; apply rst_step; repeat split; auto). split; [exact Hb|]. split; [apply (Ord S a HS Ha), L1|]. split; [apply (Ord S b HS Hb), L2|exact L3]. }
      assert (Back : forall a b, linked nb ordinary_pts a b -> linked nb ordinary_pts b a).
      { intros a b (L1 & L2 & L3). assert (Ha' : In a q) by (apply filter_In in L1; tauto). assert (Hb' : In b q) by (apply filter_In in L2; tauto). rewrite (Agree a Ha') in L3. split; [exact L2|]. split; [exact L1|]. rewrite (Agree b Hb'). apply Sym. exact L3. }
      split.
      - intros Hyl. assert (C := proj1 (Cl l x y Hl Hx (Il l y Hl Hyl)) Hyl). revert C. apply crst_ext. intros a b (L1 & L2 & L3). apply rst_step. assert (HaS := Io a L1). assert (HbS := Io b L2).
        split; [apply (Ord S a HS HaS), L1|]. split; [apply (Ord S b HS HbS), L2|]. rewrite (Agree a (Iq S a HS HaS)). exact L3.
      - intros C. assert (G : forall a b, connected nb ordinary_pts a b -> (In a S -> In b S /\ connected nbr (ordinary_nodes nbr S) a b) /\ (In b S -> In a S /\ connected nbr (ordinary_nodes nbr S) b a)).
        { clear -Step Back. intros a b C. induction C as [a b L|a|a b C [IH1 IH2]|a b e C1 [IH1 IH2] C2 [IH3 IH4]].
          - split; intros Ha; [destruct (Step a b Ha L)|destruct (Step b a Ha (Back a b L))]; (split; [assumption|apply rst_step; assumption]).
          - split; intros Ha; (split; [exact Ha|apply rst_refl]).
          - auto.
          - split; intros Ha.
            + destruct (IH1 Ha) as [Hb Cb]. destruct (IH3 Hb) as [He Ce]. split; [exact He|eapply rst_trans; eauto].
            + destruct (IH4 Ha) as [Hb Cb]. destruct (IH2 Hb) as [He Ce]. split; [exact He|eapply rst_trans; eauto]. }
        destruct (proj1 (G x y C) HxS) as [HyS Cxy]. apply (Cl l x y Hl Hx); [apply (Ord S y HS HyS), Hy|exact Cxy]. }
    assert (Ex : exists css lss, mapM (fun sm => component_curves nb (snd sm) (fst sm)) (combine sets dms) = Ok css /\ Forall2 curve_through (concat lss) (concat css) /\
      Permutation (concat (concat lss)) (concat (map (ordinary_nodes nbr) (map fst (combine sets dms)))) /\ (forall l, In l (concat lss) -> (l <> [] /\ chain nb l) /\
      (forall x y, In x l -> In y ordinary_pts -> In y l <-> connected nb ordinary_pts x y))).
    { clear -Each. induction (combine sets dms) as [|[S m] sms IH]; [exists [], []; split; [reflexivity|]; split; [constructor|]; split; [constructor|]; intros ? []|]. destruct IH as (css & lss & E & F & P & C); [intros; apply Each; right; assumption|].
      destruct (Each S m (or_introl eq_refl)) as (cs & ls & E1 & F1 & P1 & C1 & D1). exists (cs :: css), (ls :: lss). cbn [mapM map fst snd concat]. rewrite E1. cbn [bind]. rewrite E. cbn [bind].
      split; [reflexivity|]. split; [apply Forall2_app; assumption|]. split; [rewrite concat_app; apply Permutation_app; assumption|]. intros l Hl. apply in_app_iff in Hl as [Hl|Hl]; [|apply C; exact Hl]. split; [apply C1; exact Hl|]. intros x y. apply D1. exact Hl. }
    destruct Ex as (css & lss & E & F & P & C). exists css, (concat lss). split; [exact E|]. split; [exact F|]. split; [|split; [intros l Hl; apply (C l Hl)|intros l x y Hl; apply (proj2 (C l Hl))]].
    etransitivity; [exact P|]. assert (Em : map fst (combine sets dms) = sets). { clear -FM. induction FM as [|S m sets dms HF FM IH]; [reflexivity|]. cbn. rewrite IH. reflexivity. }
    rewrite Em. transitivity (filter (fun x => (degree nb q x <=? 2)%nat) (concat sets)).
    - assert (Q : concat (map (ordinary_nodes nbr) sets) = filter (fun x => (degree nb q x <=? 2)%nat) (concat sets)); [|rewrite Q; reflexivity].
      assert (G : forall ss, incl ss sets -> concat (map (ordinary_nodes nbr) ss) = filter (fun x => (degree nb q x <=? 2)%nat) (concat ss)); [|apply G, incl_refl].
      induction ss as [|S ss IH]; intros I; [reflexivity|]. cbn [map concat]. rewrite filter_app, IH by (intros x Hx; apply I; right; exact Hx). f_equal. unfold ordinary_nodes. apply filter_ext_in. intros x Hx.
      assert (HS : In S sets) by (apply I; left; reflexivity). change (degree nb q x) with (length (valid_neighbors q nb x)). rewrite (valid_q S x (P5 S x HS Hx) Hx). reflexivity.
    - apply perm_filter. exact PC.
  Qed.
End Traces.

(** ** grouping by root *)
Lemma msorted_find {K V} `{OrdKey K} (m : list (K * V)) k v : msorted m -> In (k, v) m <-> mfind k m = Some v.
Proof.
  intros M. split; [|apply mfind_In]. unfold msorted, mkeys in M. apply sorted_NoDup in M. induction m as [|[k' v'] m IH]; intros Hin; [destruct Hin|]. cbn in *. inversion M as [|? ? N1 N2]; subst. destruct Hin as [E|Hin].
  - injection E as -> ->. rewrite keqb_refl. reflexivity.
  - destruct (keqb k k') eqn:E; [|auto]. apply keqb_eq in E. subst. exfalso. apply N1. apply (in_map fst) in Hin. exact Hin.
Qed.
Lemma group_lemma us kvs : forall m ccs, dinv m us -> NoDup (map fst kvs) -> msorted ccs ->
  (forall r cc, mfind r ccs = Some cc -> msorted cc /\ cc <> [] /\ forall k, In k (map fst kvs) -> mfind k cc = None) ->
  exists ccs', group m kvs ccs = Ok ccs' /\ msorted ccs' /\ (forall r cc, mfind r ccs' = Some cc -> msorted cc /\ cc <> []) /\
    forall r k p, (exists cc, mfind r ccs' = Some cc /\ mfind k cc = Some p) <->
      (exists cc, mfind r ccs = Some cc /\ mfind k cc = Some p) \/ (In (k, p) kvs /\ is_min us k r).
Proof.
  induction kvs as [|[k p] kvs IH]; intros m ccs I ND MC HC; cbn [group].
  - exists ccs. split; [reflexivity|]. split; [exact MC|]. split; [intros r cc E; destruct (HC r cc E) as (H1 & H2 & _); auto|]. intros r k p. cbn. tauto.
  - destruct (duf_find_exact m us k I) as (r & m' & Ef & I' & Rt & _). rewrite Ef. cbn [bind]. assert (Mi := dinv_min m' us k r I' Rt). cbn [map fst] in ND. inversion ND as [|? ? N1 N2]; subst.
    set (cc0 := match mfind r ccs with Some cc => cc | None => [] end). set (ccs1 := mset r (mins k p cc0) ccs).
    assert (M0 : msorted cc0 /\ forall x, In x (map fst ((k, p) :: kvs)) -> mfind x cc0 = None).
    { unfold cc0. destruct (mfind r ccs) as [cc|] eqn:E; [destruct (HC r cc E) as (H1 & _ & H2); auto|]. split; [constructor|reflexivity]. }
    destruct M0 as [M0 A0]. assert (F0 : forall x, mfind x (mins k p cc0) = if keqb x k then Some p else mfind x cc0).
    { intros x. rewrite mfind_mins. destruct (keqb x k) eqn:E; [apply keqb_eq in E; subst; rewrite A0 by (left; reflexivity); reflexivity|]. destruct (mfind x cc0); reflexivity. }
    destruct (IH m' ccs1 I' N2) as (ccs' & E' & M' & S' & F').
    + apply msorted_mset. exact MC.
    + intros r' cc E. unfold ccs1 in E. rewrite mfind_mset in E. destruct (keqb r' r) eqn:Er.
      * injection E as <-. split; [apply msorted_mins; exact M0|]. split; [intros Q; specialize (F0 k); rewrite Q, keqb_refl in F0; discriminate|]. intros x Hx. rewrite F0. rewrite A0 by (right; exact Hx). destruct (keqb x k) eqn:Ex; [|reflexivity]. apply keqb_eq in Ex. subst. contradiction.
      * destruct (HC r' cc E) as (H1 & H2 & H3). split; [exact H1|]. split; [exact H2|]. intros x Hx. apply H3. right. exact Hx.
    + exists ccs'. split; [exact E'|]. split; [exact M'|]. split; [exact S'|]. intros r' k' p'. rewrite F'. unfold ccs1.
      assert (G : (exists cc, mfind r' (mset r (mins k p cc0) ccs) = Some cc /\ mfind k' cc = Some p') <-> (exists cc, mfind r' ccs = Some cc /\ mfind k' cc = Some p') \/ (k' = k /\ p' = p /\ r' = r)).
      { rewrite mfind_mset. destruct (keqb r' r) eqn:Er.
        - apply keqb_eq in Er. subst r'. split.
          + intros (cc & Q & F). injection Q as <-. rewrite F0 in F. destruct (keqb k' k) eqn:Ek; [apply keqb_eq in Ek; right; split; [exact Ek|]; split; [congruence|reflexivity]|].
            left. unfold cc0 in F. destruct (mfind r ccs) as [cc|]; [eauto|discriminate].
          + intros [(cc & Q & F)|(-> & -> & _)]; eexists; (split; [reflexivity|]); rewrite F0.
            * destruct (keqb k' k) eqn:Ek; [|unfold cc0; rewrite Q; exact F]. apply keqb_eq in Ek. subst. destruct (HC r cc Q) as (_ & _ & H3). rewrite H3 in F by (left; reflexivity). discriminate.
            * rewrite keqb_refl. reflexivity.
        - apply keqb_neq in Er. split; [auto|]. intros [H|(_ & _ & H)]; [exact H|contradiction]. }
      rewrite G. cbn [In]. split.
      * intros [[H|(-> & -> & ->)]|H]; tauto.
      * intros [H|[[H|H] Hm]]; [auto| |auto]. injection H as <- <-. left. right. split; [reflexivity|]. split; [reflexivity|]. eapply is_min_fun; eauto.
Qed.

Lemma offline_lemma d dms nbr : let dm := gathered dms in let nb := neighbors d in
  msorted dm -> (forall x, In x (mkeys dm) -> nb x = nbr x) -> symmetric_nb nbr ->
  exists cs ls, trace_offline d dms = Ok cs /\ traces nb dm ls cs.
Proof.
  intros dm nb MD Agree Sym. set (q := mkeys dm). unfold trace_offline. fold dm nb.
  destruct (duf_run_spec (offline_unions nb dm)) as (m & Em & I & _). rewrite Em. cbn [bind].
  destruct (group_lemma _ dm m (@nil (key * list (key * fpoint))) I) as (ccs & Ec & Mc & Sc & Fc).
  { apply sorted_NoDup. exact MD. }
  { constructor. }
  { intros r cc E. discriminate. }
  change (group m dm [] = Ok ccs) in Ec. rewrite Ec. cbn [bind].
  set (us := rev (united (offline_unions nb dm))) in *.
  assert (In_us : forall x y, In (x, y) us <-> In x q /\ In y q /\ In y (nb x)).
  { intros x y. unfold us, united. rewrite <- in_rev, in_flat_map. unfold offline_unions. fold q. split.
    - intros (o & Ho & Hxy). apply in_flat_map in Ho as (z & Hz & Ho). apply in_map_iff in Ho as (n & <- & Hn). apply filter_In in Hn as [Hn Hf]. destruct Hxy as [E|[]]. injection E as <- <-.
      split; [exact Hz|]. split; [|exact Hn]. apply mfind_In_keys. destruct (mfind n dm); [eauto|discriminate].
    - intros (Hx & Hy & Hn). exists (DUnite x y). split; [|left; reflexivity]. apply in_flat_map. exists x. split; [exact Hx|]. apply in_map_iff. exists y. split; [reflexivity|]. apply filter_In. split; [exact Hn|]. apply mfind_In_keys in Hy as (p & ->). reflexivity. }
  assert (Rel : forall x y, conn us x y <-> connected nbr q x y).
  { intros x y. split; apply crst_ext; intros a b Hab; apply rst_step.
    - apply In_us in Hab as (H1 & H2 & H3). unfold nb, q in *. rewrite (Agree a H1) in H3. repeat split; assumption.
    - destruct Hab as (H1 & H2 & H3). apply In_us. split; [exact H1|]. split; [exact H2|]. unfold nb, q in *. rewrite (Agree a H1). exact H3. }
  assert (Mem : forall r cc k, In (r, cc) ccs -> In k (mkeys cc) <-> In k q /\ is_min us k r).
  { intros r cc k Hin. apply (msorted_find ccs r cc Mc) in Hin. split.
    - intros Hk. apply mfind_In_keys in Hk as (p & Hp). destruct (proj1 (Fc r k p)) as [(c0 & Q & _)|[H1 H2]]; [eauto|discriminate|]. split; [|exact H2]. apply (in_map fst) in H1. exact H1.
    - intros [Hk Hm]. apply mfind_In_keys in Hk as (p & Hp). destruct (proj2 (Fc r k p)) as (cc' & Q & F); [right; split; [apply mfind_In; exact Hp|exact Hm]|]. rewrite Hin in Q. injection Q as <-. apply mfind_In_keys. eauto. }
  assert (Part : is_partition q (connected nbr q) (map (fun e : key * list (key * fpoint) => mkeys (snd e)) ccs)).
  { split; [|split; [|split; [|split]]].
    - intros S HS. apply in_map_iff in HS as ([r cc] & <- & Hin). apply (msorted_find ccs r cc Mc) in Hin. destruct (Sc r cc Hin) as [_ N]. cbn. destruct cc; [contradiction|discriminate].
    - intros S HS. apply in_map_iff in HS as ([r cc] & <- & Hin). apply (msorted_find ccs r cc Mc) in Hin. destruct (Sc r cc Hin) as [S' _]. exact S'.
    - intros i j S T x Hi Hj Hx Hy. rewrite nth_error_map in Hi, Hj. destruct (nth_error ccs i) as [[r cc]|] eqn:Ei; [|discriminate Hi]. destruct (nth_error ccs j) as [[r' cc']|] eqn:Ej; [|discriminate Hj]. injection Hi as <-. injection Hj as <-. cbn in Hx, Hy.
      apply (Mem r cc x (nth_error_In _ _ Ei)) in Hx as [_ M1]. apply (Mem r' cc' x (nth_error_In _ _ Ej)) in Hy as [_ M2]. assert (r = r') by (eapply is_min_fun; eauto). subst r'.
      assert (NDk : NoDup (mkeys ccs)) by (apply sorted_NoDup; exact Mc). apply (map_nth_error fst) in Ei, Ej. cbn in Ei, Ej. rewrite NoDup_nth_error in NDk. apply NDk; [apply nth_error_Some; unfold mkeys; congruence|unfold mkeys; congruence].
    - intros x. split.
      + intros Hx. assert (Hx' := Hx). apply mfind_In_keys in Hx as (p & Hp). destruct (duf_find_exact m us x I) as (r & m' & _ & I' & Rt & _). assert (Mi := dinv_min m' us x r I' Rt).
        destruct (proj2 (Fc r x p)) as (cc & Q & F); [right; split; [apply mfind_In; exact Hp|exact Mi]|]. exists (mkeys cc). split; [|apply mfind_In_keys; eauto]. apply in_map_iff. exists (r, cc). split; [reflexivity|apply mfind_In; exact Q].
      + intros (S & HS & Hx). apply in_map_iff in HS as ([r cc] & <- & Hin). apply (Mem r cc x Hin) in Hx. tauto.
    - intros S x HS Hx y. apply in_map_iff in HS as ([r cc] & <- & Hin). cbn in *. rewrite (Mem r cc y Hin). apply (Mem r cc x Hin) in Hx as [Hx [C1 M1]]. rewrite <- Rel. split.
      + intros [Hy [C2 M2]]. split; [exact Hy|]. eapply rst_trans; [exact C1|apply rst_sym; exact C2].
      + intros [Hy C]. split; [exact Hy|]. split; [eapply rst_trans; [apply rst_sym; exact C|exact C1]|]. intros z Cz. apply M1. eapply rst_trans; [exact C|exact Cz]. }
  destruct (curves_lemma nb nbr dm MD Agree Sym (map (fun e : key * list (key * fpoint) => mkeys (snd e)) ccs) (map snd ccs) Part) as (css & ls & E & T).
  { assert (G : forall l, incl l ccs -> Forall2 (fun S m => forall k, In k S -> mfind k m = mfind k dm) (map (fun e : key * list (key * fpoint) => mkeys (snd e)) l) (map snd l)); [|apply G, incl_refl].
    induction l as [|[r cc] l IH]; intros Hi; [constructor|]. cbn. constructor; [|apply IH; intros x Hx; apply Hi; right; exact Hx].
    intros k Hk. apply mfind_In_keys in Hk as (p & Hp). assert (Hin := proj1 (msorted_find ccs r cc Mc) (Hi _ (or_introl eq_refl))). destruct (proj1 (Fc r k p)) as [(c0 & Q & _)|[H1 _]]; [eauto|discriminate|]. rewrite Hp. symmetry. apply (msorted_find dm k p MD). exact H1. }
  assert (E2 : mapM (fun cc => component_curves nb (snd cc) (mkeys (snd cc))) ccs = mapM (fun sm => component_curves nb (snd sm) (fst sm)) (combine (map (fun e : key * list (key * fpoint) => mkeys (snd e)) ccs) (map snd ccs))).
  { clear. induction ccs as [|e ccs IH]; [reflexivity|]. cbn [map combine mapM fst snd]. rewrite IH. reflexivity. }
  rewrite E2, E. cbn [bind]. exists (concat css), ls. split; [reflexivity|exact T].
Qed.
