From Verif Require Import Base UnionFind NdArray ContourTree ContourTreeSpec.
Local Open Scope nat_scope. Local Open Scope list_scope.
Section P.
  Context {K : Type} `{OrdKey K} (neg1 : K).
  Notation op := (op K).
  Record inv (g : ct K) : Prop := {
    i_nodes : sorted (ct_nodes g);
    i_up : forall k, sorted (links k (upper_links g));
    i_low : forall k, sorted (links k (lower_links g));
    i_inv : forall x y, In y (links x (upper_links g)) <-> In x (links y (lower_links g)) }.
  Lemma up_links g x y : up g x y <-> In y (links x (upper_links g)).
  Proof. unfold up, links. destruct (mfind x (upper_links g)) as [s|]; split; [intros (s' & E & I); inversion E; subst; exact I|eauto|intros (s' & E & _); discriminate|intros []]. Qed.
  Lemma down_links g x y : down g x y <-> In y (links x (lower_links g)).
  Proof. unfold down, links. destruct (mfind x (lower_links g)) as [s|]; split; [intros (s' & E & I); inversion E; subst; exact I|eauto|intros (s' & E & _); discriminate|intros []]. Qed.
  Lemma udeg g i : upper_degree g i = length (links i (upper_links g)).
  Proof. unfold upper_degree, links. destruct (mfind i (upper_links g)); reflexivity. Qed.
  Lemma ldeg g i : lower_degree g i = length (links i (lower_links g)).
  Proof. unfold lower_degree, links. destruct (mfind i (lower_links g)); reflexivity. Qed.
  Lemma links_mset (k k' : K) s m : links k (mset k' s m) = if keqb k k' then s else links k m.
  Proof. unfold links. destruct (kdec k k') as [->|N]; [rewrite mfind_mset_eq, keqb_refl; reflexivity|rewrite mfind_mset_ne, (proj2 (keqb_neq k k') N); auto]. Qed.
  Lemma links_mdel (k k' : K) (m : list (K * list K)) : links k (mdel k' m) = if keqb k k' then [] else links k m.
  Proof. unfold links. rewrite mfind_mdel. destruct (keqb k k'); reflexivity. Qed.
  Lemma In_ins k i m x y : In y (links x (insert_in k i m)) <-> (x = k /\ y = i) \/ In y (links x m).
  Proof. unfold insert_in. rewrite links_mset. destruct (kdec x k) as [->|N]; [rewrite keqb_refl, In_sins; intuition|rewrite (proj2 (keqb_neq x k) N); intuition]. Qed.
  Lemma In_del k i m x y : In y (links x (erase_in k i m)) <-> In y (links x m) /\ ~ (x = k /\ y = i).
  Proof. unfold erase_in. rewrite links_mset. destruct (kdec x k) as [->|N]; [rewrite keqb_refl, In_sdel; intuition|rewrite (proj2 (keqb_neq x k) N); intuition]. Qed.
  Lemma In_drop i (m : list (K * list K)) x y : In y (links x (mdel i m)) <-> In y (links x m) /\ x <> i.
  Proof. rewrite links_mdel. destruct (kdec x i) as [->|N]; [rewrite keqb_refl; cbn; intuition|rewrite (proj2 (keqb_neq x i) N); intuition]. Qed.
  Lemma so_ins k i m : (forall x, sorted (links x m)) -> forall x, sorted (links x (insert_in k i m)).
  Proof. intros S x. unfold insert_in. rewrite links_mset. destruct (keqb x k); [apply sorted_sins|]; apply S. Qed.
  Lemma so_del k i m : (forall x, sorted (links x m)) -> forall x, sorted (links x (erase_in k i m)).
  Proof. intros S x. unfold erase_in. rewrite links_mset. destruct (keqb x k); [apply sorted_sdel|]; apply S. Qed.
  Lemma so_drop i (m : list (K * list K)) : (forall x, sorted (links x m)) -> forall x, sorted (links x (mdel i m)).
  Proof. intros S x. rewrite links_mdel. destruct (keqb x i); [constructor|apply S]. Qed.
  Lemma inv_new : inv ct_new. Proof. constructor; cbn; intros; constructor; intros []. Qed.
  Lemma inv_add_node g i : inv g -> inv (ct_add_node g i).
  Proof. intros [A B C D]. constructor; cbn; auto. apply sorted_sins, A. Qed.
  Lemma inv_add_arc g lo hi : inv g -> inv (ct_add_arc g lo hi) /\ forall x y, up (ct_add_arc g lo hi) x y <-> up g x y \/ (x = lo /\ y = hi).
  Proof.
    intros [A B C D]. unfold ct_add_arc. split.
    - constructor; cbn [ct_nodes upper_links lower_links]; [exact A|exact (so_ins lo hi _ B)|exact (so_ins hi lo _ C)|].
      intros x y. etransitivity; [apply (In_ins lo hi)|]. etransitivity; [|symmetry; apply (In_ins hi lo)]. rewrite D. tauto.
    - intros x y. rewrite !up_links. cbn [upper_links]. etransitivity; [apply (In_ins lo hi)|]. tauto.
  Qed.
  Lemma first_links (m : list (K * list K)) i x s : links i m = x :: s -> first neg1 m i = Ok x.
  Proof. unfold links, first. destruct (mfind i m); [intros ->; reflexivity|discriminate]. Qed.

  (** what [reduce_node] does to the nodes and arcs *)
  Definition contract (i : K) (A : K -> K -> Prop) (x y : K) : Prop := x <> i /\ y <> i /\ (A x y \/ (A x i /\ A i y)).
  Lemma reduce_node_ok g i : inv g -> ~ (upper_degree g i = 0 /\ lower_degree g i = 0) ->
    exists g' b, reduce_node neg1 g i = Ok (g', b) /\ inv g' /\
      ((1 < upper_degree g i \/ 1 < lower_degree g i) /\ b = false /\ g' = g \/
       (upper_degree g i <= 1 /\ lower_degree g i <= 1) /\ b = true /\ ct_nodes g' = sdel i (ct_nodes g) /\ forall x y, up g' x y <-> contract i (up g) x y).
  Proof.
    intros I NZ. assert (I' := I). destruct I' as [Sn Su Sl Iv]. unfold reduce_node. rewrite udeg, ldeg in *.
    destruct (Nat.ltb 1 (length (links i (upper_links g))) || Nat.ltb 1 (length (links i (lower_links g)))) eqn:Q.
    { exists g, false. split; [reflexivity|]. split; [exact I|]. left. split; [|auto]. apply orb_true_iff in Q. rewrite !Nat.ltb_lt in Q. exact Q. }
    apply orb_false_iff in Q. rewrite !Nat.ltb_ge in Q. destruct Q as [Qu Ql].
    assert (Iu := Iv i). assert (Il := fun x => Iv x i).
    destruct (links i (upper_links g)) as [|hi [|? ?]] eqn:Eu; cbn [length] in Qu; try lia;
    destruct (links i (lower_links g)) as [|lo [|? ?]] eqn:El; cbn [length] in Ql; try lia; cbn [length Nat.eqb andb] in *.
    - exfalso; apply NZ; auto.
    - unfold lower_node. rewrite (first_links _ _ _ _ El). cbn [bind]. eexists _, true. split; [reflexivity|]. unfold drop_node; cbn [ct_nodes upper_links lower_links]. split.
      + constructor; cbn [ct_nodes upper_links lower_links]; [apply sorted_sdel, Sn|apply so_drop, so_del, Su|apply so_drop, Sl|].
        intros x y. rewrite !In_drop, In_del, Iv. split; intros Z; repeat split; try tauto.
        * intros ->. rewrite El in Z. destruct Z as [[[<-|[]] Z] _]. tauto.
        * intros ->. destruct Z as [Z _]. apply Iv in Z. rewrite Eu in Z. destruct Z.
      + right. split; [lia|]. split; [reflexivity|]. split; [reflexivity|]. intros x y. unfold contract. rewrite !up_links. cbn [upper_links]. rewrite In_drop, In_del, Eu. cbn [In]. split.
        * intros [[Z1 Z2] Z3]. split; [exact Z3|]. split; [|auto]. intros ->. apply Il in Z1. destruct Z1 as [->|[]]. tauto.
        * intros (Z1 & Z2 & Z3). tauto.
    - unfold upper_node. rewrite (first_links _ _ _ _ Eu). cbn [bind]. eexists _, true. split; [reflexivity|]. unfold drop_node; cbn [ct_nodes upper_links lower_links]. split.
      + constructor; cbn [ct_nodes upper_links lower_links]; [apply sorted_sdel, Sn|apply so_drop, Su|apply so_drop, so_del, Sl|].
        intros x y. rewrite !In_drop, In_del, Iv. split; intros Z; repeat split; try tauto.
        * intros ->. destruct Z as [Z _]. rewrite El in Z. destruct Z.
        * intros ->. destruct Z as [[Z1 Z2] Z3]. apply Iv in Z1. rewrite Eu in Z1. destruct Z1 as [<-|[]]. tauto.
      + right. split; [lia|]. split; [reflexivity|]. split; [reflexivity|]. intros x y. unfold contract. rewrite !up_links. cbn [upper_links]. rewrite In_drop. split.
        * intros [Z1 Z2]. split; [exact Z2|]. split; [|auto]. intros ->. apply Il in Z1. destruct Z1.
        * intros (Z1 & Z2 & [Z3|[Z3 _]]); [tauto|]. apply Il in Z3. destruct Z3.
    - unfold upper_node, lower_node. rewrite (first_links _ _ _ _ Eu), (first_links _ _ _ _ El). cbn [bind]. eexists _, true. split; [reflexivity|]. unfold drop_node; cbn [ct_nodes upper_links lower_links]. 
      assert (Ui : forall y, In y (links i (upper_links g)) <-> y = hi) by (intros y; rewrite Eu; cbn; intuition).
      assert (Li : forall x, In x (links i (lower_links g)) <-> x = lo) by (intros x; rewrite El; cbn; intuition).
      assert (Lu : forall x, In i (links x (upper_links g)) <-> x = lo) by (intros x; rewrite Iv; apply Li).
      assert (Ul : forall y, In i (links y (lower_links g)) <-> y = hi) by (intros y; rewrite <- Iv; apply Ui).
      split.
      + constructor; cbn [ct_nodes upper_links lower_links]; [apply sorted_sdel, Sn|apply so_drop, so_ins, so_del, Su|apply so_drop, so_ins, so_del, Sl|].
        intros x y. rewrite !In_drop, !In_ins, !In_del. rewrite (Iv x y). split.
        * intros [[[-> ->]|[Z1 Z2]] Z3].
          -- split; [left; auto|]. intros ->. apply Z3. symmetry. apply (proj1 (Lu i)). apply Ui. reflexivity.
          -- assert (y <> i) by (intros ->; apply Li in Z1; tauto). split; [|assumption]. right. split; [exact Z1|]. intros [-> ->]. tauto.
        * intros [[[-> ->]|[Z1 Z2]] Z3].
          -- split; [left; auto|]. intros ->. apply Z3. symmetry. apply (proj1 (Ul i)). apply Li. reflexivity.
          -- assert (x <> i) by (intros ->; apply Ul in Z1; tauto). split; [|assumption]. right. split; [exact Z1|]. intros [-> ->]. tauto.
      + right. split; [lia|]. split; [reflexivity|]. split; [reflexivity|]. intros x y. unfold contract. rewrite !up_links. cbn [upper_links]. rewrite In_drop, In_ins, In_del, Lu, Ui. split.
        * intros [[[-> ->]|[Z1 Z2]] Z3].
          -- split; [exact Z3|]. split; [|auto]. intros ->. apply Z3. symmetry. apply (proj1 (Lu i)). apply Ui. reflexivity.
          -- split; [exact Z3|]. split; [|auto]. intros ->. apply Lu in Z1. tauto.
        * intros (Z1 & Z2 & [Z3|[-> ->]]); [|tauto]. split; [|exact Z1]. right. split; [exact Z3|]. tauto.
  Qed.
  (** the remaining case keeps the tables inverse too, when it returns *)
  Lemma reduce_node_isolated g i : inv g -> upper_degree g i = 0 -> lower_degree g i = 0 -> forall g' b, reduce_node neg1 g i = Ok (g', b) -> inv g'.
  Proof.
    intros I U D g' b. unfold reduce_node. rewrite U, D. cbn [Nat.ltb Nat.leb orb Nat.eqb andb].
    unfold upper_node, lower_node, first. rewrite udeg in U. rewrite ldeg in D. unfold links in U, D.
    destruct (mfind i (upper_links g)) as [[|]|] eqn:Eu; cbn in U; try discriminate.
    destruct (mfind i (lower_links g)) as [[|]|] eqn:El; cbn in D; try discriminate.
    cbn [bind]. intros Q. inversion Q; subst. unfold drop_node; cbn [ct_nodes upper_links lower_links]. destruct I as [Sn Su Sl Iv].
    constructor; cbn [ct_nodes upper_links lower_links]; [apply sorted_sdel, Sn|apply so_drop, so_ins, so_del, Su|apply so_drop, so_ins, so_del, Sl|].
    assert (Nu : forall y, ~ In y (links i (upper_links g))) by (intros y; unfold links; rewrite Eu; intros []).
    assert (Nl : forall y, ~ In y (links i (lower_links g))) by (intros y; unfold links; rewrite El; intros []).
    intros x y. rewrite !In_drop, !In_ins, !In_del, Iv. split.
    - intros [[[-> ->]|[Z1 Z2]] Z3]; [tauto|]. assert (y <> i) by (intros ->; eapply Nl; exact Z1). split; [|assumption]. right. split; [exact Z1|]. intros [-> ->]. tauto.
    - intros [[[-> ->]|[Z1 Z2]] Z3]; [tauto|]. assert (x <> i) by (intros ->; apply Iv in Z1; eapply Nu; exact Z1). split; [|assumption]. right. split; [exact Z1|]. intros [-> ->]. tauto.
  Qed.
  Lemma inv_reduce_node g i g' b : inv g -> reduce_node neg1 g i = Ok (g', b) -> inv g'.
  Proof.
    intros I E. destruct (upper_degree g i) as [|u] eqn:U; [destruct (lower_degree g i) as [|d] eqn:D|].
    - eapply reduce_node_isolated; eassumption.
    - destruct (reduce_node_ok g i I) as (g1 & b1 & E1 & I1 & _); [lia|]. congruence.
    - destruct (reduce_node_ok g i I) as (g1 & b1 & E1 & I1 & _); [lia|]. congruence.
  Qed.
  Lemma inv_reduce_all l : forall g g', inv g -> reduce_all neg1 g l = Ok g' -> inv g'.
  Proof.
    induction l as [|i l IH]; cbn; intros g g' I E; [congruence|]. destruct (reduce_node neg1 g i) as [[g1 b]| |] eqn:Q; cbn in E; try discriminate. eapply IH; [eapply inv_reduce_node; eassumption|exact E].
  Qed.
  Lemma reachable_inv g : reachable neg1 g -> inv g.
  Proof.
    intros [ops E]. assert (W : forall (ops : list op) g0 g, inv g0 -> run_from neg1 g0 ops = Ok g -> inv g).
    { clear. induction ops as [|o ops IH]; cbn; intros g0 g I E; [congruence|]. destruct (step neg1 g0 o) as [g1| |] eqn:Q; cbn in E; try discriminate.
      apply (IH g1 g); [|exact E]. destruct o; cbn in Q.
      - inversion Q; subst. apply inv_add_node, I.
      - inversion Q; subst. apply inv_add_arc, I.
      - destruct (reduce_node neg1 g0 i) as [[g2 b]| |] eqn:R; cbn in Q; try discriminate. inversion Q; subst. eapply inv_reduce_node; eassumption.
      - eapply inv_reduce_all; eassumption. }
    eapply W; [apply inv_new|exact E].
  Qed.

  Lemma degree_card g i : inv g -> card (up g i) (upper_degree g i) /\ card (fun lo => up g lo i) (lower_degree g i).
  Proof.
    intros [A B C D]. rewrite udeg, ldeg. split; [exists (links i (upper_links g))|exists (links i (lower_links g))]; (split; [apply sorted_NoDup; auto|]); (split; [|reflexivity]); intros x; rewrite up_links; [reflexivity|symmetry; apply D].
  Qed.
  Lemma card_one (P : K -> Prop) n : card P n -> (n = 1 <-> one P).
  Proof.
    intros (l & N & E & <-). split.
    - intros L. destruct l as [|x [|]]; try discriminate. exists x. split; [apply E; left; reflexivity|]. intros y Py. apply E in Py. destruct Py as [->|[]]. reflexivity.
    - intros (x & Px & U). apply E in Px. destruct l as [|a [|b l]]; [destruct Px|reflexivity|]. exfalso. assert (a = x) by (apply U, E; left; reflexivity). assert (b = x) by (apply U, E; right; left; reflexivity). subst. inversion N; subst. apply H2. left; reflexivity.
  Qed.
  Lemma deg1 g i : inv g -> (upper_degree g i = 1 <-> one (up g i)) /\ (lower_degree g i = 1 <-> one (fun lo => up g lo i)).
  Proof. intros I. destruct (degree_card g i I) as [A B]. split; apply card_one; assumption. Qed.

  Lemma through_mono A (P Q : K -> Prop) x y : (forall r, P r -> Q r) -> through A P x y -> through A Q x y.
  Proof. intros PQ T. induction T; [apply th_one; auto|eapply th_cons; eauto]. Qed.
  Lemma through_trans A (P : K -> Prop) x r y : P r -> through A P x r -> through A P r y -> through A P x y.
  Proof. intros Pr T U. induction T; [eapply th_cons; eauto|eapply th_cons; eauto]. Qed.
  Lemma through_add A (P : K -> Prop) i x y : through A (fun r => P r \/ r = i) x y -> through A P x y \/ (through A P x i /\ through A P i y).
  Proof.
    induction 1 as [x y E|x r y E Pr T IH]; [left; apply th_one; exact E|]. destruct Pr as [Pr| ->].
    - destruct IH as [IH|[I1 I2]]; [left; eapply th_cons; eauto|right; split; [eapply th_cons; eauto|exact I2]].
    - right. split; [apply th_one; exact E|]. destruct IH as [IH|[I1 I2]]; assumption.
  Qed.
  Lemma through_ext A B (P Q : K -> Prop) x y : (forall u v, A u v <-> B u v) -> (forall r, P r <-> Q r) -> through A P x y <-> through B Q x y.
  Proof. intros AB PQ. split; intros T; induction T; [apply th_one; apply AB; auto|eapply th_cons; [apply AB; eauto|apply PQ; eauto|eauto]|apply th_one; apply AB; auto|eapply th_cons; [apply AB; eauto|apply PQ; eauto|eauto]]. Qed.

  Lemma contract_keeps A i r : one (A i) -> one (fun lo => A lo i) -> r <> i -> one (A r) -> one (fun lo => A lo r) -> one (contract i A r) /\ one (fun lo => contract i A lo r).
  Proof.
    intros (h & Ah & Uh) (l & Al & Ul) N (y & Ay & Uy) (z & Az & Uz). unfold contract. split.
    - destruct (kdec y i) as [->|Ny].
      + exists h. split.
        * split; [exact N|]. split; [|auto]. intros ->. apply N. rewrite (Ul i Ah), (Ul r Ay). reflexivity.
        * intros v (_ & Nv & [V|[_ V]]); [apply Uy in V; congruence|apply Uh, V].
      + exists y. split; [auto|]. intros v (_ & Nv & [V|[V _]]); [apply Uy, V|]. apply Uy in V. congruence.
    - destruct (kdec z i) as [->|Nz].
      + exists l. split.
        * split; [|auto]. intros ->. apply N. rewrite (Uh i Al), (Uh r Az). reflexivity.
        * intros v (Nv & _ & [V|[V _]]); [apply Uz in V; congruence|apply Ul, V].
      + exists z. split; [auto|]. intros v (Nv & _ & [V|[_ V]]); [apply Uz, V|]. apply Uz in V. congruence.
  Qed.
  Lemma one_ext (P Q : K -> Prop) : (forall x, P x <-> Q x) -> one P -> one Q.
  Proof. intros E (x & Px & U). exists x. split; [apply E, Px|]. intros y Qy. apply U, E, Qy. Qed.

  Lemma reduce_all_spec (A0 : K -> K -> Prop) : forall l (P : K -> Prop) g, inv g -> NoDup l -> (forall r, In r l -> ~ P r) ->
    (forall x y, up g x y <-> ~ P x /\ ~ P y /\ through A0 P x y) -> (forall r, In r l -> one (up g r) /\ one (fun lo => up g lo r)) ->
    exists g', reduce_all neg1 g l = Ok g' /\ inv g' /\ (forall x, In x (ct_nodes g') <-> In x (ct_nodes g) /\ ~ In x l) /\
      forall x y, up g' x y <-> ~ (P x \/ In x l) /\ ~ (P y \/ In y l) /\ through A0 (fun r => P r \/ In r l) x y.
  Proof.
    induction l as [|i l IH]; intros P g I N NP A R.
    - exists g. cbn. split; [reflexivity|]. split; [exact I|]. split; [tauto|]. intros x y. rewrite A.
      rewrite (through_ext A0 A0 P (fun r => P r \/ False) x y); [tauto|reflexivity|tauto].
    - inversion N as [|? ? Ni Nl]; subst. cbn [reduce_all].
      destruct (R i (or_introl eq_refl)) as [Ou Ol]. destruct (deg1 g i I) as [D1 D2]. apply D1 in Ou as Eu. apply D2 in Ol as El.
      destruct (reduce_node_ok g i I) as (g1 & b & E & I1 & [([X|X] & _)|(_ & _ & Nd & Up)]); try lia. rewrite E. cbn [bind fst].
      destruct (IH (fun r => P r \/ r = i) g1 I1 Nl) as (g' & E' & I' & Nd' & Up').
      + intros r Hr [Z| ->]; [apply (NP r); [right; exact Hr|exact Z]|contradiction].
      + intros x y. rewrite Up. unfold contract. rewrite !A. split.
        * intros (Nx & Ny & [(Z1 & Z2 & Z3)|((Z1 & Z2 & Z3) & (Z4 & Z5 & Z6))]).
          -- split; [tauto|]. split; [tauto|]. eapply through_mono; [|exact Z3]. cbn; auto.
          -- split; [tauto|]. split; [tauto|]. eapply (through_trans _ _ x i y); [cbn; auto| |]; (eapply through_mono; [|eassumption]; cbn; auto).
        * intros (Z1 & Z2 & Z3). split; [tauto|]. split; [tauto|]. assert (NPi : ~ P i) by (apply NP; left; reflexivity).
          apply through_add in Z3. destruct Z3 as [Z3|[Z3 Z4]]; [left|right]; tauto.
      + intros r Hr. destruct (R r (or_intror Hr)) as [R1 R2]. assert (Nr : r <> i) by (intros ->; contradiction).
        destruct (contract_keeps (up g) i r Ou Ol Nr R1 R2) as [C1 C2]. split; [eapply one_ext; [|exact C1]|eapply one_ext; [|exact C2]]; intros x; cbn; symmetry; apply Up.
      + exists g'. split; [exact E'|]. split; [exact I'|]. split.
        * intros x. rewrite Nd', Nd, In_sdel. cbn [In]. intuition.
        * intros x y. rewrite Up'. rewrite (through_ext A0 A0 (fun r => (P r \/ r = i) \/ In r l) (fun r => P r \/ In r (i :: l)) x y); [cbn [In]; intuition|reflexivity|]. intros r. cbn [In]. intuition.
  Qed.
  Lemma reduce_spec g : inv g -> exists g', reduce neg1 g = Ok g' /\ inv g' /\
    (forall x, In x (ct_nodes g') <-> In x (ct_nodes g) /\ ~ regular g x) /\
    forall x y, up g' x y <-> ~ regular g x /\ ~ regular g y /\ through (up g) (regular g) x y.
  Proof.
    intros I. unfold reduce. set (l := filter _ _).
    assert (Hl : forall x, In x l <-> regular g x).
    { intros x. unfold l, regular. rewrite filter_In, andb_true_iff, !Nat.eqb_eq. destruct (deg1 g x I) as [-> ->]. tauto. }
    destruct (reduce_all_spec (up g) l (fun _ => False) g I) as (g' & E & I' & Nd & Up).
    - apply NoDup_filter, sorted_NoDup, I.
    - tauto.
    - intros x y. split; [intros U; repeat split; auto; apply th_one, U|]. intros (_ & _ & T). destruct T; [assumption|contradiction].
    - intros r Hr. apply Hl in Hr. split; apply Hr.
    - exists g'. split; [exact E|]. split; [exact I'|]. split; [intros x; rewrite Nd, Hl; reflexivity|].
      intros x y. rewrite Up, !Hl. rewrite (through_ext (up g) (up g) (fun r => False \/ In r l) (regular g) x y); [tauto|reflexivity|]. intros r. rewrite Hl. tauto.
  Qed.
End P.
