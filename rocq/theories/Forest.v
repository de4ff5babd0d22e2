(** Parent forests: the abstract content of every union-find in the code base.
    [par] is the parent map; a root points to itself; [None] = not registered. *)
From Verif Require Import Base.

Section Forest.
  Context {K : Type} (kd : forall a b : K, {a = b} + {a <> b}).

  Definition pmap := K -> option K.

  (** [rooth par i r h]: following parents from [i] reaches the root [r] after [h] links. *)
  Inductive rooth (par : pmap) : K -> K -> nat -> Prop :=
  | rooth_here r : par r = Some r -> rooth par r r 0
  | rooth_up i j r h : par i = Some j -> j <> i -> rooth par j r h -> rooth par i r (S h).

  Definition root (par : pmap) (i r : K) : Prop := exists h, rooth par i r h.

  Definition dom (par : pmap) (i : K) : Prop := exists j, par i = Some j.

  Definition wf (par : pmap) : Prop := forall i, dom par i -> exists r, root par i r.

  Definition upd (par : pmap) (i v : K) : pmap := fun x => if kd x i then Some v else par x.

  Lemma upd_eq par i v : upd par i v i = Some v.
  Proof. unfold upd; destruct (kd i i); congruence. Qed.
  Lemma upd_ne par i v x : x <> i -> upd par i v x = par x.
  Proof. unfold upd; destruct (kd x i); congruence. Qed.

  Lemma rooth_fun par i r h r' h' : rooth par i r h -> rooth par i r' h' -> r = r' /\ h = h'.
  Proof.
    intros A; revert r' h'. induction A as [r E|i j r h E N A IH]; intros r' h' B.
    - inversion B as [|? ? ? ? E' N']; subst; [auto|]. congruence.
    - inversion B as [? E'|? ? ? ? E' N' B']; subst; [congruence|].
      assert (j0 = j) by congruence; subst.
      destruct (IH _ _ B') as [-> ->]; auto.
  Qed.

  Lemma root_fun par i r r' : root par i r -> root par i r' -> r = r'.
  Proof. intros [h A] [h' B]. eapply rooth_fun; eassumption. Qed.

  Lemma rooth_root_self par i r h : rooth par i r h -> par r = Some r.
  Proof. induction 1; auto. Qed.

  Lemma root_self par i r : root par i r -> par r = Some r.
  Proof. intros [h A]; eapply rooth_root_self; eauto. Qed.

  Lemma root_refl par r : par r = Some r -> root par r r.
  Proof. intros E; exists 0; constructor; exact E. Qed.

  Lemma root_step par i j r : par i = Some j -> root par j r -> root par i r.
  Proof.
    intros E [h A]. destruct (kd j i) as [->|N]; [exists h; exact A|].
    exists (S h). econstructor; eauto.
  Qed.

  Lemma root_step_inv par i j r : par i = Some j -> root par i r -> root par j r.
  Proof.
    intros E [h A]. inversion A as [? E'|? ? ? ? E' N' B]; subst.
    - assert (j = r) by congruence; subst. exists 0; exact A.
    - assert (j0 = j) by congruence; subst. eexists; eauto.
  Qed.

  Lemma root_dom par i r : root par i r -> dom par i.
  Proof. intros [h A]; inversion A; subst; eexists; eauto. Qed.

  Lemma wf_closed par i j : wf par -> par i = Some j -> dom par j.
  Proof.
    intros W E. destruct (W i (ex_intro _ j E)) as [r R].
    eapply root_dom, root_step_inv; eauto.
  Qed.

  (** [anc par i k]: k is reachable from i by zero or more parent links *)
  Inductive anc (par : pmap) : K -> K -> Prop :=
  | anc_refl i : anc par i i
  | anc_up i j k : par i = Some j -> anc par j k -> anc par i k.

  Lemma anc_trans par a b c : anc par a b -> anc par b c -> anc par a c.
  Proof. induction 1; auto. intros; econstructor; eauto. Qed.

  Lemma anc_step par a b c : anc par a b -> par b = Some c -> anc par a c.
  Proof. intros A E. eapply anc_trans; [exact A|]. econstructor; [exact E|constructor]. Qed.

  Lemma anc_root par a b r : anc par a b -> root par a r -> root par b r.
  Proof. induction 1 as [|i j k E A IH]; auto. intros R. apply IH. eapply root_step_inv; eauto. Qed.

  Lemma root_anc par a r : root par a r -> anc par a r.
  Proof. intros [h A]. induction A; [constructor|]. econstructor; eauto. Qed.

  Lemma anc_height par a b r h h' :
    anc par a b -> rooth par a r h -> rooth par b r h' -> h' <= h.
  Proof.
    intros A; revert h. induction A as [i|i j k E A IH]; intros h R1 R2.
    - destruct (rooth_fun _ _ _ _ _ _ R1 R2); lia.
    - inversion R1 as [? E'|? ? ? ? E' N' B]; subst.
      + assert (j = r) by congruence; subst. apply (IH 0); auto.
      + assert (j0 = j) by congruence; subst. specialize (IH _ B R2); lia.
  Qed.

  (** Redirecting a node to one of its proper ancestors changes no root. *)
  Lemma redirect_rooth par i j k r0 h0 :
    rooth par i r0 h0 -> par i = Some j -> j <> i -> anc par j k ->
    forall x r h, rooth par x r h -> exists h', rooth (upd par i k) x r h' /\ h' <= h.
  Proof.
    intros R0 E N A.
    inversion R0 as [? E'|? j' ? hj E' N' Rj]; subst; [congruence|].
    assert (j' = j) by congruence; subst j'.
    assert (Rk : root par k r0) by (eapply anc_root; eauto; eexists; eauto).
    destruct Rk as [hk Rk].
    assert (hk <= hj) by (eapply anc_height; eauto).
    assert (Nk : k <> i).
    { intros ->. destruct (rooth_fun _ _ _ _ _ _ Rk R0) as [_ ->]. lia. }
    assert (Low : forall x r h, rooth par x r h -> h <= hj -> rooth (upd par i k) x r h).
    { intros x r h R. induction R as [r E1|x y r h E1 N1 R IH]; intros L.
      - constructor. rewrite upd_ne; auto. intros ->. congruence.
      - econstructor; [|exact N1|apply IH; lia]. rewrite upd_ne; auto.
        intros ->. assert (RR : rooth par i r (S h)) by (econstructor; eauto).
        destruct (rooth_fun _ _ _ _ _ _ RR R0) as [_ Q]. lia. }
    intros x r h R. induction R as [r E1|x y r h E1 N1 R IH].
    - exists 0; split; [constructor|lia]. rewrite upd_ne; auto. intros ->; congruence.
    - destruct (kd x i) as [->|Nx].
      + assert (y = j) by congruence; subst y.
        destruct (rooth_fun _ _ _ _ _ _ R Rj) as [-> ->].
        exists (S hk); split; [|lia].
        econstructor; [apply upd_eq|exact Nk|]. apply Low; auto.
      + destruct IH as [h' [R' L]]. exists (S h'); split; [|lia].
        econstructor; [rewrite upd_ne; eauto|exact N1|exact R'].
  Qed.

  Lemma redirect_root par i j k :
    wf par -> par i = Some j -> j <> i -> anc par j k ->
    forall x r, root par x r <-> root (upd par i k) x r.
  Proof.
    intros W E N A.
    destruct (W i (ex_intro _ j E)) as [r0 [h0 R0]].
    assert (F : forall x r, root par x r -> root (upd par i k) x r).
    { intros x r [h R]. destruct (redirect_rooth _ _ _ _ _ _ R0 E N A _ _ _ R) as [h' [R' _]].
      exists h'; exact R'. }
    intros x r; split; [apply F|].
    intros R. assert (dom par x) as D.
    { destruct (root_dom _ _ _ R) as [y Ey]. unfold upd in Ey. destruct (kd x i); [subst; eexists; eauto|eexists; eauto]. }
    destruct (W x D) as [r' R']. rewrite (root_fun _ _ _ _ R (F _ _ R')). exact R'.
  Qed.

  Lemma upd_dom par i k x : dom par i -> (dom (upd par i k) x <-> dom par x).
  Proof.
    intros D. unfold dom, upd. destruct (kd x i) as [->|]; [|tauto].
    split; [intros _; exact D | intros _; eauto].
  Qed.

  Lemma redirect_wf par i j k :
    wf par -> par i = Some j -> j <> i -> anc par j k -> wf (upd par i k).
  Proof.
    intros W E N A x D.
    apply upd_dom in D; [|eexists; eauto].
    destruct (W x D) as [r R]. exists r. apply (redirect_root par i j k); auto.
  Qed.

  (** Linking one root below another. *)
  Lemma link_root_fwd par a b :
    par a = Some a -> par b = Some b -> a <> b ->
    forall x r, root par x r -> root (upd par a b) x (if kd r a then b else r).
  Proof.
    intros Ea Eb N x r [h R]. induction R as [r E|x y r h E N1 R IH].
    - destruct (kd r a) as [->|Nr].
      + eapply root_step; [apply upd_eq|]. apply root_refl. rewrite upd_ne; auto.
      + apply root_refl. rewrite upd_ne; auto.
    - eapply root_step; [|exact IH]. rewrite upd_ne; [exact E|]. intros ->; congruence.
  Qed.

  Lemma link_wf par a b :
    wf par -> par a = Some a -> par b = Some b -> a <> b -> wf (upd par a b).
  Proof.
    intros W Ea Eb N x D. apply upd_dom in D; [|eexists; eauto].
    destruct (W x D) as [r R]. eexists. apply link_root_fwd; eauto.
  Qed.

  (** ** Connectivity *)
  Lemma conn_refl (us : list (K * K)) x : conn us x x.
  Proof. unfold conn; apply rst_refl. Qed.
  Lemma conn_sym (us : list (K * K)) x y : conn us x y -> conn us y x.
  Proof. unfold conn; intros; apply rst_sym; assumption. Qed.
  Lemma conn_trans (us : list (K * K)) x y z : conn us x y -> conn us y z -> conn us x z.
  Proof. unfold conn; intros; eapply rst_trans; eauto. Qed.
  Lemma conn_in (us : list (K * K)) x y : In (x, y) us -> conn us x y.
  Proof. unfold conn; intros; apply rst_step; assumption. Qed.
  Lemma conn_mono (us vs : list (K * K)) x y : (forall p, In p us -> In p vs) -> conn us x y -> conn vs x y.
  Proof.
    intros S C. induction C as [x y Hxy| | |].
    - apply rst_step. apply S, Hxy.
    - apply rst_refl.
    - apply rst_sym; auto.
    - eapply rst_trans; eauto.
  Qed.
  Lemma conn_nil (x y : K) : conn [] x y -> x = y.
  Proof. induction 1 as [x y Hxy| | |]; [destruct Hxy|reflexivity|auto|congruence]. Qed.

  Lemma conn_cons (us : list (K * K)) a b x y :
    conn ((a, b) :: us) x y <->
    conn us x y \/ (conn us x a /\ conn us b y) \/ (conn us x b /\ conn us a y).
  Proof.
    split.
    - intros C. induction C as [x y Hxy|x|x y _ IH|x y z _ IH1 _ IH2].
      + destruct Hxy as [Q|Q].
        * inversion Q; subst. right; left; split; apply conn_refl.
        * left; apply conn_in, Q.
      + left; apply conn_refl.
      + destruct IH as [Q|[[Q1 Q2]|[Q1 Q2]]].
        * left; apply conn_sym, Q.
        * right; right; split; apply conn_sym; assumption.
        * right; left; split; apply conn_sym; assumption.
      + destruct IH1 as [P|[[P1 P2]|[P1 P2]]], IH2 as [Q|[[Q1 Q2]|[Q1 Q2]]].
        * left; eapply conn_trans; eauto.
        * right; left; split; [eapply conn_trans; eauto|assumption].
        * right; right; split; [eapply conn_trans; eauto|assumption].
        * right; left; split; [assumption|eapply conn_trans; eauto].
        * right; left; split; assumption.
        * left. eapply conn_trans; [exact P1|exact Q2].
        * right; right; split; [assumption|eapply conn_trans; eauto].
        * left. eapply conn_trans; [exact P1|exact Q2].
        * right; right; split; assumption.
    - assert (M : forall u v, conn us u v -> conn ((a, b) :: us) u v).
      { intros u v. apply conn_mono. intros; right; assumption. }
      assert (AB : conn ((a, b) :: us) a b) by (apply conn_in; left; reflexivity).
      intros [C|[[C1 C2]|[C1 C2]]].
      + apply M, C.
      + eapply conn_trans; [apply M, C1|]. eapply conn_trans; [exact AB|apply M, C2].
      + eapply conn_trans; [apply M, C1|]. eapply conn_trans; [apply conn_sym, AB|apply M, C2].
  Qed.

  Lemma conn_isolated (us : list (K * K)) i :
    (forall p, In p us -> fst p <> i /\ snd p <> i) ->
    forall z, (conn us i z -> z = i) /\ (conn us z i -> z = i).
  Proof.
    intros N z.
    assert (G : forall x y, conn us x y -> (x = i <-> y = i)).
    { intros x y C. induction C as [x y Hxy| | |]; [|tauto|tauto|tauto].
      destruct (N _ Hxy) as [A B]. cbn in *. tauto. }
    split; intros C; apply G in C; tauto.
  Qed.

  (** The forest represents exactly the closure of the unions [us]. *)
  Definition rep (par : pmap) (us : list (K * K)) : Prop :=
    wf par /\
    (forall x y rx ry, root par x rx -> root par y ry -> (rx = ry <-> conn us x y)).

  Lemma rep_conn_dom par us : rep par us -> forall x r, root par x r -> conn us x r.
  Proof.
    intros [W C] x r R. apply (C x r r r); auto.
    apply root_refl. eapply root_self; eauto.
  Qed.

  Lemma rep_redirect par us i j k :
    rep par us -> par i = Some j -> j <> i -> anc par j k -> rep (upd par i k) us.
  Proof.
    intros [W C] E N A. split; [eapply redirect_wf; eauto|].
    intros x y rx ry Rx Ry.
    apply (C x y); apply (redirect_root par i j k); auto.
  Qed.

  Lemma rep_same par us a b r :
    rep par us -> root par a r -> root par b r -> rep par ((a, b) :: us).
  Proof.
    intros [W C] Ra Rb. split; [exact W|]. intros x y rx ry Rx Ry.
    rewrite (C x y rx ry Rx Ry), conn_cons.
    assert (AB : conn us a b) by (apply (C a b r r); auto).
    split; [auto|]. intros [Q|[[Q1 Q2]|[Q1 Q2]]]; [exact Q| |].
    - eapply conn_trans; [exact Q1|]. eapply conn_trans; [exact AB|exact Q2].
    - eapply conn_trans; [exact Q1|]. eapply conn_trans; [apply conn_sym, AB|exact Q2].
  Qed.

  Lemma rep_link par us a b ra rb :
    rep par us -> root par a ra -> root par b rb -> ra <> rb ->
    rep (upd par ra rb) ((a, b) :: us).
  Proof.
    intros [W C] Ra Rb N.
    assert (Ea := root_self _ _ _ Ra). assert (Eb := root_self _ _ _ Rb).
    split; [apply link_wf; auto|].
    intros x y rx ry Rx Ry.
    assert (Dx : exists r, root par x r).
    { apply W. eapply upd_dom; [eexists; exact Ea|]. eapply root_dom; eauto. }
    assert (Dy : exists r, root par y r).
    { apply W. eapply upd_dom; [eexists; exact Ea|]. eapply root_dom; eauto. }
    destruct Dx as [sx Sx], Dy as [sy Sy].
    rewrite (root_fun _ _ _ _ Rx (link_root_fwd par ra rb Ea Eb N _ _ Sx)).
    rewrite (root_fun _ _ _ _ Ry (link_root_fwd par ra rb Ea Eb N _ _ Sy)).
    rewrite conn_cons.
    rewrite <- (C x y sx sy Sx Sy), <- (C x a sx ra Sx Ra), <- (C b y rb sy Rb Sy),
      <- (C x b sx rb Sx Rb), <- (C a y ra sy Ra Sy).
    destruct (kd sx ra) as [->|N1], (kd sy ra) as [->|N2]; split; intros Q; auto.
    - destruct Q as [Q|[[Q1 Q2]|[Q1 Q2]]]; congruence.
    - destruct Q as [Q|[[Q1 Q2]|[Q1 Q2]]]; congruence.
    - destruct Q as [Q|[[Q1 Q2]|[Q1 Q2]]]; congruence.
  Qed.

  Lemma rep_link_sym par us a b ra rb :
    rep par us -> root par a ra -> root par b rb -> ra <> rb ->
    rep (upd par rb ra) ((a, b) :: us).
  Proof.
    intros R Ra Rb N.
    destruct (rep_link par us b a rb ra R Rb Ra (not_eq_sym N)) as [W C].
    split; [exact W|]. intros x y rx ry Rx Ry. rewrite (C x y rx ry Rx Ry), !conn_cons. tauto.
  Qed.

  Lemma rep_init par : (forall x, dom par x -> par x = Some x) -> rep par [].
  Proof.
    intros I. split.
    - intros x D. exists x. apply root_refl; auto.
    - intros x y rx ry Rx Ry.
      rewrite (root_fun _ _ _ _ Rx (root_refl _ _ (I _ (root_dom _ _ _ Rx)))).
      rewrite (root_fun _ _ _ _ Ry (root_refl _ _ (I _ (root_dom _ _ _ Ry)))).
      split; [intros ->; apply conn_refl|apply conn_nil].
  Qed.

  (** [rep] only looks at the map pointwise. *)
  Lemma rooth_ext par par' : (forall x, par x = par' x) ->
    forall i r h, rooth par i r h -> rooth par' i r h.
  Proof.
    intros E i r h R. induction R; [constructor|econstructor; eauto]; rewrite <- E; auto.
  Qed.

  Lemma root_ext par par' : (forall x, par x = par' x) ->
    forall i r, root par i r <-> root par' i r.
  Proof.
    intros E i r; split; intros [h R]; exists h.
    - eapply rooth_ext; [exact E|exact R].
    - eapply rooth_ext; [intros x; symmetry; apply E|exact R].
  Qed.

  Lemma rep_ext par par' us : (forall x, par x = par' x) -> rep par us -> rep par' us.
  Proof.
    intros E [W C]. split.
    - intros i [j Ej]. rewrite <- E in Ej. destruct (W i (ex_intro _ j Ej)) as [r R].
      exists r. apply (root_ext par par'); auto.
    - intros x y rx ry Rx Ry. apply (C x y); apply (root_ext par par'); auto.
  Qed.

  (** ** Height bound: used for fuel *)
  Fixpoint pathn (par : pmap) (n : nat) (i : K) : list K :=
    match n with
    | 0 => []
    | S n => i :: match par i with Some j => pathn par n j | None => [] end
    end.

  Lemma rooth_path par i r h : rooth par i r h ->
    exists l, length l = S h /\ NoDup l /\ (forall x, In x l -> dom par x) /\
              (forall x, In x l -> exists h', rooth par x r h' /\ h' <= h).
  Proof.
    intros R. induction R as [r E|i j r h E N R IH].
    - exists [r]. repeat split; [repeat constructor; simpl; tauto| |].
      + intros x [<-|[]]; eexists; eauto.
      + intros x [<-|[]]; exists 0; split; [constructor; auto|lia].
    - destruct IH as [l [L [ND [D H]]]].
      assert (Ri : rooth par i r (S h)) by (econstructor; eauto).
      exists (i :: l). repeat split.
      + simpl; lia.
      + constructor; auto. intros Hin. destruct (H i Hin) as [h' [R' Hle]].
        destruct (rooth_fun _ _ _ _ _ _ Ri R') as [_ Q]. lia.
      + intros x [<-|Hx]; [eexists; eauto|auto].
      + intros x [<-|Hx]; [exists (S h); split; [auto|lia]|].
        destruct (H x Hx) as [h' [R' Hle]]. exists h'; split; auto.
  Qed.

  Lemma rooth_bound par i r h (D : list K) :
    (forall x, dom par x -> In x D) -> rooth par i r h -> h < length D.
  Proof.
    intros HD R. destruct (rooth_path _ _ _ _ R) as [l [L [ND [Dl _]]]].
    assert (length l <= length D).
    { apply NoDup_incl_length; auto. intros x Hx; auto. }
    lia.
  Qed.

  (** ** Path compression: [par'] has the same elements and the same roots as [par] *)
  Definition compresses (par par' : pmap) : Prop :=
    wf par' /\ (forall x, dom par x <-> dom par' x) /\ (forall x r, root par x r <-> root par' x r).

  Lemma compresses_refl par : wf par -> compresses par par.
  Proof. intros W; repeat split; auto; tauto. Qed.

  Lemma compresses_trans a b c : compresses a b -> compresses b c -> compresses a c.
  Proof.
    intros [W1 [D1 R1]] [W2 [D2 R2]]. split; [exact W2|]. split.
    - intros x. rewrite D1. apply D2.
    - intros x r. rewrite R1. apply R2.
  Qed.

  Lemma compresses_ext a b c : compresses a b -> (forall x, b x = c x) -> compresses a c.
  Proof.
    intros [W [D R]] E. split; [|split].
    - intros x [y Ey]. rewrite <- E in Ey. destruct (W x (ex_intro _ y Ey)) as [r Rr].
      exists r. apply (root_ext b c E), Rr.
    - intros x. rewrite D. unfold dom. split; intros [y Ey]; exists y; congruence.
    - intros x r. rewrite R. apply root_ext, E.
  Qed.

  Lemma rep_compresses a b us : rep a us -> compresses a b -> rep b us.
  Proof.
    intros [W C] [W' [D R]]. split; [exact W'|].
    intros x y rx ry Rx Ry. apply (C x y); apply R; assumption.
  Qed.

  Lemma redirect_compresses par i j k :
    wf par -> par i = Some j -> j <> i -> anc par j k -> compresses par (upd par i k).
  Proof.
    intros W E N A. split; [eapply redirect_wf; eauto|]. split.
    - intros x. symmetry. apply upd_dom. eexists; eauto.
    - eapply redirect_root; eauto.
  Qed.

  (** one step of path halving: [i] is redirected to its grandparent [k] *)
  Lemma halve_step par i j k r h :
    wf par -> par i = Some j -> j <> i -> par j = Some k -> rooth par i r h ->
    compresses par (upd par i k) /\ exists h', rooth (upd par i k) k r h' /\ h' < h.
  Proof.
    intros W E N Ek R.
    assert (A : anc par j k) by (econstructor; [exact Ek|constructor]).
    split; [eapply redirect_compresses; eauto|].
    inversion R as [? E'|? j' ? h1 E' N' Rj]; subst; [congruence|].
    assert (j' = j) by congruence; subst j'.
    destruct (root_step_inv par j k r Ek (ex_intro _ h1 Rj)) as [h2 R2].
    assert (h2 <= h1) by (eapply anc_height; eauto).
    destruct (redirect_rooth _ _ _ _ _ _ R E N A _ _ _ R2) as [h' [R' L]].
    exists h'; split; [exact R'|lia].
  Qed.
End Forest.
