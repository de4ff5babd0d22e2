(** C94: sets of solutions of inequalities (linear_inequality_solver.hh, cubic_inequality_solver.hh). *)
From Coq Require Import List Reals Bool Lia Lra Permutation Sorted.
From Verif Require Import Base UnionFind UnionFindProofs Numeric NumericRoots Polynomial PropNumeric PropNumericRoots PropPolynomial PropRationalFunction Inequality.
Import ListNotations. Local Open Scope R_scope.

Lemma leb_false x y : leb x y = false <-> y < x. Proof. unfold leb. destruct (Rle_dec x y); split; intros; try lra; try discriminate; reflexivity. Qed.
Lemma ltb_false x y : ltb x y = false <-> y <= x. Proof. unfold ltb. destruct (Rlt_dec x y); split; intros; try lra; try discriminate; reflexivity. Qed.
(** ** Order of the extended reals *)
Definition lt (a b : ext) : Prop := match a, b with MInf, MInf => False | MInf, _ => True | Fin _, MInf => False | Fin x, Fin y => x < y | Fin _, PInf => True | PInf, _ => False end.
Lemma elt_true a b : elt a b = true <-> lt a b. Proof. destruct a, b; cbn; try (split; [discriminate|tauto]); try (split; [tauto|reflexivity]). apply ltb_true. Qed.
Lemma elt_false a b : elt a b = false <-> ~ lt a b. Proof. rewrite <- elt_true. destruct (elt a b); split; intros; try congruence; try reflexivity; try (contradiction H; reflexivity). Qed.
Lemma eeq_true a b : eeq a b = true <-> a = b. Proof. destruct a, b; cbn; try (split; [discriminate|discriminate]); try tauto. destruct (Req_EM_T r r0); split; intros; congruence. Qed.
Lemma eeq_false a b : eeq a b = false <-> a <> b. Proof. rewrite <- eeq_true. destruct (eeq a b); split; intros; try congruence; try reflexivity; try (contradiction H; reflexivity). Qed.
Lemma lt_irr a : ~ lt a a. Proof. destruct a; cbn; lra. Qed.
Lemma lt_trans a b c : lt a b -> lt b c -> lt a c. Proof. destruct a, b, c; cbn; lra. Qed.
Lemma lt_total a b : lt a b \/ a = b \/ lt b a. Proof. destruct a, b; cbn; try tauto. destruct (Rtotal_order r r0) as [|[->|]]; auto. Qed.
Lemma not_lt a b : ~ lt a b <-> a = b \/ lt b a. Proof. split; [destruct (lt_total a b) as [|[|]]; tauto|]. intros [->|H] K; [exact (lt_irr _ K)|exact (lt_irr _ (lt_trans _ _ _ H K))]. Qed.
Lemma le_lt a b c : ~ lt b a -> lt b c -> lt a c. Proof. rewrite not_lt. intros [->|H] K; [exact K|exact (lt_trans _ _ _ H K)]. Qed.
Lemma lt_le a b c : lt a b -> ~ lt c b -> lt a c. Proof. rewrite not_lt. intros H [->|K]; [exact H|exact (lt_trans _ _ _ H K)]. Qed.

(** ** Joins of adjacent closed intervals *)
Definition closed (e : rival) : Prop := rlof e = false /\ rupf e = false /\ lt (rlo e) (rup e).
Definition inside (e : rival) (x : R) : Prop := ~ lt (Fin x) (rlo e) /\ ~ lt (rup e) (Fin x).
Lemma contains_closed e x : closed e -> riv_contains e (Fin x) = true <-> inside e x.
Proof.
  destruct e as [l u a b]. intros (A & B & L). cbn [rlof rupf rlo rup] in *. subst. unfold riv_contains, riv_singleton, inside, rlopen, ruopen. cbn [rlo rup rlof rupf].
  destruct (eeq l u) eqn:E; [apply eeq_true in E; subst; destruct (lt_irr _ L)|]. cbn [andb]. rewrite !not_lt.
  destruct l as [|l|], u as [|u|]; cbn in L |- *; try tauto; rewrite ?andb_true_r; repeat match goal with |- context[Req_EM_T ?a ?b] => destruct (Req_EM_T a b) end; cbn [andb negb]; try (rewrite andb_true_iff, !ltb_true); rewrite ?ltb_true; cbn; subst;
    split; intros; try reflexivity; try lra; repeat match goal with H : _ /\ _ |- _ => destruct H | H : _ \/ _ |- _ => destruct H | H : Fin _ = Fin _ |- _ => injection H as H; subst end; try discriminate; try contradiction; try (split; lra); try lra; auto.
Qed.
(** the intervals so far: closed, increasing and apart, none beyond [p] *)
Fixpoint good (d : list rival) (p : ext) : Prop := match d with [] => True | e :: d' => closed e /\ ~ lt p (rup e) /\ Forall (fun e' => lt (rup e) (rlo e')) d' /\ good d' p end.
Lemma good_all d p : good d p -> Forall (fun e => closed e /\ ~ lt p (rup e)) d.
Proof. induction d as [|e d IH]; cbn; [constructor|]. intros (C & L & _ & G). constructor; auto. Qed.
Lemma overlaps_below e p q : closed e -> lt (rup e) p -> riv_overlaps e (riv p q) = false.
Proof. intros C L. unfold riv_overlaps. cbn [riv rlo rup]. apply elt_true in L. rewrite L, orb_true_r. reflexivity. Qed.
Lemma overlaps_touch e p q : closed e -> rup e = p -> lt p q -> riv_overlaps e (riv p q) = true /\ riv_join (riv p q) e = riv (rlo e) q.
Proof.
  destruct e as [l u a b]. intros (A & B & L) E K. cbn [rlof rupf rlo rup] in *. subst. pose proof (lt_trans _ _ _ L K) as M. destruct p as [|p|]; [destruct l; cbn in L; tauto| |destruct q; cbn in K; tauto].
  assert (X1 : elt q l = false) by (apply elt_false; intros X; exact (lt_irr _ (lt_trans _ _ _ M X))). assert (X2 : elt (Fin p) (Fin p) = false) by (apply elt_false, lt_irr). assert (X3 : eeq l q = false) by (apply eeq_false; intros ->; exact (lt_irr _ M)). assert (X4 : eeq q l = false) by (apply eeq_false; intros ->; exact (lt_irr _ M)).
  assert (X5 : elt l (Fin p) = true) by (apply elt_true; exact L). assert (X6 : elt q (Fin p) = false) by (apply elt_false; intros X; exact (lt_irr _ (lt_trans _ _ _ K X))).
  split.
  - unfold riv_overlaps. unfold rlopen, ruopen. cbn [riv rlo rup rlof rupf]. rewrite X1, X2, X3. cbn [orb andb eeq]. rewrite andb_false_r. reflexivity.
  - unfold riv_join. unfold rlopen, ruopen. cbn [riv rlo rup rlof rupf]. rewrite X1, X2, X4. cbn [orb andb eeq]. rewrite andb_false_r. cbn [andb]. unfold emin, emax, riv. rewrite X5, X6. reflexivity.
Qed.
Lemma loop_spec p q : lt p q -> forall d, good d p -> exists keep tail l, rjoin_loop (riv p q) d = (riv l q, keep) /\ d = keep ++ tail /\ Forall (fun e => lt (rup e) l) keep /\ (tail = [] /\ l = p \/ exists e, tail = [e] /\ rup e = p /\ l = rlo e).
Proof.
  intros K. induction d as [|e d IH]; intros G; cbn [rjoin_loop]; [exists [], [], p; auto 10|]. destruct G as (C & L & F & G). apply not_lt in L. destruct L as [L|L].
  - assert (Nd : d = []). { destruct d as [|e' d]; [reflexivity|exfalso]. inversion F; subst. destruct G as ((_ & _ & C') & L' & _). apply L'. exact (lt_trans _ _ _ H1 C'). } subst d.
    destruct (overlaps_touch e p q C (eq_sym L) K) as [-> ->]. cbn [rjoin_loop]. exists [], [e], (rlo e). repeat split; auto. right. exists e. auto.
  - rewrite (overlaps_below e p q C L). destruct (IH G) as (keep & tail & l & E & D & Fk & T). rewrite E. exists (e :: keep), tail, l. split; [reflexivity|]. split; [cbn; congruence|]. split; [|exact T]. constructor; [|exact Fk]. destruct T as [[_ ->]|(e' & T & _ & ->)]; [exact L|]. subst. apply (proj1 (Forall_forall _ _) F). apply in_or_app. right. cbn. auto.
Qed.
Lemma ins_last i : forall d, Forall (fun e => lt (rlo e) (rlo i)) d -> rset_ins i d = d ++ [i].
Proof. induction d as [|e d IH]; intros F; [reflexivity|]. inversion F; subst. cbn [rset_ins app]. rewrite (proj2 (elt_true _ _) H1). rewrite (proj2 (elt_false _ _)); [rewrite IH by assumption; reflexivity|]. intros K. exact (lt_irr _ (lt_trans _ _ _ K H1)). Qed.
Lemma good_app p q l keep : Forall closed keep -> good keep p -> lt l q -> ~ lt q p -> Forall (fun e => lt (rup e) l) keep -> good (keep ++ [riv l q]) q.
Proof.
  intros C G L Q F. induction keep as [|e keep IH]; cbn [app good].
  - split; [split; [reflexivity|]; split; [reflexivity|exact L]|]. split; [apply lt_irr|]. auto.
  - inversion C; subst. inversion F; subst. destruct G as (_ & Lp & Fg & G). split; [assumption|]. split; [|split].
    + intros K. exact (lt_irr _ (lt_trans _ _ _ (lt_trans _ _ _ H3 L) K)).
    + apply Forall_app. split; [exact Fg|]. constructor; [exact H3|constructor].
    + apply IH; assumption.
Qed.
Lemma good_prefix p tail : forall keep, good (keep ++ tail) p -> good keep p.
Proof. induction keep as [|e keep IH]; cbn [app good]; [auto|]. intros (C & L & F & G). split; [exact C|]. split; [exact L|]. split; [apply Forall_app in F; tauto|apply IH, G]. Qed.
Lemma join_step d p q : good d p -> lt p q -> good (rd_join d (riv p q)) q /\ forall x, rd_contains (rd_join d (riv p q)) (Fin x) = true <-> rd_contains d (Fin x) = true \/ inside (riv p q) x.
Proof.
  intros G K. unfold rd_join. assert (Em : riv_empty (riv p q) = false). { unfold riv_empty. cbn [riv rlo rup]. rewrite (proj2 (elt_false q p)) by (intros X; exact (lt_irr _ (lt_trans _ _ _ X K))). rewrite (proj2 (eeq_false p q)); [reflexivity|intros ->; exact (lt_irr _ K)]. } rewrite Em.
  destruct (loop_spec p q K d G) as (keep & tail & l & -> & D & F & T). assert (Ck : Forall closed keep). { apply good_all in G. rewrite D in G. apply Forall_app in G. destruct G as [G _]. eapply Forall_impl; [|exact G]. cbn. tauto. }
  assert (Fl : Forall (fun e => lt (rlo e) l) keep) by (rewrite Forall_forall in *; intros e I; destruct (Ck e I) as (_ & _ & H); exact (lt_trans _ _ _ H (F e I))).
  assert (Lq : lt l q). { destruct T as [[_ ->]|(e & -> & U & ->)]; [exact K|]. apply good_all in G. rewrite D in G. apply Forall_app in G. destruct G as [_ G]. inversion G as [|? ? ((_ & _ & H) & _) _]; subst. exact (lt_trans _ _ _ H K). }
  rewrite (ins_last (riv l q) keep Fl). split.
  - apply (good_app p); [exact Ck| |exact Lq|intros X; exact (lt_irr _ (lt_trans _ _ _ X K))|exact F]. rewrite D in G. exact (good_prefix _ _ _ G).
  - intros x. unfold rd_contains. rewrite D, !existsb_app. cbn [existsb]. rewrite !orb_true_iff. rewrite (contains_closed (riv l q) x) by (split; [reflexivity|]; split; [reflexivity|exact Lq]).
    destruct T as [[-> ->]|(e & -> & U & ->)]; cbn [existsb]; rewrite ?orb_true_iff; [intuition discriminate|].
    apply good_all in G. rewrite D in G. apply Forall_app in G. destruct G as [_ G]. inversion G as [|? ? (C & _) _]; subst. rewrite (contains_closed e x C). destruct C as (_ & _ & H). unfold inside. cbn [riv rlo rup].
    assert (X : ~ lt (Fin x) (rlo e) /\ ~ lt q (Fin x) <-> (~ lt (Fin x) (rlo e) /\ ~ lt (rup e) (Fin x)) \/ (~ lt (Fin x) (rup e) /\ ~ lt q (Fin x))).
    { split.
      - intros [A B]. destruct (lt_total (Fin x) (rup e)) as [Y|[Y|Y]].
        + left. split; [exact A|]. intros Z. exact (lt_irr _ (lt_trans _ _ _ Y Z)).
        + left. split; [exact A|]. rewrite Y. apply lt_irr.
        + right. split; [|exact B]. intros Z. exact (lt_irr _ (lt_trans _ _ _ Y Z)).
      - intros [[A B]|[A B]]; split; try assumption.
        + intros Z. exact (B (lt_trans _ _ _ K Z)).
        + intros Z. exact (A (lt_trans _ _ _ Z H)). }
    rewrite X. intuition discriminate.
Qed.
(** ** The samples *)
Lemma sample_inside l u : lt l u -> exists s, sample (riv l u) = Ok s /\ lt l (Fin s) /\ lt (Fin s) u.
Proof.
  intros L. unfold sample, riv_complete, riv_singleton, rlopen, ruopen. cbn [riv rlo rup rlof rupf]. destruct l as [|l|], u as [|u|]; cbn in L; try tauto; cbn [eeq andb negb].
  - eexists. split; [reflexivity|]. cbn. split; [exact I|lra].
  - eexists. split; [reflexivity|]. cbn. auto.
  - destruct (Req_EM_T l u); [lra|]. cbn [andb]. eexists. split; [reflexivity|]. cbn. lra.
  - eexists. split; [reflexivity|]. cbn. split; [lra|exact I].
Qed.
(** strictly increasing and beyond [l] *)
Fixpoint increasing (l : ext) (xs : list R) : Prop := match xs with [] => True | x :: t => lt l (Fin x) /\ increasing (Fin x) t end.
Lemma fold_spec (Q : R -> R) (step : res (list rival) -> rival -> res (list rival)) :
  (forall I l u s, lt l u -> sample (riv l u) = Ok s -> step (Ok I) (riv l u) = Ok (if leb 0 (Q s) then rd_join I (riv l u) else I)) ->
  forall xs l I, increasing l xs -> l <> PInf -> good I l -> exists J, fold_left step (between l xs) (Ok I) = Ok J /\
    forall x, rd_contains J (Fin x) = true <-> rd_contains I (Fin x) = true \/ exists i s, In i (between l xs) /\ sample i = Ok s /\ 0 <= Q s /\ inside i x.
Proof.
  intros St. assert (One : forall I l u, good I l -> lt l u -> exists J, step (Ok I) (riv l u) = Ok J /\ good J u /\ forall x, rd_contains J (Fin x) = true <-> rd_contains I (Fin x) = true \/ exists s, sample (riv l u) = Ok s /\ 0 <= Q s /\ inside (riv l u) x).
  { intros I l u G L. destruct (sample_inside l u L) as (s & Es & _). rewrite (St I l u s L Es). destruct (leb 0 (Q s)) eqn:B.
    - apply leb_true in B. destruct (join_step I l u G L) as [G' C]. eexists. split; [reflexivity|]. split; [exact G'|]. intros x. rewrite C. split; (intros [H|H]; [auto|right]); [exists s; auto|destruct H as (? & _ & _ & H); exact H].
    - apply leb_false in B. eexists. split; [reflexivity|]. split; [|intros x; split; [auto|intros [H|(s' & E & H & _)]; [exact H|rewrite Es in E; injection E as <-; lra]]].
      clear -G L. induction I as [|e I IH]; [exact Logic.I|]. destruct G as (C & Le & F & G). split; [exact C|]. split; [|split; [exact F|apply IH, G]]. intros K. exact (Le (lt_trans _ _ _ L K)). }
  induction xs as [|x xs IH]; intros l I Inc Nl G; cbn [between fold_left].
  - destruct (One I l PInf G) as (J & E & _ & C); [destruct l; cbn; tauto|]. exists J. split; [exact E|]. intros y. rewrite C. cbn [In]. split; (intros [H|H]; [auto|right]).
    + destruct H as (s & H). exists (riv l PInf), s. tauto.
    + destruct H as (i & s & [<-|[]] & H). exists s. tauto.
  - destruct Inc as [Lx Inc]. destruct (One I l (Fin x) G Lx) as (J & -> & GJ & CJ). destruct (IH (Fin x) J Inc ltac:(discriminate) GJ) as (J' & E & C). exists J'. split; [exact E|]. intros y. rewrite C, CJ. cbn [In]. split.
    + intros [[H|(s & H)]|(i & s & Hi & H)]; [auto|right; exists (riv l (Fin x)), s; tauto|right; exists i, s; tauto].
    + intros [H|(i & s & [<-|Hi] & H)]; [auto|left; right; exists s; exact H|right; exists i, s; tauto].
Qed.
(** the intervals cut the line at the roots *)
Definition end_ok (xs : list R) (e : ext) : Prop := match e with Fin r => In r xs | _ => True end.
Lemma between_spec all : forall xs l, increasing l xs -> l <> PInf -> end_ok all l -> (forall x, In x xs -> In x all) -> (forall r, In r all -> lt l (Fin r) -> In r xs) ->
  (forall i, In i (between l xs) -> exists a b, i = riv a b /\ lt a b /\ end_ok all a /\ end_ok all b /\ forall r, In r all -> ~ (lt a (Fin r) /\ lt (Fin r) b)) /\
  (forall y, lt l (Fin y) -> ~ In y all -> exists a b, In (riv a b) (between l xs) /\ lt a (Fin y) /\ lt (Fin y) b).
Proof.
  induction xs as [|x xs IH]; intros l Inc Nl El Sub Cov; cbn [between].
  - split.
    + intros i [<-|[]]. exists l, PInf. split; [reflexivity|]. split; [destruct l; cbn; tauto|]. split; [exact El|]. split; [exact I|]. intros r Hr [H _]. exact (Cov r Hr H).
    + intros y Ly Ny. exists l, PInf. cbn. auto.
  - destruct Inc as [Lx Inc]. destruct (IH (Fin x) Inc ltac:(discriminate)) as [S1 S2]; [apply Sub; cbn; auto|intros; apply Sub; cbn; auto| |].
    + intros r Hr Lr. destruct (Cov r Hr (lt_trans _ _ _ Lx Lr)) as [<-|H]; [destruct (lt_irr _ Lr)|exact H].
    + split.
      * intros i [<-|H]; [|apply S1, H]. exists l, (Fin x). split; [reflexivity|]. split; [exact Lx|]. split; [exact El|]. split; [apply Sub; cbn; auto|]. intros r Hr [H1 H2]. destruct (Cov r Hr H1) as [->|H]; [exact (lt_irr _ H2)|].
        clear -Inc H H2. revert x Inc H2. induction xs as [|z xs IHx]; [destruct H|]. intros x [Lz Inc] H2. destruct H as [->|H]; [exact (lt_irr _ (lt_trans _ _ _ Lz H2))|]. apply (IHx H z Inc). exact (lt_trans _ _ _ H2 Lz).
      * intros y Ly Ny. destruct (lt_total (Fin y) (Fin x)) as [H|[H|H]].
        -- exists l, (Fin x). cbn. auto.
        -- injection H as ->. destruct Ny. apply Sub. cbn. auto.
        -- destruct (S2 y H Ny) as (a & b & Hi & Hab). exists a, b. cbn [In]. auto.
Qed.
(** sorting *)
Lemma insert_perm v l : Permutation (insert v l) (v :: l).
Proof. induction l as [|w l IH]; cbn; [reflexivity|]. destruct (leb v w); [reflexivity|]. rewrite IH. apply perm_swap. Qed.
Lemma sort_perm l : Permutation (sort l) l. Proof. induction l as [|v l IH]; cbn; [reflexivity|]. rewrite insert_perm, IH. reflexivity. Qed.
Lemma insert_sorted v l : Sorted Rle l -> Sorted Rle (insert v l).
Proof.
  induction 1 as [|w l H IH HR]; cbn; [repeat constructor|]. destruct (leb v w) eqn:B; [apply leb_true in B; constructor; [constructor; assumption|constructor; exact B]|]. apply leb_false in B. constructor; [exact IH|]. destruct l as [|z l]; cbn; [constructor; lra|]. inversion HR; subst. destruct (leb v z); constructor; lra.
Qed.
Lemma sort_sorted l : Sorted Rle (sort l). Proof. induction l; cbn; [constructor|apply insert_sorted; assumption]. Qed.
Lemma sorted_increasing l : Sorted Rle l -> NoDup l -> increasing MInf l.
Proof.
  intros S N. assert (G : forall l r, Sorted Rle l -> NoDup l -> HdRel Rle r l -> ~ In r l -> increasing (Fin r) l).
  { clear. induction l as [|x l IH]; intros r S N H Nr; [exact I|]. inversion S; subst. inversion N; subst. inversion H; subst. cbn [increasing lt]. cbn in Nr. split; [destruct (Req_dec r x); [subst; tauto|lra]|apply IH; assumption]. }
  destruct l as [|x l]; [exact I|]. inversion S; subst. inversion N; subst. cbn. split; [exact I|apply G; assumption].
Qed.
Lemma take_spec : forall n x xs, firstn n x = map Some xs -> length xs = n -> take n x = Ok xs.
Proof. induction n as [|n IH]; intros x xs F L; destruct xs as [|v xs]; try discriminate L; [destruct x; reflexivity|]. destruct x as [|a x]; [discriminate F|]. cbn [firstn map] in F. injection F as -> F. cbn [take of_option bind]. rewrite (IH x xs F) by (cbn in L; lia). reflexivity. Qed.

(** ** Signs between roots *)
Lemma evaluate_value P n x : evaluate n P x = value P n x.
Proof. unfold evaluate, value. induction n as [|n IH]; [cbn; ring|]. cbn [sum sum_f_R0]. cbn [sum] in IH. rewrite IH. reflexivity. Qed.
Lemma no_root_sign Q a b : (forall x, continuity_pt Q x) -> (forall x, lt a (Fin x) -> lt (Fin x) b -> Q x <> 0) -> forall x y, lt a (Fin x) -> lt (Fin x) b -> lt a (Fin y) -> lt (Fin y) b -> 0 < Q x -> 0 < Q y.
Proof.
  intros C N. assert (W : forall x y, x < y -> lt a (Fin x) -> lt (Fin y) b -> Q x * Q y < 0 -> False).
  { intros x y L Ha Hb S. destruct (Rtotal_order (Q x) 0) as [X|[X|X]].
    - destruct (IVT Q x y C L X ltac:(nra)) as (z & Z & E). apply (N z); [|  |exact E].
      + destruct (Req_dec z x) as [->|]; [exact Ha|]. apply (lt_trans _ _ _ Ha). cbn. lra.
      + destruct (Req_dec z y) as [->|]; [exact Hb|]. eapply lt_trans; [|exact Hb]. cbn. lra.
    - rewrite X in S. lra.
    - destruct (IVT (fun z => - Q z) x y) as (z & Z & E); [intros z; apply continuity_pt_opp, C|exact L|lra|nra|]. apply (N z); [| |lra].
      + destruct (Req_dec z x) as [->|]; [exact Ha|]. apply (lt_trans _ _ _ Ha). cbn. lra.
      + destruct (Req_dec z y) as [->|]; [exact Hb|]. eapply lt_trans; [|exact Hb]. cbn. lra. }
  intros x y Xa Xb Ya Yb P. destruct (Rtotal_order (Q y) 0) as [Y|[Y|Y]]; [exfalso|destruct (N y Ya Yb Y)|exact Y]. destruct (Rtotal_order x y) as [L|[->|L]]; [apply (W x y L Xa Yb); nra|lra|apply (W y x L Ya Xb); nra].
Qed.
Lemma roots_apart (xs : list R) x : exists d, 0 < d /\ forall r, In r xs -> r <> x -> d <= Rabs (r - x).
Proof.
  induction xs as [|a xs (d & D & H)]; [exists 1; split; [lra|intros r []]|]. destruct (Req_dec a x) as [E|N].
  - exists d. split; [exact D|]. intros r [<-|I] Nr; [contradiction|apply H; assumption].
  - exists (Rmin d (Rabs (a - x))). split; [apply Rmin_pos; [exact D|apply Rabs_pos_lt; lra]|]. intros r [<-|I] Nr; [apply Rmin_r|]. eapply Rle_trans; [apply Rmin_l|]. apply H; assumption.
Qed.
Lemma interior_point a b x d : lt a b -> ~ lt (Fin x) a -> ~ lt b (Fin x) -> 0 < d -> exists y, lt a (Fin y) /\ lt (Fin y) b /\ y <> x /\ Rabs (y - x) < d.
Proof.
  intros L A B D. assert (R : lt (Fin x) b -> exists y, lt a (Fin y) /\ lt (Fin y) b /\ y <> x /\ Rabs (y - x) < d).
  { intros X. destruct b as [|b|]; cbn in X; [tauto| |].
    - exists (x + Rmin d (b - x) / 2). pose proof (Rmin_l d (b - x)). pose proof (Rmin_r d (b - x)). assert (0 < Rmin d (b - x)) by (apply Rmin_pos; lra). split; [apply (le_lt _ (Fin x)); [exact A|cbn; lra]|]. split; [cbn; lra|]. split; [lra|]. rewrite Rabs_pos_eq; lra.
    - exists (x + d / 2). split; [apply (le_lt _ (Fin x)); [exact A|cbn; lra]|]. split; [exact I|]. split; [lra|]. rewrite Rabs_pos_eq; lra. }
  destruct (lt_total (Fin x) b) as [X|[X|X]]; [exact (R X)| |contradiction]. subst b. destruct a as [|a|]; cbn in L; [| |tauto].
  - exists (x - d / 2). split; [exact I|]. split; [cbn; lra|]. split; [lra|]. rewrite Rabs_left; lra.
  - exists (x - Rmin d (x - a) / 2). pose proof (Rmin_l d (x - a)). pose proof (Rmin_r d (x - a)). assert (0 < Rmin d (x - a)) by (apply Rmin_pos; lra). split; [cbn; lra|]. split; [cbn; lra|]. split; [lra|]. rewrite Rabs_left; lra.
Qed.
Lemma solution_set Q xs : (forall x, continuity_pt Q x) -> (forall y, Q y = 0 <-> In y xs) -> increasing MInf xs -> forall x,
  (exists i s, In i (between MInf xs) /\ sample i = Ok s /\ 0 <= Q s /\ inside i x) <-> 0 <= Q x /\ ~ near x (fun y => Q y < 0).
Proof.
  intros C Rt Inc x. destruct (between_spec xs xs MInf Inc ltac:(discriminate) I ltac:(auto) ltac:(auto)) as [S1 S2].
  assert (Pos : forall i s, In i (between MInf xs) -> sample i = Ok s -> 0 <= Q s -> exists a b, i = riv a b /\ lt a b /\ end_ok xs a /\ end_ok xs b /\ forall y, lt a (Fin y) -> lt (Fin y) b -> 0 < Q y).
  { intros i s Hi Es Hs. destruct (S1 i Hi) as (a & b & -> & L & Ea & Eb & Nr). exists a, b. split; [reflexivity|]. split; [exact L|]. split; [exact Ea|]. split; [exact Eb|]. destruct (sample_inside a b L) as (s' & Es' & A & B). rewrite Es in Es'. injection Es' as <-.
    assert (N : forall y, lt a (Fin y) -> lt (Fin y) b -> Q y <> 0) by (intros y Ya Yb Z; apply Rt in Z; exact (Nr y Z (conj Ya Yb))). intros y Ya Yb. apply (no_root_sign Q a b C N s y A B Ya Yb). specialize (N s A B). lra. }
  split.
  - intros (i & s & Hi & Es & Hs & [Ix1 Ix2]). destruct (Pos i s Hi Es Hs) as (a & b & -> & L & Ea & Eb & P). cbn [riv rlo rup] in Ix1, Ix2. split.
    + apply not_lt in Ix1, Ix2. destruct Ix1 as [X|X]; [rewrite <- X in Ea; apply Rt in Ea; lra|]. destruct Ix2 as [Y|Y]; [rewrite Y in Eb; apply Rt in Eb; lra|]. specialize (P x X Y). lra.
    + intros (d & D & H). destruct (interior_point a b x d L Ix1 Ix2 D) as (y & Ya & Yb & Yx & Yd). specialize (P y Ya Yb). specialize (H y Yx Yd). lra.
  - intros [Px Nx]. destruct (Req_dec (Q x) 0) as [Z|Z].
    + assert (Dec : (exists i s, In i (between MInf xs) /\ sample i = Ok s /\ 0 <= Q s /\ inside i x) \/ ~ (exists i s, In i (between MInf xs) /\ sample i = Ok s /\ 0 <= Q s /\ inside i x)) by apply Classical_Prop.classic. destruct Dec as [H|H]; [exact H|exfalso]. apply Nx.
      destruct (roots_apart xs x) as (d & D & Ap). exists d. split; [exact D|]. intros y Yx Yd. destruct (Classical_Prop.classic (In y xs)) as [Iy|Ny]; [specialize (Ap y Iy Yx); lra|].
      destruct (S2 y I Ny) as (a & b & Hi & Ya & Yb). destruct (S1 _ Hi) as (a' & b' & E & L & Ea & Eb & Nr). injection E as <- <-. destruct (sample_inside a b L) as (s & Es & Sa & Sb).
      assert (N : forall z, lt a (Fin z) -> lt (Fin z) b -> Q z <> 0) by (intros z Za Zb Z0; apply Rt in Z0; exact (Nr z Z0 (conj Za Zb))).
      destruct (Rle_dec 0 (Q s)) as [Hs|Hs].
      * exfalso. apply H. exists (riv a b), s. split; [exact Hi|]. split; [exact Es|]. split; [exact Hs|]. unfold inside. cbn [riv rlo rup]. split.
        -- intros X. destruct a as [|r|]; cbn in X, Ya; try tauto. cbn in Ea. specialize (Ap r Ea ltac:(lra)). rewrite Rabs_pos_eq in Ap by lra. rewrite Rabs_pos_eq in Yd by lra. lra.
        -- intros X. destruct b as [|r|]; cbn in X, Yb; try tauto. cbn in Eb. specialize (Ap r Eb ltac:(lra)). rewrite Rabs_left in Ap by lra. rewrite Rabs_left in Yd by lra. lra.
      * destruct (Rtotal_order (Q y) 0) as [|[E|E]]; [assumption|destruct (N y Ya Yb E)|]. exfalso. apply Hs. apply Rlt_le. exact (no_root_sign Q a b C N y s Ya Yb Sa Sb E).
    + assert (Nx' : ~ In x xs) by (rewrite <- Rt; exact Z). destruct (S2 x I Nx') as (a & b & Hi & Xa & Xb). destruct (S1 _ Hi) as (a' & b' & E & L & Ea & Eb & Nr). injection E as <- <-. destruct (sample_inside a b L) as (s & Es & Sa & Sb).
      assert (N : forall z, lt a (Fin z) -> lt (Fin z) b -> Q z <> 0) by (intros z Za Zb Z0; apply Rt in Z0; exact (Nr z Z0 (conj Za Zb))).
      exists (riv a b), s. split; [exact Hi|]. split; [exact Es|]. split; [apply Rlt_le; apply (no_root_sign Q a b C N x s Xa Xb Sa Sb); lra|]. unfold inside. cbn [riv rlo rup]. split; intros X; eapply lt_irr; eapply lt_trans; eassumption.
Qed.

(** the result contains the solutions of P(x) >= 0 other than isolated ones, and nothing else; polynomials for which solve_cubic_real works (C83) *)
Theorem C94_cubic_partial : forall P epsilon, exact 3 P epsilon -> (P 3%nat = 0 /\ P 2%nat = 0) \/ P 0%nat <> 0 \/ (P 3%nat <> 0 /\ P 1%nat <> 0) ->
  exists I, solve_cubic_inequality_real P epsilon = Ok I /\ forall x, rd_contains I (Fin x) = true <-> 0 <= evaluate 3 P x /\ ~ near x (fun y => evaluate 3 P y < 0).
Proof.
  intros P epsilon E Cs. destruct (proj2 (C83_arrays_partial P [None; None; None] epsilon) E ltac:(cbn; lia) Cs) as (n & x' & xs & R & _ & Ln & F & Nd & Rt). unfold solve_cubic_inequality_real. rewrite R. cbn [bind].
  assert (Cq : forall x, continuity_pt (evaluate 3 P) x) by (intros x; apply (continuity_pt_locally_ext (value P 3) (evaluate 3 P) 1 x Rlt_0_1); [intros y _; symmetry; apply evaluate_value|exact (value_continuous P 3 x)]).
  destruct (Nat.eqb_spec n 0) as [Z|Z].
  - rewrite Z in Ln. destruct xs; [|discriminate Ln]. assert (E0 : evaluate 3 P 0 = P 0%nat) by (unfold evaluate; cbn; ring).
    assert (Sg : forall x y, 0 < evaluate 3 P x -> 0 < evaluate 3 P y) by (intros x y; apply (no_root_sign (evaluate 3 P) MInf PInf Cq); try exact I; intros z _ _ Hz; apply Rt in Hz; destruct Hz).
    assert (N0 : forall x, evaluate 3 P x <> 0) by (intros x Hz; apply Rt in Hz; destruct Hz).
    eexists. split; [reflexivity|]. intros x. destruct (leb 0 (P 0%nat)) eqn:B.
    + apply leb_true in B. assert (P0 : 0 < evaluate 3 P 0) by (specialize (N0 0); lra). split; [intros _|reflexivity]. split; [apply Rlt_le, (Sg 0), P0|]. intros (d & D & H). specialize (H (x + d / 2) ltac:(lra)). rewrite Rabs_pos_eq in H by lra. specialize (H ltac:(lra)). pose proof (Sg 0 (x + d / 2) P0). lra.
    + apply leb_false in B. split; [discriminate|]. intros [H _]. exfalso. specialize (Sg x 0 ltac:(specialize (N0 x); lra)). lra.
  - rewrite (take_spec n x' xs F Ln). cbn [bind]. pose proof (sort_perm xs) as Pm.
    assert (Inc : increasing MInf (sort xs)) by (apply sorted_increasing; [apply sort_sorted|eapply Permutation_NoDup; [symmetry; exact Pm|exact Nd]]).
    assert (Rt' : forall y, evaluate 3 P y = 0 <-> In y (sort xs)) by (intros y; rewrite Rt; split; intros H; [apply (Permutation_in _ (Permutation_sym Pm)), H|apply (Permutation_in _ Pm), H]).
    match goal with |- context[fold_left ?st _ _] => destruct (fold_spec (evaluate 3 P) st) with (xs := sort xs) (l := MInf) (I := @nil rival) as (J & EJ & CJ) end; [|exact Inc|discriminate|exact I|].
    + intros I0 l u s L Es. cbn [bind]. rewrite Es. cbn [bind]. rewrite C92_evaluate by (cbn; lia). cbn [bind]. replace (value (el [P 0%nat; P 1%nat; P 2%nat; P 3%nat]) 3 s) with (evaluate 3 P s); [reflexivity|]. unfold evaluate, value, el. cbn. ring.
    + exists J. split; [exact EJ|]. intros x. rewrite CJ. cbn [rd_contains existsb]. rewrite <- (solution_set (evaluate 3 P) (sort xs) Cq Rt' Inc x). split; [intros [H|H]; [discriminate H|exact H]|auto].
Qed.
Print Assumptions C94_cubic_partial.

(** isolated solutions are lost: P(x) = -x^3 + 3x - 2 = -(x-1)^2 (x+2) at 1 *)
Theorem C94_cubic_refuted : let P := el [-2; 3; 0; -1] in let epsilon := machine_epsilon in
  exact 3 P epsilon /\ evaluate 3 P 1 = 0 /\ exists I, solve_cubic_inequality_real P epsilon = Ok I /\ rd_contains I (Fin 1) = false.
Proof.
  cbn zeta. set (P := el [-2; 3; 0; -1]). assert (E : exact 3 P machine_epsilon).
  { apply exact_integers; [|exists 0%nat; split; [lia|unfold P, el; cbn; lra]]. intros i Hi. destruct i as [|[|[|[|]]]]; [| | | |lia]; unfold P, el; cbn [nth]; try (left; reflexivity); right; (rewrite Rabs_pos_eq by lra; lra) || (rewrite Rabs_left by lra; lra). }
  split; [exact E|]. assert (V : forall x, evaluate 3 P x = - ((x - 1) * (x - 1) * (x + 2))) by (intros x; unfold evaluate, P, el; cbn; ring). split; [rewrite V; ring|].
  destruct (C94_cubic_partial P machine_epsilon E) as (I & R & H); [right; left; unfold P, el; cbn; lra|]. exists I. split; [exact R|]. destruct (rd_contains I (Fin 1)) eqn:C; [|reflexivity]. apply H in C. destruct C as [_ C]. exfalso. apply C. exists 1. split; [lra|]. intros y Ny Dy. apply Rabs_def2 in Dy. rewrite V. assert (0 < (y - 1) * (y - 1)) by (destruct (Rdichotomy y 1 Ny); nra). nra.
Qed.
Print Assumptions C94_cubic_refuted.
(** without a constant term the solver may read array elements that were never written: the operation is undefined *)
Theorem C94_cubic_undefined_refuted : forall P epsilon, exact 3 P epsilon -> P 0%nat = 0 -> (P 3%nat = 0 /\ P 2%nat <> 0) \/ (P 3%nat <> 0 /\ P 1%nat = 0) -> solve_cubic_inequality_real P epsilon = UB.
Proof.
  intros P epsilon E Z0 [[Z3 N2]|[N3 Z1]]; unfold solve_cubic_inequality_real.
  - assert (T : solve_cubic_real P [None; None; None] epsilon = solve_quadratic_real P [None; None; None] epsilon) by (unfold solve_cubic_real; rewrite (proj2 (tolerance 3 P epsilon 3 E ltac:(lia)) Z3); reflexivity).
    rewrite T, (proj2 (proj1 (C83_arrays_refuted P epsilon None None None) (exact_lower 2 P epsilon E Z3) N2 Z0)). reflexivity.
  - rewrite (proj2 (C83_arrays_refuted P epsilon None None None) E N3 Z0 Z1). reflexivity.
Qed.
Print Assumptions C94_cubic_undefined_refuted.
(** a x + b >= 0: exact unless the slope is non-zero and below the machine epsilon; then the sign of b alone decides *)
Theorem C94_linear : forall a b x, (a = 0 \/ machine_epsilon <= Rabs a) -> riv_contains (solve_linear_inequality a b) (Fin x) = true <-> 0 <= a * x + b.
Proof.
  intros a b x H. unfold solve_linear_inequality. pose proof machine_epsilon_pos as M. destruct (ltb (Rabs a) machine_epsilon) eqn:T.
  - apply ltb_true in T. destruct H as [->|H]; [|lra]. destruct (leb 0 b) eqn:B; [apply leb_true in B|apply leb_false in B]; cbn; [split; [intros _; lra|reflexivity]|split; [discriminate|intros; lra]].
  - apply ltb_false in T. assert (N : a <> 0) by (intros ->; rewrite Rabs_R0 in T; lra). destruct (ltb 0 a) eqn:S.
    + apply ltb_true in S. rewrite contains_closed; [|repeat split; reflexivity]. unfold inside. cbn [rempty_iv riv rlo rup set_rlo set_rup set_lower_closed lt].
      assert (D : - b / a * a = - b) by (field; lra). split; [intros [X _]; apply Rnot_lt_le in X; nra|]. intros X. split; [|tauto]. intros Y. nra.
    + apply ltb_false in S. rewrite contains_closed; [|repeat split; reflexivity]. unfold inside. cbn [rempty_iv riv rlo rup set_rlo set_rup set_upper_closed lt].
      assert (D : - b / a * a = - b) by (field; lra). split; [intros [_ X]; apply Rnot_lt_le in X; nra|]. intros X. split; [tauto|]. intros Y. nra.
Qed.
Print Assumptions C94_linear.
(** small slopes count as zero *)
Theorem C94_linear_small_slope : forall a b x, Rabs a < machine_epsilon -> riv_contains (solve_linear_inequality a b) (Fin x) = true <-> 0 <= b.
Proof. intros a b x H. unfold solve_linear_inequality. rewrite (proj2 (ltb_true _ _) H). destruct (leb 0 b) eqn:B; [apply leb_true in B|apply leb_false in B]; cbn; [tauto|split; [discriminate|intros; lra]]. Qed.
Print Assumptions C94_linear_small_slope.
(** x^3 - x >= 0 shifted: (x+2)(x-1)(x-3) = x^3 - 2x^2 - 5x + 6 meets the hypotheses, and its solutions are [-2,1] and [3,inf) *)
Theorem C94_nonvacuous : let P := el [6; -5; -2; 1] in
  exists I, solve_cubic_inequality_real P machine_epsilon = Ok I /\ rd_contains I (Fin 0) = true /\ rd_contains I (Fin 1) = true /\ rd_contains I (Fin 2) = false /\ rd_contains I (Fin 4) = true /\ rd_contains I (Fin (-3)) = false.
Proof.
  cbn zeta. set (P := el [6; -5; -2; 1]). assert (E : exact 3 P machine_epsilon).
  { apply exact_integers; [|exists 0%nat; split; [lia|unfold P, el; cbn; lra]]. intros i Hi. destruct i as [|[|[|[|]]]]; [| | | |lia]; unfold P, el; cbn [nth]; try (left; reflexivity); right; (rewrite Rabs_pos_eq by lra; lra) || (rewrite Rabs_left by lra; lra). }
  assert (V : forall x, evaluate 3 P x = (x + 2) * (x - 1) * (x - 3)) by (intros x; unfold evaluate, P, el; cbn; ring).
  destruct (C94_cubic_partial P machine_epsilon E) as (I & R & H); [right; left; unfold P, el; cbn; lra|]. exists I. split; [exact R|].
  assert (Pos : forall x, 0 < evaluate 3 P x -> rd_contains I (Fin x) = true). { intros x Px. apply H. split; [lra|]. intros (d & D & K). rewrite V in Px.
    destruct (near_cont (evaluate 3 P) x (evaluate 3 P x)) as (d' & D' & K'); [|rewrite V; exact Px|].
    - apply (continuity_pt_locally_ext (value P 3) (evaluate 3 P) 1 x Rlt_0_1); [intros y _; symmetry; apply evaluate_value|exact (value_continuous P 3 x)].
    - pose proof (Rmin_l d d'). pose proof (Rmin_r d d'). assert (0 < Rmin d d') by (apply Rmin_pos; lra). specialize (K (x + Rmin d d' / 2) ltac:(lra)). specialize (K' (x + Rmin d d' / 2) ltac:(lra)). rewrite (Rabs_pos_eq (x + Rmin d d' / 2 - x)) in K, K' by lra. specialize (K ltac:(lra)). specialize (K' ltac:(lra)). apply Rabs_def2 in K'. lra. }
  assert (Neg : forall x, evaluate 3 P x < 0 -> rd_contains I (Fin x) = false). { intros x Nx. destruct (rd_contains I (Fin x)) eqn:C; [|reflexivity]. apply H in C. lra. }
  split; [apply Pos; rewrite V; lra|]. split; [|split; [apply Neg; rewrite V; lra|split; [apply Pos; rewrite V; lra|apply Neg; rewrite V; lra]]].
  apply H. split; [rewrite V; lra|]. intros (d & D & K). pose proof (Rmin_l d 1). pose proof (Rmin_r d 1). assert (0 < Rmin d 1) by (apply Rmin_pos; lra). set (h := Rmin d 1 / 2) in *. specialize (K (1 - h) ltac:(unfold h; lra)). rewrite Rabs_left in K by (unfold h; lra). specialize (K ltac:(unfold h; lra)). rewrite V in K.
  assert (0 < h < 1) by (unfold h; lra). assert (0 < h * (2 + h)) by nra. nra.
Qed.

(** ** Any intervals *)
(** what an interval with these ends means *)
Definition within (e : rival) (x : R) : Prop :=
  (match rlo e with MInf => True | Fin l => if rlof e then l < x else l <= x | PInf => False end) /\
  (match rup e with MInf => False | Fin u => if rupf e then x < u else x <= u | PInf => True end).
Theorem C94_interval_empty : forall e, riv_empty e = true <-> forall x, ~ within e x.
Proof.
  intros [l u a b]. unfold riv_empty, within, rlopen, ruopen. cbn [rlo rup rlof rupf].
  destruct l as [|l|], u as [|u|]; cbn [elt eeq andb orb negb].
  - split; [intros _ x; tauto|reflexivity].
  - split; [discriminate|]. intros H. exfalso. apply (H (u - 1)). destruct b; split; auto; lra.
  - split; [discriminate|]. intros H. exfalso. apply (H 0). auto.
  - split; [intros _ x; tauto|reflexivity].
  - destruct (ltb u l) eqn:E; [apply ltb_true in E; split; [intros _ x; destruct a, b; lra|reflexivity]|apply ltb_false in E]. destruct (Req_EM_T l u) as [->|N]; cbn [andb].
    + destruct a, b; cbn [orb]; split; intros H; try discriminate; try reflexivity; try (intros x; lra). exfalso. apply (H u). lra.
    + split; [discriminate|]. intros H. exfalso. apply (H ((l + u) / 2)). destruct a, b; lra.
  - split; [discriminate|]. intros H. exfalso. apply (H (l + 1)). destruct a; split; auto; lra.
  - split; [intros _ x; tauto|reflexivity].
  - split; [intros _ x; tauto|reflexivity].
  - rewrite orb_true_r. split; [intros _ x; tauto|reflexivity].
Qed.
Theorem C94_interval_contains : forall e x, riv_empty e = false -> riv_contains e (Fin x) = true <-> within e x.
Proof.
  intros [l u a b] x. unfold riv_empty, riv_contains, riv_singleton, within, rlopen, ruopen. cbn [rlo rup rlof rupf].
  destruct l as [|l|], u as [|u|], a, b; cbn [eeq elt andb negb orb]; repeat match goal with |- context [Req_EM_T ?p ?q] => destruct (Req_EM_T p q) end; cbn [andb negb eeq elt orb]; subst; rewrite ?andb_true_r, ?andb_false_r, ?andb_true_iff, ?ltb_true; intros NE; try (destruct (ltb u l) eqn:El; [discriminate|apply ltb_false in El]); try (destruct (ltb u u) eqn:El; [discriminate|clear El]); try discriminate; split; intros; try discriminate; try reflexivity; try tauto; try lra; repeat match goal with H : _ \/ _ |- _ => destruct H end; try tauto; try lra.
Qed.
(** two nonempty intervals overlap if and only if they have a common point *)
Theorem C94_interval_overlaps : forall e f, riv_empty e = false -> riv_empty f = false -> riv_overlaps e f = true <-> exists x, within e x /\ within f x.
Proof.
  assert (LT : forall x y, ltb x y = if Rlt_dec x y then true else false) by reflexivity.
  intros [l u a b] [l' u' a' b']. unfold riv_empty, riv_overlaps, within, rlopen, ruopen. cbn [rlo rup rlof rupf].
  Ltac w x := exists x; split; split; auto; lra.
  destruct l as [|l|], u as [|u|]; cbn [eeq elt andb negb orb]; try discriminate; try (rewrite orb_true_r; discriminate).
  all: destruct l' as [|l'|], u' as [|u'|]; cbn [eeq elt andb negb orb]; try (intros _; discriminate); try (intros _; rewrite orb_true_r; discriminate).
  all: rewrite ?LT; repeat match goal with |- context [Rlt_dec ?p ?q] => destruct (Rlt_dec p q) | |- context [Req_EM_T ?p ?q] => destruct (Req_EM_T p q) end; cbn [andb orb]; try discriminate; try (intros _; discriminate).
  all: destruct a, b, a', b'; cbn [andb orb]; intros NE NF; try discriminate; split; intros H; try discriminate H; try reflexivity.
  all: try (exfalso; destruct H as (x & H & H'); lra).
  all: try (w 0).
  all: try destruct (Rle_lt_dec l l'); try destruct (Rle_lt_dec u u').
  all: try match goal with p : R |- _ => first [w p|w (p - 1)|w (p + 1)] end.
  all: match goal with p : R, q : R |- _ => w ((p + q) / 2) end.
Qed.
