From Verif Require Import Base UnionFind UnionFindSpec UnionFindProofs Forest NdArray Graph GraphSpec.

Section Bfs.
  Context {K : Type} `{OrdKey K} (nb : K -> list K) (crit : K -> bool) (seed : K).
  Notation path := (path nb crit).

  Lemma push_spec ns : forall Q v, exists new Q' v', fold_left (bfs_push crit) ns (Q, v) = (Q', v') /\ Q' = Q ++ new /\
    (forall x, In x v' <-> In x v \/ In x new) /\ NoDup new /\ (forall x, In x new -> In x ns /\ crit x = true /\ ~ In x v) /\
    (forall x, In x ns -> crit x = true -> In x v').
  Proof.
    induction ns as [|n ns IH]; intros Q v; cbn [fold_left].
    - exists [], Q, v. rewrite app_nil_r. repeat split; try tauto; try constructor; cbn in *; try tauto.
    - assert (EP : bfs_push crit (Q, v) n = if smem n v then (Q, v) else if crit n then (Q ++ [n], sins n v) else (Q, v)) by reflexivity. rewrite EP. clear EP. destruct (smem n v) eqn:M.
      + destruct (IH Q v) as (new & Q' & v' & E & EQ & V & N & P & C). exists new, Q', v'. rewrite E. repeat split; auto; try apply V; try apply P; auto.
        * right; apply P; assumption.
        * intros x [->|Hx] Hc; [|apply C; auto]. apply V. left. apply smem_In. exact M.
      + destruct (crit n) eqn:Cn.
        * destruct (IH (Q ++ [n]) (sins n v)) as (new & Q' & v' & E & EQ & V & N & P & C). exists (n :: new), Q', v'.
          apply smem_not_In in M. split; [exact E|]. split; [rewrite EQ, <- app_assoc; reflexivity|]. split; [intros x; rewrite V, In_sins; cbn; intuition|].
          split; [constructor; [|exact N]; intros J; apply P in J; rewrite In_sins in J; tauto|]. split.
          -- intros x [->|Hx]; [cbn; auto|]. destruct (P x Hx) as (A & B & D). rewrite In_sins in D. cbn. tauto.
          -- intros x [->|Hx] Hc; [|apply C; auto]. apply V. left. apply In_sins. auto.
        * destruct (IH Q v) as (new & Q' & v' & E & EQ & V & N & P & C). exists new, Q', v'. rewrite E. repeat split; auto; try apply V; try apply P; auto.
          -- right; apply P; assumption.
          -- intros x [->|Hx] Hc; [congruence|apply C; auto].
  Qed.

  Inductive ndec : list nat -> Prop :=
  | ndec_nil : ndec []
  | ndec_cons a l : Forall (le a) l -> ndec l -> ndec (a :: l).
  Lemma ndec_app l1 l2 : ndec l1 -> ndec l2 -> (forall x y, In x l1 -> In y l2 -> x <= y) -> ndec (l1 ++ l2).
  Proof.
    induction 1 as [|a l F N IH]; intros N2 D; [exact N2|]. cbn. constructor.
    - apply Forall_app. split; [exact F|]. apply Forall_forall. intros y Hy. apply D; [left; reflexivity|exact Hy].
    - apply IH; auto. intros x y Hx Hy. apply D; [right; exact Hx|exact Hy].
  Qed.
  Lemma ndec_app_l l1 l2 : ndec (l1 ++ l2) -> ndec l1.
  Proof. induction l1 as [|a l1 IH]; cbn; [constructor|]. intros N. inversion N as [|? ? F N']; subst. apply Forall_app in F. constructor; [tauto|auto]. Qed.
  Lemma ndec_const d l : Forall (eq d) l -> ndec l.
  Proof. induction l as [|a l IH]; intros F; [constructor|]. inversion F as [|? ? -> F']; subst. constructor; [|auto]. eapply Forall_impl; [|exact F']. intros; lia. Qed.

  (* the invariant: [dc], [dq] are the distances of the processed and of the queued nodes *)
  Record inv (calls Q visited : list K) (dc dq : list nat) : Prop := {
    i_vis : forall x, In x visited <-> In x calls \/ In x Q;
    i_nd : NoDup (calls ++ Q);
    i_dist : Forall2 (fun x d => dist nb crit seed x d) (calls ++ Q) (dc ++ dq);
    i_lc : length dc = length calls;
    i_sort : ndec (dc ++ dq);
    i_win : forall d, hd_error dq = Some d -> Forall (fun e => e <= S d) dq;
    i_seed : In seed visited;
    i_cl : forall x y, In x calls -> In y (nb x) -> crit y = true -> In y visited;
    i_lev : forall d, hd_error dq = Some d -> forall m z, m <= d -> path m seed z -> In z visited
  }.
  Lemma dist_fun x d e : dist nb crit seed x d -> dist nb crit seed x e -> d = e.
  Proof. intros [P1 M1] [P2 M2]. apply M1 in P2. apply M2 in P1. lia. Qed.

  Lemma F2_app_inv {A B} (R : A -> B -> Prop) l1 l2 m1 m2 : length l1 = length m1 -> Forall2 R (l1 ++ l2) (m1 ++ m2) -> Forall2 R l1 m1 /\ Forall2 R l2 m2.
  Proof.
    revert m1. induction l1 as [|a l1 IH]; intros [|b m1] HL F; try discriminate; [split; [constructor|exact F]|]. cbn in F. inversion F; subst. destruct (IH m1) as [I1 I2]; [cbn in HL; lia|assumption|]. split; [constructor; assumption|exact I2].
  Qed.
  Lemma F2_in_l {A B} (R : A -> B -> Prop) l m x : Forall2 R l m -> In x l -> exists y, In y m /\ R x y.
  Proof. induction 1 as [|a b l m HR F IH]; [intros []|]. intros [->|Hx]; [exists b; cbn; auto|]. destruct (IH Hx) as (y & ? & ?). exists y. cbn; auto. Qed.

  Lemma inv_step calls cur Q visited dc dq : inv calls (cur :: Q) visited dc dq ->
    exists Q' v' dq', fold_left (bfs_push crit) (nb cur) (Q, visited) = (Q', v') /\ inv (calls ++ [cur]) Q' v' (dc ++ [hd 0 dq]) dq'.
  Proof.
    intros I. destruct (push_spec (nb cur) Q visited) as (new & Q' & v' & E & -> & V & N & P & C).
    destruct I as [Iv In_ Id Il Is Iw Ise Ic Ile].
    destruct (F2_app_inv _ _ _ _ _ (eq_sym Il) Id) as [Fc Fq]. inversion Fq as [|x' d l' dq1 Dcur Fq' E1 E2]; subst dq x' l'. clear Fq.
    specialize (Ile d eq_refl). specialize (Iw d eq_refl). apply Forall_cons_iff in Iw. destruct Iw as [_ Iw].
    exists (Q ++ new), v', (dq1 ++ repeat (S d) (length new)). split; [exact E|]. cbn [hd].
    (* distance of a new node *)
    assert (Dn : forall x, In x new -> dist nb crit seed x (S d)).
    { intros x Hx. destruct (P x Hx) as (A & B & D). split; [eapply path_snoc; [apply Dcur|exact A|exact B]|]. intros m Hm. destruct (le_lt_dec (S d) m); [assumption|]. exfalso. apply D. apply (Ile m); [lia|exact Hm]. }
    assert (SQ : ndec dq1 /\ Forall (le d) dq1).
    { clear - Is. induction dc as [|a dc IH]; cbn in Is; [inversion Is; auto|]. inversion Is; auto. }
    destruct SQ as [Sq Fge].
    assert (Dcle : forall x, In x dc -> x <= d).
    { clear - Is. induction dc as [|a dc IH]; cbn in *; [tauto|]. inversion Is as [|? ? F N]; subst. intros x [->|Hx]; [|apply IH; assumption]. rewrite Forall_forall in F. apply F. rewrite in_app_iff. cbn. auto. }
    constructor.
    - intros x. rewrite V, Iv, !in_app_iff. cbn. tauto.
    - rewrite <- app_assoc. cbn [app]. change (calls ++ cur :: Q ++ new) with (calls ++ (cur :: Q) ++ new). rewrite app_assoc.
      clear - In_ N P Iv. revert P Iv. intros P Iv.
      assert (D : forall x, In x (calls ++ cur :: Q) -> ~ In x new). { intros x Hx J. apply P in J. destruct J as (_ & _ & J). apply J. apply Iv. rewrite in_app_iff in Hx. exact Hx. }
      clear P Iv. induction (calls ++ cur :: Q) as [|a l IH]; [exact N|]. cbn. inversion In_; subst. constructor; [rewrite in_app_iff; intros [J|J]; [contradiction|]; apply (D a); [left; reflexivity|exact J]|]. apply IH; auto. intros x Hx. apply D. right; exact Hx.
    - rewrite <- !app_assoc. cbn [app]. apply Forall2_app; [exact Fc|]. constructor; [exact Dcur|]. apply Forall2_app; [exact Fq'|].
      clear - Dn. induction new as [|x new IH]; [constructor|]. cbn. constructor; [apply Dn; left; reflexivity|]. apply IH. intros y Hy. apply Dn. right; exact Hy.
    - rewrite !app_length, Il. reflexivity.
    - rewrite <- app_assoc. cbn [app]. replace (dc ++ d :: dq1 ++ repeat (S d) (length new)) with ((dc ++ d :: dq1) ++ repeat (S d) (length new)) by (rewrite <- app_assoc; reflexivity).
      apply ndec_app; [exact Is|apply (ndec_const (S d)); apply Forall_forall; intros y Hy; apply repeat_spec in Hy; congruence|].
      intros x y Hx Hy. apply repeat_spec in Hy. subst y. rewrite in_app_iff in Hx. cbn in Hx. destruct Hx as [Hx|[<-|Hx]]; [apply Dcle in Hx; lia|lia|]. rewrite Forall_forall in Iw. auto.
    - intros e He. assert (d <= e). { destruct dq1 as [|b dq1]; cbn in He; [destruct new; cbn in He; [discriminate|]; injection He as <-; lia|]. injection He as <-. inversion Fge; assumption. }
      apply Forall_app. split; [eapply Forall_impl; [|exact Iw]; intros; cbn in *; lia|]. apply Forall_forall. intros y Hy. apply repeat_spec in Hy. lia.
    - apply V. left. exact Ise.
    - intros x y Hx Hy Hc. rewrite in_app_iff in Hx. destruct Hx as [Hx|[<-|[]]]; [apply V; left; eapply Ic; eauto|apply C; assumption].
    - intros e He m z Hm Hp.
      assert (LE : e = d \/ e = S d /\ Forall (fun f => S d <= f) dq1).
      { destruct dq1 as [|b dq1]; cbn in He; [destruct new; cbn in He; [discriminate|]; injection He as <-; right; split; [reflexivity|constructor]|]. injection He as <-.
        apply Forall_cons_iff in Fge, Iw. destruct Fge as [G1 G2], Iw as [W1 W2]. destruct (Nat.eq_dec b d); [left; assumption|right]. assert (b = S d) by lia. split; [assumption|]. constructor; [lia|]. inversion Sq as [|? ? F' N']; subst. eapply Forall_impl; [|exact F']. intros; lia. }
      destruct LE as [->|[-> LE]]; [apply V; left; eapply Ile; eauto|]. destruct (le_lt_dec m d) as [Lm|Lm]; [apply V; left; eapply Ile; eauto|]. assert (m = S d) as -> by lia.
      inversion Hp as [|n0 x0 y z0 Hy Hz Hcz]; subst. assert (Vy : In y visited) by (eapply Ile; [apply le_n|exact Hy]). apply Iv in Vy.
      assert (PY : In y calls \/ y = cur).
      { destruct Vy as [Vy|[<-|Vy]]; [left; assumption|right; reflexivity|]. exfalso. destruct (F2_in_l _ _ _ _ Fq' Vy) as (f & Hf & [_ Df]). rewrite Forall_forall in LE. apply LE in Hf. specialize (Df _ Hy). lia. }
      destruct PY as [PY| ->]; [apply V; left; eapply Ic; eauto|apply C; assumption].
  Qed.

  Lemma inv_len calls Q v dc dq R : inv calls Q v dc dq -> (forall x, reach nb crit seed x -> In x R) -> length (calls ++ Q) <= length R.
  Proof.
    intros I HR. apply NoDup_incl_length; [apply I|]. intros x Hx. apply HR. destruct (F2_in_l _ _ _ _ (i_dist _ _ _ _ _ I) Hx) as (d & _ & [D _]). exists d. exact D.
  Qed.
  Lemma bfs_loop_spec R fuel : forall calls Q v dc dq, inv calls Q v dc dq -> (forall x, reach nb crit seed x -> In x R) -> length R < fuel + length calls ->
    exists ops dc', bfs_loop fuel nb crit Q v calls = Ok ops /\ inv ops [] ops dc' [] .
  Proof.
    induction fuel as [|fuel IH]; intros calls Q v dc dq I HR Hf.
    - assert (L := inv_len _ _ _ _ _ _ I HR). rewrite app_length in L. lia.
    - cbn [bfs_loop]. destruct Q as [|cur Q].
      + exists calls, dc. split; [reflexivity|]. destruct I as [Iv In_ Id Il Is Iw Ise Ic Ile]. assert (dq = []) as ->.
        { destruct dq; [reflexivity|]. exfalso. apply F2_app_inv in Id; [|symmetry; exact Il]. destruct Id as [_ Id]. inversion Id. }
        assert (Q : forall x, In x v <-> In x calls) by (intros x; rewrite Iv; cbn; tauto).
        constructor; auto; try (intros d Hd; discriminate); [intros x; cbn; tauto|apply Q; exact Ise|]. intros x y Hx Hy Hc. apply Q. eapply Ic; eauto.
      + destruct (inv_step _ _ _ _ _ _ I) as (Q' & v' & dq' & E & I'). rewrite E. eapply IH; [exact I'|exact HR|]. rewrite app_length. cbn. lia.
  Qed.
  Lemma bfs_lemma R fuel : crit seed = true -> (forall x, reach nb crit seed x -> In x R) -> length R < fuel ->
    exists calls, bfs fuel seed nb crit = Ok calls /\ NoDup calls /\ (forall x, In x calls <-> reach nb crit seed x) /\
      (forall i j x y dx dy, nth_error calls i = Some x -> nth_error calls j = Some y -> dist nb crit seed x dx -> dist nb crit seed y dy -> i <= j -> dx <= dy).
  Proof.
    intros Hs HR Hf. unfold bfs. rewrite Hs.
    assert (D0 : dist nb crit seed seed 0) by (split; [constructor|intros; lia]).
    assert (I0 : inv [] [seed] [seed] [] [0]).
    { constructor; cbn; auto; try tauto.
      - constructor; [intros []|constructor].
      - repeat constructor.
      - intros d E. injection E as <-. repeat constructor.
      - intros d E m z Hm Hp. injection E as <-. assert (m = 0) as -> by lia. inversion Hp; subst. auto. }
    destruct (bfs_loop_spec R fuel _ _ _ _ _ I0 HR ltac:(cbn; lia)) as (ops & dc & E & I). exists ops. split; [exact E|].
    destruct I as [Iv In_ Id Il Is Iw Ise Ic Ile]. rewrite !app_nil_r in *. split; [exact In_|]. split.
    - intros x. split.
      + intros Hx. destruct (F2_in_l _ _ _ _ Id Hx) as (d & _ & [D _]). exists d. exact D.
      + intros (n & Hp). induction Hp as [|n x0 y z Hp IH Hz Hc]; [exact Ise|]. eapply Ic; [apply IH; assumption|exact Hz|exact Hc].
    - clear - Id Is. intros i j x y dx dy Hi Hj Dx Dy Hij. revert i j Hi Hj Hij. induction Id as [|a d l m Ra F IH]; intros i j Hi Hj Hij; [destruct i; discriminate|].
      inversion Is as [|? ? FL NL]; subst. destruct i as [|i].
      + cbn in Hi. injection Hi as ->. assert (dx = d) as -> by (eapply dist_fun; eauto). destruct j as [|j]; cbn in Hj; [injection Hj as ->; assert (dy = d) by (eapply dist_fun; eauto); lia|].
        apply nth_error_In in Hj. destruct (F2_in_l _ _ _ _ F Hj) as (e & He & De). assert (dy = e) as -> by (eapply dist_fun; eauto). rewrite Forall_forall in FL. apply FL. exact He.
      + destruct j as [|j]; [lia|]. cbn in Hi, Hj. eapply IH; eauto. lia.
  Qed.
End Bfs.
