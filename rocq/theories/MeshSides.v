(** Sides and cofaces of regular-mesh elements (C19-C21). *)
From Verif Require Import Base UnionFind NdArray ListOrd RegularMesh RegularMeshSpec MeshLevels MeshEnum.
Local Open Scope Z_scope.

(** *** points *)
Lemma padd_length a b : length a = length b -> length (padd a b) = length a.
Proof. intros E. unfold padd. rewrite map_length, combine_length. lia. Qed.
Lemma padd_assoc a b c : padd a (padd b c) = padd (padd a b) c.
Proof.
  unfold padd. revert b c. induction a as [|x a IH]; intros [|y b] [|z c]; cbn; try reflexivity. f_equal; [lia|apply IH].
Qed.
Lemma padd_0 a n : length a = n -> padd a (repeat 0 n) = a.
Proof. intros <-. unfold padd. induction a; cbn; [reflexivity|]. f_equal; [lia|assumption]. Qed.
Lemma padd_inj a b c : length a = length b -> length a = length c -> padd a b = padd a c -> b = c.
Proof.
  unfold padd. revert b c. induction a as [|x a IH]; intros [|y b] [|z c]; cbn; intros L1 L2 E; try lia; [reflexivity|].
  inversion E. f_equal; [lia|]. apply IH; auto.
Qed.
Lemma padd_inj_l a b c : length a = length c -> length b = length c -> padd a c = padd b c -> a = b.
Proof.
  unfold padd. revert b c. induction a as [|x a IH]; intros [|y b] [|z c]; cbn; intros L1 L2 E; try lia; [reflexivity|].
  inversion E. f_equal; [lia|]. eapply IH; [| |eassumption]; lia.
Qed.
Definition psub (a b : point) : point := map (fun xy => fst xy - snd xy) (combine a b).
Lemma padd_psub a b : length a = length b -> padd a (psub b a) = b.
Proof.
  unfold padd, psub. revert b. induction a as [|x a IH]; intros [|y b]; cbn; intros L; try lia; [reflexivity|]. f_equal; [lia|]. apply IH. lia.
Qed.
Lemma psub_length a b : length a = length b -> length (psub a b) = length a.
Proof. intros E. unfold psub. rewrite map_length, combine_length. lia. Qed.
Lemma psub_padd a b : length a = length b -> padd (psub a b) b = a.
Proof.
  unfold padd, psub. revert b. induction a as [|x a IH]; intros [|y b]; cbn; intros L; try lia; [reflexivity|]. f_equal; [lia|]. apply IH. lia.
Qed.

Lemma ple_padd c p q : ple p q -> ple (padd c p) (padd c q).
Proof. intros H. unfold ple, padd in *. revert c. induction H; intros [|z c]; cbn; constructor; [lia|auto]. Qed.

Lemma chain_padd n c s : length c = n -> Forall (fun p => length p = n) s -> StronglySorted plt s -> StronglySorted plt (map (padd c) s).
Proof.
  intros L F S. induction S as [|p s S IH Hp]; cbn; [constructor|]. inversion F; subst. constructor; [auto|].
  rewrite Forall_forall in *. intros q Hq. apply in_map_iff in Hq as (r & <- & Hr). destruct (Hp r Hr) as [A B]. split; [apply ple_padd, A|].
  intros E. apply B. eapply padd_inj; [| |exact E]; [congruence|]. symmetry. auto.
Qed.

(** *** elements as corner + levels *)
Definition el_is (n : nat) (e : element) (f : list nat) : Prop :=
  length (corner e) = n /\ lok n (edim e) f /\ nth_error (unit_simplices n (edim e)) (etype e) = Some (lev (edim e) f).

Lemma el_ok_is n e : (1 <= n)%nat -> el_ok n e -> exists f, el_is n e f.
Proof.
  intros Hn (D & T & L). destruct (nth_error (unit_simplices n (edim e)) (etype e)) as [s|] eqn:E.
  - assert (Hs := nth_error_In _ _ E). apply unit_simplices_lev in Hs as (f & Lf & ->); auto. exists f. split; auto.
  - apply nth_error_None in E. unfold ntypes in T. lia.
Qed.

Lemma el_is_ok n e f : (edim e <= n)%nat -> el_is n e f -> el_ok n e.
Proof.
  intros D (L & Lf & E). split; [exact D|]. split; [|exact L]. unfold ntypes. apply nth_error_Some. congruence.
Qed.

Lemma lok_type n k f : (1 <= n)%nat -> (k <= n)%nat -> lok n k f ->
  exists t, nth_error (unit_simplices n k) t = Some (lev k f).
Proof.
  intros Hn Hk L. assert (H : In (lev k f) (unit_simplices n k)) by (apply unit_simplices_lev; eauto).
  apply In_nth_error in H. exact H.
Qed.

Lemma type_unique n k t t' s : nth_error (unit_simplices n k) t = Some s -> nth_error (unit_simplices n k) t' = Some s -> t = t'.
Proof.
  intros E E'. assert (ND := unit_simplices_NoDup n k). rewrite NoDup_nth_error in ND. apply ND; [|congruence].
  apply nth_error_Some. congruence.
Qed.

Lemma vertices_is n e f : el_is n e f -> vertices n e = Ok (map (padd (corner e)) (lev (edim e) f)).
Proof. intros (_ & _ & E). unfold vertices, vget. rewrite E. reflexivity. Qed.

Lemma lev_lengths n k f : lok n k f -> Forall (fun p => length p = n) (lev k f).
Proof.
  intros (L & _). apply Forall_forall. intros p Hp. apply in_map_iff in Hp as (j & <- & _). rewrite vtx_length. exact L.
Qed.

Lemma map_inj_in {A B} (g : A -> B) l l' : (forall x y, In x l -> In y l' -> g x = g y -> x = y) -> map g l = map g l' -> l = l'.
Proof.
  revert l'. induction l as [|x l IH]; intros [|y l'] H E; cbn in *; try discriminate; [reflexivity|].
  inversion E. f_equal; [apply H; auto|]. apply IH; auto.
Qed.

Lemma vertices_inj n e e' f f' : el_is n e f -> el_is n e' f' -> edim e = edim e' ->
  map (padd (corner e)) (lev (edim e) f) = map (padd (corner e')) (lev (edim e') f') -> e = e'.
Proof.
  intros (L & Lf & E) (L' & Lf' & E') D H. rewrite <- D in *.
  assert (C : corner e = corner e').
  { assert (H0 := f_equal (fun s => nth_error s 0) H). unfold lev in H0. cbn in H0. inversion H0 as [Q]. rewrite !vtx_0 in Q.
    destruct Lf as (Q1 & _), Lf' as (Q2 & _). rewrite Q1, Q2, !padd_0 in Q by assumption. exact Q. }
  rewrite C in H. apply map_inj_in in H.
  - rewrite H in E. destruct e as [c0 d0 t0], e' as [c1 d1 t1]; cbn in *. subst.
    f_equal. eapply type_unique; eauto.
  - intros x y Hx Hy. assert (F := lev_lengths _ _ _ Lf). assert (F' := lev_lengths _ _ _ Lf'). rewrite Forall_forall in F, F'.
    apply padd_inj; [rewrite L', F by assumption; reflexivity|rewrite L', F' by assumption; reflexivity].
Qed.

(** *** sides *)
Lemma positions_spec s l i t : In t (positions s l i) <-> (i <= t)%nat /\ nth_error l (t - i) = Some s.
Proof.
  revert i. induction l as [|x l IH]; intros i; cbn [positions].
  - split; [intros []|]. intros [_ E]. destruct (t - i)%nat; discriminate.
  - destruct (keqb s x) eqn:E.
    + apply keqb_eq in E; subst. cbn [In]. rewrite IH. split.
      * intros [->|[H1 H2]]; [rewrite Nat.sub_diag; auto|]. split; [lia|]. replace (t - i)%nat with (S (t - S i)) by lia. exact H2.
      * intros [H1 H2]. destruct (Nat.eq_dec i t) as [|N]; [auto|right]. split; [lia|].
        replace (t - i)%nat with (S (t - S i)) in H2 by lia. exact H2.
    + apply keqb_neq in E. rewrite IH. split.
      * intros [H1 H2]. split; [lia|]. replace (t - i)%nat with (S (t - S i)) by lia. exact H2.
      * intros [H1 H2]. destruct (Nat.eq_dec i t) as [->|N].
        -- rewrite Nat.sub_diag in H2. cbn in H2. congruence.
        -- split; [lia|]. replace (t - i)%nat with (S (t - S i)) in H2 by lia. exact H2.
Qed.

Lemma unit_sides_spec n k t f : lok n (S k) f -> nth_error (unit_simplices n (S k)) t = Some (lev (S k) f) ->
  exists us, unit_sides n (S k) t = Ok us /\ NoDup us /\
    forall ty off, In (ty, off) us <-> exists j, (j <= S k)%nat /\ off = doff j f /\
       nth_error (unit_simplices n k) ty = Some (lev k (dl (S k) j f)).
Proof.
  intros L E. unfold unit_sides, vget. rewrite E. cbn [of_option bind]. eexists. split; [reflexivity|]. split; [apply sorted_NoDup, sorted_sof|].
  intros ty off. rewrite In_sof, in_flat_map. split.
  - intros (p & Hp & H). destruct (reduce n (removelast p)) as [r o] eqn:Er. apply in_map_iff in H as (ty' & Eq & Hty).
    inversion Eq; subst. apply positions_spec in Hty as [_ Hty]. rewrite Nat.sub_0_r in Hty.
    destruct (proj1 (faces_spec n k f (ksort (fst (reduce n (removelast p))), snd (reduce n (removelast p))) L)) as (j & Hj & Ej); [eauto|].
    rewrite Er in Ej. cbn [fst snd] in Ej. inversion Ej; subst. exists j. split; [exact Hj|]. split; [reflexivity|]. congruence.
  - intros (j & Hj & -> & H). destruct (proj2 (faces_spec n k f (lev k (dl (S k) j f), doff j f) L)) as (p & Hp & Ep); [eauto|].
    exists p. split; [exact Hp|]. destruct (reduce n (removelast p)) as [r o] eqn:Er. cbn [fst snd] in Ep. inversion Ep; subst.
    apply in_map_iff. exists ty. split; [reflexivity|]. apply positions_spec. split; [lia|]. rewrite Nat.sub_0_r. congruence.
Qed.

Lemma doff_length j f : length (doff j f) = length f.
Proof. apply map_length. Qed.

Lemma side_vertices n k f j c : lok n (S k) f -> (j <= S k)%nat ->
  map (padd (padd c (doff j f))) (lev k (dl (S k) j f)) = remove_nth j (map (padd c) (lev (S k) f)).
Proof.
  intros (L & B & C) Hj. rewrite remove_nth_map, lev_remove by exact Hj. unfold lev. rewrite !map_map. apply map_ext_in.
  intros i Hi. apply in_seq in Hi. rewrite (vtx_dl k j f i B Hj) by lia. rewrite padd_assoc. reflexivity.
Qed.

Lemma sides_spec n e f : (1 <= n)%nat -> (1 <= edim e <= n)%nat -> el_is n e f ->
  exists si, sides n e = Ok si /\ NoDup si /\
    (forall s, In s si -> el_ok n s /\ edim s = (edim e - 1)%nat) /\
    (forall s g, el_is n s g -> edim s = (edim e - 1)%nat ->
       (In s si <-> exists j, (j <= edim e)%nat /\
          map (padd (corner s)) (lev (edim s) g) = remove_nth j (map (padd (corner e)) (lev (edim e) f)))).
Proof.
  intros Hn Hd I. destruct e as [c d t]. cbn [edim corner etype] in *. destruct d as [|k]; [lia|].
  destruct I as (Lc & Lf & Et). cbn [edim corner etype] in *.
  destruct (unit_sides_spec n k t f Lf Et) as (us & Eu & ND & Su).
  unfold sides. cbn [edim corner etype]. rewrite Eu. cbn [bind]. eexists. split; [reflexivity|].
  assert (Off : forall ty off, In (ty, off) us -> length off = n).
  { intros ty off H. apply Su in H as (j & _ & -> & _). rewrite doff_length. apply Lf. }
  split; [|split].
  - assert (Inj : forall x y, In x us -> In y us ->
       {| corner := padd c (snd x); edim := S k - 1; etype := fst x |} = {| corner := padd c (snd y); edim := S k - 1; etype := fst y |} -> x = y).
    { intros [tx ox] [ty oy] Hx Hy Q. cbn in Q. assert (Q1 : tx = ty) by congruence. assert (Q2 : padd c ox = padd c oy) by congruence. f_equal; [exact Q1|]. apply (padd_inj c); [| |exact Q2].
      - rewrite (Off _ _ Hx). exact Lc.
      - rewrite (Off _ _ Hy). exact Lc. }
    clear Su Off Eu. induction ND as [|x us Nx ND IH]; cbn; constructor.
    + rewrite in_map_iff. intros (y & Q & Hy). apply Inj in Q; [|right; exact Hy|left; reflexivity]. subst. contradiction.
    + apply IH. intros; apply Inj; auto; right; auto.
  - intros s Hs. apply in_map_iff in Hs as ([ty off] & <- & H). cbn [fst snd]. assert (Lo := Off _ _ H).
    apply Su in H as (j & Hj & -> & H). cbn [edim]. split; [|reflexivity]. split; [cbn; lia|]. cbn [edim etype corner].
    replace (S k - 1)%nat with k by lia. split; [unfold ntypes; apply nth_error_Some; congruence|].
    rewrite padd_length; [exact Lc|]. lia.
  - intros s g Is Ds. assert (Dk : edim s = k) by lia. split.
    + intros Hs. apply in_map_iff in Hs as ([ty off] & <- & H). cbn [fst snd edim corner etype] in *.
      apply Su in H as (j & Hj & -> & H). exists j. split; [exact Hj|]. destruct Is as (_ & Lg & Eg). cbn [edim etype] in *.
      replace (S k - 1)%nat with k in * by lia. rewrite H in Eg. assert (Q : lev k (dl (S k) j f) = lev k g) by congruence. rewrite <- Q. apply (side_vertices n); auto.
    + intros (j & Hj & Q). destruct (lok_type n k (dl (S k) j f)) as (ty & Hty); [lia|lia|apply dl_lok; auto|].
      apply in_map_iff. exists (ty, doff j f). cbn [fst snd]. split; [|apply Su; eauto].
      symmetry. eapply vertices_inj with (f := g) (f' := dl (S k) j f).
      * exact Is.
      * split; [cbn; rewrite padd_length; [exact Lc|rewrite doff_length; destruct Lf as (-> & _); exact Lc]|]. cbn [edim etype].
        replace (S k - 1)%nat with k by lia. split; [apply dl_lok; auto|exact Hty].
      * cbn. lia.
      * cbn [edim corner]. replace (S k - 1)%nat with k by lia. rewrite Q. symmetry. apply (side_vertices n); auto.
Qed.

Lemma remove_nth_inj {A} (l : list A) i j : NoDup l -> (i < length l)%nat -> (j < length l)%nat -> remove_nth i l = remove_nth j l -> i = j.
Proof.
  intros ND Hi Hj E. destruct (Nat.eq_dec i j) as [|N]; [assumption|exfalso].
  apply nth_error_Some in Hi. destruct (nth_error l i) as [x|] eqn:Ex; [|congruence].
  destruct (remove_nth_split _ _ _ Ex) as (l1 & l2 & -> & E1 & E2).
  assert (Nx : ~ In x (l1 ++ l2)) by (apply NoDup_remove_2 in ND; exact ND).
  apply Nx. rewrite <- E2, E. clear -Ex N Hj. revert i j N Ex Hj. generalize (l1 ++ x :: l2) as l. clear.
  induction l as [|y l IH]; intros [|i] [|j] N Ex Hj; cbn in *; try lia; try discriminate.
  - inversion Ex; subst. left; reflexivity.
  - apply nth_error_In in Ex. exact Ex.
  - right. eapply IH; [|exact Ex|lia]. lia.
Qed.

Lemma lev_map_NoDup n e f : el_is n e f -> NoDup (map (padd (corner e)) (lev (edim e) f)).
Proof.
  intros (L & Lf & _). apply sorted_NoDup. apply chain_sorted. eapply chain_padd; [exact L|eapply lev_lengths; eauto|eapply lev_chain; eauto].
Qed.

(** C19 *)
Lemma sides_lemma n e : (1 <= n)%nat -> el_ok n e -> (1 <= edim e)%nat ->
  exists si vs, sides n e = Ok si /\ vertices n e = Ok vs /\ NoDup si /\ length si = S (edim e) /\
    (forall s, In s si -> el_ok n s /\ edim s = (edim e - 1)%nat) /\
    (forall s us, el_ok n s -> edim s = (edim e - 1)%nat -> vertices n s = Ok us ->
       (In s si <-> exists j, (j <= edim e)%nat /\ us = remove_nth j vs)).
Proof.
  intros Hn Ok_e Hd. assert (D : (edim e <= n)%nat) by apply Ok_e.
  destruct (el_ok_is n e Hn Ok_e) as (f & I).
  destruct (sides_spec n e f Hn ltac:(lia) I) as (si & Es & ND & Sok & Sp).
  exists si, (map (padd (corner e)) (lev (edim e) f)). split; [exact Es|]. split; [apply vertices_is, I|]. split; [exact ND|].
  split; [|split; [exact Sok|]].
  - (* one side per deleted vertex *)
    set (vs := map (padd (corner e)) (lev (edim e) f)) in *.
    assert (Lv : length vs = S (edim e)) by (unfold vs; rewrite map_length, lev_length; reflexivity).
    assert (NDv : NoDup vs) by (eapply lev_map_NoDup; eauto).
    assert (Vs : forall s, In s si -> exists g, el_is n s g /\ exists j, (j <= edim e)%nat /\ map (padd (corner s)) (lev (edim s) g) = remove_nth j vs).
    { intros s Hs. destruct (Sok s Hs) as [Os Ds]. destruct (el_ok_is n s Hn Os) as (g & Ig). exists g. split; [exact Ig|]. apply (proj1 (Sp s g Ig Ds)), Hs. }
    assert (P : Permutation (map (fun s => vertices n s) si) (map (fun j => Ok (remove_nth j vs)) (seq 0 (S (edim e))))).
    { apply NoDup_Permutation.
      - clear -ND Sok Hn. assert (Inj : forall x y, In x si -> In y si -> vertices n x = vertices n y -> x = y).
        { intros x y Hx Hy Q. destruct (Sok x Hx) as [Ox Dx]. destruct (Sok y Hy) as [Oy Dy].
          destruct (el_ok_is n x Hn Ox) as (g & Ig). destruct (el_ok_is n y Hn Oy) as (h & Ih).
          rewrite (vertices_is _ _ _ Ig), (vertices_is _ _ _ Ih) in Q. eapply vertices_inj; [exact Ig|exact Ih|congruence|]. congruence. }
        clear Sok. induction ND as [|x si Nx ND IH]; cbn; constructor.
        + rewrite in_map_iff. intros (y & Q & Hy). apply Inj in Q; [|right; exact Hy|left; reflexivity]. subst. contradiction.
        + apply IH. intros; apply Inj; auto; right; auto.
      - clear -NDv Lv. rewrite <- Lv.
        assert (Q : forall i j, In i (seq 0 (length vs)) -> In j (seq 0 (length vs)) -> @Ok simplex (remove_nth i vs) = Ok (remove_nth j vs) -> i = j).
        { intros i j Hi Hj Q. apply in_seq in Hi, Hj. inversion Q. eapply remove_nth_inj; eauto; lia. }
        revert Q. generalize (seq_NoDup (length vs) 0). generalize (seq 0 (length vs)) as l. clear.
        induction l as [|i l IH]; intros ND Q; cbn; constructor; inversion ND; subst.
        + rewrite in_map_iff. intros (j & E & Hj). apply Q in E; [|right; exact Hj|left; reflexivity]. subst. contradiction.
        + apply IH; auto. intros; apply Q; auto; right; auto.
      - intros x. rewrite !in_map_iff. split.
        + intros (s & <- & Hs). destruct (Vs s Hs) as (g & Ig & j & Hj & Q). exists j. rewrite (vertices_is _ _ _ Ig), Q. split; [reflexivity|]. apply in_seq. lia.
        + intros (j & <- & Hj). apply in_seq in Hj.
          destruct e as [c d t]. cbn [edim corner etype] in *. destruct d as [|k]; [lia|].
          destruct I as (Lc & Lf & Et). cbn [edim corner etype] in *.
          destruct (lok_type n k (dl (S k) j f)) as (ty & Hty); [lia|lia|apply dl_lok; [exact Lf|lia]|].
          set (s := {| corner := padd c (doff j f); edim := k; etype := ty |}).
          assert (Is : el_is n s (dl (S k) j f)).
          { split; [cbn; rewrite padd_length; [exact Lc|rewrite doff_length; destruct Lf as (-> & _); exact Lc]|]. cbn. split; [apply dl_lok; [exact Lf|lia]|exact Hty]. }
          assert (Sv := side_vertices n k f j c Lf ltac:(lia)).
          exists s. split; [rewrite (vertices_is _ _ _ Is); cbn [corner edim s]; rewrite Sv; reflexivity|].
          apply (Sp s _ Is); [cbn; lia|]. exists j. split; [lia|]. exact Sv. }
    apply Permutation_length in P. rewrite !map_length, seq_length in P. exact P.
  - intros s us Os Ds Ev. destruct (el_ok_is n s Hn Os) as (g & Ig). rewrite (vertices_is _ _ _ Ig) in Ev. inversion Ev. apply (Sp s g Ig Ds).
Qed.
