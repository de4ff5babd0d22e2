(** C134-C136: values on virtual planes, the threshold tracker and its threshold (simplicial_xgc_3d_mesh.hh, xgc_blob_threshold_tracker.hh, xgc_tracker.hh). *)
From Coq Require Import ZArith QArith Permutation Relations Lqa Lia.
From Verif Require Import Base UnionFind UnionFindProofs Duf DufProofs ListOrd SoS UMesh2 UMesh2Proofs PropUMesh2 UExt2 UExt2Proofs PropUExt2 Xgc3 Xgc3Proofs PropXgc3 PropUnionFind XgcBlob.
Local Open Scope Z_scope.

(** ** Specification: vertex i of the torus at step t has the id i + t*N, where N is the number of vertices of the torus *)
Section Spec.
  Variables (n0 : nat) (T : list (Z * Z * Z)) (P : Z) (steps : Z) (thr : Q) (g : Z -> Z -> Q).
  Let n := Z.of_nat n0.
  Let N := P * n.
  (** the next plane, the previous one, or a common triangle in the same plane *)
  Definition touch (i j : Z) : Prop := j = (i + n) mod N \/ j = (i - n) mod N \/ j <> i /\ j / n = i / n /\ exists b, corner T b (i mod n) /\ corner T b (j mod n).
  Definition active (e : Z) : Prop := 0 <= e / N < steps /\ (thr <= g (e / N) (e mod N))%Q.
  Definition linked (e e' : Z) : Prop := active e /\ active e' /\ (e / N = e' / N /\ touch (e mod N) (e' mod N) \/ e' = e + N).
  Definition same_blob : Z -> Z -> Prop := clos_refl_sym_trans Z linked.
End Spec.

Lemma for_in_app {A S} (f : A -> S -> res S) l l' : forall s, for_in f (l ++ l') s = let* s := for_in f l s in for_in f l' s.
Proof. induction l as [|a l IH]; intros s; cbn [for_in app]; [reflexivity|]. destruct (f a s); cbn [bind]; auto. Qed.
Lemma collect_spec {A} (f : Z -> res (list A)) (g : Z -> list A) l : (forall i, In i l -> f i = Ok (g i)) -> collect f l = Ok (flat_map g l).
Proof.
  intros H. unfold collect. change (flat_map g l) with ([] ++ flat_map g l). generalize (@nil A). induction l as [|i l IH]; intros acc; cbn [for_in flat_map]; [rewrite app_nil_r; reflexivity|].
  rewrite (H i) by (left; reflexivity). cbn [bind]. rewrite IH by (intros j Hj; apply H; right; exact Hj). rewrite app_assoc. reflexivity.
Qed.
Lemma filter_ops {A} (f : Z -> res bool) (g : Z -> bool) (h : Z -> A) l : (forall i, In i l -> f i = Ok (g i)) -> for_in (fun j ops => let* b := f j in Ok (if b then ops ++ [h j] else ops)) l [] = Ok (map h (filter g l)).
Proof.
  intros H. enough (G : forall acc, for_in (fun j ops => let* b := f j in Ok (if b then ops ++ [h j] else ops)) l acc = Ok (acc ++ map h (filter g l))) by (rewrite G; reflexivity). induction l as [|i l IH]; intros acc; cbn [for_in filter map]; [rewrite app_nil_r; reflexivity|].
  rewrite (H i) by (left; reflexivity). cbn [bind]. rewrite IH by (intros j Hj; apply H; right; exact Hj). destruct (g i); cbn [map]; [rewrite <- app_assoc|]; reflexivity.
Qed.
Lemma duf_run_app (a : list (duf_op (K:=Z))) : forall m b, duf_run m (a ++ b) = let* m := duf_run m a in duf_run m b.
Proof. induction a as [|o a IH]; intros m b; cbn [duf_run app]; [reflexivity|]. destruct (duf_step m o); cbn [bind]; auto. Qed.
Lemma united_app (a b : list (duf_op (K:=Z))) : united (a ++ b) = united a ++ united b.
Proof. apply flat_map_app. Qed.
Lemma mentioned_app (a b : list (duf_op (K:=Z))) : mentioned (a ++ b) = mentioned a ++ mentioned b.
Proof. apply flat_map_app. Qed.
Lemma zget_ok {A} (l : list A) i : 0 <= i < Z.of_nat (length l) -> exists a, zget l i = Ok a /\ nth_error l (Z.to_nat i) = Some a.
Proof. intros H. unfold zget, vget. destruct (Z.ltb_spec i 0); [lia|]. destruct (nth_error l (Z.to_nat i)) eqn:E; [exists a; split; reflexivity|]. apply nth_error_None in E. lia. Qed.
Lemma zget_nth {A} (l : list A) i a : zget l i = Ok a <-> 0 <= i /\ nth_error l (Z.to_nat i) = Some a.
Proof. unfold zget, vget. destruct (Z.ltb_spec i 0); [split; [discriminate|lia]|]. destruct (nth_error l (Z.to_nat i)); cbn; split; try discriminate; [intros [= ->]; split; [lia|reflexivity]|intros [_ [= ->]]; reflexivity|intros [_ E]; discriminate]. Qed.

Section Blob.
  Variables (n0 : nat) (T : list (Z * Z * Z)) (m : mesh2) (x : torus) (itp : list (list interpolant)) (thr : Q) (g : Z -> Z -> Q).
  Hypothesis (W : well_formed n0 T) (Bd : build n0 T = Ok m) (Em : t_m2 x = m) (Pn : (0 < n0)%nat) (HP : 1 <= np x).
  Notation n := (Z.of_nat n0).
  Notation N := (np x * Z.of_nat n0).
  Notation touch := (touch n0 T (np x)).
  Notation linked := (linked n0 T (np x)).
  Definition order (o : list Z) : Prop := Permutation o (zseq (Z.to_nat N)).
  Definition samples (f : list Q) (h : Z -> Q) : Prop := forall i, 0 <= i < N -> exists q, interpolate x itp f i = Ok q /\ (q == h i)%Q.
  Definition ab (t i : Z) : bool := Qle_bool thr (g t i).
  Lemma above_ok f t i : samples f (g t) -> 0 <= i < N -> above x itp thr f i = Ok (ab t i).
  Proof.
    intros H Hi. unfold above, ab. destruct (H i Hi) as (q & -> & E). cbn [bind]. f_equal. destruct (Qle_bool thr q) eqn:A, (Qle_bool thr (g t i)) eqn:B; try reflexivity.
    - apply Qle_bool_iff in A. rewrite E in A. apply Qle_bool_iff in A. congruence.
    - apply Qle_bool_iff in B. rewrite <- E in B. apply Qle_bool_iff in B. congruence.
  Qed.
  Lemma PN : 0 < N. Proof. nia. Qed.
  Lemma T0 : tn x 0 = N. Proof. apply (tn0 n0 T m x W Bd Em). Qed.
  Lemma nb i : 0 <= i < N -> exists s, t_vev x i = Ok s /\ (forall j, In j s -> 0 <= j < N) /\ forall j, In j s <-> touch i j.
  Proof.
    intros Hi. destruct (C133_neighbours_partial n0 T m x W Bd Em Pn HP i Hi) as (s & E & _ & I). exists s. split; [exact E|]. split; [|exact I]. intros j Hj. pose proof PN. apply I in Hj as [-> |[-> |(_ & L & _)]]; [apply Z.mod_pos_bound; lia..|].
    pose proof (Z.div_mod j n ltac:(lia)). pose proof (Z.mod_pos_bound j n ltac:(lia)). pose proof (Z.div_pos i n ltac:(lia) ltac:(lia)). assert (i / n < np x) by (apply Z.div_lt_upper_bound; lia). rewrite L in *. nia.
  Qed.
  Lemma id_div t i : 0 <= i < N -> (i + t * N) / N = t /\ (i + t * N) mod N = i.
  Proof. intros H. apply dm. exact H. Qed.
  Lemma unions_ok f t i : samples f (g t) -> 0 <= i < N -> exists ops, unions_of x itp thr t f i = Ok ops /\ forall o, In o ops <-> exists j, o = DUnite (i + t * N) (j + t * N) /\ 0 <= j < N /\ touch i j /\ ab t i = true /\ ab t j = true.
  Proof.
    intros H Hi. unfold unions_of. rewrite (above_ok f t i H Hi). cbn [bind]. rewrite T0. destruct (ab t i); cbn [negb]; [|exists []; split; [reflexivity|]; intros o; split; [intros []|intros (j & _ & _ & _ & D & _); discriminate]].
    destruct (nb i Hi) as (s & -> & R & I). cbn [bind]. rewrite (filter_ops _ (ab t)) by (intros j Hj; apply above_ok; [exact H|apply R, Hj]). eexists. split; [reflexivity|]. intros o. rewrite in_map_iff. split.
    - intros (j & <- & Hj). apply filter_In in Hj as [Hj Hb]. exists j. split; [reflexivity|]. split; [apply R, Hj|]. split; [apply I, Hj|auto].
    - intros (j & -> & Hj & Tj & _ & Hb). exists j. split; [reflexivity|]. apply filter_In. split; [apply I, Tj|exact Hb].
  Qed.
  Lemma next_ok f f1 t i : samples f (g t) -> samples f1 (g (t + 1)) -> 0 <= i < N -> exists ops, unions_next x itp thr t f f1 i = Ok ops /\ forall o, In o ops <-> o = DUnite (i + t * N) (i + (t + 1) * N) /\ ab t i = true /\ ab (t + 1) i = true.
  Proof.
    intros H H1 Hi. unfold unions_next. rewrite (above_ok f t i H Hi). cbn [bind]. rewrite T0. destruct (ab t i); cbn [negb]; [|exists []; split; [reflexivity|]; intros o; split; [intros []|intros (_ & D & _); discriminate]].
    rewrite (above_ok f1 (t + 1) i H1 Hi). cbn [bind]. eexists. split; [reflexivity|]. intros o. destruct (ab (t + 1) i); cbn [In]; intuition congruence.
  Qed.
  (** the unions of one step *)
  Definition link_in (t : Z) (e e' : Z) : Prop := exists i j, 0 <= i < N /\ 0 <= j < N /\ e = i + t * N /\ e' = j + t * N /\ touch i j /\ ab t i = true /\ ab t j = true.
  Definition link_up (t : Z) (e e' : Z) : Prop := exists i, 0 <= i < N /\ e = i + t * N /\ e' = i + (t + 1) * N /\ ab t i = true /\ ab (t + 1) i = true.
  Lemma in_order o i : order o -> In i o <-> 0 <= i < N.
  Proof. intros H. pose proof PN. split; [intros I; apply (Permutation_in _ H), zseq_In in I; lia|]. intros I. apply (Permutation_in _ (Permutation_sym H)), zseq_In. lia. Qed.
  Lemma ops_choice {A} (f : Z -> res (list A)) (Q : Z -> A -> Prop) l : (forall i, In i l -> exists ops, f i = Ok ops /\ forall o, In o ops <-> Q i o) -> exists ops, collect f l = Ok ops /\ forall o, In o ops <-> exists i, In i l /\ Q i o.
  Proof.
    intros H. set (h := fun i => match f i with Ok a => a | _ => [] end). assert (E : forall i, In i l -> f i = Ok (h i)) by (intros i Hi; destruct (H i Hi) as (a & Ea & _); unfold h; rewrite Ea; reflexivity). rewrite (collect_spec f h l E). eexists. split; [reflexivity|]. intros o. rewrite in_flat_map. split; intros (i & Hi & Ho); exists i; (split; [exact Hi|]); destruct (H i Hi) as (a & Ea & Ia); rewrite (E i Hi) in Ea; injection Ea as Ea; [apply Ia; rewrite <- Ea; exact Ho|rewrite Ea; apply Ia, Ho].
  Qed.
  Lemma in_ops f t o : samples f (g t) -> order o -> exists ops, collect (unions_of x itp thr t f) o = Ok ops /\ (forall c, In c ops -> exists a b, c = DUnite a b) /\ forall a b, In (DUnite a b) ops <-> link_in t a b.
  Proof.
    intros H Ho. destruct (ops_choice (unions_of x itp thr t f) (fun i c => exists j, c = DUnite (i + t * N) (j + t * N) /\ 0 <= j < N /\ touch i j /\ ab t i = true /\ ab t j = true) o) as (ops & E & I).
    { intros i Hi. apply unions_ok; [exact H|]. apply (in_order o i Ho), Hi. }
    exists ops. split; [exact E|]. split; [intros c Hc; apply I in Hc as (i & _ & j & -> & _); eauto|]. intros a b. rewrite I. split.
    - intros (i & Hi & j & Eo & Hj & Q). injection Eo as -> ->. apply (in_order o i Ho) in Hi. exists i, j. tauto.
    - intros (i & j & Hi & Hj & -> & -> & Q). exists i. split; [apply (in_order o i Ho), Hi|]. exists j. tauto.
  Qed.
  Lemma up_ops f f1 t o : samples f (g t) -> samples f1 (g (t + 1)) -> order o -> exists ops, collect (unions_next x itp thr t f f1) o = Ok ops /\ (forall c, In c ops -> exists a b, c = DUnite a b) /\ forall a b, In (DUnite a b) ops <-> link_up t a b.
  Proof.
    intros H H1 Ho. destruct (ops_choice (unions_next x itp thr t f f1) (fun i c => c = DUnite (i + t * N) (i + (t + 1) * N) /\ ab t i = true /\ ab (t + 1) i = true) o) as (ops & E & I).
    { intros i Hi. apply next_ok; [exact H|exact H1|]. apply (in_order o i Ho), Hi. }
    exists ops. split; [exact E|]. split; [intros c Hc; apply I in Hc as (i & _ & -> & _); eauto|]. intros a b. rewrite I. split.
    - intros (i & Hi & Eo & Q). injection Eo as -> ->. apply (in_order o i Ho) in Hi. exists i. tauto.
    - intros (i & Hi & -> & -> & Q). exists i. split; [apply (in_order o i Ho), Hi|]. tauto.
  Qed.
  (** the state after steps 0, ..., t-1 *)
  Definition links_below (t a b : Z) : Prop := exists s, 0 <= s < t /\ (link_in s a b \/ link_up s a b).
  Definition ran (Q : Z -> Z -> Prop) (u : list (Z * Z)) : Prop := exists ops, duf_run [] ops = Ok u /\ (forall c, In c ops -> exists a b, c = DUnite a b) /\ forall a b, In (DUnite a b) ops <-> Q a b.
  Lemma ran_more Q Q' u ops : ran Q u -> (forall c, In c ops -> exists a b, c = DUnite a b) -> (forall a b, In (DUnite a b) ops <-> Q' a b) -> exists u', duf_run u ops = Ok u' /\ ran (fun a b => Q a b \/ Q' a b) u'.
  Proof.
    intros (ops0 & E0 & U0 & I0) U I. destruct (C03_duf_sequential Z _ (ops0 ++ ops)) as (u' & E & _). assert (X : duf_run u ops = Ok u') by (rewrite duf_run_app, E0 in E; exact E). exists u'. split; [exact X|].
    exists (ops0 ++ ops). split; [exact E|]. split; [intros c Hc; apply in_app_iff in Hc as [Hc|Hc]; auto|]. intros a b. rewrite in_app_iff, I0, I. reflexivity.
  Qed.
  Lemma ran_ext Q Q' u : (forall a b, Q a b <-> Q' a b) -> ran Q u -> ran Q' u.
  Proof. intros H (ops & E & U & I). exists ops. split; [exact E|]. split; [exact U|]. intros a b. rewrite I. apply H. Qed.
  Lemma feed_ok : forall fs s f t, snaps s = [f] -> cur s = t -> 0 <= t -> samples f (g t) -> (forall k h, nth_error fs k = Some h -> samples (fst h) (g (t + 1 + Z.of_nat k)) /\ order (fst (snd h)) /\ order (snd (snd h))) -> ran (links_below t) (buf s) ->
    exists s' f', feed x itp thr fs s = Ok s' /\ snaps s' = [f'] /\ cur s' = t + Z.of_nat (length fs) /\ samples f' (g (t + Z.of_nat (length fs))) /\ ran (links_below (t + Z.of_nat (length fs))) (buf s').
  Proof.
    induction fs as [|[f1 [o1 o2]] fs IH]; intros s f t Es Et Ht Hf Hfs R.
    - exists s, f. cbn [feed length]. rewrite Z.add_0_r. auto.
    - cbn [feed]. unfold advance_timestep, update_timestep, push. cbn [snaps cur buf]. rewrite Es, Et. cbn [app]. destruct (Hfs 0%nat _ eq_refl) as (H1 & O1 & O2). cbn [fst snd] in *. rewrite Z.add_0_r in H1.
      destruct (in_ops f t o1 Hf O1) as (a & -> & Ua & Ia). cbn [bind]. destruct (ran_more _ _ _ _ R Ua Ia) as (u & -> & Ru). cbn [bind]. destruct (up_ops f f1 t o2 Hf H1 O2) as (b & -> & Ub & Ib). cbn [bind]. destruct (ran_more _ _ _ _ Ru Ub Ib) as (u' & -> & Ru'). cbn [bind snaps cur buf tl].
      destruct (IH {| snaps := [f1]; cur := t + 1; buf := u' |} f1 (t + 1) eq_refl eq_refl ltac:(lia) H1) as (s' & f' & E & Q1 & Q2 & Q3 & Q4).
      { intros k h Hk. specialize (Hfs (S k) h Hk). replace (t + 1 + 1 + Z.of_nat k) with (t + 1 + Z.of_nat (S k)) by lia. exact Hfs. }
      { cbn [buf]. eapply ran_ext; [|exact Ru']. intros p q. cbn beta. unfold links_below. split.
        - intros [[(s0 & Hs & Q)|Q]|Q]; [exists s0; split; [lia|exact Q]|exists t; split; [lia|auto]|exists t; split; [lia|auto]].
        - intros (s0 & Hs & Q). destruct (Z.eq_dec s0 t) as [-> |]; [tauto|]. left; left. exists s0. split; [lia|exact Q]. }
      exists s', f'. cbn [length]. replace (t + Z.of_nat (S (length fs))) with (t + 1 + Z.of_nat (length fs)) by lia. auto.
  Qed.
  Lemma track_ok f0 fs last : samples f0 (g 0) -> (forall k h, nth_error fs k = Some h -> samples (fst h) (g (1 + Z.of_nat k)) /\ order (fst (snd h)) /\ order (snd (snd h))) -> order (fst last) ->
    exists s, track x itp thr f0 fs last = Ok s /\ ran (linked (1 + Z.of_nat (length fs)) thr g) (buf s).
  Proof.
    intros H0 Hf Ho. unfold track, push. destruct (feed_ok fs {| snaps := [f0]; cur := 0; buf := [] |} f0 0 eq_refl eq_refl ltac:(lia) H0 Hf) as (s & f' & E & Q1 & Q2 & Q3 & Q4).
    { exists []. split; [reflexivity|]. split; [intros c []|]. intros a b. split; [intros []|]. intros (s0 & Hs & _). lia. }
    cbn [snaps cur buf app blob_init]. rewrite E. cbn [bind]. unfold update_timestep. rewrite Q1, Q2. destruct (in_ops f' _ (fst last) Q3 Ho) as (a & -> & Ua & Ia). cbn [bind]. destruct (ran_more _ _ _ _ Q4 Ua Ia) as (u & -> & Ru). cbn [bind]. eexists. split; [reflexivity|]. cbn [buf]. eapply ran_ext; [|exact Ru]. cbn beta. rewrite Z.add_0_l. set (L := Z.of_nat (length fs)). assert (0 <= L) by lia. pose proof PN as PN'.
    assert (AB : forall t i, ab t i = true <-> (thr <= g t i)%Q) by (intros t i; apply Qle_bool_iff).
    intros p q. unfold PropXgcBlob.linked, active. fold N. split.
    - intros [(s0 & Hs & [Q|Q])|Q].
      + destruct Q as (i & j & Hi & Hj & -> & -> & Tj & A & B). destruct (id_div s0 i Hi) as [-> ->], (id_div s0 j Hj) as [-> ->]. rewrite AB in A, B. repeat (split; [split; [lia|assumption]|]). left. auto.
      + destruct Q as (i & Hi & -> & -> & A & B). destruct (id_div s0 i Hi) as [-> ->], (id_div (s0 + 1) i Hi) as [-> ->]. rewrite AB in A, B. repeat (split; [split; [lia|assumption]|]). right. ring.
      + destruct Q as (i & j & Hi & Hj & -> & -> & Tj & A & B). destruct (id_div L i Hi) as [-> ->], (id_div L j Hj) as [-> ->]. rewrite AB in A, B. repeat (split; [split; [lia|assumption]|]). left. auto.
    - intros ((Rp & Ap) & (Rq & Aq) & C). pose proof (Z.div_mod p N ltac:(lia)) as Dp. pose proof (Z.div_mod q N ltac:(lia)) as Dq. pose proof (Z.mod_pos_bound p N PN') as Mp. pose proof (Z.mod_pos_bound q N PN') as Mq. destruct C as [(Et & Tj)|Eq].
      + assert (X : link_in (p / N) p q). { exists (p mod N), (q mod N). rewrite !AB. split; [lia|]. split; [lia|]. split; [lia|]. split; [rewrite Et; lia|]. split; [exact Tj|]. split; [exact Ap|]. rewrite Et. exact Aq. }
        destruct (Z.eq_dec (p / N) L) as [El|]; [right; rewrite <- El; exact X|]. left. exists (p / N). split; [lia|auto].
      + assert (Dv : q / N = p / N + 1 /\ q mod N = p mod N). { rewrite Eq. replace (p + N) with (p + 1 * N) by ring. split; [apply Z.div_add; lia|apply Z.mod_add; lia]. } destruct Dv as [D1 D2].
        left. exists (p / N). split; [lia|]. right. exists (p mod N). rewrite !AB. split; [lia|]. split; [lia|]. split; [nia|]. split; [exact Ap|]. rewrite <- D1, <- D2. exact Aq.
  Qed.
  (** the labels *)
  Lemma conn_linked ops Q : (forall c, In c ops -> exists a b, c = DUnite a b) -> (forall a b, In (DUnite a b) ops <-> Q a b) -> forall a b, conn (united ops) a b <-> clos_refl_sym_trans Z Q a b.
  Proof.
    intros U I. assert (E : forall a b, In (a, b) (united ops) <-> Q a b). { intros a b. rewrite <- I. unfold united. rewrite in_flat_map. split; [intros (c & Hc & H); destruct (U c Hc) as (a' & b' & ->); cbn in H; destruct H as [[= -> ->]|[]]; exact Hc|]. intros H. exists (DUnite a b). split; [exact H|left; reflexivity]. }
    intros a b. unfold conn. split; (induction 1 as [p q H|p|p q H IH|p q r H1 I1 H2 I2]; [apply rst_step, E, H|apply rst_refl|apply rst_sym, IH|eapply rst_trans; eassumption]).
  Qed.
  Definition labelled (Q : Z -> Z -> Prop) (e l : Z) : Prop :=
    l = -1 /\ ~ (exists e', Q e e' \/ Q e' e) \/ (exists e', Q e e' \/ Q e' e) /\ clos_refl_sym_trans Z Q e l /\ forall e', clos_refl_sym_trans Z Q e e' -> l <= e'.
  Lemma sliced_ok Q s t : ran Q (buf s) -> exists L, get_sliced x s t = Ok L /\ length L = Z.to_nat N /\ forall i l, nth_error L i = Some l -> labelled Q (Z.of_nat i + t * N) l.
  Proof.
    intros (ops & E & U & I). unfold get_sliced. rewrite T0. pose proof (conn_linked ops Q U I) as CL.
    assert (M : forall e, In e (mentioned ops) <-> exists e', Q e e' \/ Q e' e). { intros e. unfold mentioned. rewrite in_flat_map. split; [intros (c & Hc & H); destruct (U c Hc) as (a & b & ->); apply I in Hc; cbn in H; destruct H as [<- |[<- |[]]]; eauto|]. intros (e' & [H|H]); apply I in H; eexists; (split; [exact H|cbn; auto]). }
    assert (A : forall k, exists a finds, for_in (fun i (p : list Z * list (Z * Z)) => if duf_has (snd p) (i + t * N) then let* (r, u) := duf_find (snd p) (i + t * N) in Ok (fst p ++ [r], u) else Ok (fst p ++ [-1], snd p)) (zseq k) ([], buf s) = Ok (a, match duf_run [] (ops ++ map DFind finds) with Ok u => u | _ => [] end) /\ length a = k /\ (forall e, In e finds -> In e (mentioned ops)) /\ forall i l, nth_error a i = Some l -> labelled Q (Z.of_nat i + t * N) l).
    { induction k as [|k (a & finds & Ea & La & Fi & Lb)].
      - exists [], []. cbn [zseq seq map for_in app]. rewrite app_nil_r, E. split; [reflexivity|]. split; [reflexivity|]. split; [intros e []|]. intros [|i] l; discriminate.
      - unfold zseq in *. rewrite seq_S, map_app, for_in_app, Ea. cbn [bind map for_in]. destruct (C03_duf_sequential Z _ (ops ++ map DFind finds)) as (u & Eu & Mn & _ & Hs & _). rewrite Eu. cbn [snd fst]. rewrite Nat.add_0_l.
        assert (UE : united (ops ++ map DFind finds) = united ops). { rewrite united_app. replace (united (map DFind finds)) with (@nil (Z * Z)); [apply app_nil_r|]. clear. induction finds; cbn; auto. }
        assert (ME : forall e, In e (mentioned (ops ++ map DFind finds)) <-> In e (mentioned ops)). { intros e. rewrite mentioned_app, in_app_iff. replace (mentioned (map DFind finds)) with finds; [split; [intros [H|H]; auto|auto]|]. clear. induction finds as [|c l IH]; cbn; [reflexivity|]. f_equal. exact IH. }
        rewrite UE in Mn. set (e := Z.of_nat k + t * N) in *. destruct (duf_has u e) eqn:Hh.
        + destruct (Mn e) as (r & u' & Ef & (Cr & Mr)). rewrite Ef. cbn [bind]. exists (a ++ [r]), (finds ++ [e]). assert (He : In e (mentioned ops)) by (apply ME, Hs, Hh). split; [|split; [rewrite app_length; cbn; lia|split]].
          * rewrite map_app, app_assoc, duf_run_app, Eu. cbn [bind map duf_run duf_step]. rewrite Ef. reflexivity.
          * intros c Hc. apply in_app_iff in Hc as [Hc|[<- |[]]]; auto.
          * intros i l Hl. destruct (Nat.lt_ge_cases i k) as [Hi|Hi]; [rewrite nth_error_app1 in Hl by lia; apply Lb, Hl|]. rewrite nth_error_app2 in Hl by lia. rewrite La in Hl. destruct (i - k)%nat as [|c0] eqn:Ei; [|destruct c0; discriminate]. cbn in Hl. injection Hl as <-. replace i with k by lia. right. split; [apply M, He|]. split; [apply CL, Cr|]. intros e' He'. apply CL in He'. destruct (Mr e' He') as [Er|K]; [lia|]. apply (proj1 (klt_Z _ _)) in K. lia.
        + cbn [bind]. exists (a ++ [-1]), finds. split; [rewrite Eu; reflexivity|]. split; [rewrite app_length; cbn; lia|]. split; [exact Fi|]. intros i l Hl. destruct (Nat.lt_ge_cases i k) as [Hi|Hi]; [rewrite nth_error_app1 in Hl by lia; apply Lb, Hl|]. rewrite nth_error_app2 in Hl by lia. rewrite La in Hl. destruct (i - k)%nat as [|c0] eqn:Ei; [|destruct c0; discriminate]. cbn in Hl. injection Hl as <-. replace i with k by lia. left. split; [reflexivity|]. intros H. assert (duf_has u e = true) by (apply Hs, ME, M, H). congruence. }
    destruct (A (Z.to_nat N)) as (a & finds & Ea & La & _ & Lb). rewrite Ea. cbn [bind]. exists a. auto.
  Qed.
End Blob.

(** ** C134: values at the vertices of the torus *)
(** on a plane of the data the value is the sample itself *)
Lemma interpolate_real n0 T m x itp f i : well_formed n0 T -> build n0 T = Ok m -> t_m2 x = m -> (0 < n0)%nat -> 1 <= vphi x -> 0 <= i -> (i / Z.of_nat n0) mod vphi x = 0 -> interpolate x itp f i = zget f (Z.of_nat n0 * (i / Z.of_nat n0 / vphi x) + i mod Z.of_nat n0).
Proof.
  intros W Bd Em Pn HV Hi Hv. unfold interpolate. rewrite Em, (En n0 T m W Bd). destruct (Z.eqb_spec (Z.of_nat n0) 0); [lia|]. destruct (Z.eqb_spec (vphi x) 0); [lia|]. cbn [orb]. pose proof (Z.div_pos i (Z.of_nat n0) Hi ltac:(lia)). rewrite Z.rem_mod_nonneg, Hv by lia. rewrite Z.quot_div_nonneg by lia. reflexivity.
Qed.
Theorem C134_real_planes : forall n0 T m x itp f i, well_formed n0 T -> build n0 T = Ok m -> t_m2 x = m -> (0 < n0)%nat -> 1 <= nphi x -> iphi x = 1 -> 1 <= vphi x -> Z.of_nat (length f) = nphi x * Z.of_nat n0 -> let n := Z.of_nat n0 in
  0 <= i < np x * n -> (i / n) mod vphi x = 0 -> exists v, interpolate x itp f i = Ok v /\ nth_error f (Z.to_nat (i mod n + n * (i / n / vphi x))) = Some v.
Proof.
  intros n0 T m x itp f i W Bd Em Pn HN HI HV Lf n Hi Hv. rewrite (interpolate_real n0 T m) by (assumption || lia). fold n. pose proof (Z.mod_pos_bound i n ltac:(lia)) as B. pose proof (Z.div_pos i n ltac:(lia) ltac:(lia)). assert (i / n < np x) by (apply Z.div_lt_upper_bound; lia). unfold np in *. rewrite HI in *.
  assert (0 <= i / n / vphi x < nphi x) by (split; [apply Z.div_pos; lia|apply Z.div_lt_upper_bound; lia]). destruct (zget_ok f (n * (i / n / vphi x) + i mod n) ltac:(nia)) as (v & -> & E). exists v. split; [reflexivity|]. rewrite Z.add_comm. exact E.
Qed.
(** on a virtual plane it lies between the samples whose triangles are used, and the weights add up to 1: constants are reproduced.
    An interpolant is proper if it names three vertices of the triangle mesh on either side with non-negative weights that add up to 1 *)
Definition proper_half (n : Z) (tri : list Z) (mu : list Q) : Prop := exists a b c u v w, tri = [a; b; c] /\ mu = [u; v; w] /\ 0 <= a < n /\ 0 <= b < n /\ 0 <= c < n /\ (0 <= u)%Q /\ (0 <= v)%Q /\ (0 <= w)%Q /\ (u + v + w == 1)%Q.
Definition proper (n : Z) (l : interpolant) : Prop := proper_half n (tri0 l) (mu0 l) /\ proper_half n (tri1 l) (mu1 l).
Definition all_proper (x : torus) (n : Z) (itp : list (list interpolant)) : Prop := forall k j, 0 < k < vphi x -> 0 <= j < n -> exists row l, nth_error itp (Z.to_nat k) = Some row /\ nth_error row (Z.to_nat j) = Some l /\ proper n l.
Lemma weighted_ok n f off tri mu lo hi : proper_half n tri mu -> 0 <= off -> off + n <= Z.of_nat (length f) -> (forall v, In v f -> lo <= v <= hi)%Q -> exists q, weighted f off tri mu = Ok q /\ (lo <= q <= hi)%Q.
Proof.
  intros (a & b & c & u & v & w & -> & -> & Ha & Hb & Hc & Hu & Hv & Hw & S1) Ho Hl Hf. unfold weighted.
  destruct (zget_ok f (off + a) ltac:(lia)) as (fa & Ea & Na), (zget_ok f (off + b) ltac:(lia)) as (fb & Eb & Nb), (zget_ok f (off + c) ltac:(lia)) as (fc & Ec & Nc). apply nth_error_In in Na, Nb, Nc. apply Hf in Na, Nb, Nc. assert (Z0 : zget [u; v; w] 0 = Ok u) by reflexivity. assert (Z1 : zget [u; v; w] 1 = Ok v) by reflexivity. assert (Z2 : zget [u; v; w] 2 = Ok w) by reflexivity. assert (Y0 : zget [a; b; c] 0 = Ok a) by reflexivity. assert (Y1 : zget [a; b; c] 1 = Ok b) by reflexivity. assert (Y2 : zget [a; b; c] 2 = Ok c) by reflexivity.
  cbn [for_in]. rewrite Z0, Y0. cbn [bind]. rewrite Ea. cbn [bind]. rewrite Z1, Y1. cbn [bind]. rewrite Eb. cbn [bind]. rewrite Z2, Y2. cbn [bind]. rewrite Ec. cbn [bind]. eexists. split; [reflexivity|]. nra.
Qed.
Theorem C134_virtual_planes : forall n0 T m x itp f i lo hi, well_formed n0 T -> build n0 T = Ok m -> t_m2 x = m -> (0 < n0)%nat -> 1 <= nphi x -> iphi x = 1 -> 1 <= vphi x -> let n := Z.of_nat n0 in Z.of_nat (length f) = nphi x * n -> all_proper x n itp ->
  (forall v, In v f -> lo <= v <= hi)%Q -> 0 <= i < np x * n -> exists q, interpolate x itp f i = Ok q /\ (lo <= q <= hi)%Q.
Proof.
  intros n0 T m x itp f i lo hi W Bd Em Pn HN HI HV n Lf Hp Hf Hi. destruct (Z.eq_dec ((i / n) mod vphi x) 0) as [Hv|Hv].
  { destruct (C134_real_planes n0 T m x itp f i W Bd Em Pn HN HI HV Lf Hi Hv) as (v & E & Nv). exists v. split; [exact E|]. apply nth_error_In in Nv. apply Hf, Nv. }
  unfold interpolate. rewrite Em, (En n0 T m W Bd). fold n. destruct (Z.eqb_spec n 0); [lia|]. destruct (Z.eqb_spec (vphi x) 0); [lia|]. cbn [orb]. pose proof (Z.div_pos i n ltac:(lia) ltac:(lia)). assert (i / n < np x) by (apply Z.div_lt_upper_bound; lia). unfold np in *. rewrite HI in *. set (p := i / n) in *.
  pose proof (Z.mod_pos_bound p (vphi x) ltac:(lia)) as Bv. pose proof (Z.div_mod p (vphi x) ltac:(lia)) as Dv. rewrite Z.rem_mod_nonneg by lia. rewrite Z.quot_div_nonneg by lia. destruct (Z.eqb_spec (p mod vphi x) 0); [contradiction|]. destruct (Z.eqb_spec (nphi x) 0); [lia|].
  assert (B0 : 0 <= p / vphi x < nphi x) by (split; [apply Z.div_pos; lia|apply Z.div_lt_upper_bound; lia]). set (p0 := p / vphi x) in *. rewrite Z.rem_mod_nonneg by lia. pose proof (Z.mod_pos_bound (p0 + 1) (nphi x) ltac:(lia)) as B1. set (p1 := (p0 + 1) mod nphi x) in *.
  destruct (Hp (p mod vphi x) (i mod n) ltac:(lia) ltac:(apply Z.mod_pos_bound; lia)) as (row & l & Er & El & P0 & P1).
  rewrite (proj2 (zget_nth itp (p mod vphi x) row)) by (split; [lia|exact Er]). cbn [bind]. rewrite (proj2 (zget_nth row (i mod n) l)) by (split; [apply Z.mod_pos_bound; lia|exact El]). cbn [bind].
  destruct (weighted_ok n f (n * p0) _ _ lo hi P0 ltac:(nia) ltac:(nia) Hf) as (f0 & -> & R0). cbn [bind]. destruct (weighted_ok n f (n * p1) _ _ lo hi P1 ltac:(nia) ltac:(nia) Hf) as (f1 & -> & R1). cbn [bind]. eexists. split; [reflexivity|].
  set (beta := (inject_Z p / inject_Z (vphi x) - inject_Z p0)%Q). assert (Pv : (0 < inject_Z (vphi x))%Q) by (change 0%Q with (inject_Z 0); rewrite <- Zlt_Qlt; lia).
  assert (Eb : (beta * inject_Z (vphi x) == inject_Z (p mod vphi x))%Q). { unfold beta. rewrite Dv at 1. rewrite inject_Z_plus, inject_Z_mult. field. intros Q. rewrite Q in Pv. apply (Qlt_irrefl 0), Pv. }
  assert (Q0 : (0 <= inject_Z (p mod vphi x))%Q) by (change 0%Q with (inject_Z 0); rewrite <- Zle_Qle; lia). assert (Q1 : (inject_Z (p mod vphi x) <= inject_Z (vphi x))%Q) by (rewrite <- Zle_Qle; lia).
  assert (0 <= beta <= 1)%Q by (split; nra). nra.
Qed.
(** data of nphi planes only, but iphi copies of them in the mesh: the values of the other copies are read out of bounds *)
Theorem C134_periods_refuted : exists m, build 3 [(0, 1, 2)] = Ok m /\ let x := {| t_m2 := m; nphi := 1; iphi := 2; vphi := 1 |} in tn x 0 = 6 /\ interpolate x [] [1; 1; 1]%Q 2 = Ok 1%Q /\ interpolate x [] [1; 1; 1]%Q 3 = UB.
Proof. eexists. split; [reflexivity|]. repeat split; reflexivity. Qed.

(** ** C135: the labels of the threshold tracker, when the indices of each loop are visited one after the other, in any order.
    Vertex i of step t gets the smallest id of its blob (the vertices above the threshold connected to it in the torus and in time), or -1 if nothing is linked to it *)
Theorem C135_labels_partial : forall n0 T m x itp thr g f0 fs last, well_formed n0 T -> build n0 T = Ok m -> t_m2 x = m -> (0 < n0)%nat -> 1 <= np x ->
  samples n0 x itp f0 (g 0) -> (forall k f o1 o2, nth_error fs k = Some (f, (o1, o2)) -> samples n0 x itp f (g (1 + Z.of_nat k)) /\ order n0 x o1 /\ order n0 x o2) -> order n0 x (fst last) ->
  let steps := 1 + Z.of_nat (length fs) in let N := np x * Z.of_nat n0 in let link := linked n0 T (np x) steps thr g in let blob := same_blob n0 T (np x) steps thr g in
  exists s, track x itp thr f0 fs last = Ok s /\ forall t, exists L, get_sliced x s t = Ok L /\ length L = Z.to_nat N /\
    forall i l, nth_error L i = Some l -> let e := Z.of_nat i + t * N in
      (exists e', link e e' \/ link e' e) /\ blob e l /\ (forall e', blob e e' -> l <= e') \/ ~ (exists e', link e e' \/ link e' e) /\ l = -1.
Proof.
  intros n0 T m x itp thr g f0 fs last W Bd Em Pn HP H0 Hf Ho steps N link blob. destruct (track_ok n0 T m x itp thr g W Bd Em Pn HP f0 fs last H0) as (s & E & R); [intros k [f [o1 o2]] Hk; exact (Hf k f o1 o2 Hk)|exact Ho|]. exists s. split; [exact E|]. intros t.
  edestruct (sliced_ok n0 T m x W Bd Em Pn) with (t := t) as (L & EL & LL & I); [exact R|]. exists L. split; [exact EL|]. split; [exact LL|]. intros i l Hl e. destruct (I i l Hl) as [(-> & Nl)|(Yl & C & Mn)]; [right; auto|left; split; [exact Yl|split; [exact C|exact Mn]]].
Qed.
(** hence two linked vertices, of any two steps, have the same label if and only if they are in the same blob *)
Theorem C135_same_label_partial : forall n0 T m x itp thr g f0 fs last, well_formed n0 T -> build n0 T = Ok m -> t_m2 x = m -> (0 < n0)%nat -> 1 <= np x ->
  samples n0 x itp f0 (g 0) -> (forall k f o1 o2, nth_error fs k = Some (f, (o1, o2)) -> samples n0 x itp f (g (1 + Z.of_nat k)) /\ order n0 x o1 /\ order n0 x o2) -> order n0 x (fst last) ->
  let steps := 1 + Z.of_nat (length fs) in let N := np x * Z.of_nat n0 in let link := linked n0 T (np x) steps thr g in let blob := same_blob n0 T (np x) steps thr g in
  exists s, track x itp thr f0 fs last = Ok s /\ forall t t' L L' i i' l l', get_sliced x s t = Ok L -> get_sliced x s t' = Ok L' -> nth_error L i = Some l -> nth_error L' i' = Some l' -> l <> -1 -> l' <> -1 ->
    (l = l' <-> blob (Z.of_nat i + t * N) (Z.of_nat i' + t' * N)).
Proof.
  intros n0 T m x itp thr g f0 fs last W Bd Em Pn HP H0 Hf Ho steps N link blob. destruct (C135_labels_partial n0 T m x itp thr g f0 fs last W Bd Em Pn HP H0 Hf Ho) as (s & E & A). exists s. split; [exact E|]. intros t t' L L' i i' l l' EL EL' Hl Hl' Nl Nl'.
  destruct (A t) as (L1 & E1 & _ & I1). destruct (A t') as (L2 & E2 & _ & I2). assert (L1 = L) by congruence. assert (L2 = L') by congruence. subst L1 L2. destruct (I1 i l Hl) as [(_ & C1 & M1)|[_ X]]; [|contradiction]. destruct (I2 i' l' Hl') as [(_ & C2 & M2)|[_ X]]; [|contradiction]. fold steps N blob in C1, M1, C2, M2. split.
  - intros <-. eapply rst_trans; [exact C1|apply rst_sym, C2].
  - intros B. assert (l <= l') by (apply M1; eapply rst_trans; eassumption). assert (l' <= l) by (apply M2; eapply rst_trans; [apply rst_sym, B|exact C1]). lia.
Qed.
(** when the mesh has the planes of the data only, the values are the samples *)
Theorem C135_plain_values : forall n0 T m x itp f, well_formed n0 T -> build n0 T = Ok m -> t_m2 x = m -> (0 < n0)%nat -> 1 <= nphi x -> iphi x = 1 -> vphi x = 1 -> Z.of_nat (length f) = nphi x * Z.of_nat n0 -> samples n0 x itp f (fun i => nth (Z.to_nat i) f 0%Q).
Proof.
  intros n0 T m x itp f W Bd Em Pn HN HI HV Lf i Hi. destruct (C134_real_planes n0 T m x itp f i W Bd Em Pn HN HI ltac:(lia) Lf Hi) as (v & E & Nv); [rewrite HV; apply Z.mod_1_r|]. exists v. split; [exact E|]. rewrite HV, Z.div_1_r in Nv. replace (i mod Z.of_nat n0 + Z.of_nat n0 * (i / Z.of_nat n0)) with i in Nv by (pose proof (Z.div_mod i (Z.of_nat n0) ltac:(lia)); lia). rewrite (nth_error_nth _ _ _ Nv). reflexivity.
Qed.
(** three planes of one triangle, two steps: vertices 0, 3 and 7 are above the threshold at step 0, vertices 3 and 8 at step 1.  0 and 3 make a blob with vertex 3 of step 1, whose label is 0 *)
Definition ex_f0 : list Q := [1; 0; 0; 1; 0; 0; 0; 1; 0]%Q.
Definition ex_f1 : list Q := [0; 0; 0; 1; 0; 0; 0; 0; 1]%Q.
Definition ex_order : list Z * list Z := ([0; 1; 2; 3; 4; 5; 6; 7; 8], [8; 7; 6; 5; 4; 3; 2; 1; 0]).
Example C135_witness : exists m s, build 3 [(0, 1, 2)] = Ok m /\ let x := one_triangle 3 m in track x [] 1%Q ex_f0 [(ex_f1, ex_order)] ex_order = Ok s /\ get_sliced x s 0 = Ok [0; -1; -1; 0; -1; -1; -1; -1; -1] /\ get_sliced x s 1 = Ok [-1; -1; -1; 0; -1; -1; -1; -1; -1].
Proof. eexists. eexists. split; [reflexivity|]. cbn zeta. split; [vm_compute; reflexivity|]. split; vm_compute; reflexivity. Qed.
(** an isolated vertex above the threshold gets -1, like those below it; and a diagonal edge of the mesh does not connect: vertices 0 and 4 *)
Theorem C135_isolated_refuted : exists m s, build 3 [(0, 1, 2)] = Ok m /\ let x := one_triangle 3 m in t_get x 1 3 = Ok [0; 4] /\ track x [] 1%Q [1; 0; 0; 0; 1; 0; 0; 0; 0]%Q [] ex_order = Ok s /\ get_sliced x s 0 = Ok [-1; -1; -1; -1; -1; -1; -1; -1; -1].
Proof. eexists. eexists. split; [reflexivity|]. cbn zeta. split; [reflexivity|]. split; [vm_compute; reflexivity|]. vm_compute. reflexivity. Qed.

(** ** C136: the printed threshold (over sigma_threshold, squared) is the variance of the values in the region plus (nphi-1)^2 times the square of their mean *)
Lemma sumq_app a b : (sumq (a ++ b) == sumq a + sumq b)%Q.
Proof. unfold sumq. rewrite fold_left_app. generalize (fold_left Qplus a 0%Q) as z. induction b as [|q b IH] using rev_ind; intros z; cbn; [ring|]. rewrite !fold_left_app. cbn. rewrite IH. ring. Qed.
Lemma sumq_dev vs a : (sumq (map (fun v => (v - a) * (v - a)) vs) == sumq (map (fun v => v * v) vs) - 2 * a * sumq vs + inject_Z (Z.of_nat (length vs)) * (a * a))%Q.
Proof.
  induction vs as [|v vs IH] using rev_ind; [cbn; ring|]. rewrite !map_app, !sumq_app, IH, app_length. cbn [map length]. replace (Z.of_nat (length vs + 1)) with (Z.of_nat (length vs) + 1) by lia. rewrite inject_Z_plus. change (sumq [(v - a) * (v - a)]%Q) with (0 + (v - a) * (v - a))%Q. change (sumq [v * v]%Q) with (0 + v * v)%Q. change (sumq [v]) with (0 + v)%Q. change (inject_Z 1) with 1%Q. ring.
Qed.
Lemma mapr_length {A B} (f : A -> res B) : forall l r, mapr f l = Ok r -> length r = length l.
Proof. induction l as [|a l IH]; cbn [mapr]; intros r E; [injection E as <-; reflexivity|]. destruct (f a); cbn [bind] in E; try discriminate. destruct (mapr f l); cbn [bind] in E; try discriminate. injection E as <-. cbn [length]. f_equal. apply IH. reflexivity. Qed.
Theorem C136_threshold_partial : forall n0 np roi scalar vs, 1 <= np -> roi <> [] -> roi_values n0 np roi scalar = Ok vs -> exists s2, derive_variance n0 np roi scalar = Ok s2 /\
  let M := inject_Z (Z.of_nat (length vs)) in let mean := (sumq vs / M)%Q in (s2 == (sumq (map (fun v => v * v) vs) / M - mean * mean) + inject_Z ((np - 1) * (np - 1)) * (mean * mean))%Q.
Proof.
  intros n0 np roi scalar vs Hn Hr E. unfold derive_variance. rewrite E. cbn [bind]. destruct (Nat.eqb_spec (length roi) 0) as [Z0|Z0]; [destruct roi; [contradiction|discriminate]|]. destruct (Z.eqb_spec np 0); [lia|]. cbn [orb]. eexists. split; [reflexivity|]. cbn zeta.
  apply mapr_length in E. rewrite prod_length in E. unfold zseq in E. rewrite map_length, seq_length in E. assert (EM : Z.of_nat (length vs) = np * Z.of_nat (length roi)) by lia. rewrite sumq_dev, EM, !inject_Z_mult. set (k := inject_Z (Z.of_nat (length roi))). set (p := inject_Z np). replace (inject_Z (np - 1)) with (inject_Z np + inject_Z (-1))%Q by (rewrite <- inject_Z_plus; reflexivity). fold p. change (inject_Z (-1)) with (-(1))%Q.
  assert (Hk : ~ (k == 0)%Q). { unfold k. change 0%Q with (inject_Z 0). rewrite inject_Z_injective. lia. } assert (Hp : ~ (p == 0)%Q). { unfold p. change 0%Q with (inject_Z 0). rewrite inject_Z_injective. lia. }
  field. auto.
Qed.
(** the sum is divided by the number of nodes of one plane: of a constant field 1 on two planes the deviation found is 1, and it depends on the zero of the field *)
Theorem C136_threshold_refuted : derive_variance 1 2 [0] [1; 1]%Q = Ok (2 # 2)%Q /\ derive_variance 1 2 [0] [0; 0]%Q = Ok (0 # 2)%Q.
Proof. split; reflexivity. Qed.
(** the values are those of the nodes of the region on every plane, plane by plane *)
Theorem C136_nodes : forall n0 np roi scalar, 0 <= np -> Forall (fun r => 0 <= r < n0) roi -> Z.of_nat (length scalar) = n0 * np ->
  exists vs, roi_values n0 np roi scalar = Ok vs /\ vs = concat (map (fun j => map (fun r => nth (Z.to_nat (n0 * Z.of_nat j + r)) scalar 0%Q) roi) (seq 0 (Z.to_nat np))).
Proof.
  intros n0 np roi scalar Hn HR L. unfold roi_values. rewrite (mapr_map _ (fun p => nth (Z.to_nat (snd p + n0 * fst p)) scalar 0%Q)).
  - eexists. split; [reflexivity|]. unfold zseq. induction (seq 0 (Z.to_nat np)) as [|j l IH]; [reflexivity|]. cbn [map list_prod concat]. rewrite map_app, map_map, IH. f_equal. apply map_ext. intros r. cbn [fst snd]. f_equal. f_equal. ring.
  - intros [j r] I. apply in_prod_iff in I as [Ij Ir]. unfold zseq in Ij. apply in_map_iff in Ij as (k & <- & Ik). apply in_seq in Ik. rewrite Forall_forall in HR. specialize (HR r Ir). cbn [fst snd]. unfold zget. destruct (Z.ltb_spec (r + n0 * Z.of_nat k) 0); [nia|]. unfold vget, of_option.
    rewrite (nth_error_nth' scalar 0%Q) by nia. reflexivity.
Qed.
Example C136_nodes_witness : roi_values 2 2 [1] [1; 2; 3; 4]%Q = Ok [2; 4]%Q.
Proof. reflexivity. Qed.
