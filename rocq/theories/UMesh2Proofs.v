(** Lemmas about [UMesh2]: the construction of a mesh. *)
From Coq Require Import ZArith.
From Verif Require Import Base UnionFind UnionFindProofs SoS UMesh2.
Local Open Scope Z_scope.

Ltac inv H := inversion H; subst; clear H.
(** ** Arrays and loops *)
Lemma vget_vset {A} (v : A) : forall l i j, (i < length l)%nat -> vget (vset l i v) j = if Nat.eqb j i then Ok v else vget l j.
Proof. unfold vget. induction l as [|x l IH]; intros i j L; [cbn in L; lia|]. destruct i, j; cbn; try reflexivity. apply IH. cbn in L. lia. Qed.
Lemma length_vset {A} (v : A) : forall l i, length (vset l i v) = length l.
Proof. induction l as [|x l IH]; intros [|i]; cbn; auto. Qed.
Lemma zget_ok {A} (l : list A) i : 0 <= i < Z.of_nat (length l) -> exists x, zget l i = Ok x.
Proof. intros H. unfold zget. destruct (Z.ltb_spec i 0); [lia|]. destruct (vget_lt l (Z.to_nat i)) as (x & E & _); [lia|eauto]. Qed.
Lemma zget_range {A} (l : list A) i x : zget l i = Ok x -> 0 <= i < Z.of_nat (length l).
Proof. unfold zget, vget. destruct (Z.ltb_spec i 0); [discriminate|]. destruct (nth_error l (Z.to_nat i)) eqn:E; [|discriminate]. intros _. assert (nth_error l (Z.to_nat i) <> None) as N by congruence. apply nth_error_Some in N. lia. Qed.
Lemma zput_ok {A} (l : list A) i v : 0 <= i < Z.of_nat (length l) -> exists l', zput l i v = Ok l' /\ length l' = length l /\ forall j, zget l' j = if j =? i then Ok v else zget l j.
Proof.
  intros H. unfold zput. destruct (Z.ltb_spec i 0); [lia|]. unfold vput. destruct (Nat.ltb_spec (Z.to_nat i) (length l)); [|lia]. eexists. split; [reflexivity|]. split; [apply length_vset|].
  intros j. unfold zget. destruct (Z.ltb_spec j 0); [destruct (Z.eqb_spec j i); [lia|reflexivity]|]. rewrite vget_vset by lia. destruct (Nat.eqb_spec (Z.to_nat j) (Z.to_nat i)), (Z.eqb_spec j i); try lia; reflexivity.
Qed.
Definition zin (vs : list (sset Z)) (v x : Z) : Prop := exists s, zget vs v = Ok s /\ In x s.
Lemma vins_ok vs v x : 0 <= v < Z.of_nat (length vs) -> exists vs', vins vs v x = Ok vs' /\ length vs' = length vs /\ forall j y, zin vs' j y <-> zin vs j y \/ (j = v /\ y = x).
Proof.
  intros H. unfold vins. destruct (zget_ok vs v H) as (s & E). rewrite E. cbn [bind]. destruct (zput_ok vs v (sins x s) H) as (vs' & Ep & L & G). exists vs'. split; [exact Ep|]. split; [exact L|].
  intros j y. unfold zin. rewrite G. destruct (Z.eqb_spec j v) as [->|N].
  - rewrite E. split.
    + intros (s' & Es & I). injection Es as <-. apply In_sins in I. destruct I as [->|I]; [auto|left; eauto].
    + intros [(s' & Es & I)|[_ ->]]; [injection Es as <-|]; (eexists; split; [reflexivity|]); apply In_sins; auto.
  - split; [intros H1; left; exact H1|intros [H1|[H1 _]]; [exact H1|contradiction]].
Qed.
Lemma for_in_inv {A S} (f : A -> S -> res S) (P : list A -> S -> Prop) : forall l s, P [] s -> (forall d x r s, l = d ++ x :: r -> P d s -> exists s', f x s = Ok s' /\ P (d ++ [x]) s') -> exists s', for_in f l s = Ok s' /\ P l s'.
Proof.
  intros l s H0 Step. assert (G : forall r d s, l = d ++ r -> P d s -> exists s', for_in f r s = Ok s' /\ P l s').
  { induction r as [|x r IH]; intros d s0 E Hp; cbn [for_in]; [exists s0; split; [reflexivity|rewrite E, app_nil_r; exact Hp]|]. destruct (Step d x r s0 E Hp) as (s1 & -> & H1). cbn [bind]. apply (IH (d ++ [x])); [rewrite E, <- app_assoc; reflexivity|exact H1]. }
  exact (G l [] s eq_refl H0).
Qed.
Lemma zseq_in n i : In i (zseq n) <-> 0 <= i < Z.of_nat n.
Proof. unfold zseq. rewrite in_map_iff. split; [intros (k & <- & H); apply in_seq in H; lia|]. intros H. exists (Z.to_nat i). split; [lia|]. apply in_seq. lia. Qed.
Lemma zseq_NoDup n : NoDup (zseq n).
Proof. unfold zseq. apply FinFun.Injective_map_NoDup; [intros x y; lia|apply seq_NoDup]. Qed.
Lemma for_z_inv {S} (f : Z -> S -> res S) n (P : Z -> S -> Prop) s : P 0 s -> (forall i s, 0 <= i < Z.of_nat n -> P i s -> exists s', f i s = Ok s' /\ P (i + 1) s') -> exists s', for_in f (zseq n) s = Ok s' /\ P (Z.of_nat n) s'.
Proof.
  intros H0 Step. destruct (for_in_inv f (fun d s => P (Z.of_nat (length d)) s) (zseq n) s H0) as (s' & E & H).
  - intros d x r s0 E Hp. assert (X : x = Z.of_nat (length d)).
    { unfold zseq in E. assert (N : nth_error (map Z.of_nat (seq 0 n)) (length d) = Some x) by (rewrite E, nth_error_app2, Nat.sub_diag by lia; reflexivity). assert (L : (length d < n)%nat) by (apply (f_equal (@length Z)) in E; rewrite map_length, seq_length, app_length in E; cbn in E; lia).
      rewrite (nth_error_nth' _ 0) in N by (rewrite map_length, seq_length; lia). injection N as <-. rewrite (map_nth Z.of_nat (seq 0 n) 0%nat), seq_nth by lia. lia. }
    subst x. destruct (Step (Z.of_nat (length d)) s0) as (s1 & E1 & H1); [|exact Hp|].
    + apply zseq_in. rewrite E. apply in_or_app. right. cbn. auto.
    + exists s1. split; [exact E1|]. rewrite app_length. cbn [length]. rewrite Nat2Z.inj_add. exact H1.
  - exists s'. split; [exact E|]. unfold zseq in H. rewrite map_length, seq_length in H. exact H.
Qed.
Lemma zget_repeat {A} (x : A) n i : 0 <= i < Z.of_nat n -> zget (repeat x n) i = Ok x.
Proof. intros H. unfold zget, vget. destruct (Z.ltb_spec i 0); [lia|]. rewrite (nth_error_nth' _ x) by (rewrite repeat_length; lia). rewrite nth_repeat. reflexivity. Qed.
Lemma zin_repeat n v x : ~ zin (repeat [] n) v x.
Proof. intros (s & E & I). pose proof (zget_range _ _ _ E) as R. rewrite repeat_length in R. rewrite zget_repeat in E by lia. injection E as <-. destruct I. Qed.
Lemma length_mset {K V} `{OrdKey K} (k : K) (v : V) : forall m, mfind k m = None -> length (mset k v m) = S (length m).
Proof. induction m as [|[k' v'] m IH]; cbn; [reflexivity|]. unfold keqb. destruct (kcmp k k') eqn:E; [discriminate|reflexivity|]. intros N. cbn. rewrite IH by exact N. reflexivity. Qed.
Lemma NoDup_map_in {A B} (f : A -> B) : forall l, NoDup l -> (forall x y, In x l -> In y l -> f x = f y -> x = y) -> NoDup (map f l).
Proof.
  induction l as [|a l IH]; intros N I; [constructor|]. inv N. cbn. constructor; [|apply IH; [assumption|intros; apply I; cbn; auto]]. rewrite in_map_iff. intros (x & E & Hx). apply H1. rewrite (I a x); cbn; auto.
Qed.

(** ** Meshes: the specification *)
Definition tri_at (T : list (Z * Z * Z)) (i : Z) : option (Z * Z * Z) := if i <? 0 then None else nth_error T (Z.to_nat i).
Definition among (v : Z) (t : Z * Z * Z) : Prop := let '(a, b, c) := t in v = a \/ v = b \/ v = c.
Definition corner (T : list (Z * Z * Z)) (i v : Z) : Prop := exists t, tri_at T i = Some t /\ among v t.
Definition distinct3 (t : Z * Z * Z) : Prop := let '(a, b, c) := t in a <> b /\ b <> c /\ a <> c.
(** vertex ids in range, three different corners, no triangle twice, at most two triangles at any edge *)
Definition well_formed (n0 : nat) (T : list (Z * Z * Z)) : Prop :=
  (forall i v, corner T i v -> 0 <= v < Z.of_nat n0) /\ (forall i t, tri_at T i = Some t -> distinct3 t) /\
  (forall i j t t', tri_at T i = Some t -> tri_at T j = Some t' -> (forall v, among v t <-> among v t') -> i = j) /\
  (forall u v i j k, u <> v -> corner T i u -> corner T i v -> corner T j u -> corner T j v -> corner T k u -> corner T k v -> i = j \/ j = k \/ i = k).
Lemma tri_at_range T i t : tri_at T i = Some t -> 0 <= i < Z.of_nat (length T).
Proof. unfold tri_at. destruct (Z.ltb_spec i 0); [discriminate|]. intros E. assert (nth_error T (Z.to_nat i) <> None) as N by congruence. apply nth_error_Some in N. lia. Qed.
Lemma tri_at_ok T i : 0 <= i < Z.of_nat (length T) -> exists t, tri_at T i = Some t.
Proof. intros H. unfold tri_at. destruct (Z.ltb_spec i 0); [lia|]. destruct (nth_error T (Z.to_nat i)) eqn:E; [eauto|]. apply nth_error_None in E. lia. Qed.

(** ** Sorting three numbers *)
Definition srt (t : Z * Z * Z) : Z * Z * Z := let '(a, b, c) := t in match map fst (fst (nswaps_bubble_sort [a; b; c])) with [x; y; z] => (x, y, z) | _ => t end.
Definition par (t : Z * Z * Z) : bool := let '(a, b, c) := t in Nat.odd (snd (nswaps_bubble_sort [a; b; c])).
Lemma bubble3 a b c : map fst (fst (nswaps_bubble_sort [a; b; c])) = let '(x, y, z) := srt (a, b, c) in [x; y; z].
Proof.
  unfold srt, nswaps_bubble_sort. cbn. destruct (b <? a); cbn.
  - destruct (c <? a); cbn; [destruct (c <? b)|destruct (a <? b)]; reflexivity.
  - destruct (c <? b); cbn; [destruct (c <? a)|destruct (b <? a)]; reflexivity.
Qed.
Lemma srt_spec a b c : distinct3 (a, b, c) -> exists x y z, srt (a, b, c) = (x, y, z) /\ x < y < z /\ (forall v, among v (x, y, z) <-> among v (a, b, c)) /\ (par (a, b, c) = false <-> (x, y, z) = (a, b, c) \/ (x, y, z) = (b, c, a) \/ (x, y, z) = (c, a, b)).
Proof.
  unfold distinct3. intros (N1 & N2 & N3). unfold srt, par, nswaps_bubble_sort, among. cbn.
  destruct (Z.ltb_spec b a); cbn.
  - destruct (Z.ltb_spec c a); cbn; [destruct (Z.ltb_spec c b)|destruct (Z.ltb_spec a b)]; cbn; do 3 eexists; (split; [reflexivity|]); (split; [lia|]); (split; [intros; lia|]); split; intros K; try discriminate K; try reflexivity; try tauto; exfalso; destruct K as [K|[K|K]]; injection K; intros; lia.
  - destruct (Z.ltb_spec c b); cbn; [destruct (Z.ltb_spec c a)|destruct (Z.ltb_spec b a)]; cbn; do 3 eexists; (split; [reflexivity|]); (split; [lia|]); (split; [intros; lia|]); split; intros K; try discriminate K; try reflexivity; try tauto; exfalso; destruct K as [K|[K|K]]; injection K; intros; lia.
Qed.
Lemma srt_among t v : distinct3 t -> among v (srt t) <-> among v t.
Proof. destruct t as [[a b] c]. intros D. destruct (srt_spec a b c D) as (x & y & z & -> & _ & H & _). apply H. Qed.
Lemma srt_unique t t' : distinct3 t -> distinct3 t' -> (forall v, among v t <-> among v t') -> srt t = srt t'.
Proof.
  intros D D' E. destruct t as [[a b] c], t' as [[a' b'] c']. destruct (srt_spec a b c D) as (x & y & z & -> & L & H & _). destruct (srt_spec a' b' c' D') as (x' & y' & z' & -> & L' & H' & _).
  assert (K : forall v, among v (x, y, z) <-> among v (x', y', z')) by (intros v; rewrite H, H'; apply E). unfold among in K. pose proof (proj1 (K x) ltac:(auto)). pose proof (proj1 (K y) ltac:(auto)). pose proof (proj1 (K z) ltac:(auto)). pose proof (proj2 (K x') ltac:(auto)). pose proof (proj2 (K y') ltac:(auto)). pose proof (proj2 (K z') ltac:(auto)). assert (x = x' /\ y = y' /\ z = z') as (-> & -> & ->) by lia. reflexivity.
Qed.

Lemma flat3_get T i t : tri_at T i = Some t -> get_tri (flat3 T) i = Ok t.
Proof.
  unfold tri_at. destruct (Z.ltb_spec i 0) as [|H]; [discriminate|]. intros E. destruct t as [[a b] c].
  assert (G : forall n T, nth_error T n = Some (a, b, c) -> vget (flat3 T) (n * 3) = Ok a /\ vget (flat3 T) (n * 3 + 1) = Ok b /\ vget (flat3 T) (n * 3 + 2) = Ok c).
  { clear. induction n as [|n IH]; intros [|[[x y] z] T] E; try discriminate E; cbn in E; [injection E as -> -> ->; cbn; auto|]. exact (IH T E). }
  destruct (G _ _ E) as (A & B & C). unfold get_tri, zget. destruct (Z.ltb_spec (i * 3) 0); [lia|]. destruct (Z.ltb_spec (i * 3 + 1) 0); [lia|]. destruct (Z.ltb_spec (i * 3 + 2) 0); [lia|].
  replace (Z.to_nat (i * 3)) with (Z.to_nat i * 3)%nat by lia. replace (Z.to_nat (i * 3 + 1)) with (Z.to_nat i * 3 + 1)%nat by lia. replace (Z.to_nat (i * 3 + 2)) with (Z.to_nat i * 3 + 2)%nat by lia. rewrite A, B, C. reflexivity.
Qed.
Lemma flat3_length T : length (flat3 T) = (3 * length T)%nat.
Proof. induction T as [|[[a b] c] T IH]; [reflexivity|]. cbn [flat3 flat_map app length]. fold (flat3 T). rewrite IH. lia. Qed.

(** ** The triangles *)
Definition tri_inv (n0 : nat) (T : list (Z * Z * Z)) (i : Z) (s : list Z * list bool * smap (Z * Z * Z) Z * list (sset Z)) : Prop :=
  let '(ts, cs, ids, vt) := s in
  length ts = (3 * length T)%nat /\ length cs = length T /\ length vt = n0 /\
  (forall j t, tri_at T j = Some t -> get_tri ts j = Ok (if j <? i then srt t else t) /\ (j < i -> zget cs j = Ok (par t))) /\
  (forall key j, mfind key ids = Some j <-> 0 <= j < i /\ exists t, tri_at T j = Some t /\ srt t = key) /\
  (forall v j, zin vt v j <-> 0 <= j < i /\ corner T j v).
Lemma tri_loop n0 T : well_formed n0 T -> exists s, for_in tri_step (zseq (length T)) (flat3 T, repeat false (length T), [], repeat [] n0) = Ok s /\ tri_inv n0 T (Z.of_nat (length T)) s.
Proof.
  intros (Wr & Wd & Wu & _). apply for_z_inv.
  - cbn. split; [apply flat3_length|]. split; [apply repeat_length|]. split; [apply repeat_length|]. split; [|split].
    + intros j t E. pose proof (tri_at_range _ _ _ E). destruct (Z.ltb_spec j 0); [lia|]. split; [apply flat3_get, E|lia].
    + intros key j. split; [discriminate|]. intros [H _]. lia.
    + intros v j. split; [intros H; destruct (zin_repeat _ _ _ H)|]. intros [H _]. lia.
  - intros i [[[ts cs] ids] vt] Hi (L1 & L2 & L3 & G & M & V). cbn [tri_step]. destruct (tri_at_ok T i Hi) as (t & Et). destruct t as [[a b] c]. pose proof (Wd _ _ Et) as D.
    destruct (G _ _ Et) as [Gt _]. destruct (Z.ltb_spec i i) as [Hii|Hii]; [lia|]. rewrite Gt. cbn [bind]. destruct (nswaps_bubble_sort [a; b; c]) as [l nsw] eqn:B. pose proof (bubble3 a b c) as B3. rewrite B in B3. cbn [fst] in B3. rewrite B3. destruct (srt_spec a b c D) as (x & y & z & Es & Lt & Am & Pa). rewrite Es.
    assert (Ep : Nat.odd nsw = par (a, b, c)) by (unfold par; rewrite B; reflexivity). rewrite Ep.
    destruct (zput_ok cs i (par (a, b, c))) as (cs' & -> & Lc & Gc); [lia|]. cbn [bind].
    destruct (zput_ok ts (0 + 3 * i) x) as (ts1 & -> & Lt1 & Gt1); [lia|]. cbn [bind]. destruct (zput_ok ts1 (1 + 3 * i) y) as (ts2 & -> & Lt2 & Gt2); [lia|]. cbn [bind]. destruct (zput_ok ts2 (2 + 3 * i) z) as (ts3 & -> & Lt3 & Gt3); [lia|]. cbn [bind].
    assert (Rg : forall v, among v (x, y, z) -> 0 <= v < Z.of_nat n0) by (intros v Hv; apply (Wr i v); exists (a, b, c); split; [exact Et|apply Am, Hv]).
    destruct (vins_ok vt x i) as (v1 & -> & Lv1 & Hv1); [rewrite L3; apply Rg; cbn; auto|]. cbn [bind]. destruct (vins_ok v1 y i) as (v2 & -> & Lv2 & Hv2); [rewrite Lv1, L3; apply Rg; cbn; auto|]. cbn [bind]. destruct (vins_ok v2 z i) as (v3 & -> & Lv3 & Hv3); [rewrite Lv2, Lv1, L3; apply Rg; cbn; auto|]. cbn [bind].
    eexists. split; [reflexivity|]. cbn [tri_inv]. split; [congruence|]. split; [congruence|]. split; [congruence|]. split; [|split].
    + intros j t Ej. destruct (G _ _ Ej) as [Gj Cj]. split.
      * unfold get_tri in *. rewrite !Gt3, !Gt2, !Gt1. destruct (Z.eqb_spec j i) as [->|N].
        -- rewrite Et in Ej. injection Ej as <-. destruct (Z.ltb_spec i (i + 1)); [|lia]. rewrite Es.
           destruct (Z.eqb_spec (i * 3) (2 + 3 * i)); [lia|]. destruct (Z.eqb_spec (i * 3) (1 + 3 * i)); [lia|]. destruct (Z.eqb_spec (i * 3) (0 + 3 * i)); [|lia]. destruct (Z.eqb_spec (i * 3 + 1) (2 + 3 * i)); [lia|]. destruct (Z.eqb_spec (i * 3 + 1) (1 + 3 * i)); [|lia]. destruct (Z.eqb_spec (i * 3 + 2) (2 + 3 * i)); [|lia]. reflexivity.
        -- replace (j <? i + 1) with (j <? i) by (destruct (Z.ltb_spec j i), (Z.ltb_spec j (i + 1)); lia). rewrite <- Gj.
           repeat match goal with |- context[?p =? ?q] => destruct (Z.eqb_spec p q); [lia|] end. reflexivity.
      * intros Hj. rewrite Gc. destruct (Z.eqb_spec j i) as [->|N]; [rewrite Et in Ej; injection Ej as <-; reflexivity|apply Cj; lia].
    + intros key j. rewrite mfind_mins. destruct (mfind key ids) as [w|] eqn:Ew.
      * split.
        -- intros H. injection H as <-. apply M in Ew. destruct Ew as [R H]. split; [lia|exact H].
        -- intros [R (t & Ej & Ek)]. apply M in Ew. destruct Ew as [Rw (tw & Etw & Ekw)]. f_equal. apply (Wu _ _ _ _ Etw Ej). intros v. rewrite <- (srt_among tw) by (apply (Wd _ _ Etw)). rewrite <- (srt_among t) by (apply (Wd _ _ Ej)). rewrite Ek, Ekw. reflexivity.
      * destruct (keqb key (x, y, z)) eqn:K.
        -- apply keqb_eq in K. subst key. split.
           ++ intros H. injection H as <-. split; [lia|]. exists (a, b, c). auto.
           ++ intros [R (t & Ej & Ek)]. f_equal. apply (Wu _ _ _ _ Et Ej). intros v. rewrite <- (srt_among t) by (apply (Wd _ _ Ej)). rewrite Ek. symmetry. apply Am.
        -- apply keqb_neq in K. split; [discriminate|]. intros [R (t & Ej & Ek)]. exfalso. destruct (Z.eq_dec j i) as [->|N]; [rewrite Et in Ej; injection Ej as <-; congruence|]. assert (mfind key ids = Some j) as X by (apply M; split; [lia|eauto]). congruence.
    + intros v j. rewrite Hv3, Hv2, Hv1, V. split.
      * intros H1. assert (C : (0 <= j < i /\ corner T j v) \/ (j = i /\ among v (x, y, z))) by (unfold among; tauto). destruct C as [[R C]|[-> C]]; [split; [lia|exact C]|]. split; [lia|]. exists (a, b, c). split; [exact Et|apply Am, C].
      * intros [R C]. destruct (Z.eq_dec j i) as [->|N]; [|left; left; left; split; [lia|exact C]]. destruct C as (t & Ej & Ct). rewrite Et in Ej. injection Ej as <-. apply Am in Ct. unfold among in Ct. tauto.
Qed.
