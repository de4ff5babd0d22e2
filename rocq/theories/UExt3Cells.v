(** Staircase cells: a simplex between two layers over an increasing list of base vertices; inclusion of cells decided on indices. *)
From Coq Require Import ZArith.
From Verif Require Import Base UnionFind UnionFindProofs SoS UMesh2 UMesh2Proofs PropUMesh2 UExt2 UExt2Proofs UMesh3 UMesh3Proofs PropUMesh3 UExt3.
Local Open Scope Z_scope.

(** lower and upper vertices: flat cells split the list, steep ones use one vertex twice *)
Definition parts {A} (o : bool) (ty : nat) (w : list A) : list A * list A :=
  if o then (firstn (length w - ty) w, skipn (length w - 1 - ty) w) else (firstn (length w - ty) w, skipn (length w - ty) w).
Definition verts (n : Z) (o : bool) (ty : nat) (w : list Z) : list Z := let (L, U) := parts o ty w in L ++ map (fun v => v + n) U.
Definition up (n t : Z) (l : list Z) : list Z := map (fun v => v + t * n) l.
Definition sel (w : list Z) (phi : list nat) : list Z := map (fun i => nth i w 0) phi.
Fixpoint combos (l : list nat) (k : nat) : list (list nat) :=
  match k, l with O, _ => [[]] | S k', [] => [] | S k', a :: l' => map (cons a) (combos l' k') ++ combos l' k end.
Definition inb (l l' : list nat) : bool := forallb (fun i => existsb (Nat.eqb i) l') l.
(** the cell (o, ty) over the indices phi lies in the cell (o', ty') over 0, .., n-1: dt = false, same layer; dt = true, one layer above *)
Definition inside (n : nat) (o : bool) (ty : nat) (phi : list nat) (dt : bool) (o' : bool) (ty' : nat) : bool :=
  let (L, U) := parts o ty phi in let (L', U') := parts o' ty' (seq 0 n) in
  if dt then inb L U' && match U with [] => true | _ => false end else inb L L' && inb U U'.

Lemma parts_map {A B} (f : A -> B) o ty w : parts o ty (map f w) = (map f (fst (parts o ty w)), map f (snd (parts o ty w))).
Proof. unfold parts. rewrite map_length, !firstn_map, !skipn_map. destruct o; reflexivity. Qed.
Lemma skipn_S {A} (w : list A) k x : In x (skipn (S k) w) -> In x (skipn k w).
Proof. revert w. induction k as [|k IH]; intros [|a w] H; try exact H; [right; exact H|]. cbn [skipn] in *. exact (IH w H). Qed.
Lemma skipn_le {A} (w : list A) k k' x : (k' <= k)%nat -> In x (skipn k w) -> In x (skipn k' w).
Proof. induction 1 as [|k Hk IH]; intros I; [exact I|]. apply IH, skipn_S, I. Qed.
Lemma skipn_in {A} (w : list A) k x : In x (skipn k w) -> In x w.
Proof. intros H. exact (skipn_le w k 0 x (Nat.le_0_l _) H). Qed.
Lemma firstn_in {A} (w : list A) k x : In x (firstn k w) -> In x w.
Proof. intros H. rewrite <- (firstn_skipn k w). apply in_or_app. auto. Qed.
Lemma parts_in {A} o ty (w : list A) x : (o = true -> (1 <= length w)%nat) -> In x w <-> In x (fst (parts o ty w)) \/ In x (snd (parts o ty w)).
Proof.
  intros Hw. unfold parts. destruct o; cbn [fst snd].
  - rewrite <- (firstn_skipn (length w - ty) w) at 1. rewrite in_app_iff. split; [intros [H|H]; [auto|]|intros [H|H]; [auto|]].
    + right. apply (skipn_le w (length w - ty)); [lia|exact H].
    + rewrite <- in_app_iff, firstn_skipn. exact (skipn_in _ _ _ H).
  - rewrite <- in_app_iff, firstn_skipn. reflexivity.
Qed.
Lemma parts_L {A} o ty (w : list A) : (ty < length w)%nat -> fst (parts o ty w) <> [].
Proof. intros H E. assert (length (fst (parts o ty w)) = 0%nat) as L by (rewrite E; reflexivity). unfold parts in L. destruct o; cbn [fst] in L; rewrite firstn_length in L; lia. Qed.

Lemma sel_seq w : sel w (seq 0 (length w)) = w.
Proof.
  unfold sel. assert (X : forall s l, map (fun i => nth (i - s) l 0) (seq s (length l)) = l).
  { intros s l. revert s. induction l as [|a l IH]; intros s; [reflexivity|]. cbn [length seq map]. rewrite Nat.sub_diag. cbn [nth]. f_equal. rewrite <- (IH (S s)) at 2. apply map_ext_in. intros i Hi. apply in_seq in Hi. replace (i - s)%nat with (S (i - S s)) by lia. reflexivity. }
  rewrite <- (X 0%nat w) at 2. apply map_ext. intros i. rewrite Nat.sub_0_r. reflexivity.
Qed.
Lemma inb_spec w phi psi : NoDup w -> (forall i, In i phi -> (i < length w)%nat) -> (forall i, In i psi -> (i < length w)%nat) -> incl (sel w phi) (sel w psi) <-> inb phi psi = true.
Proof.
  intros N Hp Hq. unfold inb. rewrite forallb_forall. split.
  - intros H i Hi. apply existsb_exists. specialize (H (nth i w 0)). unfold sel in H. rewrite !in_map_iff in H. destruct H as (j & E & Hj); [eauto|]. exists j. split; [exact Hj|]. apply Nat.eqb_eq. symmetry. apply (proj1 (NoDup_nth w 0) N); auto.
  - intros H x Hx. unfold sel in *. apply in_map_iff in Hx. destruct Hx as (i & <- & Hi). specialize (H i Hi). apply existsb_exists in H. destruct H as (j & Hj & E). apply Nat.eqb_eq in E. subst j. apply in_map_iff. eauto.
Qed.
Lemma combos_range l k phi : In phi (combos l k) -> incl phi l /\ length phi = k.
Proof.
  revert k phi. induction l as [|a l IH]; intros k phi H; destruct k as [|k]; cbn [combos] in H.
  - destruct H as [<-|[]]. split; [intros x []|reflexivity].
  - destruct H.
  - destruct H as [<-|[]]. split; [intros x []|reflexivity].
  - apply in_app_or in H. destruct H as [H|H].
    + apply in_map_iff in H. destruct H as (psi & <- & H). destruct (IH _ _ H) as [I L]. split; [intros x [<-|Hx]; [left; reflexivity|right; auto]|cbn [length]; lia].
    + destruct (IH _ _ H) as [I L]. split; [intros x Hx; right; auto|exact L].
Qed.
Lemma combos_sorted_sel w : increasing w -> forall k phi, In phi (combos (seq 0 (length w)) k) -> increasing (sel w phi).
Proof.
  intros Sw. assert (X : forall l s, StronglySorted Z.lt l -> forall k phi, In phi (combos (seq s (length l)) k) -> StronglySorted Z.lt (map (fun i => nth (i - s) l 0) phi) /\ forall x, In x (map (fun i => nth (i - s) l 0) phi) -> In x l).
  { induction l as [|a l IH]; intros s SS k phi H; destruct k as [|k]; cbn [length seq combos] in H; try (destruct H as [<-|[]]; split; [constructor|intros x []]); try contradiction.
    inversion SS as [|? ? S1 F]; subst. rewrite Forall_forall in F. apply in_app_or in H.
    assert (E : forall psi k, In psi (combos (seq (S s) (length l)) k) -> map (fun i => nth (i - s) (a :: l) 0) psi = map (fun i => nth (i - S s) l 0) psi).
    { intros psi k' Hp. apply map_ext_in. intros i Hi. destruct (combos_range _ _ _ Hp) as [R _]. apply R in Hi. apply in_seq in Hi. replace (i - s)%nat with (S (i - S s)) by lia. reflexivity. }
    destruct H as [H|H].
    - apply in_map_iff in H. destruct H as (psi & <- & H). destruct (IH (S s) S1 _ _ H) as [A B]. cbn [map]. rewrite Nat.sub_diag. change (nth 0 (a :: l) 0) with a. rewrite (E psi k H). split; [constructor; [exact A|apply Forall_forall; auto]|]. intros x [<-|Hx]; [left; reflexivity|right; auto].
    - destruct (IH (S s) S1 _ _ H) as [A B]. rewrite (E phi _ H). split; [exact A|]. intros x Hx. right. auto. }
  intros k phi H. destruct (X w 0%nat Sw k phi H) as [A _]. unfold sel. rewrite (map_ext (fun i => nth i w 0) (fun i => nth (i - 0) w 0)); [exact A|]. intros i. rewrite Nat.sub_0_r. reflexivity.
Qed.
Lemma sub_sel w' : increasing w' -> forall w, increasing w -> incl w w' -> exists phi, In phi (combos (seq 0 (length w')) (length w)) /\ w = sel w' phi.
Proof.
  intros S'. assert (X : forall l s, StronglySorted Z.lt l -> forall w, StronglySorted Z.lt w -> incl w l -> exists phi, In phi (combos (seq s (length l)) (length w)) /\ w = map (fun i => nth (i - s) l 0) phi).
  { induction l as [|a l IH]; intros s SS w Sw I.
    - destruct w as [|x w]; [|destruct (I x); left; reflexivity]. exists []. split; [left; reflexivity|reflexivity].
    - inversion SS as [|? ? S1 F]; subst. rewrite Forall_forall in F. destruct w as [|x w]; [exists []; split; [left; reflexivity|reflexivity]|]. inversion Sw as [|? ? Sw1 Fw]; subst. rewrite Forall_forall in Fw.
      assert (E : forall psi k, In psi (combos (seq (S s) (length l)) k) -> map (fun i => nth (i - S s) l 0) psi = map (fun i => nth (i - s) (a :: l) 0) psi).
      { intros psi k' Hp. apply map_ext_in. intros i Hi. destruct (combos_range _ _ _ Hp) as [R _]. apply R in Hi. apply in_seq in Hi. replace (i - s)%nat with (S (i - S s)) by lia. reflexivity. }
      cbn [length seq combos]. destruct (Z.eq_dec x a) as [->|Nx].
      + destruct (IH (S s) S1 w Sw1) as (phi & Hp & Ew). { intros y Hy. destruct (I y ltac:(right; exact Hy)) as [<-|H]; [specialize (Fw _ Hy); lia|exact H]. }
        exists (s :: phi). split; [apply in_or_app; left; apply in_map; exact Hp|]. cbn [map]. rewrite Nat.sub_diag. change (nth 0 (a :: l) 0) with a. rewrite <- (E _ _ Hp), <- Ew. reflexivity.
      + destruct (IH (S s) S1 (x :: w) Sw) as (phi & Hp & Ew). { assert (Ix : In x l) by (destruct (I x ltac:(left; reflexivity)) as [<-|H]; [contradiction|exact H]). pose proof (F _ Ix). intros y Hy. destruct (I y Hy) as [<-|H0]; [|exact H0]. exfalso. destruct Hy as [<-|Hy]; [lia|]. specialize (Fw _ Hy). lia. }
        exists phi. split; [apply in_or_app; right; exact Hp|]. rewrite <- (E _ _ Hp). exact Ew. }
  intros w S I. destruct (X w' 0%nat S' w S I) as (phi & H & E). exists phi. split; [exact H|]. rewrite E. unfold sel. apply map_ext. intros i. rewrite Nat.sub_0_r. reflexivity.
Qed.

Section Range.
Variable n : Z.
Lemma up_in t L U x : In x (up n t (L ++ map (fun v => v + n) U)) <-> (exists v, In v L /\ x = v + t * n) \/ (exists v, In v U /\ x = v + (t + 1) * n).
Proof.
  unfold up. rewrite map_app, in_app_iff, map_map, !in_map_iff. split; (intros [H|H]; [left|right]); [destruct H as (v & <- & H); eauto|destruct H as (v & <- & H); exists v; split; [exact H|ring]|destruct H as (v & H & ->); eauto|destruct H as (v & H & ->); exists v; split; [ring|exact H]].
Qed.
Lemma enc_eq v v' t t' : 0 <= v < n -> 0 <= v' < n -> v + t * n = v' + t' * n -> v = v' /\ t = t'.
Proof. intros H H' E. assert (t = t') by nia. subst. lia. Qed.
Lemma incl_cell t L U t' L' U' : (forall v, In v (L ++ U) -> 0 <= v < n) -> (forall v, In v (L' ++ U') -> 0 <= v < n) -> L <> [] ->
  incl (up n t (L ++ map (fun v => v + n) U)) (up n t' (L' ++ map (fun v => v + n) U')) <-> t = t' /\ incl L L' /\ incl U U' \/ t = t' + 1 /\ incl L U' /\ U = [].
Proof.
  intros R R' N. assert (RL : forall v, In v L -> 0 <= v < n) by (intros; apply R, in_or_app; auto). assert (RU : forall v, In v U -> 0 <= v < n) by (intros; apply R, in_or_app; auto). assert (RL' : forall v, In v L' -> 0 <= v < n) by (intros; apply R', in_or_app; auto). assert (RU' : forall v, In v U' -> 0 <= v < n) by (intros; apply R', in_or_app; auto).
  split.
  - intros I. assert (A : forall v, In v L -> t = t' /\ In v L' \/ t = t' + 1 /\ In v U').
    { intros v Hv. specialize (I (v + t * n)). rewrite !up_in in I. destruct I as [(u & Hu & E)|(u & Hu & E)]; [left; eauto|left|right]; [destruct (enc_eq _ _ _ _ (RL _ Hv) (RL' _ Hu) E) as [-> ->]|destruct (enc_eq _ _ _ _ (RL _ Hv) (RU' _ Hu) E) as [-> ->]]; auto. }
    assert (B : forall v, In v U -> t + 1 = t' /\ In v L' \/ t = t' /\ In v U').
    { intros v Hv. specialize (I (v + (t + 1) * n)). rewrite !up_in in I. destruct I as [(u & Hu & E)|(u & Hu & E)]; [right; eauto|left|right]; [destruct (enc_eq _ _ _ _ (RU _ Hv) (RL' _ Hu) E) as [-> Et]|destruct (enc_eq _ _ _ _ (RU _ Hv) (RU' _ Hu) E) as [-> Et]]; (split; [lia|auto]). }
    destruct L as [|l L]; [contradiction|]. destruct (A l ltac:(left; reflexivity)) as [[-> _]|[-> _]].
    + left. split; [reflexivity|]. split; [intros v Hv; destruct (A v Hv) as [[_ H]|[H _]]; [exact H|lia]|]. intros v Hv. destruct (B v Hv) as [[H _]|[_ H]]; [lia|exact H].
    + right. split; [reflexivity|]. split; [intros v Hv; destruct (A v Hv) as [[H _]|[_ H]]; [lia|exact H]|]. destruct U as [|u U]; [reflexivity|]. destruct (B u ltac:(left; reflexivity)) as [[H _]|[H _]]; lia.
  - intros [(-> & I1 & I2)|(-> & I1 & ->)] x; rewrite !up_in.
    + intros [(v & Hv & ->)|(v & Hv & ->)]; [left|right]; eauto.
    + intros [(v & Hv & ->)|(v & [] & _)]. right. eauto.
Qed.
Lemma inc_nodup' w : increasing w -> NoDup w.
Proof. unfold increasing. induction 1 as [|a l S IH F]; constructor; [|exact IH]. intros H. rewrite Forall_forall in F. specialize (F _ H). lia. Qed.
Definition inr (w : list Z) : Prop := forall v, In v w -> 0 <= v < n.
Lemma parts_range o ty w : inr w -> forall v, In v (fst (parts o ty w) ++ snd (parts o ty w)) -> 0 <= v < n.
Proof.
  intros H v Hv. apply H. apply in_app_or in Hv. unfold parts in Hv. destruct o; cbn [fst snd] in Hv; destruct Hv as [Hv|Hv]; [rewrite <- (firstn_skipn (length w - ty) w)|rewrite <- (firstn_skipn (length w - 1 - ty) w)|rewrite <- (firstn_skipn (length w - ty) w)|rewrite <- (firstn_skipn (length w - ty) w)]; apply in_or_app; auto.
Qed.
Lemma verts_parts o ty w : verts n o ty w = fst (parts o ty w) ++ map (fun v => v + n) (snd (parts o ty w)).
Proof. unfold verts. destruct (parts o ty w). reflexivity. Qed.
(** inclusion of cells *)
Lemma incl_base o ty w t o' ty' w' t' : inr w -> inr w' -> (ty < length w)%nat -> (1 <= length w')%nat -> incl (up n t (verts n o ty w)) (up n t' (verts n o' ty' w')) -> incl w w'.
Proof.
  intros R R' H H' I. rewrite !verts_parts in I. apply incl_cell in I; [|apply parts_range, R|apply parts_range, R'|apply parts_L, H].
  intros v Hv. apply (parts_in o ty) in Hv; [|lia]. apply (parts_in o' ty'); [lia|]. destruct I as [(_ & A & B)|(_ & A & B)]; [destruct Hv; auto|]. rewrite B in Hv. destruct Hv as [Hv|[]]. auto.
Qed.
Lemma incl_code o ty phi t o' ty' w' t' : inr w' -> increasing w' -> (ty < length phi)%nat -> (forall i, In i phi -> (i < length w')%nat) ->
  incl (up n t (verts n o ty (sel w' phi))) (up n t' (verts n o' ty' w')) <-> t = t' /\ inside (length w') o ty phi false o' ty' = true \/ t = t' + 1 /\ inside (length w') o ty phi true o' ty' = true.
Proof.
  intros R S H B. assert (Rs : inr (sel w' phi)) by (intros v Hv; unfold sel in Hv; apply in_map_iff in Hv; destruct Hv as (i & <- & Hi); apply R, nth_In; auto).
  rewrite !verts_parts. rewrite incl_cell; [|apply parts_range, Rs|apply parts_range, R|apply parts_L; unfold sel; rewrite map_length; exact H].
  assert (P1 : parts o ty (sel w' phi) = (sel w' (fst (parts o ty phi)), sel w' (snd (parts o ty phi)))) by apply parts_map. assert (P2 : parts o' ty' w' = (sel w' (fst (parts o' ty' (seq 0 (length w')))), sel w' (snd (parts o' ty' (seq 0 (length w')))))) by (transitivity (parts o' ty' (sel w' (seq 0 (length w')))); [rewrite sel_seq; reflexivity|apply parts_map]).
  rewrite P1, P2. clear P1 P2. cbn [fst snd]. unfold inside.
  assert (Q : forall i, In i (fst (parts o ty phi)) \/ In i (snd (parts o ty phi)) -> (i < length w')%nat) by (intros i Hi; apply B; apply (parts_in o ty); [lia|exact Hi]).
  assert (Q' : forall i, In i (fst (parts o' ty' (seq 0 (length w')))) \/ In i (snd (parts o' ty' (seq 0 (length w')))) -> (i < length w')%nat).
  { intros i Hi. destruct (Nat.eq_dec (length w') 0) as [Z0|Nz]; [rewrite Z0 in Hi; unfold parts in Hi; destruct o'; cbn [length seq fst snd] in Hi; rewrite ?firstn_nil, ?skipn_nil in Hi; destruct Hi as [[]|[]]|]. apply (parts_in o' ty') in Hi; [|rewrite seq_length; lia]. apply in_seq in Hi. lia. }
  destruct (parts o ty phi) as [L U], (parts o' ty' (seq 0 (length w'))) as [L' U']. cbn [fst snd] in *. pose proof (inc_nodup' _ S) as ND.
  rewrite (inb_spec w' L L' ND) by auto. rewrite (inb_spec w' U U' ND) by auto. rewrite (inb_spec w' L U' ND) by auto. rewrite !andb_true_iff. assert (E : sel w' U = [] <-> match U with [] => true | _ => false end = true) by (destruct U; cbn; split; congruence). rewrite E. reflexivity.
Qed.
(** codes of the same cell *)
Lemma verts_length o ty w : (ty < length w)%nat -> length (verts n o ty w) = (length w + if o then 1 else 0)%nat.
Proof. intros H. rewrite verts_parts, app_length, map_length. unfold parts. destruct o; cbn [fst snd]; rewrite firstn_length, skipn_length; lia. Qed.
Lemma cell_layers t L U t' L' U' : (forall v, In v (L ++ U) -> 0 <= v < n) -> (forall v, In v (L' ++ U') -> 0 <= v < n) -> L <> [] -> L' <> [] ->
  up n t (L ++ map (fun v => v + n) U) = up n t' (L' ++ map (fun v => v + n) U') -> t = t' /\ L = L' /\ U = U'.
Proof.
  intros R R' N N' E. assert (Et : t = t'). { destruct L as [|l L], L' as [|l' L']; try contradiction. unfold up in E. cbn [app map] in E. injection E as E _. destruct (enc_eq l l' t t'); auto; [apply R|apply R']; left; reflexivity. } subst t'. split; [reflexivity|].
  assert (E' : L ++ map (fun v => v + n) U = L' ++ map (fun v => v + n) U'). { unfold up in E. revert E. generalize (L ++ map (fun v => v + n) U) as a, (L' ++ map (fun v => v + n) U') as b. induction a as [|x a IH]; intros [|y b] E; try discriminate; [reflexivity|]. cbn [map] in E. injection E as E1 E2. f_equal; [lia|auto]. }
  clear E N N'. revert L' R R' E'. induction L as [|l L IH]; intros [|l' L'] R R' E; cbn [app] in E.
  - split; [reflexivity|]. revert U' R' E. clear R. induction U as [|u U IHU]; intros [|u' U'] R' E; try discriminate; [reflexivity|]. cbn [map] in E. injection E as E1 E2. f_equal; [lia|]. apply (IHU U'); [|exact E2]. intros v Hv. apply R'. right. exact Hv.
  - exfalso. destruct U as [|u U]; [discriminate|]. cbn [map] in E. injection E as E _. pose proof (R u ltac:(left; reflexivity)). pose proof (R' l' ltac:(left; reflexivity)). lia.
  - exfalso. destruct U' as [|u U']; [discriminate|]. cbn [map] in E. injection E as E _. pose proof (R' u ltac:(left; reflexivity)). pose proof (R l ltac:(left; reflexivity)). lia.
  - injection E as -> E. destruct (IH L') as [-> ->]; [intros v Hv; apply R; right; exact Hv|intros v Hv; apply R'; right; exact Hv|exact E|]. auto.
Qed.
Lemma firstn_snoc (w : list Z) k : (k < length w)%nat -> firstn (S k) w = firstn k w ++ [nth k w 0].
Proof. revert w. induction k as [|k IH]; intros [|a w] H; cbn [length] in H; try lia; [reflexivity|]. cbn [firstn nth app]. f_equal. apply IH. lia. Qed.
Lemma skipn_cons (w : list Z) k : (k < length w)%nat -> skipn k w = nth k w 0 :: skipn (S k) w.
Proof. revert w. induction k as [|k IH]; intros [|a w] H; cbn [length] in H; try lia; [reflexivity|]. cbn [skipn nth]. rewrite IH by lia. reflexivity. Qed.
Lemma last_snoc (l : list Z) x : last (l ++ [x]) 0 = x.
Proof. induction l as [|a l IH]; [reflexivity|]. cbn [app]. destruct l; [reflexivity|]. exact IH. Qed.
(** a steep cell has the last lower vertex under the first upper one, a flat one has not *)
Lemma parts_join o ty w : increasing w -> (ty < length w)%nat -> let (L, U) := parts o ty w in if o then U <> [] /\ last L 0 = hd 0 U /\ L ++ tl U = w else L ++ U = w /\ (U <> [] -> last L 0 < hd 0 U).
Proof.
  intros S H. unfold parts. destruct o.
  - assert (E : (length w - ty = Datatypes.S (length w - 1 - ty))%nat) by lia. rewrite E, firstn_snoc, skipn_cons by lia. split; [discriminate|]. split; [apply last_snoc|]. cbn [tl]. rewrite <- firstn_snoc by lia. apply firstn_skipn.
  - split; [apply firstn_skipn|]. intros N. destruct (Nat.eq_dec ty 0) as [->|Nt]; [rewrite Nat.sub_0_r, skipn_all in N; contradiction|]. rewrite (skipn_cons w (length w - ty)) by lia. cbn [hd]. replace (length w - ty)%nat with (Datatypes.S (length w - ty - 1)) by lia. rewrite firstn_snoc, last_snoc by lia. revert S. assert (L : (Datatypes.S (length w - ty - 1) < length w)%nat) by lia. revert L. generalize (length w - ty - 1)%nat as k. clear. induction w as [|a w IH]; intros k L S; cbn [length] in L; [lia|]. destruct w as [|b w]; cbn [length] in L; [lia|]. apply inc_cons in S. destruct S as [A S]. destruct k as [|k]; [exact A|]. apply (IH k); [cbn [length] in *; lia|exact S].
Qed.
Lemma cell_inj o ty w t o' ty' w' t' : inr w -> inr w' -> increasing w -> increasing w' -> (ty < length w)%nat -> (ty' < length w')%nat -> up n t (verts n o ty w) = up n t' (verts n o' ty' w') -> o = o' /\ ty = ty' /\ w = w' /\ t = t'.
Proof.
  intros R R' S S' H H' E. rewrite !verts_parts in E. apply cell_layers in E; [|apply parts_range, R|apply parts_range, R'|apply parts_L, H|apply parts_L, H']. destruct E as (-> & EL & EU).
  assert (Len : (length w - ty)%nat = (length w' - ty')%nat). { assert (length (fst (parts o ty w)) = length (fst (parts o' ty' w'))) as Q by (rewrite EL; reflexivity). unfold parts in Q. destruct o, o'; cbn [fst] in Q; rewrite !firstn_length in Q; lia. }
  pose proof (parts_join o ty w S H) as J. pose proof (parts_join o' ty' w' S' H') as J'. destruct (parts o ty w) as [L U], (parts o' ty' w') as [L' U']. cbn [fst snd] in EL, EU. subst L' U'.
  destruct o, o'.
  - destruct J as (_ & _ & J), J' as (_ & _ & J'). assert (Ew : w = w') by congruence. clear J J'. subst w'. split; [reflexivity|]. split; [lia|]. auto.
  - destruct J as (N & J & _), J' as (_ & J'). specialize (J' N). lia.
  - destruct J' as (N & J' & _), J as (_ & J). specialize (J N). lia.
  - destruct J as (J & _), J' as (J' & _). assert (Ew : w = w') by congruence. clear J J'. subst w'. split; [reflexivity|]. split; [lia|]. auto.
Qed.
(** every staircase is a cell *)
Lemma stair_cell L U : L <> [] -> increasing L -> increasing U -> (forall l u, In l L -> In u U -> l <= u) -> exists o ty w, increasing w /\ (ty < length w)%nat /\ parts o ty w = (L, U) /\ forall x, In x w <-> In x L \/ In x U.
Proof.
  intros N SL SU LU. destruct U as [|u U].
  - exists false, 0%nat, L. split; [exact SL|]. split; [destruct L; [contradiction|cbn; lia]|]. unfold parts. rewrite Nat.sub_0_r, firstn_all, skipn_all. split; [reflexivity|]. intros x. cbn [In]. tauto.
  - destruct (exists_last N) as (L0 & l & ->). assert (Ll : In l (L0 ++ [l])) by (apply in_or_app; right; left; reflexivity). destruct (Z.eq_dec l u) as [->|Nu].
    + exists true, (length U), (L0 ++ u :: U). assert (Q : increasing (L0 ++ u :: U)). { clear N. apply sorted_app; [| exact SU |]. - clear - SL. induction L0 as [|a L0 IH]; [constructor|]. cbn [app] in SL. inversion SL as [|? ? S1 F]; subst. constructor; [apply IH, S1|]. rewrite Forall_forall in *. intros x Hx. apply F, in_or_app. auto. - intros x y Hx Hy. assert (x < u). { clear - SL Hx. induction L0 as [|a L0 IH]; [destruct Hx|]. cbn [app] in SL. inversion SL as [|? ? S1 F]; subst. rewrite Forall_forall in F. destruct Hx as [->|Hx]; [apply F, in_or_app; right; left; reflexivity|auto]. } assert (u <= y). { inversion SU as [|? ? S1 F]; subst. rewrite Forall_forall in F. destruct Hy as [->|Hy]; [lia|specialize (F _ Hy); lia]. } lia. }
      split; [exact Q|]. split; [rewrite app_length; cbn [length]; lia|]. split.
      * unfold parts. rewrite app_length. cbn [length]. replace (length L0 + Datatypes.S (length U) - length U)%nat with (length L0 + 1)%nat by lia. replace (length L0 + Datatypes.S (length U) - 1 - length U)%nat with (length L0) by lia. rewrite firstn_app_2. f_equal. rewrite skipn_app, skipn_all, Nat.sub_diag. reflexivity.
      * intros x. rewrite !in_app_iff. cbn [In]. tauto.
    + exists false, (Datatypes.S (length U)), ((L0 ++ [l]) ++ u :: U). split.
      * apply sorted_app; [exact SL|exact SU|]. intros x y Hx Hy. assert (x <= l). { clear - SL Hx. apply in_app_or in Hx. destruct Hx as [Hx|[->|[]]]; [|lia]. induction L0 as [|a L0 IH]; [destruct Hx|]. cbn [app] in SL. inversion SL as [|? ? S1 F]; subst. rewrite Forall_forall in F. destruct Hx as [->|Hx]; [specialize (F l); rewrite in_app_iff in F; cbn in F; specialize (F ltac:(auto)); lia|auto]. } pose proof (LU l u Ll ltac:(left; reflexivity)). assert (u <= y). { inversion SU as [|? ? S1 F]; subst. rewrite Forall_forall in F. destruct Hy as [->|Hy]; [lia|specialize (F _ Hy); lia]. } lia.
      * split; [rewrite app_length, app_length; cbn [length]; lia|]. split.
        -- unfold parts. rewrite (app_length (L0 ++ [l])). cbn [length]. replace (length (L0 ++ [l]) + Datatypes.S (length U) - Datatypes.S (length U))%nat with (length (L0 ++ [l])) by lia. rewrite firstn_app, firstn_all, Nat.sub_diag, firstn_O, app_nil_r, skipn_app, skipn_all, Nat.sub_diag. reflexivity.
        -- intros x. rewrite (in_app_iff (L0 ++ [l])). reflexivity.
Qed.
End Range.
