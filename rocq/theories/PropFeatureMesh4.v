(** Theorems about feature_surface_t::discard *)
From Coq Require Import Sorting.Sorted.
From Verif Require Import Base UnionFind UnionFindSpec UnionFindProofs NdArray Graph FeatureCurve GraphCurves FeatureMesh PropFeatureMesh.
Local Open Scope nat_scope. Local Open Scope list_scope.

(** [x] is another point of a triangle that has the point [i] (the two may be equal if the triangle lists a point twice) *)
Definition pairs3 (t : tri) : list (nat * nat) := let '(a, b, c) := t in [(a, b); (a, c); (b, a); (b, c); (c, a); (c, b)].
Definition next_to (s : surface) (i x : nat) : Prop := exists t, In t (tris s) /\ In (i, x) (pairs3 t).
(** [t'] is [t] after the points [l] became the points 0, 1, ... *)
Definition renumbered (l : list nat) (t t' : tri) : Prop := Forall2 (fun i i' => nth_error l i' = Some i) (array3 t) (array3 t').
Definition all_in (l : list nat) (t : tri) : bool := forallb (fun i => existsb (Nat.eqb i) l) (array3 t).

Section D.
  Context {D : Type} (lt : D -> D -> bool) (dmax : D) (dist : fpoint -> fpoint -> D) (f : fpoint -> bool) (s : surface).
  Let n := length (s_pts s).
  Hypothesis V : valid n (map array3 (tris s)).

  Lemma add_pairs_spec : forall ps nb, length nb = n -> (forall i x, In (i, x) ps -> i < n) -> exists nb', fold_left (fun r jk => let* nb := r in let* s := vget nb (fst jk) in vput nb (fst jk) (sins (snd jk) s)) ps (Ok nb) = Ok nb' /\ length nb' = n /\
    forall i l', nth_error nb' i = Some l' -> exists l, nth_error nb i = Some l /\ forall x, In x l' <-> In x l \/ In (i, x) ps.
  Proof.
    induction ps as [|[i x] ps IH]; intros nb L B; cbn [fold_left]; [exists nb; split; [reflexivity|]; split; [exact L|]; intros i l E; exists l; split; [exact E|]; intros x; cbn [In]; tauto|].
    assert (Hi := B i x (or_introl eq_refl)). cbn [fst snd bind]. destruct (vget_lt nb i ltac:(lia)) as (l & -> & El). cbn [bind]. unfold vput. rewrite (proj2 (Nat.ltb_lt i (length nb))) by lia.
    destruct (IH (vset nb i (sins x l))) as (nb' & E & L' & N); [rewrite vset_length; exact L|intros k y K; apply (B k y); right; exact K|]. exists nb'. split; [exact E|]. split; [exact L'|]. intros k l' K. destruct (N k l' K) as (l1 & E1 & N1). rewrite nth_error_vset in E1 by lia. destruct (Nat.eq_dec k i) as [->|Ne].
    - injection E1 as <-. exists l. split; [exact El|]. intros y. rewrite N1, In_sins. cbn [In]. split; [intros [[->|K1]|K1]; auto|intros [K1|[K1|K1]]; [auto|injection K1 as ->; auto|auto]].
    - exists l1. split; [exact E1|]. intros y. rewrite N1. cbn [In]. split; [intros [K1|K1]; auto|intros [K1|[K1|K1]]; [auto|congruence|auto]].
  Qed.
  Lemma neighbors_spec : exists nb, neighbors s = Ok nb /\ length nb = n /\ forall i l, nth_error nb i = Some l -> forall x, In x l <-> next_to s i x.
  Proof.
    assert (G : forall ts nb, length nb = n -> valid n (map array3 ts) -> exists nb', fold_left (fun r t => let* nb := r in add_neighbors t nb) ts (Ok nb) = Ok nb' /\ length nb' = n /\
      forall i l', nth_error nb' i = Some l' -> exists l, nth_error nb i = Some l /\ forall x, In x l' <-> In x l \/ exists t, In t ts /\ In (i, x) (pairs3 t)).
    { induction ts as [|t ts IH]; intros nb L W; cbn [fold_left bind]; [exists nb; split; [reflexivity|]; split; [exact L|]; intros i l E; exists l; split; [exact E|]; intros x; split; [auto|intros [K|(t & [] & _)]; exact K]|].
      destruct (add_pairs_spec (pairs3 t) nb L) as (nb1 & E1 & L1 & N1). { intros i x I. destruct t as [[a b] c]. apply (W [a; b; c] i); [left; reflexivity|]. cbn in I |- *. repeat (destruct I as [I|I]; [injection I; intros; subst; auto|]). destruct I. }
      assert (EA : add_neighbors t nb = Ok nb1) by (destruct t as [[a b] c]; exact E1). rewrite EA. destruct (IH nb1 L1) as (nb' & E & L' & N); [intros c i C; apply W; right; exact C|]. exists nb'. split; [exact E|]. split; [exact L'|].
      intros i l' K. destruct (N i l' K) as (l1 & K1 & M). destruct (N1 i l1 K1) as (l & K0 & M1). exists l. split; [exact K0|]. intros x. rewrite M, M1. split.
      - intros [[Q|Q]|(u & U & Q)]; [auto|right; exists t; cbn [In]; auto|right; exists u; cbn [In]; auto].
      - intros [Q|(u & [<-|U] & Q)]; [auto|auto|right; exists u; auto]. }
    destruct (G (tris s) (repeat [] n) (repeat_length _ _) V) as (nb & E & L & N). exists nb. split; [exact E|]. split; [exact L|]. intros i l K x. destruct (N i l K) as (l0 & K0 & M). apply nth_error_In in K0. apply repeat_spec in K0. subst l0. rewrite M. unfold next_to. split; [intros [[]|Q]; exact Q|auto].
  Qed.
  Lemma next_to_lt i x : next_to s i x -> i < n /\ x < n.
  Proof. intros (t & T & I). assert (W : forall k, In k (array3 t) -> k < n) by (intros k; apply V; apply in_map; exact T). destruct t as [[a b] c]. cbn in W, I. repeat (destruct I as [I|I]; [injection I; intros; subst; split; apply W; auto|]). destruct I. Qed.
  Lemma nearest_neighbor_spec p : forall js m r, (forall j, In j js -> j < n) -> exists r', nearest_neighbor lt dist (s_pts s) p js m r = Ok r' /\ (r' = r \/ exists j, In j js /\ r' = Some j) /\ (r <> None -> r' <> None) /\
    (forall j q, In j js -> nth_error (s_pts s) j = Some q -> lt (dist p q) m = true -> r' <> None).
  Proof.
    induction js as [|j js IH]; intros m r B; cbn [nearest_neighbor]; [exists r; split; [reflexivity|]; split; [auto|]; split; [auto|intros j q []]|]. destruct (vget_lt (s_pts s) j (B j (or_introl eq_refl))) as (q & -> & Eq). cbn [bind].
    assert (B' : forall k, In k js -> k < n) by (intros k K; apply B; right; exact K). destruct (lt (dist p q) m) eqn:C.
    - destruct (IH (dist p q) (Some j) B') as (r' & E & R & N & X). exists r'. split; [exact E|]. assert (NN : r' <> None) by (apply N; discriminate). split; [right; destruct R as [->|(k & K & ->)]; [exists j; cbn; auto|exists k; cbn; auto]|]. split; intros; exact NN.
    - destruct (IH m r B') as (r' & E & R & N & X). exists r'. split; [exact E|]. split; [destruct R as [->|(k & K & ->)]; [auto|right; exists k; cbn; auto]|]. split; [exact N|]. intros k q' [<-|K] E' C'; [congruence|apply (X k q' K E' C')].
  Qed.

  Record inv (i : nat) (parent : list (option nat)) (children : list (list nat)) : Prop := {
    i_len : length parent = n; i_lenc : length children = n;
    i_a : forall k r, nth_error parent k = Some (Some r) -> k <> r -> nth_error parent r = Some (Some r) \/ nth_error parent r = Some None;
    i_b : forall k r c, i <= r -> k <> r -> nth_error parent k = Some (Some r) -> nth_error children r = Some c -> In k c;
    i_c : forall r, i <= r < n -> nth_error parent r = Some (Some r);
    i_d : forall r c k, nth_error children r = Some c -> In k c -> nth_error parent k = Some (Some r) /\ k <> r;
    i_e : forall k p, nth_error (s_pts s) k = Some p -> f p = false -> nth_error parent k = Some (Some k) }.

  Lemma chase_spec i parent children j fuel : inv i parent children -> 4 <= fuel -> j < n -> chase fuel parent (Some j) = Ok None /\ (exists k, nth_error parent k = Some None) \/ exists r, chase fuel parent (Some j) = Ok (Some r) /\ nth_error parent r = Some (Some r).
  Proof.
    intros I F J. assert (R : forall m r, 1 <= m -> nth_error parent r = Some (Some r) -> chase m parent (Some r) = Ok (Some r)). { intros m r M E. destruct m as [|m]; [lia|]. cbn [chase]. unfold vget. rewrite E. cbn [of_option bind]. rewrite Nat.eqb_refl. reflexivity. }
    assert (N : forall m r, 2 <= m -> nth_error parent r = Some None -> chase m parent (Some r) = Ok None). { intros m r M E. destruct m as [|[|m]]; try lia. cbn [chase]. unfold vget. rewrite E. reflexivity. }
    destruct (nth_error parent j) as [[r|]|] eqn:E; [|left; split; [apply N; [lia|exact E]|exists j; exact E]|apply nth_error_None in E; rewrite (i_len _ _ _ I) in E; lia].
    destruct (Nat.eq_dec j r) as [<-|Ne]; [right; exists j; split; [apply R; [lia|exact E]|exact E]|]. destruct fuel as [|fuel]; [lia|]. cbn [chase]. unfold vget. rewrite E. cbn [of_option bind]. rewrite (proj2 (Nat.eqb_neq r j)) by congruence.
    destruct (i_a _ _ _ I j r E Ne) as [H|H]; [right; exists r; split; [apply R; [lia|exact H]|exact H]|left; split; [apply N; [lia|exact H]|exists r; exact H]].
  Qed.
  Lemma set_parents_spec j : forall ks parent, (forall k, In k ks -> k < length parent) -> exists parent', set_parents parent ks j = Ok parent' /\ length parent' = length parent /\ forall k, nth_error parent' k = if in_dec Nat.eq_dec k ks then Some (Some j) else nth_error parent k.
  Proof.
    induction ks as [|x ks IH]; intros parent B; cbn [set_parents]; [exists parent; auto|]. unfold vput. rewrite (proj2 (Nat.ltb_lt x (length parent))) by (apply B; left; reflexivity). cbn [bind]. assert (Bx := B x (or_introl eq_refl)).
    destruct (IH (vset parent x (Some j))) as (p' & E & L & N); [intros k K; rewrite vset_length; apply B; right; exact K|]. exists p'. split; [exact E|]. split; [rewrite L; apply vset_length|]. intros k. rewrite N. destruct (in_dec Nat.eq_dec k ks) as [K|K]; destruct (in_dec Nat.eq_dec k (x :: ks)) as [K'|K']; cbn [In] in K'; try tauto.
    - rewrite nth_error_vset by exact Bx. destruct (Nat.eq_dec k x) as [->|Ne]; [reflexivity|]. destruct K' as [K'|K']; [congruence|tauto].
    - rewrite nth_error_vset by exact Bx. destruct (Nat.eq_dec k x) as [->|Ne]; [tauto|reflexivity].
  Qed.
  Variable nb : list (list nat).
  Hypothesis NL : length nb = n.
  Hypothesis NB : forall i l, nth_error nb i = Some l -> forall x, In x l <-> next_to s i x.
  Lemma nearest_spec i parent children : inv i parent children -> i < n -> exists j, nearest lt dmax dist s nb parent i = Ok j /\ (forall r, j = Some r -> nth_error parent r = Some (Some r)) /\
    ((forall x, ~ next_to s i x) -> j = None) /\ ((forall k, nth_error parent k <> Some None) -> (exists x p q, next_to s i x /\ nth_error (s_pts s) i = Some p /\ nth_error (s_pts s) x = Some q /\ lt (dist p q) dmax = true) -> j <> None).
  Proof.
    intros I Hi. unfold nearest. destruct (vget_lt nb i ltac:(lia)) as (ns & -> & En). destruct (vget_lt (s_pts s) i Hi) as (p & -> & Ep). cbn [bind]. assert (Nn := NB i ns En).
    destruct (nearest_neighbor_spec p ns dmax None) as (r' & -> & R & _ & X); [intros j J; apply Nn in J; apply (next_to_lt _ _ J)|]. cbn [bind]. destruct r' as [j|].
    - destruct R as [R|(j' & J & R)]; [discriminate R|]. injection R as <-. apply Nn in J. destruct (next_to_lt _ _ J) as [_ Lj]. destruct (chase_spec i parent children j (length parent + 3) I) as [[E (k & K)]|(r & E & K)]; [rewrite (i_len _ _ _ I); lia|exact Lj| |].
      + exists None. split; [exact E|]. split; [discriminate|]. split; [reflexivity|]. intros H. destruct (H k K).
      + exists (Some r). split; [exact E|]. split; [intros r' Er; injection Er as <-; exact K|]. split; [intros H; destruct (H j J)|discriminate].
    - exists None. split; [replace (length parent + 3) with (S (length parent + 2)) by lia; reflexivity|]. split; [discriminate|]. split; [reflexivity|]. intros _ (x & p' & q & A & B & C & L). apply Nn in A. rewrite Ep in B. injection B as <-. destruct (X x q A C L eq_refl).
  Qed.
  Lemma step_spec i parent children p : inv i parent children -> nth_error (s_pts s) i = Some p -> exists parent' children', discard_step lt dmax dist f s nb (parent, children) i = Ok (parent', children') /\ inv (S i) parent' children' /\
    (forall k, nth_error parent k = Some None -> nth_error parent' k = Some None) /\ (f p = true -> (forall x, ~ next_to s i x) -> nth_error parent' i = Some None) /\
    ((forall k, nth_error parent k <> Some None) -> (exists x q, next_to s i x /\ nth_error (s_pts s) x = Some q /\ lt (dist p q) dmax = true) -> forall k, nth_error parent' k <> Some None).
  Proof.
    intros I Ep. assert (Hi : i < n) by (apply nth_error_Some; rewrite Ep; discriminate). assert (Pi := i_c _ _ _ I i ltac:(lia)). assert (LP := i_len _ _ _ I). assert (LC := i_lenc _ _ _ I).
    unfold discard_step. unfold vget at 1. rewrite Ep. cbn [of_option bind]. destruct (f p) eqn:F.
    2:{ exists parent, children. split; [reflexivity|]. split; [|split; [auto|split; [discriminate|auto]]]. destruct I as [A B a b c d e]. constructor; auto; [intros k r c1 Hr; apply b; lia|intros r Hr; apply c; lia]. }
    destruct (nearest_spec i parent children I Hi) as (j & -> & J1 & J2 & J3). cbn [bind]. destruct j as [j|].
    2:{ unfold vput. rewrite (proj2 (Nat.ltb_lt i (length parent))) by lia. cbn [bind]. exists (vset parent i None), children. split; [reflexivity|]. assert (NV : forall k, nth_error (vset parent i None) k = if Nat.eq_dec k i then Some None else nth_error parent k) by (intros k; apply nth_error_vset; lia).
      split; [|split; [|split]].
      - constructor.
        + rewrite vset_length. exact LP.
        + exact LC.
        + intros k r E Ne. rewrite NV in E. destruct (Nat.eq_dec k i); [discriminate|]. rewrite NV. destruct (Nat.eq_dec r i); [right; reflexivity|]. apply (i_a _ _ _ I k r E Ne).
        + intros k r c Hr Ne E C. rewrite NV in E. destruct (Nat.eq_dec k i); [discriminate|]. apply (i_b _ _ _ I k r c); auto. lia.
        + intros r Hr. rewrite NV. destruct (Nat.eq_dec r i); [lia|]. apply (i_c _ _ _ I). lia.
        + intros r c k C K. destruct (i_d _ _ _ I r c k C K) as [E Ne]. rewrite NV. destruct (Nat.eq_dec k i) as [->|]; [rewrite Pi in E; injection E as <-; destruct (Ne eq_refl)|auto].
        + intros k q Q Fq. rewrite NV. destruct (Nat.eq_dec k i) as [->|]; [congruence|]. apply (i_e _ _ _ I k q Q Fq).
      - intros k K. rewrite NV. destruct (Nat.eq_dec k i); auto.
      - intros _ _. rewrite NV. destruct (Nat.eq_dec i i); [reflexivity|congruence].
      - intros H (x & q & A1 & A2 & A3). destruct (J3 H); [|reflexivity]. exists x, p, q. auto. }
    assert (Rj := J1 j eq_refl). assert (Lj : j < n) by (rewrite <- LP; apply nth_error_Some; rewrite Rj; discriminate). assert (NJ2 : ~ forall x, ~ next_to s i x) by (intros H; discriminate (J2 H)).
    destruct (vget_lt children j ltac:(lia)) as (cj & -> & Ecj). cbn [bind]. unfold vput at 1. rewrite (proj2 (Nat.ltb_lt j (length children))) by lia. cbn [bind]. set (ch1 := vset children j (sins i cj)).
    assert (L1 : length ch1 = n) by (unfold ch1; rewrite vset_length; exact LC). assert (N1 : forall k, nth_error ch1 k = if Nat.eq_dec k j then Some (sins i cj) else nth_error children k) by (intros k; apply nth_error_vset; lia).
    destruct (vget_lt ch1 i ltac:(lia)) as (ci & -> & Eci). cbn [bind]. destruct (vget_lt ch1 j ltac:(lia)) as (cj1 & -> & Ecj1). cbn [bind]. rewrite N1 in Ecj1. destruct (Nat.eq_dec j j) as [_|]; [|congruence]. injection Ecj1 as <-.
    unfold vput at 1. rewrite (proj2 (Nat.ltb_lt j (length ch1))) by lia. cbn [bind]. set (ch2 := vset ch1 j _). assert (L2 : length ch2 = n) by (unfold ch2; rewrite vset_length; exact L1).
    assert (N2 : forall k, nth_error ch2 k = if Nat.eq_dec k j then Some (fold_left (fun s x => sins x s) ci (sins i cj)) else nth_error ch1 k) by (intros k; apply nth_error_vset; lia).
    destruct (vget_lt ch2 i ltac:(lia)) as (ci2 & -> & Eci2). cbn [bind].
    (* the old children of i *)
    destruct (nth_error children i) as [c0|] eqn:Ec0; [|apply nth_error_None in Ec0; lia].
    assert (Old : forall k, In k c0 -> nth_error parent k = Some (Some i) /\ k <> i) by (intros k; apply (i_d _ _ _ I i c0 k Ec0)).
    assert (C2 : forall k, In k ci2 <-> In k c0 \/ (j = i /\ k = i)).
    { intros k. rewrite N2 in Eci2. rewrite N1 in Eci, Eci2. destruct (Nat.eq_dec i j) as [<-|Ne].
      - injection Eci as <-. injection Eci2 as <-. assert (cj = c0) by congruence. subst cj. rewrite In_fold_sins, !In_sins. intuition congruence.
      - assert (ci2 = c0) by congruence. subst ci2. intuition congruence. }
    assert (C2b : forall k, In k ci2 -> k < length parent). { intros k K. apply C2 in K. destruct K as [K|[_ ->]]; [|lia]. apply nth_error_Some. rewrite (proj1 (Old k K)). discriminate. }
    destruct (set_parents_spec j ci2 parent C2b) as (par1 & -> & LP1 & NP1). cbn [bind]. unfold vput. rewrite (proj2 (Nat.ltb_lt i (length ch2))) by lia. cbn [bind]. rewrite (proj2 (Nat.ltb_lt i (length par1))) by lia. cbn [bind].
    set (par' := vset par1 i (Some j)). set (ch' := vset ch2 i []). exists par', ch'. split; [reflexivity|].
    assert (NP : forall k, nth_error par' k = if Nat.eq_dec k i then Some (Some j) else if in_dec Nat.eq_dec k c0 then Some (Some j) else nth_error parent k).
    { intros k. unfold par'. rewrite nth_error_vset by lia. destruct (Nat.eq_dec k i) as [->|Ne]; [reflexivity|]. rewrite NP1. destruct (in_dec Nat.eq_dec k ci2) as [K|K], (in_dec Nat.eq_dec k c0) as [K'|K']; try reflexivity; rewrite C2 in K; intuition congruence. }
    assert (NC : forall k c, nth_error ch' k = Some c -> k <> i -> (k <> j /\ nth_error children k = Some c) \/ (k = j /\ forall x, In x c <-> In x cj \/ x = i \/ In x c0)).
    { intros k c K Ne. unfold ch' in K. rewrite nth_error_vset in K by lia. destruct (Nat.eq_dec k i); [congruence|]. rewrite N2, N1 in K. destruct (Nat.eq_dec k j) as [->|Nj]; [|left; auto]. right. split; [reflexivity|]. injection K as <-. rewrite N1 in Eci. destruct (Nat.eq_dec i j); [congruence|]. assert (ci = c0) by congruence. subst ci. intros x. rewrite In_fold_sins, In_sins. tauto. }
    assert (NCi : nth_error ch' i = Some []) by (unfold ch'; rewrite nth_error_vset by lia; destruct (Nat.eq_dec i i); congruence).
    assert (Rj' : nth_error par' j = Some (Some j)) by (rewrite NP; destruct (Nat.eq_dec j i); [reflexivity|]; destruct (in_dec Nat.eq_dec j c0); [reflexivity|exact Rj]).
    assert (Pos : forall k, nth_error par' k = nth_error parent k \/ nth_error par' k = Some (Some j)) by (intros k; rewrite NP; destruct (Nat.eq_dec k i); [auto|]; destruct (in_dec Nat.eq_dec k c0); auto).
    split; [|split; [|split]].
    - constructor.
      + unfold par'. rewrite vset_length, LP1. exact LP.
      + unfold ch'. rewrite vset_length. exact L2.
      + intros k r E Ne. destruct (Nat.eq_dec r j) as [->|Nj]; [left; exact Rj'|]. rewrite NP in E. destruct (Nat.eq_dec k i); [congruence|]. destruct (in_dec Nat.eq_dec k c0) as [K|K]; [congruence|].
        assert (Ni : r <> i). { intros ->. apply K. apply (i_b _ _ _ I k i c0); auto. }
        rewrite NP. destruct (Nat.eq_dec r i); [congruence|]. destruct (in_dec Nat.eq_dec r c0) as [Q|Q]; [|apply (i_a _ _ _ I k r E Ne)]. destruct (Old r Q) as [O1 O2]. destruct (i_a _ _ _ I k r E Ne) as [H|H]; congruence.
      + intros k r c Hr Ne E C. assert (Ni : r <> i) by lia. destruct (NC r c C Ni) as [[Nj C']|[-> C']].
        * rewrite NP in E. destruct (Nat.eq_dec k i); [congruence|]. destruct (in_dec Nat.eq_dec k c0); [congruence|]. apply (i_b _ _ _ I k r c); auto. lia.
        * apply C'. rewrite NP in E. destruct (Nat.eq_dec k i); [auto|]. destruct (in_dec Nat.eq_dec k c0); [auto|]. left. apply (i_b _ _ _ I k j cj); auto. lia.
      + intros r Hr. rewrite NP. destruct (Nat.eq_dec r i); [lia|]. assert (Pr := i_c _ _ _ I r ltac:(lia)). destruct (in_dec Nat.eq_dec r c0) as [Q|Q]; [|exact Pr]. destruct (Old r Q) as [O1 O2]. congruence.
      + intros r c k C K. destruct (Nat.eq_dec r i) as [->|Ni]; [rewrite NCi in C; injection C as <-; destruct K|]. destruct (NC r c C Ni) as [[Nj C']|[-> C']].
        * destruct (i_d _ _ _ I r c k C' K) as [E Ne]. split; [|exact Ne]. rewrite NP. destruct (Nat.eq_dec k i); [congruence|]. destruct (in_dec Nat.eq_dec k c0) as [Q|Q]; [|exact E]. destruct (Old k Q). congruence.
        * apply C' in K. destruct K as [K|[->|K]].
          -- destruct (i_d _ _ _ I j cj k Ecj K) as [E Ne]. split; [|exact Ne]. destruct (Pos k) as [-> | ->]; [exact E|reflexivity].
          -- split; [|congruence]. rewrite NP. destruct (Nat.eq_dec i i); congruence.
          -- destruct (Old k K) as [O1 O2]. split; [|intros ->; congruence]. rewrite NP. destruct (Nat.eq_dec k i); [reflexivity|]. destruct (in_dec Nat.eq_dec k c0); [reflexivity|tauto].
      + intros k q Q Fq. assert (E := i_e _ _ _ I k q Q Fq). rewrite NP. destruct (Nat.eq_dec k i) as [->|]; [congruence|]. destruct (in_dec Nat.eq_dec k c0) as [K|K]; [|exact E]. destruct (Old k K). congruence.
    - intros k K. rewrite NP. destruct (Nat.eq_dec k i); [congruence|]. destruct (in_dec Nat.eq_dec k c0) as [Q|Q]; [|exact K]. destruct (Old k Q). congruence.
    - intros _ H. destruct (NJ2 H).
    - intros H _ k. destruct (Pos k) as [-> | ->]; [apply H|discriminate].
  Qed.
  Lemma loop_spec : forall m i parent children, i + m = n -> inv i parent children -> exists parent' children', discard_loop lt dmax dist f s nb (parent, children) (seq i m) = Ok (parent', children') /\ inv n parent' children' /\
    (forall k, nth_error parent k = Some None -> nth_error parent' k = Some None) /\ (forall k p, i <= k -> nth_error (s_pts s) k = Some p -> f p = true -> (forall x, ~ next_to s k x) -> nth_error parent' k = Some None) /\
    ((forall k, nth_error parent k <> Some None) -> (forall k p, nth_error (s_pts s) k = Some p -> exists x q, next_to s k x /\ nth_error (s_pts s) x = Some q /\ lt (dist p q) dmax = true) -> forall k, nth_error parent' k <> Some None).
  Proof.
    induction m as [|m IH]; intros i parent children Hm I; cbn [seq discard_loop].
    - exists parent, children. split; [reflexivity|]. replace n with i by lia. split; [exact I|]. split; [auto|]. split; [|auto]. intros k p K E. assert (k < n) by (apply nth_error_Some; rewrite E; discriminate). lia.
    - destruct (nth_error (s_pts s) i) as [p|] eqn:Ep; [|apply nth_error_None in Ep; unfold n in Hm; lia]. destruct (step_spec i parent children p I Ep) as (p1 & c1 & -> & I1 & A1 & A2 & A3). cbn [bind].
      destruct (IH (S i) p1 c1 ltac:(lia) I1) as (p' & c' & E & I' & B1 & B2 & B3). exists p', c'. split; [exact E|]. split; [exact I'|]. split; [auto|]. split.
      + intros k q K Q Fq H. destruct (Nat.eq_dec k i) as [->|]; [|apply (B2 k q); auto; lia]. rewrite Ep in Q. injection Q as <-. apply B1, A2; assumption.
      + intros H1 H2. apply B3; [|exact H2]. apply A3; [exact H1|]. apply (H2 i p Ep).
  Qed.
End D.

Lemma position_spec l i : forall k, position l i = Some k -> nth_error l k = Some i.
Proof. induction l as [|x l IH]; cbn [position]; intros k E; [discriminate|]. destruct (Nat.eqb_spec x i) as [->|]; [injection E as <-; reflexivity|]. destruct (position l i) as [m|]; [|discriminate]. injection E as <-. apply IH. reflexivity. Qed.
Lemma position_in l i : existsb (Nat.eqb i) l = match position l i with Some _ => true | None => false end.
Proof. induction l as [|x l IH]; cbn [position existsb]; [reflexivity|]. rewrite (Nat.eqb_sym i x). destruct (Nat.eqb x i); [reflexivity|]. cbn [orb]. rewrite IH. destruct (position l i); reflexivity. Qed.
Lemma new_tris_spec l ts : Forall2 (renumbered l) (filter (all_in l) ts) (flat_map (new_tri l) ts).
Proof.
  induction ts as [|[[a b] c] ts IH]; cbn [filter flat_map]; [constructor|]. unfold all_in at 1. cbn [array3 forallb new_tri]. rewrite !position_in. destruct (position l a) as [a'|] eqn:A; [|exact IH]. destruct (position l b) as [b'|] eqn:B; [|exact IH]. destruct (position l c) as [c'|] eqn:C; [|exact IH].
  cbn [andb app]. constructor; [|exact IH]. unfold renumbered. cbn [array3]. repeat constructor; apply position_spec; assumption.
Qed.
Lemma seq_strongly n : forall a, StronglySorted lt (seq a n).
Proof. induction n as [|n IH]; intros a; cbn [seq]; constructor; [apply IH|]. apply Forall_forall. intros x X. apply in_seq in X. lia. Qed.
Lemma filter_strongly (g : nat -> bool) l : StronglySorted lt l -> StronglySorted lt (filter g l).
Proof. induction 1 as [|x l _ IH F]; cbn [filter]; [constructor|]. destruct (g x); [|exact IH]. constructor; [exact IH|]. apply Forall_forall. intros y Y. apply filter_In in Y. rewrite Forall_forall in F. apply F. tauto. Qed.
Lemma init_inv f s : inv f s 0 (map Some (seq 0 (length (s_pts s)))) (repeat [] (length (s_pts s))) /\ forall k, nth_error (map Some (seq 0 (length (s_pts s)))) k <> Some None.
Proof.
  set (n := length (s_pts s)). assert (E : forall k, nth_error (map Some (seq 0 n)) k = if k <? n then Some (Some k) else None).
  { intros k. destruct (Nat.ltb_spec k n) as [H|H]; [|apply nth_error_None; rewrite map_length, seq_length; exact H]. rewrite nth_error_map. replace (nth_error (seq 0 n) k) with (Some k); [reflexivity|]. symmetry. rewrite (nth_error_nth' _ 0) by (rewrite seq_length; exact H). rewrite seq_nth by exact H. reflexivity. }
  split; [|intros k; rewrite E; destruct (k <? n); discriminate]. constructor.
  - rewrite map_length, seq_length. reflexivity.
  - apply repeat_length.
  - intros k r. rewrite E. destruct (k <? n); [|discriminate]. intros H Ne. congruence.
  - intros k r c _ Ne. rewrite E. destruct (k <? n); [|discriminate]. intros H. congruence.
  - intros r H. rewrite E. destruct (Nat.ltb_spec r n); [reflexivity|]. unfold n in *. lia.
  - intros r c k C K. apply nth_error_In in C. apply repeat_spec in C. subst c. destruct K.
  - intros k p K _. rewrite E. destruct (Nat.ltb_spec k n) as [|H]; [reflexivity|]. apply nth_error_None in H. unfold n in *. congruence.
Qed.
Lemma discard_spec {D} (lt0 : D -> D -> bool) dmax dist f s : valid (length (s_pts s)) (map array3 (tris s)) -> exists s' parent,
  discard lt0 dmax dist f s = Ok s' /\ length parent = length (s_pts s) /\ Forall2 (fun i p => nth_error (s_pts s) i = Some p) (kept parent) (s_pts s') /\ tris s' = flat_map (new_tri (kept parent)) (tris s) /\ quads s' = quads s /\ pentagons s' = pentagons s /\
  (exists children, inv f s (length (s_pts s)) parent children) /\ (forall k p, nth_error (s_pts s) k = Some p -> f p = true -> (forall x, ~ next_to s k x) -> nth_error parent k = Some None) /\
  ((forall k p, nth_error (s_pts s) k = Some p -> exists x q, next_to s k x /\ nth_error (s_pts s) x = Some q /\ lt0 (dist p q) dmax = true) -> forall k, nth_error parent k <> Some None).
Proof.
  intros V. destruct (neighbors_spec lt0 dmax s V) as (nb & EN & NL & NB). destruct (init_inv f s) as [I0 N0]. destruct (loop_spec lt0 dmax dist f s V nb NL NB (length (s_pts s)) 0 _ _ eq_refl I0) as (parent & children & EL & I & A1 & A2 & A3).
  unfold discard. rewrite EN. cbn [bind]. rewrite EL. cbn [bind].
  destruct (mapM_ex (fun i p => nth_error (s_pts s) i = Some p) (vget (s_pts s)) (kept parent)) as (ps & -> & FP). { intros i H. apply filter_In in H. destruct H as [H _]. apply in_seq in H. rewrite (i_len _ _ _ _ _ I) in H. destruct (vget_lt (s_pts s) i) as (p & E1 & E2); [lia|exists p; auto]. }
  cbn [bind]. eexists. exists parent. split; [reflexivity|]. cbn [s_pts tris quads pentagons]. split; [apply (i_len _ _ _ _ _ I)|]. split; [exact FP|]. split; [reflexivity|]. split; [reflexivity|]. split; [reflexivity|]. split; [exists children; exact I|]. split; [intros k p; apply A2; lia|]. intros H. apply A3; [exact N0|exact H].
Qed.
Lemma kept_In parent k : In k (kept parent) <-> nth_error parent k = Some (Some k).
Proof.
  unfold kept, survives. rewrite filter_In, in_seq. split.
  - intros [_ H]. destruct (nth_error parent k) as [[r|]|]; try discriminate. apply Nat.eqb_eq in H. congruence.
  - intros H. rewrite H, Nat.eqb_refl. assert (k < length parent) by (apply nth_error_Some; rewrite H; discriminate). split; [lia|reflexivity].
Qed.
(** discard always terminates on valid triangles; every point that does not satisfy [f] is kept; a point that satisfies [f] and is in no triangle is removed; the kept points keep their order; the triangles are the old ones with three kept points *)
Theorem C126_discard : forall (D : Type) (less : D -> D -> bool) dmax dist f s, valid (length (s_pts s)) (map array3 (tris s)) -> exists s' l,
  discard less dmax dist f s = Ok s' /\ StronglySorted lt l /\ Forall2 (fun i p => nth_error (s_pts s) i = Some p) l (s_pts s') /\
  (forall i p, nth_error (s_pts s) i = Some p -> f p = false -> In i l) /\ (forall i p, nth_error (s_pts s) i = Some p -> f p = true -> (forall t, In t (tris s) -> ~ In i (array3 t)) -> ~ In i l) /\
  Forall2 (renumbered l) (filter (all_in l) (tris s)) (tris s') /\ quads s' = quads s /\ pentagons s' = pentagons s.
Proof.
  intros D less dmax dist f s V. destruct (discard_spec less dmax dist f s V) as (s' & parent & E & L & F & T & Q & P & (children & I) & A2 & _). exists s', (kept parent). split; [exact E|]. split; [apply filter_strongly, seq_strongly|]. split; [exact F|]. split; [|split; [|split; [rewrite T; apply new_tris_spec|auto]]].
  - intros i p Ep Fp. apply kept_In. apply (i_e _ _ _ _ _ I i p Ep Fp).
  - intros i p Ep Fp H K. apply kept_In in K. rewrite (A2 i p Ep Fp) in K; [discriminate|]. intros x (t & Ht & Hx). apply (H t Ht). destruct t as [[a b] c]. cbn in Hx |- *. repeat (destruct Hx as [Hx|Hx]; [injection Hx; intros; subst; auto|]). destruct Hx.
Qed.
Print Assumptions C126_discard.
(** it cannot remove all points of a surface: whatever [f] is, if every point has a neighbour at a finite distance then some point stays *)
Theorem C126_all_refuted : forall (D : Type) (less : D -> D -> bool) dmax dist f s, valid (length (s_pts s)) (map array3 (tris s)) -> s_pts s <> [] ->
  (forall i p, nth_error (s_pts s) i = Some p -> exists x q, next_to s i x /\ nth_error (s_pts s) x = Some q /\ less (dist p q) dmax = true) ->
  exists s', discard less dmax dist f s = Ok s' /\ s_pts s' <> [].
Proof.
  intros D less dmax dist f s V Ne H. destruct (discard_spec less dmax dist f s V) as (s' & parent & E & L & F & _ & _ & _ & (children & I) & _ & A3). exists s'. split; [exact E|]. specialize (A3 H).
  assert (K : exists r, nth_error parent r = Some (Some r)).
  { destruct (nth_error parent 0) as [[r|]|] eqn:E0; [|destruct (A3 0 E0)|apply nth_error_None in E0; rewrite L in E0; destruct (s_pts s); [congruence|cbn in E0; lia]]. destruct (Nat.eq_dec 0 r) as [<-|N0]; [exists 0; exact E0|]. destruct (i_a _ _ _ _ _ I 0 r E0 N0) as [Q|Q]; [exists r; exact Q|destruct (A3 r Q)]. }
  destruct K as (r & K). apply kept_In in K. intros E0. rewrite E0 in F. inversion F as [E1|]. rewrite <- E1 in K. destruct K.
Qed.
Print Assumptions C126_all_refuted.
(** quadrilaterals and pentagons are not considered: without triangles, all points that satisfy [f] are removed and the quadrilaterals still refer to them *)
Theorem C126_quads_refuted : forall (D : Type) (less : D -> D -> bool) dmax dist f s, tris s = [] -> quads s <> [] -> (forall p, In p (s_pts s) -> f p = true) ->
  exists s', discard less dmax dist f s = Ok s' /\ s_pts s' = [] /\ quads s' = quads s /\ ~ valid (length (s_pts s')) (surface_cells s').
Proof.
  intros D less dmax dist f s T Q H. destruct (C126_discard D less dmax dist f s) as (s' & l & E & _ & F & _ & A & _ & EQ & _); [rewrite T; intros c i []|]. exists s'. split; [exact E|].
  assert (EL : l = []). { destruct l as [|i l]; [reflexivity|]. inversion F as [|? p ? ps Ep]; subst. destruct (A i p Ep); [apply H; eapply nth_error_In; exact Ep|rewrite T; intros t []|left; reflexivity]. }
  subst l. assert (E0 : s_pts s' = []) by (inversion F; reflexivity). rewrite E0. split; [reflexivity|]. split; [exact EQ|]. intros W. destruct (quads s) as [|[[[a b] c] d] qs]; [congruence|]. assert (B := W [a; b; c; d] a); cbn [length In] in B. assert (a < 0); [|lia]. apply B; [|auto]. unfold surface_cells. rewrite EQ, !in_app_iff. cbn [map In array4]. auto.
Qed.
Print Assumptions C126_quads_refuted.
