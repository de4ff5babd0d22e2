(** Sorting, parity of inversions and order independence for the orientation predicates. *)
From Coq Require Import Permutation Sorted.
From Verif Require Import Base UnionFind NdArray SoS SoSSpec.
Local Open Scope nat_scope.

Section Bubble.
  Context {A : Type}.
  Implicit Types (l : list (Z * A)).
  Definition nlt (k : Z) l : nat := length (filter (fun y => (fst y <? k)%Z) l).

  Lemma nlt_cons k x l : nlt k (x :: l) = (if (fst x <? k)%Z then 1 else 0) + nlt k l.
  Proof. unfold nlt. cbn. destruct (fst x <? k)%Z; reflexivity. Qed.
  Lemma nlt_perm k l l' : Permutation l l' -> nlt k l = nlt k l'.
  Proof. induction 1; rewrite ?nlt_cons; try lia. Qed.
  Lemma inv_cons x l : inversions (x :: l) = nlt (fst x) l + inversions l.
  Proof. reflexivity. Qed.

  Lemma bubble_pass_perm k : forall l, Permutation l (fst (bubble_pass k l)).
  Proof.
    induction k as [|k IH]; intros l; [reflexivity|]. destruct l as [|x [|y t]]; try reflexivity. cbn [bubble_pass].
    destruct (fst y <? fst x)%Z.
    - specialize (IH (x :: t)). destruct (bubble_pass k (x :: t)) as [r s]. cbn [fst] in *. rewrite <- IH. apply perm_swap.
    - specialize (IH (y :: t)). destruct (bubble_pass k (y :: t)) as [r s]. cbn [fst] in *. rewrite <- IH. reflexivity.
  Qed.
  Lemma bubble_pass_inv k : forall l, snd (bubble_pass k l) + inversions (fst (bubble_pass k l)) = inversions l.
  Proof.
    induction k as [|k IH]; intros l; [reflexivity|]. destruct l as [|x [|y t]]; try reflexivity. cbn [bubble_pass].
    destruct (Z.ltb_spec (fst y) (fst x)).
    - assert (P := bubble_pass_perm k (x :: t)). specialize (IH (x :: t)). destruct (bubble_pass k (x :: t)) as [r s]. cbn [fst snd] in *.
      rewrite !inv_cons, !nlt_cons in *. rewrite <- (nlt_perm _ _ _ P), nlt_cons. destruct (Z.ltb_spec (fst x) (fst y)), (Z.ltb_spec (fst y) (fst x)); lia.
    - assert (P := bubble_pass_perm k (y :: t)). specialize (IH (y :: t)). destruct (bubble_pass k (y :: t)) as [r s]. cbn [fst snd] in *.
      rewrite !inv_cons in *. rewrite <- (nlt_perm _ _ _ P). lia.
  Qed.
  Definition kle (a b : Z * A) : Prop := (fst a <= fst b)%Z.
  Definition klt (a b : Z * A) : Prop := (fst a < fst b)%Z.
  Lemma bubble_pass_max k : forall a b, length a = S k ->
    exists a' c, fst (bubble_pass k (a ++ b)) = a' ++ c :: b /\ Permutation (a' ++ [c]) a /\ Forall (fun x => kle x c) a'.
  Proof.
    induction k as [|k IH]; intros a b Ha.
    - destruct a as [|x [|? ?]]; try discriminate. exists [], x. cbn. repeat split; auto.
    - destruct a as [|x [|y t]]; try discriminate. cbn [app bubble_pass]. destruct (Z.ltb_spec (fst y) (fst x)).
      + destruct (IH (x :: t) b) as (a' & c & E & P & F); [cbn in *; lia|]. cbn [app] in E. destruct (bubble_pass k (x :: t ++ b)) as [r s]. cbn [fst] in *. subst r.
        exists (y :: a'), c. split; [reflexivity|]. split; [cbn; rewrite P; apply perm_swap|]. constructor; [|exact F].
        assert (I : In x (a' ++ [c])) by (rewrite P; left; reflexivity). rewrite in_app_iff in I. rewrite Forall_forall in F. unfold kle in *. destruct I as [I|[->|[]]]; [specialize (F _ I); lia|lia].
      + destruct (IH (y :: t) b) as (a' & c & E & P & F); [cbn in *; lia|]. cbn [app] in E. destruct (bubble_pass k (y :: t ++ b)) as [r s]. cbn [fst] in *. subst r.
        exists (x :: a'), c. split; [reflexivity|]. split; [cbn; rewrite P; reflexivity|]. constructor; [|exact F].
        assert (I : In y (a' ++ [c])) by (rewrite P; left; reflexivity). rewrite in_app_iff in I. rewrite Forall_forall in F. unfold kle in *. destruct I as [I|[->|[]]]; [specialize (F _ I); lia|lia].
  Qed.
  Lemma bubble_loop_perm m : forall l, Permutation l (fst (bubble_loop m l)).
  Proof.
    induction m as [|m IH]; intros l; [reflexivity|]. cbn [bubble_loop]. assert (P := bubble_pass_perm (S m) l). destruct (bubble_pass (S m) l) as [l1 s1]. specialize (IH l1).
    destruct (bubble_loop m l1) as [l2 s2]. cbn [fst] in *. rewrite P. exact IH.
  Qed.
  Lemma bubble_loop_inv m : forall l, snd (bubble_loop m l) + inversions (fst (bubble_loop m l)) = inversions l.
  Proof.
    induction m as [|m IH]; intros l; [reflexivity|]. cbn [bubble_loop]. assert (P := bubble_pass_inv (S m) l). destruct (bubble_pass (S m) l) as [l1 s1]. specialize (IH l1).
    destruct (bubble_loop m l1) as [l2 s2]. cbn [fst snd] in *. lia.
  Qed.
  Lemma bubble_loop_sorted m : forall a b, length a = S m -> StronglySorted kle b -> (forall x y, In x a -> In y b -> kle x y) ->
    StronglySorted kle (fst (bubble_loop m (a ++ b))).
  Proof.
    induction m as [|m IH]; intros a b Ha Sb D.
    - destruct a as [|x [|? ?]]; try discriminate. cbn. constructor; [exact Sb|]. apply Forall_forall. intros y Hy. apply D; [left; reflexivity|exact Hy].
    - cbn [bubble_loop]. destruct (bubble_pass_max (S m) a b Ha) as (a' & c & E & P & F). destruct (bubble_pass (S m) (a ++ b)) as [l1 s1]. cbn [fst] in E. subst l1.
      assert (La : length a' = S m). { apply Permutation_length in P. rewrite app_length in P. cbn in P. lia. }
      specialize (IH a' (c :: b) La). destruct (bubble_loop m (a' ++ c :: b)) as [l2 s2]. cbn [fst] in *. apply IH.
      + constructor; [exact Sb|]. apply Forall_forall. intros y Hy. apply D; [|exact Hy]. rewrite <- P, in_app_iff. right; left; reflexivity.
      + intros x y Hx [<-|Hy]; [rewrite Forall_forall in F; auto|]. apply D; [|exact Hy]. rewrite <- P, in_app_iff. left; exact Hx.
  Qed.
  Definition gsort l : list (Z * A) := fst (bubble_loop (length l - 1) l).
  Lemma gsort_perm l : Permutation l (gsort l).
  Proof. apply bubble_loop_perm. Qed.
  Lemma gsort_sorted l : StronglySorted kle (gsort l).
  Proof.
    unfold gsort. destruct l as [|x l]; [constructor|]. rewrite <- (app_nil_r (x :: l)) at 2. apply bubble_loop_sorted; [cbn; lia|constructor|intros ? ? _ []].
  Qed.
  Lemma sorted_inv0 l : StronglySorted kle l -> inversions l = 0.
  Proof.
    induction 1 as [|x l S IH F]; [reflexivity|]. rewrite inv_cons, IH. unfold nlt. rewrite Nat.add_0_r.
    assert (filter (fun y => (fst y <? fst x)%Z) l = []) as -> by (induction F as [|y l Hy F IF]; [reflexivity|]; cbn; destruct (Z.ltb_spec (fst y) (fst x)); [unfold kle in Hy; lia|apply IF; [inversion S; assumption|rewrite inv_cons in IH; lia]]). reflexivity.
  Qed.
  Lemma loop_swaps l : snd (bubble_loop (length l - 1) l) = inversions l.
  Proof. rewrite <- (bubble_loop_inv (length l - 1) l). fold (gsort l). rewrite (sorted_inv0 _ (gsort_sorted l)). lia. Qed.

  (** a function that changes sign with every exchange of neighbours *)
  Section Flip.
    Context (F : list (Z * A) -> Z) (n : nat) (HF : forall l1 x y l2, length (l1 ++ x :: y :: l2) = n -> (F (l1 ++ y :: x :: l2) = - F (l1 ++ x :: y :: l2))%Z).
    Definition sg (b : bool) (z : Z) : Z := if b then (- z)%Z else z.
    Lemma flip_pass k : forall p l, length (p ++ l) = n -> F (p ++ fst (bubble_pass k l)) = sg (Nat.odd (snd (bubble_pass k l))) (F (p ++ l)).
    Proof.
      induction k as [|k IH]; intros p l Hn; [reflexivity|]. destruct l as [|x [|y t]]; try reflexivity. cbn [bubble_pass].
      destruct (fst y <? fst x)%Z.
      - specialize (IH (p ++ [y]) (x :: t)). destruct (bubble_pass k (x :: t)) as [r s]. cbn [fst snd] in *. rewrite <- !app_assoc in IH. cbn [app] in IH.
        rewrite IH by (rewrite app_length in *; cbn in *; lia). rewrite HF by exact Hn. rewrite Nat.odd_succ, <- Nat.negb_odd. unfold sg. destruct (Nat.odd s); cbn; lia.
      - specialize (IH (p ++ [x]) (y :: t)). destruct (bubble_pass k (y :: t)) as [r s]. cbn [fst snd] in *. rewrite <- !app_assoc in IH. cbn [app] in IH. apply IH. exact Hn.
    Qed.
    Lemma flip_loop m : forall l, length l = n -> F (fst (bubble_loop m l)) = sg (Nat.odd (snd (bubble_loop m l))) (F l).
    Proof.
      induction m as [|m IH]; intros l Hn; [reflexivity|]. cbn [bubble_loop]. assert (E := flip_pass (S m) [] l Hn). cbn [app] in E. assert (P := bubble_pass_perm (S m) l).
      destruct (bubble_pass (S m) l) as [l1 s1]. specialize (IH l1). destruct (bubble_loop m l1) as [l2 s2]. cbn [fst snd] in *. rewrite IH by (rewrite <- (Permutation_length P); exact Hn).
      rewrite E, Nat.odd_add. unfold sg. destruct (Nat.odd s1), (Nat.odd s2); cbn; lia.
    Qed.
    Lemma flip_sort l : length l = n -> F (gsort l) = sg (Nat.odd (inversions l)) (F l).
    Proof. intros Hn. rewrite <- loop_swaps. apply flip_loop. exact Hn. Qed.
  End Flip.

  (** *** keys pairwise distinct *)
  Lemma strictify l : NoDup (map fst l) -> StronglySorted kle l -> StronglySorted klt l.
  Proof.
    intros N S. induction S as [|x l S IH F]; [constructor|]. cbn in N. inversion N as [|? ? N1 N2]; subst. constructor; [auto|]. rewrite Forall_forall in *. intros y Hy.
    specialize (F _ Hy). unfold kle, klt in *. destruct (Z.eq_dec (fst x) (fst y)) as [E|E]; [|lia]. exfalso. apply N1. rewrite E. apply in_map. exact Hy.
  Qed.
  Lemma ssorted_unique l : forall l', StronglySorted klt l -> StronglySorted klt l' -> Permutation l l' -> l = l'.
  Proof.
    induction l as [|x l IH]; intros l' S S' P; [apply Permutation_nil in P; congruence|]. destruct l' as [|x' l']; [apply Permutation_sym, Permutation_nil in P; discriminate|].
    inversion S as [|? ? S1 F1]; inversion S' as [|? ? S2 F2]; subst. rewrite Forall_forall in F1, F2.
    assert (x = x') as <-.
    { assert (I : In x (x' :: l')) by (rewrite <- P; left; reflexivity). assert (I' : In x' (x :: l)) by (rewrite P; left; reflexivity).
      destruct I as [I|I]; [congruence|]. destruct I' as [I'|I']; [congruence|]. apply F1 in I'. apply F2 in I. unfold klt in *. lia. }
    f_equal. apply IH; auto. apply Permutation_cons_inv in P. exact P.
  Qed.
  Lemma nodup_perm l l' : Permutation l l' -> NoDup (map fst l) -> NoDup (map fst l').
  Proof. intros P. apply Permutation_NoDup. apply Permutation_map. exact P. Qed.
  Lemma gsort_strict l : NoDup (map fst l) -> StronglySorted klt (gsort l).
  Proof. intros N. apply strictify; [eapply nodup_perm; [apply gsort_perm|exact N]|apply gsort_sorted]. Qed.
  Lemma gsort_ext l l' : NoDup (map fst l) -> Permutation l l' -> gsort l = gsort l'.
  Proof.
    intros N P. apply ssorted_unique; [apply gsort_strict; exact N|apply gsort_strict; eapply nodup_perm; eauto|]. rewrite <- !gsort_perm. exact P.
  Qed.

  (** parity of inversions *)
  Definition par l : bool := Nat.odd (inversions l).
  Lemma par_cons x l : par (x :: l) = xorb (Nat.odd (nlt (fst x) l)) (par l).
  Proof. unfold par. rewrite inv_cons, Nat.odd_add. reflexivity. Qed.
  Lemma par_front a : forall l1 l2, ~ In (fst a) (map fst l1) -> par (l1 ++ a :: l2) = xorb (Nat.odd (length l1)) (par (a :: l1 ++ l2)).
  Proof.
    induction l1 as [|x l1 IH]; intros l2 N; [cbn; destruct (par _); reflexivity|]. cbn [app length]. rewrite par_cons, IH by (intros H; apply N; right; exact H).
    rewrite (nlt_perm _ _ (a :: l1 ++ l2)) by (symmetry; apply Permutation_middle). rewrite !par_cons, !nlt_cons.
    assert (fst x <> fst a) by (intros E; apply N; left; exact E). change (S (length l1)) with (1 + length l1). rewrite !Nat.odd_add.
    destruct (Z.ltb_spec (fst a) (fst x)), (Z.ltb_spec (fst x) (fst a)); try lia; destruct (Nat.odd (length l1)), (Nat.odd (nlt (fst x) _)), (Nat.odd (nlt (fst a) _)), (par (l1 ++ l2)); reflexivity.
  Qed.
  Lemma par_exchange l1 a l2 b l3 : NoDup (map fst (l1 ++ a :: l2 ++ b :: l3)) -> par (l1 ++ b :: l2 ++ a :: l3) = negb (par (l1 ++ a :: l2 ++ b :: l3)).
  Proof.
    intros N. rewrite !map_app in N. cbn [map] in N. rewrite !map_app in N. cbn [map] in N.
    assert (N' := N). apply NoDup_remove in N'. destruct N' as [N1 Na]. rewrite !in_app_iff in Na. cbn [In] in Na. rewrite app_assoc in N1. apply NoDup_remove in N1. destruct N1 as [N1 Nb]. rewrite !in_app_iff in Nb.
    rewrite (par_front a) by tauto. rewrite (par_front b) by tauto. rewrite !par_cons. rewrite !app_assoc. 
    rewrite (par_front b) by (rewrite map_app, in_app_iff; tauto). rewrite (par_front a) by (rewrite map_app, in_app_iff; tauto). rewrite !par_cons.
    rewrite (nlt_perm (fst a) ((l1 ++ l2) ++ b :: l3) (b :: (l1 ++ l2) ++ l3)) by (symmetry; apply Permutation_middle). rewrite (nlt_perm (fst b) ((l1 ++ l2) ++ a :: l3) (a :: (l1 ++ l2) ++ l3)) by (symmetry; apply Permutation_middle).
    rewrite !nlt_cons, !Nat.odd_add. assert (fst a <> fst b) by (intros E; apply Na; right; right; left; congruence).
    destruct (Z.ltb_spec (fst a) (fst b)), (Z.ltb_spec (fst b) (fst a)); try lia; destruct (Nat.odd (length l1)), (Nat.odd (length (l1 ++ l2))), (Nat.odd (nlt (fst a) _)), (Nat.odd (nlt (fst b) _)), (par _); reflexivity.
  Qed.
End Bubble.

(** *** naturality: the position array is only carried along *)
Lemma bubble_pass_nat {A B} (g : A -> B) k : forall l,
  bubble_pass k (map (fun p => (fst p, g (snd p))) l) = (map (fun p => (fst p, g (snd p))) (fst (bubble_pass k l)), snd (bubble_pass k l)).
Proof.
  induction k as [|k IH]; intros l; [reflexivity|]. destruct l as [|x [|y t]]; try reflexivity. cbn [bubble_pass map fst].
  destruct (fst y <? fst x)%Z.
  - specialize (IH (x :: t)). cbn [map] in IH. rewrite IH. destruct (bubble_pass k (x :: t)) as [r s]. reflexivity.
  - specialize (IH (y :: t)). cbn [map] in IH. rewrite IH. destruct (bubble_pass k (y :: t)) as [r s]. reflexivity.
Qed.
Lemma bubble_loop_nat {A B} (g : A -> B) m : forall l,
  bubble_loop m (map (fun p => (fst p, g (snd p))) l) = (map (fun p => (fst p, g (snd p))) (fst (bubble_loop m l)), snd (bubble_loop m l)).
Proof.
  induction m as [|m IH]; intros l; [reflexivity|]. cbn [bubble_loop]. rewrite bubble_pass_nat. destruct (bubble_pass (S m) l) as [l1 s1]. cbn [fst snd]. rewrite IH.
  destruct (bubble_loop m l1) as [l2 s2]. reflexivity.
Qed.
Lemma mapM_vget {P} (X : list P) d : forall (l : list (Z * nat)), Forall (fun o => snd o < length X) l ->
  mapM (fun o => vget X (snd o)) l = Ok (map (fun o => nth (snd o) X d) l).
Proof.
  induction 1 as [|o l H F IH]; [reflexivity|]. cbn [mapM map]. unfold vget at 1. rewrite (nth_error_nth' X d H). cbn [bind]. rewrite IH. reflexivity.
Qed.
Lemma combine_seq_nth {P} (d : P) : forall (L : list (Z * P)) X0,
  map (fun o => (fst o, nth (snd o) (X0 ++ map snd L) d)) (combine (map fst L) (seq (length X0) (length L))) = L.
Proof.
  induction L as [|[k p] L IH]; intros X0; [reflexivity|]. cbn [map combine length seq fst snd]. f_equal.
  - rewrite app_nth2 by lia. rewrite Nat.sub_diag. reflexivity.
  - specialize (IH (X0 ++ [p])). rewrite app_length in IH. cbn [length] in IH. rewrite Nat.add_1_r, <- app_assoc in IH. exact IH.
Qed.

(** the predicate on a list of (index, point) pairs *)
Definition pos {P} (rsd : list P -> res Z) (L : list (Z * P)) : res Z := positive rsd (map snd L) (map fst L).

Lemma pos_eq {P} (rsd : list P -> res Z) (L : list (Z * P)) :
  pos rsd L = let* d := rsd (map snd (gsort L)) in Ok (sg (par L) d).
Proof.
  unfold pos, positive, nswaps_bubble_sort. destruct L as [|[k0 p0] L']; [reflexivity|]. set (L := (k0, p0) :: L').
  assert (C := combine_seq_nth p0 L []). cbn [app length] in C.
  assert (E := bubble_loop_nat (fun i => nth i (map snd L) p0) (length L - 1) (combine (map fst L) (seq 0 (length L)))). cbv beta in E. rewrite C in E.
  rewrite !map_length. assert (Pm := bubble_loop_perm (length L - 1) (combine (map fst L) (seq 0 (length L)))).
  destruct (bubble_loop (length L - 1) (combine (map fst L) (seq 0 (length L)))) as [l s] eqn:EB. cbn [fst snd] in *.
  rewrite (mapM_vget _ p0).
  2:{ apply Forall_forall. intros o Ho. rewrite map_length. apply (Permutation_in _ (Permutation_sym Pm)) in Ho. destruct o as [? o]. apply in_combine_r in Ho. apply in_seq in Ho. cbn in *. lia. }
  cbn [bind]. assert (G := loop_swaps L). unfold gsort, par. rewrite <- G, E. cbn [fst snd]. rewrite map_map. cbn [snd].
  destruct (rsd _); reflexivity.
Qed.

(** *** the in-simplex loop *)
Lemma vset_app {P} (l1 : list P) a z l2 : vset (l1 ++ a :: l2) (length l1) z = l1 ++ z :: l2.
Proof. induction l1 as [|x l1 IH]; [reflexivity|]. cbn [app length vset]. rewrite IH. reflexivity. Qed.
Lemma in_simplex_iff {P} (rsd : list P -> res Z) (L : list (Z * P)) x ix s : forall l2 l1, L = l1 ++ l2 ->
  (forall l1 a l2, L = l1 ++ a :: l2 -> exists v, pos rsd (l1 ++ (ix, x) :: l2) = Ok v) ->
  exists b, in_simplex_loop rsd (map snd L) (map fst L) x ix s (seq (length l1) (length l2)) = Ok b /\ (b = true <-> forall l1' a l2', l2 = l1' ++ a :: l2' -> pos rsd ((l1 ++ l1') ++ (ix, x) :: l2') = Ok s).
Proof.
  induction l2 as [|a l2 IH]; intros l1 EL D; cbn [length seq in_simplex_loop].
  - exists true. split; [reflexivity|]. split; [|reflexivity]. intros _ l1' a l2' E. destruct l1'; discriminate.
  - destruct (D l1 a l2 EL) as (v & V). unfold pos in V. 
    assert (E1 : vset (map snd L) (length l1) x = map snd (l1 ++ (ix, x) :: l2)). { rewrite EL, !map_app. cbn [map snd]. rewrite <- (map_length snd l1). apply vset_app. }
    assert (E2 : vset (map fst L) (length l1) ix = map fst (l1 ++ (ix, x) :: l2)). { rewrite EL, !map_app. cbn [map fst]. rewrite <- (map_length fst l1). apply vset_app. }
    rewrite E1, E2, V. cbn [bind]. destruct (Z.eqb_spec s v) as [<-|Nv].
    + destruct (IH (l1 ++ [a])) as (b & B & I); [rewrite <- app_assoc; exact EL|exact D|]. rewrite app_length, Nat.add_1_r in B. exists b. split; [exact B|].
      rewrite I. clear - V. split; intros H l1' a' l2' E.
      * destruct l1' as [|y l1']; [|]; cbn in E; injection E as E1 E2; subst; [rewrite app_nil_r; exact V|]. specialize (H l1' a' l2' eq_refl). rewrite <- !app_assoc in *. exact H.
      * specialize (H (a :: l1') a' l2'). rewrite <- !app_assoc in *. apply H. cbn. congruence.
    + exists false. split; [reflexivity|]. split; [discriminate|]. intros H. specialize (H [] a l2 eq_refl). rewrite app_nil_r in H. unfold pos in H. rewrite V in H. congruence.
Qed.

Section InSimplex.
  Context {P : Type} (rsd : list P -> res Z) (n : nat).
  Context (Hr : forall X, length X = n -> exists v, rsd X = Ok v /\ (v = 1 \/ v = -1)%Z).
  Implicit Types (L : list (Z * P)).
  Lemma pos_ok L : length L = n -> exists v, pos rsd L = Ok v /\ (v = 1 \/ v = -1)%Z.
  Proof.
    intros H. rewrite pos_eq. destruct (Hr (map snd (gsort L))) as (v & -> & U); [rewrite map_length, <- (Permutation_length (gsort_perm L)); exact H|].
    cbn [bind]. eexists. split; [reflexivity|]. unfold sg. destruct (par L); lia.
  Qed.
  Lemma pos_exchange l1 a l2 b l3 v : NoDup (map fst (l1 ++ a :: l2 ++ b :: l3)) ->
    pos rsd (l1 ++ a :: l2 ++ b :: l3) = Ok v -> pos rsd (l1 ++ b :: l2 ++ a :: l3) = Ok (- v)%Z.
  Proof.
    intros N. rewrite !pos_eq. rewrite (par_exchange l1 a l2 b l3 N).
    assert (G : gsort (l1 ++ b :: l2 ++ a :: l3) = gsort (l1 ++ a :: l2 ++ b :: l3)); [symmetry; apply gsort_ext; [exact N|]|rewrite G].
    2:{ destruct (rsd _) as [d| |]; cbn [bind]; try discriminate. intros H. injection H as <-. unfold sg. destruct (par _); cbn; f_equal; lia. }
    apply Permutation_app_head. rewrite <- !Permutation_middle. apply perm_swap.
  Qed.
  Lemma pos_perm L L' : NoDup (map fst L) -> Permutation L L' -> length L = n ->
    pos rsd L' = let* v := pos rsd L in Ok (sg (xorb (par L) (par L')) v).
  Proof.
    intros N Pm Hn. rewrite !pos_eq, (gsort_ext L L' N Pm). destruct (rsd _) as [d| |]; cbn [bind]; try reflexivity. unfold sg. destruct (par L), (par L'); cbn; f_equal; lia.
  Qed.
  Definition intest L (x : P) (ix : Z) : res bool := robust_point_in_simplex rsd (map snd L) (map fst L) x ix.
  Lemma intest_spec L x ix : length L = n -> exists b, intest L x ix = Ok b /\ (b = true <-> forall l1 a l2, L = l1 ++ a :: l2 -> pos rsd (l1 ++ (ix, x) :: l2) = pos rsd L).
  Proof.
    intros Hn. unfold intest, robust_point_in_simplex. destruct (pos_ok L Hn) as (s & E & _). unfold pos in E. rewrite E. cbn [bind]. fold (pos rsd L) in E.
    destruct (in_simplex_iff rsd L x ix s L []) as (b & B & I); [reflexivity| |].
    - intros l1 a l2 EL. destruct (pos_ok (l1 ++ (ix, x) :: l2)) as (v & V & _); [|eauto]. rewrite EL, app_length in Hn. rewrite app_length. exact Hn.
    - cbn [length] in B. rewrite map_length. exists b. split; [exact B|]. rewrite I. cbn [app]. fold (pos rsd L). rewrite E. reflexivity.
  Qed.
  Lemma intest_half L L' x ix : length L = n -> NoDup (ix :: map fst L) -> Permutation L L' ->
    (forall l1 a l2, L = l1 ++ a :: l2 -> pos rsd (l1 ++ (ix, x) :: l2) = pos rsd L) ->
    forall l1 a l2, L' = l1 ++ a :: l2 -> pos rsd (l1 ++ (ix, x) :: l2) = pos rsd L'.
  Proof.
    intros Hn N Pm H l1 a l2 E. assert (I : In a L) by (rewrite Pm, E, in_app_iff; right; left; reflexivity). apply in_split in I. destruct I as (m1 & m2 & EL).
    assert (Pr : Permutation (m1 ++ m2) (l1 ++ l2)). { rewrite EL, E in Pm. rewrite <- !Permutation_middle in Pm. apply Permutation_cons_inv in Pm. exact Pm. }
    inversion N as [|? ? Nx Nk]; subst x0 l. specialize (H m1 a m2 EL).
    assert (Np : NoDup (map fst L')) by (eapply nodup_perm; eauto). rewrite (pos_perm L L' Nk Pm Hn), <- H.
    assert (Kx : ~ In ix (map fst m1 ++ map fst m2)). { intros J. apply Nx. rewrite EL, map_app. cbn [map]. rewrite in_app_iff in *. cbn. tauto. }
    assert (Kx' : ~ In ix (map fst l1)). { intros J. apply Nx. apply (Permutation_in ix (Permutation_sym (Permutation_map fst Pm))). rewrite E, map_app, in_app_iff. tauto. }
    assert (Nm : NoDup (map fst (m1 ++ (ix, x) :: m2))).
    { rewrite EL in Nk. rewrite map_app in *. cbn [map fst] in *. apply NoDup_remove in Nk. destruct Nk as [Nk _].
      apply (Permutation_NoDup (Permutation_middle _ _ _)). constructor; assumption. }
    rewrite (pos_perm (m1 ++ (ix, x) :: m2) (l1 ++ (ix, x) :: l2)).
    - destruct (pos rsd (m1 ++ (ix, x) :: m2)) as [v| |]; try reflexivity. cbn [bind]. do 2 f_equal. clear v H.
      rewrite (par_front (ix, x) m1) by (rewrite in_app_iff in Kx; tauto). rewrite (par_front (ix, x) l1) by exact Kx'. rewrite EL, E.
      assert (Na : ~ In (fst a) (map fst m1)). { rewrite EL, map_app in Nk. cbn [map] in Nk. apply NoDup_remove in Nk. rewrite in_app_iff in Nk. tauto. }
      assert (Na' : ~ In (fst a) (map fst l1)). { rewrite E, map_app in Np. cbn [map] in Np. apply NoDup_remove in Np. rewrite in_app_iff in Np. tauto. }
      rewrite (par_front a m1), (par_front a l1) by assumption. rewrite !par_cons. cbn [fst]. rewrite (nlt_perm ix _ _ Pr), (nlt_perm (fst a) _ _ Pr).
      destruct (Nat.odd (length m1)), (Nat.odd (length l1)), (Nat.odd (nlt ix _)), (Nat.odd (nlt (fst a) _)), (par (m1 ++ m2)), (par (l1 ++ l2)); reflexivity.
    - exact Nm.
    - rewrite <- !Permutation_middle. constructor. exact Pr.
    - rewrite EL, app_length in Hn. rewrite app_length. exact Hn.
  Qed.
  Lemma intest_perm L L' x ix : length L = n -> NoDup (ix :: map fst L) -> Permutation L L' -> intest L x ix = intest L' x ix.
  Proof.
    intros Hn N Pm. assert (Hn' : length L' = n) by (rewrite <- (Permutation_length Pm); exact Hn).
    assert (N' : NoDup (ix :: map fst L')). { inversion N as [|? ? N1 N2]; subst. constructor; [|eapply nodup_perm; eauto]. intros J. apply N1. apply (Permutation_in ix (Permutation_sym (Permutation_map fst Pm))). exact J. }
    destruct (intest_spec L x ix Hn) as (b & -> & I), (intest_spec L' x ix Hn') as (b' & -> & I'). f_equal.
    assert (b = true <-> b' = true). { rewrite I, I'. split; intros H; [eapply intest_half with (3 := Pm)|eapply intest_half with (3 := Permutation_sym Pm)]; eauto. }
    destruct b, b'; intuition congruence.
  Qed.
End InSimplex.
