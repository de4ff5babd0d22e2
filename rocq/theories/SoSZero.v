(** Geometry of the robust zero test: 0 or 2 facets (C26), exact test in general position (C27). *)
From Coq Require Import QArith Qminmax Lqa.
From Verif Require Import Base UnionFind NdArray SoS SoSSpec SoSEps SoSPerm.
Local Open Scope Q_scope.

(** number of the point with index [k] in the perturbation order (index -1 is the query point) *)
Definition rank (k : Z) : nat := Z.to_nat (k + 1).
Definition odetL1 (l : list Q) : Q := match l with [a; b] => odet1 a b | _ => 0 end.
Definition odetL2 (l : list (Q * Q)) : Q := match l with [a; b; c] => odet2 a b c | _ => 0 end.
Definition odetL3 (l : list (Q * Q * Q)) : Q := match l with [a; b; c; d] => odet3 a b c d | _ => 0 end.

Lemma qsgn_opp x : qsgn (- x) = (- qsgn x)%Z.
Proof. unfold qsgn. destruct x as [n d]. cbn. lia. Qed.

(** *** the sign of the perturbed determinant in the order in which the vertices are listed *)
Section Orient.
  Context {P R : Type} (rsd : list P -> res Z) (n : nat) (pert : Q -> nat -> P -> R) (odetL : list R -> Q).
  Definition pl (e : Q) (L : list (Z * P)) : list R := map (fun p => pert e (rank (fst p)) (snd p)) L.
  Context (Hflip : forall (l1 : list R) x y l2, length (l1 ++ x :: y :: l2) = n -> odetL (l1 ++ y :: x :: l2) == - odetL (l1 ++ x :: y :: l2)).
  Context (Hsos : forall L : list (Z * P), length L = n -> StronglySorted SoSPerm.klt L -> Forall (fun p => (-1 <= fst p)%Z) L ->
     exists e0, 0 < e0 /\ forall e, 0 < e -> e <= e0 -> rsd (map snd L) = Ok (qsgn (odetL (pl e L)))).
  Definition okl (L : list (Z * P)) : Prop := length L = n /\ NoDup (map fst L) /\ Forall (fun p => (-1 <= fst p)%Z) L.
  Lemma orient L : okl L -> exists e0, 0 < e0 /\ forall e, 0 < e -> e <= e0 -> pos rsd L = Ok (qsgn (odetL (pl e L))).
  Proof.
    intros (Hn & N & K). destruct (Hsos (gsort L)) as (e0 & He & H).
    - rewrite <- (Permutation_length (gsort_perm L)). exact Hn.
    - apply gsort_strict. exact N.
    - rewrite Forall_forall in *. intros p Hp. apply K. eapply Permutation_in; [symmetry; apply gsort_perm|exact Hp].
    - exists e0. split; [exact He|]. intros e E0 E1. rewrite pos_eq, (H e E0 E1). cbn [bind]. f_equal.
      rewrite (flip_sort (fun l => qsgn (odetL (pl e l))) n).
      + fold (par L). unfold sg. destruct (par L); lia.
      + intros l1 x y l2 Hl. unfold pl. rewrite !map_app. cbn [map]. rewrite <- qsgn_opp. apply qsgn_comp. apply Hflip.
        rewrite app_length in *. cbn [length] in *. rewrite !map_length. exact Hl.
      + exact Hn.
  Qed.
  Lemma orient_all LS : Forall okl LS -> exists e, 0 < e /\ Forall (fun L => pos rsd L = Ok (qsgn (odetL (pl e L)))) LS.
  Proof.
    intros F. assert (G : exists e0, 0 < e0 /\ forall e, 0 < e -> e <= e0 -> Forall (fun L => pos rsd L = Ok (qsgn (odetL (pl e L)))) LS).
    { induction F as [|L LS HL F (e1 & P1 & H1)]; [exists 1; split; [reflexivity|constructor]|]. destruct (orient L HL) as (e0 & P0 & H0).
      exists (Qmin e0 e1). split; [apply Q.min_glb_lt; assumption|]. intros e E0 E1. constructor; [apply H0|apply H1]; try assumption; (eapply Qle_trans; [exact E1|]); [apply Q.le_min_l|apply Q.le_min_r]. }
    destruct G as (e & E & H). exists e. split; [exact E|]. apply H; [exact E|apply Qle_refl].
  Qed.
End Orient.

Lemma odetL1_flip (l1 : list Q) x y l2 : length (l1 ++ x :: y :: l2) = 2%nat -> odetL1 (l1 ++ y :: x :: l2) == - odetL1 (l1 ++ x :: y :: l2).
Proof. destruct l1 as [|? [|? ?]]; destruct l2 as [|? ?]; cbn; try discriminate; try (rewrite ?app_length; cbn; lia). intros _. unfold odet1. ring. Qed.
Lemma odetL2_flip (l1 : list (Q * Q)) x y l2 : length (l1 ++ x :: y :: l2) = 3%nat -> odetL2 (l1 ++ y :: x :: l2) == - odetL2 (l1 ++ x :: y :: l2).
Proof.
  destruct l1 as [|? [|? ?]]; destruct l2 as [|? [|? ?]]; cbn; try discriminate; try (rewrite ?app_length; cbn; lia); intros _; unfold odet2; ring.
Qed.
Lemma odetL3_flip (l1 : list (Q * Q * Q)) x y l2 : length (l1 ++ x :: y :: l2) = 4%nat -> odetL3 (l1 ++ y :: x :: l2) == - odetL3 (l1 ++ x :: y :: l2).
Proof.
  destruct x as [[? ?] ?], y as [[? ?] ?].
  destruct l1 as [|[[? ?] ?] [|[[? ?] ?] [|? ?]]]; destruct l2 as [|[[? ?] ?] [|[[? ?] ?] [|? ?]]]; cbn; try discriminate; try (rewrite ?app_length; cbn; lia); intros _; unfold odet3, vdet3, vsub3; cbn [fst snd]; ring.
Qed.
Ltac ssinv S := repeat match type of S with StronglySorted _ (_ :: _) => let S' := fresh S in let F := fresh "F" in inversion S as [|? ? S' F]; subst; clear S; rename S' into S; rewrite Forall_forall in F end.
Lemma rank_lt a b : (-1 <= a)%Z -> (a < b)%Z -> (rank a < rank b)%nat.
Proof. unfold rank. lia. Qed.

Lemma sosL1 (L : list (Z * Z)) : length L = 2%nat -> StronglySorted SoSPerm.klt L -> Forall (fun p => (-1 <= fst p)%Z) L ->
  exists e0, 0 < e0 /\ forall e, 0 < e -> e <= e0 -> rsd2 (map snd L) = Ok (qsgn (odetL1 (pl pert1 e L))).
Proof.
  destruct L as [|[k0 a] [|[k1 b] [|? ?]]]; try discriminate. intros _ S K. rewrite Forall_forall in K.
  destruct (sos1 a b (rank k0) (rank k1)) as (e0 & H0 & H).
  - apply rank_lt; [apply (K (k0, a)); left; reflexivity|]. inversion S as [|? ? S1 F1]; subst. rewrite Forall_forall in F1. apply (F1 (k1, b)). left; reflexivity.
  - exists e0. split; [exact H0|]. intros e E0 E1. cbn. rewrite (H e E0 E1). reflexivity.
Qed.
Lemma sosL2 (L : list (Z * (Z * Z))) : length L = 3%nat -> StronglySorted SoSPerm.klt L -> Forall (fun p => (-1 <= fst p)%Z) L ->
  exists e0, 0 < e0 /\ forall e, 0 < e -> e <= e0 -> rsd3 (map snd L) = Ok (qsgn (odetL2 (pl pert2 e L))).
Proof.
  destruct L as [|[k0 a] [|[k1 b] [|[k2 c] [|? ?]]]]; try discriminate. intros _ S K. rewrite Forall_forall in K.
  inversion S as [|? ? S1 F1]; subst. inversion S1 as [|? ? S2 F2]; subst. rewrite Forall_forall in F1, F2.
  destruct (sos2 a b c (rank k0) (rank k1) (rank k2)) as (e0 & H0 & H).
  - apply rank_lt; [apply (K (k0, a)); cbn; auto|]. apply (F1 (k1, b)). cbn; auto.
  - apply rank_lt; [apply (K (k1, b)); cbn; auto|]. apply (F2 (k2, c)). cbn; auto.
  - exists e0. split; [exact H0|]. intros e E0 E1. cbn [map snd rsd3 pl fst odetL2]. rewrite (H e E0 E1). reflexivity.
Qed.
Lemma sosL3 (L : list (Z * (Z * Z * Z))) : length L = 4%nat -> StronglySorted SoSPerm.klt L -> Forall (fun p => (-1 <= fst p)%Z) L ->
  exists e0, 0 < e0 /\ forall e, 0 < e -> e <= e0 -> rsd4 (map snd L) = Ok (qsgn (odetL3 (pl pert3 e L))).
Proof.
  destruct L as [|[k0 a] [|[k1 b] [|[k2 c] [|[k3 d] [|? ?]]]]]; try discriminate. intros _ S K. rewrite Forall_forall in K.
  inversion S as [|? ? S1 F1]; subst. inversion S1 as [|? ? S2 F2]; subst. inversion S2 as [|? ? S3 F3]; subst. rewrite Forall_forall in F1, F2, F3.
  destruct (sos3 a b c d (rank k0) (rank k1) (rank k2) (rank k3)) as (e0 & H0 & H).
  - apply rank_lt; [apply (K (k0, a)); cbn; auto|]. apply (F1 (k1, b)). cbn; auto.
  - apply rank_lt; [apply (K (k1, b)); cbn; auto|]. apply (F2 (k2, c)). cbn; auto.
  - apply rank_lt; [apply (K (k2, c)); cbn; auto|]. apply (F3 (k3, d)). cbn; auto.
  - exists e0. split; [exact H0|]. intros e E0 E1. cbn [map snd rsd4 pl fst odetL3]. rewrite (H e E0 E1). reflexivity.
Qed.

Lemma rsd2_ok X : length X = 2%nat -> exists v, rsd2 X = Ok v /\ (v = 1 \/ v = -1)%Z.
Proof. destruct X as [|a [|b [|? ?]]]; try discriminate. intros _. eexists. split; [reflexivity|apply rsd2_unit]. Qed.
Lemma rsd3_ok X : length X = 3%nat -> exists v, rsd3 X = Ok v /\ (v = 1 \/ v = -1)%Z.
Proof. destruct X as [|a [|b [|c [|? ?]]]]; try discriminate. intros _. eexists. split; [reflexivity|apply rsd3_unit]. Qed.
Lemma rsd4_ok X : length X = 4%nat -> exists v, rsd4 X = Ok v /\ (v = 1 \/ v = -1)%Z.
Proof. destruct X as [|a [|b [|c [|d [|? ?]]]]]; try discriminate. intros _. eexists. split; [reflexivity|apply rsd4_unit]. Qed.

(** *** sign booleans *)
Definition pb (x : Q) : bool := (0 <? Qnum x)%Z.
Definition nz (x : Q) : Prop := Qnum x <> 0%Z.
Lemma nz_neq x : nz x <-> ~ x == 0.
Proof. unfold nz, Qeq. cbn. lia. Qed.
Lemma pb_spec x : nz x -> qsgn x = (if pb x then 1 else -1)%Z.
Proof. unfold nz, qsgn, pb. destruct (Z.ltb_spec 0 (Qnum x)); lia. Qed.
Lemma pb_lt x : pb x = true <-> 0 < x.
Proof. unfold pb, Qlt. cbn. rewrite Z.ltb_lt. lia. Qed.
Lemma pb_ge x : nz x -> pb x = false <-> x < 0.
Proof. unfold pb, Qlt, nz. cbn. rewrite Z.ltb_ge. lia. Qed.
Lemma pb_comp x y : x == y -> pb x = pb y.
Proof. intros E. destruct (pb y) eqn:B; [apply pb_lt in B; apply pb_lt; lra|]. destruct (pb x) eqn:B'; [|reflexivity]. apply pb_lt in B'. assert (pb y = true) by (apply pb_lt; lra). congruence. Qed.
Lemma pb_opp x : nz x -> pb (- x) = negb (pb x).
Proof. unfold pb, nz. destruct x as [n d]. cbn. intros H. destruct (Z.ltb_spec 0 (- n)), (Z.ltb_spec 0 n); cbn; lia. Qed.
Lemma pb_mul x y : nz x -> nz y -> pb (x * y) = Bool.eqb (pb x) (pb y).
Proof. unfold pb, nz. destruct x as [n d], y as [m c]. cbn. intros H G. destruct (Z.ltb_spec 0 (n * m)), (Z.ltb_spec 0 n), (Z.ltb_spec 0 m); cbn; try reflexivity; exfalso; nia. Qed.
Lemma nz_mul x y : nz x -> nz y -> nz (x * y).
Proof. unfold nz. destruct x, y. cbn. nia. Qed.
Lemma nz_opp x : nz x -> nz (- x).
Proof. unfold nz. destruct x. cbn. lia. Qed.
Lemma nz_comp x y : x == y -> nz x -> nz y.
Proof. rewrite !nz_neq. intros ->. auto. Qed.
Definition same3 (a b c : bool) : bool := Bool.eqb a b && Bool.eqb b c.
(** three non-zero numbers adding up to zero have not all the same sign *)
Lemma sum0 x y z : nz x -> nz y -> nz z -> x + y + z == 0 -> same3 (pb x) (pb y) (pb z) = false.
Proof.
  intros X Y Z E. destruct (pb x) eqn:A, (pb y) eqn:B, (pb z) eqn:C; try reflexivity; exfalso.
  - apply pb_lt in A, B, C. lra.
  - apply pb_ge in A, B, C; auto. lra.
Qed.
Lemma gp x1 y1 x2 y2 x3 y3 : nz x1 -> nz y1 -> nz x2 -> nz y2 -> nz x3 -> nz y3 -> x1 * y1 - x2 * y2 + x3 * y3 == 0 ->
  same3 (Bool.eqb (pb x1) (pb y1)) (negb (Bool.eqb (pb x2) (pb y2))) (Bool.eqb (pb x3) (pb y3)) = false.
Proof.
  intros A B C D E F G. rewrite <- !pb_mul by assumption. rewrite <- pb_opp by (apply nz_mul; assumption). apply sum0; try apply nz_opp; try apply nz_mul; try assumption.
Qed.
Lemma qsgn_pb x y : nz x -> nz y -> (qsgn x = qsgn y <-> pb x = pb y).
Proof. intros X Y. rewrite !pb_spec by assumption. destruct (pb x), (pb y); split; intros; try reflexivity; try congruence. Qed.
Lemma unit_nz x v : Ok v = Ok (qsgn x) -> (v = 1 \/ v = -1)%Z -> nz x.
Proof. intros E U. injection E as E. unfold qsgn in E. unfold nz. lia. Qed.

(** *** the test in terms of signs of determinants *)
Section Test.
  Context {P R : Type} (rsd : list P -> res Z) (n : nat) (pert : Q -> nat -> P -> R) (odetL : list R -> Q).
  Context (Hr : forall X, length X = n -> exists v, rsd X = Ok v /\ (v = 1 \/ v = -1)%Z).
  Definition good (e : Q) (L : list (Z * P)) : Prop := pos rsd L = Ok (qsgn (odetL (pl pert e L))).
  Lemma good_nz e L : length L = n -> good e L -> nz (odetL (pl pert e L)).
  Proof. intros Hn G. destruct (pos_ok rsd n Hr L Hn) as (v & V & U). unfold good in G. rewrite V in G. eapply unit_nz; eauto. Qed.
  Lemma good_eq e L L' : length L = n -> length L' = n -> good e L -> good e L' -> (pos rsd L = pos rsd L' <-> pb (odetL (pl pert e L)) = pb (odetL (pl pert e L'))).
  Proof.
    intros Hn Hn' G G'. rewrite <- qsgn_pb by (eapply good_nz; eauto). unfold good in *. rewrite G, G'. split; intros H; congruence.
  Qed.
  (** the lists whose orientation the test of [L] looks at *)
  Definition needed (z : Z * P) (L : list (Z * P)) : list (list (Z * P)) := L :: map (fun i => firstn i L ++ z :: skipn (S i) L) (seq 0 (length L)).
  Lemma intest_good e z L : length L = n -> Forall (good e) (needed z L) ->
    exists b, intest rsd L (snd z) (fst z) = Ok b /\
      (b = true <-> Forall (fun L' => pb (odetL (pl pert e L')) = pb (odetL (pl pert e L))) (tl (needed z L))).
  Proof.
    intros Hn G. destruct (intest_spec rsd n Hr L (snd z) (fst z) Hn) as (b & B & I). exists b. split; [exact B|]. rewrite I. destruct z as [k p]. cbn [fst snd] in *.
    unfold needed in *. cbn [tl]. assert (G0 := Forall_inv G); assert (G1 := Forall_inv_tail G). clear G. rewrite Forall_forall in *.
    assert (HL : forall i, (i < length L)%nat -> length (firstn i L ++ (k, p) :: skipn (S i) L) = length L).
    { intros i Hi. rewrite app_length. cbn [length]. rewrite firstn_length, skipn_length. lia. }
    split.
    - intros H L' HL'. apply in_map_iff in HL'. destruct HL' as (i & <- & Hi). apply in_seq in Hi. apply good_eq; [rewrite HL; [exact Hn|lia]|exact Hn|apply G1; apply in_map_iff; exists i; split; [reflexivity|apply in_seq; lia]|exact G0|].
      destruct (nth_error L i) as [a|] eqn:E; [|apply nth_error_None in E; lia]. apply nth_error_split in E. destruct E as (l1 & l2 & -> & <-).
      rewrite firstn_app, firstn_all, Nat.sub_diag, app_nil_r. replace (skipn (S (length l1)) (l1 ++ a :: l2)) with l2; [apply (H l1 a l2 eq_refl)|].
      rewrite skipn_app. replace (S (length l1) - length l1)%nat with 1%nat by lia. rewrite skipn_all2 by lia. reflexivity.
    - intros H l1 a l2 E. assert (Hi : (length l1 < length L)%nat) by (rewrite E, app_length; cbn; lia).
      assert (EE : firstn (length l1) L ++ (k, p) :: skipn (S (length l1)) L = l1 ++ (k, p) :: l2).
      { rewrite E, firstn_app, firstn_all, Nat.sub_diag, app_nil_r. rewrite skipn_app. replace (S (length l1) - length l1)%nat with 1%nat by lia. rewrite skipn_all2 by lia. reflexivity. }
      rewrite <- EE. assert (Im : In (firstn (length l1) L ++ (k, p) :: skipn (S (length l1)) L) (map (fun i => firstn i L ++ (k, p) :: skipn (S i) L) (seq 0 (length L)))).
      { apply in_map_iff. exists (length l1). split; [reflexivity|apply in_seq; lia]. }
      apply (good_eq e); [rewrite HL; [exact Hn|exact Hi]|exact Hn|apply G1; exact Im|exact G0|apply H; exact Im].
  Qed.
End Test.

Lemma skipn_S {A} : forall i (L : list A) a l2, skipn i L = a :: l2 -> skipn (S i) L = l2.
Proof. induction i as [|i IH]; intros [|x L] a l2 H; cbn in *; try discriminate; [congruence|]. apply (IH L a l2 H). Qed.
(** facets whose keys come from a list with distinct keys >= 0, together with the query key -1 *)
Lemma needed_okl {P} n (z : Z * P) (L : list (Z * P)) : fst z = (-1)%Z -> length L = n -> NoDup (map fst L) -> Forall (fun p => (0 <= fst p)%Z) L ->
  Forall (okl n) (needed z L).
Proof.
  intros Ez Hn N K. unfold needed. constructor.
  - split; [exact Hn|]. split; [exact N|]. eapply Forall_impl; [|exact K]. cbn. intros; lia.
  - apply Forall_forall. intros L' HL. apply in_map_iff in HL. destruct HL as (i & <- & Hi). apply in_seq in Hi.
    assert (Sp : L = firstn i L ++ skipn i L) by (symmetry; apply firstn_skipn). destruct (skipn i L) as [|a l2] eqn:E.
    { apply (f_equal (@length _)) in E. rewrite skipn_length in E. cbn in E. lia. }
    assert (E2 : skipn (S i) L = l2). { eapply skipn_S; exact E. }
    rewrite E2. set (l1 := firstn i L) in *. rewrite Sp in N, K, Hn. clearbody l1. clear E E2 Sp Hi.
    split; [rewrite app_length in *; exact Hn|]. rewrite map_app in *. cbn [map] in *. apply NoDup_remove in N. destruct N as [N _]. rewrite Forall_app in *. destruct K as [K1 K2]. inversion K2 as [|? ? _ K3]; subst. split.
    + apply (Permutation_NoDup (Permutation_middle _ _ _)). constructor; [|exact N]. rewrite in_app_iff, !in_map_iff. rewrite Forall_forall in K1, K3.
      intros [(p & E & Hp)|(p & E & Hp)]; [apply K1 in Hp|apply K3 in Hp]; lia.
    + split; [eapply Forall_impl; [|exact K1]; cbn; intros; lia|]. constructor; [lia|]. eapply Forall_impl; [|exact K3]. cbn. intros; lia.
Qed.
Lemma facets_ok {P} (L : list (Z * P)) f : In f (facets L) -> NoDup (map fst L) -> Forall (fun p => (0 <= fst p)%Z) L ->
  S (length f) = length L /\ NoDup (map fst f) /\ Forall (fun p => (0 <= fst p)%Z) f.
Proof.
  intros Hf N K. apply in_map_iff in Hf. destruct Hf as (i & <- & Hi). apply in_seq in Hi.
  assert (Sp : L = firstn i L ++ skipn i L) by (symmetry; apply firstn_skipn). destruct (skipn i L) as [|a l2] eqn:E.
  { apply (f_equal (@length _)) in E. rewrite skipn_length in E. cbn in E. lia. }
  assert (E2 : skipn (S i) L = l2). { eapply skipn_S; exact E. }
  rewrite E2. set (l1 := firstn i L) in *. rewrite Sp in N, K. assert (EL : length L = length (l1 ++ a :: l2)) by (rewrite Sp at 1; reflexivity). rewrite EL. clearbody l1. clear E E2 Sp Hi.
  rewrite map_app in *. cbn [map] in *. apply NoDup_remove in N. destruct N as [N _]. rewrite Forall_app in *. destruct K as [K1 K2]. inversion K2; subst.
  split; [rewrite !app_length; cbn; lia|]. auto.
Qed.
