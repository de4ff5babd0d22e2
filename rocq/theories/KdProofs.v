From Verif Require Import Base UnionFind NdArray Kd KdSpec.
From Coq Require Import QArith Permutation Lqa.
Local Open Scope nat_scope. Local Open Scope list_scope.

Lemma qltb_lt x y : qltb x y = true <-> (x < y)%Q.
Proof.
  unfold qltb. rewrite negb_true_iff. split.
  - intros E. apply Qnot_le_lt. intros L. apply Qle_bool_iff in L. congruence.
  - intros L. destruct (Qle_bool y x) eqn:E; [|reflexivity]. apply Qle_bool_iff in E. exfalso. apply (Qlt_not_le _ _ L E).
Qed.
Lemma qltb_ge x y : qltb x y = false <-> (y <= x)%Q.
Proof. unfold qltb. rewrite negb_false_iff. apply Qle_bool_iff. Qed.
Lemma firstn_length_le' {A} (l : list A) k : k <= length l -> length (firstn k l) = k.
Proof. apply firstn_length_le. Qed.

Section D.
  Context (rnd : Q -> Q) (R : rounding rnd).
  Lemma r_mono x y : (x <= y)%Q -> (rnd x <= rnd y)%Q. Proof. apply R. Qed.
  Lemma r_idem x : (rnd (rnd x) == rnd x)%Q. Proof. apply R. Qed.
  Lemma r_0 : (rnd 0 == 0)%Q. Proof. apply R. Qed.
  Lemma r_nn x : (0 <= x)%Q -> (0 <= rnd x)%Q. Proof. intros L. rewrite <- r_0. apply r_mono, L. Qed.
  Lemma r_np x : (x <= 0)%Q -> (rnd x <= 0)%Q. Proof. intros L. rewrite <- r_0. apply r_mono, L. Qed.
  Lemma sq_nn (x : Q) : (0 <= x * x)%Q. Proof. nra. Qed.
  Definition repr (x : Q) : Prop := (rnd x == x)%Q.
  Lemma repr_r x : repr (rnd x). Proof. apply r_idem. Qed.
  Lemma r_ge x y : repr x -> (x <= y)%Q -> (x <= rnd y)%Q.
  Proof. intros E L. unfold repr in E. rewrite <- E. apply r_mono, L. Qed.
  Lemma repr_0 : repr 0. Proof. apply r_0. Qed.
  Lemma dist2_from_ge x y : forall m k dist, repr dist -> (0 <= dist)%Q ->
    (dist <= dist2_from rnd x y k m dist)%Q /\
    forall a, k <= a < k + m -> (rnd (rnd (x a - y a) * rnd (x a - y a)) <= dist2_from rnd x y k m dist)%Q.
  Proof.
    induction m as [|m IH]; intros k dist E D; cbn [dist2_from]; [split; [apply Qle_refl|lia]|].
    set (d := rnd (x k - y k)%Q). assert (N : (0 <= rnd (d * d))%Q) by apply r_nn, sq_nn.
    destruct (IH (1 + k) (rnd (dist + rnd (d * d)))) as [A B]; [apply repr_r|apply r_nn; lra|].
    split.
    - eapply Qle_trans; [|exact A]. apply r_ge; [exact E|lra].
    - intros a Ha. destruct (Nat.eq_dec a k) as [->|Ne].
      + fold d. eapply Qle_trans; [|exact A]. apply r_ge; [apply repr_r|lra].
      + apply B. lia.
  Qed.
  (** crossing the splitting plane *)
  Lemma cross_right (x m q : Q) : (x <= m)%Q -> (m <= q)%Q -> (rnd (rnd (x - m) * rnd (x - m)) <= rnd (rnd (x - q) * rnd (x - q)))%Q.
  Proof.
    intros A B. apply r_mono. assert (rnd (x - q) <= rnd (x - m))%Q by (apply r_mono; lra). assert (rnd (x - m) <= 0)%Q by (apply r_np; lra). nra.
  Qed.
  Lemma cross_left (x m q : Q) : (m <= x)%Q -> (q <= m)%Q -> (rnd (rnd (x - m) * rnd (x - m)) <= rnd (rnd (x - q) * rnd (x - q)))%Q.
  Proof.
    intros A B. apply r_mono. assert (rnd (x - m) <= rnd (x - q))%Q by (apply r_mono; lra). assert (0 <= rnd (x - m))%Q by (apply r_nn; lra). nra.
  Qed.
End D.

Section P.
  Context (rnd : Q -> Q) (n : nat) (pts : list (nat -> Q)) (ne : nat -> nat -> list nat -> list nat).
  Context (Hn : 0 < n).
  Notation N := (length pts).
  Notation coord := (coord pts).
  Context (Hne : forall level offset seg, (forall i, In i seg -> i < N) -> nth_element_ok pts (level mod n) (length seg / 2) seg (ne level offset seg)).

  (** [kdt d t ids]: [t], at depth [d], is a search tree over [ids]; [lim]: the level limit *)
  Inductive kdt (lim : nat) : nat -> node -> list nat -> Prop :=
  | kdt_leaf d i o s ids : In i ids -> (forall j, In j ids -> j < N) -> (lim <= d \/ ids = [i]) -> kdt lim d (Node i o s None None) ids
  | kdt_node d i o s l r idl idr ids : d < lim -> In i idr ->
      kdt lim (1 + d) l idl -> kdt lim (1 + d) r idr -> (forall j, In j ids <-> In j idl \/ In j idr) -> length ids = length idl + length idr -> length idl = length ids / 2 -> 2 <= length ids ->
      (forall j, In j idl -> (coord j (d mod n) <= coord i (d mod n))%Q) ->
      (forall j, In j idr -> (coord i (d mod n) <= coord j (d mod n))%Q) -> kdt lim d (Node i o s (Some l) (Some r)) ids.
  Lemma kdt_perm lim d t ids ids' : Permutation ids ids' -> kdt lim d t ids -> kdt lim d t ids'.
  Proof.
    intros Pm T. assert (M : forall j, In j ids' <-> In j ids) by (intros j; split; apply Permutation_in; [symmetry|]; exact Pm).
    inversion T; subst.
    - apply kdt_leaf; [apply M; assumption|intros j J; apply M in J; auto|]. destruct H1 as [H1|H1]; [left; exact H1|right]. subst. apply Permutation_length_1_inv in Pm. congruence.
    - assert (L := Permutation_length Pm). eapply kdt_node; try eassumption; rewrite <- ?L; try assumption. intros j. rewrite M. apply H3.
  Qed.
  Lemma kdt_bound lim d t ids : kdt lim d t ids -> In (node_id t) ids /\ forall j, In j ids -> j < N.
  Proof.
    intros T. induction T as [d i o s ids A B C|d i o s l r idl idr ids D I Tl IHl Tr IHr E L L2 L3 A B]; cbn; [auto|].
    split; [apply E; auto|]. intros j J. apply E in J. destruct J as [J|J]; [apply IHl|apply IHr]; exact J.
  Qed.

  Lemma skipn_app_len {A} (a b : list A) k : length a = k -> skipn k (a ++ b) = b.
  Proof. intros <-. rewrite skipn_app, skipn_all, Nat.sub_diag. reflexivity. Qed.
  Lemma firstn_app_len {A} (a b : list A) k : length a = k -> firstn k (a ++ b) = a.
  Proof. intros <-. rewrite firstn_app, firstn_all, Nat.sub_diag, app_nil_r. reflexivity. Qed.
  (** [build_rec] on [pre ++ seg ++ post] *)
  Lemma build_rec_ok lim : forall fuel level pre seg post, 1 <= length seg <= fuel -> (forall i, In i seg -> i < N) ->
    exists t seg', build_rec ne fuel lim level (length pre) (length seg) (pre ++ seg ++ post) = Ok (t, pre ++ seg' ++ post) /\ Permutation seg seg' /\ kdt lim level t seg'.
  Proof.
    induction fuel as [|fuel IH]; intros level pre seg post [L1 L2] B; [lia|]. cbn [build_rec].
    assert (E1 : firstn (length pre) (pre ++ seg ++ post) = pre) by (apply firstn_app_len; reflexivity).
    assert (E2 : firstn (length seg) (skipn (length pre) (pre ++ seg ++ post)) = seg) by (rewrite skipn_app_len by reflexivity; apply firstn_app_len; reflexivity).
    assert (E3 : skipn (length pre + length seg) (pre ++ seg ++ post) = post) by (rewrite app_assoc; apply skipn_app_len; rewrite app_length; reflexivity).
    rewrite E1, E2, E3. clear E1 E2 E3.
    destruct (Hne level (length pre) seg B) as [Pm Md]. set (out := ne level (length pre) seg) in *. set (k := length seg / 2) in *.
    assert (Lo : length out = length seg) by (symmetry; apply Permutation_length, Pm).
    assert (Hk : k < length seg) by (apply Nat.div_lt; lia).
    assert (Bo : forall i, In i out -> i < N) by (intros i J; apply B; eapply Permutation_in; [symmetry; exact Pm|exact J]).
    rewrite nth_error_app2 by lia. replace (length pre + k - length pre) with k by lia. rewrite nth_error_app1 by lia.
    destruct (nth_error out k) as [id|] eqn:Eid; [|apply nth_error_None in Eid; lia]. specialize (Md _ eq_refl). destruct Md as [Ml Mr].
    assert (Iid : In id out) by (eapply nth_error_In; exact Eid).
    destruct ((level <? lim) && (1 <? length seg)) eqn:C.
    - apply andb_true_iff in C. destruct C as [C1 C2]. apply Nat.ltb_lt in C1, C2.
      assert (K1 : 1 <= k) by (unfold k; apply (Nat.div_le_lower_bound); lia).
      assert (K2 : length seg - k <= fuel) by lia.
      assert (Lf : length (firstn k out) = k) by (apply firstn_length_le; lia).
      assert (Ls : length (skipn k out) = length seg - k) by (rewrite skipn_length; lia).
      assert (Sp : out = firstn k out ++ skipn k out) by (symmetry; apply firstn_skipn).
      destruct (IH (1 + level) pre (firstn k out) (skipn k out ++ post)) as (l & sl & E & Pl & Tl); [lia|intros i J; apply Bo; rewrite Sp; apply in_or_app; auto|].
      rewrite Lf in E. rewrite (app_assoc (firstn k out)), <- Sp in E. rewrite E. cbn [bind]. clear E.
      assert (Lsl : length sl = k) by (rewrite <- Lf; symmetry; apply Permutation_length, Pl).
      destruct (IH (1 + level) (pre ++ sl) (skipn k out) post) as (r & sr & E & Pr & Tr); [lia|intros i J; apply Bo; rewrite Sp; apply in_or_app; auto|].
      rewrite app_length, Lsl, Ls in E. rewrite <- !app_assoc in E. rewrite E. cbn [bind]. clear E.
      exists (Node id (length pre) (length seg) (Some l) (Some r)), (sl ++ sr). rewrite <- !app_assoc. split; [reflexivity|].
      assert (P2 : Permutation seg (sl ++ sr)) by (rewrite Pm; rewrite Sp at 1; apply Permutation_app; assumption).
      split; [exact P2|]. assert (Lsr : length sr = length seg - k) by (rewrite <- Ls; symmetry; apply Permutation_length, Pr).
      apply kdt_node with (idl := sl) (idr := sr); try assumption.
      + eapply Permutation_in; [exact Pr|]. destruct (nth_error_split _ _ Eid) as (a & b & Eo & La). rewrite Eo. rewrite <- La. rewrite skipn_app_len by reflexivity. left; reflexivity.
      + intros j. rewrite in_app_iff. reflexivity.
      + apply app_length.
      + rewrite app_length, Lsl, Lsr. unfold k. f_equal. unfold k in *. lia.
      + rewrite app_length. lia.
      + intros j J. apply Ml. eapply Permutation_in; [symmetry; exact Pl|exact J].
      + intros j J. apply Mr. eapply Permutation_in; [symmetry; exact Pr|exact J].
    - exists (Node id (length pre) (length seg) None None), out. split; [reflexivity|]. split; [exact Pm|]. apply kdt_leaf; [exact Iid|exact Bo|].
      apply andb_false_iff in C. destruct C as [C|C]; apply Nat.ltb_ge in C; [left; exact C|right].
      destruct out as [|a [|b out']]; cbn in Lo; try lia. destruct Iid as [<-|[]]. reflexivity.
  Qed.
  Lemma build_ok lim : pts <> [] -> exists t ids, build pts ne lim = Ok t /\ Permutation (seq 0 N) ids /\ kdt lim 0 t ids.
  Proof.
    intros NE. destruct (build_rec_ok lim (1 + N) 0 [] (seq 0 N) []) as (t & ids & E & Pm & T).
    - rewrite seq_length. destruct pts; [congruence|]; cbn; lia.
    - intros i J. apply in_seq in J. lia.
    - rewrite seq_length, app_nil_r in E. cbn [length app] in E. exists t, ids. split; [|auto]. unfold build. destruct pts; [congruence|]. cbn [length] in *. rewrite E. reflexivity.
  Qed.
  (** enough levels: every leaf is a single point *)
  Definition full (lim d : nat) (t : node) (ids : list nat) : Prop := kdt lim d t ids /\ length ids <= 2 ^ (lim - d).

  Context (R : rounding rnd).
  Definition dst (x : nat -> Q) (i : nat) : Q := match nth_error pts i with Some p => dist2 rnd n x p | None => 0%Q end.
  Lemma pt_ok i : i < N -> exists p, pt pts i = Ok p /\ nth_error pts i = Some p.
  Proof. intros L. unfold pt. destruct (nth_error pts i) as [p|] eqn:E; [eauto|]. apply nth_error_None in E. lia. Qed.
  Lemma closest_ok x a t : (forall c, a = Some c -> node_id c < N) -> node_id t < N ->
    exists c, closest rnd n pts x a (Some t) = Ok (Some c) /\ (a = Some c \/ c = t) /\ (dst x (node_id c) <= dst x (node_id t))%Q /\ (forall b, a = Some b -> (dst x (node_id c) <= dst x (node_id b))%Q).
  Proof.
    intros Ha Ht. unfold closest. destruct a as [c|].
    - destruct (pt_ok _ (Ha c eq_refl)) as (p & -> & E1). destruct (pt_ok _ Ht) as (q & -> & E2). cbn [bind].
      assert (D1 : dst x (node_id c) = dist2 rnd n x p) by (unfold dst; rewrite E1; reflexivity).
      assert (D2 : dst x (node_id t) = dist2 rnd n x q) by (unfold dst; rewrite E2; reflexivity).
      destruct (qltb (dist2 rnd n x p) (dist2 rnd n x q)) eqn:B.
      + apply qltb_lt in B. exists c. split; [reflexivity|]. split; [auto|]. rewrite D1, D2. split; [apply Qlt_le_weak, B|]. intros b [= <-]. rewrite D1. apply Qle_refl.
      + apply qltb_ge in B. exists t. split; [reflexivity|]. split; [auto|]. split; [apply Qle_refl|]. intros b [= <-]. rewrite D1, D2. exact B.
    - exists t. split; [reflexivity|]. split; [auto|]. split; [apply Qle_refl|discriminate].
  Qed.
  Lemma coord_dist x j (p : Q) a : j < N -> a < n ->
    ((x a <= p /\ p <= coord j a)%Q \/ (p <= x a /\ coord j a <= p)%Q) -> (rnd (rnd (x a - p) * rnd (x a - p)) <= dst x j)%Q.
  Proof.
    intros L A C. unfold dst. destruct (nth_error pts j) as [q|] eqn:E; [|apply nth_error_None in E; lia].
    assert (Cq : coord j a = q a) by (unfold KdSpec.coord; rewrite E; reflexivity). rewrite Cq in C.
    destruct (dist2_from_ge rnd R x q n 0 0%Q (repr_0 rnd R) (Qle_refl _)) as [_ G]. specialize (G a ltac:(lia)).
    unfold dist2. destruct C as [[C1 C2]|[C1 C2]]; (eapply Qle_trans; [|exact G]).
    - apply cross_right; assumption.
    - apply cross_left; assumption.
  Qed.
  Lemma half_pow m d lim : d < lim -> m <= 2 ^ (lim - d) -> m / 2 <= 2 ^ (lim - (1 + d)) /\ m - m / 2 <= 2 ^ (lim - (1 + d)).
  Proof.
    intros L H. replace (lim - d) with (1 + (lim - (1 + d))) in H by lia. rewrite Nat.pow_add_r, Nat.pow_1_r in H. set (w := 2 ^ (lim - (1 + d))) in *. clearbody w.
    assert (D := Nat.div_mod m 2 ltac:(lia)). assert (M := Nat.mod_upper_bound m 2 ltac:(lia)). lia.
  Qed.
  Lemma nearest_rec_ok lim x : forall t d ids, kdt lim d t ids -> length ids <= 2 ^ (lim - d) ->
    exists c, nearest_rec rnd n pts t x d = Ok c /\ In (node_id c) ids /\ forall j, In j ids -> (dst x (node_id c) <= dst x j)%Q.
  Proof.
    intros t d ids T. induction T as [d i o s ids A B C|d i o s l r idl idr ids D I Tl IHl Tr IHr E L L2 L3 Al Ar]; intros F.
    - assert (C' : ids = [i]).
      { destruct C as [C|C]; [|exact C]. replace (lim - d) with 0 in F by lia. cbn in F. destruct ids as [|a [|b ids]]; cbn in F; try lia; [destruct A|]. destruct A as [<-|[]]. reflexivity. }
      subst ids. assert (Li : i < N) by (apply B; left; reflexivity). destruct (pt_ok i Li) as (p & Ep & _). cbn [nearest_rec]. rewrite Ep. cbn [bind].
      replace (if qltb (x (d mod n)) (p (d mod n)) then None else None) with (@None node) by (destruct (qltb _ _); reflexivity). cbn [bind closest node_id]. rewrite Ep. cbn [bind].
      exists (Node i o s None None). split; [destruct (Qle_bool _ _); reflexivity|]. split; [left; reflexivity|]. intros j [<-|[]]. apply Qle_refl.
    - destruct (half_pow _ _ _ D F) as [F1 F2].
      destruct IHl as (cl & El & Il & Ml); [lia|]. destruct IHr as (cr & Er & Ir & Mr); [lia|].
      destruct (kdt_bound _ _ _ _ Tl) as [_ Bl]. destruct (kdt_bound _ _ _ _ Tr) as [_ Br].
      assert (Li : i < N) by (apply Br, I). destruct (pt_ok i Li) as (p & Ep & Np).
      assert (Hm : d mod n < n) by (apply Nat.mod_upper_bound; lia).
      assert (Cp : coord i (d mod n) = p (d mod n)) by (unfold KdSpec.coord; rewrite Np; reflexivity). rewrite Cp in Al, Ar.
      cbn [nearest_rec]. rewrite Ep. cbn [bind]. set (t := Node i o s (Some l) (Some r)) in *.
      destruct (qltb (x (d mod n)) (p (d mod n))) eqn:Q.
      + apply qltb_lt in Q. rewrite El. cbn [bind].
        destruct (closest_ok x (Some cl) t) as (b & Eb & Ob & Lb & Lb'); [intros c [= <-]; apply Bl, Il|exact Li|]. rewrite Eb. cbn [bind].
        assert (Ib : In (node_id b) ids) by (apply E; destruct Ob as [[= <-]| ->]; [auto|right; exact I]).
        assert (Nb : node_id b < N) by (apply E in Ib; destruct Ib; auto).
        destruct (pt_ok _ Nb) as (pb & Epb & Npb). rewrite Epb. cbn [bind]. assert (Db : dst x (node_id b) = dist2 rnd n x pb) by (unfold dst; rewrite Npb; reflexivity). rewrite <- Db.
        destruct (Qle_bool _ (dst x (node_id b))) eqn:Qb.
        * rewrite Er. cbn [bind]. destruct (closest_ok x (Some cr) b) as (c & Ec & Oc & Lc & Lc'); [intros c [= <-]; apply Br, Ir|exact Nb|]. rewrite Ec. cbn [bind]. exists c. split; [reflexivity|].
          split; [destruct Oc as [[= <-]| ->]; [apply E; auto|exact Ib]|]. intros j J. apply E in J. destruct J as [J|J].
          -- eapply Qle_trans; [exact Lc|]. eapply Qle_trans; [apply Lb'; reflexivity|]. apply Ml, J.
          -- eapply Qle_trans; [apply Lc'; reflexivity|]. apply Mr, J.
        * exists b. split; [reflexivity|]. split; [exact Ib|]. intros j J. apply E in J. destruct J as [J|J].
          -- eapply Qle_trans; [apply Lb'; reflexivity|]. apply Ml, J.
          -- assert (X : (rnd (rnd (x (d mod n) - p (d mod n)) * rnd (x (d mod n) - p (d mod n))) <= dst x j)%Q).
             { apply coord_dist; [apply Br, J|exact Hm|]. left. split; [apply Qlt_le_weak, Q|apply Ar, J]. }
             eapply Qle_trans; [|exact X]. apply Qlt_le_weak, Qnot_le_lt. intros Y. apply Qle_bool_iff in Y. congruence.
      + apply qltb_ge in Q. rewrite Er. cbn [bind].
        destruct (closest_ok x (Some cr) t) as (b & Eb & Ob & Lb & Lb'); [intros c [= <-]; apply Br, Ir|exact Li|]. rewrite Eb. cbn [bind].
        assert (Ib : In (node_id b) ids) by (apply E; destruct Ob as [[= <-]| ->]; [auto|right; exact I]).
        assert (Nb : node_id b < N) by (apply E in Ib; destruct Ib; auto).
        destruct (pt_ok _ Nb) as (pb & Epb & Npb). rewrite Epb. cbn [bind]. assert (Db : dst x (node_id b) = dist2 rnd n x pb) by (unfold dst; rewrite Npb; reflexivity). rewrite <- Db.
        destruct (Qle_bool _ (dst x (node_id b))) eqn:Qb.
        * rewrite El. cbn [bind]. destruct (closest_ok x (Some cl) b) as (c & Ec & Oc & Lc & Lc'); [intros c [= <-]; apply Bl, Il|exact Nb|]. rewrite Ec. cbn [bind]. exists c. split; [reflexivity|].
          split; [destruct Oc as [[= <-]| ->]; [apply E; auto|exact Ib]|]. intros j J. apply E in J. destruct J as [J|J].
          -- eapply Qle_trans; [apply Lc'; reflexivity|]. apply Ml, J.
          -- eapply Qle_trans; [exact Lc|]. eapply Qle_trans; [apply Lb'; reflexivity|]. apply Mr, J.
        * exists b. split; [reflexivity|]. split; [exact Ib|]. intros j J. apply E in J. destruct J as [J|J].
          -- assert (X : (rnd (rnd (x (d mod n) - p (d mod n)) * rnd (x (d mod n) - p (d mod n))) <= dst x j)%Q).
             { apply coord_dist; [apply Bl, J|exact Hm|]. right. split; [exact Q|apply Al, J]. }
             eapply Qle_trans; [|exact X]. apply Qlt_le_weak, Qnot_le_lt. intros Y. apply Qle_bool_iff in Y. congruence.
          -- eapply Qle_trans; [apply Lb'; reflexivity|]. apply Mr, J.
  Qed.
  Lemma dst_minimal x i : i < N -> (forall j, j < N -> (dst x i <= dst x j)%Q) -> minimal (dist2 rnd n x) pts i.
  Proof.
    intros L M. destruct (nth_error pts i) as [p|] eqn:E; [|apply nth_error_None in E; lia]. exists p. split; [exact E|].
    intros q J. destruct (In_nth_error _ _ J) as (j & Ej). assert (Lj : j < N) by (apply nth_error_Some; congruence). specialize (M j Lj). unfold dst in M. rewrite E, Ej in M. exact M.
  Qed.
  Lemma find_nearest_ok lim t x : N <= 2 ^ lim -> build pts ne lim = Ok t -> exists i, find_nearest rnd n pts t x = Ok i /\ minimal (dist2 rnd n x) pts i.
  Proof.
    intros L B. assert (NE : pts <> []) by (intros Z; unfold build in B; rewrite Z in B; discriminate).
    destruct (build_ok lim NE) as (t' & ids & E & Pm & T). assert (t' = t) as -> by congruence.
    assert (M : forall j, In j ids <-> j < N) by (intros j; rewrite <- (Permutation_in' (eq_refl j) Pm), in_seq; lia).
    destruct (nearest_rec_ok lim x t 0 ids T) as (c & Ec & Ic & Mc); [rewrite <- (Permutation_length Pm), seq_length, Nat.sub_0_r; exact L|].
    exists (node_id c). apply M in Ic. split.
    - unfold find_nearest. rewrite Ec. cbn [bind]. rewrite (proj2 (Nat.ltb_lt _ _) Ic). reflexivity.
    - apply dst_minimal; [exact Ic|]. intros j J. apply Mc, M, J.
  Qed.
  (** [find_leaf]: the leaf of an input point whose coordinates are shared with no other point *)
  Lemma leaf_rec_ok lim k p : (forall j a, j < N -> a < n -> (coord j a == coord k a)%Q -> j = k) -> nth_error pts k = Some p ->
    forall t d ids, kdt lim d t ids -> length ids <= 2 ^ (lim - d) -> In k ids -> exists c, leaf_rec n pts t p d = Ok c /\ is_leaf c = true /\ node_id c = k.
  Proof.
    intros Dis Ek t d ids T. induction T as [d i o s ids A B C|d i o s l r idl idr ids D I Tl IHl Tr IHr E L L2 L3 Al Ar]; intros F K.
    - exists (Node i o s None None). split; [reflexivity|]. split; [reflexivity|]. destruct C as [C| ->]; [|destruct K as [K|[]]; exact K].
      replace (lim - d) with 0 in F by lia. cbn in F. destruct ids as [|a [|b ids]]; cbn in F; try lia; [destruct A|]. destruct A as [<-|[]], K as [<-|[]]. reflexivity.
    - destruct (half_pow _ _ _ D F) as [F1 F2].
      destruct (kdt_bound _ _ _ _ Tl) as [_ Bl]. destruct (kdt_bound _ _ _ _ Tr) as [_ Br]. assert (Li : i < N) by (apply Br, I). destruct (pt_ok i Li) as (q & Eq & Nq).
      assert (Hm : d mod n < n) by (apply Nat.mod_upper_bound; lia).
      assert (Ci : coord i (d mod n) = q (d mod n)) by (unfold KdSpec.coord; rewrite Nq; reflexivity). assert (Ck : coord k (d mod n) = p (d mod n)) by (unfold KdSpec.coord; rewrite Ek; reflexivity).
      cbn [leaf_rec is_leaf]. rewrite Eq. cbn [bind]. destruct (qltb (p (d mod n)) (q (d mod n))) eqn:Q.
      + apply qltb_lt in Q. apply IHl; [lia|]. apply E in K. destruct K as [K|K]; [exact K|]. exfalso. apply Ar in K. rewrite Ci, Ck in K. apply (Qlt_not_le _ _ Q K).
      + apply qltb_ge in Q. apply IHr; [lia|]. apply E in K. destruct K as [K|K]; [|exact K]. assert (i = k); [|subst; exact I]. apply (Dis i (d mod n) Li Hm). apply Al in K. rewrite Ci, Ck in *. apply Qle_antisym; assumption.
  Qed.
  Lemma find_leaf_ok lim t k p : N <= 2 ^ lim -> build pts ne lim = Ok t -> (forall j a, j < N -> a < n -> (coord j a == coord k a)%Q -> j = k) -> nth_error pts k = Some p ->
    exists c, leaf_rec n pts t p 0 = Ok c /\ is_leaf c = true /\ node_id c = k.
  Proof.
    intros L B Dis Ek. assert (NE : pts <> []) by (intros Z; unfold build in B; rewrite Z in B; discriminate).
    destruct (build_ok lim NE) as (t' & ids & E & Pm & T). assert (t' = t) as -> by congruence.
    eapply leaf_rec_ok; [exact Dis|exact Ek|exact T|rewrite <- (Permutation_length Pm), seq_length, Nat.sub_0_r; exact L|].
    eapply Permutation_in; [exact Pm|]. apply in_seq. assert (k < N) by (apply nth_error_Some; congruence). lia.
  Qed.
End P.

(** a valid outcome of nth_element always exists: sort *)
Fixpoint insert_by (f : nat -> Q) (i : nat) (l : list nat) : list nat :=
  match l with [] => [i] | j :: l' => if Qle_bool (f i) (f j) then i :: l else j :: insert_by f i l' end.
Fixpoint sort_by (f : nat -> Q) (l : list nat) : list nat := match l with [] => [] | i :: l => insert_by f i (sort_by f l) end.
Inductive sorted_by (f : nat -> Q) : list nat -> Prop :=
| sb_nil : sorted_by f []
| sb_cons i l : (forall j, In j l -> (f i <= f j)%Q) -> sorted_by f l -> sorted_by f (i :: l).
Lemma insert_perm f i l : Permutation (i :: l) (insert_by f i l).
Proof. induction l as [|j l IH]; cbn; [reflexivity|]. destruct (Qle_bool (f i) (f j)); [reflexivity|]. rewrite perm_swap. apply perm_skip, IH. Qed.
Lemma sort_perm f l : Permutation l (sort_by f l).
Proof. induction l as [|i l IH]; cbn; [constructor|]. rewrite <- insert_perm. apply perm_skip, IH. Qed.
Lemma insert_sorted f i l : sorted_by f l -> sorted_by f (insert_by f i l).
Proof.
  induction 1 as [|j l M Sl IH]; cbn; [constructor; [intros ? []|constructor]|]. destruct (Qle_bool (f i) (f j)) eqn:B.
  - apply Qle_bool_iff in B. constructor; [|constructor; assumption]. intros k [<-|K]; [exact B|]. eapply Qle_trans; [exact B|apply M, K].
  - constructor; [|exact IH]. intros k K. apply (Permutation_in _ (Permutation_sym (insert_perm f i l))) in K. destruct K as [<-|K]; [|apply M, K].
    apply Qlt_le_weak, Qnot_le_lt. intros Y. apply Qle_bool_iff in Y. congruence.
Qed.
Lemma sort_sorted f l : sorted_by f (sort_by f l).
Proof. induction l as [|i l IH]; cbn; [constructor|]. apply insert_sorted, IH. Qed.
Lemma sorted_split f : forall l k m, sorted_by f l -> nth_error l k = Some m -> (forall i, In i (firstn k l) -> (f i <= f m)%Q) /\ (forall i, In i (skipn k l) -> (f m <= f i)%Q).
Proof.
  induction l as [|a l IH]; intros k m Sl E; [destruct k; discriminate|]. inversion Sl; subst. destruct k as [|k]; cbn in E |- *.
  - injection E as <-. split; [intros ? []|]. intros i [<-|J]; [apply Qle_refl|auto].
  - destruct (IH k m) as [A B]; [assumption|exact E|]. split; [|exact B]. intros i [<-|J]; [|apply A, J]. apply H1. eapply nth_error_In; exact E.
Qed.
Definition sorting (n : nat) (pts : list (nat -> Q)) (level offset : nat) (seg : list nat) : list nat := sort_by (fun i => coord pts i (level mod n)) seg.
Lemma sorting_ok n pts level offset seg : nth_element_ok pts (level mod n) (length seg / 2) seg (sorting n pts level offset seg).
Proof. split; [apply sort_perm|]. intros m E. apply (sorted_split (fun i => coord pts i (level mod n))) with (k := length seg / 2); [apply sort_sorted|exact E]. Qed.

(** brute force *)
Section Naive.
  Context (rnd : Q -> Q) (n : nat) (fmax : Q).
  Lemma naive_from_ok x : forall (l pre : list (nat -> Q)) mi md,
    ((exists p, nth_error pre mi = Some p /\ md = dist2 rnd n x p /\ forall q, In q pre -> (dist2 rnd n x p <= dist2 rnd n x q)%Q) \/
     (mi = 0 /\ md = fmax /\ forall q, In q pre -> (fmax <= dist2 rnd n x q)%Q)) ->
    (forall q, In q (pre ++ l) -> (dist2 rnd n x q <= fmax)%Q) -> pre ++ l <> [] ->
    minimal (dist2 rnd n x) (pre ++ l) (naive_from rnd n x l (length pre) mi md).
  Proof.
    induction l as [|p l IH]; intros pre mi md I Hm NE; cbn [naive_from].
    - rewrite app_nil_r in *. destruct I as [(p & E & _ & M)|(-> & -> & M)]; [exists p; auto|]. destruct pre as [|p pre]; [congruence|]. exists p. split; [reflexivity|].
      intros q J. eapply Qle_trans; [apply Hm; left; reflexivity|]. apply M, J.
    - replace (pre ++ p :: l) with ((pre ++ [p]) ++ l) by (rewrite <- app_assoc; reflexivity). replace (1 + length pre) with (length (pre ++ [p])) by (rewrite app_length; cbn; lia).
      assert (Hm' : forall q, In q ((pre ++ [p]) ++ l) -> (dist2 rnd n x q <= fmax)%Q) by (rewrite <- app_assoc; exact Hm).
      destruct (qltb (dist2 rnd n x p) md) eqn:B.
      + apply qltb_lt in B. apply IH; [|exact Hm'|destruct pre; discriminate]. left. exists p. split; [rewrite nth_error_app2 by lia; rewrite Nat.sub_diag; reflexivity|]. split; [reflexivity|].
        intros q J. apply in_app_or in J. destruct J as [J|[<-|[]]]; [|apply Qle_refl]. apply Qlt_le_weak. eapply Qlt_le_trans; [exact B|]. destruct I as [(p' & E & -> & M)|(-> & -> & M)]; apply M, J.
      + apply qltb_ge in B. apply IH; [|exact Hm'|destruct pre; discriminate]. destruct I as [(p' & E & -> & M)|(-> & -> & M)].
        * left. exists p'. split; [rewrite nth_error_app1; [exact E|]; apply nth_error_Some; congruence|]. split; [reflexivity|]. intros q J. apply in_app_or in J. destruct J as [J|[<-|[]]]; [apply M, J|exact B].
        * right. split; [reflexivity|]. split; [reflexivity|]. intros q J. apply in_app_or in J. destruct J as [J|[<-|[]]]; [apply M, J|exact B].
  Qed.
  Lemma naive_ok (pts : list (nat -> Q)) x : pts <> [] -> (forall q, In q pts -> (dist2 rnd n x q <= fmax)%Q) -> minimal (dist2 rnd n x) pts (find_nearest_naive rnd n pts fmax x).
  Proof.
    intros NE H. unfold find_nearest_naive. apply (naive_from_ok x pts [] 0 fmax); [right|exact H|exact NE]. split; [reflexivity|]. split; [reflexivity|intros ? []].
  Qed.
End Naive.

(** exact arithmetic: [dist2] is the squared Euclidean distance *)
Lemma dist2_from_exact x y : forall m k d, (dist2_from id x y k m d == d + (euclid2 (k + m) x y - euclid2 k x y))%Q.
Proof.
  induction m as [|m IH]; intros k d; cbn [dist2_from].
  - rewrite Nat.add_0_r. ring.
  - rewrite IH. replace (k + Datatypes.S m) with (1 + k + m) by lia. unfold id. cbn [euclid2 Nat.add]. ring.
Qed.
Lemma dist2_exact n x y : (dist2 id n x y == euclid2 n x y)%Q.
Proof. unfold dist2. rewrite dist2_from_exact. cbn [Nat.add euclid2]. ring. Qed.
Lemma rounding_id : rounding id.
Proof. unfold rounding, id. split; [auto|]. split; reflexivity. Qed.
