(** C76: temporal filtering of a stream of arrays (StreamingFilter.v). *)
From Verif Require Import Base UnionFind StreamingFilter.
Local Open Scope Z_scope. Local Open Scope list_scope.

Section P.
  Context {T K : Type} (plus : T -> T -> T) (scale : K -> T -> T) (d : T).
  (** ** Specification *)
  (** the frame [t] of the stream [xs], where frames before the first and after the last one repeat these ([d]: never used if there is a frame) *)
  Definition frame (xs : list T) (t : Z) : T := nth (Z.to_nat (Z.max 0 (Z.min (Z.of_nat (length xs) - 1) t))) xs d.
  (** a_1 + a_2 + ..., from left to right *)
  Definition total (l : list T) : T := match l with [] => d | a :: l => fold_left plus l a end.
  (** the frame [t] smoothed by the kernel [ks], the middle weight of which belongs to the frame [t] itself *)
  Definition smoothed (ks : list K) (xs : list T) (t : Z) : T :=
    total (map (fun '(k, i) => scale k (frame xs (t + Z.of_nat i - Z.of_nat (length ks / 2)))) (combine ks (seq 0 (length ks)))).
  (** what the callback has to receive for the frames [0 .. n-1] *)
  Definition output (ks : list K) (xs : list T) (n : nat) : list (Z * T) := map (fun t => (Z.of_nat t, smoothed ks xs (Z.of_nat t))) (seq 0 n).

  (** ** Proofs *)
  Definition acc (g : nat -> T) (ks : list K) (i : nat) (r : option T) : option T :=
    fold_left (fun r '(k, i) => Some (match r with None => scale k (g i) | Some r => plus r (scale k (g i)) end)) (combine ks (seq i (length ks))) r.
  Lemma acc_total g ks : ks <> [] -> acc g ks 0 None = Some (total (map (fun '(k, i) => scale k (g i)) (combine ks (seq 0 (length ks))))).
  Proof.
    destruct ks as [|k ks]; [congruence|]. intros _. unfold acc. cbn [length seq combine fold_left map total].
    generalize (combine ks (seq 1 (length ks))) as l. generalize (scale k (g O)) as a. intros a l. revert a. induction l as [|[k' i] l IH]; intros a; [reflexivity|]. cbn [fold_left map]. apply IH.
  Qed.
  Lemma accumulate_spec s g : forall ks i r, (forall j, (i <= j < i + length ks)%nat -> 0 <= index s (Z.of_nat j) /\ nth_error (data s) (Z.to_nat (index s (Z.of_nat j))) = Some (g j)) ->
    accumulate plus scale s (Z.of_nat i) ks r = Ok (acc g ks i r).
  Proof.
    induction ks as [|k ks IH]; intros i r H; [reflexivity|]. cbn [accumulate]. destruct (H i) as [H1 H2]; [cbn; lia|].
    destruct (Z.ltb_spec (index s (Z.of_nat i)) 0); [lia|]. unfold vget. rewrite H2. cbn [bind of_option]. replace (Z.of_nat i + 1) with (Z.of_nat (S i)) by lia. rewrite IH; [|intros j Hj; apply H; cbn; lia].
    unfold acc. cbn [length seq combine fold_left]. reflexivity.
  Qed.
  Lemma nth_skipn (l : list T) : forall a j, nth_error (skipn a l) j = nth_error l (a + j).
  Proof. induction l as [|x l IH]; intros [|a'] j; cbn; auto. destruct j; reflexivity. Qed.
  Lemma skipn_skipn a : forall b (l : list T), skipn a (skipn b l) = skipn (a + b) l.
  Proof. induction b as [|b IH]; intros l; [rewrite Nat.add_0_r; reflexivity|]. rewrite Nat.add_succ_r. destruct l; [rewrite !skipn_nil; reflexivity|]. cbn [skipn]. apply IH. Qed.
  Lemma nth_some (l : list T) i : (i < length l)%nat -> nth_error l i = Some (nth i l d).
  Proof. intros H. apply nth_error_nth'. exact H. Qed.

  Section Run.
  Context (ks : list K) (h : nat) (Hk : length ks = (2 * h - 1)%nat) (Hh : (1 <= h)%nat).
  Lemma half (s : @sf T K) : kernel s = ks -> half_kernel_size s = Z.of_nat h.
  Proof. intros E. unfold half_kernel_size, kernel_size. rewrite E, Hk. replace (Z.of_nat (2 * h - 1) + 1) with (Z.of_nat h * 2) by lia. apply Z.div_mul. lia. Qed.
  Lemma mid : (length ks / 2 = h - 1)%nat.
  Proof. rewrite Hk. replace (2 * h - 1)%nat with (1 + (h - 1) * 2)%nat by lia. rewrite Nat.div_add by lia. reflexivity. Qed.
  Lemma output_succ xs n : output ks xs (S n) = output ks xs n ++ [(Z.of_nat n, smoothed ks xs (Z.of_nat n))].
  Proof. unfold output. rewrite seq_S, map_app. reflexivity. Qed.
  (** emitting the frame [t] *)
  Lemma emit_spec s xs t : kernel s = ks -> fetched s = Z.of_nat t -> calls s = output ks xs t ->
    (forall j, (j < length ks)%nat -> 0 <= index s (Z.of_nat j) /\ nth_error (data s) (Z.to_nat (index s (Z.of_nat j))) = Some (frame xs (Z.of_nat t + Z.of_nat j - Z.of_nat (h - 1)))) ->
    emit plus scale s = Ok (mksf ks (data s) (if finishing s then cursor s - 1 else cursor s + 1) (finishing s) (Z.of_nat (S t)) (output ks xs (S t))).
  Proof.
    intros E1 E2 E3 H. unfold emit. rewrite E1. change 0 with (Z.of_nat 0) at 1. rewrite (accumulate_spec s (fun j => frame xs (Z.of_nat t + Z.of_nat j - Z.of_nat (h - 1)))) by (intros j Hj; apply H; lia).
    cbn [bind]. rewrite acc_total by (destruct ks; [cbn in Hk; lia|discriminate]). cbn [of_option bind]. rewrite E2, E3, output_succ. unfold smoothed. rewrite mid. repeat f_equal. lia.
  Qed.
  (** after pushing the first [m] frames of [xs] *)
  Definition after (xs : list T) (m : nat) : @sf T K :=
    mksf ks (skipn (m - (2 * h - 1)) (firstn m xs)) (Z.of_nat (m + 1 - h) - Z.of_nat (m - (2 * h - 1))) false (Z.of_nat (m + 1 - h)) (output ks xs (m + 1 - h)).
  Lemma push_spec xs m x : nth_error xs m = Some x -> sf_push plus scale (after xs m) x = Ok (after xs (S m)).
  Proof.
    intros N. assert (L : (m < length xs)%nat) by (apply nth_error_Some; congruence).
    assert (F : firstn (S m) xs = firstn m xs ++ [x]). { rewrite <- (firstn_skipn m xs) in N at 1. rewrite nth_error_app2 in N by (rewrite firstn_length; lia). rewrite firstn_length, Nat.min_l, Nat.sub_diag in N by lia.
      destruct (skipn m xs) as [|y l] eqn:Q; [discriminate|]. injection N as <-. rewrite <- (firstn_skipn m xs) at 1. rewrite Q. rewrite firstn_app, firstn_length, Nat.min_l by lia. replace (S m - m)%nat with 1%nat by lia. rewrite firstn_firstn, Nat.min_r by lia. reflexivity. }
    assert (D : length (skipn (m - (2 * h - 1)) (firstn m xs)) = (m - (m - (2 * h - 1)))%nat) by (rewrite skipn_length, firstn_length; lia).
    evar (s : @sf T K). assert (P : sf_push plus scale (after xs m) x = if ready s then emit plus scale s else Ok s) by (unfold s, sf_push; cbv zeta; reflexivity). rewrite P. clear P.
    assert (Es : s = mksf ks (skipn (S m - (2 * h - 1)) (firstn (S m) xs)) (Z.of_nat (m + 1 - h) - Z.of_nat (S m - (2 * h - 1))) false (Z.of_nat (m + 1 - h)) (output ks xs (m + 1 - h))).
    { unfold s. cbn [after data kernel cursor finishing fetched calls]. rewrite app_length, D. cbn [length after data]. rewrite Hk, F. destruct (Nat.ltb_spec (2 * h - 1) (m - (m - (2 * h - 1)) + 1)).
      - f_equal; [|lia]. assert (E : (S m - (2 * h - 1) = S (m - (2 * h - 1)))%nat) by lia. rewrite E. rewrite skipn_app, firstn_length, Nat.min_l by lia. replace (S (m - (2 * h - 1)) - m)%nat with 0%nat by lia. change (skipn 0 [x]) with [x].
        destruct (skipn (m - (2 * h - 1)) (firstn m xs)) as [|y l] eqn:Q; [cbn in D; lia|]. cbn [tl app]. f_equal.
        replace (S (m - (2 * h - 1))) with (1 + (m - (2 * h - 1)))%nat by lia. rewrite <- skipn_skipn, Q. reflexivity.
      - replace (S m - (2 * h - 1))%nat with 0%nat by lia. replace (m - (2 * h - 1))%nat with 0%nat by lia. reflexivity. }
    clearbody s. subst s. unfold ready. rewrite half by reflexivity. cbn [data]. rewrite skipn_length, firstn_length, Nat.min_l by lia.
    destruct (Z.leb_spec (Z.of_nat h) (Z.of_nat (S m - (S m - (2 * h - 1))))) as [R|R].
    - rewrite (emit_spec _ xs (m + 1 - h)); [|reflexivity..|].
      + cbn [data finishing cursor]. unfold after. replace (S m + 1 - h)%nat with (S (m + 1 - h)) by lia. do 2 f_equal. lia.
      + intros j Hj. unfold index. cbn [finishing cursor data]. rewrite half by reflexivity. set (o := (S m - (2 * h - 1))%nat) in *.
        assert (B : Z.of_nat o + Z.max 0 (Z.of_nat j + (Z.of_nat (m + 1 - h) - Z.of_nat o) - Z.of_nat h + 1) = Z.max 0 (Z.of_nat (m + 1 - h) + Z.of_nat j - Z.of_nat (h - 1))) by lia.
        split; [lia|]. rewrite nth_skipn. unfold frame. replace (o + Z.to_nat (Z.max 0 (Z.of_nat j + (Z.of_nat (m + 1 - h) - Z.of_nat o) - Z.of_nat h + 1)))%nat with (Z.to_nat (Z.max 0 (Z.of_nat (m + 1 - h) + Z.of_nat j - Z.of_nat (h - 1)))) by lia.
        rewrite Z.min_r by lia. set (i := Z.to_nat _). assert (Hi : (i < S m)%nat) by lia. transitivity (nth_error xs i); [|apply nth_some; lia].
        clearbody i. clear -Hi. revert xs i Hi. generalize (S m) as n. induction n; intros xs i Hi; [lia|]. destruct xs; [reflexivity|]. destruct i; [reflexivity|]. cbn. apply IHn. lia.
    - unfold after. replace (S m + 1 - h)%nat with (m + 1 - h)%nat by lia. reflexivity.
  Qed.
  Lemma push_all_spec xs suf : forall rest m, skipn m xs = rest ++ suf -> push_all plus scale (after xs m) rest = Ok (after xs (m + length rest)).
  Proof.
    induction rest as [|x rest IH]; intros m E; [cbn; rewrite Nat.add_0_r; reflexivity|]. cbn [push_all]. rewrite push_spec with (x := x).
    2: { rewrite <- (Nat.add_0_r m), <- nth_skipn, E. reflexivity. }
    cbn [bind]. rewrite IH; [f_equal; f_equal; cbn; lia|]. replace (S m) with (1 + m)%nat by lia. rewrite <- skipn_skipn, E. reflexivity.
  Qed.
  (** finish(), for a stream at least as long as the kernel: [p] frames are left *)
  Lemma drain_spec xs : (2 * h - 1 <= length xs)%nat -> forall p fuel c, (h <= p <= 2 * h - 1)%nat -> (p < fuel)%nat ->
    exists s, drain plus scale fuel (mksf ks (skipn (length xs - p) xs) c true (Z.of_nat (length xs + h - p)) (output ks xs (length xs + h - p))) = Ok s /\ calls s = output ks xs (length xs).
  Proof.
    intros Hn. induction p as [|p IH]; intros [|fuel] c Hp Hf; try lia. cbn [drain data].
    assert (L : length (skipn (length xs - S p) xs) = S p) by (rewrite skipn_length; lia).
    destruct (skipn (length xs - S p) xs) as [|x rest] eqn:Q; [discriminate|]. cbn [kernel cursor finishing fetched calls].
    assert (R : rest = skipn (length xs - p) xs). { replace (length xs - p)%nat with (1 + (length xs - S p))%nat by lia. rewrite <- skipn_skipn, Q. reflexivity. } injection L as L. rewrite R in *. clear R Q x rest.
    unfold ready. rewrite half by reflexivity. cbn [data]. rewrite L. destruct (Z.leb_spec (Z.of_nat h) (Z.of_nat p)) as [G|G].
    - rewrite (emit_spec _ xs (length xs + h - S p)); [|reflexivity..|].
      + cbn [bind data finishing cursor]. rewrite half by reflexivity. cbn [data]. rewrite L. destruct (Z.leb_spec (Z.of_nat h) (Z.of_nat p)); [|lia]. cbn [negb]. replace (S (length xs + h - S p)) with (length xs + h - p)%nat by lia. apply IH; lia.
      + intros j Hj. unfold index. cbn [finishing data]. rewrite L. split; [lia|]. rewrite nth_skipn. unfold frame. rewrite nth_some by lia. do 2 f_equal. lia.
    - cbn [bind]. rewrite half by reflexivity. cbn [data]. rewrite L. destruct (Z.leb_spec (Z.of_nat h) (Z.of_nat p)); [lia|]. cbn [negb]. eexists. split; [reflexivity|]. cbn [calls]. f_equal. lia.
  Qed.
  Lemma filter_spec xs : (2 * h - 1 <= length xs)%nat -> filter_all plus scale ks xs = Ok (output ks xs (length xs)).
  Proof.
    intros Hn. unfold filter_all. replace (sf_new ks) with (after xs 0). 2: { unfold after, sf_new. replace (0 + 1 - h)%nat with 0%nat by lia. replace (0 - (2 * h - 1))%nat with 0%nat by lia. reflexivity. }
    rewrite (push_all_spec xs [] xs 0) by (rewrite app_nil_r; reflexivity). cbn [bind Nat.add]. unfold sf_finish, after. cbn [data kernel cursor fetched calls]. rewrite firstn_all.
    destruct (drain_spec xs Hn (2 * h - 1) (S (length (skipn (length xs - (2 * h - 1)) xs))) (Z.of_nat (length xs + 1 - h) - Z.of_nat (length xs - (2 * h - 1)))) as (s & E & C); [lia|rewrite skipn_length; lia|].
    replace (length xs + 1 - h)%nat with (length xs + h - (2 * h - 1))%nat by lia. replace (length xs + 1 - h)%nat with (length xs + h - (2 * h - 1))%nat in E by lia. rewrite E. cbn [bind]. congruence.
  Qed.
  (** finish() when [p] frames are left, for the number of calls *)
  Lemma drain_count : forall p fuel (s : @sf T K), kernel s = ks -> finishing s = true -> length (data s) = p -> (1 <= p)%nat -> (p < fuel)%nat ->
    exists s', drain plus scale fuel s = Ok s' /\ length (calls s') = (length (calls s) + (p - h))%nat.
  Proof.
    induction p as [|p IH]; intros [|fuel] s E1 E2 E3 Hp Hf; try lia. cbn [drain]. destruct (data s) as [|x rest] eqn:Q; [discriminate|]. injection E3 as E3. rewrite E1, E2.
    unfold ready at 1. rewrite half by reflexivity. cbn [data]. rewrite E3. destruct (Z.leb_spec (Z.of_nat h) (Z.of_nat p)) as [G|G].
    - set (s1 := mksf _ _ _ _ _ _). unfold emit.
      pose proof (accumulate_spec s1 (fun j => nth (Z.to_nat (index s1 (Z.of_nat j))) rest d) ks 0 None) as A.
      change (Z.of_nat 0) with 0 in A. change (kernel s1) with ks. rewrite A. 2: { intros j Hj. assert (B : 0 <= index s1 (Z.of_nat j) < Z.of_nat p). { unfold index. cbn [s1 finishing data]. rewrite E3. clear -G Hj Hp Hh. lia. } split; [lia|]. change (data s1) with rest. apply nth_some. lia. }
      cbn [bind]. rewrite acc_total by (destruct ks; [cbn in Hk; lia|discriminate]). cbn [of_option bind]. unfold ready. rewrite half by reflexivity. cbn [data s1]. rewrite E3. destruct (Z.leb_spec (Z.of_nat h) (Z.of_nat p)); [|lia]. cbn [negb].
      edestruct (IH fuel) as (s' & D & C); [| | | | |exists s'; split; [exact D|rewrite C]]; try reflexivity; [exact E3|lia|lia|]. cbn [calls s1]. rewrite app_length. cbn [length]. lia.
    - cbn [bind]. unfold ready. rewrite half by reflexivity. cbn [data]. rewrite E3. destruct (Z.leb_spec (Z.of_nat h) (Z.of_nat p)); [lia|]. cbn [negb]. eexists. split; [reflexivity|]. cbn [calls]. lia.
  Qed.
  Lemma short_count xs : (1 <= length xs)%nat -> (length xs < 2 * h - 1)%nat -> exists l, filter_all plus scale ks xs = Ok l /\ length l = (length xs + 1 - h + (length xs - h))%nat.
  Proof.
    intros H1 H2. unfold filter_all. replace (sf_new ks) with (after xs 0). 2: { unfold after, sf_new. replace (0 + 1 - h)%nat with 0%nat by lia. replace (0 - (2 * h - 1))%nat with 0%nat by lia. reflexivity. }
    rewrite (push_all_spec xs [] xs 0) by (rewrite app_nil_r; reflexivity). cbn [bind Nat.add]. unfold sf_finish, after. cbn [data kernel cursor fetched calls]. replace (length xs - (2 * h - 1))%nat with 0%nat by lia. rewrite firstn_all. cbn [skipn].
    edestruct (drain_count (length xs)) as (s' & D & C); cycle 5; [rewrite D; cbn [bind]; eexists; split; [reflexivity|rewrite C]|try reflexivity; try lia..]. cbn [calls]. unfold output. rewrite map_length, seq_length. lia.
  Qed.
  End Run.
End P.

(** ** C76 *)
(** C76: for every stream, the callback receives each frame, in order and exactly once, smoothed by the kernel around it, frames beyond the ends
    repeating the first or last one.  Partial: for streams at least as long as the kernel.  Frames are handed out while they are pushed: after [m] pushes
    all those whose window is complete. *)
Theorem C76_filter_partial : forall (T K : Type) (plus : T -> T -> T) (scale : K -> T -> T) (d : T) ks xs, Nat.odd (length ks) = true -> (length ks <= length xs)%nat ->
  filter_all plus scale ks xs = Ok (output plus scale d ks xs (length xs)) /\
  forall m, (m <= length xs)%nat -> exists s, push_all plus scale (sf_new ks) (firstn m xs) = Ok s /\ calls s = output plus scale d ks xs (m - length ks / 2).
Proof.
  intros T K plus scale d ks xs O L. apply Nat.odd_spec in O. destruct O as [q O]. assert (Hk : length ks = (2 * S q - 1)%nat) by lia. split; [apply filter_spec with (h := S q); lia|].
  intros m Hm. exists (after plus scale d ks (S q) xs m). replace (sf_new ks) with (after plus scale d ks (S q) xs 0) by reflexivity. split.
  - rewrite (push_all_spec plus scale d ks (S q) Hk ltac:(lia) xs (skipn m xs) (firstn m xs) 0) by (cbn [skipn]; symmetry; apply firstn_skipn). rewrite firstn_length, Nat.min_l by lia. reflexivity.
  - cbn [after calls]. f_equal. rewrite (mid ks (S q)) by lia. lia.
Qed.
Print Assumptions C76_filter_partial.
(** C76 is false of the code for every stream shorter than the kernel (unless the kernel has one weight only): frames are missing; *)
Theorem C76_short_refuted : forall (T K : Type) (plus : T -> T -> T) (scale : K -> T -> T) ks (xs : list T), Nat.odd (length ks) = true -> (1 <= length xs < length ks)%nat ->
  exists l, filter_all plus scale ks xs = Ok l /\ length l = (2 * length xs - length ks)%nat /\ (length l < length xs)%nat.
Proof.
  intros T K plus scale ks xs O L. apply Nat.odd_spec in O. destruct O as [q O]. destruct xs as [|d xs'] eqn:X; [cbn in L; lia|]. rewrite <- X in *.
  destruct (short_count plus scale d ks (S q) ltac:(lia) ltac:(lia) xs) as (l & E & C); [lia|lia|]. exists l. split; [exact E|]. lia.
Qed.
Print Assumptions C76_short_refuted.
(** and finishing a stream without frames is undefined (pop_front of an empty deque) *)
Theorem C76_empty_undefined : forall (T K : Type) (plus : T -> T -> T) (scale : K -> T -> T) ks, filter_all plus scale ks [] = UB.
Proof. reflexivity. Qed.
Print Assumptions C76_empty_undefined.
Example C76_nonvacuous : let ks := [1; 2; 1] in let xs := [10; 20; 40; 0] in
  Nat.odd (length ks) = true /\ (length ks <= length xs)%nat /\ filter_all Z.add Z.mul ks xs = Ok [(0, 50); (1, 90); (2, 100); (3, 40)] /\ smoothed Z.add Z.mul 0 ks xs 1 = 1 * 10 + 2 * 20 + 1 * 40 /\
  filter_all Z.add Z.mul ks [10; 20] = Ok [(0, 50)].
Proof. vm_compute. repeat split. lia. Qed.
