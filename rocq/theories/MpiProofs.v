From Verif Require Import Base UnionFind NdArray Serial SerialSpec SerialProofs Mpi MpiSpec.
Local Open Scope nat_scope. Local Open Scope list_scope.

Lemma as_int_ok n : fits_int n -> as_int n = Ok n.
Proof. unfold fits_int, as_int. intros F. apply Z.ltb_lt in F. rewrite F. reflexivity. Qed.
Lemma fits_le a b : a <= b -> fits_int b -> fits_int a.
Proof. unfold fits_int. lia. Qed.
Lemma sum_app l m : sum (l ++ m) = sum l + sum m.
Proof. induction l; cbn; lia. Qed.
Lemma length_concat {A} (l : list (list A)) : length (concat l) = sum (map (@length A) l).
Proof. induction l; cbn; [reflexivity|]. rewrite app_length. lia. Qed.
Lemma mapM_Ok {A B} (f : A -> res B) (g : A -> B) l : (forall x, In x l -> f x = Ok (g x)) -> mapM f l = Ok (map g l).
Proof. induction l as [|a l IH]; intros F; cbn; [reflexivity|]. rewrite F by (left; reflexivity). cbn [bind]. rewrite IH by (intros; apply F; right; assumption). reflexivity. Qed.
Lemma accumulate_ok l : forall acc, fits_int (acc + sum l) -> accumulate l acc = Ok (acc + sum l).
Proof.
  induction l as [|x l IH]; intros acc F; cbn [accumulate sum] in *; [rewrite Nat.add_0_r; reflexivity|].
  rewrite as_int_ok by (eapply fits_le; [|exact F]; lia). cbn [bind]. rewrite IH by (eapply fits_le; [|exact F]; lia). f_equal; lia.
Qed.
(** prefix sums *)
Fixpoint offs (d : nat) (l : list nat) : list nat := match l with [] => [] | x :: l => d :: offs (d + x) l end.
Lemma displacements_ok l : forall d, fits_int (d + sum l) -> displacements d l = Ok (offs d l).
Proof.
  induction l as [|x l IH]; intros d F; cbn [displacements offs]; [reflexivity|]. destruct l as [|y l]; [reflexivity|].
  cbn [sum] in F. rewrite as_int_ok by (eapply fits_le; [|exact F]; lia). cbn [bind]. rewrite IH by (cbn [sum]; eapply fits_le; [|exact F]; lia). reflexivity.
Qed.
Lemma rdispls_ok l : forall d c, fits_int (d + c + sum l) -> rdispls d c l = Ok (offs (d + c) l).
Proof.
  induction l as [|x l IH]; intros d c F; cbn [rdispls offs]; [reflexivity|]. cbn [sum] in F.
  rewrite as_int_ok by (eapply fits_le; [|exact F]; lia). cbn [bind]. rewrite IH by (eapply fits_le; [|exact F]; lia). reflexivity.
Qed.
Lemma receive_here (done x : list Z) n : receive (map Some done ++ repeat None (length x + n)) (length done) x = Ok (map Some (done ++ x) ++ repeat None n).
Proof.
  unfold receive. rewrite app_length, map_length, repeat_length.
  destruct (Nat.leb_spec (length done + length x) (length done + (length x + n))); [|lia].
  rewrite skipn_app, skipn_all2, map_length, Nat.sub_diag by (rewrite map_length; lia). cbn [skipn app andb].
  assert (R : firstn (length x) (repeat (@None Z) (length x + n)) = repeat None (length x)).
  { rewrite repeat_app, firstn_app, firstn_all2, repeat_length, Nat.sub_diag by (rewrite repeat_length; lia). apply app_nil_r. }
  rewrite R. replace (forallb _ (repeat None (length x))) with true by (clear; induction (length x); cbn; auto).
  rewrite firstn_app, firstn_all2, map_length, Nat.sub_diag by (rewrite map_length; lia). cbn [firstn]. rewrite app_nil_r.
  rewrite skipn_app, skipn_all2, map_length by (rewrite map_length; lia). cbn [app].
  replace (length done + length x - length done) with (length x) by lia.
  rewrite repeat_app, skipn_app, skipn_all2, repeat_length, Nat.sub_diag by (rewrite repeat_length; lia). cbn [skipn app].
  rewrite map_app, <- app_assoc. reflexivity.
Qed.
Lemma receive_all_ok : forall sends done, receive_all (map Some done ++ repeat None (sum (map (@length Z) sends))) sends (map (@length Z) sends) (offs (length done) (map (@length Z) sends)) = Ok (map Some (done ++ concat sends)).
Proof.
  induction sends as [|x sends IH]; intros done; cbn [map sum offs receive_all concat]; [rewrite !app_nil_r; reflexivity|].
  rewrite Nat.eqb_refl, receive_here. cbn [bind]. rewrite <- app_length, IH, <- app_assoc. reflexivity.
Qed.
Lemma gatherv_ok sends : mpi_gatherv (sum (map (@length Z) sends)) sends (map (@length Z) sends) (offs 0 (map (@length Z) sends)) = Ok (concat sends).
Proof.
  unfold mpi_gatherv. assert (E := receive_all_ok sends []). cbn [map app length] in E. rewrite E. cbn [bind]. unfold bytes_of. rewrite map_map, map_id. reflexivity.
Qed.

Section Law.
  Context {M : Type} (S : ser M) (empty : M) (fresh ok : M -> Prop) (bytes : M -> list Z).
  Hypothesis L : ser_law S fresh ok bytes.
  Lemma to_string x : ok x -> serialize_to_string S x = bytes x.
  Proof. intros O. unfold serialize_to_string. rewrite (proj1 L x) by (auto; reflexivity). reflexivity. Qed.
  Hypothesis FE : fresh empty.
  Hypothesis NE : forall x, ok x -> bytes x <> [].
  Lemma load_while_ok {O} (merger : M -> O -> O) : forall ms fuel pre out, Forall ok ms -> length (concat (map bytes ms)) <= fuel ->
    load_while fuel S empty merger {| str := pre ++ concat (map bytes ms); pos := length pre |} out = Ok (fold_left (fun o m => merger m o) ms out).
  Proof.
    induction ms as [|m ms IH]; intros fuel pre out F Fu; cbn [map concat] in *.
    - destruct fuel; cbn [load_while str pos]; rewrite app_nil_r, Nat.ltb_irrefl; reflexivity.
    - inversion F as [|? ? Om Oms]; subst. assert (N := NE m Om). rewrite app_length in Fu.
      assert (0 < length (bytes m)) by (destruct (bytes m); [congruence|cbn; lia]).
      destruct fuel; [lia|]. cbn [load_while str pos]. rewrite !app_length. destruct (Nat.ltb_spec (length pre) (length pre + (length (bytes m) + length (concat (map bytes ms))))); [|lia].
      rewrite (proj2 L m empty pre _ Om FE). cbn [bind fst snd fold_left]. rewrite app_assoc, <- app_length. apply IH; [exact Oms|lia].
  Qed.
  Lemma unload_ok {O} (merger : M -> O -> O) ms out : Forall ok ms -> unload S empty merger (concat (map bytes ms)) out = Ok (fold_left (fun o m => merger m o) ms out).
  Proof. intros F. unfold unload. apply (load_while_ok merger ms (length (concat (map bytes ms))) [] out F). lia. Qed.

  Lemma concat_map_ext_ok ins : Forall ok ins -> map (serialize_to_string S) ins = map bytes ins.
  Proof. intros F. apply map_ext_in. intros x Hx. rewrite Forall_forall in F. apply to_string, F, Hx. Qed.

  Lemma lens_ok sends : (forall s, In s sends -> fits_int (length s)) -> mapM (fun s : list Z => as_int (length s)) sends = Ok (map (@length Z) sends).
  Proof. intros F. apply mapM_Ok. intros s Hs. apply as_int_ok, F, Hs. Qed.
  Lemma sum_In (sends : list (list Z)) s : In s sends -> length s <= sum (map (@length Z) sends).
  Proof. induction sends as [|x l IH]; cbn; [intros []|]. intros [->|H]; [lia|]. specialize (IH H). lia. Qed.

  Lemma allgather_ok merger ins out : Forall ok ins -> fits_int (sum (map (size S) ins)) -> allgather S empty merger ins out = Ok (fold_left (fun o m => merger m o) ins out).
  Proof.
    intros F Fi. unfold allgather. rewrite (concat_map_ext_ok ins F).
    assert (Fi' : fits_int (sum (map (@length Z) (map bytes ins)))).
    { rewrite <- (concat_map_ext_ok ins F), map_map. exact Fi. }
    rewrite lens_ok by (intros s Hs; eapply fits_le; [apply sum_In; exact Hs|exact Fi']). cbn [bind].
    rewrite accumulate_ok by exact Fi'. cbn [bind Nat.add]. rewrite displacements_ok by exact Fi'. cbn [bind]. rewrite gatherv_ok. cbn [bind]. apply unload_ok, F.
  Qed.

  (** rank [root] sends nothing *)
  Lemma combine_split (ins : list M) root x : nth_error ins root = Some x -> forall b (f : M -> list Z),
    map (fun r => if Nat.eqb (fst r) (b + root) then [] else f (snd r)) (combine (seq b (length ins)) ins) = map f (firstn root ins) ++ [] :: map f (skipn (1 + root) ins).
  Proof.
    revert root. induction ins as [|m ins IH]; intros [|root] E b f; cbn in E; try discriminate.
    - cbn [length seq combine map fst snd firstn skipn app]. rewrite Nat.add_0_r, Nat.eqb_refl. f_equal.
      assert (W : forall l c, b < c -> map (fun r : nat * M => if Nat.eqb (fst r) b then [] else f (snd r)) (combine (seq c (length l)) l) = map f l).
      { induction l as [|y l IHl]; intros c Hc; cbn; [reflexivity|]. destruct (Nat.eqb_spec c b); [lia|]. f_equal. apply IHl. lia. }
      apply W. lia.
    - cbn [length seq combine map fst snd firstn skipn app]. destruct (Nat.eqb_spec b (b + Datatypes.S root)); [lia|]. f_equal.
      replace (b + Datatypes.S root) with (Datatypes.S b + root) by lia. apply (IH root E (Datatypes.S b) f).
  Qed.
  Lemma In_others (ins : list M) root m : In m (others ins root) -> In m ins.
  Proof.
    unfold others. rewrite in_app_iff. intros [H|H]; [rewrite <- (firstn_skipn root ins)|rewrite <- (firstn_skipn (1 + root) ins)]; apply in_app_iff; auto.
  Qed.
  Lemma gather_ok merger ins root mine : Forall ok ins -> nth_error ins root = Some mine -> fits_int (sum (map (size S) (others ins root))) ->
    gather S empty merger ins root = Ok (fold_left (fun o m => merger m o) (others ins root) mine).
  Proof.
    intros F Ro Fi. unfold gather. assert (CS := combine_split ins root mine Ro 0 (serialize_to_string S)). change (0 + root) with root in CS. rewrite CS. clear CS.
    assert (Fo : Forall ok (others ins root)) by (rewrite Forall_forall in *; intros m Hm; apply F, (In_others ins root), Hm).
    assert (Ff : Forall ok (firstn root ins)) by (unfold others in Fo; apply Forall_app in Fo; apply Fo).
    assert (Fs : Forall ok (skipn (1 + root) ins)) by (unfold others in Fo; apply Forall_app in Fo; apply Fo).
    rewrite (concat_map_ext_ok _ Ff), (concat_map_ext_ok _ Fs).
    set (sends := map bytes (firstn root ins) ++ [] :: map bytes (skipn (1 + root) ins)).
    assert (C : concat sends = concat (map bytes (others ins root))).
    { unfold sends, others. rewrite map_app, !concat_app. reflexivity. }
    assert (Fi' : fits_int (sum (map (@length Z) sends))).
    { rewrite <- length_concat, C, length_concat, map_map. eapply fits_le; [|exact Fi]. apply Nat.eq_le_incl. f_equal. apply map_ext_in. intros m Hm. unfold size. rewrite to_string; [reflexivity|]. rewrite Forall_forall in Fo. apply Fo, Hm. }
    rewrite lens_ok by (intros s Hs; eapply fits_le; [apply sum_In; exact Hs|exact Fi']). cbn [bind].
    rewrite accumulate_ok by exact Fi'. cbn [bind Nat.add]. rewrite displacements_ok by exact Fi'. cbn [bind]. rewrite gatherv_ok. cbn [bind]. rewrite Ro. cbn [of_option bind]. rewrite C. apply unload_ok, Fo.
  Qed.

  (** packing *)
  Fixpoint sends_of (skip : option nat) (i : nat) (parts : list M) : list (list Z) :=
    match parts with [] => [] | m :: parts => (if match skip with Some r => Nat.eqb r i | None => false end then [] else bytes m) :: sends_of skip (i + 1) parts end.
  Lemma pack_ok skip : forall parts i pre, Forall ok parts -> fits_int (length pre + sum (map (@length Z) (sends_of skip i parts))) ->
    pack S skip i parts {| str := pre; pos := length pre |} =
    Ok ({| str := pre ++ concat (sends_of skip i parts); pos := length (pre ++ concat (sends_of skip i parts)) |}, map (@length Z) (sends_of skip i parts), offs (length pre) (map (@length Z) (sends_of skip i parts))).
  Proof.
    induction parts as [|m parts IH]; intros i pre F Fi; cbn [pack sends_of map concat offs str].
    - rewrite app_nil_r. reflexivity.
    - inversion F as [|? ? Om Oms]; subst. cbn [sends_of map sum] in Fi.
      set (c := match skip with Some r => Nat.eqb r i | None => false end) in *.
      rewrite as_int_ok by (eapply fits_le; [|exact Fi]; lia). cbn [bind].
      assert (E : (if c then {| str := pre; pos := length pre |} else sv S m {| str := pre; pos := length pre |}) = {| str := pre ++ (if c then [] else bytes m); pos := length (pre ++ (if c then [] else bytes m)) |}).
      { destruct c; [rewrite app_nil_r; reflexivity|]. apply (proj1 L m); [exact Om|reflexivity]. }
      rewrite E. cbn [str]. rewrite app_length. replace (length pre + length (if c then [] else bytes m) - length pre) with (length (if c then [] else bytes m)) by lia.
      rewrite as_int_ok by (eapply fits_le; [|exact Fi]; lia). cbn [bind]. rewrite <- app_length.
      rewrite IH; [|exact Oms|eapply fits_le; [|exact Fi]; rewrite app_length; lia]. cbn [bind fst snd]. rewrite <- app_assoc, app_length. reflexivity.
  Qed.
  Lemma sends_of_none : forall parts i, sends_of None i parts = map bytes parts.
  Proof. induction parts; intros; cbn; [reflexivity|]. f_equal. apply IHparts. Qed.
  Lemma nth_sends_of skip r : forall parts i, nth_error (sends_of skip i parts) r = option_map (fun m => if match skip with Some q => Nat.eqb q (i + r) | None => false end then [] else bytes m) (nth_error parts r).
  Proof.
    induction r as [|r IH]; intros [|m parts] i; cbn; try reflexivity; [rewrite Nat.add_0_r; reflexivity|]. rewrite IH. replace (i + 1 + r) with (i + Datatypes.S r) by lia. reflexivity.
  Qed.
  Lemma block_ok r : forall sends pre x, nth_error sends r = Some x ->
    exists d, nth_error (offs (length pre) (map (@length Z) sends)) r = Some d /\ nth_error (map (@length Z) sends) r = Some (length x) /\ block (pre ++ concat sends) d (length x) = Ok x.
  Proof.
    induction r as [|r IH]; intros [|y sends] pre x E; cbn in E; try discriminate.
    - inversion E; subst. exists (length pre). split; [reflexivity|]. split; [reflexivity|]. unfold block. cbn [concat]. rewrite !app_length.
      destruct (Nat.leb_spec (length pre + length x) (length pre + (length x + length (concat sends)))); [|lia].
      rewrite skipn_app, skipn_all, Nat.sub_diag. cbn [skipn app]. rewrite firstn_app, firstn_all, Nat.sub_diag. cbn [firstn]. rewrite app_nil_r. reflexivity.
    - cbn [map offs nth_error concat]. destruct (IH sends (pre ++ y) x E) as (d & A & B & C). exists d. rewrite app_length in A. split; [exact A|]. split; [exact B|]. rewrite <- app_assoc in C. exact C.
  Qed.
  Definition packed_as (sends : list (list Z)) : packed := ({| str := concat sends; pos := length (concat sends) |}, map (@length Z) sends, offs 0 (map (@length Z) sends)).
  Lemma incoming_ok (ss : list (list (list Z))) (row : list (list Z)) r : map (fun s => nth_error s r) ss = map Some row ->
    incoming (map packed_as ss) r = Ok row /\ recvcounts (map packed_as ss) r = Ok (map (@length Z) row).
  Proof.
    revert row. induction ss as [|s ss IH]; intros [|x row] E; cbn in E; try discriminate; [split; reflexivity|].
    inversion E as [[E1 E2]]. destruct (IH row E2) as [I1 I2]. destruct (block_ok r s [] x E1) as (d & A & B & C). cbn [app length] in A, C.
    assert (X : (let* d := of_option (nth_error (sdispls (packed_as s)) r) in let* n := of_option (nth_error (sendcounts (packed_as s)) r) in block (sendbuf (packed_as s)) d n) = Ok x).
    { unfold packed_as, sendcounts, sdispls, sendbuf. cbn [fst snd str]. rewrite A, B. cbn [of_option bind]. exact C. }
    assert (Y : of_option (nth_error (sendcounts (packed_as s)) r) = Ok (length x)).
    { unfold packed_as, sendcounts. cbn [fst snd]. rewrite B. reflexivity. }
    unfold incoming, recvcounts in *. cbn [map mapM]. rewrite X, Y, I1, I2. split; reflexivity.
  Qed.
  Lemma pack_packed skip parts : Forall ok parts -> fits_int (sum (map (@length Z) (sends_of skip 0 parts))) -> pack S skip 0 parts {| str := []; pos := 0 |} = Ok (packed_as (sends_of skip 0 parts)).
  Proof. intros F Fi. exact (pack_ok skip parts 0 [] F Fi). Qed.

  Lemma scatterv_ok ins rank x old : Forall ok ins -> nth_error ins rank = Some x -> fresh old -> fits_int (sum (map (size S) ins)) -> scatterv S ins rank old = Ok x.
  Proof.
    intros F E Fo Fi. unfold scatterv. assert (Q : sends_of None 0 ins = map bytes ins) by apply sends_of_none.
    rewrite pack_packed; [|exact F|rewrite Q, <- (concat_map_ext_ok ins F), map_map; exact Fi]. cbn [bind]. rewrite Q.
    assert (E' : nth_error (map bytes ins) rank = Some (bytes x)) by (rewrite nth_error_map, E; reflexivity).
    destruct (block_ok rank (map bytes ins) [] (bytes x) E') as (d & A & B & C). cbn [app length] in A, C.
    unfold packed_as, sendcounts, sdispls, sendbuf. cbn [fst snd str]. rewrite A, B. cbn [of_option bind]. rewrite C. cbn [bind].
    assert (Ox : ok x) by (rewrite Forall_forall in F; apply F; eapply nth_error_In; exact E).
    assert (G := proj2 L x old [] [] Ox Fo). cbn [app length] in G. rewrite app_nil_r in G. rewrite G. reflexivity.
  Qed.
  Lemma bcastv_ok v old : ok v -> fresh old -> fits_int (size S v) -> bcastv S v old = Ok v.
  Proof.
    intros O Fo Fi. unfold bcastv. rewrite as_int_ok by exact Fi. cbn [bind]. rewrite to_string by exact O.
    assert (G := proj2 L v old [] [] O Fo). cbn [app length] in G. rewrite app_nil_r in G. rewrite G. reflexivity.
  Qed.

  (** one or two ranks: the zero displacements of [all2all] are right *)
  Lemma all2all_small merger inss rank row : length inss <= 2 -> Forall (Forall ok) inss -> map (fun ins => nth_error ins rank) inss = map Some row -> rank < length inss ->
    Forall (fun ins => fits_int (sum (map (size S) ins))) inss ->
    exists mine, nth_error row rank = Some mine /\ all2all S empty merger inss rank = Ok (fold_left (fun o m => merger m o) (others row rank) mine).
  Proof.
    intros Le F R Rk Fi.
    assert (Bnd : forall skip ins, Forall ok ins -> fits_int (sum (map (size S) ins)) -> fits_int (sum (map (@length Z) (sends_of skip 0 ins)))).
    { intros skip ins Fo. apply fits_le. generalize 0 as i. induction ins as [|m ins IH]; intros i; cbn [sends_of map sum]; [lia|]. inversion Fo; subst. specialize (IH H2 (i + 1)). unfold size at 1. rewrite to_string by assumption. destruct (match skip with Some r => Nat.eqb r i | None => false end); cbn [length]; lia. }
    destruct inss as [|i0 [|i1 [|]]]; cbn in Le, Rk; try lia.
    - assert (rank = 0) by lia. subst. cbn [map] in R. destruct row as [|m [|]]; try discriminate. cbn [map] in R. assert (R0 : nth_error i0 0 = Some m) by congruence. clear R. inversion F as [|? ? F0 _]; subst. inversion Fi as [|? ? Fi0 _]; subst.
      exists m. split; [reflexivity|]. unfold all2all. cbn [length seq combine mapM fst snd]. rewrite pack_packed by auto. cbn [bind].
      destruct (incoming_ok [sends_of (Some 0) 0 i0] [[]] 0) as [I1 I2]; [cbn [map]; rewrite nth_sends_of, R0; reflexivity|]. cbn [map] in I1, I2. rewrite I2. cbn [bind map length accumulate]. cbn [as_int Z.of_nat Z.ltb Z.compare Z.pow Z.pow_pos Pos.iter Z.mul Pos.mul Nat.add bind].
      rewrite I1. cbn [bind map all2all_rdispls repeat mpi_gatherv receive_all Nat.eqb length receive Nat.add Nat.leb firstn skipn forallb andb app bytes_of].
      change (nth_error [i0] 0) with (Some i0). cbn [of_option bind]. rewrite R0. cbn [of_option bind]. unfold others. cbn. reflexivity.
    - cbn [map] in R. destruct row as [|m0 [|m1 [|]]]; try discriminate. cbn [map] in R. assert (R0 : nth_error i0 rank = Some m0) by congruence. assert (R1 : nth_error i1 rank = Some m1) by congruence. clear R. inversion F as [|? ? F0 F']; subst. inversion F' as [|? ? F1 _]; subst. inversion Fi as [|? ? Fi0 Fi']; subst. inversion Fi' as [|? ? Fi1 _]; subst.
      assert (O0 : ok m0) by (rewrite Forall_forall in F0; apply F0; eapply nth_error_In; exact R0).
      assert (O1 : ok m1) by (rewrite Forall_forall in F1; apply F1; eapply nth_error_In; exact R1).
      assert (Z0 : fits_int (length (bytes m0))). { eapply fits_le; [|exact Fi0]. rewrite <- (to_string m0 O0). clear - R0. revert rank R0. induction i0 as [|x i0 IH]; intros [|r] E; cbn in E; try discriminate; cbn [map sum]; [inversion E; subst; unfold size; lia|]. specialize (IH r E). lia. }
      assert (Z1 : fits_int (length (bytes m1))). { eapply fits_le; [|exact Fi1]. rewrite <- (to_string m1 O1). clear - R1. revert rank R1. induction i1 as [|x i0 IH]; intros [|r] E; cbn in E; try discriminate; cbn [map sum]; [inversion E; subst; unfold size; lia|]. specialize (IH r E). lia. }
      unfold all2all. cbn [length seq combine mapM fst snd]. rewrite !pack_packed by auto. cbn [bind].
      assert (Rk2 : rank = 0 \/ rank = 1) by lia. destruct Rk2 as [-> | ->].
      + exists m0. split; [reflexivity|]. destruct (incoming_ok [sends_of (Some 0) 0 i0; sends_of (Some 1) 0 i1] [[]; bytes m1] 0) as [I1 I2]; [cbn [map]; rewrite !nth_sends_of, R0, R1; reflexivity|]. cbn [map] in I1, I2. rewrite I2. cbn [bind].
        rewrite accumulate_ok by (cbn [sum length Nat.add]; rewrite Nat.add_0_r; exact Z1). cbn [bind]. rewrite I1. cbn [bind all2all_rdispls map].
        cbn [sum length Nat.add]. assert (G := gatherv_ok [[]; bytes m1]). cbn [map sum offs length Nat.add concat app] in G. rewrite G. cbn [bind]. change (nth_error [i0; i1] 0) with (Some i0). cbn [of_option bind]. rewrite R0. cbn [of_option bind]. rewrite app_nil_r.
        assert (U := unload_ok merger [m1] m0 (Forall_cons _ O1 (Forall_nil _))). cbn [map concat] in U. rewrite app_nil_r in U. rewrite U. reflexivity.
      + exists m1. split; [reflexivity|]. destruct (incoming_ok [sends_of (Some 0) 0 i0; sends_of (Some 1) 0 i1] [bytes m0; []] 1) as [I1 I2]; [cbn [map]; rewrite !nth_sends_of, R0, R1; reflexivity|]. cbn [map] in I1, I2. rewrite I2. cbn [bind].
        rewrite accumulate_ok by (cbn [sum length Nat.add]; rewrite Nat.add_0_r; exact Z0). cbn [bind]. rewrite I1. cbn [bind all2all_rdispls map].
        assert (G := receive_here [] (bytes m0) 0). cbn [map app length] in G. rewrite Nat.add_0_r in G.
        unfold mpi_gatherv. cbn [sum length Nat.add]. rewrite !Nat.add_0_r. cbn [receive_all]. rewrite Nat.eqb_refl, G. cbn [bind receive_all length Nat.eqb]. unfold receive. cbn [length Nat.add Nat.leb firstn forallb andb map app skipn]. cbn [bind receive_all]. 
        unfold bytes_of. rewrite app_nil_r, map_map, map_id. change (nth_error [i0; i1] 1) with (Some i1). cbn [of_option bind]. rewrite R1. cbn [of_option bind].
        assert (U := unload_ok merger [m0] m1 (Forall_cons _ O0 (Forall_nil _))). cbn [map concat] in U. rewrite app_nil_r in U. rewrite U. reflexivity.
  Qed.
  (** three or more ranks: two blocks are received at the same place *)
  Lemma receive_filled v : forall sends b, (exists x, In x sends /\ x <> []) ->
    receive_all (Some v :: b) sends (map (@length Z) sends) (map (fun _ => 0) (map (@length Z) sends)) = UB.
  Proof.
    induction sends as [|x sends IH]; intros b (y & Hy & Ny); [destruct Hy|]. cbn [map receive_all]. rewrite Nat.eqb_refl.
    unfold receive. cbn [Nat.add firstn skipn]. destruct x as [|c x].
    - cbn [length Nat.leb firstn forallb andb map app skipn bind]. apply IH. destruct Hy as [<-|Hy]; [congruence|eauto].
    - cbn [length firstn forallb]. rewrite andb_false_r. reflexivity.
  Qed.
  Lemma receive_two : forall sends b i j x y, i <> j -> nth_error sends i = Some x -> nth_error sends j = Some y -> x <> [] -> y <> [] ->
    receive_all b sends (map (@length Z) sends) (map (fun _ => 0) (map (@length Z) sends)) = UB.
  Proof.
    induction sends as [|z sends IH]; intros b i j x y N Ei Ej Nx Ny; [destruct i; discriminate|]. cbn [map receive_all]. rewrite Nat.eqb_refl.
    destruct (receive b 0 z) as [b'| |] eqn:R; cbn [bind]; [|reflexivity|unfold receive in R; destruct (_ && _) in R; discriminate].
    assert (Fill : z <> [] -> (exists w, In w sends /\ w <> []) -> receive_all b' sends (map (@length Z) sends) (map (fun _ => 0) (map (@length Z) sends)) = UB).
    { intros Nz Ex. destruct z as [|c z]; [congruence|]. unfold receive in R. destruct (_ && _) in R; [|discriminate]. cbn [firstn map app] in R. inversion R. apply receive_filled, Ex. }
    destruct i as [|i], j as [|j]; cbn in Ei, Ej; [congruence| | |].
    - inversion Ei; subst. apply Fill; [exact Nx|]. exists y. split; [eapply nth_error_In; exact Ej|exact Ny].
    - inversion Ej; subst. apply Fill; [exact Ny|]. exists x. split; [eapply nth_error_In; exact Ei|exact Nx].
    - apply (IH b' i j x y); auto.
  Qed.
  Lemma all2all_large merger inss rank row : 3 <= length inss -> rank < length inss -> Forall (Forall ok) inss -> map (fun ins => nth_error ins rank) inss = map Some row ->
    Forall (fun ins => fits_int (sum (map (size S) ins))) inss -> all2all S empty merger inss rank = UB.
  Proof.
    intros Le Rk F R Fi. unfold all2all.
    assert (Bnd : forall skip ins, Forall ok ins -> fits_int (sum (map (size S) ins)) -> fits_int (sum (map (@length Z) (sends_of skip 0 ins)))).
    { intros skip ins Fo. apply fits_le. generalize 0 as i. induction ins as [|m ins IH]; intros i; cbn [sends_of map sum]; [lia|]. inversion Fo; subst. specialize (IH H2 (i + 1)). unfold size at 1. rewrite to_string by assumption. destruct (match skip with Some r => Nat.eqb r i | None => false end); cbn [length]; lia. }
    set (ss := map (fun r => sends_of (Some (fst r)) 0 (snd r)) (combine (seq 0 (length inss)) inss)).
    assert (E : mapM (fun r => pack S (Some (fst r)) 0 (snd r) {| str := []; pos := 0 |}) (combine (seq 0 (length inss)) inss) = Ok (map packed_as ss)).
    { unfold ss. rewrite map_map. apply mapM_Ok. intros [q ins] Hr. cbn [fst snd]. apply in_combine_r in Hr. rewrite Forall_forall in F, Fi. apply pack_packed; [apply F, Hr|]. apply Bnd; [apply F, Hr|apply Fi, Hr]. }
    rewrite E. cbn [bind].
    set (rw := map (fun r => if Nat.eqb (fst r) rank then [] else bytes (snd r)) (combine (seq 0 (length row)) row)).
    assert (Lr : length row = length inss) by (apply (f_equal (@length _)) in R; rewrite !map_length in R; auto).
    assert (Q : map (fun s => nth_error s rank) ss = map Some rw).
    { unfold ss, rw. rewrite Lr. rewrite !map_map.
      assert (W : forall inss row b, map (fun ins => nth_error ins rank) inss = map Some row -> map (fun x => nth_error (sends_of (Some (fst x)) 0 (snd x)) rank) (combine (seq b (length inss)) inss) =
         map (fun x : nat * M => Some (if Nat.eqb (fst x) rank then [] else bytes (snd x))) (combine (seq b (length inss)) row)).
      { clear. induction inss as [|ins inss IH]; intros [|m row] b R; cbn [map] in R; try discriminate; [reflexivity|]. cbn [length seq combine map fst snd]. rewrite nth_sends_of.
        assert (R1 : nth_error ins rank = Some m) by congruence. assert (R2 : map (fun ins => nth_error ins rank) inss = map Some row) by congruence. rewrite R1. cbn [option_map Nat.add]. f_equal. apply IH, R2. }
      apply W, R. }
    destruct (incoming_ok ss rw rank Q) as [I1 I2]. rewrite I2. cbn [bind].
    destruct (accumulate (map (@length Z) rw) 0) as [total| |] eqn:Ac; cbn [bind]; [|reflexivity|].
    2:{ exfalso. clear - Ac. revert Ac. generalize 0. induction (map (@length Z) rw) as [|x l IH]; intros n Ac; cbn in Ac; [discriminate|]. unfold as_int in Ac. destruct (_ <? _)%Z; cbn in Ac; [eapply IH; exact Ac|discriminate]. }
    rewrite I1. cbn [bind]. unfold mpi_gatherv.
    assert (Nth : forall i, i <> rank -> i < length inss -> exists x, nth_error rw i = Some x /\ x <> []).
    { intros i Ni Li. rewrite <- Lr in Li. destruct (nth_error row i) as [m|] eqn:Ei; [|apply nth_error_None in Ei; lia].
      exists (bytes m). split.
      - unfold rw. rewrite nth_error_map. assert (W : forall (l : list M) b k y, nth_error l k = Some y -> nth_error (combine (seq b (length l)) l) k = Some (b + k, y)).
        { clear. induction l as [|a l IH]; intros b [|k] y E; cbn in E; try discriminate; cbn; [inversion E; rewrite Nat.add_0_r; reflexivity|]. rewrite (IH _ _ _ E). f_equal. f_equal. lia. }
        rewrite (W _ 0 _ _ Ei). cbn [option_map fst snd Nat.add]. destruct (Nat.eqb_spec i rank); [contradiction|reflexivity].
      - apply NE. assert (Hm : nth_error inss i <> None) by (apply nth_error_Some; lia). destruct (nth_error inss i) as [ins|] eqn:Gi; [|congruence].
        assert (Gm : nth_error ins rank = Some m). { assert (X := f_equal (fun l => nth_error l i) R). cbn in X. rewrite !nth_error_map, Gi, Ei in X. cbn in X. congruence. }
        rewrite Forall_forall in F. specialize (F ins (nth_error_In _ _ Gi)). rewrite Forall_forall in F. apply F. eapply nth_error_In; exact Gm. }
    assert (IJ : exists i j, i <> j /\ i <> rank /\ j <> rank /\ i < length inss /\ j < length inss).
    { destruct rank as [|[|r]]; [exists 1, 2|exists 0, 2|exists 0, 1]; lia. }
    destruct IJ as (i & j & Nij & Ni & Nj & Li & Lj). destruct (Nth i Ni Li) as (x & Ex & Nx). destruct (Nth j Nj Lj) as (y & Ey & Ny).
    unfold all2all_rdispls. rewrite (receive_two rw _ i j x y Nij Ex Ey Nx Ny). reflexivity.
  Qed.
End Law.
