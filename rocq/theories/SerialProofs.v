(** Round-trip proofs for the serializers. *)
From Verif Require Import Base UnionFind UnionFindProofs Lattice NdArray NdArraySpec NdArrayProofs PartitionProofs Serial SerialSpec.
Local Open Scope Z_scope.

(** A serializer writes a byte string [bytes x] at the end of the buffer and reads it back from
    wherever it is, into any object satisfying [fresh]. *)
Definition ser_law {A} (S : ser A) (fresh ok : A -> Prop) (bytes : A -> list Z) : Prop :=
  (forall x b, ok x -> pos b = length (str b) ->
     sv S x b = {| str := str b ++ bytes x; pos := length (str b ++ bytes x) |}) /\
  (forall x old pre post, ok x -> fresh old ->
     ld S old {| str := pre ++ bytes x ++ post; pos := length pre |} =
     Ok (x, {| str := pre ++ bytes x ++ post; pos := (length pre + length (bytes x))%nat |})).
Definition ser_ok {A} (S : ser A) (fresh ok : A -> Prop) : Prop := exists bytes, ser_law S fresh ok bytes.

Definition anyone {A} : A -> Prop := fun _ => True.

Lemma save_binary_end b x : pos b = length (str b) ->
  save_binary b x = {| str := str b ++ x; pos := length (str b ++ x) |}.
Proof.
  intros P. unfold save_binary. rewrite P. rewrite app_length.
  destruct (Nat.ltb_spec (length (str b)) (length (str b) + length x)).
  - rewrite firstn_app, firstn_all, Nat.sub_diag. cbn [firstn]. rewrite app_nil_r.
    rewrite skipn_all2 by (rewrite app_length, repeat_length; lia). rewrite app_nil_r. reflexivity.
  - rewrite firstn_all, skipn_all2 by lia. destruct x; [|cbn in *; lia]. rewrite !app_nil_r. reflexivity.
Qed.
Lemma load_binary_mid pre x post :
  load_binary {| str := pre ++ x ++ post; pos := length pre |} (length x) =
  Ok (x, {| str := pre ++ x ++ post; pos := (length pre + length x)%nat |}).
Proof.
  unfold load_binary. cbn [str pos]. rewrite !app_length.
  destruct (Nat.leb_spec (length pre + length x) (length pre + (length x + length post))); [|lia].
  rewrite skipn_app, skipn_all, Nat.sub_diag. cbn [skipn app].
  rewrite firstn_app, firstn_all, Nat.sub_diag. cbn [firstn]. rewrite app_nil_r. reflexivity.
Qed.

Lemma pod_law {A} sz (enc : A -> list Z) dec (ok : A -> Prop) :
  (forall x, ok x -> length (enc x) = sz /\ dec (enc x) = x) -> ser_law (ser_pod sz enc dec) anyone ok enc.
Proof.
  intros C. split.
  - intros x b _ P. apply save_binary_end. exact P.
  - intros x old pre post O _. destruct (C x O) as [L D]. cbn [ld ser_pod]. rewrite <- L.
    rewrite load_binary_mid. cbn [bind]. rewrite D. reflexivity.
Qed.

Lemma le_enc_length n x : length (le_enc n x) = n.
Proof. revert x; induction n; intros; cbn; auto. Qed.
Lemma le_dec_enc n : forall x, 0 <= x < 256 ^ Z.of_nat n -> le_dec (le_enc n x) = x.
Proof.
  induction n as [|n IH]; intros x H; cbn [le_enc le_dec]; [cbn in H; lia|].
  rewrite Nat2Z.inj_succ, Z.pow_succ_r in H by lia.
  rewrite IH; [pose proof (Z.div_mod x 256); lia|].
  split; [apply Z.div_pos; lia|apply Z.div_lt_upper_bound; lia].
Qed.

Lemma size_t_law : ser_law ser_size_t anyone is_u64 (le_enc 8).
Proof. apply pod_law. intros x H. split; [apply le_enc_length|apply le_dec_enc; exact H]. Qed.
Lemma bool_law : ser_law ser_bool anyone anyone (fun b => [if b then 1 else 0]).
Proof. apply pod_law. intros [] _; split; reflexivity. Qed.

Lemma save_elems {A} (S : ser A) fresh ok bytes : ser_law S fresh ok bytes -> forall v b, Forall ok v -> pos b = length (str b) ->
  fold_left (fun b x => sv S x b) v b = {| str := str b ++ concat (map bytes v); pos := length (str b ++ concat (map bytes v)) |}.
Proof.
  intros [L _]. induction v as [|x v IH]; intros b F P; cbn [fold_left map concat].
  - rewrite app_nil_r. rewrite <- P. destruct b; reflexivity.
  - inversion F; subst. rewrite L by assumption. rewrite IH by (auto; reflexivity). cbn [str]. rewrite <- app_assoc. reflexivity.
Qed.

Lemma load_elems_spec {A} (S : ser A) fresh ok bytes : ser_law S fresh ok bytes -> forall v olds pre post,
  Forall ok v -> length olds = length v -> Forall fresh olds ->
  load_elems S olds {| str := pre ++ concat (map bytes v) ++ post; pos := length pre |} =
  Ok (v, {| str := pre ++ concat (map bytes v) ++ post; pos := (length pre + length (concat (map bytes v)))%nat |}).
Proof.
  intros [_ L]. induction v as [|x v IH]; intros [|o olds] pre post F Le Fo; cbn in Le; try lia; cbn [load_elems map concat].
  - cbn. rewrite Nat.add_0_r. reflexivity.
  - inversion F; inversion Fo; subst. rewrite <- app_assoc. rewrite L by assumption. cbn [bind].
    specialize (IH olds (pre ++ bytes x) post). rewrite <- !app_assoc in IH. rewrite app_length in IH.
    rewrite IH by auto. cbn [bind]. rewrite app_length, Nat.add_assoc. reflexivity.
Qed.

Lemma vec_law {A} (d0 : A) (S : ser A) (fresh ok : A -> Prop) bytes : ser_law S fresh ok bytes -> fresh d0 ->
  ser_law (ser_vec d0 S) (Forall fresh) (fun v => Forall ok v /\ is_u64 (Z.of_nat (length v)))
    (fun v => le_enc 8 (Z.of_nat (length v)) ++ concat (map bytes v)).
Proof.
  intros L F0. destruct size_t_law as [S1 S2]. split.
  - intros v b [F U] P. cbn [sv ser_vec]. rewrite S1 by assumption.
    rewrite (save_elems _ _ _ _ L) by (auto; reflexivity). cbn [str]. rewrite <- app_assoc. reflexivity.
  - intros v old pre post [F U] Fo. cbn [ld ser_vec]. rewrite <- app_assoc.
    rewrite S2 by (auto; exact I). cbn [bind]. rewrite Nat2Z.id.
    pose proof (load_elems_spec _ _ _ _ L v (resize d0 old (length v)) (pre ++ le_enc 8 (Z.of_nat (length v))) post) as LE.
    rewrite <- !app_assoc, app_length in LE. rewrite LE; auto.
    + rewrite app_length, Nat.add_assoc. reflexivity.
    + apply resize_length.
    + unfold resize. apply Forall_app. split.
      * apply Forall_forall. intros x I. rewrite Forall_forall in Fo. apply Fo.
        rewrite <- (firstn_skipn (length v) old). apply in_app_iff. left; exact I.
      * apply Forall_forall. intros x I. apply repeat_spec in I. subst. exact F0.
Qed.

Lemma pair_law {A B} (SA : ser A) (SB : ser B) fa fb oa ob ba bb :
  ser_law SA fa oa ba -> ser_law SB fb ob bb ->
  ser_law (ser_pair SA SB) (fun p => fa (fst p) /\ fb (snd p)) (fun p => oa (fst p) /\ ob (snd p))
    (fun p => ba (fst p) ++ bb (snd p)).
Proof.
  intros [A1 A2] [B1 B2]. split.
  - intros [x y] b [Ox Oy] P. cbn [sv ser_pair fst snd] in *. rewrite A1 by assumption. rewrite B1 by (auto; reflexivity).
    cbn [str]. rewrite <- app_assoc. reflexivity.
  - intros [x y] [ox oy] pre post [Ox Oy] [Fx Fy]. cbn [ld ser_pair fst snd] in *. rewrite <- app_assoc.
    rewrite A2 by assumption. cbn [bind]. specialize (B2 y oy (pre ++ ba x) post Oy Fy).
    rewrite <- !app_assoc, app_length in B2. rewrite B2. cbn [bind]. rewrite app_length, Nat.add_assoc. reflexivity.
Qed.

(** maps and sets: loading into an empty container *)
Section MapLaw.
  Context {K V : Type} `{OrdKey K} (k0 : K) (v0 : V) (SK : ser K) (SV : ser V).
  Context (fk ok : K -> Prop) (fv ov : V -> Prop) (bk : K -> list Z) (bv : V -> list Z).

  Lemma mset_max k v (m : list (K * V)) : (forall x, In x (mkeys m) -> klt x k) -> mset k v m = m ++ [(k, v)].
  Proof.
    induction m as [|[k1 v1] m IH]; intros Q; cbn [mset app]; [reflexivity|].
    assert (L : klt k1 k) by (apply Q; left; reflexivity).
    assert (Ge : kcmp k k1 = Gt) by (apply kcmp_gt; exact L).
    rewrite Ge. f_equal. apply IH. intros x I. apply Q. right; exact I.
  Qed.
  Lemma mfind_above k (m : list (K * V)) : (forall x, In x (mkeys m) -> klt x k) -> mfind k m = None.
  Proof.
    intros Q. destruct (mfind k m) as [v|] eqn:E; [|reflexivity].
    exfalso. assert (I : In k (mkeys m)) by (apply mfind_In_keys; eauto). apply Q in I. eapply klt_irrefl; exact I.
  Qed.

  Lemma load_map_spec : ser_law SK fk ok bk -> ser_law SV fv ov bv -> fk k0 -> fv v0 ->
    forall m acc pre post, msorted (acc ++ m) -> Forall (fun kv => ok (fst kv) /\ ov (snd kv)) m ->
    let bs := concat (map (fun p => bk (fst p) ++ bv (snd p)) m) in
    load_map k0 v0 SK SV (length m) acc {| str := pre ++ bs ++ post; pos := length pre |} =
    Ok (acc ++ m, {| str := pre ++ bs ++ post; pos := (length pre + length bs)%nat |}).
  Proof.
    intros [_ LK] [_ LV] F0 G0. induction m as [|[k v] m IH]; intros acc pre post So F bs; unfold bs; cbn [length load_map map concat fst snd].
    - rewrite app_nil_r. cbn. rewrite Nat.add_0_r. reflexivity.
    - inversion F as [|? ? [F1 F2] F']; subst. cbn [fst snd] in *. rewrite <- !app_assoc.
      rewrite LK by assumption. cbn [bind].
      assert (Q : forall x, In x (mkeys acc) -> klt x k).
      { intros x I. unfold msorted, mkeys, sorted in So. rewrite map_app in So. cbn [map fst] in So.
        clear - So I. unfold mkeys in I. induction (map fst acc) as [|y l IHl]; [destruct I|].
        cbn [app] in So. inversion So as [|? ? So' Fy]; subst. destruct I as [->|I]; [|apply IHl; assumption].
        rewrite Forall_forall in Fy. apply Fy. apply in_app_iff. right; left; reflexivity. }
      rewrite mfind_above by exact Q.
      pose proof (LV v v0 (pre ++ bk k)) as LV1. rewrite app_length in LV1.
      specialize (LV1 (concat (map (fun p => bk (fst p) ++ bv (snd p)) m) ++ post) F2 G0). rewrite <- !app_assoc in LV1.
      rewrite LV1. cbn [bind]. rewrite mset_max by exact Q.
      specialize (IH (acc ++ [(k, v)]) (pre ++ bk k ++ bv v) post). rewrite <- !app_assoc in IH. cbn [app] in IH.
      rewrite !app_length in IH. rewrite Nat.add_assoc in IH. rewrite IH by assumption.
      rewrite !app_length.
      match goal with |- Ok (_, {| str := _; pos := ?a |}) = Ok (_, {| str := _; pos := ?b |}) => replace b with a by lia; reflexivity end.
  Qed.

  Lemma map_law : ser_law SK fk ok bk -> ser_law SV fv ov bv -> fk k0 -> fv v0 ->
    ser_law (ser_map k0 v0 SK SV) (fun m => m = [])
      (fun m => msorted m /\ Forall (fun kv => ok (fst kv) /\ ov (snd kv)) m /\ is_u64 (Z.of_nat (length m)))
      (fun m => le_enc 8 (Z.of_nat (length m)) ++ concat (map (fun p => bk (fst p) ++ bv (snd p)) m)).
  Proof.
    intros LK LV F0 G0. destruct size_t_law as [S1 S2]. split.
    - intros m b [So [F U]] P. cbn [sv ser_map]. rewrite S1 by assumption.
      pose proof (pair_law SK SV _ _ _ _ _ _ LK LV) as LP.
      rewrite (save_elems _ _ _ _ LP) by (auto; reflexivity). cbn [str]. rewrite <- app_assoc. reflexivity.
    - intros m old pre post [So [F U]] ->. cbn [ld ser_map]. rewrite <- app_assoc.
      rewrite S2 by (auto; exact I). cbn [bind]. rewrite Nat2Z.id.
      pose proof (load_map_spec LK LV F0 G0 m [] (pre ++ le_enc 8 (Z.of_nat (length m))) post So F) as LM.
      cbn zeta in LM. rewrite <- !app_assoc, app_length in LM. rewrite LM. rewrite app_length, Nat.add_assoc. reflexivity.
  Qed.

  Lemma sins_max (k : K) (m : list K) : (forall x, In x m -> klt x k) -> sins k m = m ++ [k].
  Proof.
    induction m as [|k1 m IH]; intros Q; cbn [sins app]; [reflexivity|].
    assert (L : klt k1 k) by (apply Q; left; reflexivity).
    assert (Ge : kcmp k k1 = Gt) by (apply kcmp_gt; exact L).
    rewrite Ge. f_equal. apply IH. intros x I. apply Q. right; exact I.
  Qed.
  Lemma load_set_spec : ser_law SK fk ok bk -> fk k0 ->
    forall m acc pre post, sorted (acc ++ m) -> Forall ok m ->
    let bs := concat (map bk m) in
    load_set k0 SK (length m) acc {| str := pre ++ bs ++ post; pos := length pre |} =
    Ok (acc ++ m, {| str := pre ++ bs ++ post; pos := (length pre + length bs)%nat |}).
  Proof.
    intros [_ LK] F0. induction m as [|k m IH]; intros acc pre post So F bs; unfold bs; cbn [length load_set map concat].
    - rewrite app_nil_r. cbn. rewrite Nat.add_0_r. reflexivity.
    - inversion F as [|? ? F1 F']; subst. rewrite <- !app_assoc.
      rewrite LK by assumption. cbn [bind].
      assert (Q : forall x, In x acc -> klt x k).
      { intros x I. unfold sorted in So.
        clear - So I. induction acc as [|y l IHl]; [destruct I|].
        cbn [app] in So. inversion So as [|? ? So' Fy]; subst. destruct I as [->|I]; [|apply IHl; assumption].
        rewrite Forall_forall in Fy. apply Fy. apply in_app_iff. right; left; reflexivity. }
      rewrite sins_max by exact Q.
      specialize (IH (acc ++ [k]) (pre ++ bk k) post). cbn zeta in IH. rewrite <- !app_assoc in IH. cbn [app] in IH.
      rewrite !app_length in IH. rewrite IH by assumption.
      rewrite !app_length.
      match goal with |- Ok (_, {| str := _; pos := ?a |}) = Ok (_, {| str := _; pos := ?b |}) => replace b with a by lia; reflexivity end.
  Qed.
  Lemma set_law : ser_law SK fk ok bk -> fk k0 ->
    ser_law (ser_set k0 SK) (fun m => m = []) (fun m => sorted m /\ Forall ok m /\ is_u64 (Z.of_nat (length m)))
      (fun m => le_enc 8 (Z.of_nat (length m)) ++ concat (map bk m)).
  Proof.
    intros LK F0. destruct size_t_law as [S1 S2]. split.
    - intros m b [So [F U]] P. cbn [sv ser_set]. rewrite S1 by assumption.
      rewrite (save_elems _ _ _ _ LK) by (auto; reflexivity). cbn [str]. rewrite <- app_assoc. reflexivity.
    - intros m old pre post [So [F U]] ->. cbn [ld ser_set]. rewrite <- app_assoc.
      rewrite S2 by (auto; exact I). cbn [bind]. rewrite Nat2Z.id.
      pose proof (load_set_spec LK F0 m [] (pre ++ le_enc 8 (Z.of_nat (length m))) post So F) as LM.
      cbn zeta in LM. rewrite <- !app_assoc, app_length in LM. rewrite LM. rewrite app_length, Nat.add_assoc. reflexivity.
  Qed.
End MapLaw.

Lemma Forall_anyone {A} (l : list A) : Forall anyone l.
Proof. apply Forall_forall. intros; exact I. Qed.

Lemma nd_law {A} (d0 : A) (S : ser A) ok bytes : ser_law S anyone ok bytes ->
  ser_law (ser_nd d0 S) anyone (nd_fits ok)
    (fun a => (le_enc 8 (Z.of_nat (length (dims a))) ++ concat (map (le_enc 8) (dims a))) ++
              (le_enc 8 (Z.of_nat (length (strd a))) ++ concat (map (le_enc 8) (strd a))) ++
              le_enc 8 (ncd a) ++ [if tv a then 1 else 0] ++
              (le_enc 8 (Z.of_nat (length (buf a))) ++ concat (map bytes (buf a)))).
Proof.
  intros L. pose proof (vec_law 0 _ _ _ _ size_t_law I) as LV. pose proof (vec_law d0 _ _ _ _ L I) as LB.
  destruct LV as [V1 V2]. destruct LB as [B1 B2]. destruct size_t_law as [S1 S2]. destruct bool_law as [T1 T2].
  split.
  - intros a b [F1 [F2 [F3 [F4 [F5 [F6 F7]]]]]] P. cbn [sv ser_nd].
    rewrite (V1 (dims a)) by auto. rewrite (V1 (strd a)) by (auto; reflexivity). rewrite S1 by (auto; reflexivity).
    rewrite T1 by (try exact I; reflexivity). rewrite B1 by (auto; reflexivity). cbn [str]. rewrite <- !app_assoc. reflexivity.
  - intros a old pre post [F1 [F2 [F3 [F4 [F5 [F6 F7]]]]]] _. cbn [ld ser_nd].
    set (b1 := le_enc 8 (Z.of_nat (length (dims a))) ++ concat (map (le_enc 8) (dims a))).
    set (b2 := le_enc 8 (Z.of_nat (length (strd a))) ++ concat (map (le_enc 8) (strd a))).
    set (b3 := le_enc 8 (ncd a)). set (b4 := [if tv a then 1 else 0]).
    set (b5 := le_enc 8 (Z.of_nat (length (buf a))) ++ concat (map bytes (buf a))).
    rewrite <- !app_assoc.
    pose proof (V2 (dims a) (dims old) pre (b2 ++ b3 ++ b4 ++ b5 ++ post) (conj F1 F2) (Forall_anyone _)) as E1. fold b1 in E1.
    pose proof (V2 (strd a) (strd old) (pre ++ b1) (b3 ++ b4 ++ b5 ++ post) (conj F3 F4) (Forall_anyone _)) as E2. fold b2 in E2.
    pose proof (S2 (ncd a) (ncd old) (pre ++ b1 ++ b2) (b4 ++ b5 ++ post) F5 I) as E3. fold b3 in E3.
    pose proof (T2 (tv a) (tv old) (pre ++ b1 ++ b2 ++ b3) (b5 ++ post) I I) as E4. fold b4 in E4.
    pose proof (B2 (buf a) (buf old) (pre ++ b1 ++ b2 ++ b3 ++ b4) post (conj F6 F7) (Forall_anyone _)) as E5. fold b5 in E5.
    repeat rewrite <- app_assoc in E2. repeat rewrite <- app_assoc in E3. repeat rewrite <- app_assoc in E4. repeat rewrite <- app_assoc in E5. rewrite !app_length in *. rewrite !Nat.add_assoc in *.
    rewrite E1. cbn [bind]. rewrite E2. cbn [bind]. rewrite E3. cbn [bind]. rewrite E4. cbn [bind]. rewrite E5. cbn [bind].
    destruct a. reflexivity.
Qed.

(** Saving any number of objects and loading them back in order consumes exactly the bytes written. *)
Lemma sequence_roundtrip {A} (S : ser A) fresh ok bytes : ser_law S fresh ok bytes ->
  forall xs olds pre, Forall ok xs -> length olds = length xs -> Forall fresh olds ->
  let b := save_all S xs {| str := pre; pos := length pre |} in
  load_all S olds {| str := str b; pos := length pre |} = Ok (xs, {| str := str b; pos := length (str b) |}).
Proof.
  intros L xs olds pre F Le Fo b. unfold b, save_all. rewrite (save_elems _ _ _ _ L) by (auto; reflexivity). cbn [str].
  pose proof (load_elems_spec _ _ _ _ L xs olds pre [] F Le Fo) as E. rewrite app_nil_r in E.
  unfold load_all. rewrite E. rewrite app_length. reflexivity.
Qed.

Lemma nd_roundtrip_lemma {A} (d0 : A) sz (enc : A -> list Z) dec (ok : A -> Prop) :
  (forall x, ok x -> length (enc x) = sz /\ dec (enc x) = x) ->
  forall xs olds pre, Forall (nd_fits ok) xs -> length olds = length xs ->
  let S := ser_nd d0 (ser_pod sz enc dec) in
  let b := save_all S xs {| str := pre; pos := length pre |} in
  load_all S olds {| str := str b; pos := length pre |} = Ok (xs, {| str := str b; pos := length (str b) |}).
Proof.
  intros C xs olds pre F Le S b. eapply sequence_roundtrip; [apply nd_law, pod_law; exact C|exact F|exact Le|apply Forall_anyone].
Qed.

(** The map serializer, one element: [unserializeFromString (serializeToString m)] restores [m]. *)
Lemma string_roundtrip {A} (S : ser A) fresh ok bytes x old : ser_law S fresh ok bytes -> ok x -> fresh old ->
  unserialize_from_string S old (serialize_to_string S x) = Ok x.
Proof.
  intros [L1 L2] O F. unfold unserialize_from_string, serialize_to_string. rewrite L1 by (auto; reflexivity). cbn [str app].
  specialize (L2 x old [] [] O F). cbn [app length] in L2. rewrite app_nil_r in L2. rewrite L2. reflexivity.
Qed.
Lemma nd_string_roundtrip_lemma {A} (d0 : A) sz (enc : A -> list Z) dec (ok : A -> Prop) :
  (forall x, ok x -> length (enc x) = sz /\ dec (enc x) = x) ->
  forall x old, nd_fits ok x ->
  let S := ser_nd d0 (ser_pod sz enc dec) in
  unserialize_from_string S old (serialize_to_string S x) = Ok x.
Proof. intros C x old F S. eapply string_roundtrip; [apply nd_law, pod_law; exact C|exact F|exact I]. Qed.
