(** Lemmas about [UMesh2]: the arrays derived from the edges. *)
From Coq Require Import ZArith.
From Verif Require Import Base UnionFind UnionFindProofs SoS UMesh2 UMesh2Proofs UMesh2Edges.
Local Open Scope Z_scope.

Definition sd (side : smap Z (sset Z)) (id : Z) : sset Z := match mfind id side with Some t => t | None => [] end.
Lemma sd_spec n2 P ids count side te id : einv n2 P (ids, count, side, te) -> sorted (sd side id) /\ forall t, In t (sd side id) <-> exists k key, P t k key /\ mfind key ids = Some id.
Proof.
  intros (A & B & C & D & F & G & H & I & J & K). unfold sd. split; [destruct (mfind id side) eqn:E; [exact (J _ _ E)|constructor]|]. intros t. rewrite <- I. destruct (mfind id side) as [s|]; split; [intros Y; eauto|intros (s' & Es & Y); injection Es as <-; exact Y|intros []|intros (s' & Es & _); discriminate].
Qed.
Lemma sd_short n0 T ids count side te id : well_formed n0 T -> einv (length T) (has_edge T (Z.of_nat (length T))) (ids, count, side, te) -> (length (sd side id) <= 2)%nat.
Proof.
  intros W E. destruct (sd_spec _ _ _ _ _ _ id E) as [So In_]. pose proof (sorted_NoDup _ So) as ND. destruct E as (_ & _ & _ & _ & _ & _ & Inj & _).
  destruct (sd side id) as [|t1 [|t2 [|t3 l]]]; cbn; try lia. exfalso.
  destruct (proj1 (In_ t1)) as (k1 & [u v] & P1 & M1); [cbn; auto|]. destruct (proj1 (In_ t2)) as (k2 & key2 & P2 & M2); [cbn; auto|]. destruct (proj1 (In_ t3)) as (k3 & key3 & P3 & M3); [cbn; auto|].
  rewrite (Inj _ _ _ M2 M1) in P2. rewrite (Inj _ _ _ M3 M1) in P3. pose proof (proj1 (has_edge_corners n0 T t1 u v W) ltac:(eauto)) as (L & A1 & B1). pose proof (proj1 (has_edge_corners n0 T t2 u v W) ltac:(eauto)) as (_ & A2 & B2). pose proof (proj1 (has_edge_corners n0 T t3 u v W) ltac:(eauto)) as (_ & A3 & B3).
  destruct W as (_ & _ & _ & W). assert (u <> v) as Nuv by lia. inversion ND as [|? ? N1 ND2]; subst. inversion ND2 as [|? ? N2 _]; subst. cbn in N1, N2. destruct (W u v t1 t2 t3 Nuv A1 B1 A2 B2 A3 B3) as [->|[->| ->]]; tauto.
Qed.
Lemma put_sides_ok id l ts : 0 <= id -> 2 * id + 1 < Z.of_nat (length l) -> (length ts <= 2)%nat -> zget l (0 + 2 * id) = Ok (-1) -> zget l (1 + 2 * id) = Ok (-1) ->
  exists l', put_sides 0 id ts l = Ok l' /\ length l' = length l /\ zget l' (0 + 2 * id) = Ok (nth 0 ts (-1)) /\ zget l' (1 + 2 * id) = Ok (nth 1 ts (-1)) /\ forall j, j <> 0 + 2 * id -> j <> 1 + 2 * id -> zget l' j = zget l j.
Proof.
  intros Hid Hl Ht E0 E1. destruct ts as [|t1 [|t2 [|t3 ts]]]; cbn in Ht; try lia; cbn [put_sides].
  - exists l. auto 6.
  - destruct (zput_ok l (0 + 2 * id) t1) as (l1 & -> & L1 & G1); [lia|]. cbn [bind]. exists l1. split; [reflexivity|]. split; [exact L1|]. rewrite !G1, Z.eqb_refl. destruct (Z.eqb_spec (1 + 2 * id) (0 + 2 * id)); [lia|]. split; [reflexivity|]. split; [exact E1|]. intros j N _. rewrite G1. destruct (Z.eqb_spec j (0 + 2 * id)); [contradiction|reflexivity].
  - destruct (zput_ok l (0 + 2 * id) t1) as (l1 & -> & L1 & G1); [lia|]. cbn [bind]. destruct (zput_ok l1 (0 + 1 + 2 * id) t2) as (l2 & -> & L2 & G2); [lia|]. cbn [bind]. exists l2. split; [reflexivity|]. split; [congruence|]. rewrite !G2, !G1, Z.eqb_refl. destruct (Z.eqb_spec (0 + 2 * id) (0 + 1 + 2 * id)); [lia|]. destruct (Z.eqb_spec (1 + 2 * id) (0 + 1 + 2 * id)); [|lia]. split; [reflexivity|]. split; [reflexivity|]. intros j N N'. rewrite G2, G1. destruct (Z.eqb_spec j (0 + 1 + 2 * id)); [lia|]. destruct (Z.eqb_spec j (0 + 2 * id)); [contradiction|reflexivity].
Qed.
Lemma fill_loop n0 T ids count side te : well_formed n0 T -> einv (length T) (has_edge T (Z.of_nat (length T))) (ids, count, side, te) ->
  exists es eo, for_in (fill_step side) ids (repeat 0 (2 * length ids), repeat (-1) (2 * length ids)) = Ok (es, eo) /\ length es = (2 * length ids)%nat /\ length eo = (2 * length ids)%nat /\
  forall u v id, mfind (u, v) ids = Some id -> zget es (0 + 2 * id) = Ok u /\ zget es (1 + 2 * id) = Ok v /\ zget eo (0 + 2 * id) = Ok (nth 0 (sd side id) (-1)) /\ zget eo (1 + 2 * id) = Ok (nth 1 (sd side id) (-1)).
Proof.
  intros W E. pose proof (fun id => sd_short n0 T ids count side te id W E) as Sh. destruct E as (A & B & C & D & F & G & H & I & J & K).
  destruct (for_in_inv (fill_step side) (fun d s => let (es, eo) := s in length es = (2 * length ids)%nat /\ length eo = (2 * length ids)%nat /\
    (forall u v id, In (u, v, id) d -> zget es (0 + 2 * id) = Ok u /\ zget es (1 + 2 * id) = Ok v /\ zget eo (0 + 2 * id) = Ok (nth 0 (sd side id) (-1)) /\ zget eo (1 + 2 * id) = Ok (nth 1 (sd side id) (-1))) /\
    (forall id, 0 <= id < count -> ~ In id (map snd d) -> zget eo (0 + 2 * id) = Ok (-1) /\ zget eo (1 + 2 * id) = Ok (-1))) ids (repeat 0 (2 * length ids), repeat (-1) (2 * length ids))) as ([es eo] & R & Le & Lo & Hd & _).
  - split; [apply repeat_length|]. split; [apply repeat_length|]. split; [intros u v id []|]. intros id R _. split; apply zget_repeat; lia.
  - intros d [[u v] id] r [es eo] Ed (Le & Lo & Hd & Hn). cbn [fill_step]. 
    assert (Iu : In ((u, v), id) ids) by (rewrite Ed; apply in_or_app; cbn; auto). assert (Mu : mfind (u, v) ids = Some id) by (apply In_mfind; assumption). pose proof (F _ _ Mu) as Rid.
    assert (Nd : ~ In id (map snd d)).
    { intros X. apply in_map_iff in X. destruct X as ([key id'] & X & Y). cbn in X. subst id'. assert (mfind key ids = Some id) as Mk by (apply In_mfind; [assumption|rewrite Ed; apply in_or_app; auto]). pose proof (H _ _ _ Mk Mu) as ->. pose proof (sorted_NoDup _ A) as ND. unfold mkeys in ND. rewrite Ed, map_app in ND. cbn [map fst] in ND. apply NoDup_remove_2 in ND. apply ND. apply in_or_app. left. apply in_map_iff. exists (u, v, id). auto. }
    destruct (zput_ok es (0 + 2 * id) u) as (e1 & -> & L1 & G1); [lia|]. cbn [bind]. destruct (zput_ok e1 (1 + 2 * id) v) as (e2 & -> & L2 & G2); [lia|]. cbn [bind]. destruct (Hn id Rid Nd) as [Z0 Z1]. match goal with |- context[put_sides 0 id ?t eo] => change t with (sd side id) end.
    destruct (put_sides_ok id eo (sd side id)) as (o' & -> & Lo' & P0 & P1 & Po); [lia|lia|apply Sh|exact Z0|exact Z1|]. cbn [bind]. eexists. split; [reflexivity|]. cbn beta iota. split; [congruence|]. split; [congruence|]. split.
    + intros u' v' id' X. apply in_app_or in X. destruct X as [X|[X|[]]].
      * assert (N : id' <> id) by (intros ->; apply Nd; apply in_map_iff; exists (u', v', id); auto). destruct (Hd _ _ _ X) as (Y1 & Y2 & Y3 & Y4). 
        rewrite !G2, !G1, !Po by lia. destruct (Z.eqb_spec (0 + 2 * id') (1 + 2 * id)); [lia|]. destruct (Z.eqb_spec (0 + 2 * id') (0 + 2 * id)); [lia|]. destruct (Z.eqb_spec (1 + 2 * id') (1 + 2 * id)); [lia|]. destruct (Z.eqb_spec (1 + 2 * id') (0 + 2 * id)); [lia|]. auto.
      * injection X as <- <- <-.  rewrite !G2, !G1. rewrite Z.eqb_refl. destruct (Z.eqb_spec (0 + 2 * id) (1 + 2 * id)); [lia|]. rewrite Z.eqb_refl. auto.
    + intros id' Rid' N.  rewrite map_app in N. assert (id' <> id /\ ~ In id' (map snd d)) as [N1 N2] by (split; intros X; apply N, in_or_app; [right; cbn; auto|left; exact X]). rewrite !Po by lia. apply Hn; assumption.
  - exists es, eo. split; [exact R|]. split; [exact Le|]. split; [exact Lo|]. intros u v id M. apply Hd, mfind_In, M.
Qed.
Lemma vert_loop n0 (ids : smap (Z * Z) Z) : (forall u v id, In (u, v, id) ids -> 0 <= u < Z.of_nat n0 /\ 0 <= v < Z.of_nat n0) ->
  exists vo ve, for_in vert_step ids (repeat [] n0, repeat [] n0) = Ok (vo, ve) /\ length vo = n0 /\ length ve = n0 /\
  (forall w e, zin vo w e <-> exists u v, In (u, v, e) ids /\ (w = u \/ w = v)) /\ (forall w x, zin ve w x <-> exists e, In (w, x, e) ids \/ In (x, w, e) ids).
Proof.
  intros R. destruct (for_in_inv vert_step (fun d s => let (vo, ve) := s in length vo = n0 /\ length ve = n0 /\ (forall w e, zin vo w e <-> exists u v, In (u, v, e) d /\ (w = u \/ w = v)) /\ (forall w x, zin ve w x <-> exists e, In (w, x, e) d \/ In (x, w, e) d)) ids (repeat [] n0, repeat [] n0)) as ([vo ve] & E & H).
  - split; [apply repeat_length|]. split; [apply repeat_length|]. split; intros w e; (split; [intros X; destruct (zin_repeat _ _ _ X)|]); [intros (u & v & [] & _)|intros (x & [[]|[]])].
  - intros d [[u v] id] r [vo ve] Ed (Lo & Le & Ho & He). cbn [vert_step]. destruct (R u v id) as [Ru Rv]; [rewrite Ed; apply in_or_app; cbn; auto|].
    destruct (vins_ok vo u id) as (o1 & -> & L1 & H1); [lia|]. cbn [bind]. destruct (vins_ok o1 v id) as (o2 & -> & L2 & H2); [lia|]. cbn [bind]. destruct (vins_ok ve u v) as (e1 & -> & L3 & H3); [lia|]. cbn [bind]. destruct (vins_ok e1 v u) as (e2 & -> & L4 & H4); [lia|]. cbn [bind].
    eexists. split; [reflexivity|]. cbn beta iota. split; [congruence|]. split; [congruence|]. split.
    + intros w e. rewrite H2, H1, Ho. split.
      * intros [[(u' & v' & X & Y)|[-> ->]]|[-> ->]]; [exists u', v'|exists u, v|exists u, v]; (split; [apply in_or_app; cbn; auto|auto]).
      * intros (u' & v' & X & Y). apply in_app_or in X. destruct X as [X|[X|[]]]; [left; left; eauto|]. injection X as <- <- <-. destruct Y as [->| ->]; auto.
    + intros w x. rewrite H4, H3, He. split.
      * intros [[(e & [X|X])|[-> ->]]|[-> ->]]; [exists e; left|exists e; right|exists id; left|exists id; right]; apply in_or_app; cbn; auto.
      * intros (e & [X|X]); apply in_app_or in X; (destruct X as [X|[X|[]]]; [left; left; eauto|injection X as <- <- <-; auto]).
  - exists vo, ve. split; [exact E|exact H].
Qed.
(** an edge has at most two triangles, a triangle three edges *)
Lemma count_le n0 T ids count side te : well_formed n0 T -> einv (length T) (has_edge T (Z.of_nat (length T))) (ids, count, side, te) -> (3 * length T <= 2 * length ids)%nat.
Proof.
  intros W E. pose proof (fun id => sd_short n0 T ids count side te id W E) as Sh. pose proof (fun id => sd_spec _ _ _ _ _ _ id E) as Sd. destruct E as (A & B & C & D & F & G & H & I & J & K).
  set (idof q := match zget te (q mod 3 + 3 * (q / 3)) with Ok e => e | _ => 0 end). set (f q := 2 * idof q + (if hd (-1) (sd side (idof q)) =? q / 3 then 0 else 1)).
  assert (Q : forall q, In q (zseq (3 * length T)) -> exists key, has_edge T (Z.of_nat (length T)) (q / 3) (q mod 3) key /\ mfind key ids = Some (idof q)).
  { intros q Hq. apply zseq_in in Hq. pose proof (Z.div_mod q 3 ltac:(lia)) as Dm. pose proof (Z.mod_pos_bound q 3 ltac:(lia)) as Mb. assert (R : 0 <= q / 3 < Z.of_nat (length T)) by lia. destruct (tri_at_ok T _ R) as ([[a b] c] & Et).
    assert (X : exists key, has_edge T (Z.of_nat (length T)) (q / 3) (q mod 3) key).
    { unfold has_edge. destruct (srt (a, b, c)) as [[x y] z] eqn:Es. assert (q mod 3 = 0 \/ q mod 3 = 1 \/ q mod 3 = 2) as [->|[->| ->]] by lia; [exists (x, y)|exists (y, z)|exists (x, z)]; (split; [exact R|]); exists (a, b, c); rewrite Es; (split; [exact Et|]); auto. }
    destruct X as (key & X). exists key. split; [exact X|]. destruct (K _ _ _ X) as (_ & _ & id & M & Z). unfold idof. rewrite Z. exact M. }
  assert (N : NoDup (map f (zseq (3 * length T)))).
  { apply NoDup_map_in; [apply zseq_NoDup|]. intros p q Hp Hq Ef. destruct (Q p Hp) as (kp & Pp & Mp). destruct (Q q Hq) as (kq & Pq & Mq). unfold f in Ef.
    assert (Ei : idof p = idof q) by (destruct (_ =? p / 3), (_ =? q / 3); lia). rewrite Ei in *. pose proof (H _ _ _ Mp Mq) as ->. destruct (Sd (idof q)) as [So Si]. pose proof (Sh (idof q)) as Sl.
    assert (Ip : In (p / 3) (sd side (idof q))) by (apply Si; eauto). assert (Iq : In (q / 3) (sd side (idof q))) by (apply Si; eauto).
    assert (Et : p / 3 = q / 3). { destruct (sd side (idof q)) as [|t1 [|t2 [|t3 l]]]; cbn in *; try lia. destruct (Z.eqb_spec t1 (p / 3)), (Z.eqb_spec t1 (q / 3)); lia. }
    destruct Pp as [_ (tr & Etr & Pp)]. destruct Pq as [_ (tr' & Etr' & Pq)]. rewrite Et in Etr. rewrite Etr in Etr'. injection Etr' as <-. destruct tr as [[a b] c]. destruct W as (_ & Wd & _). destruct (srt_spec a b c (Wd _ _ Etr)) as (x & y & z & Es & Lt & _). rewrite Es in Pp, Pq.
    assert (p mod 3 = q mod 3). { destruct Pp as [[-> X]|[[-> X]|[-> X]]], Pq as [[-> Y]|[[-> Y]|[-> Y]]]; try reflexivity; rewrite X in Y; injection Y; lia. }
    rewrite (Z.div_mod p 3), (Z.div_mod q 3) by lia. congruence. }
  assert (Inc : incl (map f (zseq (3 * length T))) (zseq (2 * length ids))).
  { intros y Hy. apply in_map_iff in Hy. destruct Hy as (q & <- & Hq). destruct (Q q Hq) as (kq & _ & Mq). pose proof (F _ _ Mq). apply zseq_in. unfold f. destruct (_ =? q / 3); lia. }
  pose proof (NoDup_incl_length N Inc) as X. unfold zseq in X. rewrite !map_length, !seq_length in X. exact X.
Qed.
Lemma tet_loop n2 eo : (2 * n2 <= length eo)%nat -> (forall i x, zget eo i = Ok x -> x < Z.of_nat n2) -> exists s, for_in (tet_step eo) (zseq n2) (repeat [] n2) = Ok s /\ length s = n2.
Proof.
  intros L R. apply (for_z_inv (tet_step eo) n2 (fun _ s => length s = n2)); [apply repeat_length|]. intros i s Hi Hs. unfold tet_step.
  destruct (zget_ok eo (0 + 2 * i)) as (t0 & E0); [lia|]. destruct (zget_ok eo (1 + 2 * i)) as (t1 & E1); [lia|]. rewrite E0, E1. cbn [bind]. rewrite !Z.geb_leb. destruct (Z.leb_spec 0 t0), (Z.leb_spec 0 t1); cbn [andb]; eauto.
  pose proof (R _ _ E0). pose proof (R _ _ E1). destruct (vins_ok s t0 t1) as (s1 & -> & L1 & _); [lia|]. cbn [bind]. destruct (vins_ok s1 t1 t0) as (s2 & -> & L2 & _); [lia|]. exists s2. split; [reflexivity|congruence].
Qed.
