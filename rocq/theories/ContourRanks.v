(** Contour tracking on several ranks. *)
From Coq Require Import QArith Qabs Lia.
From Verif Require Import Base UnionFind Lattice LatticeSpec NdArray NdArraySpec ListOrd Parallel RegularMesh RegularMeshSpec MeshIndex FeatureCurve CpTracker CpTrackerSpec CpTrackerProofs CpTrackerRun CpExamples CpTraces CpRanks
  ContourTracker ContourSpec ContourProofs ContourMesh ContourRun ContourExamples.
Local Close Scope Q_scope. Local Open Scope Z_scope. Local Open Scope list_scope.

Lemma cscan_not_ok c th sn t k ks : In k ks -> check_edge c th (mkcs sn t [] []) k = UB -> forall st r, csnaps st = sn -> ccur st = t -> cscan c th st ks <> Ok r.
Proof.
  intros I U. induction ks as [|k' ks IH]; [destruct I|]. intros st r E1 E2. cbn [cscan].
  assert (F : check_edge c th st k' = check_edge c th (mkcs sn t [] []) k') by (rewrite check_frame; unfold frame; rewrite E1, E2; reflexivity).
  destruct (keqb k' k) eqn:Q; [apply keqb_eq in Q; subst k'|assert (N : k' <> k) by (intros ->; rewrite keqb_refl in Q; discriminate)].
  - rewrite F, U. discriminate.
  - destruct I as [I|I]; [contradiction|]. destruct (check_edge c th st k') as [[p|]| |]; cbn [bind]; try discriminate.
    + destruct (related c k') as [l| |]; cbn [bind]; try discriminate. apply IH; auto.
    + apply IH; auto.
Qed.
Lemma update_not_ok c c' th s t k o : config_ok c' -> sdim c' = sdim c -> local_domain c' = scan_domain c -> 0 <= t < 2 ^ 31 -> edge_starts c t k -> flat_type (S (sdim c)) 1 (snd k) -> check_edge c th (mkcs [s] t [] []) k = UB ->
  (exists tys, scope_types (S (sdim c)) 1 ScopeOrdinal = Ok tys /\ Permutation (fst o) (zseq (volume (scan_domain c) * Z.of_nat (length tys)))) -> forall r, cupdate_timestep c th (mkcs [s] t [] []) o <> Ok r.
Proof.
  intros OK D1 D2 Ht [K1 K2] Fl U (tys & Et & P) r. assert (Hd := ok_dim _ OK). rewrite D1 in Hd.
  destruct (slab_ok c' OK t Ht) as (S1 & S2 & S3 & S4). rewrite D2 in S1, S2, S3, S4. rewrite ?D1 in *.
  destruct (tasks_elements (S (sdim c)) 1 (scan_domain c ++ [(t, 1)]) ScopeOrdinal tys (fst o)) as (els & Ee & ND & Ie); try lia; auto.
  { rewrite S3. exact P. }
  unfold cupdate_timestep, cscan_scope. cbn [ccur]. rewrite Ee. cbn [bind].
  assert (I : In k (map key_of els)).
  { apply in_map_iff. exists (el 1 k). split; [destruct k; reflexivity|]. apply Ie. split; [exact K1|]. split; [reflexivity|].
    destruct (scopes_lemma (S (sdim c)) 1 ltac:(lia) ltac:(lia)) as (al & ord' & int' & Ea & Eo' & Ei' & _ & Al & _ & F). assert (ord' = tys) by congruence. subst ord'. apply F. split; [apply Al; exact K2|exact Fl]. }
  assert (N := cscan_not_ok c th [s] t k (map key_of els) I U (mkcs [s] t [] [])). destruct (cscan c th (mkcs [s] t [] []) (map key_of els)) as [st| |]; cbn [bind]; try discriminate.
  exfalso. apply (N st); reflexivity.
Qed.
Lemma run_not_ok c c' th s k o : config_ok c' -> sdim c' = sdim c -> local_domain c' = scan_domain c -> edge_starts c 0 k -> flat_type (S (sdim c)) 1 (snd k) -> check_edge c th (mkcs [s] 0 [] []) k = UB ->
  edges_scheduled c [mkr [s] o] -> forall fin r, crun c th (cinit 0) (commands fin [mkr [s] o]) <> Ok r.
Proof.
  intros OK D1 D2 K Fl U (ord & int & Eo & _ & SC) fin r. destruct (SC _ (or_introl eq_refl)) as [P _]. cbn [tasks] in P.
  assert (N := update_not_ok c c' th s 0 k o OK D1 D2 ltac:(lia) K Fl U (ex_intro _ ord (conj Eo P))).
  destruct fin; cbn -[cupdate_timestep]; unfold cadvance_timestep; cbn [cinit csnaps ccur inter cells app]; destruct (cupdate_timestep c th {| csnaps := [s]; ccur := 0; inter := []; cells := [] |} o) as [st| |] eqn:E; cbn [bind]; try discriminate; exfalso; exact (N st eq_refl).
Qed.

Lemma part_contains core dom d t x : Forall2 (fun l d => fst d <= fst l /\ 1 <= snd l /\ fst l + snd l <= fst d + snd d) core dom -> length dom = d ->
  (contains (core ++ [(t, 1)]) x = true <-> contains (dom ++ [(t, 1)]) x = true /\ contains core (firstn d x) = true).
Proof.
  intros Fl Ld. assert (Lc : length core = d) by (rewrite <- Ld; clear -Fl; induction Fl; cbn; congruence).
  rewrite !CpTrackerProofs.contains_nth. rewrite !app_length, firstn_length, Lc, Ld. cbn [length]. split.
  - intros [L H]. assert (Hc : forall i s n, nth_error core i = Some (s, n) -> s <= nth i x 0 < s + n) by (intros i s n E; apply H; rewrite nth_error_app1; [exact E|apply nth_error_Some; congruence]).
    split; [split; [exact L|]|split; [lia|]].
    + intros i s n E. destruct (Nat.lt_ge_cases i d) as [Hi|Hi].
      * rewrite nth_error_app1 in E by lia. destruct (nth_error core i) as [[s' n']|] eqn:E'; [|apply nth_error_None in E'; lia]. specialize (Hc i s' n' E'). apply Forall2_nth_error in Fl as [_ Fl]. specialize (Fl i (s', n') (s, n) E' E). cbn in Fl. lia.
      * apply H. rewrite nth_error_app2 in E by lia. rewrite nth_error_app2 by lia. rewrite Ld in E. rewrite Lc. exact E.
    + intros i s n E. assert ((i < d)%nat) by (rewrite <- Lc; apply nth_error_Some; congruence). rewrite nth_firstn0 by assumption. apply Hc, E.
  - intros [[L H] [_ Hc]]. split; [exact L|]. intros i s n E. destruct (Nat.lt_ge_cases i d) as [Hi|Hi].
    + rewrite nth_error_app1 in E by lia. specialize (Hc i s n E). rewrite nth_firstn0 in Hc by assumption. exact Hc.
    + apply H. rewrite nth_error_app2 in E by lia. rewrite nth_error_app2 by lia. rewrite Lc in E. rewrite Ld. exact E.
Qed.
(** several ranks, each with the whole array *)
Lemma rank_lemma c core th t0 rs rr fin : let cr := on_rank c core (local_array c) in
  contour_ok c -> contour_ok cr -> local_domain c = domain c -> Forall (scalars_ok c) (all_pushed rs) -> threshold_ok th -> timely rs -> edges_scheduled c rs ->
  map batch rr = map batch rs -> edges_scheduled cr rr -> 0 <= t0 -> t0 + Z.of_nat (length rs) < 2 ^ 31 ->
  exists st sr, crun c th (cinit t0) (commands fin rs) = Ok st /\ crun cr th (cinit t0) (commands fin rr) = Ok sr /\ msorted (inter st) /\ msorted (inter sr) /\
    forall k p, mfind k (inter sr) = Some p <-> mfind k (inter st) = Some p /\ (sdim c = 3%nat -> contains core (firstn 3 (fst k)) = true).
Proof.
  intros cr CO COr Wh SO TO TI SC B SCr T0 T1.
  assert (A : all_pushed rr = all_pushed rs) by (unfold all_pushed; rewrite B; reflexivity).
  assert (Af : forall i, all_pushed (firstn i rr) = all_pushed (firstn i rs)) by (intros i; unfold all_pushed; rewrite <- !firstn_map, B; reflexivity).
  assert (L : length rr = length rs) by (apply (f_equal (@length _)) in B; rewrite !map_length in B; congruence).
  assert (Pu : forall i, pushed rr i = pushed rs i) by (intros i; unfold pushed; rewrite Af; reflexivity).
  destruct (contour_lemma c th t0 rs CO SO TO TI SC T0 T1 fin) as (st & E & MS & _ & FD).
  destruct (contour_lemma cr th t0 rr) with (fin := fin) as (sr & E' & MS' & _ & FD'); auto.
  { rewrite A. exact SO. }
  { intros i Hi. rewrite L in Hi. rewrite Pu, A. apply TI. exact Hi. }
  { rewrite L. exact T1. }
  exists st, sr. split; [exact E|]. split; [exact E'|]. split; [exact MS|]. split; [exact MS'|]. intros k p. rewrite FD, FD', L.
  assert (ES : forall j, edge_starts cr (t0 + Z.of_nat j) k <-> edge_starts c (t0 + Z.of_nat j) k /\ (sdim c = 3%nat -> contains core (firstn 3 (fst k)) = true)).
  { intros j. destruct COr as [OKr _], CO as [OK _]. assert (Fl := ok_local _ OKr). destruct (ok_domain _ OK) as [Ld _]. cbn [scanning sdim domain] in Ld. destruct (ok_dim _ OK) as [Dd | Dd]; cbn [scanning sdim] in Dd.
    - unfold edge_starts, scan_domain. cbn [cr on_rank sdim domain]. rewrite Dd. split; [intros H; split; [exact H|discriminate]|tauto].
    - assert (Fl' : Forall2 (fun l d => fst d <= fst l /\ 1 <= snd l /\ fst l + snd l <= fst d + snd d) core (domain c)).
      { cbn [scanning local_domain domain] in Fl. unfold scan_domain in Fl. cbn [cr on_rank sdim domain local_domain] in Fl. rewrite Dd in Fl. exact Fl. }
      unfold edge_starts, scan_domain. cbn [cr on_rank sdim domain local_domain]. rewrite Dd, Wh. rewrite Dd in Ld.
      rewrite (part_contains core (domain c) 3 _ (fst k) Fl' Ld). split; [intros [[H1 H2] H3]; auto|intros [[H1 H2] H3]; auto]. }
  unfold cdetected, window. split.
  - intros (j & Hj & H1 & H2 & H3). apply ES in H1 as [H1 H4]. split; [|exact H4]. exists j. split; [exact Hj|]. rewrite ?Af, ?A, ?Pu in *. auto.
  - intros [(j & Hj & H1 & H2 & H3) H4]. exists j. split; [exact Hj|]. split; [apply ES; auto|]. rewrite ?Af, ?A, ?Pu in *. auto.
Qed.
(** a strip of 5 x 2 vertices and a block of 8 x 2 x 2 *)
Definition cstrip : config := mkcf 2 [(0, 5); (0, 2)] [(0, 5); (0, 2)] [(0, 5); (0, 2)] 0 4 None false.
Definition cblock : config := mkcf 3 [(0, 8); (0, 2); (0, 2)] [(0, 8); (0, 2); (0, 2)] [(0, 8); (0, 2); (0, 2)] 0 4 None false.
Lemma cstrip_ok : config_ok cstrip.
Proof.
  constructor; cbn -[Z.pow Z.add Z.mul]; [left; reflexivity|split; [reflexivity|vm_compute; reflexivity]|by_cases; cbn; lia| |lia|vm_compute; reflexivity].
  split; [reflexivity|]. intros i a l e H1 H2 H3. destruct i as [|[|i]]; cbn in *; [| |destruct i; discriminate]; injection H1 as <-; injection H2 as <-; injection H3 as <-; cbn; lia.
Qed.
Lemma cblock_ok : config_ok cblock.
Proof.
  constructor; cbn -[Z.pow Z.add Z.mul]; [right; reflexivity|split; [reflexivity|vm_compute; reflexivity]|by_cases; cbn; lia| |lia|vm_compute; reflexivity].
  split; [reflexivity|]. intros i a l e H1 H2 H3. destruct i as [|[|[|i]]]; cbn in *; [| | |destruct i; discriminate]; injection H1 as <-; injection H2 as <-; injection H3 as <-; cbn; lia.
Qed.
Definition strip_part : config := on_rank cstrip [(0, 2); (0, 2)] [(0, 4); (0, 2)].
Definition block_part : config := on_rank cblock [(4, 4); (0, 2); (0, 2)] [(2, 6); (0, 2); (0, 2)].
Lemma parts_ok : rank_parts 20 (domain cstrip) (local_array cstrip) true 2 0 = Ok (local_domain strip_part, local_array strip_part) /\
  rank_parts 20 (domain cblock) (local_array cblock) true 2 1 = Ok (local_domain block_part, local_array block_part) /\ config_ok strip_part /\ config_ok block_part.
Proof.
  assert (E1 : rank_parts 20 (domain cstrip) (local_array cstrip) true 2 0 = Ok (local_domain strip_part, local_array strip_part)) by (vm_compute; reflexivity).
  assert (E2 : rank_parts 20 (domain cblock) (local_array cblock) true 2 1 = Ok (local_domain block_part, local_array block_part)) by (vm_compute; reflexivity).
  split; [exact E1|]. split; [exact E2|].
  split; [refine (rank_parts_ok cstrip _ _ _ _ _ _ cstrip_ok eq_refl _ E1)|refine (rank_parts_ok cblock _ _ _ _ _ _ cblock_ok eq_refl _ E2)]; intros _; (split; [reflexivity|]; split; repeat constructor; cbn; lia).
Qed.
Definition strip_values : snapshot := arr [4; 2] [0; 0; 0; 0; 0; 0; 0; 0] 1.
Definition block_values : snapshot := arr [6; 2; 2] [0; 0; 0; 0; 0; 0; 0; 0; 0; 0; 0; 0; 0; 0; 0; 0; 0; 0; 0; 0; 0; 0; 0; 0] 1.
Lemma strip_part_not_ok fin o st : edges_scheduled strip_part [mkr [strip_values] o] -> crun strip_part 0 (cinit 0) (commands fin [mkr [strip_values] o]) <> Ok st.
Proof.
  intros SC. apply (run_not_ok strip_part cstrip 0 strip_values ([4; 0; 0], 1%nat)); [exact cstrip_ok|reflexivity|reflexivity|split; [reflexivity|vm_compute; lia]| |vm_compute; reflexivity|exact SC].
  eexists. split; [vm_compute; reflexivity|]. repeat constructor.
Qed.
Lemma block_part_not_ok fin o st : edges_scheduled block_part [mkr [block_values] o] -> crun block_part 0 (cinit 0) (commands fin [mkr [block_values] o]) <> Ok st.
Proof.
  intros SC. apply (run_not_ok block_part block_part 0 block_values ([7; 0; 1; 0], 3%nat)); [apply parts_ok|reflexivity|reflexivity|split; [reflexivity|vm_compute; lia]| |vm_compute; reflexivity|exact SC].
  eexists. split; [vm_compute; reflexivity|]. repeat constructor.
Qed.
