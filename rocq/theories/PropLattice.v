(** C05-C09: lattice and lattice_partitioner.  Statements only; proofs in [LatticeProofs] and
    [PartitionProofs]. *)
From Verif Require Import Base UnionFind Lattice LatticeSpec LatticeProofs PartitionProofs.
Local Open Scope Z_scope.

(** C05: for positive sizes, coordinates that fit an [int] and a point count that fits 64 bits,
    [to_integer]/[from_integer] are mutually inverse bijections between the contained points and
    [0 .. n()-1]. *)
Theorem C05_lattice_index_bijection : forall l,
  l <> [] -> lat_ok l = true -> volume l < 2 ^ 64 ->
  lat_n l = Ok (volume l) /\
  (forall x, contains l x = true ->
     0 <= to_integer l x < volume l /\ from_integer l (to_integer l x) = x) /\
  (forall i, 0 <= i < volume l ->
     contains l (from_integer l i) = true /\ to_integer l (from_integer l i) = i).
Proof. exact lattice_bijection_lemma. Qed.
Print Assumptions C05_lattice_index_bijection.

Example C05_nonvacuous : let l := [(2, 5); (0, 3); (7, 4)] in
  lat_ok l = true /\ volume l = 60 /\ to_integer l [4; 2; 9] = 42 /\ from_integer l 42 = [4; 2; 9].
Proof. vm_compute. auto. Qed.

(** C06: whenever cores are produced they tile the domain and are non-empty. *)
Theorem C06_cores_tile_the_domain : forall fuel l np given gl gh cores exts,
  1 <= np -> Forall (fun g => 0 <= g) given -> sizes_pos l ->
  partition fuel l np given gl gh = Ok (cores, exts) -> cores <> [] ->
  (forall x, contains l x = true -> count cores x = 1%nat) /\
  (forall b x, In b cores -> contains b x = true -> contains l x = true) /\
  (forall b, In b cores -> exists x, contains b x = true).
Proof. exact partition_tiles_lemma. Qed.
Print Assumptions C06_cores_tile_the_domain.

Example C06_nonvacuous :
  partition 20 [(2, 10); (0, 7)] 6 [] [1; 1] [2; 2] =
    Ok ([[(2, 3); (0, 3)]; [(2, 3); (3, 4)]; [(5, 3); (0, 3)]; [(5, 3); (3, 4)]; [(8, 4); (0, 3)]; [(8, 4); (3, 4)]],
        [[(2, 5); (0, 5)]; [(2, 5); (2, 5)]; [(4, 6); (0, 5)]; [(4, 6); (2, 5)]; [(7, 5); (0, 5)]; [(7, 5); (2, 5)]]).
Proof. vm_compute. reflexivity. Qed.

(** C07: exactly [np] blocks or none, one extent per core, for every request that returns. *)
Theorem C07_np_blocks_or_none : forall fuel l np given gl gh cores exts,
  Forall (fun g => 0 <= g) given ->
  partition fuel l np given gl gh = Ok (cores, exts) ->
  (cores = [] /\ exts = []) \/ (Z.of_nat (length cores) = np /\ length exts = length cores).
Proof. exact partition_count_lemma. Qed.
Print Assumptions C07_np_blocks_or_none.

(** C07, second half: "none" is not the only outcome.  Every well-formed request whose prescribed
    cuts divide [np] and whose dimensions are at least [np] long is granted. *)
Theorem C07_np_blocks_when_room : forall l np given gl gh,
  1 <= np -> (1 <= nd_cuttable l)%nat -> given_wf l given -> ghosts_ok l gl gh ->
  (is_vector_zero given = true \/
   ((given_product given | np) /\ (np = given_product given \/ existsb (fun g => g =? 0) given = true))) ->
  (forall d s z, (d < nd_cuttable l)%nat -> nth_error l d = Some (s, z) -> np <= z) ->
  exists F, forall fuel, (F <= fuel)%nat ->
    exists cores exts, partition fuel l np given gl gh = Ok (cores, exts) /\ Z.of_nat (length cores) = np.
Proof. exact partition_succeeds_lemma. Qed.
Print Assumptions C07_np_blocks_when_room.

Example C07_nonvacuous : let l := [(0, 20); (0, 20); (0, 2 ^ 31 - 1)] in
  given_wf l [3; 0] /\ (given_product [3; 0] | 12) /\ nd_cuttable l = 2%nat /\
  match partition 20 l 12 [3; 0] [] [] with Ok (c, e) => length c = 12%nat /\ c = e | _ => False end.
Proof.
  cbn zeta. split; [split; [repeat constructor; lia|right; reflexivity]|].
  split; [exists 4; reflexivity|]. vm_compute. auto.
Qed.

(** C08: the extent of a core is the core dilated by the ghost widths and clipped to the domain;
    dimensions that are not cut (unlimited time) are untouched. *)
Theorem C08_extent_is_clamped_dilation : forall l b gl gh,
  core_inside l b -> gl <> [] -> gh <> [] ->
  ghost_widths (nd_cuttable l) gl -> ghost_widths (nd_cuttable l) gh ->
  exists e, add_ghost l b gl gh = Ok e /\ length e = length l /\
    (forall d ls lz s z lo hi, (d < nd_cuttable l)%nat ->
       nth_error l d = Some (ls, lz) -> nth_error b d = Some (s, z) ->
       nth_error gl d = Some lo -> nth_error gh d = Some hi ->
       nth_error e d = Some (Z.max ls (s - lo), Z.min (ls + lz) (s + z + hi) - Z.max ls (s - lo))) /\
    (forall d, (nd_cuttable l <= d)%nat -> nth_error e d = nth_error b d) /\
    (forall x, contains e x = true <->
       length x = length l /\
       forall d ls lz s z c, nth_error l d = Some (ls, lz) -> nth_error b d = Some (s, z) -> nth_error x d = Some c ->
         if (d <? nd_cuttable l)%nat
         then ls <= c < ls + lz /\ forall lo hi, nth_error gl d = Some lo -> nth_error gh d = Some hi -> s - lo <= c < s + z + hi
         else s <= c < s + z).
Proof. exact add_ghost_lemma. Qed.
Print Assumptions C08_extent_is_clamped_dilation.

(** C08 for a whole request: extents are computed core by core with [add_ghost], every core
    satisfies its hypotheses, and without ghost widths the extents are the cores. *)
Theorem C08_extents_of_a_request : forall fuel l np given gl gh cores exts,
  1 <= np -> Forall (fun g => 0 <= g) given -> sizes_pos l ->
  (forall d s z, nth_error l d = Some (s, z) -> 0 <= s /\ s + z < 2 ^ 64) ->
  partition fuel l np given gl gh = Ok (cores, exts) ->
  Forall2 (fun c e => core_inside l c /\ add_ghost l c gl gh = Ok e) cores exts /\
  (gl = [] \/ gh = [] -> exts = cores).
Proof. exact partition_exts_lemma. Qed.
Print Assumptions C08_extents_of_a_request.

Example C08_nonvacuous :
  core_inside [(2, 10); (0, 7)] [(5, 3); (3, 4)] /\
  ghost_widths (nd_cuttable [(2, 10); (0, 7)]) [1; 1] /\
  add_ghost [(2, 10); (0, 7)] [(5, 3); (3, 4)] [1; 1] [2; 2] = Ok [(4, 6); (2, 5)].
Proof.
  repeat split; try reflexivity; try (repeat constructor; lia);
    destruct d as [|[|[|d]]]; cbn in *; repeat match goal with H : Some _ = Some _ |- _ => injection H as <- <- | H : None = _ |- _ => discriminate H end; lia.
Qed.

(** C09 (partial): a request with one entry per *cuttable* dimension returns. Missing: domains with
    unlimited time and one entry per dimension, for which the claim is false, see below. *)
Theorem C09_partition_terminates_partial : forall l np given gl gh,
  (1 <= nd_cuttable l)%nat -> given_wf l given -> ghosts_ok l gl gh ->
  exists F, forall fuel, (F <= fuel)%nat -> exists r, partition fuel l np given gl gh = Ok r.
Proof. exact partition_terminates_lemma'. Qed.
Print Assumptions C09_partition_terminates_partial.

Example C09_nonvacuous : given_wf [(0, 9); (0, 9)] [4; 0] /\ ghosts_ok [(0, 9); (0, 9)] [1; 1] [1; 1].
Proof. split; [split; [repeat constructor; lia|right; reflexivity]|right; right; cbn; lia]. Qed.

(** C09 refuted in full generality: on a 2D+unlimited-time domain the request np=8 with cuts
    {2,2,0} (one entry per dimension) never returns: no amount of fuel is enough. *)
Theorem C09_partition_terminates_refuted :
  length [2; 2; 0] = length divergent_domain /\
  forall fuel, partition fuel divergent_domain 8 [2; 2; 0] [] [] = OutOfFuel.
Proof. split; [reflexivity|exact partition_diverges_lemma]. Qed.
Print Assumptions C09_partition_terminates_refuted.
