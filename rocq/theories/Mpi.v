(** Model of the serializing collectives of include/ftk/utils (gather.hh, all2all.hh, redistribution.hh, scatter.hh,
    bcast.hh), built with MPI.  Each function is the whole SPMD program: its inputs are indexed by rank and its
    result is what one rank holds at the end.  The ranks only interact through collectives, so the order in which
    they run between them does not matter.  The collectives follow the MPI standard: block lengths must match on
    both sides, blocks must lie inside the buffers, and no byte may be received twice; anything else is undefined
    behaviour.  A buffer size that does not fit an [int] is undefined behaviour too (the code converts silently).
    Communication failures are not modelled. *)
From Verif Require Import Base UnionFind NdArray Serial.
Local Open Scope nat_scope. Local Open Scope list_scope.

(** ** MPI *)
(** a count or displacement passed as [int] *)
Definition as_int (n : nat) : res nat := if (Z.of_nat n <? 2 ^ 31)%Z then Ok n else UB.
(** a receive buffer: [None] is a byte not yet received (the string's zero) *)
Definition rbuf := list (option Z).
(** receive [x] at offset [d] *)
Definition receive (b : rbuf) (d : nat) (x : list Z) : res rbuf :=
  if (d + length x <=? length b) && forallb (fun c => match c with None => true | Some _ => false end) (firstn (length x) (skipn d b))
  then Ok (firstn d b ++ map Some x ++ skipn (d + length x) b) else UB.
(** the receiving half of a v-collective: [counts.(i)] bytes from rank [i] go to [displs.(i)] *)
Fixpoint receive_all (b : rbuf) (sends : list (list Z)) (counts displs : list nat) : res rbuf :=
  match sends, counts, displs with
  | [], [], [] => Ok b
  | x :: sends, n :: counts, d :: displs =>
      if Nat.eqb (length x) n then let* b := receive b d x in receive_all b sends counts displs else UB
  | _, _, _ => UB
  end.
Definition bytes_of (b : rbuf) : list Z := map (fun c => match c with Some v => v | None => 0%Z end) b.
(** [MPI_Gatherv] into a string of [n] zero bytes *)
Definition mpi_gatherv (n : nat) (sends : list (list Z)) (counts displs : list nat) : res (list Z) :=
  let* b := receive_all (repeat None n) sends counts displs in Ok (bytes_of b).
(** a block [count] bytes long at offset [d] of a send buffer *)
Definition block (s : list Z) (d count : nat) : res (list Z) :=
  if d + count <=? length s then Ok (firstn count (skipn d s)) else UB.

(** ** the common pieces *)
(** [std::accumulate] over [int]s *)
Fixpoint accumulate (l : list nat) (acc : nat) : res nat :=
  match l with [] => Ok acc | x :: l => let* acc := as_int (acc + x) in accumulate l acc end.
(** [displs[i] = displs[i-1] + length[i-1]], gather.hh:38-40 and 87-90 *)
Fixpoint displacements (d : nat) (lens : list nat) : res (list nat) :=
  match lens with
  | [] => Ok []
  | x :: lens => match lens with [] => Ok [d] | _ => let* d' := as_int (d + x) in let* r := displacements d' lens in Ok (d :: r) end
  end.
(** [while (sb) { Map map; load(sb, map); merger(map, out); }] *)
Fixpoint load_while {M O} (fuel : nat) (S : ser M) (empty : M) (merger : M -> O -> O) (sb : sbuf) (out : O) : res O :=
  if pos sb <? length (str sb) then
    match fuel with
    | 0 => OutOfFuel
    | Datatypes.S fuel => let* p := ld S empty sb in load_while fuel S empty merger (snd p) (merger (fst p) out)
    end
  else Ok out.
(** the default [merger]: [for (kv : in) out.insert(kv)], gather.hh:12-15 and 65-68 *)
Definition insert_all {K V} `{OrdKey K} (i o : list (K * V)) : list (K * V) := fold_left (fun o kv => mins (fst kv) (snd kv) o) i o.
Definition insert_all_set {K} `{OrdKey K} (i o : list K) : list K := fold_left (fun o k => sins k o) i o.

Notation packed := (sbuf * list nat * list nat)%type.
Section MPI.
  Context {M : Type} (S : ser M) (empty : M).
  Definition unload {O} (merger : M -> O -> O) (buffer : list Z) (out : O) : res O :=
    load_while (length buffer) S empty merger {| str := buffer; pos := 0 |} out.
  (** [gather], gather.hh:10-61: what [root] holds; the other ranks' [out] is not touched *)
  Definition gather (merger : M -> M -> M) (ins : list M) (root : nat) : res M :=
    let serialized := map (fun r => if Nat.eqb (fst r) root then [] else serialize_to_string S (snd r)) (combine (seq 0 (length ins)) ins) in
    let* lens := mapM (fun s => as_int (length s)) serialized in
    let* total := accumulate lens 0 in
    let* displs := displacements 0 lens in
    let* buffer := mpi_gatherv total serialized lens displs in
    let* mine := of_option (nth_error ins root) in
    unload merger buffer mine.
  (** [allgather], gather.hh:63-110: the result on a rank whose [out] was [out]; [out] is not cleared (line 97) *)
  Definition allgather (merger : M -> M -> M) (ins : list M) (out : M) : res M :=
    let serialized := map (serialize_to_string S) ins in
    let* lens := mapM (fun s => as_int (length s)) serialized in
    let* total := accumulate lens 0 in
    let* displs := displacements 0 lens in
    let* buffer := mpi_gatherv total serialized lens displs in
    unload merger buffer out.

  (** the send loop of [all2all] (all2all.hh:20-31) and [redistribute] (redistribution.hh:31-42): [skip] is the
      rank whose part is left out *)
  Fixpoint pack (skip : option nat) (i : nat) (parts : list M) (sb : sbuf) : res (sbuf * list nat * list nat) :=
    match parts with
    | [] => Ok (sb, [], [])
    | m :: parts =>
        let* sdispl := as_int (length (str sb)) in
        let sb' := if match skip with Some r => Nat.eqb r i | None => false end then sb else sv S m sb in
        let* count := as_int (length (str sb') - sdispl) in
        let* r := pack skip (i + 1) parts sb' in
        Ok (fst (fst r), count :: snd (fst r), sdispl :: snd r)
    end.
  Definition sendbuf (p : packed) := str (fst (fst p)). Definition sendcounts (p : packed) := snd (fst p). Definition sdispls (p : packed) := snd p.
  (** what rank [r] receives from each rank in [MPI_Alltoallv] *)
  Definition incoming (ps : list packed) (r : nat) : res (list (list Z)) :=
    mapM (fun p => let* d := of_option (nth_error (sdispls p) r) in let* n := of_option (nth_error (sendcounts p) r) in block (sendbuf p) d n) ps.
  (** [recvcounts[i] = allcounts[i*np+rank]], all2all.hh:41, redistribution.hh:60 *)
  Definition recvcounts (ps : list packed) (r : nat) : res (list nat) := mapM (fun p => of_option (nth_error (sendcounts p) r)) ps.
  (** all2all.hh:38-42: [rdispls[i] = recvcounts[i]] before [recvcounts[i]] is assigned, i.e. its initial 0 *)
  Definition all2all_rdispls (counts : list nat) : list nat := map (fun _ => 0) counts.
  (** [all2all], all2all.hh:10-61: what [rank] holds; [inss] are the [ins] vectors of all ranks *)
  Definition all2all (merger : M -> M -> M) (inss : list (list M)) (rank : nat) : res M :=
    let* ps := mapM (fun r => pack (Some (fst r)) 0 (snd r) {| str := []; pos := 0 |}) (combine (seq 0 (length inss)) inss) in
    let* counts := recvcounts ps rank in
    let* total := accumulate counts 0 in
    let* sends := incoming ps rank in
    let* recvbuf := mpi_gatherv total sends counts (all2all_rdispls counts) in
    let* ins := of_option (nth_error inss rank) in
    let* mine := of_option (nth_error ins rank) in
    unload merger recvbuf mine.

  (** [scatterv], scatter.hh:11-48: what [rank] holds; only the root's [ins] matter, [old] is the rank's [out] before *)
  Definition scatterv (ins : list M) (rank : nat) (old : M) : res M :=
    let* p := pack None 0 ins {| str := []; pos := 0 |} in
    let* n := of_option (nth_error (sendcounts p) rank) in
    let* d := of_option (nth_error (sdispls p) rank) in
    let* recvbuf := block (sendbuf p) d n in
    let* r := ld S old {| str := recvbuf; pos := 0 |} in Ok (fst r).
  (** [bcastv], bcast.hh:30-56: what a rank other than the root holds, given its old value *)
  Definition bcastv (root_value old : M) : res M :=
    let buf := serialize_to_string S root_value in
    let* _ := as_int (length buf) in
    let* r := ld S old {| str := buf; pos := 0 |} in Ok (fst r).
End MPI.

(** [redistribute], redistribution.hh:11-92: the tables of all ranks to what [rank] holds *)
Section Redistribute.
  Context {K V : Type} `{OrdKey K} (k0 : K) (v0 : V) (SK : ser K) (SV : ser V) (hash : K -> Z).
  Local Notation inner := (list (K * V)). Local Notation table := (list (K * list (K * V))).
  Definition ser_table : ser table := ser_map k0 [] SK (ser_map k0 v0 SK SV).
  (** [ins[i] = f(ins[i])] for an index inside the vector *)
  Fixpoint upd_nth {A} (i : nat) (f : A -> A) (l : list A) : list A :=
    match l, i with [], _ => [] | x :: l, 0 => f x :: l | x :: l, S i => x :: upd_nth i f l end.
  (** lines 18-22: [ins[hash(k) % np].insert(kv)] *)
  Definition deal (np : nat) (t : table) : list table :=
    fold_left (fun (parts : list table) (kv : K * inner) =>
      let r := Z.to_nat (hash (fst kv) mod Z.of_nat np) in
      upd_nth r (mins (fst kv) (snd kv)) parts) t (repeat [] np).
  (** lines 85-86: [out[kv.first].insert(kv.second.begin(), kv.second.end())] *)
  Definition merge_table (t out : table) : table :=
    fold_left (fun (out : table) (kv : K * inner) =>
      let cur := match mfind (fst kv) out with Some m => m | None => [] end in
      mset (fst kv) (insert_all (snd kv) cur) out) t out.
  (** lines 57-61 *)
  Fixpoint rdispls (prev_d prev_c : nat) (counts : list nat) : res (list nat) :=
    match counts with
    | [] => Ok []
    | c :: counts => let* d := as_int (prev_d + prev_c) in let* r := rdispls d c counts in Ok (d :: r)
    end.
  (** lines 78-88: the whole buffer is read [np] times *)
  Fixpoint unload_times (n : nat) (buffer : list Z) (out : table) : res table :=
    match n with 0 => Ok out | S n => let* out := unload ser_table [] merge_table buffer out in unload_times n buffer out end.
  Definition redistribute (ins : list table) (rank : nat) (out : table) : res table :=
    let np := length ins in
    let* ps := mapM (fun t => pack ser_table None 0 (deal np t) {| str := []; pos := 0 |}) ins in
    let* counts := recvcounts ps rank in
    let* displs := rdispls 0 0 counts in
    let* total := accumulate counts 0 in
    let* sends := incoming ps rank in
    let* recvbuf := mpi_gatherv total sends counts displs in
    unload_times np recvbuf out.
End Redistribute.
