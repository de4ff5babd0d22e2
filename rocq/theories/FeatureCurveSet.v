(** Model of include/ftk/features/feature_curve_set.hh.  A std::multimap<int, feature_curve_t> is the list of its entries in iteration
    order; insert places an entry after the entries with the same key.  to_geo, the text writer and the stubs (read, write_json, ...)
    are not modelled; slice is declared but not defined in the code. *)
From Verif Require Import Base UnionFind NdArray Parallel FeatureCurve.
Local Open Scope Z_scope. Local Open Scope list_scope.
Notation cset := (list (Z * curve)).

(** std::multimap::insert *)
Fixpoint minsert (k : Z) (c : curve) (s : cset) : cset :=
  match s with
  | [] => [(k, c)]
  | e :: s' => if k <? fst e then (k, c) :: s else e :: minsert k c s'
  end.
(** conversion to a 32-bit int, as every supported compiler does it *)
Definition to_int (z : Z) : Z := (z + 2^31) mod 2^32 - 2^31.
Section Set_.
  Context (dmax : Z) (nv : nat).
  (** lines 67-70; int overflow is undefined *)
  Definition get_new_id (s : cset) : res Z :=
    match rev s with [] => Ok 0 | e :: _ => if fst e + 1 <? 2^31 then Ok (fst e + 1) else UB end.
  (** lines 458-465 *)
  Definition add (s : cset) (c : curve) : res (cset * Z) :=
    let* id := get_new_id s in Ok (minsert id (relabel c id) s, id).
  (** lines 467-472 *)
  Definition add_label (s : cset) (c : curve) (label : Z) : cset := minsert label (relabel c label) s.
  (** lines 474-480 *)
  Fixpoint add_all (s : cset) (cs : list curve) : res (cset * list Z) :=
    match cs with
    | [] => Ok (s, [])
    | c :: cs => let* (s, id) := add s c in let* (s, ids) := add_all s cs in Ok (s, id :: ids)
    end.
  (** lines 123-129 *)
  Definition to_list (s : cset) : list curve := map snd s.
  (** lines 131-135: the curves keep the labels they have *)
  Fixpoint from_list (s : cset) (cs : list curve) : res cset :=
    match cs with [] => Ok s | c :: cs => let* id := get_new_id s in from_list (minsert id c s) cs end.
  (** The iterators of a multimap stay valid while other entries are erased: an iterator is the position the entry has at the start. *)
  Definition tag (s : cset) : list (nat * (Z * curve)) := combine (seq 0 (length s)) s.
  Definition erase (t : list (nat * (Z * curve))) (it : nat) : list (nat * (Z * curve)) := filter (fun x => negb (Nat.eqb (fst x) it)) t.
  Fixpoint collect (f : curve -> bool) (t : list (nat * (Z * curve))) (acc : list nat) : list nat :=
    match t with [] => acc | x :: t => collect f t (if f (snd (snd x)) then acc else acc ++ [fst x]) end.
  (** lines 447-456 *)
  Definition cs_filter (f : curve -> bool) (s : cset) : cset := map snd (fold_left erase (collect f (tag s) []) (tag s)).
  (** lines 514-532: [traj[0]] of an empty piece would be undefined *)
  Fixpoint add_pieces (s : cset) (ps : list curve) : res cset :=
    match ps with
    | [] => Ok s
    | c :: ps => match pts c with [] => UB | p :: _ => add_pieces (add_label s c (to_int (pid p))) ps end
    end.
  Fixpoint collect_split (t : list (nat * (Z * curve))) (result : list curve) (to_erase : list nat) : list curve * list nat :=
    match t with
    | [] => (result, to_erase)
    | x :: t => if ctype (snd (snd x)) =? 0 then collect_split t (result ++ split dmax nv (snd (snd x))) (to_erase ++ [fst x]) else collect_split t result to_erase
    end.
  Definition split_all (s : cset) : res cset :=
    let (result, to_erase) := collect_split (tag s) [] [] in
    add_pieces (map snd (fold_left erase to_erase (tag s))) result.
  (** lines 534-544 *)
  Fixpoint cs_intercept (t0 t1 : Z) (s : cset) : res cset :=
    match s with
    | [] => Ok []
    | e :: s => let* c := intercept dmax nv t0 t1 (snd e) in
                let* r := cs_intercept t0 t1 s in
                Ok (match pts c with [] => r | _ => (fst e, c) :: r end)
    end.
  (** ** exchange with vtkPolyData (lines 241-445).  [fl] converts a double to a float: vtkPoints::New() stores floats, and so do the
      time and velocity arrays; ids, tags and types are stored in unsigned ints.  Reading past the end of an array is undefined. *)
  Context (fl : Z -> Z).
  Definition u32 (z : Z) : Z := z mod 2^32.
  Definition fl3 (a : Z * Z * Z) : Z * Z * Z := (fl (get3 0 a), fl (get3 1 a), fl (get3 2 a)).
  Record polydata := mkpd { pd_points : list (Z * Z * Z); pd_lines : list (list nat); pd_verts : list (list nat);
    pd_type : list Z; pd_id : list Z; pd_tag : list Z; pd_vel : list (Z * Z * Z); pd_time : list Z }.
  (** lines 321-341: the cells; [nv0] is the number of points before *)
  Fixpoint cells (s : cset) (nv0 : nat) : list (list nat) * list (list nat) :=
    match s with
    | [] => ([], [])
    | e :: s =>
        match pts (snd e) with
        | [] => cells s nv0
        | l => let n := length l in
               let obj := seq nv0 n ++ (if loop (snd e) then [nv0] else []) in
               let (lines, verts) := cells s (nv0 + n) in
               if Nat.ltb n 2 then (lines, obj :: verts) else (obj :: lines, verts)
        end
    end.
  Definition all_points (s : cset) : list fpoint := flat_map (fun e => pts (snd e)) s.
  Definition to_vtp (s : cset) : polydata :=
    let ps := all_points s in
    mkpd (map (fun p => fl3 (px p)) ps) (fst (cells s 0)) (snd (cells s 0))
         (map (fun p => u32 (ptype p)) ps) (map (fun p => u32 (pid p)) ps) (map (fun p => u32 (ptag p)) ps)
         (map (fun p => fl3 (pv p)) ps) (map (fun p => fl (ptime p)) ps).
  Definition get {A} (l : list A) (i : nat) : res A := match nth_error l i with Some x => Ok x | None => UB end.
  (** lines 269-289: the i-th point of a cell; note that the ids stored in the cell are not used *)
  Definition import_point (pd : polydata) (i : nat) : res fpoint :=
    let* x := get (pd_points pd) i in
    let* t := get (pd_time pd) i in
    let* ty := get (pd_type pd) i in
    let* id := get (pd_id pd) i in
    let* tag := get (pd_tag pd) i in
    let* v := get (pd_vel pd) i in
    Ok (mkp x t 0 (repeat 0 nv) v ty false tag id).
  (** lines 263-294, for one cell *)
  Definition import_cell (pd : polydata) (cell : list nat) : res (option (Z * curve)) :=
    match cell with
    | [] => Ok None
    | _ => let* l := mapM (import_point pd) (seq 0 (length cell)) in
           match l with
           | [] => UB
           | p :: _ => Ok (Some (to_int (pid p), mkc l None false (ptag p =? ptag (last l p)) None 0))
           end
    end.
  Fixpoint import_cells (pd : polydata) (cells : list (list nat)) (s : cset) : res cset :=
    match cells with
    | [] => Ok s
    | cell :: cells => let* o := import_cell pd cell in
                       import_cells pd cells (match o with Some (k, c) => minsert k c s | None => s end)
    end.
  Definition from_vtp (pd : polydata) : res cset := import_cells pd (pd_lines pd) [].
End Set_.
