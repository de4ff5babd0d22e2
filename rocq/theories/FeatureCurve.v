(** Model of include/ftk/features/feature_curve.hh and feature_point.hh.
    Times and coordinates are doubles in the code; here they are integers (multiples of a fixed unit), so no rounding happens.
    [dmax] is std::numeric_limits<double>::max(), lowest() is [-dmax].  A field that a constructor leaves uninitialised is [None].
    vmag() is a square root in the code; the model compares its square.  Member [at] throws when the index is out of range and
    front()/back() of an empty vector are undefined: both are [UB].  convert_to_geo, derive_velocity, locate (a stub) and the json
    conversion are not modelled.  Sizes are below 2^31 (loop counters are int). *)
From Verif Require Import Base UnionFind NdArray.
Local Open Scope Z_scope. Local Open Scope list_scope.

(** feature_point.hh:109-118 *)
Record fpoint := mkp { px : Z * Z * Z; ptime : Z; timestep : Z; scalar : list Z; pv : Z * Z * Z; ptype : Z; ordinal : bool; ptag : Z; pid : Z }.
Definition set_type (p : fpoint) (ty : Z) : fpoint := mkp (px p) (ptime p) (timestep p) (scalar p) (pv p) ty (ordinal p) (ptag p) (pid p).
Definition set_time (p : fpoint) (t : Z) : fpoint := mkp (px p) t (timestep p) (scalar p) (pv p) (ptype p) (ordinal p) (ptag p) (pid p).
Definition set_x (p : fpoint) (x : Z * Z * Z) : fpoint := mkp x (ptime p) (timestep p) (scalar p) (pv p) (ptype p) (ordinal p) (ptag p) (pid p).
Definition set_id (p : fpoint) (i : Z) : fpoint := mkp (px p) (ptime p) (timestep p) (scalar p) (pv p) (ptype p) (ordinal p) (ptag p) i.
(** the coordinate [x[k]], k = 0, 1, 2 *)
Definition get3 (k : nat) (a : Z * Z * Z) : Z := match k with 0%nat => fst (fst a) | 1%nat => snd (fst a) | _ => snd a end.
Definition put3 (k : nat) (z : Z) (a : Z * Z * Z) : Z * Z * Z :=
  match k with 0%nat => (z, snd (fst a), snd a) | 1%nat => (fst (fst a), z, snd a) | _ => (fst a, z) end.
Definition vmag2 (p : fpoint) : Z := get3 0 (pv p) * get3 0 (pv p) + get3 1 (pv p) * get3 1 (pv p) + get3 2 (pv p) * get3 2 (pv p).

(** feature_curve.hh:46-52 *)
Record stats := mks { smax : list Z; smin : list Z; spers : list Z; bbmin : Z * Z * Z; bbmax : Z * Z * Z; tmin : Z; tmax : Z; vmmin : Z; vmmax : Z }.
Record curve := mkc { pts : list fpoint; cid : option Z; complete : bool; loop : bool; cstats : option stats; ctype : Z }.
Definition set_pts (c : curve) (l : list fpoint) : curve := mkc l (cid c) (complete c) (loop c) (cstats c) (ctype c).
(** feature_curve_t() *)
Definition new_curve : curve := mkc [] None false false None 0.

(** line 39 *)
Definition copy_info (dst src : curve) : curve := mkc (pts dst) (cid src) (complete src) (loop src) (cstats dst) (ctype dst).
(** lines 98-103; the id of a point is an unsigned long long *)
Definition relabel (c : curve) (i : Z) : curve := mkc (map (fun p => set_id p (i mod 2^64)) (pts c)) (Some i) (complete c) (loop c) (cstats c) (ctype c).
(** std::max, std::min *)
Definition std_max (a b : Z) : Z := if a <? b then b else a.
Definition std_min (a b : Z) : Z := if b <? a then b else a.
Fixpoint map2 (f : Z -> Z -> Z) (a b : list Z) : list Z := match a, b with x :: a, y :: b => f x y :: map2 f a b | _, _ => [] end.
Definition map3 (f : Z -> Z -> Z) (a b : Z * Z * Z) : Z * Z * Z := (f (get3 0 a) (get3 0 b), f (get3 1 a) (get3 1 b), f (get3 2 a) (get3 2 b)).
Section Stat.
  Context (dmax : Z) (nvars : nat).
  Definition fill3 (z : Z) : Z * Z * Z := (z, z, z).
  (** lines 157-170: one iteration; [spers] is set after the loop *)
  Definition stat_step (s : stats) (p : fpoint) : stats :=
    mks (map2 std_max (smax s) (scalar p)) (map2 std_min (smin s) (scalar p)) (spers s)
        (map3 std_min (bbmin s) (px p)) (map3 std_max (bbmax s) (px p))
        (std_min (tmin s) (ptime p)) (std_max (tmax s) (ptime p)) (std_min (vmmin s) (vmag2 p)) (std_max (vmmax s) (vmag2 p)).
  (** lines 148-155 *)
  Definition stat_init : stats := mks (repeat (- dmax) nvars) (repeat dmax nvars) [] (fill3 dmax) (fill3 (- dmax)) dmax (- dmax) dmax (- dmax).
  (** lines 145-181 *)
  Definition update_statistics (c : curve) : curve :=
    match pts c with
    | [] => c
    | p :: _ =>
        let s := fold_left stat_step (pts c) stat_init in
        let s := mks (smax s) (smin s) (map2 Z.sub (smax s) (smin s)) (bbmin s) (bbmax s) (tmin s) (tmax s) (vmmin s) (vmmax s) in
        let ty := if forallb (fun q => ptype q =? ptype p) (pts c) then ptype p else 0 in
        mkc (pts c) (cid c) (complete c) (loop c) (Some s) ty
    end.
  (** lines 105-112 *)
  Fixpoint select_from (f : fpoint -> bool) (l : list fpoint) (i : nat) : list nat :=
    match l with [] => [] | p :: l => if f p then i :: select_from f l (1 + i) else select_from f l (1 + i) end.
  Definition select (f : fpoint -> bool) (c : curve) : list nat := select_from f (pts c) 0.
  (** lines 245-252 *)
  Definition to_ordinals (c : curve) : list nat := select_from ordinal (pts c) 0.
  (** lines 114-125 *)
  Definition discard (f : fpoint -> bool) (c : curve) : curve :=
    let traj := copy_info new_curve c in
    update_statistics (set_pts traj (fold_left (fun acc p => if negb (f p) then acc ++ [p] else acc) (pts c) [])).
  (** lines 127-135 *)
  Definition discard_interval_points : curve -> curve := discard (fun p => negb (ordinal p)).
  Definition discard_degenerate_points : curve -> curve := discard (fun p => (ptype p =? 0) || (ptype p =? 1)).
  (** lines 220-243: [sub] is [subtraj], [ty] is [current_type], [i] the loop counter *)
  Fixpoint split_loop (size : nat) (l : list fpoint) (i : nat) (sub : list fpoint) (ty : Z) (results : list curve) : list curve :=
    match l with
    | [] => results
    | p :: l =>
        let ty := match sub with [] => ptype p | _ => ty end in
        let sub := if ptype p =? ty then sub ++ [p] else sub in
        if (negb (ptype p =? ty) || Nat.eqb (1 + i) size) && Nat.ltb 0 (length sub)
        then split_loop size l (1 + i) [] ty (results ++ [update_statistics (set_pts new_curve sub)])
        else split_loop size l (1 + i) sub ty results
    end.
  Definition split (c : curve) : list curve := split_loop (length (pts c)) (pts c) 0 [] 0 [].
  (** lines 195-218, with 180 degrees given as [half] *)
  Fixpoint split_geo_loop (half : Z) (id : option Z) (l : list fpoint) (sub : list fpoint) (results : list curve) : list curve :=
    match l with
    | [] => results
    | p :: l' =>
        let sub := sub ++ [p] in
        match l' with
        | q :: _ => if half <? Z.abs (get3 0 (px q) - get3 0 (px p))
                    then split_geo_loop half id l' [] (results ++ [mkc sub id false false None 0])
                    else split_geo_loop half id l' sub results
        | [] => if Nat.ltb 0 (length sub) then results ++ [mkc sub id false false None 0] else results
        end
    end.
  Definition split_geo (half : Z) (c : curve) : list curve := split_geo_loop half (cid c) (pts c) [] [].
  (** lines 254-265 *)
  Fixpoint first_other (ty : Z) (l : list fpoint) : nat := match l with [] => 0%nat | p :: l => if ptype p =? ty then (1 + first_other ty l)%nat else 0%nat end.
  Definition rotate (c : curve) : res curve :=
    if negb (loop c) then Ok c
    else match pts c with
         | [] => UB
         | p :: _ =>
             if negb (ptype p =? ptype (last (pts c) p)) then Ok c
             else let i := first_other (ptype p) (pts c) in
                  if Nat.ltb i (length (pts c)) then Ok (set_pts c (skipn i (pts c) ++ firstn i (pts c))) else Ok c
         end.
  (** lines 267-279 *)
  Definition reorder (c : curve) : curve :=
    match pts c with
    | [] => c
    | p :: _ =>
        if loop c then c
        else let q := last (pts c) p in
             let reverse := if timestep p =? timestep q then ptime q <? ptime p else timestep q <? timestep p in
             if reverse then set_pts c (rev (pts c)) else c
    end.
  (** lines 283-286: [t] is the time of the point before *)
  Fixpoint ascend (t : Z) (l : list fpoint) : list fpoint :=
    match l with
    | [] => []
    | p :: l => let p := if ordinal p then p else set_time p (std_max t (ptime p)) in p :: ascend (ptime p) l
    end.
  (** lines 288-291 *)
  Fixpoint descend (l : list fpoint) : list fpoint :=
    match l with
    | [] => []
    | p :: l => let l := descend l in
                match l with
                | [] => [p]
                | q :: _ => (if ordinal p then p else set_time p (std_min (ptime q) (ptime p))) :: l
                end
    end.
  (** lines 281-292 *)
  Definition adjust_time (c : curve) : curve :=
    set_pts c (descend (match pts c with [] => [] | p :: l => p :: ascend (ptime p) l end)).
  (** [at(j).type = ty] for j in [lo, hi) *)
  Fixpoint set_range_from (j lo hi : nat) (ty : Z) (l : list fpoint) : list fpoint :=
    match l with [] => [] | p :: l => (if Nat.leb lo j && Nat.ltb j hi then set_type p ty else p) :: set_range_from (1 + j) lo hi ty l end.
  Definition set_range (lo hi : nat) (ty : Z) (l : list fpoint) : list fpoint := set_range_from 0 lo hi ty l.
  Definition type_at (l : list fpoint) (i : nat) : res Z := match nth_error l i with Some p => Ok (ptype p) | None => UB end.
  (** lines 301-309: is there a common type of the other ordinals of the window? 0 if not *)
  Fixpoint window_type (l : list fpoint) (ords : list nat) (i : nat) (js : list nat) (ty : Z) : res Z :=
    match js with
    | [] => Ok ty
    | j :: js =>
        if Nat.eqb j i then window_type l ords i js ty
        else let* o := match nth_error ords j with Some o => Ok o | None => UB end in
             let* tj := type_at l o in
             if negb (ty =? tj) then Ok 0 else window_type l ords i js ty
    end.
  (** lines 301-313: the pending changes for the window centres [is] *)
  Fixpoint pending (l : list fpoint) (ords : list nat) (h : nat) (is : list nat) : res (list (nat * Z)) :=
    match is with
    | [] => Ok []
    | i :: is =>
        let* o0 := match nth_error ords (i - h) with Some o => Ok o | None => UB end in
        let* t0 := type_at l o0 in
        let* ty := window_type l ords i (seq (i - h) (2 * h + 1)) t0 in
        let* o := match nth_error ords i with Some o => Ok o | None => UB end in
        let* t := type_at l o in
        let* rest := pending l ords h is in
        Ok (if negb (ty =? 0) && negb (t =? ty) then (o, ty) :: rest else rest)
    end.
  (** lines 294-317 (half_window_size >= 0) *)
  Definition smooth_ordinal_types (h : nat) (c : curve) : res curve :=
    let ords := to_ordinals c in
    if Nat.ltb (length ords) (h * 2 + 1) then Ok c
    else let* ch := pending (pts c) ords h (seq h (length ords - h - h)) in
         Ok (set_pts c (fold_left (fun l kv => set_range (fst kv) (1 + fst kv) (snd kv) l) ch (pts c))).
  (** lines 341-343: the first j from [j], at most [n] steps, whose type differs *)
  Fixpoint first_change (l : list fpoint) (ty : Z) (j n : nat) : res nat :=
    match n with
    | O => Ok j
    | S n => let* t := type_at l j in if negb (t =? ty) then Ok j else first_change l ty (1 + j) n
    end.
  (** lines 334-347 *)
  Fixpoint smooth_pairs (ords : list nat) (l : list fpoint) : res (list fpoint) :=
    match ords with
    | o :: (o' :: _) as rest =>
        let* lt := type_at l o in
        let* rt := type_at l o' in
        if lt =? rt then smooth_pairs rest (set_range o o' lt l)
        else let* j := first_change l lt o (o' - o) in
             smooth_pairs rest (set_range j o' rt l)
    | _ => Ok l
    end.
  (** lines 319-348 *)
  Definition smooth_interval_types (c : curve) : res curve :=
    let ords := to_ordinals c in
    match ords with
    | [] => Ok c
    | o0 :: _ =>
        let* ft := type_at (pts c) o0 in
        let l := set_range 0 o0 ft (pts c) in
        let ol := last ords o0 in
        let* bt := type_at l ol in
        let l := set_range ol (length l) bt l in
        let* l := smooth_pairs ords l in
        Ok (set_pts c l)
    end.
  (** lines 355-371 *)
  Definition intercept (t0 t1 : Z) (c : curve) : res curve :=
    match pts c with
    | [] => UB
    | p :: _ =>
        if (ptime (last (pts c) p) <? t0) || (t1 <? ptime p) then Ok new_curve
        else let l := filter (fun q => (t0 <=? ptime q) && (ptime q <=? t1)) (pts c) in
             match l with
             | [] => Ok new_curve
             | _ => match cid c with
                    | None => UB  (* reads the uninitialised id *)
                    | Some i => Ok (update_statistics (relabel (set_pts new_curve l) i))
                    end
             end
    end.
  (** lines 375-384: [n] iterations left; the head of the list is point i *)
  Definition shift_x (k : nat) (d : Z) (p : fpoint) : fpoint := set_x p (put3 k (get3 k (px p) + d) (px p)).
  Fixpoint unwrap_loop (k : nat) (period : Z) (n : nat) (l : list fpoint) : res (list fpoint) :=
    match n with
    | O => Ok l
    | S n =>
        match l with
        | p :: (q :: _) as rest =>
            let delta := get3 k (px q) - get3 k (px p) in
            let rest := if period <=? 2 * delta then map (shift_x k (- period)) rest
                        else if 2 * delta <=? - period then map (shift_x k period) rest else rest in
            let* rest := unwrap_loop k period n rest in
            Ok (p :: rest)
        | _ => UB
        end
    end.
  (** lines 373-393; for an empty curve [size()-1] wraps around and [at] throws *)
  Definition unwrap (k : nat) (period : Z) (c : curve) : res curve :=
    match pts c with
    | [] => UB
    | _ =>
        let* l := unwrap_loop k period (length (pts c) - 1) (pts c) in
        let lo := fold_left (fun m p => std_min m (get3 k (px p))) l dmax in
        let hi := fold_left (fun m p => std_max m (get3 k (px p))) l (- dmax) in
        let s := match cstats c with
                 | Some s => Some (mks (smax s) (smin s) (spers s) (put3 k lo (bbmin s)) (put3 k hi (bbmax s)) (tmin s) (tmax s) (vmmin s) (vmmax s))
                 | None => None
                 end in
        Ok (mkc l (cid c) (complete c) (loop c) s (ctype c))
    end.
End Stat.
(** lines 76-96 with the curves in a table, so that [*this] and [c] may be the same object: the fields are copied, [*this] is
    cleared, then the points that [c] has now are appended *)
Definition assign (mem : nat -> curve) (this other : nat) : nat -> curve :=
  let c := mem other in
  let set m i x := fun j => if Nat.eqb j i then x else m j in
  let mem := set mem this (mkc (pts (mem this)) (cid c) (complete c) (loop c) (cstats c) (ctype c)) in
  let mem := set mem this (set_pts (mem this) []) in
  let mem := set mem this (set_pts (mem this) (pts (mem this) ++ pts (mem other))) in
  mem.
