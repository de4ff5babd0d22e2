(** Vocabulary for sets of curves. *)
From Verif Require Import Base FeatureCurve FeatureCurveSpec FeatureCurveSet.
From Coq Require Import Permutation.
Local Open Scope Z_scope. Local Open Scope list_scope.
(** what a program can do with a set *)
Inductive history (dmax : Z) (nv : nat) : cset -> Prop :=
| h_empty : history dmax nv []
| h_add s c s' id : history dmax nv s -> add s c = Ok (s', id) -> history dmax nv s'
| h_label s c l : history dmax nv s -> - 2^31 <= l < 2^31 -> history dmax nv (add_label s c l)
| h_filter s f : history dmax nv s -> history dmax nv (cs_filter f s)
| h_split s s' : history dmax nv s -> split_all dmax nv s = Ok s' -> history dmax nv s'
| h_intercept s s' t0 t1 : history dmax nv s -> cs_intercept dmax nv t0 t1 s = Ok s' -> history dmax nv s'.
(** [c'] is [c] with all its points and itself labelled [id] *)
Definition labelled (c c' : curve) (id : Z) : Prop :=
  cid c' = Some id /\ complete c' = complete c /\ loop c' = loop c /\ cstats c' = cstats c /\ ctype c' = ctype c /\
  Forall2 (fun p q => pid q = id mod 2^64 /\ set_id q 0 = set_id p 0) (pts c) (pts c').
(** the key of the last entry, if any, is not INT_MAX *)
Definition room (s : cset) (n : nat) : Prop := forall e, In e s -> fst e + Z.of_nat n < 2^31.
(** iteration is in the order of the keys *)
Definition in_order (s : cset) : Prop := forall a x b y d, s = a ++ x :: b ++ y :: d -> fst x <= fst y.
(** the part of a point that the polydata format can represent; [fl] rounds to a float *)
Definition exported (nv : nat) (fl : Z -> Z) (p : fpoint) : fpoint :=
  mkp (fl (get3 0 (px p)), fl (get3 1 (px p)), fl (get3 2 (px p))) (fl (ptime p)) 0 (repeat 0 nv)
      (fl (get3 0 (pv p)), fl (get3 1 (pv p)), fl (get3 2 (pv p))) (ptype p mod 2^32) false (ptag p mod 2^32) (pid p mod 2^32).
Definition has_points (e : Z * curve) : bool := match pts (snd e) with [] => false | _ => true end.
(** importing what was exported gives the same curves, in some order, up to that *)
Definition restored (nv : nat) (fl : Z -> Z) (s : cset) : Prop :=
  exists s', from_vtp nv (to_vtp fl s) = Ok s' /\
    Permutation (map (fun e => pts (snd e)) s') (map (fun e => map (exported nv fl) (pts (snd e))) (filter has_points s)).
