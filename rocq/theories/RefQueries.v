(** Queries of variants with bounded reference types. Model. *)
From stdpp Require Import base gmap list numbers.
From Coq Require Import ZArith.
From Verif Require Import Base Types Dispatch Variant Client References.

Section queries.
Context (C : cfg) (S : usem).

(** get<U>(&operand) (get.hpp:74-97, 118-152), where U is [u], or [const u] if [cu]. [cvar]: the operand is const;
    then the visitor is get_visitor<const U>. Its first overload takes an lvalue of type [u], a non-const one
    unless U is const; otherwise the template is called. Where both are viable, the first is better, or as good and no
    template. *)
Definition r_get (cvar : bool) (tys : list rty) (a : loc) (cu : bool) (u : uid) : M (option loc) :=
  r_apply C cvar tys a (fun c u' l =>
    ret (if decide (u' = u) then if cu || cvar || negb c then Some l else None else None)).
(** get<U>(operand) (get.hpp:154-188). *)
Definition r_get_ref (cvar : bool) (tys : list rty) (a : loc) (cu : bool) (u : uid) : M loc :=
  let! p := r_get cvar tys a cu u in
  match p with Some l => ret l | None => throw XBadGet end.
(** type() (variant.hpp:2075-2079). *)
Definition r_type (tys : list rty) (a : loc) : M uid := r_apply C true tys a (fun _ u _ => ret u).

(** known_get<T> (variant.hpp:396-413) on a const variant, where T is [u], const if [c]: an operand of any other type
    is taken by the template. *)
Definition r_known_get (tys : list rty) (a : loc) (c : bool) (u : uid) : M loc :=
  r_apply C true tys a (fun c' u' l => if decide (c' = c /\ u' = u) then ret l else faulty FUnreachable).
(** comparer (variant.hpp:916-947); T is deduced from what the visitor gets. *)
Definition r_comparer (tys : list rty) (cmp : uid -> uval -> uval -> bool) (lhs : loc) (c : bool) (u : uid) (r : loc) : M bool :=
  let! l := r_known_get tys lhs c u in
  let! x := us_read S u l in
  let! y := us_read S u r in
  ret (cmp u x y).
(** operator== and operator< (variant.hpp:2123-2147). *)
Definition r_eq (tys : list rty) (cmp : uid -> uval -> uval -> bool) (a b : loc) : M bool :=
  let! wa := which a in
  let! wb := which b in
  if decide (wa = wb) then r_apply C true tys b (r_comparer tys cmp a) else ret false.
Definition r_lt (tys : list rty) (cmp : uid -> uval -> uval -> bool) (a b : loc) : M bool :=
  let! wa := which a in
  let! wb := which b in
  if decide (wa = wb) then r_apply C true tys b (r_comparer tys cmp a) else ret (bool_decide (wa < wb)%Z).
End queries.
