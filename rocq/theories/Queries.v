(** Queries that are built on visitation, and visitation of several variants at once. Model. *)
From stdpp Require Import base gmap list numbers.
From Coq Require Import ZArith.
From Verif Require Import Base Types Dispatch Variant GetTypes.

Section queries.
Context (C : cfg) (S : usem).

(** empty() (variant.hpp:2070-2073). *)
Definition var_empty (a : loc) : M bool := ret false.

(** operators !=, >, <=, >= (variant.hpp:2151-2169). *)
Definition var_ne (tys : list ity) (eqf : uid -> uval -> uval -> bool) (a b : loc) : M bool :=
  let! r := var_eq C S tys eqf a b in ret (negb r).
Definition var_gt (tys : list ity) (ltf : uid -> uval -> uval -> bool) (a b : loc) : M bool :=
  var_lt C S tys ltf b a.
Definition var_le (tys : list ity) (ltf : uid -> uval -> uval -> bool) (a b : loc) : M bool :=
  let! r := var_gt tys ltf a b in ret (negb r).
Definition var_ge (tys : list ity) (ltf : uid -> uval -> uval -> bool) (a b : loc) : M bool :=
  let! r := var_lt C S tys ltf a b in ret (negb r).

(** hash_value (detail/hash_variant.hpp:28-42); [hashf] is boost::hash of the user types,
    [combine] is hash_combine with a std::size_t and an int. *)
Definition var_hash (tys : list ity) (hashf : uid -> uval -> Z) (combine : Z -> Z -> Z) (a : loc) : M Z :=
  let! seed := visit_user C tys a (fun u l => let! v := us_read S u l in ret (hashf u v)) in
  let! w := which a in
  ret (combine seed w).
(** std::hash (detail/std_hash.hpp:36-40). *)
Definition std_hash (tys : list ity) (hashf : uid -> uval -> Z) (combine : Z -> Z -> Z) (a : loc) : M Z :=
  var_hash tys hashf combine a.

(** operator<< (detail/variant_io.hpp:37-79). The stream is the text written so far;
    [print] is the user types' operator<<. *)
Definition var_print (tys : list ity) (print : uid -> uval -> list Z) (out : list Z) (a : loc) : M (list Z) :=
  visit_user C tys a (fun u l => let! v := us_read S u l in ret (out ++ print u v)).

(** ** Visitors *)

(** What a visitor is called with: an object of type [u] at [l], as an rvalue or not. *)
Definition arg : Type := uid * loc * bool.

(** apply_visitor(visitor, v) (detail/apply_visitor_unary.hpp:43-60, variant.hpp:2230-2260;
    invoke_visitor with and without MoveSemantics, variant.hpp:985-1058). [mv]: the variant
    is an rvalue. *)
Definition visit1 {A} (f : arg -> M A) (tys : list ity) (a : loc) (mv : bool) : M A :=
  visit_user C tys a (fun u l => f (u, l, mv)).

(** apply_visitor(visitor, v1, v2) (detail/apply_visitor_binary.hpp:41-167; the C++14 forms,
    178-285, differ in the result type only). *)
Definition binary_invoke {A} (f : arg -> arg -> M A) (value1 : arg) (value2 : arg) : M A := f value1 value2.
Definition binary_unwrap {A} (f : arg -> arg -> M A) (tys2 : list ity) (b : loc) (mv2 : bool) (value1 : arg) : M A :=
  visit1 (binary_invoke f value1) tys2 b mv2.
Definition visit2 {A} (f : arg -> arg -> M A) (tys1 : list ity) (a : loc) (mv1 : bool)
    (tys2 : list ity) (b : loc) (mv2 : bool) : M A :=
  visit1 (binary_unwrap f tys2 b mv2) tys1 a mv1.

(** A variant to be visited: MoveableWrapper of it (detail/multivisitors_cpp11_based.hpp:42-49). *)
Definition visitable : Type := list ity * loc * bool.

(** do_call (detail/multivisitors_cpp11_based.hpp:148-151): `visitor_(unwrap(...)...)`, where
    unwrap of an rvalue returns a new object, move-constructed from it (58-63), and of an
    lvalue the lvalue (65-70). Simplification: the temporaries are made from left to right and
    destroyed in reverse (the order is unspecified in C++). *)
Fixpoint do_call {A} (f : list arg -> M A) (done : list arg) (values : list arg) : M A :=
  match values with
  | [] => f done
  | (u, l, true) :: r =>
      scoped (stack_obj (fun x => us_move S u x l)) (us_destroy S u)
             (fun x => do_call f (done ++ [(u, x, true)]) r)
  | (u, l, false) :: r => do_call f (done ++ [(u, l, false)]) r
  end.

(** one_by_one_visitor_and_value_referer (104-169): [values] seen so far, [vs] the variants
    still to be visited; `unwrap` of an rvalue variant makes a new variant of it. *)
Fixpoint one_by_one {A} (f : list arg -> M A) (vs : list visitable) (values : list arg) (value : arg) : M A :=
  let values := values ++ [value] in
  match vs with
  | [] => do_call f [] values
  | (tys, a, true) :: r =>
      scoped (local_variant (fun x => var_move C S tys x a)) (var_destroy C S tys)
             (fun x => visit1 (one_by_one f r values) tys x true)
  | (tys, a, false) :: r => visit1 (one_by_one f r values) tys a false
  end.

(** apply_visitor(visitor, v1, v2, v3, ...) (173-207): the first variant is forwarded. Fewer
    than three variants use the forms above. *)
Definition visit_many {A} (f : list arg -> M A) (vs : list visitable) : M A :=
  match vs with
  | [] => f []
  | [(tys, a, mv)] => visit1 (fun x => f [x]) tys a mv
  | [(tys1, a, mv1); (tys2, b, mv2)] => visit2 (fun x y => f [x; y]) tys1 a mv1 tys2 b mv2
  | (tys, a, mv) :: r => visit1 (one_by_one f r []) tys a mv
  end.

(** apply_visitor(visitor)(v1, ...) (detail/apply_visitor_delayed.hpp:44-73): every argument is
    an lvalue. *)
Definition visit_delayed {A} (f : list arg -> M A) (vs : list (list ity * loc)) : M A :=
  visit_many f (map (fun v => (v.1, v.2, false)) vs).

(** visitor_ptr (visitor_ptr.hpp:34-84) of a function whose parameter is `U`, `const U&` or
    `U&`; the operand is const or not. The class has `operator()(argument_fwd_type)`, where
    argument_fwd_type is `const U&`, `const U&`, `U&`, and a template for `const T&` that throws
    bad_visit; overload resolution picks the first if it can be called with the operand. *)
Inductive param := PVal | PConstRef | PRef.
Definition binds (p : param) (const rvalue : bool) : bool :=
  match p with PRef => negb const && negb rvalue | _ => true end.
Definition visitor_ptr {A} (U : uid) (p : param) (g : loc -> M A) (const : bool) (x : arg) : M A :=
  let '(u, l, mv) := x in
  if decide (u = U) then
    if binds p const mv then
      match p with
      | PVal => scoped (stack_obj (fun y => us_copy S U y l)) (us_destroy S U) g
      | _ => g l
      end
    else throw XBadVisit
  else throw XBadVisit.

(** polymorphic_get (polymorphic_get.hpp:152-301): the pointer forms, for a const or non-const
    variant, and the reference forms, which throw bad_polymorphic_get (a bad_get, 37-48). The
    bounded types of the state machine are unqualified; a pointer to a base class is the
    pointer to the content. The overload for which the call does not compile is never chosen
    for such types (GetFacts.v). *)
Definition poly_pointer (base : uid -> uid -> bool) (cvar : bool) (tys : list ity) (a : loc) (B : uid) : M (option loc) :=
  visit_user C tys a (fun u l =>
    ret (match get_polymorphic_visitor base
                 (UObj (if cvar then add_const (plain B) else plain B))
                 (if cvar then add_const (plain u) else plain u) with
         | Some true => Some l
         | _ => None
         end)).
Definition poly_reference (base : uid -> uid -> bool) (cvar : bool) (tys : list ity) (a : loc) (B : uid) : M loc :=
  let! p := poly_pointer base cvar tys a B in
  match p with Some l => ret l | None => throw XBadGet end.

End queries.
