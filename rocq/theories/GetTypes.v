(** get and polymorphic_get at the level of types: which static assertions hold, which
    overload of the visitor is called for which bounded type. Model. cv-qualified and
    reference types are covered here; the state machine of Variant.v has only unqualified
    types and recursive wrappers. *)
From stdpp Require Import base list numbers.
From Verif Require Import Base.

(** ** Types *)

(** An object type with its cv-qualifiers. *)
Record oty := OTy { is_const : bool; is_volatile : bool; named : uid }.
Global Instance oty_dec : EqDecision oty.
Proof. solve_decision. Defined.

(** The template argument [U]: an object type, an lvalue reference or an rvalue reference. *)
Inductive uty := UObj (t : oty) | ULRef (t : oty) | URRef (t : oty).

(** A bounded type: an object type, [recursive_wrapper] of one, or an lvalue reference. *)
Inductive bty := BPlain (t : oty) | BWrap (t : oty) | BRef (t : oty).
Global Instance bty_dec : EqDecision bty.
Proof. solve_decision. Defined.

Definition remove_reference (u : uty) : oty := match u with UObj t | ULRef t | URRef t => t end.
Definition remove_cv (t : oty) : oty := OTy false false (named t).
Definition add_const (t : oty) : oty := OTy true (is_volatile t) (named t).
(** `const U`: no effect on a reference type. *)
Definition const_u (u : uty) : uty := match u with UObj t => UObj (add_const t) | _ => u end.

(** An unqualified type. *)
Definition plain (u : uid) : oty := OTy false false u.

(** ** element_index.hpp *)

(** variant_element_functor (detail/element_index.hpp:25-32) *)
Definition variant_element_functor (e : bty) (t : oty) : bool :=
  bool_decide (e = BPlain t) || bool_decide (e = BWrap t) || bool_decide (e = BRef t).

(** element_iterator_impl, element_iterator, holds_element (detail/element_index.hpp:34-58):
    [find_if] does not return the end. The search is in [Variant::types], the bounded types
    with recursive wrappers taken off (variant.hpp:1122-1125). *)
Definition unwrap_recursive (e : bty) : bty := match e with BWrap t => BPlain t | _ => e end.
Definition holds_element (tys : list bty) (u : uty) : bool :=
  existsb (fun e => variant_element_functor e (remove_reference u)
                    || variant_element_functor e (remove_cv (remove_reference u)))
          (map unwrap_recursive tys).

(** ** get *)

(** The type of the lvalue on which a visitor is called (variant.hpp:1020-1050,
    detail/cast_storage.hpp:28-38, recursive_wrapper.hpp:94-95, detail/backup_holder.hpp:64-72):
    const if the variant is, except that a reference's referent is as declared. *)
Definition operand (cvar : bool) (e : bty) : oty :=
  match e with
  | BPlain t | BWrap t => if cvar then add_const t else t
  | BRef t => t
  end.

(** A reference to [p] can bind directly to an lvalue of type [a]. *)
Definition binds_to (p a : oty) : bool :=
  bool_decide (named p = named a) && implb (is_const a) (is_const p) && implb (is_volatile a) (is_volatile p).
(** [p] is strictly less cv-qualified than [p']: of two reference bindings of the same lvalue
    the one to the less qualified type is better. *)
Definition less_qualified (p p' : oty) : bool :=
  bool_decide (p <> p') && binds_to p' p.

(** get_visitor<U>::operator() (get.hpp:74-97) called on an lvalue of type [a]: overload
    resolution between `operator()(U&)` and the template for `const T&`, where [T] is deduced
    to make it bind to [a]. If `U&` binds directly, the better binding wins and the
    non-template if neither is better; if it binds after a conversion only (derived to base,
    a temporary), the template is better. [true]: the address is returned, [false]: null. *)
Definition get_visitor (u : uty) (a : oty) : bool :=
  let p1 := remove_reference u in
  let p2 := add_const a in
  binds_to p1 a && negb (less_qualified p2 p1).

(** relaxed_get (get.hpp:118-201) on a const or non-const variant whose content has bounded
    type [e]: is the result non-null (for the reference forms: is bad_get not thrown)? *)
Definition relaxed_get (cvar : bool) (u : uty) (e : bty) : bool :=
  get_visitor (if cvar then const_u u else u) (operand cvar e).

(** The static assertions of strict_get (get.hpp:212-301), which otherwise is relaxed_get. *)
Definition strict_get_compiles (cvar : bool) (tys : list bty) (u : uty) : bool :=
  holds_element tys (if cvar then const_u u else u).

(** ** polymorphic_get *)
Section poly.
(** [boost::is_base_of] on unqualified types: the same class type or a base class. *)
Context (base : uid -> uid -> bool).

Definition is_base_of (b d : oty) : bool := base (named b) (named d).
(** [is_base_of] of an element of [types]: a reference derives from nothing. *)
Definition is_base_of_element (b : oty) (e : bty) : bool :=
  match e with BPlain d => is_base_of b d | _ => false end.

(** get_polymorphic_visitor (polymorphic_get.hpp:92-130) called on an lvalue of type [a] (the
    template parameter [U] is [a]). [None]: the call of the overload for true_type does not
    compile. *)
Definition get_polymorphic_visitor (u : uty) (a : oty) : option bool :=
  let b := remove_reference u in
  let tag := (is_base_of b a && (is_const b || negb (is_const a)))
             || bool_decide (b = a) || bool_decide (remove_cv b = a) in
  if tag then
    if implb (is_const a) (is_const b) && implb (is_volatile a) (is_volatile b)
    then Some true else None
  else Some false.

(** polymorphic_relaxed_get (polymorphic_get.hpp:152-212) *)
Definition polymorphic_relaxed_get (cvar : bool) (u : uty) (e : bty) : option bool :=
  get_polymorphic_visitor (if cvar then const_u u else u) (operand cvar e).

(** holds_element_polymorphic (polymorphic_get.hpp:64-84), asserted by polymorphic_strict_get
    (218-284) of [U] for const and non-const variants alike. *)
Definition polymorphic_strict_get_compiles (tys : list bty) (u : uty) : bool :=
  existsb (fun e => variant_element_functor e (remove_reference u)
                    || variant_element_functor e (remove_cv (remove_reference u))
                    || is_base_of_element (remove_reference u) e)
          (map unwrap_recursive tys).
End poly.
