(** Recursive variants at the level of types: substitution of recursive_variant_. Model. *)
From stdpp Require Import base list numbers.
From Coq Require Import List.

(** ** Type expressions *)

(** cv-qualifiers: const, volatile. *)
Definition cvq : Type := bool * bool.
Definition nocv : cvq := (false, false).

(** Type expressions in the form in which C++ identifies them: qualifiers of an array type are
    those of its elements, references and functions have none. *)
Inductive ty :=
| TName (q : cvq) (n : nat)                      (* a type that is not a template instance *)
| TTag (q : cvq)                                 (* boost::recursive_variant_ *)
| TPtr (q : cvq) (t : ty)                        (* T * q *)
| TLRef (t : ty)                                 (* T & *)
| TRRef (t : ty)                                 (* T && *)
| TArr (t : ty) (n : nat)                        (* T [n] *)
| TFun (r : ty) (args : list ty)                 (* R (A...) *)
| TMem (q : cvq) (c t : ty)                      (* T c::* q *)
| TApp (q : cvq) (F : nat) (args : list ty)      (* q F<T...>, type parameters only *)
| TAppN (q : cvq) (F : nat) (args : list ty) (n : nat) (* q F<T..., n>, as std::array *)
| TVariant (q : cvq) (args : list ty)            (* q boost::variant<T...> *)
| TVariantOver (q : cvq) (args : list ty)        (* q variant<over_sequence<...>> *)
| TRecVariant (q : cvq) (args : list ty).        (* q make_recursive_variant<T...>::type *)

(** [is_same] *)
Definition ty_eq_dec : forall x y : ty, {x = y} + {x <> y}.
Proof.
  fix IH 1. intros x y.
  decide equality; try apply (List.list_eq_dec IH); try apply Nat.eq_dec;
    try (apply (@prod_eq_dec bool _ bool _)).
Defined.
Global Instance ty_dec : EqDecision ty := ty_eq_dec.

(** [q Dest] for a class type [Dest]. *)
Definition qualify (q : cvq) (t : ty) : ty :=
  match t with
  | TName _ n => TName q n
  | TApp _ F l => TApp q F l
  | TAppN _ F l n => TAppN q F l n
  | TVariant _ l => TVariant q l
  | TVariantOver _ l => TVariantOver q l
  | TRecVariant _ l => TRecVariant q l
  | _ => t
  end.

(** ** substitute (detail/substitute.hpp:39-161, recursive_variant.hpp:48-129)

    [Source] is always recursive_variant_. The specialisations: the tag with any qualifiers
    (substitute.hpp:56-78), pointers with any qualifiers (83-107), lvalue references (112-123),
    unqualified template instances with type parameters only (129-147), pointers to functions
    without qualifiers (152-172); for an unqualified variant: recursive ones are left alone
    (recursive_variant.hpp:48-66), the others get their types substituted (68-129, by
    enable_recursive with NoWrapper, which is substitute). Everything else is left alone
    (substitute.hpp:39-51). A type sequence is represented by its elements, so that the
    choice of 97-104 makes no difference. *)
Fixpoint substitute (dest : ty) (t : ty) : ty :=
  match t with
  | TTag q => qualify q dest
  | TPtr q t' =>
      match q, t' with
      | (false, false), TFun r args => TPtr nocv (TFun (substitute dest r) (map (substitute dest) args))
      | _, _ => TPtr q (substitute dest t')
      end
  | TLRef t' => TLRef (substitute dest t')
  | TApp (false, false) F args => TApp nocv F (map (substitute dest) args)
  | TVariant (false, false) args => TVariant nocv (map (substitute dest) args)
  | TVariantOver (false, false) args => TVariantOver nocv (map (substitute dest) args)
  | _ => t
  end.

(** ** enable_recursive (detail/enable_recursive.hpp:50-80) *)

Definition is_reference (t : ty) : bool := match t with TLRef _ | TRRef _ => true | _ => false end.
Definition is_pointer (t : ty) : bool := match t with TPtr _ _ => true | _ => false end.
(** The template recursive_wrapper. *)
Definition wrapper_template : nat := 0.
Definition recursive_wrapper (t : ty) : ty := TApp nocv wrapper_template [t].

(** With NoWrapper = mpl::false_, the default. *)
Definition enable_recursive (dest t : ty) : ty :=
  let t_ := substitute dest t in
  if bool_decide (t_ = t) || is_reference t_ || is_pointer t_ then t_ else recursive_wrapper t_.

(** make_recursive_variant (recursive_variant.hpp:138-149) and its bounded types
    (recursive_enabled_types, variant.hpp:1112-1120): the variant itself replaces the tag. *)
Definition make_recursive_variant (args : list ty) : ty := TRecVariant nocv args.
Definition recursive_enabled_types (args : list ty) : list ty :=
  map (enable_recursive (make_recursive_variant args)) args.
