(** Specification for what the compiler decides (C50, C51, C52). *)
From stdpp Require Import base list numbers.
From Verif Require Import Base Types Spec Compile.
From Verif Require GetTypes.

(** Is the visitor a const object where the overload calls it? *)
Definition seen_const (c : vcat) (o : overload) : Prop := o_visitor o = VCRef \/ c = CLVal.

(** Arithmetic types returned by value are written without const. *)
Definition plain (r : rty) : Prop := forall n, r <> RValue true (TArith n).

(** Class [x] is, or is derived from, class [y]; likewise for types. *)
Inductive is_a (K : classes) : cty -> cty -> Prop :=
  | is_a_same t : is_a K t t
  | is_a_base d b : base K d b = true -> is_a K (TClass d) (TClass b).

(** A result of type [R] made from what the visitor returned as [r] refers to something that
    outlives the call: if [R] is a reference, then so is [r], and it is to an object of that type
    that is not more const. *)
Inductive outlives (K : classes) : rty -> rty -> Prop :=
  | outlives_void r : outlives K r RVoid
  | outlives_value r c t : outlives K r (RValue c t)
  | outlives_l c t c' t' : is_a K t t' -> (c = true -> c' = true) -> outlives K (RLref c t) (RLref c' t')
  | outlives_r c t c' t' : is_a K t t' -> (c = true -> c' = true) -> outlives K (RRref c t) (RRref c' t').

Definition transitive (K : classes) : Prop :=
  forall a b c, base K a b = true -> base K b c = true -> base K a c = true.

(** Implicit conversion of results, between types one of which is a class: to a base class, or, if neither class is
    derived from the other, by a conversion function or otherwise. *)
Definition unrelated (K : classes) (t t' : cty) : Prop := ~ is_a K t t' /\ ~ is_a K t' t.
Inductive turns (K : classes) : cty -> cty -> Prop :=
  | turns_base d b : base K d b = true -> turns K (TClass d) (TClass b)
  | turns_function c c' : unrelated K (TClass c) (TClass c') -> by_function K c c' = true -> turns K (TClass c) (TClass c')
  | turns_other t t' : unrelated K t t' -> by_other K t t' = true -> turns K t t'.

(** A result of type [t] can become one of type [t'] by conversions, arithmetic ones among them. *)
Inductive becomes (K : classes) : cty -> cty -> Prop :=
  | becomes_same t : becomes K t t
  | becomes_base t d b : becomes K t (TClass d) -> base K d b = true -> becomes K t (TClass b)
  | becomes_function t c c' : becomes K t (TClass c) -> by_function K c c' = true -> becomes K t (TClass c')
  | becomes_other t t' t'' : becomes K t t' -> by_other K t' t'' = true -> becomes K t t''
  | becomes_left t m n : becomes K t (TArith m) -> becomes K t (TArith (arith K m n))
  | becomes_right t m n : becomes K t (TArith n) -> becomes K t (TArith (arith K m n)).
(** The type that a return type is about, without const and references; [None] for void. *)
Definition about (r : rty) : option cty :=
  match r with RVoid => None | RValue _ t | RLref _ t | RRref _ t => Some t end.

(** The documented requirement of conversion from a variant with internal types [src]
    (doc/reference/variant.xml:213-218): every bounded type converts unambiguously. *)
Definition all_convert (C : cfg) (tys src : list ity) : Prop :=
  forall t, t ∈ src -> exists i, best_match C tys (ity_uid t) i.

(** What a visitor should get for a content of bounded type [e]: a part of the variant, as const
    and as much of an rvalue as the variant is; but what a reference refers to is no part of it and
    is passed as it is. *)
Inductive should_get (cvar rvalue : bool) : GetTypes.bty -> argument -> Prop :=
  | get_part c v u e : e = GetTypes.BPlain (GetTypes.OTy c v u) \/ e = GetTypes.BWrap (GetTypes.OTy c v u) ->
      should_get cvar rvalue e (GetTypes.OTy (c || cvar) v u, rvalue)
  | get_referent t : should_get cvar rvalue (GetTypes.BRef t) (t, false).
