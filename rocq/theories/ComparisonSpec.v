(** Specification for comparisons that compile (C60). *)
From stdpp Require Import base list numbers.
From Verif Require Import Base Nested NestedSpec Comparison.

Section spec.
Context (base : nat -> option (list alt)) (conv : nat -> xty -> option nat) (explicit : nat -> xty -> bool).
Context (member : op -> nat -> list xty) (free : op -> list (xty * xty)).
Notation converts := (converts base conv explicit).

(** The operators of variant<tys> are found for the left operand, which converts with this rank. *)
Inductive is_variant (o : op) (tys : list alt) : xty -> nat -> Prop :=
  | is_variant_self : is_variant o tys (XVar tys) 0
  | is_variant_derived d : base d = Some tys -> member o d = [] -> is_variant o tys (XUser d) 1.

(** [x o y] may call this, after conversions of these ranks. *)
Inductive callable (o : op) (x y : xty) : callee -> nat -> nat -> Prop :=
  | callable_compares tys i j : is_variant o tys x i -> converts y (XVar tys) j -> callable o x y (Compares tys) i j
  | callable_refuses tys i : is_variant o tys x i -> callable o x y Refuses i 0
  | callable_member u p j : x = XUser u -> p ∈ member o u -> converts y p j -> callable o x y (Member u p) 0 j
  | callable_free l r i j : (l, r) ∈ free o -> converts x l i -> converts y r j -> callable o x y (Free l r) i j.

(** Overload resolution: no worse for either operand than any other, and better for one or, if not,
    a function where the other is a template. *)
Definition called (o : op) (x y : xty) (f : callee) : Prop :=
  exists i j, callable o x y f i j /\
    forall f' i' j', callable o x y f' i' j' -> (f', i', j') <> (f, i, j) ->
      i <= i' /\ j <= j' /\ (i < i' \/ j < j' \/ f <> Refuses /\ f' = Refuses).

(** What the body of a comparison of variant<tys> calls. *)
Inductive calls (tys : list alt) : op -> op -> xty -> Prop :=
  | calls_eq w t : (w, t) ∈ tys -> calls tys OEq OEq t
  | calls_lt w t : (w, t) ∈ tys -> calls tys OLt OLt t
  | calls_ne : calls tys ONe OEq (XVar tys)
  | calls_gt : calls tys OGt OLt (XVar tys)
  | calls_ge : calls tys OGe OLt (XVar tys)
  | calls_le : calls tys OLe OGt (XVar tys).

(** [x o y] compiles, and everything that it needs. *)
Inductive valid (o : op) (x y : xty) : Prop :=
  | valid_member u p : called o x y (Member u p) -> valid o x y
  | valid_free l r : called o x y (Free l r) -> valid o x y
  | valid_compares tys : called o x y (Compares tys) -> (forall o' t, calls tys o o' t -> valid o' t t) -> valid o x y.

(** Of [==] and [<], the one that implements an operator. *)
Definition basic (o : op) : op := match o with OEq | ONe => OEq | _ => OLt end.

(** The user has an operator, not a member, for these operands. *)
Definition user_operator (o : op) (x y : xty) : Prop :=
  exists l r i j, (l, r) ∈ free o /\ converts x l i /\ converts y r j.
End spec.
