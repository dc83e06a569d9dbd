(** Specification for construction from variants, nested variants and classes derived from
    variants (C54). *)
From stdpp Require Import base list numbers.
From Verif Require Import Base Nested.
From Verif Require Types.

Section spec.
Context (base : nat -> option (list alt)) (conv : nat -> xty -> option nat) (explicit : nat -> xty -> bool).

(** [l] is, in the end, one of the alternatives of [o]; of any type but a variant, itself. *)
Inductive part (l : alt) : alt -> Prop :=
  | part_self : (forall os, l <> (false, XVar os)) -> part l l
  | part_in p os : p ∈ os -> part l p -> part l (false, XVar os).

(** An alternative can be initialised with [o]. *)
Inductive makes : alt -> alt -> Prop :=
  | makes_same t : makes t t
  | makes_wrapped t : makes (true, t) (false, t)
  | makes_convert w u o r : conv u o = Some r -> makes (w, XUser u) (false, o)
  | makes_explicit u o : explicit u o = true -> makes (false, XUser u) (false, o)
  | makes_base w d tys : base d = Some tys -> makes (w, XVar tys) (false, XUser d)
  | makes_variant w tys o : (forall l, part l o -> exists t, t ∈ tys /\ makes t l) -> makes (w, XVar tys) o.

(** Each alternative of [o] can initialise one of [tys]. *)
Definition accepted (tys : list alt) (o : alt) : Prop := forall l, part l o -> exists t, t ∈ tys /\ makes t l.

(** Implicit conversion of [o] to [t], the better the smaller the number: identity; to a base
    class; by a converting constructor of a variant; those of user types. *)
Inductive converts (o : xty) : xty -> nat -> Prop :=
  | converts_same : converts o o 0
  | converts_user u r : o <> XUser u -> conv u o = Some r -> converts o (XUser u) (S r)
  | converts_base d tys : o = XUser d -> base d = Some tys -> converts o (XVar tys) 1
  | converts_variant tys : o <> XVar tys -> (forall d, o = XUser d -> base d <> Some tys) ->
      accepted tys (false, o) -> converts o (XVar tys) 3.

(** Overload resolution selects [i] for an operand of type [o]; as [best_match] in Spec.v. *)
Definition best (tys : list alt) (o : xty) (i : nat) : Prop :=
  exists w t r, tys !! i = Some (w, t) /\ converts o t r /\
    (forall j w' t', i < j -> tys !! j = Some (w', t') -> t' <> t) /\
    (forall j w' t' r', tys !! j = Some (w', t') -> t' <> t -> converts o t' r' -> r < r').

(** [i] is the last position of the type [o]. *)
Definition last_of (tys : list alt) (o : xty) (i : nat) : Prop :=
  (exists w, tys !! i = Some (w, o)) /\ forall j w' t', i < j -> tys !! j = Some (w', t') -> t' <> o.

(** The result of construction of a variant<tys> from an operand. *)
Inductive constructed (tys : list alt) : xty -> effect -> Prop :=
  | constructed_own : constructed tys (XVar tys) Copies
  | constructed_base d : base d = Some tys -> ~ accepted tys (false, XUser d) -> constructed tys (XUser d) Copies
  | constructed_bounded w os i : (w, XVar os) ∈ tys -> last_of tys (XVar os) i -> constructed tys (XVar os) (Stores i)
  | constructed_foreign os ks : os <> tys -> (forall w, (w, XVar os) ∉ tys) -> accepted tys (false, XVar os) ->
      Forall2 (fun p i => best tys p.2 i) os ks -> constructed tys (XVar os) (Converts ks)
  | constructed_class u i :
      (forall os, base u = Some os -> os <> tys /\ ~ accepted tys (false, XVar os)) ->
      accepted tys (false, XUser u) -> best tys (XUser u) i -> constructed tys (XUser u) (Stores i).
End spec.

(** Variants of user types, as in Compile.v: no class is derived from a variant. *)
Definition embed (t : ity) : alt :=
  match t with IPlain u => (false, XUser u) | IWrap u => (true, XUser u) end.
Definition flat_conv (C : Types.cfg) (u : nat) (o : xty) : option nat :=
  match o with XUser o' => Types.rank C o' u | XVar _ => None end.
Definition flat_explicit (explicit : nat -> nat -> bool) (u : nat) (o : xty) : bool :=
  match o with XUser o' => explicit o' u | XVar _ => false end.
