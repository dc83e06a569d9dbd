(** Constructing a variant from a variant, or from a class derived from one, when bounded types
    may be variants too. What the compiler decides. Model. *)
From stdpp Require Import base list numbers.
From Verif Require Import Base.

(** Types: user types, by name; boost::variant of alternatives. An alternative is a type, in
    recursive_wrapper (true) or not (variant.hpp:1118-1180). Simplification: no references, no
    recursive_variant_. *)
Inductive xty :=
  | XUser (u : nat)
  | XVar (tys : list (bool * xty)).
Notation alt := (bool * xty)%type.

Fixpoint xty_dec (x y : xty) {struct x} : {x = y} + {x <> y}.
Proof.
  assert (Hl : forall l l' : list alt, {l = l'} + {l <> l'}).
  { apply list_eq_dec. intros [b t] [b' t']. destruct (Bool.bool_dec b b') as [->|Hb]; [|right; congruence].
    destruct (xty_dec t t') as [->|Ht]; [left; reflexivity|right; congruence]. }
  decide equality; apply Nat.eq_dec.
Defined.
Global Instance xty_eq_dec : EqDecision xty := xty_dec.

Section nested.
(** The user types: [base u]: the class is derived from this variant, publicly; [conv u o]: an
    operand of type [o] converts to [u] implicitly, with this rank; [explicit u o]: by an explicit
    constructor only. Simplification: a class has at most one variant as base class; a
    recursive_wrapper does not convert to user types. *)
Context (base : nat -> option (list alt)) (conv : nat -> xty -> option nat) (explicit : nat -> xty -> bool).

(** The alternatives in the end, out of nested variants: is_variant_constructible_from for a
    variant (variant.hpp:287-315) asks for each type in recursive_enabled_types, which may be a
    variant again. *)
Fixpoint leaves (w : bool) (t : xty) : list alt :=
  match w, t with
  | false, XVar tys => concat (map (fun p => match p with (w', t') => leaves w' t' end) tys)
  | _, _ => [(w, t)]
  end.

(** Is [o] a class derived from variant<tys>? *)
Definition derived (tys : list alt) (o : alt) : bool :=
  match o with (false, XUser d) => bool_decide (base d = Some tys) | _ => false end.
Definition same (t o : alt) : bool := bool_decide (o = t).
Definition some {A} (x : option A) : bool := match x with Some _ => true | None => false end.
Definition from_user (u : nat) (o : alt) : option nat :=
  match o with (false, o') => conv u o' | (true, _) => None end.

(** [is_constructible<t, o>]. A variant is constructible from itself, from classes derived from it
    (by the copy constructor), and from what its converting constructors accept
    (variant.hpp:1588-1631, 1636-1656); a class from what its constructors accept;
    recursive_wrapper<T> from itself and from what converts to [T] implicitly
    (recursive_wrapper.hpp:41-50), where the converting constructors of variants are implicit. *)
Fixpoint constructible (w : bool) (t : xty) (o : alt) : bool :=
  same (w, t) o ||
  match t with
  | XUser u =>
      if w then same (false, t) o || some (from_user u o)
      else some (from_user u o) || match o with (false, o') => explicit u o' | _ => false end
  | XVar tys =>
      (w && same (false, t) o) || derived tys o ||
      forallb (fun l => existsb (fun p => match p with (w', t') => constructible w' t' l end) tys) (leaves o.1 o.2)
  end.

(** is_variant_constructible_from<o, tys> (variant.hpp:261-315). *)
Definition from (tys : list alt) (o : alt) : bool :=
  forallb (fun l => existsb (fun p => constructible p.1 p.2 l) tys) (leaves o.1 o.2).

(** Rank of the implicit conversion of [o] to the type [t]: none needed; derived to base; by a
    conversion function or converting constructor. Simplification: the converting constructors of
    variants have one rank. *)
Definition rank (t : xty) (o : xty) : option nat :=
  if decide (o = t) then Some 0 else
  match t with
  | XUser u => option_map S (conv u o)
  | XVar tys => if derived tys (false, o) then Some 1 else if from tys (false, o) then Some 3 else None
  end.

(** Overload resolution of initializer::initialize (detail/initializer.hpp:54-123), as in
    [Types.resolve]: the last of several alternatives of one type is visible; least rank. *)
Fixpoint visible (i : nat) (tys : list alt) : list (nat * xty) :=
  match tys with
  | [] => []
  | p :: r => if existsb (fun p' => bool_decide (p'.2 = p.2)) r then visible (S i) r
              else (i, p.2) :: visible (S i) r
  end.
Definition initialize (tys : list alt) (o : xty) : option nat :=
  let cs := omap (fun it => match rank it.2 o with Some r => Some (it.1, r) | None => None end) (visible 0 tys) in
  match filter (fun c => Forall (fun c' => c'.1 = c.1 \/ (c.2 < c'.2)%nat) cs) cs with
  | c :: _ => Some c.1
  | [] => None
  end.

(** ** Which constructor of variant<tys> takes an operand of type [o] (variant.hpp:1588-1656).
    The templates take the operand as it is, the copy and the move constructor are worse for a
    derived class. Simplification: it does not matter whether the operand is const, an lvalue or an
    rvalue; there is one template for each case. *)
Inductive ctor := CopyCtor | TemplateCtor.
Definition constructor (tys : list alt) (o : xty) : option ctor :=
  if decide (o = XVar tys) then Some CopyCtor
  else if from tys (false, o) then Some TemplateCtor
  else if derived tys (false, o) then Some CopyCtor
  else None.

(** ** The call [convert_construct(operand, 1L)] in the templates. Candidates
    (variant.hpp:1431-1469 and 1547-1583), with the ranks of the conversions of both arguments:
    any operand, and [int]; or a variant, and [long]. A variant<os> is deduced also from a class
    derived from it. *)
Inductive helper := HValue | HVariant (os : list alt).
Global Instance helper_eq_dec : EqDecision helper.
Proof. solve_decision. Defined.
Definition helpers (tys : list alt) (o : xty) : list (helper * (nat * nat)) :=
  (HValue, (0, 1)) ::
  match o with
  | XVar os => if bool_decide (os = tys) || from tys (false, XVar os) then [(HVariant os, (0, 0))] else []
  | XUser d =>
      match base d with
      | Some os => if bool_decide (os = tys) || from tys (false, XVar os) then [(HVariant os, (1, 0))] else []
      | None => []
      end
  end.
Definition better (x y : nat * nat) : bool :=
  bool_decide (x.1 <= y.1 /\ x.2 <= y.2 /\ x <> y).
Definition selected (tys : list alt) (o : xty) : option helper :=
  let cs := helpers tys o in
  match filter (fun c => Forall (fun c' => c' = c \/ better c.2 c'.2 = true) cs) cs with
  | c :: _ => Some c.1
  | [] => None
  end.

(** ** The result: a copy of the operand's content; the operand stored as alternative [i]; its
    content stored as alternative [is !! j], if [j] is the operand's index. [None]: a compile-time
    error. convert_construct_variant (variant.hpp:1486-1541) looks for the variant among the
    bounded types, without recursive_wrapper; convert_copy_into and convert_move_into
    (variant.hpp:1288-1427) call initialize for the content, without recursive_wrapper. *)
Inductive effect := Copies | Stores (i : nat) | Converts (is : list nat).
Definition convert_construct_variant (tys os : list alt) : option effect :=
  if existsb (fun p => bool_decide (p.2 = XVar os)) tys
  then option_map Stores (initialize tys (XVar os))
  else option_map Converts (mapM (fun p => initialize tys p.2) os).
Definition construct (tys : list alt) (o : xty) : option effect :=
  match constructor tys o with
  | None => None
  | Some CopyCtor => Some Copies
  | Some TemplateCtor =>
      match selected tys o with
      | None => None
      | Some HValue => option_map Stores (initialize tys o)
      | Some (HVariant os) => convert_construct_variant tys os
      end
  end.
End nested.
