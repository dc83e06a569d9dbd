(** Which comparisons compile. Model. The types are those of Nested.v. *)
From stdpp Require Import base list numbers.
From Verif Require Import Base Nested.

Inductive op := OEq | ONe | OLt | OGt | OLe | OGe.

(** The functions that [x op y] may call: the operator of variant<tys> that compares
    (variant.hpp:2123-2180); the template beside it, which always fails
    (variant.hpp:2083-2117); a member operator of a user's class, by its parameter; any other
    operator, by its parameters. *)
Inductive callee :=
  | Compares (tys : list alt)
  | Refuses
  | Member (u : nat) (p : xty)
  | Free (l r : xty).
Global Instance callee_eq_dec : EqDecision callee.
Proof. solve_decision. Defined.

Section comparison.
Context (base : nat -> option (list alt)) (conv : nat -> xty -> option nat) (explicit : nat -> xty -> bool).
(** The user's operators: [member op u]: the parameters of the member operators of class [u];
    [free op]: those that are not members, built-in ones included. Simplification: they are const,
    not templates, take values or const references, and their bodies compile; there are no
    reversed candidates (C++20), which [operator!=] of variant switches off; no operand is
    volatile. *)
Context (member : op -> nat -> list xty) (free : op -> list (xty * xty)).
Notation rank := (rank base conv explicit).

(** Candidates, with the ranks of the conversions of both operands, if there are conversions. A
    class that declares an operator hides those of its base class. The template's parameter is
    the operand's type. *)
Definition of_variant (tys : list alt) (r : nat) (y : xty) : list (callee * (option nat * option nat)) :=
  [(Compares tys, (Some r, rank (XVar tys) y)); (Refuses, (Some r, Some 0))].
Definition members (o : op) (x y : xty) : list (callee * (option nat * option nat)) :=
  match x with
  | XVar tys => of_variant tys 0 y
  | XUser u =>
      match member o u, base u with
      | [], Some tys => of_variant tys 1 y
      | ps, _ => map (fun p => (Member u p, (Some 0, rank p y))) ps
      end
  end.
Definition nonmembers (o : op) (x y : xty) : list (callee * (option nat * option nat)) :=
  map (fun lr => (Free lr.1 lr.2, (rank lr.1 x, rank lr.2 y))) (free o).
Definition viable (c : callee * (option nat * option nat)) : option (callee * (nat * nat)) :=
  match c with (f, (Some i, Some j)) => Some (f, (i, j)) | _ => None end.
Definition candidates (o : op) (x y : xty) : list (callee * (nat * nat)) :=
  omap viable (members o x y ++ nonmembers o x y).

(** Better conversions; if they are the same, a function rather than a template. *)
Definition beats (c d : callee * (nat * nat)) : bool :=
  better c.2 d.2 || (bool_decide (c.2 = d.2) && bool_decide (c.1 <> Refuses) && bool_decide (d.1 = Refuses)).
Definition choose (o : op) (x y : xty) : option callee :=
  let cs := candidates o x y in
  match filter (fun c => Forall (fun d => d = c \/ beats c d = true) cs) cs with
  | c :: _ => Some c.1
  | [] => None
  end.

(** [t == t] and [t < t], as called for the contents by [comparer] with [equal_comp] and [less_comp]
    (variant.hpp:917-975): for each bounded type, without recursive_wrapper. The case of a class
    whose comparison with itself is that of its base class does not occur (C60_compiles). *)
Fixpoint content (o : op) (t : xty) : bool :=
  match choose o t t with
  | Some (Compares _) =>
      match t with
      | XVar tys => forallb (fun p => match p with (_, t') => content o t' end) tys
      | XUser _ => false
      end
  | Some (Member _ _) | Some (Free _ _) => true
  | Some Refuses | None => false
  end.
(** [v op v] for two operands of type variant<tys>; the bodies (variant.hpp:2123-2180):
    [!=] calls [==], [>] and [>=] call [<], [<=] calls [>]. *)
Definition alike (o : op) (f : bool) (tys : list alt) : bool :=
  match choose o (XVar tys) (XVar tys) with
  | Some (Compares _) => f
  | Some (Member _ _) | Some (Free _ _) => true
  | Some Refuses | None => false
  end.
Definition body (o : op) (tys : list alt) : bool :=
  match o with
  | OEq | OLt => forallb (fun p => content o p.2) tys
  | ONe => content OEq (XVar tys)
  | OGt | OGe => content OLt (XVar tys)
  | OLe => alike OGt (content OLt (XVar tys)) tys
  end.
(** [x op y] compiles. *)
Definition compiles (o : op) (x y : xty) : bool :=
  match choose o x y with
  | Some (Compares tys) => body o tys
  | Some (Member _ _) | Some (Free _ _) => true
  | Some Refuses | None => false
  end.
End comparison.
