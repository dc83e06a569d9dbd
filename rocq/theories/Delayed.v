(** Delayed visitation: apply_visitor(visitor) without variants makes a function object that refers to the
    visitor. Model. *)
From stdpp Require Import base gmap list numbers.
From Coq Require Import ZArith.
From Verif Require Import Base Types Variant Queries Compile.

(** ** What compiles *)

(** An argument: an lvalue or an rvalue, const or not. Const rvalues are results of functions that return
    [const V], and [std::move] of a const object. *)
Inductive dcat := DLVal | DCLVal | DRVal | DCRVal.

(** A parameter [T&] of a template. T is deduced as the argument's type, with its const ([temp.deduct.call]); then
    [V&] binds to non-const lvalues, and [const V&] to anything ([dcl.init.ref]/5). *)
Definition deduced_const (c : dcat) : bool := match c with DCLVal | DCRVal => true | DLVal | DRVal => false end.
Definition ref_binds (c : dcat) : bool := match c with DRVal => false | _ => true end.

(** apply_visitor(Visitor& visitor) (detail/apply_visitor_delayed.hpp:72-79 for visitors with [result_type], 108-115
    for others, if BOOST_NO_CXX14_DECLTYPE_AUTO is not defined). [b]: the visitor's class has [result_type]. The
    result: is the visitor that the function object refers to const? *)
Definition delay (cxx14 b : bool) (c : dcat) : option bool :=
  if ref_binds c && (b || cxx14) then Some (deduced_const c) else None.

(** The visitor that operator() passes on (61-65, 97-101): [visitor_], an lvalue. *)
Definition delayed_visitor (b const : bool) : visitor := Visitor b (if const then CLVal else LVal).
(** operator()(Visitables&... visitables) of the function object (61-65, 97-101): every argument binds, and
    apply_visitor(visitor_, visitables...) compiles. Simplification: called with at least one
    variant. *)
Definition delayed_compiles (cxx14 b const : bool) (args : list dcat) : bool :=
  forallb ref_binds args && call_compiles cxx14 (delayed_visitor b const) (length args).

(** ** What it does *)

(** apply_visitor_delayed_t and apply_visitor_delayed_cpp14_t (41-70, 83-106): a reference to the visitor. *)
Record delayed := Delayed { d_visitor : loc; d_const : bool }.

Section delayed.
Context (C : cfg) (S : usem).

(** operator() (61-65, 97-101), with lvalues. The visitor [f] gets to know whether it is const, and where it is. It
    must be an object when its operator() is called. *)
Definition call_delayed {A} (d : delayed) (f : bool -> loc -> list arg -> M A) (vs : list (list ity * loc)) : M A :=
  visit_delayed C S (fun args => let! _ := get_obj (d_visitor d) in f (d_const d) (d_visitor d) args) vs.

(** Not library code. [auto f = apply_visitor(make());], where make returns a [const V], a type [u], that [init]
    initializes: the temporary is destroyed at the end of the full-expression. *)
Definition delay_temporary (u : uid) (init : loc -> M unit) : M delayed :=
  scoped (stack_obj init) (us_destroy S u) (fun l => ret (Delayed l (deduced_const DCRVal))).
(** [apply_visitor(make())(v1, ...);] *)
Definition delay_and_call {A} (u : uid) (init : loc -> M unit) (f : bool -> loc -> list arg -> M A) (vs : list (list ity * loc)) : M A :=
  scoped (stack_obj init) (us_destroy S u) (fun l => call_delayed (Delayed l (deduced_const DCRVal)) f vs).
End delayed.
