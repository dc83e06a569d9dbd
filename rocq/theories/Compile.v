(** What the compiler decides: which overload of apply_visitor a call selects, which result type
    visitation with a generic visitor gets, and which converting constructors and assignments
    exist. The rules of C++ that are needed are modelled here too; the comments say which. *)
From stdpp Require Import base list numbers.
From Verif Require Import Base Types.
From Verif Require GetTypes.

(** ** The overloads of apply_visitor *)

(** The first parameter: [Visitor&], [const Visitor&] or [Visitor&&]. *)
Inductive vparam := VRef | VCRef | VFwd.

(** The others: [T&& v] with T deduced from one argument, [TN&&... vn], and
    [typename disable_if<has_result_type<Visitor>, bool>::type = true]. *)
Inductive param := PFwd | PPack | PFlag.

(** What has to hold of the visitor for the declaration not to be dropped (SFINAE): the return
    type is [typename Visitor::result_type], or the flag's type exists. *)
Inductive needs := NResult | NNoResult.

Record overload := Overload { o_visitor : vparam; o_params : list param; o_needs : needs }.

(** The overloads taking variants (those with a visitor only, apply_visitor_delayed.hpp:72-79
    and 108-115, return a function object). [cxx14]: BOOST_NO_CXX14_DECLTYPE_AUTO and
    BOOST_NO_CXX11_DECLTYPE_N3276 are not defined.
    - apply_visitor_unary.hpp:43-48, 54-59, 112-121
    - apply_visitor_binary.hpp:142-151, 158-167, 258-270, 272-284
    - multivisitors_cpp11_based.hpp:173-189, 191-207
    - multivisitors_cpp14_based.hpp:106-125, 128-147 *)
Definition overloads (cxx14 : bool) : list overload :=
  [Overload VRef [PFwd] NResult; Overload VCRef [PFwd] NResult;
   Overload VRef [PFwd; PFwd] NResult; Overload VCRef [PFwd; PFwd] NResult;
   Overload VCRef [PFwd; PFwd; PFwd; PPack] NResult; Overload VRef [PFwd; PFwd; PFwd; PPack] NResult] ++
  if cxx14 then
    [Overload VFwd [PFwd; PFlag] NNoResult;
     Overload VRef [PFwd; PFwd; PFlag] NNoResult; Overload VCRef [PFwd; PFwd; PFlag] NNoResult;
     Overload VCRef [PFwd; PFwd; PFwd; PPack; PFlag] NNoResult;
     Overload VRef [PFwd; PFwd; PFwd; PPack; PFlag] NNoResult]
  else [].

(** The visitor argument: whether its class has a member type [result_type], and whether it is a
    non-const lvalue, a const lvalue or a non-const rvalue. *)
Inductive vcat := LVal | CLVal | RVal.
Record visitor := Visitor { v_result : bool; v_cat : vcat }.

(** Can the parameters take [n] variants? A pack at the end of the list takes all that are left;
    a pack that is not at the end is a non-deduced context ([temp.deduct.type]/5), and since it
    is not otherwise deduced, it is empty ([temp.arg.explicit]/3). A flag has a default
    argument; a boost::variant does not convert to bool. *)
Fixpoint takes (ps : list param) (n : nat) : bool :=
  match ps, n with
  | [], 0 => true
  | [], S _ => false
  | PFwd :: ps', S n' => takes ps' n'
  | PFwd :: _, 0 => false
  | [PPack], _ => true
  | PPack :: ps', _ => takes ps' n
  | PFlag :: ps', 0 => takes ps' 0
  | PFlag :: _, S _ => false
  end.

(** [Visitor&] does not bind to a non-const rvalue. *)
Definition binds (p : vparam) (c : vcat) : bool :=
  match p, c with VRef, RVal => false | _, _ => true end.

(** has_result_type<Visitor> (has_result_type.hpp:21-32), and [typename Visitor::result_type]: the
    class has it. But where [Visitor&&] is deduced from an lvalue, Visitor is a reference type,
    which has no members. *)
Definition has_result (p : vparam) (v : visitor) : bool :=
  match p, v_cat v with
  | VFwd, LVal | VFwd, CLVal => false
  | _, _ => v_result v
  end.

Definition viable (v : visitor) (n : nat) (o : overload) : bool :=
  binds (o_visitor o) (v_cat v) && takes (o_params o) n &&
  match o_needs o with NResult => has_result (o_visitor o) v | NNoResult => negb (has_result (o_visitor o) v) end.

(** Which is the better match for the visitor argument? A non-const lvalue prefers [Visitor&]
    to [const Visitor&]; an rvalue prefers [Visitor&&] ([over.ics.rank]/3.2). Otherwise the more
    specialised template ([temp.deduct.partial]/9): [const Visitor&] before [Visitor&] before
    [Visitor&&]. For an lvalue [Visitor&&] is [Visitor&] after deduction. *)
Definition prefers (c : vcat) (p q : vparam) : bool :=
  match c, p, q with
  | LVal, VRef, VCRef | LVal, VFwd, VCRef | LVal, VRef, VFwd => true
  | CLVal, VCRef, VRef | CLVal, VCRef, VFwd | CLVal, VRef, VFwd => true
  | RVal, VFwd, VCRef => true
  | _, _, _ => false
  end.

(** A template without a pack is more specialised than one with a pack
    ([temp.deduct.partial]/11); all other parameters are alike. *)
Definition has_pack (o : overload) : bool :=
  existsb (fun p => match p with PPack => true | _ => false end) (o_params o).
Definition better (c : vcat) (o o' : overload) : bool :=
  prefers c (o_visitor o) (o_visitor o') || (negb (has_pack o) && has_pack o' && negb (prefers c (o_visitor o') (o_visitor o))).

(** The overload that [apply_visitor(visitor, v1, ..., vn)] calls; [None]: does not compile, since
    there is no viable overload or no best one. *)
Definition selected (cxx14 : bool) (v : visitor) (n : nat) : option overload :=
  let vs := List.filter (viable v n) (overloads cxx14) in
  match List.filter (fun i => forallb (fun j => Nat.eqb i j ||
           match vs !! i, vs !! j with Some o, Some o' => better (v_cat v) o o' | _, _ => false end) (seq 0 (length vs)))
         (seq 0 (length vs)) with
  | i :: _ => vs !! i
  | [] => None
  end.

(** The visitors that the overload makes to take the content of one variant after the other, with
    which apply_visitor is called for one variant each: apply_visitor_binary_unwrap and
    apply_visitor_binary_invoke (apply_visitor_binary.hpp:41-134, 180-254) are automatic variables,
    one_by_one_visitor_and_value_referer (multivisitors_cpp11_based.hpp:104-169,
    multivisitors_cpp14_based.hpp:41-102) are temporaries; both have a member [result_type] iff
    the overload is one for visitors that have. *)
Definition helper (o : overload) : visitor :=
  Visitor (match o_needs o with NResult => true | NNoResult => false end)
          (if has_pack o then RVal else LVal).

(** Does the call, with the calls in the body of the selected overload, compile? *)
Definition call_compiles (cxx14 : bool) (v : visitor) (n : nat) : bool :=
  match selected cxx14 v n with
  | None => false
  | Some o => match n with
              | 1 => true
              | _ => match selected cxx14 (helper o) 1 with Some _ => true | None => false end
              end
  end.

(** ** The result type of visitation with a generic visitor *)

(** Types: arithmetic types and classes. Pointers, enumerations and arrays are left out. *)
Inductive cty := TArith (n : nat) | TClass (c : nat).
Global Instance cty_eq_dec : EqDecision cty.
Proof. solve_decision. Defined.
Definition is_class (t : cty) : bool := match t with TClass _ => true | TArith _ => false end.

(** What a visitor's operator() may return: void, [T] or [const T], [T&] or [const T&], [T&&] or
    [const T&&]. *)
Inductive rty := RVoid | RValue (c : bool) (t : cty) | RLref (c : bool) (t : cty) | RRref (c : bool) (t : cty).

(** Expressions: void, prvalues, lvalues and xvalues of a type, const or not. *)
Inductive expr := EVoid | EPr (c : bool) (t : cty) | EL (c : bool) (t : cty) | EX (c : bool) (t : cty).
Global Instance expr_eq_dec : EqDecision expr.
Proof. solve_decision. Defined.

(** A call of a function that returns [r] ([expr.call]/10; arithmetic prvalues are not const,
    [expr]/6). *)
Definition called (r : rty) : expr :=
  match r with
  | RVoid => EVoid
  | RValue c t => EPr (c && is_class t) t
  | RLref c t => EL c t
  | RRref c t => EX c t
  end.

(** [boost::declval<r>()], which returns [r&&]. *)
Definition declval (r : rty) : expr :=
  match r with
  | RVoid => EVoid
  | RValue c t => EX c t
  | RLref c t => EL c t
  | RRref c t => EX c t
  end.

(** [decltype(e)] of an expression that is not a name ([dcl.type.simple]/4). *)
Definition decltype (e : expr) : rty :=
  match e with
  | EVoid => RVoid
  | EPr c t => RValue c t
  | EL c t => RLref c t
  | EX c t => RRref c t
  end.

(** The program's classes: [base d b], class [b] is a base class of [d] (unambiguous and
    accessible); [by_function t t'], class [t] has a conversion function to class [t'];
    [by_other t t'], there is another implicit conversion from [t] to [t'], one of which is a
    class; [arith m n], the usual arithmetic conversions. [temp_direct]: a reference that binds to
    a class prvalue binds directly. That is so by [dcl.init.ref]/5, but compilers differ. *)
Record classes := Classes {
  temp_direct : bool;
  base : nat -> nat -> bool;
  by_function : nat -> nat -> bool;
  by_other : cty -> cty -> bool;
  arith : nat -> nat -> nat
}.

Section Cond.
Context (K : classes).

Definition derived (t t' : cty) : bool :=
  match t, t' with TClass d, TClass b => base K d b | _, _ => false end.
Definition converts (t t' : cty) : bool :=
  by_other K t t' || match t, t' with TClass c, TClass c' => by_function K c c' | _, _ => false end.

(** [const? T'] is reference-compatible with [const? T] ([dcl.init.ref]/4). *)
Definition compatible (c : bool) (t : cty) (c' : bool) (t' : cty) : bool :=
  (bool_decide (t = t') || derived t t') && implb c c'.

(** Can [e] be converted to match [e'], and to what? C++14, [expr.cond]/3. An lvalue reference
    binds directly to an lvalue; an rvalue reference binds directly to rvalues of a
    reference-compatible type, and to class prvalues that a conversion function yields
    ([dcl.init.ref]/5.2.1). Simplifications: conversion functions to references are left out, and
    conversions are not ambiguous. *)
Definition etype (e : expr) : option (bool * cty) :=
  match e with EVoid => None | EPr c t | EL c t | EX c t => Some (c, t) end.
Definition by_temporary (t t' : cty) : bool :=
  match t, t' with TClass x, TClass x' => temp_direct K && by_function K x x' | _, _ => false end.
Definition binds_to (e e' : expr) : option expr :=
  match e, e' with
  | EL c t, EL c' t' => if compatible c t c' t' then Some e' else None
  | EX c t, EX c' t' => if compatible c t c' t' || by_temporary t t' then Some e' else None
  | EPr c t, EX c' t' => if (temp_direct K && compatible c t c' t') || by_temporary t t' then Some e' else None
  | EL c t, EX c' t' => if by_temporary t t' then Some e' else None
  | _, _ => None
  end.
Definition match_to (e e' : expr) : option expr :=
  match binds_to e e' with
  | Some r => Some r
  | None =>
      match etype e, etype e' with
      | Some (c, t), Some (c', t') =>
          if negb (is_class t || is_class t') then None
          else if bool_decide (t = t') || derived t t' || derived t' t then
            if compatible c t c' t' then Some (EPr c' t') else None
          else if converts t t' then Some (EPr (c' && is_class t') t') else None
      | _, _ => None
      end
  end.

(** The operands after the attempts, [None] if ill-formed ([expr.cond]/3). *)
Definition same_category (e e' : expr) : bool :=
  match e, e' with EL _ _, EL _ _ | EX _ _, EX _ _ => true | _, _ => false end.
Definition adjusted (e e' : expr) : option (expr * expr) :=
  match etype e, etype e' with
  | Some (c, t), Some (c', t') =>
      if negb (bool_decide (c = c' /\ t = t')) &&
         (is_class t || is_class t' || (same_category e e' && bool_decide (t = t'))) then
        match match_to e e', match_to e' e with
        | Some _, Some _ => None
        | Some e1, None => Some (e1, e')
        | None, Some e1 => Some (e, e1)
        | None, None => Some (e, e')
        end
      else Some (e, e')
  | _, _ => Some (e, e')
  end.

(** [true ? e : e'] ([expr.cond]/2-6). Simplification: no built-in candidates ([over.built])
    for operands of which one has class type. *)
Definition cond (e e' : expr) : option expr :=
  match e, e' with
  | EVoid, EVoid => Some EVoid
  | EVoid, _ | _, EVoid => None
  | _, _ =>
      match adjusted e e' with
      | None => None
      | Some (e1, e2) =>
          if bool_decide (e1 = e2) then Some e1
          else match etype e1, etype e2 with
               | Some (c1, t1), Some (c2, t2) =>
                   match t1, t2 with
                   | TArith m, TArith n => Some (EPr false (TArith (if bool_decide (m = n) then m else arith K m n)))
                   | TClass x, TClass y => if bool_decide (x = y /\ c1 = c2) then Some (EPr c1 t1) else None
                   | _, _ => None
                   end
               | _, _ => None
               end
      end
  end.

(** result_multideduce1<Visitor, Variant>::type (apply_visitor_unary.hpp:69-93): [rs] is what the
    visitor returns for each bounded type in order. The recursion ends at the last type. *)
Fixpoint deduce (rs : list rty) : option rty :=
  match rs with
  | [] => None
  | r :: rs' =>
      match rs' with
      | [] => Some (decltype (called r))
      | _ :: _ => match deduce rs' with
                  | Some r' => option_map decltype (cond (called r) (declval r'))
                  | None => None
                  end
      end
  end.
End Cond.

(** ** Which converting constructors and assignments exist *)

(** [is_constructible<t, o>] for an internal type [t] and an operand of type [o]: a class or
    scalar type, or a recursive_wrapper. recursive_wrapper<T> is constructible from what converts
    to T implicitly, its constructors taking [const T&] and [T&&], and from recursive_wrapper<T>
    (recursive_wrapper.hpp:41-50); it converts to nothing. [explicit u t]: [t] has an explicit
    constructor that takes [u]. Simplification: it does not matter whether the operand is const,
    an lvalue or an rvalue; no bounded type is constructible from a recursive_wrapper. *)
Definition constructible (C : cfg) (explicit : uid -> uid -> bool) (t o : ity) : bool :=
  match t, o with
  | IPlain t, IPlain u => match rank C u t with Some _ => true | None => explicit u t end
  | IWrap t, IPlain u => match rank C u t with Some _ => true | None => false end
  | IWrap t, IWrap u => bool_decide (t = u)
  | IPlain _, IWrap _ => false
  end.

(** is_variant_constructible_from<T, Types> (variant.hpp:261-285). With the simplification above
    the two halves of is_constructible_ext are alike. *)
Definition constructible_from (C : cfg) (explicit : uid -> uid -> bool) (tys : list ity) (o : ity) : bool :=
  existsb (fun t => constructible C explicit t o) tys.

(** ... for a variant (variant.hpp:287-315): its [recursive_enabled_types], in which
    recursive_wrapper is not taken off (variant.hpp:1108-1122). *)
Definition constructible_from_variant (C : cfg) (explicit : uid -> uid -> bool) (tys src : list ity) : bool :=
  forallb (constructible_from C explicit tys) src.

(** What the bodies need. For a value, a best overload of initialize (convert_construct,
    variant.hpp:1431-1469). For a variant that is not itself a bounded type, that for the content
    of every alternative, out of its recursive_wrapper if it is in one (convert_copy_into and
    convert_move_into, variant.hpp:1288-1427). *)
Definition body_value (C : cfg) (tys : list ity) (u : uid) : bool :=
  match resolve C tys u with Some _ => true | None => false end.
Definition body_variant (C : cfg) (tys src : list ity) : bool :=
  forallb (fun t => body_value C tys (ity_uid t)) src.

(** ** The argument that a visitor gets *)

(** An argument: the type of the object and whether it is passed as an rvalue. *)
Definition argument : Type := GetTypes.oty * bool.

(** apply_visitor for a const or non-const, rvalue or lvalue variant with content [e]: variant.hpp
    2230-2260 choose invoke_visitor's MoveSemantics; invoke_visitor::internal_visit
    (variant.hpp:1005-1055) takes off recursive_wrapper, reference_content and backup_holder, and
    then passes the operand, with [std::move] if MoveSemantics. *)
Definition passed (cvar rvalue : bool) (e : GetTypes.bty) : argument := (GetTypes.operand cvar e, rvalue).

(** The argument for which result_multideduce1 looks up the result type
    (apply_visitor_unary.hpp:79-92): [copy_cv_ref_t<value_t, Variant>], where [value_t] is the
    bounded type without recursive_wrapper. Qualifiers and references of Variant do not change a
    reference type. *)
Definition deduced_for (cvar rvalue : bool) (e : GetTypes.bty) : argument :=
  match GetTypes.unwrap_recursive e with
  | GetTypes.BPlain t | GetTypes.BWrap t => (if cvar then GetTypes.add_const t else t, rvalue)
  | GetTypes.BRef t => (t, false)
  end.

(** Does the argument bind to a parameter [p&], to a parameter [p&&]? *)
Definition binds_lref (p : GetTypes.oty) (g : argument) : bool :=
  GetTypes.binds_to p g.1 && (negb g.2 || (GetTypes.is_const p && negb (GetTypes.is_volatile p))).
Definition binds_rref (p : GetTypes.oty) (g : argument) : bool := GetTypes.binds_to p g.1 && g.2.
