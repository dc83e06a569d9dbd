(** Variants with bounded reference types, in the machine of Base.v. Model.

    The storage then holds a [reference_content], which is a reference to an object elsewhere. It
    is made by copying the reference, cannot be assigned to, and its destructor does nothing
    (boost/detail/reference_content.hpp, which is not part of the library and modelled from
    memory). A variant with such a bounded type cannot be assigned to, either: all assignment
    instantiates assignment of the content (variant.hpp:560-640). Hence there are no backups, and
    [which_] is not negative. *)
From stdpp Require Import base gmap list numbers.
From Coq Require Import ZArith.
From Verif Require Import Base Types Dispatch Variant Client.

(** Internal types: as before, or [reference_content<u&>] (variant.hpp:1128-1136);
    [c]: it is a reference to const. Simplification: no rvalue references, no cv-qualifiers
    otherwise. *)
Inductive rty := RInt (t : ity) | RRef (c : bool) (u : uid).

(** Operands: lvalue or rvalue, const or not. *)
Inductive cat := LV (c : bool) | RV (c : bool).

(** Parameters of the overloads of initialize: [u&], [const u&], [u&&]. *)
Inductive param := PRef (u : uid) | PCRef (u : uid) | PRRef (u : uid).
Global Instance param_eq_dec : EqDecision param.
Proof. solve_decision. Defined.
Definition param_uid (p : param) : uid := match p with PRef u | PCRef u | PRRef u => u end.

Section references.
Context (C : cfg) (S : usem).

(** ** Overload resolution (detail/initializer.hpp:67-112): [param_T] and [param2_T] of a node. The
    second is not usable for a reference. *)
Definition node (t : rty) : list param :=
  match t with
  | RInt t => [PCRef (ity_uid t); PRRef (ity_uid t)]
  | RRef false u => [PRef u]
  | RRef true u => [PCRef u]
  end.
Record overload := Ov { o_index : nat; o_type : rty; o_param : param; o_rank : nat; o_bind : nat }.
Global Instance rty_eq_dec : EqDecision rty.
Proof. solve_decision. Defined.
Global Instance overload_eq_dec : EqDecision overload.
Proof. solve_decision. Defined.

(** A function of a later node hides one of an earlier node with the same parameter. *)
Fixpoint overloads (i : nat) (tys : list rty) : list (nat * rty * param) :=
  match tys with
  | [] => []
  | t :: r => map (fun p => (i, t, p)) (filter (fun p => Forall (fun t' => p ∉ node t') r) (node t))
              ++ overloads (Datatypes.S i) r
  end.
(** How an operand of type [u] binds to a parameter: rank of the conversion, and which of two
    bindings to the same type is better. An operand of another type is converted to a temporary
    first. *)
Definition fits (u : uid) (k : cat) (p : param) : option (nat * nat) :=
  match rank C u (param_uid p) with
  | None => None
  | Some r =>
      match p, (if decide (param_uid p = u) then k else RV false) with
      | PRef _, LV false => Some (r, 0)
      | PCRef _, LV true => Some (r, 0)
      | PCRef _, _ => Some (r, 1)
      | PRRef _, RV false => Some (r, 0)
      | _, _ => None
      end
  end.
Definition viable (tys : list rty) (u : uid) (k : cat) : list overload :=
  omap (fun x => match fits u k x.2 with Some (r, b) => Some (Ov x.1.1 x.1.2 x.2 r b) | None => None end)
       (overloads 0 tys).
(** Simplification: conversions to different types with the same rank are ambiguous, whatever the
    kind of reference. *)
Definition better (x y : overload) : Prop :=
  o_rank x < o_rank y \/
  (o_rank x = o_rank y /\ param_uid (o_param x) = param_uid (o_param y) /\ o_bind x < o_bind y).
Global Instance better_dec x y : Decision (better x y).
Proof. unfold better. apply _. Defined.
Definition chosen (tys : list rty) (u : uid) (k : cat) : option overload :=
  let cs := viable tys u k in
  match filter (fun x => Forall (fun y => y = x \/ better x y) cs) cs with
  | x :: _ => Some x
  | [] => None
  end.

(** ** reference_content *)
Definition ref_ptr (u : uid) (l : loc) : M loc :=
  let! o := get_obj l in
  match o with
  | ORef u' p => if decide (u' = u) then ret p else faulty FTypeConfusion
  | _ => faulty FTypeConfusion
  end.
Definition r_copy (t : rty) (d s : loc) : M unit :=
  match t with
  | RInt t => i_copy S t d s
  | RRef _ u => let! p := ref_ptr u s in construct d (ORef u p)
  end.
Definition r_move (t : rty) (d s : loc) : M unit :=
  match t with
  | RInt t => noexcept_if (it_move C t) (i_move S t d s)
  | RRef _ u => let! p := ref_ptr u s in construct d (ORef u p)
  end.
Definition r_destroy (t : rty) (l : loc) : M unit :=
  match t with
  | RInt t => i_destroy S t l
  | RRef _ u => let! _ := ref_ptr u l in destruct_obj l
  end.

(** ** Visitation (variant.hpp:2185-2226), and apply_visitor (variant.hpp:1006-1055, 2230-2260),
    which passes the object referred to; whether it is const does not depend on the variant. *)
Definition r_visit {A} (tys : list rty) (a : loc) (k : rty -> loc -> M A) : M A :=
  let! w := read_which a in
  match visitation (lim C) tys (which_of w) with
  | DCase t => k t a
  | DForced => faulty FUnreachable
  | DDiverge => faulty FFuel
  end.
Definition r_unwrap {A} (cvar : bool) (t : rty) (l : loc) (f : bool -> uid -> loc -> M A) : M A :=
  match t with
  | RInt t => unwrap_int t l (f cvar)
  | RRef c u => let! p := ref_ptr u l in f c u p
  end.
Definition r_apply {A} (cvar : bool) (tys : list rty) (a : loc) (f : bool -> uid -> loc -> M A) : M A :=
  r_visit tys a (fun t l => r_unwrap cvar t l f).

(** ** Structors (variant.hpp:1251-1262, 1636-1656). reference_content's copy constructor is not
    noexcept, so neither is the variant's move constructor. *)
Definition rvar_destroy (tys : list rty) (a : loc) : M unit :=
  noexcept (r_visit tys a (fun t l => noexcept (r_destroy t l))).
Definition rvar_copy (tys : list rty) (d s : loc) : M unit :=
  do! r_visit tys s (fun t l => r_copy t d l) in
  let! w := which s in
  indicate_which d w.
Definition rvar_move (tys : list rty) (d s : loc) : M unit :=
  do! r_visit tys s (fun t l => r_move t d l) in
  let! w := which s in
  indicate_which d w.

(** ** Converting construction *)

(** initialize (detail/initializer.hpp:91-111): the body of the overload, with its parameter
    bound to the object at [x]. *)
Definition init_body (t : rty) (p : param) (a x : loc) : M unit :=
  match t with
  | RInt t => match p with PRRef _ => i_move_from S t a x | _ => i_copy_from S t a x end
  | RRef _ u => construct a (ORef u x)
  end.
Definition r_initialize (tys : list rty) (a : loc) (u : uid) (s : loc) (k : cat) : M nat :=
  match chosen tys u k with
  | None => faulty FIllTyped
  | Some o =>
      let u' := param_uid (o_param o) in
      do! (if decide (u' = u) then init_body (o_type o) (o_param o) a s
           else scoped (stack_obj (fun x => convert_obj C u u' x s)) (us_destroy S u')
                       (init_body (o_type o) (o_param o) a)) in
      ret (o_index o)
  end.
(** The constructors for rvalues do not take const ones, those for const lvalues do
    (variant.hpp:1589-1631). *)
Definition ctor (k : cat) : cat := match k with RV true => LV true | _ => k end.
(** convert_construct (variant.hpp:1431-1469, 1589-1631). *)
Definition rvar_from (tys : list rty) (a : loc) (u : uid) (s : loc) (k : cat) : M unit :=
  let! i := r_initialize tys a u s (ctor k) in
  indicate_which a (Z.of_nat i).
(** Construction from a variant of other bounded types: convert_copy_into and convert_move_into
    (variant.hpp:1288-1425). The latter applies [move] to what the reference refers to
    (variant.hpp:1375-1401). *)
Definition rvar_convert (tys : list rty) (a : loc) (tys' : list rty) (b : loc) (k : cat) : M unit :=
  let! i := match ctor k with
            | LV cvar => r_apply cvar tys' b (fun c u l => r_initialize tys a u l (LV c))
            | RV cvar => r_apply cvar tys' b (fun c u l => r_initialize tys a u l (RV c))
            end in
  indicate_which a (Z.of_nat i).
End references.

(** ** Programs that use variants with references beside other variables *)
Inductive rcmd :=
  | RNew (x : name) (tys : list rty) (u : uid) (l : loc) (c : bool)   (* from an lvalue *)
  | RCopy (x y : name) (mv : bool)
  | RDrop (x : name).
Definition renv := gmap name (list rty * loc).
Definition rexec (C : cfg) (S : usem) (c : rcmd) (R : renv) : M renv :=
  match c with
  | RNew x tys u l c =>
      match R !! x with
      | None => let! a := local_variant (fun a => rvar_from C S tys a u l (LV c)) in ret (<[x := (tys, a)]> R)
      | Some _ => faulty FIllTyped
      end
  | RCopy x y mv =>
      match R !! x, R !! y with
      | None, Some (tys, b) =>
          let! a := local_variant (fun a => if mv then rvar_move C S tys a b else rvar_copy C S tys a b) in
          ret (<[x := (tys, a)]> R)
      | _, _ => faulty FIllTyped
      end
  | RDrop x =>
      match R !! x with
      | Some (tys, a) => do! rvar_destroy C S tys a in do! drop_cell a in ret (delete x R)
      | None => faulty FIllTyped
      end
  end.
Fixpoint rexecs (C : cfg) (S : usem) (cs : list rcmd) (R : renv) : M renv :=
  match cs with
  | [] => ret R
  | c :: cs => let! R' := rexec C S c R in rexecs C S cs R'
  end.
