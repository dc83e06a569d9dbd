(** Which operations of the user types the operations of a variant instantiate. Member functions of
    class templates are compiled when they are used; a visitor is compiled for every type it may be
    applied to. A program compiles if the operations collected here exist. Destructors are left out:
    they are always needed. *)
From stdpp Require Import base list numbers.
From Verif Require Import Base Types Variant.

(** The operations of a variant; for the converting ones, with the type of the operand and whether it
    is an rvalue. *)
Inductive vop :=
  | VDefault | VCopy | VMove | VAssign | VMoveAssign | VSwap
  | VFrom (u : uid) (mv : bool) | VConvert (tys' : list ity) (mv : bool)
  | VAssignFrom (u : uid) (mv : bool) | VAssignConvert (tys' : list ity) (mv : bool).

Section requires.
Context (C : cfg).
Notation req := (uop * uid)%type.

(** visitation_impl_invoke_impl (detail/visitation_impl.hpp:97-127): with never_uses_backup the
    visitor is compiled for T, otherwise for T and for backup_holder<T>. visitation_impl (180-257)
    does so for every bounded type. *)
Definition visits (tys : list ity) : list sty :=
  tys ≫= fun t => SInt t :: (if never_uses_backup C tys t then [] else [SBk t]).

(** Operations of an internal type: of the type itself, or of recursive_wrapper's content
    (recursive_wrapper.hpp:58-83, 94-137; its move assignment exchanges pointers). *)
Definition r_default (t : ity) : list req := [(OpDefault, ity_uid t)].
Definition r_copy (t : ity) : list req := [(OpCopy, ity_uid t)].
Definition r_move (t : ity) : list req := [(OpMove, ity_uid t)].
Definition r_cassign (t : ity) : list req := [(OpCopyAssign, ity_uid t)].
Definition r_massign (t : ity) : list req := match t with IPlain u => [(OpMoveAssign, u)] | IWrap _ => [] end.

(** copy_into, move_into, assign_storage, move_storage (variant.hpp:416-590): for a backup_holder the
    same operation of its content. *)
Definition r_copy_into (x : sty) : list req := match x with SInt t | SBk t => r_copy t end.
Definition r_move_into (x : sty) : list req := match x with SInt t | SBk t => r_move t end.
Definition r_assign_storage (x : sty) : list req := match x with SInt t | SBk t => r_cassign t end.
Definition r_move_storage (x : sty) : list req := match x with SInt t | SBk t => r_massign t end.

(** `new RhsT(rhs_content)`: backup_holder's copy constructor asks nothing of its content
    (detail/backup_holder.hpp:46, 79-85). *)
Definition r_rhs_copy (x : sty) : list req := match x with SInt t => r_copy t | SBk _ => [] end.
Definition r_rhs_move (x : sty) : list req := match x with SInt t => r_move t | SBk _ => [] end.

(** construct_fallback (variant.hpp:1726-1735). [fallback_type_] is an MPL iterator, an empty class
    (C43); with [fb_deref], the type it points to. *)
Definition r_fallback (tys : list ity) : list req :=
  match find_fallback C tys with
  | Some (_, m) => if fb_deref C then from_option r_default [] (mpl_deref tys m) else []
  | None => []
  end.
(** backup_assigner::internal_visit (variant.hpp:833-841): overload 1 (718-752) for a backup_holder,
    2 (754-788) for nothrow movable types, 3 (790-829) otherwise, which copies to the heap. *)
Definition r_backup_assigner (y : sty) : list req :=
  match y with SInt t => if it_move C t then r_move t else r_copy t | SBk _ => [] end.
(** The overloads of assigner::assign_impl (variant.hpp:1685-1778). *)
Definition r_assign_4 (tys : list ity) (x : sty) : list req := r_rhs_copy x ++ (visits tys ≫= r_backup_assigner).
Definition r_assigner (tys : list ity) (x : sty) : list req :=
  if s_nt_copy C x then r_rhs_copy x
  else if s_nt_move C x then r_rhs_copy x ++ r_rhs_move x
  else if has_fallback C tys then r_rhs_copy x ++ r_fallback tys
  else r_assign_4 tys x.
(** The overloads of move_assigner::assign_impl (variant.hpp:1825-1900). *)
Definition r_move_assigner (tys : list ity) (x : sty) : list req :=
  if s_nt_move C x then r_rhs_move x
  else if s_nt_copy C x then r_rhs_copy x
  else if has_fallback C tys then r_rhs_move x ++ r_fallback tys
  else r_assign_4 tys x.
(** variant_assign (variant.hpp:1927-1961): both branches. *)
Definition r_var_assign (tys : list ity) : list req :=
  (visits tys ≫= r_assign_storage) ++ (visits tys ≫= r_assigner tys).
Definition r_var_massign (tys : list ity) : list req :=
  (visits tys ≫= r_move_storage) ++ (visits tys ≫= r_move_assigner tys).
(** swap_with (variant.hpp:849-887): on the contents, by their own swap or by std::swap
    (detail/move.hpp:38-43). *)
Definition r_swap_with (x : sty) : list req :=
  let u := match x with SInt t | SBk t => ity_uid t end in
  match ut_swap (te C u) with Some _ => [(OpSwap, u)] | None => [(OpMove, u); (OpMoveAssign, u)] end.
(** initializer::initialize (detail/initializer.hpp:54-123): of the selected type, from an operand of
    that type or from a temporary that it is converted to. *)
Definition r_initialize (tys : list ity) (u : uid) (mv : bool) : list req :=
  match resolve C tys u ≫= fun i => tys !! i with
  | Some t => if decide (ity_uid t = u) then if mv then r_move t else r_copy t
              else (OpConvert, ity_uid t) :: r_move t
  | None => []
  end.
(** direct_assigner, direct_mover (variant.hpp:592-676): the overload for T is compiled if some content
    has type T. *)
Definition r_direct (tys : list ity) (u : uid) (mv : bool) : list req :=
  if existsb (fun t => bool_decide (ity_uid t = u)) tys then [(if mv then OpMoveAssign else OpCopyAssign, u)] else [].

(** variant() (variant.hpp:1264-1284), variant(const variant&), variant(variant&&) (1636-1656), the converting
    constructors (1431-1630), variant_assign, assign, move_assign (1927-1997), swap (2046-2062). *)
Definition inst (o : vop) (tys : list ity) : list req :=
  match o with
  | VDefault => from_option r_default [] (head tys)
  | VCopy => visits tys ≫= r_copy_into
  | VMove => visits tys ≫= r_move_into
  | VAssign => r_var_assign tys
  | VMoveAssign => r_var_massign tys
  | VSwap => (visits tys ≫= r_swap_with) ++ (visits tys ≫= r_move_into) ++ r_var_massign tys
  | VFrom u mv => r_initialize tys u mv
  | VConvert tys' mv => tys' ≫= fun t => r_initialize tys (ity_uid t) mv
  | VAssignFrom u mv => r_direct tys u mv ++ r_initialize tys u mv ++ r_var_massign tys
  | VAssignConvert tys' mv => (tys' ≫= fun t => r_initialize tys (ity_uid t) mv) ++ r_var_massign tys
  end.

(** [av k u]: type [u] has operation [k]. *)
Definition compiles (av : uop -> uid -> bool) (o : vop) (tys : list ity) : bool :=
  forallb (fun r => av r.1 r.2) (inst o tys).

End requires.
