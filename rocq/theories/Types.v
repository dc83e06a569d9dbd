(** Type-level part of the model: configuration, traits of bounded types, search for the
    fallback type, overload resolution among bounded types. *)
From stdpp Require Import base gmap list numbers.
From Verif Require Import Base.

(** Everything the model is parametric in.
    - [te]: traits of the user types;
    - [lim]: BOOST_VARIANT_VISITATION_UNROLLING_LIMIT (detail/visitation_impl.hpp:44-54);
    - [ndebug]: whether BOOST_ASSERT is compiled out;
    - [fb_deref]: [false] is the code as it is; [true] is the code with `mpl::deref`
      applied to [fallback_type_] (variant.hpp:1148-1149), used only to say what the
      intended code would guarantee;
    - [rank u v]: rank of the implicit conversion from [u] to [v] in overload resolution
      (0 = exact match, [None] = not convertible);
    - [cv u v z]: what that conversion computes;
    - [dv u]: the value a default constructor of [u] sets (0 for built-in types). *)
Record cfg := Cfg {
  te : uid -> utraits;
  lim : nat;
  ndebug : bool;
  fb_deref : bool;
  rank : uid -> uid -> option nat;
  cv : uid -> uid -> Z -> Z;
  dv : uid -> Z
}.

(** [unwrap_recursive] (recursive_wrapper_fwd.hpp:104-125). *)
Definition ity_uid (t : ity) : uid := match t with IPlain u => u | IWrap u => u end.

(** Traits of a bounded type. [recursive_wrapper<T>]'s constructors are not noexcept
    (recursive_wrapper.hpp:41-50) and [is_nothrow_move_constructible] is specialised to
    false (recursive_wrapper_fwd.hpp:71); its move assignment is BOOST_NOEXCEPT
    (recursive_wrapper.hpp:80-84). *)
Definition it_default (C : cfg) (t : ity) : bool :=
  match t with IPlain u => nt_default (te C u) | IWrap _ => false end.
Definition it_copy (C : cfg) (t : ity) : bool :=
  match t with IPlain u => nt_copy (te C u) | IWrap _ => false end.
Definition it_move (C : cfg) (t : ity) : bool :=
  match t with IPlain u => nt_move (te C u) | IWrap _ => false end.
Definition it_massign (C : cfg) (t : ity) : bool :=
  match t with IPlain u => nt_massign (te C u) | IWrap _ => true end.

(** ** find_fallback_type (variant.hpp:155-220)

    MPL entities: an iterator into the type sequence, or a type.  Metafunctions are
    applied to entities; [mpl::iter_fold_if] applies its predicate to iterators (that is
    why [find_fallback_type_pred], variant.hpp:166-177, dereferences its argument). *)
Inductive mpl := MIter (i : nat) | MType (t : ity).

(** mpl::deref *)
Definition mpl_deref (tys : list ity) (m : mpl) : option ity :=
  match m with MIter i => tys !! i | MType _ => None end.

(** find_fallback_type_pred::apply (variant.hpp:166-177): goes on while the type is not
    nothrow default constructible. *)
Definition find_fallback_pred (C : cfg) (tys : list ity) (m : mpl) : bool :=
  match mpl_deref tys m with Some t => negb (it_default C t) | None => false end.

(** mpl::not_same_as<boost::blank> applied to an entity (variant.hpp:201-203). *)
Definition not_same_as_blank (C : cfg) (m : mpl) : bool :=
  match m with
  | MType (IPlain u) => negb (ut_blank (te C u))
  | MType (IWrap _) => true
  | MIter _ => true
  end.

(** mpl::iter_fold_if<range, state, next, pred>: [n] elements are left from iterator
    [MIter i]; the state is an index that [mpl::next] increments. Result: final state and
    final iterator. *)
Fixpoint iter_fold_if (pred : mpl -> bool) (n i st : nat) : nat * mpl :=
  match n with
  | 0 => (st, MIter i)
  | S n' => if pred (MIter i) then iter_fold_if pred n' (S i) (S st) else (st, MIter i)
  end.

Definition mpl_pos (m : mpl) : nat := match m with MIter i => i | MType _ => 0 end.

(** find_fallback_type (variant.hpp:179-220): the pair (index, second component), or
    [None] for no_fallback_type. Note that the second component is an iterator: it is
    compared with [end_it] and used as a bound of [iterator_range] there. *)
Definition find_fallback (C : cfg) (tys : list ity) : option (nat * mpl) :=
  let e := length tys in
  let first := iter_fold_if (find_fallback_pred C tys) e 0 0 in
  let second := iter_fold_if (not_same_as_blank C) (e - mpl_pos first.2) (mpl_pos first.2) first.1 in
  if decide (mpl_pos second.2 = e) then
    if decide (mpl_pos first.2 = e) then None else Some first
  else Some second.

(** has_fallback_type_ / never_uses_backup_flag (variant.hpp:1151-1159). *)
Definition has_fallback (C : cfg) (tys : list ity) : bool :=
  match find_fallback C tys with Some _ => true | None => false end.

(** never_uses_backup (detail/visitation_impl.hpp:139-143). *)
Definition never_uses_backup (C : cfg) (tys : list ity) (t : ity) : bool :=
  has_fallback C tys || it_move C t || it_copy C t.

(** is_variant_move_noexcept_constructible, ..._assignable (variant.hpp:227-254). *)
Definition move_noexcept_constructible (C : cfg) (tys : list ity) : bool :=
  forallb (it_move C) tys.
Definition move_noexcept_assignable (C : cfg) (tys : list ity) : bool :=
  forallb (it_massign C) tys.

(** ** Overload resolution of initializer::initialize (detail/initializer.hpp:54-123)

    Each bounded type contributes overloads taking [const T&] and [T&&]; a node's
    overloads hide those of an earlier node with the same parameter type. *)
Fixpoint visible_from (i : nat) (tys : list ity) : list (nat * uid) :=
  match tys with
  | [] => []
  | t :: r => if existsb (fun t' => bool_decide (ity_uid t' = ity_uid t)) r
              then visible_from (S i) r
              else (i, ity_uid t) :: visible_from (S i) r
  end.

(** Candidates with their ranks, for an argument of type [u]. *)
Definition candidates (C : cfg) (tys : list ity) (u : uid) : list (nat * nat) :=
  omap (fun iu => match rank C u iu.2 with Some r => Some (iu.1, r) | None => None end)
       (visible_from 0 tys).

(** The unique candidate of least rank; [None]: no viable or an ambiguous overload, a
    compile-time error. *)
Definition resolve (C : cfg) (tys : list ity) (u : uid) : option nat :=
  let cs := candidates C tys u in
  match filter (fun c => Forall (fun c' => c'.1 = c.1 \/ (c.2 < c'.2)%nat) cs) cs with
  | c :: _ => Some c.1
  | [] => None
  end.
