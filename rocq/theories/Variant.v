(** The variant class: construction, assignment, swap, visitation (variant.hpp), with
    recursive_wrapper (recursive_wrapper.hpp) and backup_holder (detail/backup_holder.hpp).

    Every function is a computation of the machine in Base.v.  Functions on variants take
    the address [a] of the variant object and its list [tys] of internal types. *)
From stdpp Require Import base gmap list numbers.
From Coq Require Import ZArith.
From Verif Require Import Base Types Dispatch.

(** Value tree of a user object: its data ([None]: indeterminate) and its member variants,
    each with a flag (content currently in a heap backup), an index and a content. *)
Inductive uval := UV (z : option Z) (ks : list (bool * nat * uval)).

(** The operations of user types that the library calls.  Given here as a parameter; Sem.v
    defines it, in levels.
    [us_value]: `T()`; [us_definit]: `T` in a new-expression; [us_copy d s], [us_move d s]:
    constructors, destination first; [us_cassign l r], [us_massign l r]: `l = r`,
    `l = move(r)`; [us_swap l r]: the swap that move_swap (detail/move.hpp:38-43) finds;
    [us_read]: look at the value (what a client visitor can do). *)
Record usem := USem {
  us_value : uid -> loc -> M unit;
  us_definit : uid -> loc -> M unit;
  us_copy : uid -> loc -> loc -> M unit;
  us_move : uid -> loc -> loc -> M unit;
  us_cassign : uid -> loc -> loc -> M unit;
  us_massign : uid -> loc -> loc -> M unit;
  us_swap : uid -> loc -> loc -> M unit;
  us_destroy : uid -> loc -> M unit;
  us_read : uid -> loc -> M uval
}.

(** The type at which visitation presents the storage: a bounded type, or the
    [backup_holder] of one (detail/visitation_impl.hpp:98-129). *)
Inductive sty := SInt (t : ity) | SBk (t : ity).

(** which() from which_ (variant.hpp:1231-1240). *)
Definition which_of (w : Z) : Z := if decide (w < 0)%Z then (- (w + 1))%Z else w.

Section variant.
Context (C : cfg) (S : usem).

(** `new T(...)`: allocate, construct, give the memory back if the constructor throws. *)
Definition new_obj (p : apurpose) (k : loc -> M unit) : M loc :=
  let! q := alloc p in
  do! on_exn (k q) (free q) in
  ret q.

(** recursive_wrapper<u>::get_pointer (recursive_wrapper.hpp:94-98). *)
Definition wrap_ptr (u : uid) (l : loc) : M loc :=
  let! o := get_obj l in
  match o with
  | OWrap u' p => if decide (u' = u) then ret p else faulty FTypeConfusion
  | _ => faulty FTypeConfusion
  end.

(** Copy constructor of a bounded type; recursive_wrapper.hpp:114-118. *)
Definition i_copy (t : ity) (d s : loc) : M unit :=
  match t with
  | IPlain u => us_copy S u d s
  | IWrap u => let! p := wrap_ptr u s in
               let! q := new_obj APWrap (fun q => us_copy S u q p) in
               construct d (OWrap u q)
  end.

(** Move constructor; recursive_wrapper.hpp:127-131: allocates, the source keeps its block. *)
Definition i_move (t : ity) (d s : loc) : M unit :=
  match t with
  | IPlain u => us_move S u d s
  | IWrap u => let! p := wrap_ptr u s in
               let! q := new_obj APWrap (fun q => us_move S u q p) in
               construct d (OWrap u q)
  end.

(** Construction of a bounded type from a (const T&) operand; recursive_wrapper.hpp:120-124. *)
Definition i_copy_from (t : ity) (d s : loc) : M unit :=
  match t with
  | IPlain u => us_copy S u d s
  | IWrap u => let! q := new_obj APWrap (fun q => us_copy S u q s) in
               construct d (OWrap u q)
  end.

(** ... and from T&&; recursive_wrapper.hpp:133-137. *)
Definition i_move_from (t : ity) (d s : loc) : M unit :=
  match t with
  | IPlain u => us_move S u d s
  | IWrap u => let! q := new_obj APWrap (fun q => us_move S u q s) in
               construct d (OWrap u q)
  end.

(** `T()`; recursive_wrapper.hpp:108-112, whose `new T` is default-initialisation. *)
Definition i_value (t : ity) (d : loc) : M unit :=
  match t with
  | IPlain u => us_value S u d
  | IWrap u => let! q := new_obj APWrap (fun q => us_definit S u q) in
               construct d (OWrap u q)
  end.

(** Copy assignment; recursive_wrapper.hpp:58-62, 140-144. *)
Definition i_cassign (t : ity) (l r : loc) : M unit :=
  match t with
  | IPlain u => us_cassign S u l r
  | IWrap u => let! p := wrap_ptr u l in
               let! q := wrap_ptr u r in
               us_cassign S u p q
  end.

(** Move assignment; recursive_wrapper.hpp:70-83: swaps the pointers, noexcept. *)
Definition i_massign (t : ity) (l r : loc) : M unit :=
  match t with
  | IPlain u => us_massign S u l r
  | IWrap u => noexcept (
      let! q := wrap_ptr u r in
      let! p := wrap_ptr u l in
      do! modify_obj r (OWrap u p) in
      modify_obj l (OWrap u q))
  end.

(** Destructor; recursive_wrapper.hpp:102-106 (checked_delete). *)
Definition i_destroy (t : ity) (l : loc) : M unit :=
  match t with
  | IPlain u => us_destroy S u l
  | IWrap u => let! p := wrap_ptr u l in
               do! us_destroy S u p in
               do! free p in
               destruct_obj l
  end.

(** backup_holder<t>::backup_ (detail/backup_holder.hpp:27). *)
Definition bk_ptr (t : ity) (l : loc) : M (option loc) :=
  let! o := get_obj l in
  match o with
  | OBackup t' p => if decide (t' = t) then ret p else faulty FTypeConfusion
  | _ => faulty FTypeConfusion
  end.

(** backup_holder<t>::get (detail/backup_holder.hpp:66-74). *)
Definition bk_get (t : ity) (l : loc) : M loc :=
  let! p := bk_ptr t l in
  match p with Some q => ret q | None => faulty FNullDeref end.

(** backup_holder<t>::swap (detail/backup_holder.hpp:57-62). *)
Definition bk_swap (t : ity) (l r : loc) : M unit :=
  let! q := bk_ptr t r in
  let! p := bk_ptr t l in
  do! modify_obj r (OBackup t p) in
  modify_obj l (OBackup t q).

(** ~backup_holder (detail/backup_holder.hpp:31-34): `delete backup_`. *)
Definition bk_destroy (t : ity) (l : loc) : M unit :=
  let! p := bk_ptr t l in
  do! match p with
      | Some q => do! i_destroy t q in free q
      | None => ret tt
      end in
  destruct_obj l.

(** Operations at a static type.  backup_holder's copy constructor
    (detail/backup_holder.hpp:78-84) asserts false; with assertions off it makes a null
    holder. It has no move constructor, so moving is copying. *)
Definition s_copy (st : sty) (d s : loc) : M unit :=
  match st with
  | SInt t => i_copy t d s
  | SBk t => if ndebug C then construct d (OBackup t None) else faulty FAssert
  end.
Definition s_move (st : sty) (d s : loc) : M unit :=
  match st with
  | SInt t => i_move t d s
  | SBk t => if ndebug C then construct d (OBackup t None) else faulty FAssert
  end.
Definition s_destroy (st : sty) (l : loc) : M unit :=
  match st with
  | SInt t => i_destroy t l
  | SBk t => bk_destroy t l
  end.

(** has_nothrow_copy / is_nothrow_move_constructible of a static type; backup_holder's copy
    constructor is not noexcept (detail/backup_holder.hpp:41). *)
Definition s_nt_copy (st : sty) : bool :=
  match st with SInt t => it_copy C t | SBk _ => false end.
Definition s_nt_move (st : sty) : bool :=
  match st with SInt t => it_move C t | SBk _ => false end.

(** ** Visitation *)

(** internal_apply_visitor (variant.hpp:2185-2226) with visitation_impl_invoke and
    visitation_impl_invoke_impl (detail/visitation_impl.hpp:98-149). *)
Definition visit {A} (tys : list ity) (a : loc) (k : sty -> loc -> M A) : M A :=
  let! w := read_which a in
  match visitation (lim C) tys (which_of w) with
  | DCase t =>
      if never_uses_backup C tys t then k (SInt t) a
      else if decide (0 <= w)%Z then k (SInt t) a else k (SBk t) a
  | DForced => faulty FUnreachable
  | DDiverge => faulty FFuel
  end.

(** invoke_visitor::internal_visit (variant.hpp:1006-1055): looks through backup_holder and
    recursive_wrapper, then calls the visitor on the user object. *)
Definition unwrap_int {A} (t : ity) (l : loc) (f : uid -> loc -> M A) : M A :=
  match t with
  | IPlain u => f u l
  | IWrap u => let! p := wrap_ptr u l in f u p
  end.
Definition unwrap {A} (st : sty) (l : loc) (f : uid -> loc -> M A) : M A :=
  match st with
  | SInt t => unwrap_int t l f
  | SBk t => let! p := bk_get t l in unwrap_int t p f
  end.

(** apply_visitor (variant.hpp:2230-2260). *)
Definition visit_user {A} (tys : list ity) (a : loc) (f : uid -> loc -> M A) : M A :=
  visit tys a (fun st l => unwrap st l f).

(** ** Structors *)

(** indicate_which, indicate_backup_which (variant.hpp:1212-1220). *)
Definition indicate_which (a : loc) (w : Z) : M unit := write_which a w.
Definition indicate_backup_which (a : loc) (w : Z) : M unit := write_which a (- (w + 1))%Z.

(** which() (variant.hpp:1231-1240). *)
Definition which (a : loc) : M Z := let! w := read_which a in ret (which_of w).

(** destroyer and destroy_content (variant.hpp:370-386, 1251-1255). *)
Definition destroy_content (tys : list ity) (a : loc) : M unit :=
  noexcept (visit tys a (fun st l => noexcept (s_destroy st l))).

(** ~variant (variant.hpp:1259-1262). *)
Definition var_destroy (tys : list ity) (a : loc) : M unit :=
  noexcept (destroy_content tys a).

(** variant() (variant.hpp:1264-1284). *)
Definition var_default (tys : list ity) (a : loc) : M unit :=
  match tys with
  | [] => faulty FIllTyped
  | t :: _ => noexcept_if (it_default C t) (
      do! i_value t a in
      indicate_which a 0)
  end.

(** copy_into (variant.hpp:420-454). *)
Definition copy_into (d : loc) (st : sty) (l : loc) : M unit :=
  match st with
  | SInt t => i_copy t d l
  | SBk t => let! p := bk_get t l in i_copy t d p
  end.

(** variant(const variant&) (variant.hpp:1636-1644). *)
Definition var_copy (tys : list ity) (d s : loc) : M unit :=
  do! visit tys s (copy_into d) in
  let! w := which s in
  indicate_which d w.

(** move_into (variant.hpp:461-488). *)
Definition move_into (d : loc) (st : sty) (l : loc) : M unit :=
  match st with
  | SInt t => noexcept_if (it_move C t) (i_move t d l)
  | SBk t => let! p := bk_get t l in i_move t d p
  end.

(** variant(variant&&) (variant.hpp:1646-1654). *)
Definition var_move (tys : list ity) (d s : loc) : M unit :=
  noexcept_if (move_noexcept_constructible C tys) (
    do! visit tys s (move_into d) in
    let! w := which s in
    indicate_which d w).

(** ** Converting construction *)

(** Construction of an automatic object; its storage goes away if the constructor throws. *)
Definition stack_obj (k : loc -> M unit) : M loc :=
  let! x := new_cell KStk in
  do! on_exn (k x) (drop_cell x) in
  ret x.

(** Scope of an automatic object: body, then destructor [d]. *)
Definition scoped {A} (mk : M loc) (d : loc -> M unit) (body : loc -> M A) : M A :=
  let! x := mk in
  finally (body x) (do! d x in drop_cell x).

(** User-defined or built-in conversion of the object at [s] of type [u] into a temporary of
    type [u'] at [d]. Simplification: conversions go to types without member variants. *)
Definition convert_obj (u u' : uid) (d s : loc) : M unit :=
  let! o := get_obj s in
  match o with
  | OUser u0 z ks =>
      if decide (u0 = u) then
        do! maybe_throw OpConvert u' false in
        do! note_read z in
        construct d (OUser u' (match z with Some x => Some (cv C u u' x) | None => None end) [])
      else faulty FTypeConfusion
  | _ => faulty FTypeConfusion
  end.

(** initializer::initialize (detail/initializer.hpp:91-111) on an operand of type [u] at [s],
    an rvalue if [mv]. An operand of another type is first converted to a temporary, which
    then binds to the [T&&] overload. Returns the index. *)
Definition initialize (tys : list ity) (a : loc) (u : uid) (s : loc) (mv : bool) : M nat :=
  match resolve C tys u with
  | None => faulty FIllTyped
  | Some i =>
      match tys !! i with
      | None => faulty FIllTyped
      | Some t =>
          do! (if decide (ity_uid t = u) then
                 if mv then i_move_from t a s else i_copy_from t a s
               else
                 scoped (stack_obj (fun x => convert_obj u (ity_uid t) x s))
                        (us_destroy S (ity_uid t))
                        (i_move_from t a)) in
          ret i
      end
  end.

(** variant(const T&), variant(T&), variant(T&&): convert_construct (variant.hpp:1431-1469,
    1589-1631). *)
Definition var_from (tys : list ity) (a : loc) (u : uid) (s : loc) (mv : bool) : M unit :=
  let! i := initialize tys a u s mv in
  indicate_which a (Z.of_nat i).

(** Construction from a variant of other bounded types [tys']: convert_copy_into,
    convert_move_into (variant.hpp:1288-1425, 1471-1549). *)
Definition var_convert (tys : list ity) (a : loc) (tys' : list ity) (b : loc) (mv : bool) : M unit :=
  let! i := visit_user tys' b (fun u l => initialize tys a u l mv) in
  indicate_which a (Z.of_nat i).

(** Construction of a local variant. *)
Definition local_variant (k : loc -> M unit) : M loc :=
  let! x := new_cell KVar in
  do! on_exn (k x) (drop_cell x) in
  ret x.

(** ** Assignment *)

(** assign_storage (variant.hpp:496-539). *)
Definition assign_storage (rhs : loc) (st : sty) (l : loc) : M unit :=
  match st with
  | SInt t => i_cassign t l rhs
  | SBk t => let! p := bk_get t l in
             let! q := bk_get t rhs in
             i_cassign t p q
  end.

(** move_storage (variant.hpp:547-590). *)
Definition move_storage (rhs : loc) (st : sty) (l : loc) : M unit :=
  match st with
  | SInt t => i_massign t l rhs
  | SBk t => let! p := bk_get t l in
             let! q := bk_get t rhs in
             i_massign t p q
  end.

(** backup_assign_impl, content in backup (variant.hpp:718-753). *)
Definition backup_assign_1 (a : loc) (rw : Z) (st : sty) (src : loc) (t : ity) (l : loc) : M unit :=
  scoped (stack_obj (fun b => construct b (OBackup t None))) (bk_destroy t) (fun b =>
    do! bk_swap t b l in
    do! bk_destroy t l in
    do! on_exn (s_copy st a src)
               (do! construct a (OBackup t None) in
                bk_swap t a b) in
    indicate_which a rw).

(** backup_assign_impl, nothrow move constructible content (variant.hpp:755-790). *)
Definition backup_assign_2 (a : loc) (rw : Z) (st : sty) (src : loc) (t : ity) (l : loc) : M unit :=
  scoped (stack_obj (fun b => i_move t b l)) (i_destroy t) (fun b =>
    do! i_destroy t l in
    do! on_exn (s_copy st a src) (i_move t a b) in
    indicate_which a rw).

(** backup_assign_impl, other content (variant.hpp:792-829). *)
Definition backup_assign_3 (a : loc) (rw : Z) (st : sty) (src : loc) (t : ity) (l : loc) : M unit :=
  let! q := new_obj APBackup (fun q => i_copy t q l) in
  do! i_destroy t l in
  do! on_exn (s_copy st a src)
             (do! construct a (OBackup t (Some q)) in
              let! w := which a in
              indicate_backup_which a w) in
  do! indicate_which a rw in
  do! i_destroy t q in
  free q.

(** backup_assigner::internal_visit (variant.hpp:833-840). *)
Definition backup_assigner (a : loc) (rw : Z) (st : sty) (src : loc) (lt : sty) (l : loc) : M unit :=
  match lt with
  | SBk t => backup_assign_1 a rw st src t l
  | SInt t => if it_move C t then backup_assign_2 a rw st src t l
              else backup_assign_3 a rw st src t l
  end.

(** assigner::construct_fallback (variant.hpp:1726-1735): `new (addr) fallback_type_;` then
    indicate_which. [fallback_type_] is [fallback_type_result_::second] (1146-1149), which is
    an iterator (see [find_fallback]): the object constructed is an empty class. If the
    fallback type is trivial the storage can still be used as such an object, with an
    indeterminate value; the model grants that. *)
Definition construct_mpl (tys : list ity) (a : loc) (m : mpl) : M unit :=
  match mpl_deref tys m with
  | Some (IPlain u) =>
      if fb_deref C then us_definit S u a
      else match ut_init (te C u) with
           | DIUser => construct a (OIter (mpl_pos m))
           | DITriv | DIEmpty => us_definit S u a
           end
  | Some (IWrap u) => construct a (OIter (mpl_pos m))
  | None => faulty FIllTyped
  end.
Definition construct_fallback (tys : list ity) (a : loc) : M unit :=
  match find_fallback C tys with
  | Some (i, m) => noexcept (
      do! construct_mpl tys a m in
      indicate_which a (Z.of_nat i))
  | None => faulty FIllTyped
  end.

(** assigner::assign_impl (variant.hpp:1685-1702, 1704-1724, 1737-1765, 1767-1778). *)
Definition assign_1 (tys : list ity) (a : loc) (rw : Z) (st : sty) (src : loc) : M unit :=
  noexcept (
    do! destroy_content tys a in
    do! s_copy st a src in
    indicate_which a rw).
Definition assign_2 (tys : list ity) (a : loc) (rw : Z) (st : sty) (src : loc) : M unit :=
  scoped (stack_obj (fun x => s_copy st x src)) (s_destroy st) (fun x =>
    do! destroy_content tys a in
    do! s_move st a x in
    indicate_which a rw).
Definition assign_3 (tys : list ity) (a : loc) (rw : Z) (st : sty) (src : loc) : M unit :=
  do! destroy_content tys a in
  do! on_exn (s_copy st a src) (construct_fallback tys a) in
  indicate_which a rw.
Definition assign_4 (tys : list ity) (a : loc) (rw : Z) (st : sty) (src : loc) : M unit :=
  visit tys a (backup_assigner a rw st src).

(** assigner::internal_visit (variant.hpp:1782-1798): instantiated at the static type of the
    content, backup_holder included. *)
Definition assigner (tys : list ity) (a : loc) (rw : Z) (st : sty) (src : loc) : M unit :=
  if s_nt_copy st then assign_1 tys a rw st src
  else if s_nt_move st then assign_2 tys a rw st src
  else if has_fallback C tys then assign_3 tys a rw st src
  else assign_4 tys a rw st src.

(** move_assigner::assign_impl (variant.hpp:1838-1855, 1857-1885). *)
Definition massign_move (tys : list ity) (a : loc) (rw : Z) (st : sty) (src : loc) : M unit :=
  noexcept (
    do! destroy_content tys a in
    do! s_move st a src in
    indicate_which a rw).
Definition massign_fallback (tys : list ity) (a : loc) (rw : Z) (st : sty) (src : loc) : M unit :=
  do! destroy_content tys a in
  do! on_exn (s_move st a src) (construct_fallback tys a) in
  indicate_which a rw.

(** move_assigner::internal_visit (variant.hpp:1827-1836, 1887-1896, 1900-1916). *)
Definition move_assigner (tys : list ity) (a : loc) (rw : Z) (st : sty) (src : loc) : M unit :=
  if s_nt_move st then massign_move tys a rw st src
  else if s_nt_copy st then noexcept (assign_1 tys a rw st src)
  else if has_fallback C tys then massign_fallback tys a rw st src
  else assign_4 tys a rw st src.

(** variant_assign(const variant&) (variant.hpp:1927-1942); operator=(const variant&)
    (2031-2035). *)
Definition var_assign (tys : list ity) (a b : loc) : M unit :=
  let! wa := read_which a in
  let! wb := read_which b in
  if decide (wa = wb) then visit tys a (assign_storage b)
  else visit tys b (assigner tys a (which_of wb)).

(** variant_assign(variant&&) (variant.hpp:1944-1959). *)
Definition variant_massign (tys : list ity) (a b : loc) : M unit :=
  let! wa := read_which a in
  let! wb := read_which b in
  if decide (wa = wb) then visit tys a (move_storage b)
  else visit tys b (move_assigner tys a (which_of wb)).

(** operator=(variant&&) (variant.hpp:2037-2044). *)
Definition var_massign (tys : list ity) (a b : loc) : M unit :=
  noexcept_if (move_noexcept_constructible C tys && move_noexcept_assignable C tys)
    (variant_massign tys a b).

(** direct_assigner, direct_mover (variant.hpp:599-676). *)
Definition direct_assign (u : uid) (s : loc) (mv : bool) (u' : uid) (l : loc) : M bool :=
  if decide (u' = u) then
    do! (if mv then us_massign S u l s else us_cassign S u l s) in ret true
  else ret false.

(** assign(const T&), move_assign(T&&) (variant.hpp:1963-1997), behind operator=(const T&)
    and operator=(T&&) (2001-2028). *)
Definition var_assign_from (tys : list ity) (a : loc) (u : uid) (s : loc) (mv : bool) : M unit :=
  let! b := visit_user tys a (direct_assign u s mv) in
  if b : bool then ret tt
  else scoped (local_variant (fun x => var_from tys x u s mv)) (var_destroy tys)
              (variant_massign tys a).

(** The same with a variant of other bounded types as operand: direct_assigner<T> never
    matches (T is not a bounded type here), then `variant temp(rhs)` converts. *)
Definition var_assign_convert (tys : list ity) (a : loc) (tys' : list ity) (b : loc) (mv : bool) : M unit :=
  let! m := visit_user tys a (fun _ _ => ret false) in
  if m : bool then ret tt
  else scoped (local_variant (fun x => var_convert tys x tys' b mv)) (var_destroy tys)
              (variant_massign tys a).

(** ** Swap *)

(** known_get (variant.hpp:395-413). *)
Definition known_get (tys : list ity) (b : loc) (u : uid) : M loc :=
  visit_user tys b (fun u' l => if decide (u' = u) then ret l else faulty FUnreachable).

(** swap_with (variant.hpp:856-887), with move_swap (detail/move.hpp:38-43), and variant::swap
    (2046-2062). *)
Definition var_swap (tys : list ity) (a b : loc) : M unit :=
  let! wa := which a in
  let! wb := which b in
  if decide (wa = wb) then
    visit_user tys a (fun u l => let! r := known_get tys b u in us_swap S u l r)
  else
    scoped (local_variant (fun x => var_move tys x b)) (var_destroy tys) (fun x =>
      do! var_massign tys b a in
      var_massign tys a x).

(** ** Queries *)

(** get_visitor and the pointer form of get (get.hpp:74-97, 118-152). *)
Definition var_get (tys : list ity) (a : loc) (u : uid) : M (option loc) :=
  visit_user tys a (fun u' l => ret (if decide (u' = u) then Some l else None)).

(** The reference form (get.hpp:154-188): throws bad_get. *)
Definition var_get_ref (tys : list ity) (a : loc) (u : uid) : M loc :=
  let! p := var_get tys a u in
  match p with Some l => ret l | None => throw XBadGet end.

(** type() (variant.hpp:2075-2079). *)
Definition var_type (tys : list ity) (a : loc) : M uid :=
  visit_user tys a (fun u _ => ret u).

(** A client visitor that looks at the content: its type and value. *)
Definition var_read (tys : list ity) (a : loc) : M (uid * uval) :=
  visit_user tys a (fun u l => let! v := us_read S u l in ret (u, v)).

(** comparer (variant.hpp:916-947): [lhs] and the visited content of [rhs] of equal type are
    compared by [cmp]. *)
Definition comparer (tys : list ity) (cmp : uid -> uval -> uval -> bool) (lhs : loc)
    (u : uid) (r : loc) : M bool :=
  let! l := known_get tys lhs u in
  let! x := us_read S u l in
  let! y := us_read S u r in
  ret (cmp u x y).

(** operator== and operator< (variant.hpp:2123-2147). *)
Definition var_eq (tys : list ity) (cmp : uid -> uval -> uval -> bool) (a b : loc) : M bool :=
  let! wa := which a in
  let! wb := which b in
  if decide (wa = wb) then visit_user tys b (comparer tys cmp a) else ret false.
Definition var_lt (tys : list ity) (cmp : uid -> uval -> uval -> bool) (a b : loc) : M bool :=
  let! wa := which a in
  let! wb := which b in
  if decide (wa = wb) then visit_user tys b (comparer tys cmp a)
  else ret (bool_decide (wa < wb)%Z).

(** Write through get: `get<U>(v) = x` (get.hpp:154-188). *)
Definition var_poke (tys : list ity) (a : loc) (u : uid) (s : loc) : M unit :=
  let! l := var_get_ref tys a u in
  us_cassign S u l s.

End variant.
