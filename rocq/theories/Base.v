(** Machine model underneath the variant model: memory, lifetimes, exceptions,
    faults (undefined behaviour) and the nondeterminism oracle.

    This file models the C++ abstract machine as far as /repo/include/boost/variant
    uses it; it does not model a particular function of the library except where a
    comment says so. *)
From stdpp Require Import base gmap list numbers.
From Coq Require Import ZArith.

(** User types are named by numbers. *)
Definition uid := nat.

(** Addresses: of variant objects, heap blocks and automatic (stack) objects.
    Simplification: an address is never reused. *)
Definition loc := positive.

(** An element of [internal_types] (variant.hpp:1131-1134): a bounded type T, or
    [recursive_wrapper<T>] (recursive_wrapper.hpp:29-90).  Reference types are not
    in this model. *)
Inductive ity := IPlain (u : uid) | IWrap (u : uid).

Global Instance ity_eq_dec : EqDecision ity.
Proof. solve_decision. Defined.

(** How `T x;` (default-initialisation) leaves an object of type T. *)
Inductive initkind :=
  | DIUser   (* a user-provided default constructor sets the value *)
  | DITriv   (* trivial default constructor: the value is indeterminate *)
  | DIEmpty. (* trivial default constructor, no data members (boost::blank) *)

Global Instance initkind_eq_dec : EqDecision initkind.
Proof. solve_decision. Defined.

(** Traits of a user type that the library consults: [has_nothrow_constructor],
    [has_nothrow_copy], [is_nothrow_move_constructible], the assignment operators'
    counterparts (only [is_nothrow_move_assignable] is consulted, variant.hpp:245-254),
    whether it is [boost::blank], how it is default-initialised, the type lists of the
    variants it contains as data members (recursive variants), and whether move_swap
    (detail/move.hpp:38-43) finds a swap of its own ([Some b]; [b]: it is noexcept) or only
    std::swap ([None]). *)
Record utraits := UTraits {
  nt_default : bool;
  nt_copy : bool;
  nt_move : bool;
  nt_cassign : bool;
  nt_massign : bool;
  ut_init : initkind;
  ut_blank : bool;
  ut_members : list (list ity);
  ut_swap : option bool
}.

(** Live objects.
    - [OUser u v ks]: an object of user type [u] with data [v] ([None]: indeterminate)
      and member variants at the addresses [ks];
    - [OWrap u p]: a [recursive_wrapper<u>] whose [p_] is [p] (recursive_wrapper.hpp:37);
    - [OBackup t p]: a [backup_holder<t>] whose [backup_] is [p], [None] being null
      (backup_holder.hpp:27-29);
    - [OIter i]: an object of the MPL iterator type at position [i] (see
      [construct_fallback] in Variant.v);
    - [ORef u p]: a [reference_content<u&>] or [reference_content<const u&>] that refers to the
      object at [p] (only in References.v). *)
Inductive obj :=
  | OUser (u : uid) (v : option Z) (ks : list loc)
  | OWrap (u : uid) (p : loc)
  | OBackup (t : ity) (p : option loc)
  | OIter (i : nat)
  | ORef (u : uid) (p : loc).

(** What a lifetime event is about. *)
Inductive otag := TUser (u : uid) | TWrap (u : uid) | TBackup (t : ity) | TIter (i : nat) | TRef (u : uid).

Global Instance otag_eq_dec : EqDecision otag.
Proof. solve_decision. Defined.

Definition tag_of (o : obj) : otag :=
  match o with
  | OUser u _ _ => TUser u
  | OWrap u _ => TWrap u
  | OBackup t _ => TBackup t
  | OIter i => TIter i
  | ORef u _ => TRef u
  end.

(** A cell of memory: a variant object ([which_] and [storage_], variant.hpp:1209-1210),
    a heap block, or an automatic object. [cc] is what lives in the storage; [cw] is
    [which_], [None] while uninitialised (and in non-variant cells). *)
Inductive ckind := KVar | KHeap | KStk.

Global Instance ckind_eq_dec : EqDecision ckind.
Proof. solve_decision. Defined.

Record cell := Cell { ck : ckind; cc : option obj; cw : option Z }.

(** The operations of user types that may throw. [OpMake]: any constructor that a program calls
    itself. *)
Inductive uop := OpMake | OpDefault | OpCopy | OpMove | OpCopyAssign | OpMoveAssign | OpSwap | OpConvert.

Global Instance uop_eq_dec : EqDecision uop.
Proof. solve_decision. Defined.

(** Exceptions: thrown by an operation [k] of user type [u] (tagged by the moment [n] of the throw,
    so that two exceptions are never confused), by operator new, or by the library. *)
Inductive exn := XUser (k : uop) (u : uid) (n : nat) | XAlloc (n : nat) | XBadGet | XBadVisit.

Global Instance exn_eq_dec : EqDecision exn.
Proof. solve_decision. Defined.

(** Faults: outcomes that the C++ program must never have. *)
Inductive fault :=
  | FTypeConfusion  (* storage accessed as an object of another type *)
  | FDeadObject     (* access to an object outside its lifetime *)
  | FOverwriteLive  (* construction over a live object *)
  | FBadFree        (* delete of something that is not a heap block, or a live one *)
  | FNullDeref      (* dereference of a null backup pointer *)
  | FUnreachable    (* forced_return reached (detail/forced_return.hpp:33-43) *)
  | FAssert         (* BOOST_ASSERT(false) *)
  | FTerminate      (* exception escapes a noexcept function *)
  | FUninit         (* uninitialised discriminator read *)
  | FFuel           (* nesting deeper than the level of the semantics: not a C++ outcome *)
  | FIllTyped.      (* the client program would not compile *)

(** Trace of lifetime events.  The purpose of an allocation is recorded. *)
Inductive apurpose := APWrap | APBackup.

Global Instance apurpose_eq_dec : EqDecision apurpose.
Proof. solve_decision. Defined.

Inductive event :=
  | EvC (t : otag) (l : loc)
  | EvD (t : otag) (l : loc)
  | EvNew (p : apurpose) (l : loc)
  | EvDel (l : loc).

Global Instance event_eq_dec : EqDecision event.
Proof. solve_decision. Defined.

Record state := State {
  mem : gmap loc cell;
  nxt : loc;              (* next unused address *)
  tr : list event;        (* newest first *)
  thrown : list exn;      (* exceptions thrown so far, newest first *)
  orc : nat -> Z;         (* the oracle *)
  opos : nat;             (* how much of it is consumed *)
  ind : bool              (* an indeterminate value has been read *)
}.

Inductive res (A : Type) :=
  | Ok (a : A) (s : state)
  | Exn (e : exn) (s : state)
  | Fault (f : fault).
Arguments Ok {A} a s.
Arguments Exn {A} e s.
Arguments Fault {A} f.

Definition M (A : Type) := state -> res A.

Definition ret {A} (a : A) : M A := fun s => Ok a s.
Definition bind {A B} (m : M A) (f : A -> M B) : M B := fun s =>
  match m s with
  | Ok a s' => f a s'
  | Exn e s' => Exn e s'
  | Fault x => Fault x
  end.

Declare Scope m_scope.
Delimit Scope m_scope with M.
Notation "'let!' x := m 'in' k" := (bind m (fun x => k))
  (at level 200, x pattern, m at level 200, k at level 200) : m_scope.
Notation "'do!' m 'in' k" := (bind m (fun _ : unit => k))
  (at level 200, m at level 200, k at level 200) : m_scope.
Open Scope m_scope.

Definition faulty {A} (f : fault) : M A := fun _ => Fault f.

(** [throw e]: the expression `throw e`, recorded. *)
Definition throw {A} (e : exn) : M A := fun s =>
  Exn e {| mem := mem s; nxt := nxt s; tr := tr s; thrown := e :: thrown s;
           orc := orc s; opos := opos s; ind := ind s |}.

(** `try { m } catch (...) { h; throw; }`: every handler in the library has this form
    (BOOST_CATCH (...) ... BOOST_RETHROW). An exception from the handler itself replaces
    the first. *)
Definition on_exn {A} (m : M A) (h : M unit) : M A := fun s =>
  match m s with
  | Ok a s' => Ok a s'
  | Exn e s' => match h s' with
                | Ok _ s'' => Exn e s''
                | Exn e' s'' => Exn e' s''
                | Fault f => Fault f
                end
  | Fault f => Fault f
  end.

(** Scope exit: [h] runs the destructors of the automatic objects of the scope in both
    cases; a destructor that throws during unwinding terminates. *)
Definition finally {A} (m : M A) (h : M unit) : M A := fun s =>
  match m s with
  | Ok a s' => match h s' with
               | Ok _ s'' => Ok a s''
               | Exn e s'' => Exn e s''
               | Fault f => Fault f
               end
  | Exn e s' => match h s' with
                | Ok _ s'' => Exn e s''
                | Exn _ _ => Fault FTerminate
                | Fault f => Fault f
                end
  | Fault f => Fault f
  end.

(** A function declared noexcept. *)
Definition noexcept {A} (m : M A) : M A := fun s =>
  match m s with
  | Ok a s' => Ok a s'
  | Exn _ _ => Fault FTerminate
  | Fault f => Fault f
  end.

(** BOOST_NOEXCEPT_IF(b) *)
Definition noexcept_if {A} (b : bool) (m : M A) : M A := if b then noexcept m else m.

(** ** State updates *)

Definition set_mem (m : gmap loc cell) (s : state) : state :=
  {| mem := m; nxt := nxt s; tr := tr s; thrown := thrown s;
     orc := orc s; opos := opos s; ind := ind s |}.
Definition log (e : event) (s : state) : state :=
  {| mem := mem s; nxt := nxt s; tr := e :: tr s; thrown := thrown s;
     orc := orc s; opos := opos s; ind := ind s |}.

(** Next answer of the oracle. *)
Definition choose : M Z := fun s =>
  Ok (orc s (opos s))
     {| mem := mem s; nxt := nxt s; tr := tr s; thrown := thrown s;
        orc := orc s; opos := S (opos s); ind := ind s |}.

(** A read of a value; an indeterminate one sets the flag. *)
Definition note_read (v : option Z) : M unit := fun s =>
  Ok tt {| mem := mem s; nxt := nxt s; tr := tr s; thrown := thrown s;
           orc := orc s; opos := opos s;
           ind := match v with None => true | Some _ => ind s end |}.

(** A potentially throwing operation [k] of user type [u]: throws if the oracle says so; does not
    consult the oracle if the operation is nothrow. *)
Definition maybe_throw (k : uop) (u : uid) (nothrow : bool) : M unit := fun s =>
  if nothrow then Ok tt s
  else match choose s with
       | Ok z s' => if decide (z = 0%Z) then Ok tt s' else throw (XUser k u (opos s)) s'
       | Exn e s' => Exn e s'
       | Fault f => Fault f
       end.

Definition get_cell (l : loc) : M cell := fun s =>
  match mem s !! l with
  | Some c => Ok c s
  | None => Fault FDeadObject
  end.

Definition put_cell (l : loc) (c : cell) : M unit := fun s =>
  match mem s !! l with
  | Some _ => Ok tt (set_mem (<[l := c]> (mem s)) s)
  | None => Fault FDeadObject
  end.

(** The object living at an address. *)
Definition get_obj (l : loc) : M obj :=
  let! c := get_cell l in
  match cc c with Some o => ret o | None => faulty FDeadObject end.

(** Start of a lifetime: placement new of an object into raw storage. *)
Definition construct (l : loc) (o : obj) : M unit := fun s =>
  match mem s !! l with
  | Some c =>
      match cc c with
      | None => Ok tt (log (EvC (tag_of o) l)
                         (set_mem (<[l := Cell (ck c) (Some o) (cw c)]> (mem s)) s))
      | Some _ => Fault FOverwriteLive
      end
  | None => Fault FDeadObject
  end.

(** End of a lifetime. *)
Definition destruct_obj (l : loc) : M unit := fun s =>
  match mem s !! l with
  | Some c =>
      match cc c with
      | Some o => Ok tt (log (EvD (tag_of o) l)
                           (set_mem (<[l := Cell (ck c) None (cw c)]> (mem s)) s))
      | None => Fault FDeadObject
      end
  | None => Fault FDeadObject
  end.

(** Modification of a live object, which keeps its type. *)
Definition modify_obj (l : loc) (o : obj) : M unit := fun s =>
  match mem s !! l with
  | Some c =>
      match cc c with
      | Some o' => if decide (tag_of o = tag_of o')
                   then Ok tt (set_mem (<[l := Cell (ck c) (Some o) (cw c)]> (mem s)) s)
                   else Fault FTypeConfusion
      | None => Fault FDeadObject
      end
  | None => Fault FDeadObject
  end.

(** Fresh raw cell of a given kind (variant object or automatic object). *)
Definition new_cell (k : ckind) : M loc := fun s =>
  Ok (nxt s)
     {| mem := <[nxt s := Cell k None None]> (mem s); nxt := Pos.succ (nxt s);
        tr := tr s; thrown := thrown s; orc := orc s; opos := opos s; ind := ind s |}.

(** End of the storage of an automatic object or a variant: nothing may live there. *)
Definition drop_cell (l : loc) : M unit := fun s =>
  match mem s !! l with
  | Some c =>
      match cc c with
      | None => if decide (ck c = KHeap) then Fault FBadFree
                else Ok tt (set_mem (delete l (mem s)) s)
      | Some _ => Fault FOverwriteLive
      end
  | None => Fault FDeadObject
  end.

(** operator new: may throw bad_alloc. *)
Definition alloc (p : apurpose) : M loc := fun s =>
  match choose s with
  | Ok z s' =>
      if decide (z = 0%Z) then
        match new_cell KHeap s' with
        | Ok l s'' => Ok l (log (EvNew p l) s'')
        | Exn e s'' => Exn e s''
        | Fault f => Fault f
        end
      else throw (XAlloc (opos s)) s'
  | Exn e s' => Exn e s'
  | Fault f => Fault f
  end.

(** operator delete on a block whose object is already destroyed. *)
Definition free (l : loc) : M unit := fun s =>
  match mem s !! l with
  | Some c =>
      match cc c with
      | None => if decide (ck c = KHeap)
                then Ok tt (log (EvDel l) (set_mem (delete l (mem s)) s))
                else Fault FBadFree
      | Some _ => Fault FBadFree
      end
  | None => Fault FBadFree
  end.

(** The discriminator of a variant object. *)
Definition read_which (l : loc) : M Z :=
  let! c := get_cell l in
  match cw c with Some z => ret z | None => faulty FUninit end.

Definition write_which (l : loc) (z : Z) : M unit :=
  let! c := get_cell l in
  put_cell l (Cell (ck c) (cc c) (Some z)).
