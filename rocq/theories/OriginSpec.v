(** Where exceptions come from: vocabulary for the documented "Throws" clauses
    (doc/reference/variant.xml). *)
From stdpp Require Import base gmap list numbers.
From Coq Require Import ZArith.
From Verif Require Import Base Types Variant Values Client Observe Spec.

Section origin.
Context (C : cfg).

(** Operation [k] of type [u] is not declared not to throw. *)
Definition throwing (k : uop) (u : uid) : Prop :=
  match k with
  | OpMake | OpConvert => True
  | OpDefault => nt_default (te C u) = false
  | OpCopy => nt_copy (te C u) = false
  | OpMove => nt_move (te C u) = false
  | OpCopyAssign => nt_cassign (te C u) = false
  | OpMoveAssign => nt_massign (te C u) = false
  | OpSwap => ut_swap (te C u) = Some false
  end.

(** [u] is one of the types [ts], or a bounded type of a member variant, at some depth. *)
Inductive part (ts : list ity) : uid -> Prop :=
  | part_top t : t ∈ ts -> part ts (ity_uid t)
  | part_member u tys t : part ts u -> tys ∈ ut_members (te C u) -> t ∈ tys -> part ts (ity_uid t).

(** [e] is bad_alloc, or was thrown by one of the operations [ks] of a part of [ts]. *)
Definition from (ks : list uop) (ts : list ity) (e : exn) : Prop :=
  match e with
  | XUser k u _ => k ∈ ks /\ throwing k u /\ part ts u
  | XAlloc _ => True
  | XBadGet | XBadVisit => False
  end.

(** Assigning content of type [t2] over content of type [t1], the library copies [t1] to the heap
    first. *)
Definition backs_up (tys : list ity) (t1 t2 : ity) : Prop :=
  no_fallback C tys /\ doubly_throwing C t2 /\ ~ nothrow_move C t1.

(** The operations of user types that may throw in a command. *)
Definition operations (c : cmd) : list uop :=
  match c with
  | CMake _ _ _ _ => [OpMake; OpCopy]
  | CDefault _ _ => [OpDefault]
  | CCopy _ _ | CTake _ _ _ | CChild _ _ _ _ => [OpCopy]
  | CMove _ _ => [OpMove]
  | CFrom _ _ _ mv | CConvert _ _ _ mv => if mv then [OpConvert; OpMove] else [OpConvert; OpMove; OpCopy]
  | CAssign _ _ | CSetChild _ _ _ _ | CPoke _ _ _ => [OpCopyAssign; OpCopy]
  | CMoveAssign _ _ => [OpMoveAssign; OpMove; OpCopy]
  | CAssignFrom _ _ mv =>
      if mv then [OpConvert; OpMoveAssign; OpMove; OpCopy] else [OpConvert; OpCopyAssign; OpMoveAssign; OpMove; OpCopy]
  | CAssignConvert _ _ _ => [OpConvert; OpMoveAssign; OpMove; OpCopy]
  | CSwap _ _ => [OpSwap; OpMoveAssign; OpMove; OpCopy]
  | CDrop _ | CWhich _ | CRead _ | CGet _ _ | CGetRef _ _ | CType _ | CEq _ _ | CLt _ _ => []
  end.

(** The types a command is about: those of the variant or object it makes, changes or copies from. *)
Definition types_at (E : env) (x : name) : list ity :=
  match E !! x with Some (BVar tys _) => tys | Some (BObj u _) => [IPlain u] | None => [] end.
Definition subject (E : env) (c : cmd) : list ity :=
  match c with
  | CMake _ u _ _ => [IPlain u]
  | CDefault _ tys | CFrom _ tys _ _ | CConvert _ tys _ _ => tys
  | CCopy _ x | CMove _ x | CTake _ x _ | CChild _ x _ _ | CSetChild x _ _ _ | CPoke x _ _
  | CAssign x _ | CMoveAssign x _ | CSwap x _ | CAssignFrom x _ _ | CAssignConvert x _ _ => types_at E x
  | CDrop _ | CWhich _ | CRead _ | CGet _ _ | CGetRef _ _ | CType _ | CEq _ _ | CLt _ _ => []
  end.

End origin.
