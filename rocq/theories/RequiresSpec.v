(** Which operations of a variant compile: vocabulary for the documented requirements
    (doc/reference/concepts.xml, doc/reference/variant.xml). *)
From stdpp Require Import base gmap list numbers.
From Coq Require Import ZArith.
From Verif Require Import Base Types Variant Values Client Observe Spec Requires.

Section requires.
Context (C : cfg).

(** A type with a declared-nothrow operation has the operation; so has a type with a swap of its
    own. *)
Definition truthful (av : uop -> uid -> bool) : Prop := forall u,
  (nt_default (te C u) = true -> av OpDefault u = true) /\
  (nt_copy (te C u) = true -> av OpCopy u = true) /\
  (nt_move (te C u) = true -> av OpMove u = true) /\
  (is_Some (ut_swap (te C u)) -> av OpSwap u = true).

(** The concepts, for a bounded type. *)
Definition copy_constructible (av : uop -> uid -> bool) (t : ity) : Prop := av OpCopy (ity_uid t) = true.
Definition move_constructible (av : uop -> uid -> bool) (t : ity) : Prop := av OpMove (ity_uid t) = true.
Definition assignable (av : uop -> uid -> bool) (t : ity) : Prop :=
  av OpCopyAssign (ity_uid t) = true /\ copy_constructible av t.
(** recursive_wrapper is always move assignable. *)
Definition move_assignable (av : uop -> uid -> bool) (t : ity) : Prop :=
  match t with IPlain u => av OpMoveAssign u = true | IWrap _ => True end.
Definition swappable (av : uop -> uid -> bool) (u : uid) : Prop :=
  is_Some (ut_swap (te C u)) \/ av OpMove u = true /\ av OpMoveAssign u = true.

(** What move assignment of the variant asks of a bounded type, beyond that it be move assignable. *)
Definition replaceable (av : uop -> uid -> bool) (tys : list ity) (t : ity) : Prop :=
  doubly_throwing C t ->
  (no_fallback C tys -> copy_constructible av t) /\ (~ no_fallback C tys -> move_constructible av t).

(** What a class's operation does with its member variants. *)
Definition member_op (k : uop) : option vop :=
  match k with
  | OpMake | OpCopy => Some VCopy
  | OpDefault => Some VDefault
  | OpMove => Some VMove
  | OpCopyAssign => Some VAssign
  | OpMoveAssign => Some VMoveAssign
  | OpSwap => Some VSwap
  | OpConvert => None
  end.
(** The operations [rs], those that their classes need for their member variants, and so on. *)
Inductive needs (rs : list (uop * uid)) : uop -> uid -> Prop :=
  | needs_top k u : (k, u) ∈ rs -> needs rs k u
  | needs_member k u tys o k' u' : needs rs k u -> tys ∈ ut_members (te C u) -> member_op k = Some o ->
      (k', u') ∈ inst C o tys -> needs rs k' u'.

(** What a command instantiates. *)
Definition list_at (E : env) (x : name) : list ity :=
  match E !! x with Some (BVar tys _) => tys | _ => [] end.
Definition uid_at (E : env) (x : name) : uid :=
  match E !! x with Some (BObj u _) => u | _ => 0 end.
Definition required (E : env) (c : cmd) : list (uop * uid) :=
  match c with
  | CMake _ u _ _ => [(OpMake, u)]
  | CDefault _ tys => inst C VDefault tys
  | CFrom _ tys y mv => inst C (VFrom (uid_at E y) mv) tys
  | CConvert _ tys y mv => inst C (VConvert (list_at E y) mv) tys
  | CCopy _ x => inst C VCopy (list_at E x)
  | CMove _ x => inst C VMove (list_at E x)
  | CAssign x _ => inst C VAssign (list_at E x)
  | CMoveAssign x _ => inst C VMoveAssign (list_at E x)
  | CSwap x _ => inst C VSwap (list_at E x)
  | CAssignFrom x y mv => inst C (VAssignFrom (uid_at E y) mv) (list_at E x)
  | CAssignConvert x y mv => inst C (VAssignConvert (list_at E y) mv) (list_at E x)
  | CPoke _ u _ => [(OpCopyAssign, u)]
  | CTake _ _ u => [(OpCopy, u)]
  | CChild _ _ u j => from_option (inst C VCopy) [] (ut_members (te C u) !! j)
  | CSetChild _ u j _ => from_option (inst C VAssign) [] (ut_members (te C u) !! j)
  | CDrop _ | CWhich _ | CRead _ | CGet _ _ | CGetRef _ _ | CType _ | CEq _ _ | CLt _ _ => []
  end.

End requires.
