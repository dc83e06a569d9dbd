(** Which variables a command may modify: vocabulary for statements about const operands. *)
From stdpp Require Import base gmap list numbers.
From Coq Require Import ZArith.
From Verif Require Import Base Types Variant Values Client Observe Spec History Reach Owned.

(** The operands that a command takes as non-const lvalues or as rvalues. All others it takes by
    reference to const. (The variable that a command introduces is not an operand.) *)
Definition modifies (c : cmd) : list name :=
  match c with
  | CDrop x | CAssign x _ | CPoke x _ _ | CSetChild x _ _ _ => [x]
  | CMove _ y => [y]
  | CFrom _ _ y mv | CConvert _ _ y mv => if mv then [y] else []
  | CAssignFrom x y mv | CAssignConvert x y mv => x :: if mv then [y] else []
  | CMoveAssign x y | CSwap x y => [x; y]
  | _ => []
  end.

(** One program step after the other, none of which may modify [z]. *)
Inductive reading (C : cfg) (st nb : bool) (eqf ltf : uid -> uval -> uval -> bool) (z : name) :
    env -> state -> env -> state -> Prop :=
  | reading_none E s : reading C st nb eqf ltf z E s E s
  | reading_step E s c E' o s' E'' s'' :
      step C st nb eqf ltf c E s E' o s' -> z ∉ modifies c -> reading C st nb eqf ltf z E' s' E'' s'' ->
      reading C st nb eqf ltf z E s E'' s''.
