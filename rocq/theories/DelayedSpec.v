(** Delayed visitation: specification vocabulary. *)
From stdpp Require Import base gmap list numbers.
From Verif Require Import Base Types Variant Values Client Observe Spec History Reach.

(** Any commands, all of them [allowed]. *)
Inductive commands (C : cfg) (st nb : bool) (eqf ltf : uid -> uval -> uval -> bool) (allowed : cmd -> Prop) : env -> state -> env -> state -> Prop :=
  | commands_none E s : commands C st nb eqf ltf allowed E s E s
  | commands_more E s E1 s1 c o E2 s2 : commands C st nb eqf ltf allowed E s E1 s1 -> does C st nb eqf ltf c E1 s1 E2 o s2 ->
      allowed c -> commands C st nb eqf ltf allowed E s E2 s2.
(** None of them ends the lifetime of variable [x]. *)
Definition meanwhile (C : cfg) (st nb : bool) (eqf ltf : uid -> uval -> uval -> bool) (x : name) : env -> state -> env -> state -> Prop :=
  commands C st nb eqf ltf (fun c => c <> CDrop x).
Definition afterwards (C : cfg) (st nb : bool) (eqf ltf : uid -> uval -> uval -> bool) : env -> state -> env -> state -> Prop :=
  commands C st nb eqf ltf (fun _ => True).
