(** How deep values are nested, and how many calls it takes to process them. Specification. *)
From stdpp Require Import base gmap list numbers.
From Verif Require Import Base Types Variant Values Client Observe Spec History Reach CostSpec.

(** Objects one inside the other, at most. *)
Definition nesting (α : aval) : nat := match α with AVar _ k => depth k.2 | AObj _ v => depth v end.

(** Not more than [n] nested beyond the outermost: all values of the names in [N]; the value that
    default construction of the first of [tys] makes. *)
Definition shallow (C : cfg) (n : nat) (N : list name) (E : env) (s : state) : Prop :=
  forall x α, x ∈ N -> stands C E s x α -> nesting α <= S n.
Definition shallow_default (C : cfg) (n : nat) (c : cmd) : Prop :=
  match c with CDefault _ (t :: _) => idefval C (S n) t <> None | _ => True end.

(** The command needs more calls of operations of user types in progress at once than [S n]:
    what level [n] of the semantics (Sem.v) stands for. *)
Definition too_deep (C : cfg) (n : nat) (eqf ltf : uid -> uval -> uval -> bool) (c : cmd) (E : env) (s : state) : Prop :=
  exec C n eqf ltf c E s = Faulted FFuel.
