(** No content is in a heap backup. Specification. *)
From stdpp Require Import base gmap list numbers.
From Coq Require Import ZArith.
From Verif Require Import Base Types Variant Values Client Observe Spec Places PlacesSpec.

(** The content of a variable is not in a heap backup; nor is that of any variant in it. *)
Definition neat (α : aval) : Prop := match α with AVar _ k => cleanv k = true | AObj _ v => clean v = true end.
(** So for all variables, also those that visitors higher up visit. *)
Definition tidy (C : cfg) (E : env) (K : kenv) (s : state) : Prop :=
  forall σ κ, shows C (mem s) E σ -> kshows (mem s) K κ ->
  (forall x α, σ !! x = Some α -> neat α) /\ forall x α rs, κ !! x = Some (α, rs) -> neat α.
