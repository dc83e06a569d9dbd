(** Where things are: vocabulary for statements about addresses. *)
From stdpp Require Import base gmap list numbers.
From Coq Require Import ZArith.
From Verif Require Import Base Types Variant Values Client Observe Spec History Reach Owned.

(** The address [l] belongs to what is bound to [b]: its storage, or anything reached from
    there. *)
Definition owns (C : cfg) (m : gmap loc cell) (b : bnd) (l : loc) : Prop :=
  exists n ls, owned_bnd C m n b = Some ls /\ l ∈ ls.

(** The content of the variant named [x] is the object at [l]. *)
Definition content_at (E : env) (s : state) (x : name) (l : loc) : Prop :=
  exists tys a, E !! x = Some (BVar tys a) /\ stored_at (mem s) a l.

(** One program step after the other, none of which mentions [z]. *)
Inductive without (C : cfg) (st nb : bool) (eqf ltf : uid -> uval -> uval -> bool) (z : name) :
    env -> state -> env -> state -> Prop :=
  | without_none E s : without C st nb eqf ltf z E s E s
  | without_step E s c E' o s' E'' s'' :
      step C st nb eqf ltf c E s E' o s' -> z ∉ names c -> without C st nb eqf ltf z E' s' E'' s'' ->
      without C st nb eqf ltf z E s E'' s''.
