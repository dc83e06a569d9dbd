(** Which types are stored inside which: vocabulary for C69. Specification. *)
From stdpp Require Import base list numbers relations.
From Coq Require Import ZArith List.
From Verif Require Import Base Types Layout LayoutSpec Substitute Sizes.
Local Open Scope Z_scope.

Section spec.
Context (inside : nat -> option nat -> bool) (bounded : list ty -> list ty).

(** An object of type [t] has an object of type [x] inside itself, not behind a pointer or reference.
    [inside F]: instances of template [F] have objects of their argument types inside. *)
Inductive part : ty -> ty -> Prop :=
  | part_arr t n : part t (TArr t n)
  | part_app q F args t : inside F None = true -> t ∈ args -> part t (TApp q F args)
  | part_appn q F args n t : inside F (Some n) = true -> t ∈ args -> part t (TAppN q F args n)
  | part_variant q args t : t ∈ args -> part t (TVariant q args)
  | part_over q args t : t ∈ args -> part t (TVariantOver q args)
  | part_rec q args t : t ∈ bounded args -> part t (TRecVariant q args).

(** Types of objects: no functions, no arrays of no elements, no variants of no types. *)
Definition object_type (t : ty) : Prop :=
  match t with
  | TFun _ _ | TVariant _ [] | TVariantOver _ [] | TRecVariant _ [] => False
  | TArr _ n => n <> 0%nat
  | _ => True
  end.
(** [t] and all that is inside. *)
Definition object_types (t : ty) : Prop := forall x, rtc part x t -> object_type x.
End spec.

(** Which templates store their arguments inside. *)
Definition inside (L : layouts) (F : nat) (n : option nat) : bool :=
  match tpl L F n with inr _ => true | inl _ => false end.

(** recursive_wrapper is a pointer. *)
Definition wrapper_is_pointer (L : layouts) : Prop := tpl L wrapper_template None = inl (ptr_layout (plat L)).

(** Sizes are not negative, alignments are positive, and a template that stores its arguments inside has
    room for them. *)
Definition proper (l : Z * Z) : Prop := 0 <= l.1 /\ 0 < l.2.
Definition proper_layouts (L : layouts) : Prop :=
  (forall n, proper (user_layout (plat L) n)) /\ proper (ptr_layout (plat L)) /\ proper (tag_layout L) /\
  proper (mem_layout L) /\ proper (which_layout L) /\
  forall F n, match tpl L F n with
              | inl l => proper l
              | inr f => forall ls, Forall proper ls -> proper (f ls) /\ forall l, l ∈ ls -> holds (f ls) l
              end.
