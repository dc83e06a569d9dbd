(** What substitution is meant to do, and where it does. Specification. *)
From stdpp Require Import base list numbers.
From Coq Require Import List.
From Verif Require Import Substitute.

(** The tag occurs in the type, outside nested recursive variants (whose tags are their own). *)
Fixpoint occurs (t : ty) : bool :=
  match t with
  | TName _ _ | TRecVariant _ _ => false
  | TTag _ => true
  | TPtr _ t' | TLRef t' | TRRef t' | TArr t' _ => occurs t'
  | TFun r args => occurs r || existsb occurs args
  | TMem _ c t' => occurs c || occurs t'
  | TApp _ _ args | TAppN _ _ args _ | TVariant _ args | TVariantOver _ args => existsb occurs args
  end.

(** The tag replaced by [dest] wherever it occurs. *)
Fixpoint replace (dest : ty) (t : ty) : ty :=
  match t with
  | TName _ _ | TRecVariant _ _ => t
  | TTag q => qualify q dest
  | TPtr q t' => TPtr q (replace dest t')
  | TLRef t' => TLRef (replace dest t')
  | TRRef t' => TRRef (replace dest t')
  | TArr t' n => TArr (replace dest t') n
  | TFun r args => TFun (replace dest r) (map (replace dest) args)
  | TMem q c t' => TMem q (replace dest c) (replace dest t')
  | TApp q F args => TApp q F (map (replace dest) args)
  | TAppN q F args n => TAppN q F (map (replace dest) args) n
  | TVariant q args => TVariant q (map (replace dest) args)
  | TVariantOver q args => TVariantOver q (map (replace dest) args)
  end.

(** Types in which the tag occurs in supported positions only. *)
Inductive supported : ty -> Prop :=
| S_free t : occurs t = false -> supported t
| S_tag q : supported (TTag q)
| S_ptr q t : supported t -> supported (TPtr q t)
| S_ref t : supported t -> supported (TLRef t)
| S_app F args : Forall supported args -> supported (TApp nocv F args)
| S_variant args : Forall supported args -> supported (TVariant nocv args)
| S_over args : Forall supported args -> supported (TVariantOver nocv args)
| S_function r args : supported r -> Forall supported args -> supported (TPtr nocv (TFun r args)).

(** Class types. *)
Definition is_class (t : ty) : bool :=
  match t with
  | TName _ _ | TApp _ _ _ | TAppN _ _ _ _ | TVariant _ _ | TVariantOver _ _ | TRecVariant _ _ => true
  | _ => false
  end.

(** The qualifiers of a class type, and the type without them. *)
Definition cv_of (t : ty) : cvq :=
  match t with
  | TName q _ | TApp q _ _ | TAppN q _ _ _ | TVariant q _ | TVariantOver q _ | TRecVariant q _ => q
  | _ => nocv
  end.
Inductive same_class : ty -> ty -> Prop :=
| same_name q q' n : same_class (TName q n) (TName q' n)
| same_app q q' F args : same_class (TApp q F args) (TApp q' F args)
| same_appn q q' F args n : same_class (TAppN q F args n) (TAppN q' F args n)
| same_variant q q' args : same_class (TVariant q args) (TVariant q' args)
| same_over q q' args : same_class (TVariantOver q args) (TVariantOver q' args)
| same_rec q q' args : same_class (TRecVariant q args) (TRecVariant q' args).

(** Pointers and references, which need no wrapper. *)
Definition indirect (t : ty) : Prop := (exists q t', t = TPtr q t') \/ exists t', t = TLRef t' \/ t = TRRef t'.
