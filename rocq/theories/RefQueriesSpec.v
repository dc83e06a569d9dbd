(** Queries of variants with bounded reference types: specification vocabulary. *)
From stdpp Require Import base gmap list numbers.
From Verif Require Import Base Types Variant Values Client References ReferencesSpec.

(** What the variant at [a], seen as const if [cvar], gives access to: its alternative [i], an object of type [u] at [l],
    const if [c]. An object that it refers to is const as the reference says, one that it contains is const as the variant
    is. *)
Definition gives (m : gmap loc cell) (cvar : bool) (tys : list rty) (a : loc) (i : nat) (c : bool) (u : uid) (l : loc) : Prop :=
  refers_to m tys a i c u l \/ contains m tys a i u l /\ c = cvar.
(** Comparison of two objects, without any variants. *)
Definition compared (S : usem) (cmp : uid -> uval -> uval -> bool) (u : uid) (l r : loc) : M bool :=
  let! x := us_read S u l in
  let! y := us_read S u r in
  ret (cmp u x y).
