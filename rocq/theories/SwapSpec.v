(** Swapping in place: what a swap that works on the two contents where they are may do. *)
From stdpp Require Import base gmap list numbers.
From Coq Require Import ZArith.
From Verif Require Import Base Types Variant.

(** The same object up to its data: an object of the same type with the same members, the same
    pointer. *)
Definition same_but_data (o o' : obj) : Prop :=
  match o, o' with
  | OUser u _ ks, OUser u' _ ks' => u' = u /\ ks' = ks
  | _, _ => o' = o
  end.
Definition same_cell (c c' : cell) : Prop :=
  ck c' = ck c /\ cw c' = cw c /\ option_Forall2 same_but_data (cc c) (cc c').

(** No object was created, destroyed or replaced anywhere, no memory allocated or released, and
    no discriminator or pointer changed: only data. *)
Definition in_place (s s' : state) : Prop :=
  tr s' = tr s /\ nxt s' = nxt s /\ forall l, option_Forall2 same_cell (mem s !! l) (mem s' !! l).
