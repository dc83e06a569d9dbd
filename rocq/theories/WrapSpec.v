(** Vocabulary of the properties of recursive_wrapper. Specification. *)
From stdpp Require Import base gmap list numbers.
From Verif Require Import Base Types Variant Values Client Observe Reach.

(** At address [l] there is a recursive_wrapper<u> whose pointer is [p]. *)
Definition wrapper_at (s : state) (l : loc) (u : uid) (p : loc) : Prop :=
  exists kd w, mem s !! l = Some (Cell kd (Some (OWrap u p)) w).

(** The content of variable [x] is a recursive_wrapper<u> with pointer [p]: in the variant's
    storage, or parked in the heap block of a backup holder. *)
Definition wraps (E : env) (s : state) (x : name) (u : uid) (p : loc) : Prop :=
  exists tys a, E !! x = Some (BVar tys a) /\
    (wrapper_at s a u p \/
     exists w q, mem s !! a = Some (Cell KVar (Some (OBackup (IWrap u) (Some q))) w) /\ wrapper_at s q u p).

(** The object at [l] with its pointer replaced. *)
Definition repoint (u : uid) (q : loc) (c : cell) : cell := Cell (ck c) (Some (OWrap u q)) (cw c).
