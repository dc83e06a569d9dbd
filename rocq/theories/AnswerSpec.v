(** Where exceptions come from: the oracle (Base.v). Specification vocabulary. *)
From Coq Require Import ZArith.
From Verif Require Import Base.

(** The exception is an answer that the oracle gave between the two states. *)
Definition answered (s s' : state) (e : exn) : Prop :=
  match e with
  | XUser _ _ i | XAlloc i => (opos s <= i < opos s') /\ orc s i <> 0%Z
  | _ => True
  end.

(** The position of the answer. *)
Definition exn_at (e : exn) : option nat :=
  match e with XUser _ _ i | XAlloc i => Some i | _ => None end.
