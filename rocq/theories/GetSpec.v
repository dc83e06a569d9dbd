(** Vocabulary for get at the level of types. Specification. *)
From stdpp Require Import base.
From Verif Require Import Base GetTypes.

(** The type of values that a bounded type stands for. *)
Definition value_type (e : bty) : oty := match e with BPlain t | BWrap t | BRef t => t end.
Definition no_volatile (t : oty) : Prop := is_volatile t = false.

(** Is what the visitor is called on const? *)
Definition content_const (cvar : bool) (e : bty) : bool :=
  match e with BPlain t | BWrap t => cvar || is_const t | BRef t => is_const t end.

(** Types as the state machine has them. *)
Definition of_ity (t : ity) : bty := match t with IPlain u => BPlain (plain u) | IWrap u => BWrap (plain u) end.

(** An unqualified bounded type, possibly wrapped. *)
Definition unqualified (e : bty) : Prop := exists d, e = BPlain (plain d) \/ e = BWrap (plain d).

(** [d] is [b] or derives from it. *)
Definition same_or_derived (base : uid -> uid -> bool) (b d : uid) : Prop := b = d \/ base b d = true.
