(** Histories: whole runs of client programs, each command permitted where it is issued.
    Specification vocabulary. *)
From stdpp Require Import base gmap list numbers.
From Coq Require Import ZArith.
From Verif Require Import Base Types Variant Values Client Observe Spec.

Section history.
(** Types and conversions [C]; [st], [nb]: which type conditions are in force (see
    [good_tys]); the comparisons that the types provide. *)
Context (C : cfg) (st nb : bool) (eqf ltf : uid -> uval -> uval -> bool).

(** The result of a command: the one that all sufficiently high levels of the semantics of
    user types agree on (see Sem.v). *)
Definition yields (c : cmd) (E : env) (s : state) (r : result) : Prop :=
  exists n0, forall n, n0 <= n -> exec C n eqf ltf c E s = r.

(** Command [c] may be issued: memory shows an abstract state in which it compiles, with
    default construction nesting finitely deep, and it is not one of the uses that C15 is
    about. *)
Definition admissible (E : env) (s : state) (c : cmd) : Prop :=
  exists D σ, shows C (mem s) E σ /\ typed C st nb D σ c /\ unparked C σ c.

(** [history orc h E s]: executing the commands [h] from the start, with oracle [orc]
    deciding where user operations and operator new throw, leads to [s]. *)
Inductive history (orc : nat -> Z) : list cmd -> env -> state -> Prop :=
  | history_start : history orc [] ∅ (init orc)
  | history_step h E s c E' o s' :
      history orc h E s -> admissible E s c -> yields c E s (Done E' o s') ->
      history orc (h ++ [c]) E' s'.

End history.
