(** Which exceptions are due to what. Specification. *)
From stdpp Require Import base gmap list numbers.
From Coq Require Import ZArith.
From Verif Require Import Base Types Variant Sem Values Client Places Programs Calls.

(** An operation of a user type, or operator new, that may throw makes a choice of the oracle [o]; the
    choices are numbered, and 0 is: it succeeds. The exception [e] is due to a choice in [i .. j) that
    was not 0; or, if [g], it is boost::bad_get. *)
Definition blamed (g : bool) (o : nat -> Z) (i j : nat) (e : exn) : Prop :=
  match e with
  | XUser _ _ n | XAlloc n => i <= n < j /\ o n <> 0%Z
  | XBadGet => g = true
  | XBadVisit => False
  end.
(** From [s] to [s']: all exceptions thrown in between, also those that were caught, are due to choices made
    in between. *)
Definition span (g : bool) (s s' : state) : Prop :=
  orc s' = orc s /\ opos s <= opos s' /\
  exists l, thrown s' = l ++ thrown s /\ Forall (blamed g (orc s) (opos s) (opos s')) l.

(** Nothing fails from here on. *)
Definition calm_from (s : state) : Prop := forall i, opos s <= i -> orc s i = 0%Z.

(** Commands and programs that use get<U>(x), which may throw boost::bad_get. *)
Definition gets (c : cmd) : bool :=
  match c with CPoke _ _ _ | CTake _ _ _ | CChild _ _ _ _ | CSetChild _ _ _ _ | CGetRef _ _ => true | _ => false end.
Definition rgets (c : rcmd) : bool :=
  match c with RMain c => gets c | RClose _ => false | _ => true end.
Fixpoint getless (p : prog) : Prop :=
  match p with
  | PSkip | PHang => True
  | PDo c => rgets c = false
  | PLet c p => rgets c = false /\ getless p
  | PSeq p q | PTry p q => getless p /\ getless q
  | PVisit _ _ ps | PSwitch _ ps => forall u, getless (ps u)
  | PWhile _ _ p => getless p
  end.
Fixpoint fgetless (p : fprog) : Prop :=
  match p with
  | FSkip | FCall _ _ => True
  | FDo c => rgets c = false
  | FLet c p => rgets c = false /\ fgetless p
  | FSeq p q | FTry p q => fgetless p /\ fgetless q
  | FVisit _ _ ps | FSwitch _ ps => forall u, fgetless (ps u)
  | FWhile _ _ p => fgetless p
  end.
