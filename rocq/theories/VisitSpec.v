(** Vocabulary for visitation of several variants, some of them rvalues. Specification. *)
From stdpp Require Import base gmap list numbers.
From Verif Require Import Base Types Variant Values Client Observe Reach Spec Owned Queries Ask.

(** Variables to be visited, each as an rvalue (true) or an lvalue, and what is passed for
    them. A variable passed as an rvalue occurs once. *)
Definition visited (E : env) (x : name * bool) (v : visitable) : Prop :=
  E !! x.1 = Some (BVar v.1.1 v.1.2) /\ v.2 = x.2.
Definition rvalues_once (xs : list (name * bool)) : Prop :=
  forall i j x b, xs !! i = Some (x, true) -> xs !! j = Some (x, b) -> i = j.

Section visits.
Context (C : cfg).

(** In state [s1] the visitor's argument [g] is what it should be for variable [x], as it was in
    state [s]: the content itself for an lvalue, an object of the same type and value for an
    rvalue. *)
Definition passes (E : env) (s s1 : state) (x : name * bool) (g : arg) : Prop :=
  g.2 = x.2 /\
  exists tys k t v, sees C E s x.1 tys k /\ tys !! k.1.2 = Some t /\ g.1.1 = ity_uid t /\
    value_at C s1 g.1.2 (ity_uid t) v /\ erase v = erase k.2 /\
    (x.2 = false -> v = k.2 /\ content_of C E s x.1 (ity_uid t) g.1.2).

(** Afterwards: variables passed as rvalues have their alternative still, at every depth, with any
    data; all others are as before; every object in memory belongs to a variable. *)
Definition after_visit (E : env) (s s' : state) (xs : list (name * bool)) : Prop :=
  forest C (mem s') E /\
  (forall z tys k, (z, true) ∈ xs -> sees C E s z tys k ->
     exists v', sees C E s' z tys (k.1, v') /\ skel v' = skel k.2) /\
  (forall z, (z, true) ∉ xs -> same_at C E s E s' z).

(** Moving the content may throw. *)
Definition move_may_throw (E : env) (s : state) (x : name) : Prop :=
  exists tys k t, sees C E s x tys k /\ tys !! k.1.2 = Some t /\ ~ nothrow_move C t.

(** What a visitor that only looks may change: it may throw, and ask the oracle. *)
Definition same_memory (s s' : state) : Prop :=
  mem s' = mem s /\ nxt s' = nxt s /\ tr s' = tr s /\ ind s' = ind s.
End visits.
