(** Variants with bounded reference types: specification vocabulary. *)
From stdpp Require Import base gmap list numbers.
From Coq Require Import ZArith.
From Verif Require Import Base Types Variant Values Client Observe Spec History Reach References.

(** ** Which alternative an operand goes to *)

(** An alternative of type [u&] takes lvalues of type [u]; [const u&] takes any [u]; an alternative
    of type [u] takes any [u], and has another way to take rvalues. *)
Inductive way := ByRef | ByCRef | ByRRef.
Definition offers (q : way) (u : uid) (t : rty) : Prop :=
  match q, t with
  | ByRef, RRef false u' | ByCRef, RRef true u' => u' = u
  | ByCRef, RInt t | ByRRef, RInt t => ity_uid t = u
  | _, _ => False
  end.
(** The parameter for each way. *)
Definition way_param (q : way) (u : uid) : param :=
  match q with ByRef => PRef u | ByCRef => PCRef u | ByRRef => PRRef u end.
(** The ways for an operand, best first. *)
Definition preference (k : cat) : list way :=
  match k with
  | LV false => [ByRef; ByCRef]
  | LV true | RV true => [ByCRef]
  | RV false => [ByRRef; ByCRef]
  end.
(** The last alternative that offers this way. *)
Definition last_offer (tys : list rty) (u : uid) (q : way) (i : nat) : Prop :=
  (exists t, tys !! i = Some t /\ offers q u t) /\
  forall j t, i < j -> tys !! j = Some t -> ~ offers q u t.
(** The alternative for an operand of type [u], among those of type [u] or reference to it. *)
Definition goes_to (tys : list rty) (u : uid) (k : cat) (q : way) (i : nat) : Prop :=
  exists better worse, preference k = better ++ q :: worse /\
    (forall q' t, q' ∈ better -> t ∈ tys -> ~ offers q' u t) /\ last_offer tys u q i.
(** A converted operand is an rvalue. *)
Definition converted_cat (u u' : uid) (k : cat) : cat := if decide (u' = u) then k else RV false.
(** The alternative for an operand of type [u], as one of type [u']: conversion to any other type
    has a higher rank. *)
Definition picks (C : cfg) (tys : list rty) (u : uid) (k : cat) (u' : uid) (q : way) (i : nat) : Prop :=
  exists r, rank C u u' = Some r /\ goes_to tys u' (converted_cat u u' k) q i /\
    forall u'' q' j r', u'' <> u' -> goes_to tys u'' (converted_cat u u'' k) q' j ->
      rank C u u'' = Some r' -> r < r'.
(** An lvalue of type [u] goes to alternative [i], which is a reference to [u], to const if [c']. *)
Definition binds (C : cfg) (tys : list rty) (u : uid) (c : bool) (i : nat) (c' : bool) : Prop :=
  (exists q, picks C tys u (LV c) u q i) /\ tys !! i = Some (RRef c' u).

(** ** What a variant refers to *)

(** The variant at [a] with these bounded types holds its alternative [i], a reference to the object
    at [l] of type [u]. *)
Definition refers_to (m : gmap loc cell) (tys : list rty) (a : loc) (i : nat) (c : bool) (u : uid) (l : loc) : Prop :=
  tys !! i = Some (RRef c u) /\ m !! a = Some (Cell KVar (Some (ORef u l)) (Some (Z.of_nat i))).
(** It holds its alternative [i], an object of type [u] at [l]: in the variant, or in a recursive_wrapper. *)
Definition contains (m : gmap loc cell) (tys : list rty) (a : loc) (i : nat) (u : uid) (l : loc) : Prop :=
  exists o, m !! a = Some (Cell KVar (Some o) (Some (Z.of_nat i))) /\
    (tys !! i = Some (RInt (IPlain u)) /\ l = a \/ tys !! i = Some (RInt (IWrap u)) /\ o = OWrap u l).
(** Raw storage for a variant. *)
Definition raw (m : gmap loc cell) (a : loc) : Prop := m !! a = Some (Cell KVar None None).
(** [s'] is [s] but for the cell at [a], and an event. *)
Definition only_at (s : state) (a : loc) (x : cell) (e : event) (s' : state) : Prop :=
  mem s' = <[a := x]> (mem s) /\ nxt s' = nxt s /\ tr s' = e :: tr s /\ thrown s' = thrown s /\
  orc s' = orc s /\ opos s' = opos s /\ ind s' = ind s.

(** ** Programs with both kinds of variants *)

(** Variable [x] refers to the object at [l]. *)
Definition points (R : renv) (s : state) (x : name) (c : bool) (u : uid) (l : loc) : Prop :=
  exists tys a i, R !! x = Some (tys, a) /\ refers_to (mem s) tys a i c u l.

(** The same is seen of everything else, and no exception was thrown. *)
Definition undisturbed (C : cfg) (E : env) (s s' : state) : Prop :=
  thrown s' = thrown s /\ (forall σ, shows C (mem s) E σ <-> shows C (mem s') E σ) /\
  (forall l u v, value_at C s l u v <-> value_at C s' l u v).

Section mixed.
Context (C : cfg) (S : usem) (st nb : bool) (eqf ltf : uid -> uval -> uval -> bool).

(** A command on reference variants may be issued: names are used properly; a reference is made
    from an object that exists. *)
Definition permitted (R : renv) (s : state) (c : rcmd) : Prop :=
  match c with
  | RNew x tys u l c => R !! x = None /\ (exists i c', binds C tys u c i c') /\ (exists v, value_at C s l u v)
  | RCopy x y _ => R !! x = None /\ is_Some (R !! y)
  | RDrop x => is_Some (R !! x)
  end.

(** Histories of both kinds of commands, in any order. *)
Inductive mixed (orc : nat -> Z) : list (cmd + rcmd) -> env -> renv -> state -> Prop :=
  | mixed_start : mixed orc [] ∅ ∅ (init orc)
  | mixed_cmd h E R s c E' o s' :
      mixed orc h E R s -> admissible C st nb E s c -> yields C eqf ltf c E s (Done E' o s') ->
      mixed orc (h ++ [inl c]) E' R s'
  | mixed_ref h E R s c R' s' :
      mixed orc h E R s -> permitted R s c -> rexec C S c R s = Ok R' s' ->
      mixed orc (h ++ [inr c]) E R' s'.
End mixed.
