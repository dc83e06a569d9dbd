(** Programs that are in the same situation: vocabulary for statements that compare two runs. *)
From stdpp Require Import base gmap list numbers.
From Coq Require Import ZArith.
From Verif Require Import Base Types Variant Values Client Observe Spec History Reach CostSpec.

(** The operations that fail from now on, and the values that moved-from objects get, are the
    same. *)
Definition same_luck (s1 s2 : state) : Prop := forall k, orc s1 (opos s1 + k) = orc s2 (opos s2 + k).

(** The names [N] stand for the same values. *)
Definition same_values (C : cfg) (N : list name) (E1 : env) (s1 : state) (E2 : env) (s2 : state) : Prop :=
  forall x α, x ∈ N -> stands C E1 s1 x α <-> stands C E2 s2 x α.

(** What a command tells its caller, with the moments of exceptions counted from moment [p]. *)
Definition told (p : nat) (o : out) : out :=
  match o with
  | OThrew (XUser k u n) => OThrew (XUser k u (n - p))
  | OThrew (XAlloc n) => OThrew (XAlloc (n - p))
  | _ => o
  end.

(** Addresses that correspond to each other one to one; the same event at corresponding
    addresses. *)
Definition one_to_one (β : loc -> loc -> Prop) : Prop :=
  forall l1 l2 l1' l2', β l1 l2 -> β l1' l2' -> (l1 = l1' <-> l2 = l2').
Definition same_event (β : loc -> loc -> Prop) (e e' : event) : Prop :=
  match e, e' with
  | EvC t l, EvC t' l' | EvD t l, EvD t' l' => t = t' /\ β l l'
  | EvNew p l, EvNew p' l' => p = p' /\ β l l'
  | EvDel l, EvDel l' => β l l'
  | _, _ => False
  end.
Definition address (b : bnd) : loc := match b with BVar _ a | BObj _ a => a end.

(** From [s1] to [s1'] happens what happens from [s2] to [s2'], and it leaves the names [N] the
    same: values, operations that may fail, reads of indeterminate values, and lifetimes of
    objects and heap blocks, in order and at corresponding addresses. *)
Record alike (C : cfg) (N : list name) (E1 : env) (s1 : state) (E1' : env) (s1' : state)
    (E2 : env) (s2 : state) (E2' : env) (s2' : state) : Prop := Alike {
  alike_values : same_values C N E1' s1' E2' s2';
  alike_luck : same_luck s1' s2';
  alike_asked : exists j, opos s1' = opos s1 + j /\ opos s2' = opos s2 + j;
  alike_ind : exists i, ind s1' = i || ind s1 /\ ind s2' = i || ind s2;
  alike_events : exists β t1 t2, one_to_one β /\
    tr s1' = t1 ++ tr s1 /\ tr s2' = t2 ++ tr s2 /\ Forall2 (same_event β) t1 t2 /\
    forall x, x ∈ N ->
      option_Forall2 (fun b b' => β (address b) (address b')) (E1 !! x) (E2 !! x) /\
      option_Forall2 (fun b b' => β (address b) (address b')) (E1' !! x) (E2' !! x)
}.

(** The name keeps its storage and its value. *)
Definition kept (C : cfg) (E : env) (s : state) (E' : env) (s' : state) (y : name) : Prop :=
  E' !! y = E !! y /\ forall α, stands C E s y α -> stands C E' s' y α.

(** What a client can see of a value: not whether a variant keeps its content in a backup. *)
Definition visible (α : aval) : aval :=
  match α with
  | AVar tys k => AVar tys (false, k.1.2, erase k.2)
  | AObj u v => AObj u (erase v)
  end.
