(** Vocabulary of the properties: what is seen of a program's state, steps between reachable
    states. Specification. *)
From stdpp Require Import base gmap list numbers.
From Coq Require Import ZArith.
From Verif Require Import Base Types Variant Values Client Observe Spec History.

(** In state [s], name [x] is a variant of bounded types [tys] that holds [k]; is an object
    of type [u] with value [v]. *)
Definition sees (C : cfg) (E : env) (s : state) (x : name) (tys : list ity) (k : vval) : Prop :=
  exists a, E !! x = Some (BVar tys a) /\ var_holds C (mem s) tys a k.
Definition sees_obj (C : cfg) (E : env) (s : state) (x : name) (u : uid) (v : uval) : Prop :=
  exists a, E !! x = Some (BObj u a) /\ obj_holds C (mem s) u a v.

(** Name [z] has the same storage and shows the same. *)
Definition same_at (C : cfg) (E : env) (s : state) (E' : env) (s' : state) (z : name) : Prop :=
  E' !! z = E !! z /\
  (forall tys k, sees C E s z tys k <-> sees C E' s' z tys k) /\
  (forall u v, sees_obj C E s z u v <-> sees_obj C E' s' z u v).

Section reach.
Context (C : cfg) (st nb : bool) (eqf ltf : uid -> uval -> uval -> bool).

(** Reachable states of programs. *)
Definition reached (E : env) (s : state) : Prop := exists orc h, history C st nb eqf ltf orc h E s.

(** A permitted command and its result. *)
Definition does (c : cmd) (E : env) (s : state) (E' : env) (o : out) (s' : state) : Prop :=
  admissible C st nb E s c /\ yields C eqf ltf c E s (Done E' o s').

(** A reachable state, a permitted command, its result. *)
Definition step (c : cmd) (E : env) (s : state) (E' : env) (o : out) (s' : state) : Prop :=
  reached E s /\ does c E s E' o s'.

End reach.

(** The names a command mentions. *)
Definition names (c : cmd) : list name :=
  match c with
  | CMake x _ _ ms => x :: ms
  | CDrop x | CDefault x _ | CWhich x | CRead x | CGet x _ | CGetRef x _ | CType x => [x]
  | CFrom x _ y _ | CCopy x y | CMove x y | CConvert x _ y _ | CAssign x y | CMoveAssign x y
  | CAssignFrom x y _ | CAssignConvert x y _ | CSwap x y | CPoke x _ y | CTake x y _
  | CChild x y _ _ | CSetChild x _ _ y | CEq x y | CLt x y => [x; y]
  end.

(** Commands that only look. *)
Definition query (c : cmd) : bool :=
  match c with
  | CWhich _ | CRead _ | CGet _ _ | CGetRef _ _ | CType _ | CEq _ _ | CLt _ _ => true
  | _ => false
  end.

(** ** Variants inside values *)

(** [within C u v tys k]: a value [v] of type [u] has, at some depth, a member variant of
    bounded types [tys] that holds [k]. *)
Inductive within (C : cfg) : uid -> uval -> list ity -> vval -> Prop :=
  | within_member u z ks j tys k :
      ut_members (te C u) !! j = Some tys -> ks !! j = Some k -> within C u (UV z ks) tys k
  | within_deep u v tys k t tys' k' :
      within C u v tys k -> tys !! k.1.2 = Some t -> within C (ity_uid t) k.2 tys' k' ->
      within C u v tys' k'.

(** A variant of the program: named, or inside something named. *)
Inductive present (C : cfg) (E : env) (s : state) : list ity -> vval -> Prop :=
  | present_var x tys k : sees C E s x tys k -> present C E s tys k
  | present_in_var x tys k t tys' k' :
      sees C E s x tys k -> tys !! k.1.2 = Some t -> within C (ity_uid t) k.2 tys' k' ->
      present C E s tys' k'
  | present_in_obj x u v tys' k' :
      sees_obj C E s x u v -> within C u v tys' k' -> present C E s tys' k'.

(** The object of type [u] with value [v] at address [l], wherever it is stored. *)
Definition value_at (C : cfg) (s : state) (l : loc) (u : uid) (v : uval) : Prop :=
  exists c o n, mem s !! l = Some c /\ cc c = Some o /\ see_obj C (mem s) n u o = Some v.

(** ** Pointers *)

(** The addresses an object's representation mentions: its member variants, the content of a
    recursive_wrapper, of a backup_holder. *)
Definition pointers (o : option obj) : list loc :=
  match o with
  | Some (OUser _ _ ls) => ls
  | Some (OWrap _ p) => [p]
  | Some (OBackup _ (Some p)) => [p]
  | _ => []
  end.
Definition root (b : bnd) : loc := match b with BVar _ a => a | BObj _ a => a end.

(** Every address in use is that of exactly one variable, or mentioned by exactly one object:
    no sharing, no dangling pointer, nothing unreachable. *)
Definition linked (E : env) (m : gmap loc cell) : Prop :=
  (map_to_list m).*1 ≡ₚ
  (map (fun p => root p.2) (map_to_list E)) ++ concat (map (fun p => pointers (cc p.2)) (map_to_list m)).

(** Every stored object is what it should be: a wrapper points to a heap block with an object
    of its type, a backup holder to one with an object of the type it stands for; member
    variants are there; no storage is without object, no holder is null, no object is of a
    type that does not belong here. *)
Definition tag_is (t : ity) : otag := match t with IPlain u => TUser u | IWrap u => TWrap u end.
Definition cell_ok (C : cfg) (m : gmap loc cell) (c : cell) : Prop :=
  match cc c with
  | Some (OUser u z ls) =>
      length ls = length (ut_members (te C u)) /\
      forall l, l ∈ ls -> exists o w, m !! l = Some (Cell KVar (Some o) (Some w))
  | Some (OWrap u p) => exists o, m !! p = Some (Cell KHeap (Some o) None) /\ tag_of o = TUser u
  | Some (OBackup t (Some p)) => exists o, m !! p = Some (Cell KHeap (Some o) None) /\ tag_of o = tag_is t
  | Some (OBackup _ None) | Some (OIter _) | Some (ORef _ _) | None => False
  end.

(** ** What may be left of the target of a failed assignment *)

(** Its old value, perhaps parked now or no longer. *)
Definition old_value (k1 k' : vval) : Prop := k'.1.2 = k1.1.2 /\ erase k'.2 = erase k1.2.
(** A default-initialised object of the fallback type. *)
Definition fallback_value (C : cfg) (tys : list ity) (k' : vval) : Prop :=
  exists j u, fallback C tys j u /\ k' = (false, j, default_init C u).

(** Queries of one variant. *)
Definition unary (c : name -> cmd) : Prop :=
  c = CWhich \/ c = CRead \/ c = CType \/ (exists u, c = fun x => CGet x u) \/ exists u, c = fun x => CGetRef x u.
