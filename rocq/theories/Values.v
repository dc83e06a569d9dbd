(** Value trees: what a client can observe of user objects and variants.  Specification. *)
From stdpp Require Import base gmap list numbers.
From Coq Require Import ZArith.
From Verif Require Import Base Types Variant.

(** A variant's abstract value: whether its content sits in a heap backup left by a failed
    assignment, the index, and the content. *)
Notation vval := (bool * nat * uval)%type.

(** The value without the backup flags: what visitation can tell. *)
Fixpoint erase (v : uval) : uval :=
  match v with UV z ks => UV z (map (fun k => (false, k.1.2, erase k.2)) ks) end.
Definition erasev (k : vval) : vval := (false, k.1.2, erase k.2).

(** No content in a backup anywhere inside. *)
Fixpoint clean (v : uval) : bool :=
  match v with UV z ks => forallb (fun k => negb k.1.1 && clean k.2) ks end.
Definition cleanv (k : vval) : bool := negb k.1.1 && clean k.2.

(** Nesting depth. *)
Fixpoint depth (v : uval) : nat :=
  match v with UV z ks => S (list_max (map (fun k => depth k.2) ks)) end.

(** Which alternatives are held where, without the data. *)
Fixpoint skel (v : uval) : uval :=
  match v with UV z ks => UV None (map (fun k => (k.1.1, k.1.2, skel k.2)) ks) end.

(** All data determinate. *)
Fixpoint determinate (v : uval) : bool :=
  match v with
  | UV z ks => match z with Some _ => true | None => false end &&
               forallb (fun k => determinate k.2) ks
  end.
Definition determinatev (k : vval) : bool := determinate k.2.

(** The value of a default-constructed object of type [u], nesting at most [k] deep; [None]
    if deeper. [raw]: made by `new T` without parentheses, which leaves a trivial type
    indeterminate (recursive_wrapper's default constructor does that). *)
Fixpoint defval (C : cfg) (k : nat) (raw : bool) (u : uid) : option uval :=
  match k with
  | 0 => None
  | S k' =>
      let z := if raw then match ut_init (te C u) with DITriv => None | _ => Some (dv C u) end
               else Some (dv C u) in
      match mapM (fun tys =>
              match tys with
              | [] => None
              | IPlain u' :: _ => match defval C k' false u' with
                                  | Some v => Some (false, 0, v) | None => None end
              | IWrap u' :: _ => match defval C k' true u' with
                                 | Some v => Some (false, 0, v) | None => None end
              end) (ut_members (te C u)) with
      | Some ks => Some (UV z ks)
      | None => None
      end
  end.

(** Default value of a bounded type. *)
Definition idefval (C : cfg) (k : nat) (t : ity) : option uval :=
  match t with IPlain u => defval C k false u | IWrap u => defval C k true u end.
