(** How many objects and heap blocks: vocabulary for statements about what operations cost. *)
From stdpp Require Import base gmap list numbers.
From Coq Require Import ZArith.
From Verif Require Import Base Types Variant Values Client Observe Spec History Reach.

(** ** What has happened *)
Definition count (p : event -> bool) (t : list event) : nat := length (filter (fun e => p e = true) t).
(** Objects of the type [k] constructed, destroyed; heap blocks allocated, released. *)
Definition made (k : otag) : list event -> nat :=
  count (fun e => match e with EvC k' _ => bool_decide (k' = k) | _ => false end).
Definition gone (k : otag) : list event -> nat :=
  count (fun e => match e with EvD k' _ => bool_decide (k' = k) | _ => false end).
Definition news : list event -> nat := count (fun e => match e with EvNew _ _ => true | _ => false end).
Definition dels : list event -> nat := count (fun e => match e with EvDel _ => true | _ => false end).

(** ** What a value consists of *)
Section parts.
Context (C : cfg) (w : ckind -> otag -> nat).

(** [w place k] counts an object of type [k] in a variant, in a heap block or on the stack. The
    content of a variant is in the variant's own storage, and a parked one in a heap block next to
    a backup_holder; a recursive_wrapper has its object in a heap block. *)
Definition content_parts (g : ckind -> uid -> nat) (t : ity) (place : ckind) : nat :=
  match t with
  | IPlain u => g place u
  | IWrap u => w place (TWrap u) + g KHeap u
  end.
Definition variant_parts (g : ckind -> uid -> nat) (tys : list ity) (parked : bool) (i : nat) : nat :=
  match tys !! i with
  | Some t => if parked then w KVar (TBackup t) + content_parts g t KHeap else content_parts g t KVar
  | None => 0
  end.
(** An object of user type [u] with value [v], and its members' contents. *)
Fixpoint object_parts (v : uval) (place : ckind) (u : uid) {struct v} : nat :=
  match v with
  | UV _ ks => w place (TUser u) +
      (fix go (ks : list (bool * nat * uval)) (mems : list (list ity)) {struct ks} : nat :=
         match ks, mems with
         | k :: ks', tys :: mems' => variant_parts (object_parts k.2) tys k.1.1 k.1.2 + go ks' mems'
         | _, _ => 0
         end) ks (ut_members (te C u))
  end.
Definition parts (α : aval) : nat :=
  match α with
  | AVar tys k => variant_parts (object_parts k.2) tys k.1.1 k.1.2
  | AObj u v => object_parts v KStk u
  end.
(** Of all variables. *)
Definition all_parts (σ : astate) : nat := map_fold (fun _ α n => parts α + n) 0 σ.
End parts.

(** Objects of type [k], wherever they are; heap blocks. *)
Definition of_type (k : otag) : ckind -> otag -> nat := fun _ k' => if decide (k' = k) then 1 else 0.
Definition in_block : ckind -> otag -> nat := fun place _ => if decide (place = KHeap) then 1 else 0.
Definition objects (C : cfg) (k : otag) (α : aval) : nat := parts C (of_type k) α.
Definition blocks (C : cfg) (α : aval) : nat := parts C in_block α.

(** ** Steps *)
(** The name [x] stands for [α]. *)
Definition stands (C : cfg) (E : env) (s : state) (x : name) (α : aval) : Prop :=
  match α with AVar tys k => sees C E s x tys k | AObj u v => sees_obj C E s x u v end.
(** The step constructs the objects of [α] and allocates its blocks, and no others, and destroys
    and releases nothing; the other way round. *)
Definition builds (C : cfg) (s s' : state) (α : aval) : Prop :=
  (forall k, made k (tr s') = made k (tr s) + objects C k α /\ gone k (tr s') = gone k (tr s)) /\
  news (tr s') = news (tr s) + blocks C α /\ dels (tr s') = dels (tr s).
Definition ruins (C : cfg) (s s' : state) (α : aval) : Prop :=
  (forall k, made k (tr s') = made k (tr s) /\ gone k (tr s') = gone k (tr s) + objects C k α) /\
  news (tr s') = news (tr s) /\ dels (tr s') = dels (tr s) + blocks C α.

(** Commands that make a new variable without converting; its name. *)
Definition maker (c : cmd) : option name :=
  match c with
  | CMake x _ _ _ | CDefault x _ | CCopy x _ | CMove x _ | CTake x _ _ | CChild x _ _ _ => Some x
  | _ => None
  end.
