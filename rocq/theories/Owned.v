(** Which addresses a named variant or object owns, found by following the pointers in
    memory. Specification, independent of the library's own code and of the proofs'
    ownership predicates. *)
From stdpp Require Import base gmap list numbers.
From Coq Require Import ZArith.
From Verif Require Import Base Types Variant Values Client Observe.

Section owned.
Context (C : cfg) (m : gmap loc cell).

(** What an object [o] of bounded type [t] owns outside itself: a wrapper owns its block and
    what the object in it owns. *)
Definition owned_by (f : uid -> obj -> option (list loc)) (t : ity) (o : obj) : option (list loc) :=
  match t with
  | IPlain u => f u o
  | IWrap u => match o with
               | OWrap _ p => match heap_obj m p with
                              | Some o' => match f u o' with Some ls => Some (p :: ls) | None => None end
                              | None => None
                              end
               | _ => None
               end
  end.

(** A variant owns its own storage, its backup block if it is in backup state, and what its
    content owns. *)
Definition owned_var (f : uid -> obj -> option (list loc)) (tys : list ity) (a : loc) : option (list loc) :=
  match m !! a with
  | Some (Cell _ (Some o) (Some w)) =>
      if bool_decide (w < 0)%Z then
        match tys !! Z.to_nat (- w - 1), o with
        | Some t, OBackup _ (Some p) =>
            match heap_obj m p with
            | Some o' => match owned_by f t o' with Some ls => Some (a :: p :: ls) | None => None end
            | None => None
            end
        | _, _ => None
        end
      else
        match tys !! Z.to_nat w with
        | Some t => match owned_by f t o with Some ls => Some (a :: ls) | None => None end
        | None => None
        end
  | _ => None
  end.

Fixpoint owned_all (f : list ity -> loc -> option (list loc)) (mems : list (list ity)) (ls : list loc) : option (list loc) :=
  match mems, ls with
  | [], [] => Some []
  | tys :: mems', l :: ls' =>
      match f tys l, owned_all f mems' ls' with
      | Some r, Some rs => Some (r ++ rs)
      | _, _ => None
      end
  | _, _ => None
  end.

(** A user object owns what its member variants own. At most [n] deep. *)
Fixpoint owned_obj (n : nat) (u : uid) (o : obj) : option (list loc) :=
  match n with
  | 0 => None
  | S n' => match o with
            | OUser _ _ ls => owned_all (owned_var (owned_obj n')) (ut_members (te C u)) ls
            | _ => None
            end
  end.

(** What a name owns. *)
Definition owned_bnd (n : nat) (b : bnd) : option (list loc) :=
  match b with
  | BVar tys a => owned_var (owned_obj n) tys a
  | BObj u a => match m !! a with
                | Some (Cell _ (Some o) _) =>
                    match owned_obj n u o with Some ls => Some (a :: ls) | None => None end
                | _ => None
                end
  end.

(** The names between them own all of memory, and no address twice: ownership is a forest
    rooted in the program's variables. *)
Definition forest (E : env) : Prop :=
  exists n lss,
    mapM (fun p : name * bnd => owned_bnd n p.2) (map_to_list E) = Some lss /\
    NoDup (concat lss) /\
    forall l, is_Some (m !! l) <-> l ∈ concat lss.

End owned.
