(** What memory shows: decoding of memory into values.  Specification, independent of the
    library's own visitation code. *)
From stdpp Require Import base gmap list numbers.
From Coq Require Import ZArith.
From Verif Require Import Base Types Variant Values Client.

Section observe.
Context (C : cfg) (m : gmap loc cell).

(** The object in a heap block. *)
Definition heap_obj (p : loc) : option obj :=
  match m !! p with Some (Cell KHeap (Some o) None) => Some o | _ => None end.

(** The user object behind an object of bounded type [t]. *)
Definition content (t : ity) (o : obj) : option obj :=
  match t with
  | IPlain _ => Some o
  | IWrap u => match o with
               | OWrap u' p => if decide (u' = u) then heap_obj p else None
               | _ => None
               end
  end.

(** The variant at [a]: flag, index, value. The discriminator decides how to read it: a
    negative one, [-(i+1)], says that the storage holds a pointer to a heap copy. *)
Definition see_var (see : uid -> obj -> option uval) (tys : list ity) (a : loc) : option vval :=
  match m !! a with
  | Some (Cell KVar (Some o) (Some w)) =>
      let bk := bool_decide (w < 0)%Z in
      let i := Z.to_nat (if bk then (- w - 1)%Z else w) in
      match tys !! i with
      | Some t =>
          let o1 := if bk then
                      match o with
                      | OBackup t' (Some p) => if decide (t' = t) then heap_obj p else None
                      | _ => None
                      end
                    else Some o in
          match o1 with
          | Some o1 => match content t o1 with
                       | Some o2 => match see (ity_uid t) o2 with
                                    | Some v => Some (bk, i, v)
                                    | None => None
                                    end
                       | None => None
                       end
          | None => None
          end
      | None => None
      end
  | _ => None
  end.

Fixpoint see_all (f : list ity -> loc -> option vval) (mems : list (list ity)) (ls : list loc) : option (list vval) :=
  match mems, ls with
  | [], [] => Some []
  | tys :: mems', l :: ls' =>
      match f tys l, see_all f mems' ls' with
      | Some k, Some ks => Some (k :: ks)
      | _, _ => None
      end
  | _, _ => None
  end.

(** A user object of type [u], at most [n] deep. *)
Fixpoint see_obj (n : nat) (u : uid) (o : obj) : option uval :=
  match n with
  | 0 => None
  | S n' =>
      match o with
      | OUser u' z ls =>
          if decide (u' = u) then
            match see_all (see_var (see_obj n')) (ut_members (te C u)) ls with
            | Some ks => Some (UV z ks)
            | None => None
            end
          else None
      | _ => None
      end
  end.

(** The variant at [a] with bounded types [tys] holds [k]; the object at [a] is a [u] with
    value [v]. *)
Definition var_holds (tys : list ity) (a : loc) (k : vval) : Prop :=
  exists n, see_var (see_obj n) tys a = Some k.
Definition obj_holds (u : uid) (a : loc) (v : uval) : Prop :=
  exists o n, m !! a = Some (Cell KStk (Some o) None) /\ see_obj n u o = Some v.

(** The content of the variant at [a] is the object at [l]: in the variant's storage, where a
    recursive_wrapper there points to, or the same in the heap block of a backup. *)
Definition content_in (o : obj) (here l : loc) : Prop :=
  match o with
  | OUser _ _ _ => l = here
  | OWrap _ p => l = p
  | _ => False
  end.
Definition stored_at (a l : loc) : Prop :=
  exists o w, m !! a = Some (Cell KVar (Some o) (Some w)) /\
    match o with
    | OBackup _ (Some p) => exists o', m !! p = Some (Cell KHeap (Some o') None) /\ content_in o' p l
    | _ => content_in o a l
    end.

End observe.

(** ** Abstract states: what each name of a program stands for *)
Inductive aval := AVar (tys : list ity) (k : vval) | AObj (u : uid) (v : uval).
Definition astate := gmap name aval.

(** The abstract state that memory shows. *)
Definition shows (C : cfg) (m : gmap loc cell) (E : env) (σ : astate) : Prop :=
  forall x, match E !! x, σ !! x with
            | Some (BVar tys a), Some (AVar tys' k) => tys' = tys /\ var_holds C m tys a k
            | Some (BObj u a), Some (AObj u' v) => u' = u /\ obj_holds C m u a v
            | None, None => True
            | _, _ => False
            end.
