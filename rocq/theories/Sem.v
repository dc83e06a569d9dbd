(** Semantics of user types, in levels.

    A user type has data (one number) and member variants ([ut_members]). Its special
    member functions are the memberwise ones that a compiler generates, except that the
    type's own part may throw (first, before any member is touched) unless the trait says it
    does not; a moved-from or half-assigned object keeps an arbitrary value (oracle). A type may
    have a swap of its own, which exchanges memberwise; its own part may throw likewise.

    [sem n] handles objects nested up to [n] levels of member variants below; deeper ones
    are [FFuel] faults. *)
From stdpp Require Import base gmap list numbers.
From Coq Require Import ZArith.
From Verif Require Import Base Types Dispatch Variant.

(** No user types at all: below level 0. *)
Definition usem_stuck : usem := {|
  us_value := fun _ _ => faulty FFuel;
  us_definit := fun _ _ => faulty FFuel;
  us_copy := fun _ _ _ => faulty FFuel;
  us_move := fun _ _ _ => faulty FFuel;
  us_cassign := fun _ _ _ => faulty FFuel;
  us_massign := fun _ _ _ => faulty FFuel;
  us_swap := fun _ _ _ => faulty FFuel;
  us_destroy := fun _ _ => faulty FFuel;
  us_read := fun _ _ => faulty FFuel
|}.

(** Access to a user object at its type. *)
Definition expect_user (u : uid) (l : loc) : M (option Z * list loc) :=
  let! o := get_obj l in
  match o with
  | OUser u' z ks => if decide (u' = u) then ret (z, ks) else faulty FTypeConfusion
  | _ => faulty FTypeConfusion
  end.

Section sem.
Context (C : cfg) (S : usem).

(** Construction of the member variants in declaration order by [mk]; if one throws, those
    already constructed are destroyed in reverse order. *)
Fixpoint make_members {B} (mk : list ity -> B -> loc -> M unit)
    (mems : list (list ity)) (bs : list B) : M (list loc) :=
  match mems, bs with
  | [], [] => ret []
  | tys :: mems', b :: bs' =>
      let! k := local_variant (mk tys b) in
      let! ks := on_exn (make_members mk mems' bs')
                        (do! var_destroy C S tys k in drop_cell k) in
      ret (k :: ks)
  | _, _ => faulty FIllTyped
  end.

(** Destruction in reverse order. *)
Fixpoint destroy_members (mems : list (list ity)) (ks : list loc) : M unit :=
  match mems, ks with
  | [], [] => ret tt
  | tys :: mems', k :: ks' =>
      do! destroy_members mems' ks' in
      do! var_destroy C S tys k in
      drop_cell k
  | _, _ => faulty FIllTyped
  end.

(** Memberwise assignment. *)
Fixpoint assign_members (f : list ity -> loc -> loc -> M unit)
    (mems : list (list ity)) (ls rs : list loc) : M unit :=
  match mems, ls, rs with
  | [], [], [] => ret tt
  | tys :: mems', l :: ls', r :: rs' =>
      do! f tys l r in
      assign_members f mems' ls' rs'
  | _, _, _ => faulty FIllTyped
  end.

(** Reading the members: flag (in backup), index, value. *)
Fixpoint read_members (mems : list (list ity)) (ks : list loc) : M (list (bool * nat * uval)) :=
  match mems, ks with
  | [], [] => ret []
  | tys :: mems', k :: ks' =>
      let! w := read_which k in
      let! uv := var_read C S tys k in
      let! r := read_members mems' ks' in
      ret ((bool_decide (w < 0)%Z, Z.to_nat (which_of w), uv.2) :: r)
  | _, _ => faulty FIllTyped
  end.

(** `T()`: value-initialisation. *)
Definition u_value (u : uid) (d : loc) : M unit :=
  do! maybe_throw OpDefault u (nt_default (te C u)) in
  let! ks := make_members (fun tys _ k => var_default C S tys k)
               (ut_members (te C u)) (map (fun _ => tt) (ut_members (te C u))) in
  construct d (OUser u (Some (dv C u)) ks).

(** `T` in a new-expression: default-initialisation. *)
Definition u_definit (u : uid) (d : loc) : M unit :=
  match ut_init (te C u) with
  | DITriv => construct d (OUser u None [])
  | DIUser | DIEmpty => u_value u d
  end.

(** T(const T&) *)
Definition u_copy (u : uid) (d s : loc) : M unit :=
  let! (z, ks) := expect_user u s in
  do! maybe_throw OpCopy u (nt_copy (te C u)) in
  do! note_read z in
  let! ks' := make_members (fun tys k k' => var_copy C S tys k' k) (ut_members (te C u)) ks in
  construct d (OUser u z ks').

(** The value that an operation leaves behind in an object it has moved from or failed to
    assign to: chosen by the oracle. *)
Definition scramble (u : uid) (l : loc) : M unit :=
  let! (_, ks) := expect_user u l in
  let! j := choose in
  modify_obj l (OUser u (Some j) ks).

(** T(T&&) *)
Definition u_move (u : uid) (d s : loc) : M unit :=
  let! (z, ks) := expect_user u s in
  do! on_exn (maybe_throw OpMove u (nt_move (te C u))) (scramble u s) in
  do! note_read z in
  let! ks' := on_exn
    (make_members (fun tys k k' => var_move C S tys k' k) (ut_members (te C u)) ks)
    (scramble u s) in
  do! scramble u s in
  construct d (OUser u z ks').

(** operator=(const T&) *)
Definition u_cassign (u : uid) (l r : loc) : M unit :=
  let! (_, ls) := expect_user u l in
  let! (z, rs) := expect_user u r in
  do! on_exn (maybe_throw OpCopyAssign u (nt_cassign (te C u))) (scramble u l) in
  do! note_read z in
  do! modify_obj l (OUser u z ls) in
  assign_members (var_assign C S) (ut_members (te C u)) ls rs.

(** operator=(T&&) *)
Definition u_massign (u : uid) (l r : loc) : M unit :=
  let! (_, ls) := expect_user u l in
  let! (z, rs) := expect_user u r in
  do! on_exn (maybe_throw OpMoveAssign u (nt_massign (te C u))) (do! scramble u l in scramble u r) in
  do! note_read z in
  do! modify_obj l (OUser u z ls) in
  do! scramble u r in
  assign_members (var_massign C S) (ut_members (te C u)) ls rs.

(** ~T() *)
Definition u_destroy (u : uid) (l : loc) : M unit :=
  let! (_, ks) := expect_user u l in
  do! destroy_members (ut_members (te C u)) ks in
  destruct_obj l.

(** std::swap, which move_swap (detail/move.hpp:38-43) falls back to. *)
Definition std_swap (move massign : loc -> loc -> M unit) (destroy : loc -> M unit) (l r : loc) : M unit :=
  scoped (stack_obj (fun x => move x l)) destroy (fun x =>
    do! massign l r in
    massign r x).

(** A swap of the type's own: exchanges the data, then the members (variant.hpp:2290-2301). *)
Definition own_swap (nothrow : bool) (u : uid) (l r : loc) : M unit :=
  let! (z1, ls) := expect_user u l in
  let! (z2, rs) := expect_user u r in
  do! on_exn (maybe_throw OpSwap u nothrow) (do! scramble u l in scramble u r) in
  do! note_read z1 in
  do! note_read z2 in
  do! modify_obj l (OUser u z2 ls) in
  do! modify_obj r (OUser u z1 rs) in
  assign_members (var_swap C S) (ut_members (te C u)) ls rs.

Definition u_swap (u : uid) (l r : loc) : M unit :=
  match ut_swap (te C u) with
  | Some b => own_swap b u l r
  | None => std_swap (u_move u) (u_massign u) (u_destroy u) l r
  end.

(** Reading the whole value. *)
Definition u_read (u : uid) (l : loc) : M uval :=
  let! (z, ks) := expect_user u l in
  do! note_read z in
  let! vs := read_members (ut_members (te C u)) ks in
  ret (UV z vs).

Definition sem_step : usem := {|
  us_value := u_value;
  us_definit := u_definit;
  us_copy := u_copy;
  us_move := u_move;
  us_cassign := u_cassign;
  us_massign := u_massign;
  us_swap := u_swap;
  us_destroy := u_destroy;
  us_read := u_read
|}.

End sem.

Fixpoint sem (C : cfg) (n : nat) : usem :=
  match n with
  | 0 => sem_step C usem_stuck
  | S n' => sem_step C (sem C n')
  end.
