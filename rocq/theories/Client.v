(** Client programs: sequences of library calls on named variants and named user objects.

    This file is the harness around the library model: it models no particular function of
    the library, but every way a program can call the functions of Variant.v. Exceptions are
    caught after each command, so that histories go on after a failure. *)
From stdpp Require Import base gmap list numbers.
From Coq Require Import ZArith.
From Verif Require Import Base Types Dispatch Variant Sem Values.

Definition name := nat.

(** What a name stands for: a variant with its bounded types, or an object of a user type. *)
Inductive bnd := BVar (tys : list ity) (a : loc) | BObj (u : uid) (a : loc).
Definition env := gmap name bnd.

(** Commands.  [mv]: the operand is an rvalue.
    - [CMake x u z ms]: object [x] of type [u] with data [z], its member variants
      copy-constructed from the variants [ms];
    - [CDrop x]: end of life of [x];
    - [CDefault x tys], [CFrom x tys y mv], [CCopy x y], [CMove x y],
      [CConvert x tys y mv]: construct a variant [x];
    - [CAssign x y], [CMoveAssign x y], [CAssignFrom x y mv], [CAssignConvert x y mv],
      [CSwap x y]: assign to variant [x] from a variant, an object, a foreign variant; swap;
    - [CPoke x u y]: get<u>(x) = y;
    - [CTake z x u]: object [z] copy-constructed from get<u>(x);
    - [CChild z x u j]: variant [z] copy-constructed from the [j]-th member of get<u>(x);
    - [CSetChild x u j y]: assign variant [y] to the [j]-th member of get<u>(x);
    - queries: which(), visit and read, get (pointer), get (reference), type(), ==, <. *)
Inductive cmd :=
  | CMake (x : name) (u : uid) (z : Z) (ms : list name)
  | CDrop (x : name)
  | CDefault (x : name) (tys : list ity)
  | CFrom (x : name) (tys : list ity) (y : name) (mv : bool)
  | CCopy (x y : name)
  | CMove (x y : name)
  | CConvert (x : name) (tys : list ity) (y : name) (mv : bool)
  | CAssign (x y : name)
  | CMoveAssign (x y : name)
  | CAssignFrom (x y : name) (mv : bool)
  | CAssignConvert (x y : name) (mv : bool)
  | CSwap (x y : name)
  | CPoke (x : name) (u : uid) (y : name)
  | CTake (z x : name) (u : uid)
  | CChild (z x : name) (u : uid) (j : nat)
  | CSetChild (x : name) (u : uid) (j : nat) (y : name)
  | CWhich (x : name)
  | CRead (x : name)
  | CGet (x : name) (u : uid)
  | CGetRef (x : name) (u : uid)
  | CType (x : name)
  | CEq (x y : name)
  | CLt (x y : name).

(** What a command tells its caller. Values are seen without the backup flags: a visitor
    cannot tell. *)
Inductive out :=
  | ODone
  | OThrew (e : exn)
  | OWhich (z : Z)
  | OVal (u : uid) (v : uval)
  | OGet (v : option uval)
  | OType (u : uid)
  | OBool (b : bool).

Section client.
Context (C : cfg) (n : nat) (eqf ltf : uid -> uval -> uval -> bool).
Let S : usem := sem C n.

Definition need_var (E : env) (x : name) : M (list ity * loc) :=
  match E !! x with Some (BVar tys a) => ret (tys, a) | _ => faulty FIllTyped end.
Definition need_obj (E : env) (x : name) : M (uid * loc) :=
  match E !! x with Some (BObj u a) => ret (u, a) | _ => faulty FIllTyped end.
Definition need_fresh (E : env) (x : name) : M unit :=
  match E !! x with None => ret tt | _ => faulty FIllTyped end.
Definition need (b : bool) : M unit := if b then ret tt else faulty FIllTyped.

Fixpoint need_vars (E : env) (xs : list name) : M (list loc) :=
  match xs with
  | [] => ret []
  | x :: xs' => let! p := need_var E x in
                let! r := need_vars E xs' in
                ret (p.2 :: r)
  end.

(** A new named variant, constructed by [k]. *)
Definition new_var (E : env) (x : name) (tys : list ity) (k : loc -> M unit) : M (env * out) :=
  do! need_fresh E x in
  let! a := local_variant k in
  ret (<[x := BVar tys a]> E, ODone).

(** Address of the [j]-th member variant of the object at [l]. *)
Definition member (u : uid) (l : loc) (j : nat) : M (list ity * loc) :=
  let! r := expect_user u l in
  match ut_members (te C u) !! j, r.2 !! j with
  | Some tys, Some a => ret (tys, a)
  | _, _ => faulty FIllTyped
  end.

Definition op (E : env) (c : cmd) : M (env * out) :=
  match c with
  | CMake x u z ms =>
      do! need_fresh E x in
      let! as_ := need_vars E ms in
      let! a := stack_obj (fun a =>
        do! maybe_throw OpMake u false in
        let! ls := make_members C S (fun tys b d => var_copy C S tys d b) (ut_members (te C u)) as_ in
        construct a (OUser u (Some z) ls)) in
      ret (<[x := BObj u a]> E, ODone)
  | CDrop x =>
      match E !! x with
      | Some (BVar tys a) => do! var_destroy C S tys a in
                             do! drop_cell a in
                             ret (delete x E, ODone)
      | Some (BObj u a) => do! us_destroy S u a in
                           do! drop_cell a in
                           ret (delete x E, ODone)
      | None => faulty FIllTyped
      end
  | CDefault x tys => new_var E x tys (var_default C S tys)
  | CFrom x tys y mv =>
      let! p := need_obj E y in
      new_var E x tys (fun a => var_from C S tys a p.1 p.2 mv)
  | CCopy x y =>
      let! p := need_var E y in
      new_var E x p.1 (fun a => var_copy C S p.1 a p.2)
  | CMove x y =>
      let! p := need_var E y in
      new_var E x p.1 (fun a => var_move C S p.1 a p.2)
  | CConvert x tys y mv =>
      let! p := need_var E y in
      new_var E x tys (fun a => var_convert C S tys a p.1 p.2 mv)
  | CAssign x y =>
      let! p := need_var E x in
      let! q := need_var E y in
      do! var_assign C S p.1 p.2 q.2 in
      ret (E, ODone)
  | CMoveAssign x y =>
      let! p := need_var E x in
      let! q := need_var E y in
      do! var_massign C S p.1 p.2 q.2 in
      ret (E, ODone)
  | CAssignFrom x y mv =>
      let! p := need_var E x in
      let! q := need_obj E y in
      do! var_assign_from C S p.1 p.2 q.1 q.2 mv in
      ret (E, ODone)
  | CAssignConvert x y mv =>
      let! p := need_var E x in
      let! q := need_var E y in
      do! var_assign_convert C S p.1 p.2 q.1 q.2 mv in
      ret (E, ODone)
  | CSwap x y =>
      let! p := need_var E x in
      let! q := need_var E y in
      do! var_swap C S p.1 p.2 q.2 in
      ret (E, ODone)
  | CPoke x u y =>
      let! p := need_var E x in
      let! q := need_obj E y in
      do! var_poke C S p.1 p.2 u q.2 in
      ret (E, ODone)
  | CTake z x u =>
      do! need_fresh E z in
      let! p := need_var E x in
      let! l := var_get_ref C p.1 p.2 u in
      let! a := stack_obj (fun a => us_copy S u a l) in
      ret (<[z := BObj u a]> E, ODone)
  | CChild z x u j =>
      let! p := need_var E x in
      let! l := var_get_ref C p.1 p.2 u in
      let! q := member u l j in
      new_var E z q.1 (fun a => var_copy C S q.1 a q.2)
  | CSetChild x u j y =>
      let! p := need_var E x in
      let! q := need_var E y in
      let! l := var_get_ref C p.1 p.2 u in
      let! m := member u l j in
      do! var_assign C S m.1 m.2 q.2 in
      ret (E, ODone)
  | CWhich x =>
      let! p := need_var E x in
      let! w := which p.2 in
      ret (E, OWhich w)
  | CRead x =>
      let! p := need_var E x in
      let! r := var_read C S p.1 p.2 in
      ret (E, OVal r.1 (erase r.2))
  | CGet x u =>
      let! p := need_var E x in
      let! r := var_get C p.1 p.2 u in
      match r with
      | Some l => let! v := us_read S u l in ret (E, OGet (Some (erase v)))
      | None => ret (E, OGet None)
      end
  | CGetRef x u =>
      let! p := need_var E x in
      let! l := var_get_ref C p.1 p.2 u in
      let! v := us_read S u l in
      ret (E, OVal u (erase v))
  | CType x =>
      let! p := need_var E x in
      let! u := var_type C p.1 p.2 in
      ret (E, OType u)
  | CEq x y =>
      let! p := need_var E x in
      let! q := need_var E y in
      let! b := var_eq C S p.1 (fun u v w => eqf u (erase v) (erase w)) p.2 q.2 in
      ret (E, OBool b)
  | CLt x y =>
      let! p := need_var E x in
      let! q := need_var E y in
      let! b := var_lt C S p.1 (fun u v w => ltf u (erase v) (erase w)) p.2 q.2 in
      ret (E, OBool b)
  end.

(** Result of a command: an outcome, or a fault. *)
Inductive result := Done (E : env) (o : out) (s : state) | Faulted (f : fault).

Definition exec (c : cmd) (E : env) (s : state) : result :=
  match op E c s with
  | Ok (E', o) s' => Done E' o s'
  | Exn e s' => Done E (OThrew e) s'
  | Fault f => Faulted f
  end.

(** A whole history; the first fault ends it. *)
Fixpoint run (h : list cmd) (E : env) (s : state) : result * list out :=
  match h with
  | [] => (Done E ODone s, [])
  | c :: h' => match exec c E s with
               | Done E' o s' => let r := run h' E' s' in (r.1, o :: r.2)
               | Faulted f => (Faulted f, [])
               end
  end.

End client.

(** Start of a program. *)
Definition init (orc : nat -> Z) : state :=
  {| mem := ∅; nxt := 1%positive; tr := []; thrown := []; orc := orc; opos := 0; ind := false |}.
