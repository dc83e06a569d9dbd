(** Programs with variables of type boost::recursive_wrapper<T> beside the variants and
    objects of Client.v. Model. *)
From stdpp Require Import base gmap list numbers.
From Coq Require Import ZArith.
From Verif Require Import Base Types Variant Sem Values Client.

(** Wrapper variables: the type T and the address of the wrapper itself. They have names of
    their own; no file of /repo corresponds. *)
Definition wenv := gmap name (uid * loc).

(** Client commands on wrappers. Not library code: each stands for one use of
    recursive_wrapper.hpp:37-153. [PMain] is a command of Client.v. Simplification: operands
    of type T are variables of the program, not parts of the wrapper's own object. *)
Inductive wcmd :=
  | PMain (c : cmd)
  | PDefault (x : name) (u : uid)          (* recursive_wrapper<u> x;              :42, 108-112 *)
  | PCopy (x y : name)                     (* recursive_wrapper<u> x(y);           :44, 114-118 *)
  | PMove (x y : name)                     (* recursive_wrapper<u> x(move(y));     :48, 127-131 *)
  | PFrom (x y : name) (mv : bool)         (* recursive_wrapper<u> x(y), y a T;    :45, 49, 120-124, 133-137 *)
  | PAssign (x y : name)                   (* x = y;                               :58-62, 140-144 *)
  | PMoveAssign (x y : name)               (* x = move(y);                         :79-83 *)
  | PAssignFrom (x y : name) (mv : bool)   (* x = y, y a T;                        :64-68, 85-89 *)
  | PSwap (x y : name)                     (* x.swap(y), swap(x, y);               :70-75, 149-153 *)
  | PDrop (x : name)                       (* end of scope;                        :41, 102-106 *)
  | PGet (x : name)                        (* value of x.get();                    :94-98 *)
  | PTake (z x : name).                    (* T z(x.get());                        :94-98 *)

Section wrappers.
Context (C : cfg) (n : nat) (eqf ltf : uid -> uval -> uval -> bool).
Let S : usem := sem C n.

(** Assignment from a T (recursive_wrapper.hpp:64-68 with 140-144; 85-89 for rvalues): assigns
    to the object the wrapper points to. *)
Definition w_assign_from (u : uid) (l s : loc) (mv : bool) : M unit :=
  let! p := wrap_ptr u l in
  if mv then us_massign S u p s else us_cassign S u p s.

(** swap (recursive_wrapper.hpp:70-75; the free function at 149-153 calls it). Both are
    BOOST_NOEXCEPT. *)
Definition w_swap (u : uid) (l r : loc) : M unit :=
  noexcept (
    let! q := wrap_ptr u r in
    let! p := wrap_ptr u l in
    do! modify_obj r (OWrap u p) in
    modify_obj l (OWrap u q)).

(** Lookup of names; ill-typed programs fault. Not library code. *)
Definition need_wrap (F : wenv) (x : name) : M (uid * loc) :=
  match F !! x with Some f => ret f | None => faulty FIllTyped end.
Definition need_two (F : wenv) (x y : name) : M (uid * loc * loc) :=
  let! f := need_wrap F x in
  let! g := need_wrap F y in
  if decide (f.1 = g.1) then ret (f.1, f.2, g.2) else faulty FIllTyped.

(** A new automatic wrapper, constructed by [k]: it exists once its constructor has returned. *)
Definition new_wrap (F : wenv) (x : name) (u : uid) (k : loc -> M unit) : M wenv :=
  match F !! x with
  | None => let! a := stack_obj k in ret (<[x := (u, a)]> F)
  | _ => faulty FIllTyped
  end.

(** One command; the operations of recursive_wrapper are those of Variant.v ([i_copy] etc. at
    [IWrap u], recursive_wrapper.hpp:102-144). *)
Definition wop (E : env) (F : wenv) (c : wcmd) : M (env * wenv * out) :=
  match c with
  | PMain c => let! r := op C n eqf ltf E c in ret (r.1, F, r.2)
  | PDefault x u =>
      let! F' := new_wrap F x u (i_value S (IWrap u)) in ret (E, F', ODone)
  | PCopy x y =>
      let! g := need_wrap F y in
      let! F' := new_wrap F x g.1 (fun a => i_copy S (IWrap g.1) a g.2) in ret (E, F', ODone)
  | PMove x y =>
      let! g := need_wrap F y in
      let! F' := new_wrap F x g.1 (fun a => i_move S (IWrap g.1) a g.2) in ret (E, F', ODone)
  | PFrom x y mv =>
      let! q := need_obj E y in
      let! F' := new_wrap F x q.1 (fun a =>
        if mv then i_move_from S (IWrap q.1) a q.2 else i_copy_from S (IWrap q.1) a q.2) in
      ret (E, F', ODone)
  | PAssign x y =>
      let! r := need_two F x y in
      do! i_cassign S (IWrap r.1.1) r.1.2 r.2 in ret (E, F, ODone)
  | PMoveAssign x y =>
      let! r := need_two F x y in
      do! i_massign S (IWrap r.1.1) r.1.2 r.2 in ret (E, F, ODone)
  | PAssignFrom x y mv =>
      let! f := need_wrap F x in
      let! q := need_obj E y in
      if decide (q.1 = f.1) then do! w_assign_from f.1 f.2 q.2 mv in ret (E, F, ODone)
      else faulty FIllTyped
  | PSwap x y =>
      let! r := need_two F x y in
      do! w_swap r.1.1 r.1.2 r.2 in ret (E, F, ODone)
  | PDrop x =>
      let! f := need_wrap F x in
      do! i_destroy S (IWrap f.1) f.2 in
      do! drop_cell f.2 in ret (E, delete x F, ODone)
  | PGet x =>
      let! f := need_wrap F x in
      let! p := wrap_ptr f.1 f.2 in
      let! v := us_read S f.1 p in ret (E, F, OVal f.1 (erase v))
  | PTake z x =>
      do! need_fresh E z in
      let! f := need_wrap F x in
      let! p := wrap_ptr f.1 f.2 in
      let! a := stack_obj (fun a => us_copy S f.1 a p) in
      ret (<[z := BObj f.1 a]> E, F, ODone)
  end.

(** Result of a command, as [result] of Client.v. *)
Inductive wresult := WDone (E : env) (F : wenv) (o : out) (s : state) | WFaulted (f : fault).
Definition wexec (c : wcmd) (E : env) (F : wenv) (s : state) : wresult :=
  match wop E F c s with
  | Ok (E', F', o) s' => WDone E' F' o s'
  | Exn e s' => WDone E F (OThrew e) s'
  | Fault f => WFaulted f
  end.
End wrappers.
