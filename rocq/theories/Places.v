(** Programs that hold references into contents: to the member variants of the object that a
    variant contains, at any depth, beside the variants and objects of Client.v. Model. *)
From stdpp Require Import base gmap list numbers.
From Coq Require Import ZArith.
From Verif Require Import Base Types Variant Sem Values Client.

(** Variables that are set aside while references to their parts are in use: what the name
    stands for, and the references with what they refer to. Not library code. *)
Definition kenv := gmap name (bnd * list (name * bnd)).

Global Instance bnd_eq_dec : EqDecision bnd.
Proof. solve_decision. Defined.

(** Commands. Not library code: uses of get (get.hpp:154-188) and of references.
    - [ROpen x u rs]: references [rs] to all member variants of the object get<u>(x), or of the
      object [x] of type [u];
    - [RClose x]: end of the references' scope; nothing is executed;
    - [RFromGet x tys y u mv]: variant<tys> x(get<u>(y)), with std::move if [mv];
    - [RAssignGet x y u mv]: x = get<u>(y), with std::move if [mv];
    - [RPokeGet x u y]: get<u>(x) = get<u>(y).
    Simplification: between [ROpen x] and [RClose x] the program does not use [x] itself. *)
Inductive rcmd :=
  | RMain (c : cmd)
  | ROpen (x : name) (u : uid) (rs : list name)
  | RClose (x : name)
  | RFromGet (x : name) (tys : list ity) (y : name) (u : uid) (mv : bool)
  | RAssignGet (x y : name) (u : uid) (mv : bool)
  | RPokeGet (x : name) (u : uid) (y : name).

(** The name a command declares. *)
Definition declares (c : cmd) : option name :=
  match c with
  | CMake x _ _ _ | CDefault x _ | CFrom x _ _ _ | CCopy x _ | CMove x _ | CConvert x _ _ _
  | CTake x _ _ | CChild x _ _ _ => Some x
  | _ => None
  end.
(** [r] is a reference. *)
Definition is_ref (K : kenv) (r : name) : Prop :=
  map_Exists (fun _ f => r ∈ f.2.*1) K.
Global Instance is_ref_dec K r : Decision (is_ref K r).
Proof. unfold is_ref. apply _. Defined.

(** Compile time checks: names of variables that are set aside stay taken; references are not
    destroyed. Not library code. *)
Definition allowed (K : kenv) (c : cmd) : Prop :=
  match declares c with Some x => K !! x = None | None => True end /\
  match c with CDrop r => ~ is_ref K r | _ => True end.
Global Instance allowed_dec K c : Decision (allowed K c).
Proof. unfold allowed. repeat case_match; apply _. Defined.

Section places.
Context (C : cfg) (n : nat) (eqf ltf : uid -> uval -> uval -> bool).
Let S : usem := sem C n.

(** The object whose members are referred to: get.hpp:154-188 for a variant. *)
Definition opened (b : bnd) (u : uid) : M loc :=
  match b with
  | BVar tys a => var_get_ref C tys a u
  | BObj u' a => if decide (u' = u) then ret a else faulty FIllTyped
  end.
(** New names. *)
Definition unused (E : env) (K : kenv) (rs : list name) : Prop :=
  NoDup rs /\ Forall (fun r => E !! r = None /\ K !! r = None) rs.
(** Every reference of a list is there, and refers to what it was bound to. *)
Definition all_bound (E : env) (l : list (name * bnd)) : Prop :=
  Forall (fun p => E !! p.1 = Some p.2) l.
Global Instance unused_dec E K rs : Decision (unused E K rs).
Proof. unfold unused. apply _. Defined.
Global Instance all_bound_dec E l : Decision (all_bound E l).
Proof. unfold all_bound. apply _. Defined.

(** One command. The operand of the last three is an object inside a variant
    (variant.hpp:1431-1469, 1589-1631, 1963-1997, 2001-2028, with get.hpp:154-188). *)
Definition rop (E : env) (K : kenv) (c : rcmd) : M (env * kenv * out) :=
  match c with
  | RMain c =>
      do! need (bool_decide (allowed K c)) in
      let! r := op C n eqf ltf E c in ret (r.1, K, r.2)
  | ROpen x u rs =>
      match E !! x with
      | Some b =>
          let! l := opened b u in
          let! r := expect_user u l in
          let refs := zip rs (zip_with BVar (ut_members (te C u)) r.2) in
          do! need (bool_decide (unused E K rs /\ length rs = length (ut_members (te C u)))) in
          ret (list_to_map refs ∪ delete x E, <[x := (b, refs)]> K, ODone)
      | None => faulty FIllTyped
      end
  | RClose x =>
      match K !! x with
      | Some (b, refs) =>
          do! need (bool_decide (all_bound E refs)) in
          ret (<[x := b]> (foldr delete E refs.*1), delete x K, ODone)
      | None => faulty FIllTyped
      end
  | RFromGet x tys y u mv =>
      do! need (bool_decide (K !! x = None)) in
      let! q := need_var E y in
      let! l := var_get_ref C q.1 q.2 u in
      let! r := new_var E x tys (fun a => var_from C S tys a u l mv) in
      ret (r.1, K, r.2)
  | RAssignGet x y u mv =>
      let! p := need_var E x in
      let! q := need_var E y in
      let! l := var_get_ref C q.1 q.2 u in
      do! var_assign_from C S p.1 p.2 u l mv in
      ret (E, K, ODone)
  | RPokeGet x u y =>
      let! p := need_var E x in
      let! q := need_var E y in
      let! l := var_get_ref C q.1 q.2 u in
      do! var_poke C S p.1 p.2 u l in
      ret (E, K, ODone)
  end.

(** Result of a command, as [result] of Client.v. *)
Inductive rresult := RDone (E : env) (K : kenv) (o : out) (s : state) | RFaulted (f : fault).
Definition rexec (c : rcmd) (E : env) (K : kenv) (s : state) : rresult :=
  match rop E K c s with
  | Ok (E', K', o) s' => RDone E' K' o s'
  | Exn e s' => RDone E K (OThrew e) s'
  | Fault f => RFaulted f
  end.
End places.
