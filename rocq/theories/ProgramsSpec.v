(** Which programs compile. Specification: by types alone. *)
From stdpp Require Import base gmap list numbers.
From Coq Require Import ZArith.
From Verif Require Import Base Types Variant Values Client Observe Spec Places PlacesSpec Programs.

(** What the compiler knows of a name: the types of a variant, the type of an object. *)
Inductive vty := TVar (tys : list ity) | TObj (u : uid).
Definition ctx := gmap name vty.
Definition bnd_ty (b : bnd) : vty := match b with BVar tys _ => TVar tys | BObj u _ => TObj u end.

Section typing.
Context (C : cfg) (st nb : bool).

(** Expressions that neither declare nor destroy anything. An operand that is part of its target
    is excluded by name (C18): x <> y where [y] is read inside [x]'s contents. *)
Definition checks (Γ : ctx) (c : rcmd) : Prop :=
  match c with
  | RMain (CAssign x y) | RMain (CMoveAssign x y) | RMain (CSwap x y) | RMain (CEq x y) | RMain (CLt x y) =>
      exists tys, Γ !! x = Some (TVar tys) /\ Γ !! y = Some (TVar tys)
  | RMain (CAssignFrom x y mv) =>
      exists tys u i, Γ !! x = Some (TVar tys) /\ Γ !! y = Some (TObj u) /\ best_match C tys u i
  | RMain (CAssignConvert x y mv) => x <> y /\ exists tys tys2, Γ !! x = Some (TVar tys) /\ Γ !! y = Some (TVar tys2) /\
      forall t, t ∈ tys2 -> exists i, best_match C tys (ity_uid t) i
  | RMain (CPoke x u y) => exists tys, Γ !! x = Some (TVar tys) /\ Γ !! y = Some (TObj u)
  | RMain (CSetChild x u j y) => x <> y /\ exists tys tys',
      Γ !! x = Some (TVar tys) /\ ut_members (te C u) !! j = Some tys' /\ Γ !! y = Some (TVar tys')
  | RMain (CWhich x) | RMain (CRead x) | RMain (CType x) | RMain (CGet x _) | RMain (CGetRef x _) =>
      exists tys, Γ !! x = Some (TVar tys)
  | RAssignGet x y u mv => x <> y /\ exists tys tys2 i, Γ !! x = Some (TVar tys) /\ Γ !! y = Some (TVar tys2) /\ best_match C tys u i
  | RPokeGet x u y => x <> y /\ exists tys tys2, Γ !! x = Some (TVar tys) /\ Γ !! y = Some (TVar tys2)
  | _ => False
  end.

(** Declarations: the name and its type. *)
Definition declaration (Γ : ctx) (c : rcmd) (x : name) (t : vty) : Prop :=
  match c with
  | RMain (CMake z u _ ms) => z = x /\ t = TObj u /\ Forall2 (fun y tys => Γ !! y = Some (TVar tys)) ms (ut_members (te C u))
  | RMain (CDefault z tys) => z = x /\ t = TVar tys /\ good_tys C st nb tys /\
      exists D t0 r v, tys = t0 :: r /\ idefval C D t0 = Some v /\ (st = true -> determinate v = true)
  | RMain (CFrom z tys y mv) => z = x /\ t = TVar tys /\ good_tys C st nb tys /\
      exists u i, Γ !! y = Some (TObj u) /\ best_match C tys u i
  | RMain (CCopy z y) | RMain (CMove z y) => z = x /\ exists tys, t = TVar tys /\ Γ !! y = Some (TVar tys)
  | RMain (CConvert z tys y mv) => z = x /\ t = TVar tys /\ good_tys C st nb tys /\
      exists tys2, Γ !! y = Some (TVar tys2) /\ forall t, t ∈ tys2 -> exists i, best_match C tys (ity_uid t) i
  | RMain (CTake z y u) => z = x /\ t = TObj u /\ exists tys, Γ !! y = Some (TVar tys)
  | RMain (CChild z y u j) => z = x /\ exists tys tys', t = TVar tys' /\ Γ !! y = Some (TVar tys) /\ ut_members (te C u) !! j = Some tys'
  | RFromGet z tys y u mv => z = x /\ t = TVar tys /\ good_tys C st nb tys /\
      (exists i, best_match C tys u i) /\ exists tys2, Γ !! y = Some (TVar tys2)
  | _ => False
  end.

(** The names in [T] are taken: variables that visitors higher up visit. *)
Fixpoint compiles (Γ : ctx) (T : gset name) (p : prog) : Prop :=
  match p with
  | PSkip => True
  | PDo c => checks Γ c
  | PLet c p => exists x t, declaration Γ c x t /\ Γ !! x = None /\ x ∉ T /\ compiles (<[x := t]> Γ) T p
  | PSeq p q | PTry p q => compiles Γ T p /\ compiles Γ T q
  | PVisit x rs ps => exists tys, Γ !! x = Some (TVar tys) /\ forall t, t ∈ tys ->
      let u := ity_uid t in
      NoDup (rs u) /\ length (rs u) = length (ut_members (te C u)) /\ (forall r, r ∈ rs u -> Γ !! r = None /\ r ∉ T) /\
      compiles (list_to_map (zip (rs u) (TVar <$> ut_members (te C u))) ∪ delete x Γ) ({[x]} ∪ T) (ps u)
  | PSwitch x ps => exists tys, Γ !! x = Some (TVar tys) /\ forall t, t ∈ tys -> compiles Γ T (ps (ity_uid t))
  | PWhile x y p => (exists tys, Γ !! x = Some (TVar tys) /\ Γ !! y = Some (TVar tys)) /\ compiles Γ T p
  | PHang => True
  end.
End typing.

Fixpoint loop_free (p : prog) : Prop :=
  match p with
  | PSkip | PDo _ => True
  | PLet _ p => loop_free p
  | PSeq p q | PTry p q => loop_free p /\ loop_free q
  | PVisit _ _ ps | PSwitch _ ps => forall u, loop_free (ps u)
  | PWhile _ _ _ | PHang => False
  end.

(** A run: however many rounds [m] loops are given, with enough nested calls the program ends,
    normally or by an exception, or is still in a loop. *)
Definition proceeds (C : cfg) (eqf ltf : uid -> uval -> uval -> bool) (p : prog) (m : nat) (E : env) (K : kenv) (s : state) (r : presult) : Prop :=
  exists n0, forall n, n0 <= n -> prun C n m eqf ltf p E K s = r.

(** [c] is executed, in this state, in the course of [p]: the commands of [PDo], with at most [n]
    nested calls. *)
Inductive issues (C : cfg) (n m : nat) (eqf ltf : uid -> uval -> uval -> bool) : prog -> env -> kenv -> state -> rcmd -> env -> kenv -> state -> Prop :=
  | i_do c E K s : issues C n m eqf ltf (PDo c) E K s c E K s
  | i_let c p E K s E1 K1 s1 c' E' K' s' :
      presult_of (rexec C n eqf ltf c E K s) = PRet E1 K1 s1 ->
      issues C n m eqf ltf p E1 K1 s1 c' E' K' s' -> issues C n m eqf ltf (PLet c p) E K s c' E' K' s'
  | i_seq_l p q E K s c' E' K' s' :
      issues C n m eqf ltf p E K s c' E' K' s' -> issues C n m eqf ltf (PSeq p q) E K s c' E' K' s'
  | i_seq_r p q E K s E1 K1 s1 c' E' K' s' :
      prun C n m eqf ltf p E K s = PRet E1 K1 s1 ->
      issues C n m eqf ltf q E1 K1 s1 c' E' K' s' -> issues C n m eqf ltf (PSeq p q) E K s c' E' K' s'
  | i_try p q E K s c' E' K' s' :
      issues C n m eqf ltf p E K s c' E' K' s' -> issues C n m eqf ltf (PTry p q) E K s c' E' K' s'
  | i_catch p q E K s e E1 K1 s1 c' E' K' s' :
      prun C n m eqf ltf p E K s = PExn e E1 K1 s1 ->
      issues C n m eqf ltf q E1 K1 s1 c' E' K' s' -> issues C n m eqf ltf (PTry p q) E K s c' E' K' s'
  | i_visit x rs ps E K s tys a u s0 E1 K1 s1 c' E' K' s' :
      E !! x = Some (BVar tys a) -> visit_user C tys a (fun u _ => ret u) s = Ok u s0 ->
      presult_of (rexec C n eqf ltf (ROpen x u (rs u)) E K s0) = PRet E1 K1 s1 ->
      issues C n m eqf ltf (ps u) E1 K1 s1 c' E' K' s' -> issues C n m eqf ltf (PVisit x rs ps) E K s c' E' K' s'
  | i_switch x ps E K s tys a u s0 c' E' K' s' :
      E !! x = Some (BVar tys a) -> visit_user C tys a (fun u _ => ret u) s = Ok u s0 ->
      issues C n m eqf ltf (ps u) E K s0 c' E' K' s' -> issues C n m eqf ltf (PSwitch x ps) E K s c' E' K' s'
  | i_while x y p E K s E1 K1 s1 c' E' K' s' :
      rexec C n eqf ltf (RMain (CEq x y)) E K s = RDone E1 K1 (OBool true) s1 ->
      issues C n m eqf ltf p E1 K1 s1 c' E' K' s' -> issues C n m eqf ltf (PWhile x y p) E K s c' E' K' s'
  | i_again x y p E K s E1 K1 s1 E2 K2 s2 c' E' K' s' :
      rexec C n eqf ltf (RMain (CEq x y)) E K s = RDone E1 K1 (OBool true) s1 ->
      prun C n m eqf ltf p E1 K1 s1 = PRet E2 K2 s2 ->
      issues C n m eqf ltf (PWhile x y p) E2 K2 s2 c' E' K' s' -> issues C n m eqf ltf (PWhile x y p) E K s c' E' K' s'.
(** No operand of [c] is parked: the condition of C15. *)
Definition sources_unparked (C : cfg) (E : env) (s : state) (c : rcmd) : Prop :=
  forall σ, shows C (mem s) E σ ->
  match c with
  | RMain c => unparked C σ c
  | RAssignGet _ y _ _ | RPokeGet _ _ y => forall tys k, is_var σ y tys k -> clean k.2 = true
  | _ => True
  end.
