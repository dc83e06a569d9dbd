(** Which programs with functions compile, and which functions are structurally recursive.
    Specification. *)
From stdpp Require Import base gmap list numbers.
From Coq Require Import ZArith.
From Verif Require Import Base Types Variant Values Client Observe Spec Places PlacesSpec Programs ProgramsSpec PlacesAlikeSpec MeaningSpec Calls.

Section typing.
Context (C : cfg) (st nb : bool).
(** The types of the parameters of the functions. *)
Context (sigs : list (list vty)).

(** As [compiles] (ProgramsSpec.v), by types alone, with calls: the arguments are different variables,
    of the types of the parameters. *)
Fixpoint fcompiles (Γ : ctx) (T : gset name) (p : fprog) : Prop :=
  match p with
  | FSkip => True
  | FDo c => checks C Γ c
  | FLet c p => exists x t, declaration C st nb Γ c x t /\ Γ !! x = None /\ x ∉ T /\ fcompiles (<[x := t]> Γ) T p
  | FSeq p q | FTry p q => fcompiles Γ T p /\ fcompiles Γ T q
  | FVisit x rs ps => exists tys, Γ !! x = Some (TVar tys) /\ forall t, t ∈ tys ->
      let u := ity_uid t in
      NoDup (rs u) /\ length (rs u) = length (ut_members (te C u)) /\ (forall r, r ∈ rs u -> Γ !! r = None /\ r ∉ T) /\
      fcompiles (list_to_map (zip (rs u) (TVar <$> ut_members (te C u))) ∪ delete x Γ) ({[x]} ∪ T) (ps u)
  | FSwitch x ps => exists tys, Γ !! x = Some (TVar tys) /\ forall t, t ∈ tys -> fcompiles Γ T (ps (ity_uid t))
  | FWhile x y p => (exists tys, Γ !! x = Some (TVar tys) /\ Γ !! y = Some (TVar tys)) /\ fcompiles Γ T p
  | FCall f xs => exists ts, sigs !! f = Some ts /\ NoDup xs /\ Forall2 (fun x t => Γ !! x = Some t) xs ts
  end.
End typing.

(** The names in a text. *)
Fixpoint fmentions (p : fprog) (x : name) : Prop :=
  match p with
  | FSkip => False
  | FDo c => x ∈ rnames c
  | FLet c p => x ∈ rnames c \/ fmentions p x
  | FSeq p q | FTry p q => fmentions p x \/ fmentions q x
  | FVisit y rs ps => x = y \/ exists u, x ∈ rs u \/ fmentions (ps u) x
  | FSwitch y ps => x = y \/ exists u, fmentions (ps u) x
  | FWhile y z p => x = y \/ x = z \/ fmentions p x
  | FCall _ xs => x ∈ xs
  end.

(** The body of a function sees its parameters only. The names in texts are below [N]. *)
Definition func_compiles (C : cfg) (st nb : bool) (sigs : list (list vty)) (N : nat) (F : func) (ts : list vty) : Prop :=
  NoDup (fn_params F) /\ length (fn_params F) = length ts /\
  (forall x, x ∈ fn_params F \/ fmentions (fn_body F) x -> x < N) /\
  fcompiles C st nb sigs (list_to_map (zip (fn_params F) ts)) ∅ (fn_body F).
Definition funcs_compile (C : cfg) (st nb : bool) (sigs : list (list vty)) (N : nat) (Φ : list func) : Prop :=
  Forall2 (func_compiles C st nb sigs N) Φ sigs.

(** Structural recursion. [A]: the names whose values are not deeper than the value that the function
    was called with; [R]: those whose values are less deep: members of the content of one of these, so
    far not used otherwise. Every call is for such a member as first argument; no loops. *)
Fixpoint structural (A R : gset name) (p : fprog) : Prop :=
  match p with
  | FSkip | FDo _ => True
  | FLet c p => structural (A ∖ list_to_set (rnames c)) (R ∖ list_to_set (rnames c)) p
  | FSeq p q | FTry p q => structural A R p /\ exists X : gset name, (forall x, fmentions p x -> x ∈ X) /\ structural (A ∖ X) (R ∖ X) q
  | FVisit x rs ps => forall u,
      let B := A ∖ {[x]} ∖ list_to_set (rs u) in let Q := R ∖ {[x]} ∖ list_to_set (rs u) in
      structural B (if decide (x ∈ A ∪ R) then list_to_set (rs u) ∪ Q else Q) (ps u)
  | FSwitch _ ps => forall u, structural A R (ps u)
  | FWhile _ _ _ => False
  | FCall _ xs => exists x ys, xs = x :: ys /\ x ∈ R
  end.
Definition structural_func (F : func) : Prop :=
  match fn_params F with x :: _ => structural {[x]} ∅ (fn_body F) | [] => False end.

(** How deep variants are nested in a value. *)
Fixpoint udepth (v : uval) : nat :=
  match v with UV _ ks => S (fold_right (fun k n => udepth k.2 `max` n) 0 ks) end.

(** No loops; calls with at least one argument. *)
Fixpoint loopless (p : fprog) : Prop :=
  match p with
  | FSkip | FDo _ => True
  | FLet _ p => loopless p
  | FSeq p q | FTry p q => loopless p /\ loopless q
  | FVisit _ _ ps | FSwitch _ ps => forall u, loopless (ps u)
  | FWhile _ _ _ => False
  | FCall _ xs => xs <> []
  end.
