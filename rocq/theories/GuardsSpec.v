(** A check, by names alone, that no operand is in a heap backup. Specification. *)
From stdpp Require Import base gmap list numbers.
From Coq Require Import ZArith.
From Verif Require Import Base Types Variant Values Client Observe Spec Places PlacesSpec Programs ProgramsSpec Calls TidySpec.

(** Names of variables that may be in a backup, or have something in one inside: [B]. *)
Definition names := name -> Prop.
Definition nobody : names := fun _ => False.
Definition all_but (C : cfg) (B : names) (E : env) (s : state) : Prop :=
  forall σ, shows C (mem s) E σ -> forall x α, σ !! x = Some α -> ~ B x -> neat α.

(** The operands that a command takes contents from are not in [B]. *)
Definition allowed (c : rcmd) (B : names) : Prop :=
  match c with
  | RMain (CAssign x y) | RMain (CMoveAssign x y) => x <> y -> ~ B y
  | RMain (CAssignFrom _ y _) | RMain (CPoke _ _ y) | RMain (CSetChild _ _ _ y) => ~ B y
  | RMain (CSwap x y) => x <> y -> ~ B x /\ ~ B y
  | RAssignGet _ y _ _ | RPokeGet _ _ y => ~ B y
  | _ => True
  end.
(** After the command has succeeded: [x] = [y] makes [x] as good as [y]. Moving into [x] may leave in [y] what
    [x] had inside. Assignment of an object may happen within the backup. *)
Definition after_ok (c : rcmd) (B : names) : names :=
  match c with
  | RMain (CAssign x y) => fun z => B z /\ (z = x -> x = y)
  | RMain (CMoveAssign x y) => fun z => (B z /\ (z = x -> x = y)) \/ (z = y /\ B x)
  | RMain (CAssignConvert x _ _) => fun z => B z /\ z <> x
  | RMain (CAssignFrom x y true) | RAssignGet x y _ true => fun z => B z \/ (z = y /\ B x)
  | _ => B
  end.
(** After it has failed: what was to be changed may be in a backup. *)
Definition after_failed (c : rcmd) (B : names) : names :=
  match c with
  | RMain (CAssign x _) | RMain (CAssignConvert x _ _) | RMain (CPoke x _ _) | RMain (CSetChild x _ _ _) | RPokeGet x _ _ =>
      fun z => B z \/ z = x
  | RMain (CMoveAssign x y) | RMain (CSwap x y) => fun z => B z \/ z = x \/ z = y
  | RMain (CAssignFrom x y mv) | RAssignGet x y _ mv => fun z => B z \/ z = x \/ (mv = true /\ z = y)
  | _ => B
  end.

Definition within (A B : names) : Prop := forall z, A z -> B z.
(** [careful p B N X]: if nobody but [B] is in a backup before, then no operand is in the course of [p], and
    afterwards nobody but [N] is; if [p] ends by an exception, nobody but [X]. *)
Fixpoint careful (p : prog) (B N X : names) : Prop :=
  match p with
  | PSkip => within B N
  | PHang => True
  | PDo c => allowed c B /\ within (after_ok c B) N /\ within (after_failed c B) X
  (* the new variable is not in a backup *)
  | PLet c p => within B X /\ forall x, rdeclares c = Some x -> exists N' X', careful p (fun z => B z /\ z <> x) N' X' /\
      within (fun z => N' z /\ z <> x) N /\ within (fun z => X' z /\ z <> x) X
  | PSeq p q => exists M, careful p B M X /\ careful q M N X
  | PTry p q => exists Y, careful p B N Y /\ careful q Y N X
  (* the members of a variable in [B] may be in backups; a variable with a member in a backup has one inside *)
  | PVisit x rs ps => forall u, exists N' X',
      careful (ps u) (fun z => (B z /\ z <> x /\ z ∉ rs u) \/ (z ∈ rs u /\ B x)) N' X' /\
      (within (fun z => N' z /\ z ∉ rs u) N /\ (B x \/ (exists r, r ∈ rs u /\ N' r) -> N x)) /\
      (within (fun z => X' z /\ z ∉ rs u) X /\ (B x \/ (exists r, r ∈ rs u /\ X' r) -> X x))
  | PSwitch _ ps => forall u, careful (ps u) B N X
  | PWhile _ _ p => exists I, within B I /\ within I N /\ careful p I I X
  end.

(** Programs without try blocks. *)
Fixpoint tryless (p : prog) : Prop :=
  match p with
  | PSkip | PHang | PDo _ => True
  | PLet _ p => tryless p
  | PSeq p q => tryless p /\ tryless q
  | PTry _ _ => False
  | PVisit _ _ ps | PSwitch _ ps => forall u, tryless (ps u)
  | PWhile _ _ p => tryless p
  end.
Fixpoint ftryless (p : fprog) : Prop :=
  match p with
  | FSkip | FDo _ | FCall _ _ => True
  | FLet _ p => ftryless p
  | FSeq p q => ftryless p /\ ftryless q
  | FTry _ _ => False
  | FVisit _ _ ps | FSwitch _ ps => forall u, ftryless (ps u)
  | FWhile _ _ p => ftryless p
  end.
