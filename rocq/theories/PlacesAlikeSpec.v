(** Programs that are in the same situation, with blocks, handlers, loops and visitors:
    vocabulary. *)
From stdpp Require Import base gmap list numbers.
From Coq Require Import ZArith.
From Verif Require Import Base Types Variant Values Client Observe Spec History Reach AlikeSpec Places Programs.

(** The names a command names. *)
Definition rnames (c : rcmd) : list name :=
  match c with
  | RMain c => names c
  | ROpen x _ rs => x :: rs
  | RClose x => [x]
  | RFromGet x _ y _ _ | RAssignGet x y _ _ | RPokeGet x _ y => [x; y]
  end.
Fixpoint mentions (p : prog) (x : name) : Prop :=
  match p with
  | PSkip | PHang => False
  | PDo c => x ∈ rnames c
  | PLet c p => x ∈ rnames c \/ mentions p x
  | PSeq p q | PTry p q => mentions p x \/ mentions q x
  | PVisit y rs ps => x = y \/ exists u, x ∈ rs u \/ mentions (ps u) x
  | PSwitch y ps => x = y \/ exists u, mentions (ps u) x
  | PWhile y z p => x = y \/ x = z \/ mentions p x
  end.

(** The same variables are set aside, with references of the same names. *)
Definition same_open (K1 K2 : kenv) : Prop :=
  forall x, option_Forall2 (fun f f' => f.2.*1 = f'.2.*1) (K1 !! x) (K2 !! x).

(** Two runs end in the same way, and have done the same. *)
Definition ends_alike (C : cfg) (N : list name) (E1 : env) (s1 : state) (E2 : env) (s2 : state) (r1 r2 : presult) : Prop :=
  match r1, r2 with
  | PRet E1' K1 s1', PRet E2' K2 s2' => same_open K1 K2 /\ alike C N E1 s1 E1' s1' E2 s2 E2' s2'
  | PExn e1 E1' K1 s1', PExn e2 E2' K2 s2' =>
      told (opos s1) (OThrew e1) = told (opos s2) (OThrew e2) /\
      same_open K1 K2 /\ alike C N E1 s1 E1' s1' E2 s2 E2' s2'
  | PWrong f1, PWrong f2 => f1 = f2
  | PMore, PMore => True
  | _, _ => False
  end.
(** The environment and the state at the end of a run. *)
Definition ended (r : presult) (E : env) (s : state) : Prop :=
  exists K, r = PRet E K s \/ exists e, r = PExn e E K s.

(** The same of single commands. *)
Definition told_alike (C : cfg) (N : list name) (E1 : env) (s1 : state) (E2 : env) (s2 : state) (r1 r2 : rresult) : Prop :=
  match r1, r2 with
  | RDone E1' _ o1 s1', RDone E2' _ o2 s2' =>
      told (opos s1) o1 = told (opos s2) o2 /\ alike C N E1 s1 E1' s1' E2 s2 E2' s2'
  | RFaulted f1, RFaulted f2 => f1 = f2
  | _, _ => False
  end.

(** Nothing fails, or everything does, and moved-from objects all get the same value. *)
Definition steady (s : state) : Prop := forall i j, orc s i = orc s j.
