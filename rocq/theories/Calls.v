(** Programs with functions that may call themselves and each other, as recursive visitors do.
    Model. *)
From stdpp Require Import base gmap list numbers.
From Coq Require Import ZArith.
From Verif Require Import Base Types Variant Sem Values Client Places Programs.

(** Not library code: C++ programs that use the library, as those of Programs.v, with calls:
    [FCall f xs]: function number [f], called with the variables [xs], by reference. A visitor whose
    operator() applies it to the members of its argument is such a function (as in
    test/recursive_variant_test.cpp:36-90): its body is one [FVisit].
    Simplification: functions return nothing; they leave their results in their arguments. *)
Inductive fprog :=
  | FSkip
  | FDo (c : rcmd)
  | FLet (c : rcmd) (p : fprog)
  | FSeq (p q : fprog)
  | FTry (p q : fprog)
  | FVisit (x : name) (rs : uid -> list name) (ps : uid -> fprog)
  | FSwitch (x : name) (ps : uid -> fprog)
  | FWhile (x y : name) (p : fprog)
  | FCall (f : nat) (xs : list name).
Record func := Func { fn_params : list name; fn_body : fprog }.

(** Renaming of variables. *)
Definition ren_cmd (ρ : name -> name) (c : cmd) : cmd :=
  match c with
  | CMake x u z ms => CMake (ρ x) u z (map ρ ms)
  | CDrop x => CDrop (ρ x)
  | CDefault x tys => CDefault (ρ x) tys
  | CFrom x tys y mv => CFrom (ρ x) tys (ρ y) mv
  | CCopy x y => CCopy (ρ x) (ρ y)
  | CMove x y => CMove (ρ x) (ρ y)
  | CConvert x tys y mv => CConvert (ρ x) tys (ρ y) mv
  | CAssign x y => CAssign (ρ x) (ρ y)
  | CMoveAssign x y => CMoveAssign (ρ x) (ρ y)
  | CAssignFrom x y mv => CAssignFrom (ρ x) (ρ y) mv
  | CAssignConvert x y mv => CAssignConvert (ρ x) (ρ y) mv
  | CSwap x y => CSwap (ρ x) (ρ y)
  | CPoke x u y => CPoke (ρ x) u (ρ y)
  | CTake z x u => CTake (ρ z) (ρ x) u
  | CChild z x u j => CChild (ρ z) (ρ x) u j
  | CSetChild x u j y => CSetChild (ρ x) u j (ρ y)
  | CWhich x => CWhich (ρ x)
  | CRead x => CRead (ρ x)
  | CGet x u => CGet (ρ x) u
  | CGetRef x u => CGetRef (ρ x) u
  | CType x => CType (ρ x)
  | CEq x y => CEq (ρ x) (ρ y)
  | CLt x y => CLt (ρ x) (ρ y)
  end.
Definition ren (ρ : name -> name) (c : rcmd) : rcmd :=
  match c with
  | RMain c => RMain (ren_cmd ρ c)
  | ROpen x u rs => ROpen (ρ x) u (map ρ rs)
  | RClose x => RClose (ρ x)
  | RFromGet x tys y u mv => RFromGet (ρ x) tys (ρ y) u mv
  | RAssignGet x y u mv => RAssignGet (ρ x) (ρ y) u mv
  | RPokeGet x u y => RPokeGet (ρ x) u (ρ y)
  end.

(** A call is what the body does with the arguments in the place of the parameters (C++ references)
    and local variables of its own. [call f xs] is the program for it. *)
Fixpoint expand (call : nat -> list name -> prog) (ρ : name -> name) (p : fprog) : prog :=
  match p with
  | FSkip => PSkip
  | FDo c => PDo (ren ρ c)
  | FLet c p => PLet (ren ρ c) (expand call ρ p)
  | FSeq p q => PSeq (expand call ρ p) (expand call ρ q)
  | FTry p q => PTry (expand call ρ p) (expand call ρ q)
  | FVisit x rs ps => PVisit (ρ x) (fun u => map ρ (rs u)) (fun u => expand call ρ (ps u))
  | FSwitch x ps => PSwitch (ρ x) (fun u => expand call ρ (ps u))
  | FWhile x y p => PWhile (ρ x) (ρ y) (expand call ρ p)
  | FCall f xs => call f (map ρ xs)
  end.

Section calls.
(** The functions; the names in their texts are below [N]. *)
Context (Φ : list func) (N : nat).

(** What a name in the body of a function means, in a call at nesting level [lev]: a parameter, the
    argument; a local variable, a name that is in no text and at no other level. *)
Definition binding (lev : nat) (ps xs : list name) (y : name) : name :=
  match (list_to_map (zip ps xs) : gmap name name) !! y with
  | Some x => x
  | None => y + N * S lev
  end.
(** Not more than [d] nested calls; a call beyond has not returned. A function that is not defined is
    not called: the program does not compile. *)
Fixpoint call (d lev f : nat) (xs : list name) : prog :=
  match d with
  | 0 => PHang
  | S d =>
      match Φ !! f with
      | Some F => expand (call d (S lev)) (binding lev (fn_params F) xs) (fn_body F)
      | None => PLet (RClose (N * S lev)) PSkip
      end
  end.
(** The program [p], with not more than [d] nested calls. *)
Definition unroll (d : nat) (p : fprog) : prog := expand (call d 0) id p.
End calls.
