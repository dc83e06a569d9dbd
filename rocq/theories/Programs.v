(** Programs with blocks, exception handlers, loops and visitors that are programs
    themselves. Model. *)
From stdpp Require Import base gmap list numbers.
From Coq Require Import ZArith.
From Verif Require Import Base Types Variant Sem Values Client Places.

(** Not library code: C++ programs that use the library.
    - [PDo c]: a command that neither declares nor destroys a variable;
    - [PLet c p]: a block: { declaration by [c]; [p] }, at whose end, also by exception, the
      variable is destroyed;
    - [PTry p q]: try { [p] } catch (...) { [q] };
    - [PVisit x rs ps]: apply_visitor with a visitor whose operator() for content of type [u] names
      the member variants of its argument [rs u] and runs [ps u];
    - [PSwitch x ps]: apply_visitor with a visitor that does not use its argument, only its type;
      it may use [x] itself, and replace what [x] holds;
    - [PWhile x y p]: while ([x] == [y]) { [p] };
    - [PHang]: for (;;) { }.
    Simplification: a [PVisit] visitor does not use [x] itself. *)
Inductive prog :=
  | PSkip
  | PDo (c : rcmd)
  | PLet (c : rcmd) (p : prog)
  | PSeq (p q : prog)
  | PTry (p q : prog)
  | PVisit (x : name) (rs : uid -> list name) (ps : uid -> prog)
  | PSwitch (x : name) (ps : uid -> prog)
  | PWhile (x y : name) (p : prog)
  | PHang.

(** The variable that a command declares. *)
Definition rdeclares (c : rcmd) : option name :=
  match c with
  | RMain c => declares c
  | RFromGet x _ _ _ _ => Some x
  | _ => None
  end.

(** How a program ends: normally, by an exception, or with undefined behaviour. [PMore]: it does
    not end within the number of rounds that its loops are given. *)
Inductive presult :=
  | PRet (E : env) (K : kenv) (s : state)
  | PExn (e : exn) (E : env) (K : kenv) (s : state)
  | PWrong (f : fault)
  | PMore.

Definition presult_of (r : rresult) : presult :=
  match r with
  | RDone E K (OThrew e) s => PExn e E K s
  | RDone E K _ s => PRet E K s
  | RFaulted f => PWrong f
  end.

Section programs.
Context (C : cfg) (n m : nat) (eqf ltf : uid -> uval -> uval -> bool).
Let rx := rexec C n eqf ltf.

Definition and_then (r : presult) (k : env -> kenv -> state -> presult) : presult :=
  match r with PRet E K s => k E K s | r => r end.
(** The end of a scope: [c] is executed, then the exception goes on. A second exception during
    stack unwinding terminates the program. *)
Definition at_exit (r : presult) (c : rcmd) : presult :=
  match r with
  | PRet E K s => presult_of (rx c E K s)
  | PExn e E K s =>
      match presult_of (rx c E K s) with
      | PRet E' K' s' => PExn e E' K' s'
      | PExn _ _ _ _ => PWrong FTerminate
      | r => r
      end
  | r => r
  end.
(** Visitation (variant.hpp:2230-2260, detail/apply_visitor_unary.hpp:40-108): finds the type of the
    content. *)
Definition dispatch (x : name) (E : env) (K : kenv) (s : state) (k : uid -> state -> presult) : presult :=
  match E !! x with
  | Some (BVar tys a) =>
      match visit_user C tys a (fun u _ => ret u) s with
      | Ok u s' => k u s'
      | Exn e s' => PExn e E K s'
      | Fault f => PWrong f
      end
  | _ => PWrong FIllTyped
  end.

(** At most [k] rounds. *)
Fixpoint loop (x y : name) (body : env -> kenv -> state -> presult) (k : nat) (E : env) (K : kenv) (s : state) : presult :=
  match k with
  | 0 => PMore
  | S k =>
      match rx (RMain (CEq x y)) E K s with
      | RDone E' K' (OBool true) s' => and_then (body E' K' s') (loop x y body k)
      | r => presult_of r
      end
  end.

Fixpoint prun (p : prog) (E : env) (K : kenv) (s : state) : presult :=
  match p with
  | PSkip => PRet E K s
  | PDo c => presult_of (rx c E K s)
  | PLet c p =>
      match rdeclares c with
      | Some x => and_then (presult_of (rx c E K s)) (fun E K s => at_exit (prun p E K s) (RMain (CDrop x)))
      | None => PWrong FIllTyped
      end
  | PSeq p q => and_then (prun p E K s) (prun q)
  | PTry p q => match prun p E K s with PExn _ E' K' s' => prun q E' K' s' | r => r end
  | PVisit x rs ps => dispatch x E K s (fun u s =>
      and_then (presult_of (rx (ROpen x u (rs u)) E K s)) (fun E K s => at_exit (prun (ps u) E K s) (RClose x)))
  | PSwitch x ps => dispatch x E K s (fun u s => prun (ps u) E K s)
  | PWhile x y p => loop x y (prun p) m E K s
  | PHang => PMore
  end.
End programs.
