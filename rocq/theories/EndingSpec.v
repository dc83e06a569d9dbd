(** A recursive function over variants that need heap backups. Specification. *)
From stdpp Require Import base gmap list numbers.
From Coq Require Import ZArith.
From Verif Require Import Base Types Variant Values Client Observe Spec Places PlacesSpec Programs Calls.

(** void append(T& x, T& y): if [x] contains a list node, a [u] with one member of type T, appends to the member;
    otherwise [x] = [y]. Not from the code base; recursive visitors, as in test/recursive_variant_test.cpp:36-90. *)
Definition append_func (u : uid) : func := Func [1; 2]
  (FSwitch 1 (fun u' => if decide (u' = u)
     then FVisit 1 (fun u' => if decide (u' = u) then [30] else []) (fun u' => if decide (u' = u) then FCall 0 [30; 2] else FSkip)
     else FDo (RMain (CAssign 1 2)))).
(** The value [v] with its last element replaced by [w]. *)
Fixpoint append_image (w : vval) (bi : bool * nat) (v : uval) : vval :=
  match v with
  | UV z [k] => (bi, UV z [append_image w k.1 k.2])
  | _ => w
  end.
