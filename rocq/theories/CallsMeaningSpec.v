(** What programs with functions do to the values of their variables. Specification: big steps over
    values, as in MeaningSpec.v, with calls. *)
From stdpp Require Import base gmap list numbers.
From Coq Require Import ZArith.
From Verif Require Import Base Types Variant Values Client Observe Spec Places PlacesSpec Programs ProgramsSpec MeaningSpec Calls.

Section meaning.
Context (C : cfg) (eqf ltf : uid -> uval -> uval -> bool) (Φ : list func).
Notation vstep := (vstep C eqf ltf).

(** [S f σ0 r σ1]: what the function [f] may do; its parameters have the values [σ0] at the beginning and
    [σ1] at the end. *)
Section calls.
Context (S : nat -> astate -> option exn -> astate -> Prop).
Inductive fmeans_with : fprog -> astate -> option exn -> astate -> Prop :=
  | f_skip σ : fmeans_with FSkip σ None σ
  | f_do c σ o σ' : vstep σ c o σ' -> fmeans_with (FDo c) σ (ending o) σ'
  | f_let_bad c p σ e σ' : vstep σ c (OThrew e) σ' -> fmeans_with (FLet c p) σ (Some e) σ'
  | f_let c p x σ o σ1 r σ2 : rdeclares c = Some x ->
      vstep σ c o σ1 -> ending o = None -> fmeans_with p σ1 r σ2 -> fmeans_with (FLet c p) σ r (delete x σ2)
  | f_seq_bad p q σ e σ' : fmeans_with p σ (Some e) σ' -> fmeans_with (FSeq p q) σ (Some e) σ'
  | f_seq p q σ σ1 r σ' : fmeans_with p σ None σ1 -> fmeans_with q σ1 r σ' -> fmeans_with (FSeq p q) σ r σ'
  | f_try p q σ σ' : fmeans_with p σ None σ' -> fmeans_with (FTry p q) σ None σ'
  | f_catch p q σ e σ1 r σ' : fmeans_with p σ (Some e) σ1 -> fmeans_with q σ1 r σ' -> fmeans_with (FTry p q) σ r σ'
  | f_visit x rs ps σ tys bi z ks u r σ2 ks' : is_var σ x tys (bi, UV z ks) -> has tys (bi, UV z ks) u ->
      fmeans_with (ps u) (list_to_map (zip (rs u) (zip_with AVar (ut_members (te C u)) ks)) ∪ delete x σ) r σ2 ->
      Forall2 (fun y k => exists tys', is_var σ2 y tys' k) (rs u) ks' ->
      fmeans_with (FVisit x rs ps) σ r (<[x := AVar tys (bi, UV z ks')]> (foldr delete σ2 (rs u)))
  | f_switch x ps σ tys k u r σ' : is_var σ x tys k -> has tys k u -> fmeans_with (ps u) σ r σ' -> fmeans_with (FSwitch x ps) σ r σ'
  | f_while_end x y p σ o σ' : vstep σ (RMain (CEq x y)) o σ' -> o <> OBool true -> fmeans_with (FWhile x y p) σ (ending o) σ'
  | f_while_bad x y p σ σ1 e σ' : vstep σ (RMain (CEq x y)) (OBool true) σ1 ->
      fmeans_with p σ1 (Some e) σ' -> fmeans_with (FWhile x y p) σ (Some e) σ'
  | f_while x y p σ σ1 σ2 r σ' : vstep σ (RMain (CEq x y)) (OBool true) σ1 ->
      fmeans_with p σ1 None σ2 -> fmeans_with (FWhile x y p) σ2 r σ' -> fmeans_with (FWhile x y p) σ r σ'
  (* A call. The body has the parameters as its variables and no others, [σ0]; they have the values of
     the arguments. At the end, [σ1], also by exception, the arguments have the values of the
     parameters, and other variables are as before. *)
  | f_call f F xs σ r σ0 σ1 σ' : Φ !! f = Some F ->
      (forall y x, (y, x) ∈ zip (fn_params F) xs -> σ0 !! y = σ !! x) -> (forall y, y ∉ fn_params F -> σ0 !! y = None) ->
      S f σ0 r σ1 ->
      (forall y x, (y, x) ∈ zip (fn_params F) xs -> σ' !! x = σ1 !! y) -> (forall z, z ∉ xs -> σ' !! z = σ !! z) ->
      fmeans_with (FCall f xs) σ r σ'.
End calls.
(** What a function does: its body, with what it calls. *)
Inductive called (f : nat) (σ0 : astate) (r : option exn) (σ1 : astate) : Prop :=
  Called F : Φ !! f = Some F -> fmeans_with called (fn_body F) σ0 r σ1 -> called f σ0 r σ1.
Definition fmeans : fprog -> astate -> option exn -> astate -> Prop := fmeans_with called.
End meaning.

(** void mirror(T& x): if [x] contains a tree, a [u] with two members of type T, mirrors both members and
    swaps them; anything else stays as it is. Not from the code base; recursive visitors, as in
    test/recursive_variant_test.cpp:36-90. *)
Definition mirror_func (u : uid) : func := Func [1]
  (FVisit 1 (fun u' => if decide (u' = u) then [30; 31] else []) (fun u' => if decide (u' = u) then
     FSeq (FCall 0 [30]) (FSeq (FCall 0 [31]) (FDo (RMain (CSwap 30 31)))) else FSkip)).
(** The mirror image of a value. *)
Fixpoint mirror_image (v : uval) : uval :=
  match v with
  | UV z [ka; kb] => UV z [(kb.1, mirror_image kb.2); (ka.1, mirror_image ka.2)]
  | UV z ks => UV z ks
  end.
