(** What programs do to the values of their variables. Specification: big steps over values
    (Spec.v, PlacesSpec.v); memory does not occur in it. *)
From stdpp Require Import base gmap list numbers.
From Coq Require Import ZArith.
From Verif Require Import Base Types Variant Values Client Observe Spec Places PlacesSpec Programs ProgramsSpec.

(** How a program ends: [None], normally; [Some e], by the exception [e]. *)
Definition ending (o : out) : option exn := match o with OThrew e => Some e | _ => None end.

Section meaning.
Context (C : cfg) (eqf ltf : uid -> uval -> uval -> bool).
(** Commands that use no references other than as variables. *)
Definition vstep (σ : astate) (c : rcmd) (o : out) (σ' : astate) : Prop := rstep C eqf ltf σ ∅ c o σ' ∅.

(** [x] == [y] says [b]. *)
Definition equal (σ : astate) (x y : name) (b : bool) : Prop := astep C eqf ltf σ (CEq x y) (OBool b) σ.

Inductive means : prog -> astate -> option exn -> astate -> Prop :=
  | m_skip σ : means PSkip σ None σ
  | m_do c σ o σ' : vstep σ c o σ' -> means (PDo c) σ (ending o) σ'
  (* { declaration; p }: the variable is destroyed at the end, also when [p] ends by exception *)
  | m_let_bad c p σ e σ' : vstep σ c (OThrew e) σ' -> means (PLet c p) σ (Some e) σ'
  | m_let c p x σ o σ1 r σ2 : rdeclares c = Some x ->
      vstep σ c o σ1 -> ending o = None -> means p σ1 r σ2 -> means (PLet c p) σ r (delete x σ2)
  | m_seq_bad p q σ e σ' : means p σ (Some e) σ' -> means (PSeq p q) σ (Some e) σ'
  | m_seq p q σ σ1 r σ' : means p σ None σ1 -> means q σ1 r σ' -> means (PSeq p q) σ r σ'
  | m_try p q σ σ' : means p σ None σ' -> means (PTry p q) σ None σ'
  | m_catch p q σ e σ1 r σ' : means p σ (Some e) σ1 -> means q σ1 r σ' -> means (PTry p q) σ r σ'
  (* the visitor is called for the type of the content; it works on the member variants, [ks], as on
     variables; then they are in their places again, with the values they have then, also when the
     visitor ends by exception *)
  | m_visit x rs ps σ tys bi z ks u r σ2 ks' : is_var σ x tys (bi, UV z ks) -> has tys (bi, UV z ks) u ->
      means (ps u) (list_to_map (zip (rs u) (zip_with AVar (ut_members (te C u)) ks)) ∪ delete x σ) r σ2 ->
      Forall2 (fun y k => exists tys', is_var σ2 y tys' k) (rs u) ks' ->
      means (PVisit x rs ps) σ r (<[x := AVar tys (bi, UV z ks')]> (foldr delete σ2 (rs u)))
  | m_switch x ps σ tys k u r σ' : is_var σ x tys k -> has tys k u -> means (ps u) σ r σ' -> means (PSwitch x ps) σ r σ'
  (* while (x == y) { p } *)
  | m_while_end x y p σ o σ' : vstep σ (RMain (CEq x y)) o σ' -> o <> OBool true -> means (PWhile x y p) σ (ending o) σ'
  | m_while_bad x y p σ σ1 e σ' : vstep σ (RMain (CEq x y)) (OBool true) σ1 ->
      means p σ1 (Some e) σ' -> means (PWhile x y p) σ (Some e) σ'
  | m_while x y p σ σ1 σ2 r σ' : vstep σ (RMain (CEq x y)) (OBool true) σ1 ->
      means p σ1 None σ2 -> means (PWhile x y p) σ2 r σ' -> means (PWhile x y p) σ r σ'.
End meaning.
