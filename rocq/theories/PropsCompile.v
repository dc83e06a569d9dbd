(** What compiles, and with which result type (C50, C51, C52). The statements use Spec.v,
    CompileSpec.v and the model's functions only; the proofs are in CompileFacts.v. *)
From stdpp Require Import base list numbers.
From Coq Require Import Lia.
From Verif Require Import Base Types Spec Compile CompileSpec Samples.
From Verif Require CompileFacts GetTypes.

(** *** C50: calls of apply_visitor. A visitor with [result_type] can visit any number of
    variants. *)
Theorem C50_result_type : forall cxx14 c n, 1 <= n -> call_compiles cxx14 (Visitor true c) n = true.
Proof. exact CompileFacts.call_result_type. Qed.
(** A generic one cannot: one, two or three. *)
Theorem C50_generic : forall c n, call_compiles true (Visitor false c) n = true <-> 1 <= n <= 3.
Proof. exact CompileFacts.call_generic. Qed.
Theorem C50_any_number_refuted : exists c n, 1 <= n /\
  call_compiles true (Visitor true c) n = true /\ call_compiles true (Visitor false c) n = false.
Proof. exists LVal, 4. split; [lia|]. split; vm_compute; reflexivity. Qed.
(** When is the visitor const where it is called, so that it needs a const operator()? If it is
    const itself, or a temporary; but a temporary generic visitor is not const if there is one
    variant only. *)
Theorem C50_constness : forall cxx14 b c n o, selected cxx14 (Visitor b c) n = Some o ->
  seen_const c o <-> c = CLVal \/ (c = RVal /\ (b = true \/ 2 <= n)).
Proof. exact CompileFacts.call_const. Qed.
Theorem C50_temporaries_refuted : exists v o1 o2,
  selected true v 1 = Some o1 /\ selected true v 2 = Some o2 /\ ~ seen_const (v_cat v) o1 /\ seen_const (v_cat v) o2.
Proof.
  exists (Visitor false RVal). do 2 eexists. split; [vm_compute; reflexivity|]. split; [vm_compute; reflexivity|].
  split; [intros [H|H]; discriminate H|left; reflexivity].
Qed.

(** *** C51: converting constructors. A value that has a best match is accepted by the
    constructors' constraint. *)
Theorem C51_value : forall C explicit tys u i,
  best_match C tys u i -> constructible_from C explicit tys (IPlain u) = true.
Proof. exact CompileFacts.best_value. Qed.
(** A variant all of whose bounded types convert is accepted iff each recursive_wrapper among its
    internal types is one of the new variant's. *)
Theorem C51_variant : forall C explicit tys src, all_convert C tys src ->
  constructible_from_variant C explicit tys src = true <-> (forall u, IWrap u ∈ src -> IWrap u ∈ tys).
Proof. exact CompileFacts.variant_iff. Qed.
(** The constructor's body does what is needed exactly if all bounded types convert ... *)
Theorem C51_body : forall C tys src, body_variant C tys src = true <-> all_convert C tys src.
Proof. exact CompileFacts.body_variant_iff. Qed.
(** ... but the constraint rejects some of these, even a variant with the same bounded types, and
    accepts others, for which the body then does not compile. *)
Theorem C51_variant_refuted : exists C explicit tys src,
  map ity_uid tys = map ity_uid src /\ all_convert C tys src /\ constructible_from_variant C explicit tys src = false.
Proof.
  exists C0, (fun _ _ => false), [IPlain 3; IPlain 4], [IPlain 3; IWrap 4]. split; [done|].
  split; [|vm_compute; reflexivity]. apply CompileFacts.body_variant_iff. vm_compute. reflexivity.
Qed.
Theorem C51_explicit_refuted : exists C explicit tys u,
  constructible_from C explicit tys (IPlain u) = true /\ ~ exists i, best_match C tys u i.
Proof.
  exists C0, (fun u t => bool_decide (u = 20 /\ t = 4)), [IPlain 4], 20. split; [vm_compute; reflexivity|].
  intros H. apply CompileFacts.body_value_iff in H. vm_compute in H. discriminate H.
Qed.

(** *** C52: the result type with a generic visitor. If the visitor always returns the same type,
    that is it. *)
Theorem C52_same : forall K r rs, plain r -> rs <> [] -> (forall r', r' ∈ rs -> r' = r) -> deduce K rs = Some r.
Proof. exact CompileFacts.deduce_same. Qed.
(** If the result is an lvalue reference, then the visitor always returns one, to a type that is
    that or derived from it. *)
Theorem C52_lvalue : forall K rs c t, transitive K -> deduce K rs = Some (RLref c t) ->
  forall r, r ∈ rs -> outlives K r (RLref c t).
Proof. exact CompileFacts.deduce_l. Qed.
(** If the visitor returns lvalue references to one type, so does visitation; to const if one of them is. *)
Theorem C52_lvalues : forall K rs t, rs <> [] -> (forall r, r ∈ rs -> exists c, r = RLref c t) ->
  exists c, deduce K rs = Some (RLref c t) /\ (c = true <-> RLref true t ∈ rs).
Proof. exact CompileFacts.deduce_lvalues. Qed.
(** Likewise for rvalue references; conversion functions of classes to themselves are never used. *)
Theorem C52_xvalues : forall K rs t, (forall x, by_function K x x = false) -> rs <> [] -> (forall r, r ∈ rs -> exists c, r = RRref c t) ->
  exists c, deduce K rs = Some (RRref c t) /\ (c = true <-> RRref true t ∈ rs).
Proof. exact CompileFacts.deduce_xvalues. Qed.

(** If it returns arithmetic types or references to them, the result type comes of the usual arithmetic
    conversions between types that differ, from the last alternative to the first, and is no const value. *)
Theorem C52_arithmetic : forall K rs ms m, about <$> rs = (fun a => Some (TArith a)) <$> (ms ++ [m]) ->
  exists R, deduce K rs = Some R /\ about R = Some (TArith (foldr (fun a b => if decide (a = b) then a else arith K a b) m ms)) /\
    forall t, R <> RValue true t.
Proof. exact CompileFacts.deduce_arith. Qed.
(** On compilers for which binding to a temporary is not direct, the result never refers to
    something that is gone, if the visitor returns no rvalue references. *)
Theorem C52_outlives : forall K rs R, temp_direct K = false -> transitive K -> (forall c t, RRref c t ∉ rs) ->
  deduce K rs = Some R -> forall r, r ∈ rs -> outlives K r R.
Proof. exact (fun K rs R H => CompileFacts.deduce_outlives K H rs R). Qed.
(** If it does, it may: [X&&] for the first type and [X] for the second make [X&&], on any
    compiler and even for int. *)
Theorem C52_outlives_refuted : forall K, exists rs R r,
  deduce K rs = Some R /\ r ∈ rs /\ ~ outlives K r R.
Proof.
  intros K. exists [RRref false (TArith 0); RValue false (TArith 0)], (RRref false (TArith 0)), (RValue false (TArith 0)).
  split; [reflexivity|]. split; [right; left|]. intros H. inversion H.
Qed.
(** Whatever the visitor returns becomes the result by conversions; and if it returns void, it always does. *)
Theorem C52_becomes : forall K rs R, deduce K rs = Some R -> forall r, r ∈ rs ->
  match about r, about R with None, None => True | Some t, Some t' => becomes K t t' | _, _ => False end.
Proof. exact CompileFacts.deduce_becomes. Qed.
(** Two types, one of which is a class, returned by value: the result is the one to which the other converts, if
    that does not convert back. Otherwise the call does not compile. *)
Theorem C52_two : forall K t t', temp_direct K = false -> t <> t' -> (exists x, t = TClass x \/ t' = TClass x) -> forall R,
  deduce K [RValue false t; RValue false t'] = Some R <->
  (R = RValue false t' /\ turns K t t' /\ ~ turns K t' t) \/ (R = RValue false t /\ turns K t' t /\ ~ turns K t t').
Proof. exact CompileFacts.deduce_two. Qed.
(** And by the letter of the standard also without rvalue references: [X], [X] and [const X&]
    make [const X&&]; a derived class and its base class [B] make [B&&]. *)
Theorem C52_const_refuted : forall K x, temp_direct K = true -> exists R r,
  let rs := [RValue false (TClass x); RValue false (TClass x); RLref true (TClass x)] in
  deduce K rs = Some R /\ r ∈ rs /\ ~ outlives K r R.
Proof.
  intros K x Ht. exists (RRref true (TClass x)), (RValue false (TClass x)). cbn zeta.
  split; [by apply CompileFacts.deduce_const|]. split; [left|intros H; inversion H].
Qed.
Theorem C52_base_refuted : exists K d b,
  temp_direct K = true /\ base K d b = true /\
  deduce K [RValue false (TClass d); RValue false (TClass b)] = Some (RRref false (TClass b)) /\
  deduce K [RValue false (TClass b); RValue false (TClass d)] = Some (RValue false (TClass b)).
Proof.
  exists (Classes true (fun d b => bool_decide (d = 1 /\ b = 0)) (fun _ _ => false) (fun _ _ => false) Nat.max), 1, 0.
  vm_compute. done.
Qed.

(** *** C53: the argument that the visitor gets. It is right except for a reference in an rvalue
    variant; the result type is always looked up for the right one. *)
Theorem C53_argument : forall cvar rvalue e, should_get cvar rvalue e (passed cvar rvalue e) <->
  (rvalue = true -> forall t, e <> GetTypes.BRef t).
Proof. exact CompileFacts.passed_iff. Qed.
Theorem C53_deduced : forall cvar rvalue e, should_get cvar rvalue e (deduced_for cvar rvalue e).
Proof. exact CompileFacts.deduced_right. Qed.
(** There the visitor gets an object outside the variant as an rvalue, which it may move from;
    and a visitor that takes an [X&], as its result type says, is not called or does not compile. *)
Theorem C53_referent_refuted : exists e p, deduced_for false true e <> passed false true e /\
  binds_lref p (deduced_for false true e) = true /\ binds_lref p (passed false true e) = false /\
  binds_rref p (deduced_for false true e) = false /\ binds_rref p (passed false true e) = true.
Proof. exists (GetTypes.BRef (GetTypes.plain 2)), (GetTypes.plain 2). vm_compute. split; [intros [=]|done]. Qed.

(** ** Examples *)
(** A const rvalue variant with a wrapped string; an lvalue variant with a reference. *)
Example C53_argument_ex : should_get true true (GetTypes.BWrap (GetTypes.plain 2)) (GetTypes.OTy true false 2, true) /\
  passed true true (GetTypes.BWrap (GetTypes.plain 2)) = (GetTypes.OTy true false 2, true) /\
  should_get true false (GetTypes.BRef (GetTypes.plain 2)) (passed true false (GetTypes.BRef (GetTypes.plain 2))).
Proof.
  split; [apply (get_part true true false false 2); by right|]. split; [reflexivity|]. constructor.
Qed.
Example C50_result_type_ex : 1 <= 7. Proof. lia. Qed.
Example C50_constness_ex : exists o, selected true (Visitor true RVal) 5 = Some o /\ seen_const RVal o.
Proof. eexists. split; [vm_compute; reflexivity|]. left. reflexivity. Qed.

Example C51_value_ex : exists i, best_match C0 [IPlain 0; IWrap 4] 3 i.
Proof. apply CompileFacts.body_value_iff. vm_compute. reflexivity. Qed.
(** One source with a wrapper, to one that has it and to one that has not. *)
Example C51_variant_ex :
  all_convert C0 [IPlain 0; IWrap 4] [IPlain 3; IWrap 4] /\ all_convert C0 [IPlain 0; IPlain 4] [IPlain 3; IWrap 4] /\
  constructible_from_variant C0 (fun _ _ => false) [IPlain 0; IWrap 4] [IPlain 3; IWrap 4] = true /\
  constructible_from_variant C0 (fun _ _ => false) [IPlain 0; IPlain 4] [IPlain 3; IWrap 4] = false.
Proof. split; [|split]; [apply CompileFacts.body_variant_iff; vm_compute; reflexivity..|]. vm_compute. done. Qed.

(** Classes 1 and 2 are derived from 0, and 2 from 1. *)
Definition K1 : classes :=
  Classes false (fun d b => bool_decide (b < d /\ d < 3)) (fun _ _ => false) (fun _ _ => false) Nat.max.
Lemma K1_transitive : transitive K1.
Proof.
  intros a b c H1 H2. cbn in *. apply bool_decide_eq_true in H1, H2. apply bool_decide_eq_true. lia.
Qed.
Example C52_same_ex : exists r rs, plain r /\ rs <> [] /\ (forall r', r' ∈ rs -> r' = r) /\ 2 < length rs.
Proof.
  exists (RValue true (TClass 0)), (replicate 5 (RValue true (TClass 0))). split; [done|]. split; [done|].
  split; [|cbn; lia]. intros r' Hr. by apply elem_of_replicate in Hr as [-> _].
Qed.
Example C52_lvalue_ex : deduce K1 [RLref false (TClass 2); RLref true (TClass 0); RLref false (TClass 1)] = Some (RLref true (TClass 0)).
Proof. vm_compute. reflexivity. Qed.
Example C52_lvalues_ex : deduce K1 [RLref false (TArith 0); RLref true (TArith 0); RLref false (TArith 0)] = Some (RLref true (TArith 0)) /\
  deduce K1 [RLref false (TClass 1); RLref false (TClass 1)] = Some (RLref false (TClass 1)).
Proof. vm_compute. done. Qed.
Example C52_xvalues_ex : (forall x, by_function K1 x x = false) /\
  deduce K1 [RRref false (TArith 0); RRref true (TArith 0); RRref false (TArith 0)] = Some (RRref true (TArith 0)) /\
  deduce K1 [RRref false (TClass 1); RRref false (TClass 1)] = Some (RRref false (TClass 1)).
Proof. split; [done|]. vm_compute. done. Qed.
Example C52_arithmetic_ex : about <$> [RLref true (TArith 1); RValue true (TArith 4); RRref false (TArith 2)] =
    (fun a => Some (TArith a)) <$> ([1; 4] ++ [2]) /\
  deduce K1 [RLref true (TArith 1); RValue true (TArith 4); RRref false (TArith 2)] = Some (RValue false (TArith (arith K1 1 (arith K1 4 2)))).
Proof. vm_compute. done. Qed.
Example C52_outlives_ex : exists rs, (forall c t, RRref c t ∉ rs) /\
  deduce K1 rs = Some (RValue true (TClass 0)) /\ RLref true (TClass 0) ∈ rs /\ RValue false (TClass 2) ∈ rs.
Proof.
  exists [RValue false (TClass 2); RValue false (TClass 1); RLref true (TClass 0)].
  split; [intros c t; rewrite !elem_of_cons, elem_of_nil; naive_solver|].
  split; [vm_compute; reflexivity|]. split; repeat first [left; done|right].
Qed.

(** Class 0 has a constructor that takes arithmetic type 3, and class 1 has a conversion function to class 0. *)
Definition K2 : classes := Classes false (fun _ _ => false) (fun c c' => bool_decide (c = 1 /\ c' = 0))
  (fun t t' => bool_decide (t = TArith 3 /\ t' = TClass 0)) Nat.max.
Example C52_two_ex : turns K2 (TArith 3) (TClass 0) /\ ~ turns K2 (TClass 0) (TArith 3) /\ turns K2 (TClass 1) (TClass 0) /\
  deduce K2 [RValue false (TArith 3); RValue false (TClass 0)] = Some (RValue false (TClass 0)) /\
  deduce K2 [RValue false (TClass 0); RValue false (TClass 1)] = Some (RValue false (TClass 0)) /\
  deduce K2 [RValue false (TArith 3); RValue false (TClass 1)] = None.
Proof.
  split; [apply turns_other; [split; intros H; inversion H|vm_compute; reflexivity]|].
  split; [intros H; inversion H as [| |t t' _ Ho]; subst; vm_compute in Ho; discriminate Ho|].
  split; [apply turns_function; [split; intros H; inversion H as [|d b Hb]; subst; vm_compute in Hb; discriminate Hb|vm_compute; reflexivity]|].
  vm_compute. done.
Qed.
Example C52_becomes_ex : deduce K2 [RLref true (TClass 1); RValue false (TClass 0); RValue false (TArith 3)] = Some (RValue false (TClass 0)) /\
  becomes K2 (TClass 1) (TClass 0) /\ becomes K2 (TArith 3) (TClass 0).
Proof.
  split; [vm_compute; reflexivity|]. split; [eapply becomes_function|eapply becomes_other]; try constructor; vm_compute; reflexivity.
Qed.

Definition PropsCompile_all := (C50_result_type, C50_generic, C50_any_number_refuted, C50_constness, C50_temporaries_refuted,
  C51_value, C51_variant, C51_body, C51_variant_refuted, C51_explicit_refuted,
  C52_same, C52_lvalue, C52_lvalues, C52_xvalues, C52_arithmetic, C52_outlives, C52_outlives_refuted, C52_becomes, C52_two, C52_const_refuted, C52_base_refuted,
  C53_argument, C53_deduced, C53_referent_refuted).
Print Assumptions PropsCompile_all.
