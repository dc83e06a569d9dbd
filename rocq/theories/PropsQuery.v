(** Properties of comparison, hashing, output and visitation in reachable states. The
    statements use Ask.v, Reach.v and the model's functions only; the proofs are in
    QueryFacts.v. *)
From stdpp Require Import base gmap list numbers.
From Coq Require Import ZArith.
From Verif Require Import Base Types Dispatch Variant Sem Values Client Observe Spec History Reach Lax Queries Ask GetSpec.
From Verif Require Import Check Samples Runs Scenes.
From Verif Require OpFacts QueryFacts.

Section props.
(** Any types and conversions that satisfy the conditions in Spec.v ([good_env]), with
    ([st], [nb] = true) or without the stronger conditions. *)
Context (C : cfg) (st nb : bool) (eqf ltf : uid -> uval -> uval -> bool).
Context (HC : good_env C st nb).
Notation reached := (reached C st nb eqf ltf).
Notation step := (step C st nb eqf ltf).

(** *** C26: visitation of several variants. The visitor is called once, with the contents of
    the variants in their order, and before that nothing happens. Any number of lvalues: *)
Theorem C26_lvalues : forall E s xs vs,
  reached E s -> Forall2 (fun x (v : list ity * loc) => E !! x = Some (BVar v.1 v.2)) xs vs ->
  exists args, Forall2 (fun x (g : arg) => content_of C E s x g.1.1 g.1.2 /\ g.2 = false) xs args /\
    forall A n (f : list arg -> M A), visit_delayed C (sem C n) f vs s = f args s.
Proof. exact (fun E s xs vs Hr => QueryFacts.visit_lvalues C st nb eqf ltf HC E s Hr xs vs). Qed.
(** One or two lvalues or rvalues: *)
Theorem C26_one : forall E s x tys a mv,
  reached E s -> E !! x = Some (BVar tys a) ->
  exists u l, content_of C E s x u l /\
    forall A n (f : list arg -> M A), visit_many C (sem C n) f [(tys, a, mv)] s = f [(u, l, mv)] s.
Proof. exact (fun E s x tys a mv Hr => QueryFacts.visit_one C st nb eqf ltf HC E s Hr x tys a mv). Qed.
Theorem C26_two : forall E s x y tys1 a tys2 b mv1 mv2,
  reached E s -> E !! x = Some (BVar tys1 a) -> E !! y = Some (BVar tys2 b) ->
  exists u1 l1 u2 l2, content_of C E s x u1 l1 /\ content_of C E s y u2 l2 /\
    forall A n (f : list arg -> M A),
      visit_many C (sem C n) f [(tys1, a, mv1); (tys2, b, mv2)] s = f [(u1, l1, mv1); (u2, l2, mv2)] s.
Proof. exact (fun E s x y tys1 a tys2 b mv1 mv2 Hr => QueryFacts.visit_two C st nb eqf ltf HC E s Hr x y tys1 a tys2 b mv1 mv2). Qed.

(** *** C30: equality. *)
Theorem C30_not_equal : forall f E s tys x y,
  reached E s -> is_variant E tys x -> is_variant E tys y ->
  exists b, is_eq C f E s tys x y b /\ is_ne C f E s tys x y (negb b).
Proof. exact (fun f E s tys x y Hr => QueryFacts.equal_not C st nb eqf ltf HC E s Hr f tys x y). Qed.
Theorem C30_equivalence : forall f E s tys,
  reached E s -> (forall u, Equivalence (fun v w => f u v w = true)) ->
  (forall x, is_variant E tys x -> is_eq C f E s tys x x true) /\
  (forall x y, is_eq C f E s tys x y true -> is_eq C f E s tys y x true) /\
  (forall x y z, is_eq C f E s tys x y true -> is_eq C f E s tys y z true -> is_eq C f E s tys x z true).
Proof. exact (fun f E s tys Hr => QueryFacts.equal_equivalence C st nb eqf ltf HC E s Hr f tys). Qed.
Theorem C30_copy_equal : forall f x y E s E' s' tys,
  (forall u v, f u v v = true) -> is_variant E tys y -> step (CCopy x y) E s E' ODone s' -> is_eq C f E' s' tys x y true.
Proof. exact (QueryFacts.copy_equal C st nb eqf ltf HC). Qed.
Theorem C30_assigned_equal : forall f x y E s E' s' tys,
  (forall u v, f u v v = true) -> is_variant E tys y -> step (CAssign x y) E s E' ODone s' -> is_eq C f E' s' tys x y true.
Proof. exact (QueryFacts.assigned_equal C st nb eqf ltf HC). Qed.

(** *** C31: order. *)
Theorem C31_derived : forall f E s tys x y,
  reached E s -> is_variant E tys x -> is_variant E tys y ->
  exists b1 b2, is_lt C f E s tys x y b1 /\ is_lt C f E s tys y x b2 /\
    is_gt C f E s tys x y b2 /\ is_le C f E s tys x y (negb b2) /\ is_ge C f E s tys x y (negb b1).
Proof. exact (fun f E s tys x y Hr => QueryFacts.order_derived C st nb eqf ltf HC E s Hr f tys x y). Qed.
Theorem C31_strict_weak : forall f E s tys,
  reached E s -> (forall u, strict_weak (fun v w => f u v w = true)) ->
  let lt x y := is_lt C f E s tys x y true in
  (forall x, ~ lt x x) /\
  (forall x y z, lt x y -> lt y z -> lt x z) /\
  (forall x y z, is_variant E tys x -> is_variant E tys y -> is_variant E tys z ->
     ~ lt x y -> ~ lt y x -> ~ lt y z -> ~ lt z y -> ~ lt x z /\ ~ lt z x).
Proof. exact (fun f E s tys Hr => QueryFacts.order_strict_weak C st nb eqf ltf HC E s Hr f tys). Qed.
Theorem C31_trichotomy : forall feq flt E s tys x y,
  reached E s ->
  (forall u v w, (flt u v w = true /\ feq u v w = false /\ flt u w v = false) \/
                 (flt u v w = false /\ feq u v w = true /\ flt u w v = false) \/
                 (flt u v w = false /\ feq u v w = false /\ flt u w v = true)) ->
  is_variant E tys x -> is_variant E tys y ->
  (is_lt C flt E s tys x y true /\ is_eq C feq E s tys x y false /\ is_lt C flt E s tys y x false) \/
  (is_lt C flt E s tys x y false /\ is_eq C feq E s tys x y true /\ is_lt C flt E s tys y x false) \/
  (is_lt C flt E s tys x y false /\ is_eq C feq E s tys x y false /\ is_lt C flt E s tys y x true).
Proof. exact (fun feq flt E s tys x y Hr => QueryFacts.order_trichotomy C st nb eqf ltf HC E s Hr feq flt tys x y). Qed.

(** *** C32: hashes. *)
Theorem C32_hash : forall hashf combine E s tys x k t,
  reached E s -> sees C E s x tys k -> tys !! k.1.2 = Some t ->
  forall r, hashes C E s tys hashf combine x r <->
            r = combine (hashf (ity_uid t) (erase k.2)) (Z.of_nat k.1.2).
Proof. exact (fun hf cb E s tys x k t Hr => QueryFacts.hash_iff C st nb eqf ltf HC E s Hr hf cb tys x k t). Qed.
Theorem C32_respects : forall f hashf combine E s tys x y,
  reached E s -> (forall u v w, f u v w = true -> hashf u v = hashf u w) ->
  is_eq C f E s tys x y true ->
  exists r, hashes C E s tys hashf combine x r /\ hashes C E s tys hashf combine y r /\
    std_hashes C E s tys hashf combine x r /\ std_hashes C E s tys hashf combine y r.
Proof. exact (fun f hf cb E s tys x y Hr => QueryFacts.hash_respects C st nb eqf ltf HC E s Hr f hf cb tys x y). Qed.

(** *** C39: visitor_ptr. The function is called iff the content has its parameter's type (and,
    for a parameter [U&], is not const and not an rvalue); otherwise bad_visit is thrown and
    nothing else happens. *)
Theorem C39_visitor_ptr : forall E s x tys a mv U p const,
  reached E s -> E !! x = Some (BVar tys a) ->
  exists u l, content_of C E s x u l /\
    forall A n (g : loc -> M A),
      (u = U -> (p = PRef -> const = false /\ mv = false) ->
       visit1 C (visitor_ptr (sem C n) U p g const) tys a mv s =
         match p with
         | PVal => scoped (stack_obj (fun y => us_copy (sem C n) U y l)) (us_destroy (sem C n) U) g s
         | _ => g l s
         end) /\
      (u <> U \/ p = PRef /\ (const = true \/ mv = true) ->
       exists s', visit1 C (visitor_ptr (sem C n) U p g const) tys a mv s = Exn XBadVisit s' /\ unchanged s s').
Proof. exact (fun E s x tys a mv U p c Hr => QueryFacts.visitor_ptr_spec C st nb eqf ltf HC E s Hr x tys a mv U p c). Qed.

(** *** C29: polymorphic_get gives a pointer to the content iff it is of the class named or of one
    derived from it; the reference form throws instead. [base] is any inheritance relation. *)
Theorem C29_finds : forall E s x tys a base cvar B,
  reached E s -> E !! x = Some (BVar tys a) ->
  exists u l, content_of C E s x u l /\
    (same_or_derived base B u ->
      poly_pointer C base cvar tys a B s = Ok (Some l) s /\ poly_reference C base cvar tys a B s = Ok l s) /\
    (~ same_or_derived base B u ->
      poly_pointer C base cvar tys a B s = Ok None s /\
      exists s', poly_reference C base cvar tys a B s = Exn XBadGet s' /\ unchanged s s').
Proof. exact (fun E s x tys a base cvar B Hr => QueryFacts.poly_spec C st nb eqf ltf HC E s Hr x tys a base cvar B). Qed.

(** *** C40: empty() is false, and rightly so. *)
Theorem C40_empty : forall E s x tys a,
  reached E s -> E !! x = Some (BVar tys a) ->
  exists k t, sees C E s x tys k /\ tys !! k.1.2 = Some t /\ says (fun _ => var_empty a) s false.
Proof. exact (fun E s x tys a Hr => QueryFacts.empty_spec C st nb eqf ltf HC E s Hr x tys a). Qed.

(** *** C47: output. A variant is printed as its content is, and nothing else is printed. *)
Theorem C47_prints : forall print out E s tys x k t,
  reached E s -> sees C E s x tys k -> tys !! k.1.2 = Some t ->
  forall r, prints C E s tys print out x r <-> r = out ++ print (ity_uid t) (erase k.2).
Proof. exact (fun pr out E s tys x k t Hr => QueryFacts.print_iff C st nb eqf ltf HC E s Hr pr out tys x k t). Qed.
End props.

(** *** C44: with three variants, an rvalue argument is emptied although the visitor leaves its
    arguments alone. *)
Definition idle (args : list arg) : M unit := ret tt.
Theorem C44_rvalue_left_alone_refuted : exists C E s s' a1 a2 a3 k k',
  good_env C true false /\ reached C true false eq0 lt0 E s /\
  E !! 1 = Some (BVar VA a1) /\ E !! 2 = Some (BVar VA a2) /\ E !! 3 = Some (BVar VA a3) /\
  settles (fun n => visit_many C (sem C n) idle [(VA, a1, false); (VA, a2, true); (VA, a3, false)]) s (Ok tt s') /\
  sees C E s 2 VA k /\ sees C E s' 2 VA k' /\ erasev k <> erasev k'.
Proof.
  exists C0. run_state C0 true false calm (two VA ++ [CCopy 3 2]).
  set (s := state_of _ _ _ _ _ _ _ _ _). set (E := env_of _ _ _ _ _ _ _ _ _).
  exists (match visit_many C0 (sem C0 8) idle
            [(VA, default 1%positive (root <$> E !! 1), false); (VA, default 1%positive (root <$> E !! 2), true);
             (VA, default 1%positive (root <$> E !! 3), false)] s with Ok _ s' => s' | _ => s end).
  do 3 eexists. exists (false, 1, node9). eexists.
  split; [apply C0_good|]. split; [by_run|].
  do 3 (split; [vm_compute; reflexivity|]).
  split. { exists 8. intros n Hn. rewrite (QueryFacts.visit_many_level C0 8 n); [vm_compute; reflexivity|done|by vm_compute]. }
  split; [by_run|]. split; [apply (look_sees _ 8); vm_compute; reflexivity|done].
Qed.

(** ** Examples: the hypotheses are met by concrete programs *)

(** Three variants: 1 holds loud 5 in a backup after a failed assignment, 2 holds node 9,
    3 is a copy of 1, 4 holds loud 6. *)
Definition four : list cmd :=
  two_assign VA ++ [CCopy 3 1; CMake 14 3 6 []; CFrom 4 VA 14 false].
Notation E4 := (env_of C0 true false 8 8 eq0 lt0 (throws_at [11]) four).
Notation s4 := (state_of C0 true false 8 8 eq0 lt0 (throws_at [11]) four).
Definition key (v : uval) : Z := match v with UV z _ => default 0%Z z end.
Definition ltd (u : uid) (v w : uval) : bool := bool_decide (key v < key w)%Z.
Definition eqd (u : uid) (v w : uval) : bool := bool_decide (key v = key w).
Definition hashd (u : uid) (v : uval) : Z := (key v * 31)%Z.
Lemma ltd_strict_weak u : strict_weak (fun v w => ltd u v w = true).
Proof. unfold ltd. split; intros x; [|intros y z..]; rewrite !bool_decide_eq_true; lia. Qed.
Lemma eqd_equivalence u : Equivalence (fun v w => eqd u v w = true).
Proof. unfold eqd. split; [intros x|intros x y|intros x y z]; rewrite !bool_decide_eq_true; congruence. Qed.

Ltac at4 := first [ apply runs_reached; by vm_compute | apply (look_sees _ 8); by vm_compute ].
Lemma reached4 : reached C0 true false eq0 lt0 E4 s4.
Proof. at4. Qed.
Lemma sees4 : sees C0 E4 s4 1 VA (true, 0, loud5) /\ sees C0 E4 s4 2 VA (false, 1, node9) /\
  sees C0 E4 s4 3 VA (false, 0, loud5) /\ sees C0 E4 s4 4 VA (false, 0, UV (Some 6%Z) []).
Proof. repeat split; at4. Qed.

Example C26_ex : exists E s xs vs, reached C0 true false eq0 lt0 E s /\ length xs = 4 /\
  Forall2 (fun x (v : list ity * loc) => E !! x = Some (BVar v.1 v.2)) xs vs /\
  sees C0 E s 1 VA (true, 0, loud5).
Proof.
  exists E4, s4, [1; 2; 3; 1].
  exists [(VA, default 1%positive (root <$> E4 !! 1)); (VA, default 1%positive (root <$> E4 !! 2));
          (VA, default 1%positive (root <$> E4 !! 3)); (VA, default 1%positive (root <$> E4 !! 1))].
  split; [apply reached4|]. split; [done|]. split; [|apply sees4].
  repeat (constructor; [by vm_compute|]). constructor.
Qed.
Example C30_ex : exists E s, reached C0 true false eq0 lt0 E s /\ (forall u, Equivalence (fun v w => eqd u v w = true)) /\
  is_eq C0 eqd E s VA 1 3 true /\ is_eq C0 eqd E s VA 1 4 false /\ is_ne C0 eqd E s VA 1 4 true.
Proof.
  exists E4, s4. destruct sees4 as (S1&S2&S3&S4). split; [apply reached4|]. split; [apply eqd_equivalence|].
  split; [|split].
  - by apply (QueryFacts.is_eq_iff C0 true false eq0 lt0 C0_good _ _ reached4 eqd VA 1 3 _ _ (IPlain 3) S1 S3).
  - by apply (QueryFacts.is_eq_iff C0 true false eq0 lt0 C0_good _ _ reached4 eqd VA 1 4 _ _ (IPlain 3) S1 S4).
  - by apply (QueryFacts.is_ne_iff C0 true false eq0 lt0 C0_good _ _ reached4 eqd VA 1 4 _ _ (IPlain 3) S1 S4).
Qed.
Example C30_copy_ex : exists E s E' s', step C0 true false eq0 lt0 (CCopy 3 1) E s E' ODone s' /\
  is_variant E VA 1 /\ sees C0 E s 1 VA (true, 0, loud5) /\ (forall u v, eqd u v v = true).
Proof.
  run_step C0 true false (throws_at [11]) (two_assign VA) (CCopy 3 1). split; [by_run|]. split; [eexists; vm_compute; reflexivity|].
  split; [by_run|]. intros u v. by apply bool_decide_eq_true.
Qed.
Example C31_ex : exists E s, reached C0 true false eq0 lt0 E s /\ (forall u, strict_weak (fun v w => ltd u v w = true)) /\
  is_lt C0 ltd E s VA 1 4 true /\ is_lt C0 ltd E s VA 4 2 true /\ is_le C0 ltd E s VA 1 3 true /\ is_gt C0 ltd E s VA 1 3 false.
Proof.
  exists E4, s4. destruct sees4 as (S1&S2&S3&S4). split; [apply reached4|]. split; [apply ltd_strict_weak|].
  split; [|split; [|split]].
  - by apply (QueryFacts.is_lt_iff C0 true false eq0 lt0 C0_good _ _ reached4 ltd VA 1 4 _ _ (IPlain 3) S1 S4).
  - by apply (QueryFacts.is_lt_iff C0 true false eq0 lt0 C0_good _ _ reached4 ltd VA 4 2 _ _ (IPlain 3) S4 S2).
  - by apply (QueryFacts.is_le_iff C0 true false eq0 lt0 C0_good _ _ reached4 ltd VA 1 3 _ _ (IPlain 3) S1 S3).
  - by apply (QueryFacts.is_gt_iff C0 true false eq0 lt0 C0_good _ _ reached4 ltd VA 1 3 _ _ (IPlain 3) S1 S3).
Qed.
Example C31_trichotomy_ex : forall u v w : _,
  (ltd u v w = true /\ eqd u v w = false /\ ltd u w v = false) \/
  (ltd u v w = false /\ eqd u v w = true /\ ltd u w v = false) \/
  (ltd u v w = false /\ eqd u v w = false /\ ltd u w v = true).
Proof. intros u v w. unfold ltd, eqd. rewrite !bool_decide_eq_true, !bool_decide_eq_false. lia. Qed.
Example C32_ex : exists E s, reached C0 true false eq0 lt0 E s /\ (forall u v w, eqd u v w = true -> hashd u v = hashd u w) /\
  is_eq C0 eqd E s VA 1 3 true /\ hashes C0 E s VA hashd Z.add 1 155%Z /\ hashes C0 E s VA hashd Z.add 2 280%Z.
Proof.
  exists E4, s4. destruct sees4 as (S1&S2&S3&S4). split; [apply reached4|].
  split. { intros u v w H. apply bool_decide_eq_true in H. unfold hashd. congruence. }
  split; [|split].
  - by apply (QueryFacts.is_eq_iff C0 true false eq0 lt0 C0_good _ _ reached4 eqd VA 1 3 _ _ (IPlain 3) S1 S3).
  - by apply (QueryFacts.hash_iff C0 true false eq0 lt0 C0_good _ _ reached4 hashd Z.add VA 1 _ (IPlain 3) S1).
  - by apply (QueryFacts.hash_iff C0 true false eq0 lt0 C0_good _ _ reached4 hashd Z.add VA 2 _ (IPlain 4) S2).
Qed.
(** A function of a node, and one of a loud, applied to variant 1 (which holds a loud, in a
    backup). *)
Example C39_ex : exists E s a, reached C0 true false eq0 lt0 E s /\ E !! 1 = Some (BVar VA a) /\
  (exists s', visit1 C0 (visitor_ptr (sem C0 8) 4 PConstRef (fun l => ret true) false) VA a false s = Exn XBadVisit s') /\
  (exists s', visit1 C0 (visitor_ptr (sem C0 8) 3 PConstRef (fun l => ret true) false) VA a false s = Ok true s') /\
  (exists s', visit1 C0 (visitor_ptr (sem C0 8) 3 PRef (fun l => ret true) true) VA a false s = Exn XBadVisit s').
Proof.
  exists E4, s4. eexists. split; [apply reached4|]. split; [vm_compute; reflexivity|].
  repeat split; eexists; vm_compute; reflexivity.
Qed.
Example C29_ex : exists E s a, reached C0 true false eq0 lt0 E s /\ E !! 1 = Some (BVar VA a) /\
  (exists l s', poly_pointer C0 (fun b d => bool_decide (b = 9 /\ d = 3)) true VA a 9 s = Ok (Some l) s') /\
  (exists s', poly_pointer C0 (fun b d => bool_decide (b = 9 /\ d = 3)) true VA a 8 s = Ok None s') /\
  (exists s', poly_reference C0 (fun b d => bool_decide (b = 9 /\ d = 3)) false VA a 8 s = Exn XBadGet s').
Proof.
  exists E4, s4. eexists. split; [apply reached4|]. split; [vm_compute; reflexivity|].
  split; [do 2 eexists; vm_compute; reflexivity|].
  split; eexists; vm_compute; reflexivity.
Qed.
Example C47_ex : exists E s, reached C0 true false eq0 lt0 E s /\
  prints C0 E s VA (fun u v => [Z.of_nat u; key v]) [7%Z] 1 [7%Z; 3%Z; 5%Z].
Proof.
  exists E4, s4. destruct sees4 as (S1&S2&S3&S4). split; [apply reached4|].
  by apply (QueryFacts.print_iff C0 true false eq0 lt0 C0_good _ _ reached4 _ _ VA 1 _ (IPlain 3) S1).
Qed.

(** All of them at once: "Closed under the global context" means that each is. *)
Definition PropsQuery_all :=
  (C26_lvalues, C26_one, C26_two, C30_not_equal, C30_equivalence, C30_copy_equal, C30_assigned_equal, C31_derived, C31_strict_weak, C31_trichotomy, C32_hash, C32_respects, C39_visitor_ptr, C29_finds, C40_empty, C47_prints, C44_rvalue_left_alone_refuted).
Print Assumptions PropsQuery_all.
