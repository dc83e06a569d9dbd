(** Queries in reachable states (proofs). *)
From stdpp Require Import gmap.
From iris.proofmode Require Import tactics.
From Verif Require Import Base Types TypesFacts Dispatch Variant Sem Values ValuesFacts Client Observe ObserveFacts Spec Trace TraceFacts History Owned OwnedFacts.
From Verif Require Import Heap Wp Rep Link SpecInt SpecVar SpecAssign SpecSem SpecQuery World ClientProof Levels HistoryProof Reach ReachFacts Raises ReadOnly CoreFacts.
From Verif Require Import Queries Ask GetTypes GetSpec.
From Verif Require GetFacts.
From Verif Require OpFacts.

Lemma unchanged_refl s : unchanged s s. Proof. done. Qed.
Lemma unchanged_throw s e : unchanged s (match @throw unit e s with Exn _ s' => s' | _ => s end). Proof. done. Qed.
Lemma unchanged_trans s1 s2 s3 : unchanged s1 s2 -> unchanged s2 s3 -> unchanged s1 s3.
Proof. intros (?&?&?&?&?) (?&?&?&?&?). repeat split; congruence. Qed.

Section facts.
Context (C : cfg) (st nb : bool) (eqf ltf : uid -> uval -> uval -> bool).
Context (HC : good_env C st nb).
Notation reached := (reached C st nb eqf ltf).
Notation step := (step C st nb eqf ltf).
Notation W := (WPar st nb).
Notation sees := (sees C).

(** What can be done with the variant named [x]: [view s tys a k u l] for its bounded types,
    address, content, the content's type and address. *)
Record view (s : state) (tys : list ity) (a : loc) (k : vval) (u : uid) (l : loc) : Prop := View {
  view_type : exists t, tys !! k.1.2 = Some t /\ ity_uid t = u;
  view_value : value_at C s l u k.2;
  view_stored : stored_at (mem s) a l;
  view_visit s' A (f : uid -> loc -> M A) : mem s' = mem s -> visit_user C tys a f s' = f u l s';
  view_which s' : mem s' = mem s -> which a s' = Ok (Z.of_nat k.1.2) s';
  view_read s' : mem s' = mem s -> exists s'', unchanged s' s'' /\
    forall n, depth k.2 <= n -> us_read (sem C n) u l s' = Ok k.2 s''
}.

Lemma reached_view E s x tys a k : reached E s -> E !! x = Some (BVar tys a) -> sees E s x tys k ->
  exists u l, view s tys a k u l.
Proof.
  intros Hr Hx (a'&Hx'&Hk'). rewrite Hx in Hx'. injection Hx' as <-.
  destruct (reached_inv _ _ _ _ _ HC _ _ Hr) as (B&σ&Hi). pose proof (inv_shows _ _ _ _ _ _ _ Hi) as Hs.
  destruct Hi as [Hw _ _]. pose proof (Hs x) as Hsx. rewrite Hx in Hsx.
  destruct (σ !! x) as [[tys' k0|u v]|] eqn:Hσ; [|done..]. destruct Hsx as [-> Hk].
  rewrite (var_holds_unique _ _ _ _ _ _ Hk' Hk). clear k Hk'. rename k0 into k.
  destruct (own_part C W E σ x _ _ _ Hw Hx Hσ) as (h'&Hsub&Ho). simpl in Ho.
  destruct Ho as (h1&h2&->&_&Ht&HR). destruct (apure_inv (tys = tys) _ Ht) as [-> _]. rewrite left_id_L in Hsub.
  pose proof (Rvar_open_stored C W (ge_lim _ _ _ HC) tys a k) as Hop. apply (hprop_in_entails _ _ Hop) in HR as Ho.
  destruct Ho as (t&l&kd&w&h3&h4&->&_&Htt&Hl&Hst&HT). destruct (apure_inv (tys !! k.1.2 = Some t) _ Htt) as [-> Htt'].
  rewrite left_id_L in Hsub HR. exists (ity_uid t), l. split.
  - by exists t.
  - destruct HT as (h5&h6&->&_&(o&h7&h8&->&Hd78&Hp&HR')&_).
    exists (Cell kd (Some o) w), o, (depth k.2). split; [|split; [done|]].
    + by eapply pt_see, sub_l, sub_l.
    + eapply R_see; [done| |done]. eapply sub_r; [done|]. by eapply sub_l.
  - by apply Hst.
  - intros s' A f Hm. apply Hl. by rewrite Hm.
  - intros s' Hm. pose proof (Rvar_which C W tys a k) as Hwh.
    destruct (hprop_in_entails _ _ Hwh _ HR s') as (s''&Hw'&_); [by rewrite Hm|].
    revert Hw'. unfold which, read_which, get_cell, bind. destruct (mem s' !! a) as [[? ? [?|]]|]; simpl; [|done..].
    by intros [= -> _].
  - intros s' Hm. destruct HT as (h5&h6&->&Hd56&HT&_).
    assert (Hsub5 : h5 ⊆ mem s'). { rewrite Hm. by eapply sub_l. }
    destruct (hprop_in_entails _ _ (rd_us_read C W (ge_lim _ _ _ HC) (depth k.2) (ity_uid t) l kd w k.2 ltac:(lia)) _ HT s' Hsub5)
      as (s''&Hrd&Hsm&Hn&Htr&_&Ho&Hop'&_).
    exists s''. split; [done|]. intros n Hn'.
    destruct (le_read _ _ (mono_sem C (depth k.2) n Hn') (ity_uid t) l s') as [Hf|Hf]; congruence.
Qed.

Lemma says_intro {A} (m : nat -> M A) s s' r n0 : unchanged s s' -> (forall n, n0 <= n -> m n s = Ok r s') -> says m s r.
Proof. intros Hu Hm. exists s'. split; [by exists n0|done]. Qed.
Lemma says_unique {A} (m : nat -> M A) s r1 r2 : says m s r1 -> says m s r2 -> r1 = r2.
Proof.
  intros (s1&[n1 H1]&_) (s2&[n2 H2]&_). specialize (H1 (n1 + n2) ltac:(lia)). specialize (H2 (n1 + n2) ltac:(lia)). congruence.
Qed.

(** *** Comparison *)
Definition eq_of (t : uid) (f : uid -> uval -> uval -> bool) (k1 k2 : vval) : bool :=
  bool_decide (k1.1.2 = k2.1.2) && f t (erase k1.2) (erase k2.2).
Definition lt_of (t : uid) (f : uid -> uval -> uval -> bool) (k1 k2 : vval) : bool :=
  bool_decide (k1.1.2 < k2.1.2) || (bool_decide (k1.1.2 = k2.1.2) && f t (erase k1.2) (erase k2.2)).

Lemma compare_view s tys a b k1 k2 u1 u2 l1 l2 f : view s tys a k1 u1 l1 -> view s tys b k2 u2 l2 -> k1.1.2 = k2.1.2 ->
  exists s', unchanged s s' /\ forall n, depth k1.2 + depth k2.2 <= n ->
    visit_user C tys b (comparer C (sem C n) tys (seen2 f) a) s = Ok (f u1 (erase k1.2) (erase k2.2)) s'.
Proof.
  intros [(t1&Ht1&<-) _ _ Hv1 _ Hr1] [(t2&Ht2&<-) _ _ Hv2 _ Hr2] Hi. rewrite -Hi Ht1 in Ht2. injection Ht2 as <-.
  destruct (Hr1 s eq_refl) as (s1&Hu1&He1). destruct (Hr2 s1) as (s2&Hu2&He2); [by destruct Hu1|].
  exists s2. split; [by eapply unchanged_trans|]. intros n Hn. rewrite Hv2 //. unfold comparer, known_get, bind.
  rewrite Hv1 // decide_True //= He1; [|lia]. rewrite He2; [done|lia].
Qed.
Lemma eq_view s tys a b k1 k2 u1 u2 l1 l2 f : view s tys a k1 u1 l1 -> view s tys b k2 u2 l2 ->
  says (fun n => var_eq C (sem C n) tys (seen2 f) a b) s (eq_of u1 f k1 k2).
Proof.
  intros V1 V2. pose proof V1 as [_ _ _ _ Hw1 _]. pose proof V2 as [_ _ _ _ Hw2 _]. unfold eq_of.
  destruct (decide (k1.1.2 = k2.1.2)) as [Hi|Hi].
  - destruct (compare_view _ _ _ _ _ _ _ _ _ _ f V1 V2 Hi) as (s'&Hu&Hc).
    apply (says_intro _ _ s' _ (depth k1.2 + depth k2.2)); [done|]. intros n Hn.
    unfold var_eq, bind. rewrite Hw1 // Hw2 // decide_True; [|by rewrite Hi]. rewrite Hc // bool_decide_true //.
  - apply (says_intro _ _ s _ 0); [done|]. intros n _. unfold var_eq, bind. rewrite Hw1 // Hw2 // decide_False; [|lia].
    rewrite bool_decide_false //.
Qed.
Lemma lt_view s tys a b k1 k2 u1 u2 l1 l2 f : view s tys a k1 u1 l1 -> view s tys b k2 u2 l2 ->
  says (fun n => var_lt C (sem C n) tys (seen2 f) a b) s (lt_of u1 f k1 k2).
Proof.
  intros V1 V2. pose proof V1 as [_ _ _ _ Hw1 _]. pose proof V2 as [_ _ _ _ Hw2 _]. unfold lt_of.
  destruct (decide (k1.1.2 = k2.1.2)) as [Hi|Hi].
  - destruct (compare_view _ _ _ _ _ _ _ _ _ _ f V1 V2 Hi) as (s'&Hu&Hc).
    apply (says_intro _ _ s' _ (depth k1.2 + depth k2.2)); [done|]. intros n Hn.
    unfold var_lt, bind. rewrite Hw1 // Hw2 // decide_True; [|by rewrite Hi]. rewrite Hc //.
    rewrite (bool_decide_false (k1.1.2 < k2.1.2)); [|lia]. rewrite bool_decide_true //.
  - apply (says_intro _ _ s _ 0); [done|]. intros n _. unfold var_lt, bind. rewrite Hw1 // Hw2 // decide_False; [|lia].
    rewrite (bool_decide_false (k1.1.2 = k2.1.2)) // andb_false_l orb_false_r /ret. f_equal. apply bool_decide_ext. lia.
Qed.
Lemma says_negb (m : nat -> M bool) s b : says m s b -> says (fun n => let! r := m n in ret (negb r)) s (negb b).
Proof.
  intros (s'&[n0 H]&Hu). apply (says_intro _ _ s' _ n0); [done|]. intros n Hn. unfold bind. rewrite H //.
Qed.

Section two.
Context (E : env) (s : state) (Hr : reached E s).
Context (x y : name) (tys : list ity) (a b : loc) (k1 k2 : vval).
Context (Hx : E !! x = Some (BVar tys a)) (Hy : E !! y = Some (BVar tys b)).
Context (Hk1 : sees E s x tys k1) (Hk2 : sees E s y tys k2).
Context (t : ity) (Ht : tys !! k1.1.2 = Some t).

Lemma view_t k u l c : view s tys c k u l -> forall t', tys !! k.1.2 = Some t' -> ity_uid t' = u.
Proof. intros [(t'&Ht'&<-) _ _ _ _ _] t2 Ht2. congruence. Qed.

Lemma eq_two f : says (fun n => var_eq C (sem C n) tys (seen2 f) a b) s (eq_of (ity_uid t) f k1 k2).
Proof.
  destruct (reached_view _ _ _ _ _ _ Hr Hx Hk1) as (u1&l1&V1). destruct (reached_view _ _ _ _ _ _ Hr Hy Hk2) as (u2&l2&V2).
  rewrite (view_t _ _ _ _ V1 _ Ht). by eapply eq_view.
Qed.
Lemma lt_two f : says (fun n => var_lt C (sem C n) tys (seen2 f) a b) s (lt_of (ity_uid t) f k1 k2).
Proof.
  destruct (reached_view _ _ _ _ _ _ Hr Hx Hk1) as (u1&l1&V1). destruct (reached_view _ _ _ _ _ _ Hr Hy Hk2) as (u2&l2&V2).
  rewrite (view_t _ _ _ _ V1 _ Ht). by eapply lt_view.
Qed.
Lemma ne_two f : says (fun n => var_ne C (sem C n) tys (seen2 f) a b) s (negb (eq_of (ity_uid t) f k1 k2)).
Proof. apply says_negb, eq_two. Qed.
Lemma ge_two f : says (fun n => var_ge C (sem C n) tys (seen2 f) a b) s (negb (lt_of (ity_uid t) f k1 k2)).
Proof. apply says_negb, lt_two. Qed.
End two.

Section one.
Context (E : env) (s : state) (Hr : reached E s).

Lemma variant_view x tys a : E !! x = Some (BVar tys a) -> exists k u l, sees E s x tys k /\ view s tys a k u l.
Proof.
  intros Hx. destruct (reached_sees _ _ _ _ _ HC _ _ _ _ _ Hr Hx) as (k&t&Hk&_).
  destruct (reached_view _ _ _ _ _ _ Hr Hx Hk) as (u&l&V). by exists k, u, l.
Qed.
Lemma sees_addr x tys k : sees E s x tys k -> exists a, E !! x = Some (BVar tys a).
Proof. intros (a&Ha&_). by exists a. Qed.

Lemma compares_open tys x y op r k1 k2 t : sees E s x tys k1 -> sees E s y tys k2 -> tys !! k1.1.2 = Some t ->
  (forall a b, E !! x = Some (BVar tys a) -> E !! y = Some (BVar tys b) -> says (fun n => op (sem C n) a b) s r) ->
  forall r', compares C E s tys op x y r' <-> r' = r.
Proof.
  intros H1 H2 Ht Hs r'. destruct (sees_addr _ _ _ H1) as [a Ha]. destruct (sees_addr _ _ _ H2) as [b Hb]. split.
  - intros (a'&b'&Ha'&Hb'&Hr'). eapply says_unique; [done|]. by apply Hs.
  - intros ->. exists a, b. split; [done|]. split; [done|]. by apply Hs.
Qed.

Lemma is_eq_iff f tys x y k1 k2 t : sees E s x tys k1 -> sees E s y tys k2 -> tys !! k1.1.2 = Some t ->
  forall r, is_eq C f E s tys x y r <-> r = eq_of (ity_uid t) f k1 k2.
Proof. intros H1 H2 Ht. eapply compares_open; [done..|]. intros a b Ha Hb. by eapply eq_two. Qed.
Lemma is_ne_iff f tys x y k1 k2 t : sees E s x tys k1 -> sees E s y tys k2 -> tys !! k1.1.2 = Some t ->
  forall r, is_ne C f E s tys x y r <-> r = negb (eq_of (ity_uid t) f k1 k2).
Proof. intros H1 H2 Ht. eapply compares_open; [done..|]. intros a b Ha Hb. by eapply ne_two. Qed.
Lemma is_lt_iff f tys x y k1 k2 t : sees E s x tys k1 -> sees E s y tys k2 -> tys !! k1.1.2 = Some t ->
  forall r, is_lt C f E s tys x y r <-> r = lt_of (ity_uid t) f k1 k2.
Proof. intros H1 H2 Ht. eapply compares_open; [done..|]. intros a b Ha Hb. by eapply lt_two. Qed.
Lemma is_ge_iff f tys x y k1 k2 t : sees E s x tys k1 -> sees E s y tys k2 -> tys !! k1.1.2 = Some t ->
  forall r, is_ge C f E s tys x y r <-> r = negb (lt_of (ity_uid t) f k1 k2).
Proof. intros H1 H2 Ht. eapply compares_open; [done..|]. intros a b Ha Hb. by eapply ge_two. Qed.
Lemma is_gt_iff f tys x y k1 k2 t : sees E s x tys k1 -> sees E s y tys k2 -> tys !! k2.1.2 = Some t ->
  forall r, is_gt C f E s tys x y r <-> r = lt_of (ity_uid t) f k2 k1.
Proof.
  intros H1 H2 Ht r. rewrite -(is_lt_iff f tys y x k2 k1 t) //. unfold is_gt, is_lt, compares, var_gt.
  split; intros (a&b&Ha&Hb&Hc); by exists b, a.
Qed.
Lemma is_le_iff f tys x y k1 k2 t : sees E s x tys k1 -> sees E s y tys k2 -> tys !! k2.1.2 = Some t ->
  forall r, is_le C f E s tys x y r <-> r = negb (lt_of (ity_uid t) f k2 k1).
Proof.
  intros H1 H2 Ht. assert (exists t', tys !! k1.1.2 = Some t') as [t' Ht'].
  { destruct (sees_addr _ _ _ H1) as [a Ha]. destruct (reached_view _ _ _ _ _ _ Hr Ha H1) as (u&l&[(t'&?&_) _ _ _ _]). by exists t'. }
  eapply compares_open; [done..|]. intros a b Ha Hb. unfold var_le. apply says_negb. unfold var_gt. by eapply lt_two.
Qed.

Lemma variant_sees tys x : is_variant E tys x -> exists k t, sees E s x tys k /\ tys !! k.1.2 = Some t.
Proof. intros [a Ha]. by eapply reached_sees. Qed.

(** Equality. *)
Lemma equal_not f tys x y : is_variant E tys x -> is_variant E tys y ->
  exists b, is_eq C f E s tys x y b /\ is_ne C f E s tys x y (negb b).
Proof.
  intros (k1&t1&H1&Ht1)%variant_sees (k2&t2&H2&Ht2)%variant_sees. exists (eq_of (ity_uid t1) f k1 k2).
  rewrite (is_eq_iff f _ _ _ _ _ _ H1 H2 Ht1) (is_ne_iff f _ _ _ _ _ _ H1 H2 Ht1) //.
Qed.
Lemma eq_of_true u f k1 k2 : eq_of u f k1 k2 = true <-> k1.1.2 = k2.1.2 /\ f u (erase k1.2) (erase k2.2) = true.
Proof. unfold eq_of. rewrite andb_true_iff bool_decide_eq_true //. Qed.
Lemma lt_of_true u f k1 k2 : lt_of u f k1 k2 = true <->
  k1.1.2 < k2.1.2 \/ k1.1.2 = k2.1.2 /\ f u (erase k1.2) (erase k2.2) = true.
Proof. unfold lt_of. rewrite orb_true_iff andb_true_iff !bool_decide_eq_true //. Qed.

Lemma equal_equivalence f tys : (forall u, Equivalence (fun v w => f u v w = true)) ->
  (forall x, is_variant E tys x -> is_eq C f E s tys x x true) /\
  (forall x y, is_eq C f E s tys x y true -> is_eq C f E s tys y x true) /\
  (forall x y z, is_eq C f E s tys x y true -> is_eq C f E s tys y z true -> is_eq C f E s tys x z true).
Proof.
  intros Hf. assert (Hv : forall x y r, is_eq C f E s tys x y r -> is_variant E tys x /\ is_variant E tys y).
  { intros x y r (a&b&Ha&Hb&_). split; [by exists a|by exists b]. }
  split; [|split].
  - intros x (k&t&H&Ht)%variant_sees. rewrite (is_eq_iff f _ _ _ _ _ _ H H Ht). symmetry. apply eq_of_true.
    split; [done|]. exact (@Equivalence_Reflexive _ _ (Hf (ity_uid t)) _).
  - intros x y He. destruct (Hv _ _ _ He) as [(k1&t1&H1&Ht1)%variant_sees (k2&t2&H2&Ht2)%variant_sees].
    revert He. rewrite (is_eq_iff f _ _ _ _ _ _ H1 H2 Ht1) (is_eq_iff f _ _ _ _ _ _ H2 H1 Ht2).
    intros He. symmetry in He |- *. apply eq_of_true in He as [Hi He]. apply eq_of_true. split; [done|].
    rewrite Hi in Ht1. rewrite Ht1 in Ht2. injection Ht2 as <-. exact (@Equivalence_Symmetric _ _ (Hf (ity_uid t1)) _ _ He).
  - intros x y z He1 He2. destruct (Hv _ _ _ He1) as [(k1&t1&H1&Ht1)%variant_sees (k2&t2&H2&Ht2)%variant_sees].
    destruct (Hv _ _ _ He2) as [_ (k3&t3&H3&Ht3)%variant_sees]. revert He1 He2.
    rewrite (is_eq_iff f _ _ _ _ _ _ H1 H2 Ht1) (is_eq_iff f _ _ _ _ _ _ H2 H3 Ht2) (is_eq_iff f _ _ _ _ _ _ H1 H3 Ht1).
    intros He1 He2. symmetry in He1, He2 |- *. apply eq_of_true in He1 as [Hi1 He1]. apply eq_of_true in He2 as [Hi2 He2].
    apply eq_of_true. split; [congruence|]. rewrite Hi1 in Ht1. rewrite Ht1 in Ht2. injection Ht2 as <-.
    exact (@Equivalence_Transitive _ _ (Hf (ity_uid t1)) _ _ _ He1 He2).
Qed.

(** Order. *)
Lemma order_derived f tys x y : is_variant E tys x -> is_variant E tys y ->
  exists b1 b2, is_lt C f E s tys x y b1 /\ is_lt C f E s tys y x b2 /\
    is_gt C f E s tys x y b2 /\ is_le C f E s tys x y (negb b2) /\ is_ge C f E s tys x y (negb b1).
Proof.
  intros (k1&t1&H1&Ht1)%variant_sees (k2&t2&H2&Ht2)%variant_sees.
  exists (lt_of (ity_uid t1) f k1 k2), (lt_of (ity_uid t2) f k2 k1).
  rewrite (is_lt_iff f _ _ _ _ _ _ H1 H2 Ht1) (is_lt_iff f _ _ _ _ _ _ H2 H1 Ht2) (is_gt_iff f _ _ _ _ _ _ H1 H2 Ht2)
    (is_le_iff f _ _ _ _ _ _ H1 H2 Ht2) (is_ge_iff f _ _ _ _ _ _ H1 H2 Ht1) //.
Qed.

Lemma order_strict_weak f tys : (forall u, strict_weak (fun v w => f u v w = true)) ->
  let lt x y := is_lt C f E s tys x y true in
  (forall x, ~ lt x x) /\
  (forall x y z, lt x y -> lt y z -> lt x z) /\
  (forall x y z, is_variant E tys x -> is_variant E tys y -> is_variant E tys z ->
     ~ lt x y -> ~ lt y x -> ~ lt y z -> ~ lt z y -> ~ lt x z /\ ~ lt z x).
Proof.
  intros Hf lt. assert (Hv : forall x y r, is_lt C f E s tys x y r -> is_variant E tys x /\ is_variant E tys y).
  { intros x y r (a&b&Ha&Hb&_). split; [by exists a|by exists b]. }
  assert (Hi : forall x y k1 k2 t, sees E s x tys k1 -> sees E s y tys k2 -> tys !! k1.1.2 = Some t ->
    lt x y <-> k1.1.2 < k2.1.2 \/ k1.1.2 = k2.1.2 /\ f (ity_uid t) (erase k1.2) (erase k2.2) = true).
  { intros x y k1 k2 t H1 H2 Ht. unfold lt. rewrite (is_lt_iff f _ _ _ _ _ _ H1 H2 Ht) -lt_of_true. done. }
  assert (Ht' : forall x (i j : nat) (t1 t2 : ity), i = j -> tys !! i = Some t1 -> tys !! j = Some t2 -> x = ity_uid t1 -> x = ity_uid t2)
    by (intros; congruence).
  split; [|split].
  - intros x Hl. destruct (Hv _ _ _ Hl) as [(k&t&H&Ht)%variant_sees _]. destruct (proj1 (Hi _ _ _ _ _ H H Ht) Hl) as [Hl'|[_ Hl']]; [lia|].
    exact (sw_irrefl _ (Hf _) _ Hl').
  - intros x y z Hl1 Hl2. destruct (Hv _ _ _ Hl1) as [(k1&t1&H1&Ht1)%variant_sees (k2&t2&H2&Ht2)%variant_sees].
    destruct (Hv _ _ _ Hl2) as [_ (k3&t3&H3&Ht3)%variant_sees].
    apply (Hi _ _ _ _ _ H1 H2 Ht1) in Hl1. apply (Hi _ _ _ _ _ H2 H3 Ht2) in Hl2. apply (Hi _ _ _ _ _ H1 H3 Ht1).
    destruct Hl1 as [Hl1|[He1 Hl1]], Hl2 as [Hl2|[He2 Hl2]]; [left; lia..|]. right. split; [congruence|].
    rewrite He1 in Ht1. rewrite Ht1 in Ht2. injection Ht2 as <-. by eapply (sw_trans _ (Hf _)).
  - intros x y z (k1&t1&H1&Ht1)%variant_sees (k2&t2&H2&Ht2)%variant_sees (k3&t3&H3&Ht3)%variant_sees.
    rewrite (Hi _ _ _ _ _ H1 H2 Ht1) (Hi _ _ _ _ _ H2 H1 Ht2) (Hi _ _ _ _ _ H2 H3 Ht2) (Hi _ _ _ _ _ H3 H2 Ht3)
      (Hi _ _ _ _ _ H1 H3 Ht1) (Hi _ _ _ _ _ H3 H1 Ht3).
    intros N1 N2 N3 N4. assert (He1 : k1.1.2 = k2.1.2) by lia. assert (He2 : k2.1.2 = k3.1.2) by lia.
    pose proof Ht1 as Ht1'. rewrite He1 Ht2 in Ht1'. injection Ht1' as <-. pose proof Ht2 as Ht2'. rewrite He2 Ht3 in Ht2'. injection Ht2' as <-.
    destruct (sw_incomp _ (Hf (ity_uid t3)) (erase k1.2) (erase k2.2) (erase k3.2)) as [A B].
    + intros ?; apply N1; by right.
    + intros ?; apply N2; by right.
    + intros ?; apply N3; by right.
    + intros ?; apply N4; by right.
    + split; intros [Hl|[_ Hl]]; [lia|done|lia|done].
Qed.

Lemma order_trichotomy feq flt tys x y :
  (forall u v w, (flt u v w = true /\ feq u v w = false /\ flt u w v = false) \/
                 (flt u v w = false /\ feq u v w = true /\ flt u w v = false) \/
                 (flt u v w = false /\ feq u v w = false /\ flt u w v = true)) ->
  is_variant E tys x -> is_variant E tys y ->
  (is_lt C flt E s tys x y true /\ is_eq C feq E s tys x y false /\ is_lt C flt E s tys y x false) \/
  (is_lt C flt E s tys x y false /\ is_eq C feq E s tys x y true /\ is_lt C flt E s tys y x false) \/
  (is_lt C flt E s tys x y false /\ is_eq C feq E s tys x y false /\ is_lt C flt E s tys y x true).
Proof.
  intros Hf (k1&t1&H1&Ht1)%variant_sees (k2&t2&H2&Ht2)%variant_sees.
  rewrite !(is_lt_iff flt _ _ _ _ _ _ H1 H2 Ht1) !(is_lt_iff flt _ _ _ _ _ _ H2 H1 Ht2) !(is_eq_iff feq _ _ _ _ _ _ H1 H2 Ht1).
  unfold lt_of, eq_of. destruct (Nat.lt_trichotomy k1.1.2 k2.1.2) as [Hi|[Hi|Hi]].
  - left. rewrite !(bool_decide_true (k1.1.2 < _)) // !(bool_decide_false (k1.1.2 = k2.1.2)); [|lia].
    rewrite !(bool_decide_false (k2.1.2 < k1.1.2)); [|lia]. rewrite !(bool_decide_false (k2.1.2 = k1.1.2)); [|lia]. done.
  - rewrite -Hi in Ht2. rewrite Ht1 in Ht2. injection Ht2 as <-.
    rewrite !(bool_decide_true (_ = _)) // !(bool_decide_false (_ < _)); [|lia..].
    rewrite !orb_false_l !andb_true_l. destruct (Hf (ity_uid t1) (erase k1.2) (erase k2.2)) as [(->&->&->)|[(->&->&->)|(->&->&->)]]; auto.
  - right. right. rewrite !(bool_decide_true (k2.1.2 < _)) // !(bool_decide_false (k1.1.2 = k2.1.2)); [|lia].
    rewrite !(bool_decide_false (k1.1.2 < k2.1.2)); [|lia]. rewrite !(bool_decide_false (k2.1.2 = k1.1.2)); [|lia]. done.
Qed.

(** Hash and output. *)
Lemma hash_iff hf comb tys x k t : sees E s x tys k -> tys !! k.1.2 = Some t ->
  forall r, hashes C E s tys hf comb x r <-> r = comb (hf (ity_uid t) (erase k.2)) (Z.of_nat k.1.2).
Proof.
  intros Hk Ht r. destruct (sees_addr _ _ _ Hk) as [a Ha]. destruct (reached_view _ _ _ _ _ _ Hr Ha Hk) as (u&l&V).
  assert (says (fun n => var_hash C (sem C n) tys (seen1 hf) comb a) s (comb (hf (ity_uid t) (erase k.2)) (Z.of_nat k.1.2))) as Hs.
  { rewrite (view_t _ _ _ _ _ _ V _ Ht). destruct V as [_ _ _ Hv Hw Hrd]. destruct (Hrd s eq_refl) as (s'&Hu&Hn).
    apply (says_intro _ _ s' _ (depth k.2)); [done|]. intros n Hd. unfold var_hash, bind. rewrite Hv // Hn //=.
    rewrite Hw //. by destruct Hu. }
  split.
  - intros (a'&Ha'&Hh). rewrite Ha in Ha'. injection Ha' as <-. by eapply says_unique.
  - intros ->. by exists a.
Qed.
Lemma print_iff pr out tys x k t : sees E s x tys k -> tys !! k.1.2 = Some t ->
  forall r, prints C E s tys pr out x r <-> r = out ++ pr (ity_uid t) (erase k.2).
Proof.
  intros Hk Ht r. destruct (sees_addr _ _ _ Hk) as [a Ha]. destruct (reached_view _ _ _ _ _ _ Hr Ha Hk) as (u&l&V).
  assert (says (fun n => var_print C (sem C n) tys (seen1 pr) out a) s (out ++ pr (ity_uid t) (erase k.2))) as Hs.
  { rewrite (view_t _ _ _ _ _ _ V _ Ht). destruct V as [_ _ _ Hv Hw Hrd]. destruct (Hrd s eq_refl) as (s'&Hu&Hn).
    apply (says_intro _ _ s' _ (depth k.2)); [done|]. intros n Hd. unfold var_print, bind. rewrite Hv // Hn //=. }
  split.
  - intros (a'&Ha'&Hh). rewrite Ha in Ha'. injection Ha' as <-. by eapply says_unique.
  - intros ->. by exists a.
Qed.
Lemma hash_respects feq hf comb tys x y :
  (forall u v w, feq u v w = true -> hf u v = hf u w) ->
  is_eq C feq E s tys x y true -> exists r, hashes C E s tys hf comb x r /\ hashes C E s tys hf comb y r /\
    std_hashes C E s tys hf comb x r /\ std_hashes C E s tys hf comb y r.
Proof.
  intros Hf He. pose proof He as (a&b&Ha&Hb&_).
  destruct (reached_sees _ _ _ _ _ HC _ _ _ _ _ Hr Ha) as (k1&t1&H1&Ht1).
  destruct (reached_sees _ _ _ _ _ HC _ _ _ _ _ Hr Hb) as (k2&t2&H2&Ht2).
  apply (is_eq_iff feq _ _ _ _ _ _ H1 H2 Ht1) in He. symmetry in He. apply eq_of_true in He as [Hi He].
  assert (t2 = t1) as -> by congruence.
  exists (comb (hf (ity_uid t1) (erase k1.2)) (Z.of_nat k1.1.2)).
  assert (Hx : hashes C E s tys hf comb x (comb (hf (ity_uid t1) (erase k1.2)) (Z.of_nat k1.1.2))) by by eapply hash_iff.
  assert (Hy : hashes C E s tys hf comb y (comb (hf (ity_uid t1) (erase k1.2)) (Z.of_nat k1.1.2))).
  { rewrite (Hf _ _ _ He) Hi. by eapply hash_iff. }
  done.
Qed.
End one.

(** Copies are equal to what they are copied from. *)
Lemma sees_equal f E s x y tys k1 k2 : reached E s -> (forall u v, f u v v = true) ->
  sees E s x tys k1 -> sees E s y tys k2 -> erasev k1 = erasev k2 -> is_eq C f E s tys x y true.
Proof.
  intros Hr Hf H1 H2 He. pose proof H1 as (a&Ha&_). destruct (reached_sees _ _ _ _ _ HC _ _ _ _ _ Hr Ha) as (k&t&Hk&Ht).
  assert (k = k1) as ->.
  { destruct Hk as (a'&Ha'&Hk), H1 as (a''&Ha''&Hk1). rewrite Ha in Ha', Ha''. injection Ha' as <-. injection Ha'' as <-.
    by eapply var_holds_unique. }
  apply (is_eq_iff _ _ Hr f _ _ _ _ _ _ H1 H2 Ht). symmetry. apply eq_of_true.
  destruct k1 as [[b1 i1] v1], k2 as [[b2 i2] v2]. unfold erasev in He. simpl in *. injection He as -> ->. done.
Qed.
Lemma copy_equal f x y E s E' s' tys : (forall u v, f u v v = true) -> is_variant E tys y ->
  step (CCopy x y) E s E' ODone s' -> is_eq C f E' s' tys x y true.
Proof.
  intros Hf [a Ha] Hst. pose proof Hst as [Hr _]. destruct (reached_sees _ _ _ _ _ HC _ _ _ _ _ Hr Ha) as (k&t&Hk&Ht).
  destruct (step_spec _ _ _ _ _ HC _ _ _ _ _ _ Hst) as (_&_&_&_&_&_&Hr').
  destruct (OpFacts.copy_done _ _ _ _ _ HC _ _ _ _ _ _ _ _ Hst Hk) as [H1 H2].
  eapply sees_equal; [done..|]. destruct k as [[b i] v]. unfold erasev. simpl. by rewrite erase_erase.
Qed.
Lemma assigned_equal f x y E s E' s' tys : (forall u v, f u v v = true) -> is_variant E tys y ->
  step (CAssign x y) E s E' ODone s' -> is_eq C f E' s' tys x y true.
Proof.
  intros Hf [a Ha] Hst. pose proof Hst as [Hr _]. destruct (reached_sees _ _ _ _ _ HC _ _ _ _ _ Hr Ha) as (k&t&Hk&Ht).
  destruct (step_spec _ _ _ _ _ HC _ _ _ _ _ _ Hst) as (_&_&_&_&_&_&Hr').
  destruct (OpFacts.assign_done _ _ _ _ _ HC _ _ _ _ _ _ _ _ Hst Hk) as [H1 H2]. by eapply sees_equal.
Qed.

(** *** Visitation *)
Section visits.
Context (E : env) (s : state) (Hr : reached E s).

Lemma view_content x tys a k u l : E !! x = Some (BVar tys a) -> sees E s x tys k -> view s tys a k u l -> content_of C E s x u l.
Proof. intros Hx Hk [(t&Ht&<-) Hv Hst _ _ _]. by exists tys, k, t, a. Qed.

Lemma one_by_one_lvalues xs vs : Forall2 (fun x (v : list ity * loc) => E !! x = Some (BVar v.1 v.2)) xs vs ->
  exists args, Forall2 (fun x (g : arg) => content_of C E s x g.1.1 g.1.2 /\ g.2 = false) xs args /\
    forall A n (f : list arg -> M A) values value, Forall (fun g : arg => g.2 = false) (values ++ [value]) ->
      one_by_one C (sem C n) f (map (fun v => (v.1, v.2, false)) vs) values value s = f (values ++ [value] ++ args) s.
Proof.
  induction 1 as [|x [tys a] xs vs Hx Hxs IH].
  - exists []. split; [constructor|]. intros A' n' f' values value Hl. simpl.
    assert (Hd : forall vals done, Forall (fun g : arg => g.2 = false) vals -> do_call (sem C n') f' done vals s = f' (done ++ vals) s).
    { induction vals as [|[[u l] mv] vals IHv]; intros dn Hf; simpl; [by rewrite app_nil_r|].
      apply Forall_cons in Hf as [Hm Hf]. simpl in Hm. subst. rewrite IHv // -app_assoc //. }
    by rewrite Hd.
  - destruct IH as (args&Hargs&IH). destruct (variant_view _ _ Hr _ _ _ Hx) as (k&u&l&Hk&V).
    exists ((u, l, false) :: args). split.
    + constructor; [|done]. split; [by eapply view_content|done].
    + intros A' n' f' values value Hl. simpl. unfold visit1. rewrite (view_visit _ _ _ _ _ _ V) //.
      rewrite (IH A' n' f' (values ++ [value]) (u, l, false)).
      * by rewrite -!app_assoc.
      * apply Forall_app. split; [done|]. by repeat constructor.
Qed.

Lemma visit_lvalues xs vs : Forall2 (fun x (v : list ity * loc) => E !! x = Some (BVar v.1 v.2)) xs vs ->
  exists args, Forall2 (fun x (g : arg) => content_of C E s x g.1.1 g.1.2 /\ g.2 = false) xs args /\
    forall A n (f : list arg -> M A), visit_delayed C (sem C n) f vs s = f args s.
Proof.
  intros H. destruct H as [|x1 [tys1 a1] xs vs Hx1 H].
  { exists []. split; [constructor|]. done. }
  destruct (variant_view _ _ Hr _ _ _ Hx1) as (k1&u1&l1&Hk1&V1).
  assert (Hc1 : content_of C E s x1 u1 l1 /\ false = false) by (split; [by eapply view_content|done]).
  destruct H as [|x2 [tys2 a2] xs vs Hx2 H].
  { exists [(u1, l1, false)]. split; [constructor; [exact Hc1|constructor]|]. intros A n f. unfold visit_delayed. simpl.
    unfold visit1. rewrite (view_visit _ _ _ _ _ _ V1) //. }
  destruct (variant_view _ _ Hr _ _ _ Hx2) as (k2&u2&l2&Hk2&V2).
  assert (Hc2 : content_of C E s x2 u2 l2 /\ false = false) by (split; [by eapply view_content|done]).
  destruct H as [|x3 [tys3 a3] xs vs Hx3 H].
  { exists [(u1, l1, false); (u2, l2, false)]. split; [constructor; [exact Hc1|constructor; [exact Hc2|constructor]]|]. intros A n f. unfold visit_delayed. simpl.
    unfold visit2, visit1, binary_unwrap, visit1, binary_invoke.
    rewrite (view_visit _ _ _ _ _ _ V1) // (view_visit _ _ _ _ _ _ V2) //. }
  destruct (one_by_one_lvalues (x2 :: x3 :: xs) ((tys2, a2) :: (tys3, a3) :: vs)) as (args&Hargs&Hone).
  { constructor; [done|]. by constructor. }
  exists ((u1, l1, false) :: args). split; [by constructor; [exact Hc1|]|]. intros A n f. unfold visit_delayed.
  change (visit1 C (one_by_one C (sem C n) f (map (fun v => (v.1, v.2, false)) ((tys2, a2) :: (tys3, a3) :: vs)) []) tys1 a1 false s = f ((u1, l1, false) :: args) s).
  unfold visit1. rewrite (view_visit _ _ _ _ _ _ V1) // Hone //. by repeat constructor.
Qed.

Lemma visit_two x y tys1 a tys2 b mv1 mv2 : E !! x = Some (BVar tys1 a) -> E !! y = Some (BVar tys2 b) ->
  exists u1 l1 u2 l2, content_of C E s x u1 l1 /\ content_of C E s y u2 l2 /\
    forall A n (f : list arg -> M A),
      visit_many C (sem C n) f [(tys1, a, mv1); (tys2, b, mv2)] s = f [(u1, l1, mv1); (u2, l2, mv2)] s.
Proof.
  intros Hx Hy. destruct (variant_view _ _ Hr _ _ _ Hx) as (k1&u1&l1&Hk1&V1).
  destruct (variant_view _ _ Hr _ _ _ Hy) as (k2&u2&l2&Hk2&V2). exists u1, l1, u2, l2.
  split; [by eapply view_content|]. split; [by eapply view_content|]. intros A n f. simpl.
  unfold visit2, visit1, binary_unwrap, visit1, binary_invoke.
  rewrite (view_visit _ _ _ _ _ _ V1) // (view_visit _ _ _ _ _ _ V2) //.
Qed.
Lemma visit_one x tys a mv : E !! x = Some (BVar tys a) ->
  exists u l, content_of C E s x u l /\
    forall A n (f : list arg -> M A), visit_many C (sem C n) f [(tys, a, mv)] s = f [(u, l, mv)] s.
Proof.
  intros Hx. destruct (variant_view _ _ Hr _ _ _ Hx) as (k1&u1&l1&Hk1&V1). exists u1, l1.
  split; [by eapply view_content|]. intros A n f. simpl. unfold visit1. rewrite (view_visit _ _ _ _ _ _ V1) //.
Qed.

Lemma visitor_ptr_spec x tys a mv U p const : E !! x = Some (BVar tys a) ->
  exists u l, content_of C E s x u l /\
    forall A n (g : loc -> M A),
      (u = U -> (p = PRef -> const = false /\ mv = false) ->
       visit1 C (visitor_ptr (sem C n) U p g const) tys a mv s =
         match p with
         | PVal => scoped (stack_obj (fun y => us_copy (sem C n) U y l)) (us_destroy (sem C n) U) g s
         | _ => g l s
         end) /\
      (u <> U \/ p = PRef /\ (const = true \/ mv = true) ->
       exists s', visit1 C (visitor_ptr (sem C n) U p g const) tys a mv s = Exn XBadVisit s' /\ unchanged s s').
Proof.
  intros Hx. destruct (variant_view _ _ Hr _ _ _ Hx) as (k1&u1&l1&Hk1&V1). exists u1, l1.
  split; [by eapply view_content|]. intros A n g. unfold visit1. rewrite (view_visit _ _ _ _ _ _ V1) //. unfold visitor_ptr.
  split.
  - intros -> Hp. rewrite decide_True //. destruct p; [done|done|]. destruct (Hp eq_refl) as [-> ->]. done.
  - intros Hc. eexists. split; [|apply (unchanged_throw s XBadVisit)].
    destruct Hc as [Hu|[-> Hc]]; [by rewrite decide_False|]. case_decide; [|done].
    destruct Hc as [-> | ->]; simpl; [done|]. by rewrite andb_false_r.
Qed.

Lemma poly_spec x tys a base cvar B : E !! x = Some (BVar tys a) ->
  exists u l, content_of C E s x u l /\
    (same_or_derived base B u ->
      poly_pointer C base cvar tys a B s = Ok (Some l) s /\ poly_reference C base cvar tys a B s = Ok l s) /\
    (~ same_or_derived base B u ->
      poly_pointer C base cvar tys a B s = Ok None s /\
      exists s', poly_reference C base cvar tys a B s = Exn XBadGet s' /\ unchanged s s').
Proof.
  intros Hx. destruct (variant_view _ _ Hr _ _ _ Hx) as (k1&u1&l1&Hk1&V1). exists u1, l1.
  split; [by eapply view_content|].
  destruct (GetFacts.poly_iff base cvar (plain B) (BPlain (plain u1)) eq_refl eq_refl) as (r & Hp & Hiff).
  assert (Hq : poly_pointer C base cvar tys a B s = Ok (if r then Some l1 else None) s).
  { unfold poly_pointer. rewrite (view_visit _ _ _ _ _ _ V1) //. unfold polymorphic_relaxed_get in Hp. simpl in Hp.
    destruct cvar; simpl in *; rewrite Hp; by destruct r. }
  assert (Hpt : r = true <-> same_or_derived base B u1).
  { rewrite Hiff. simpl. split; [by intros [? _]|intros; split; [done|]].
    destruct cvar; simpl; [by right|done]. }
  unfold poly_reference, bind. rewrite Hq. split.
  - intros H. apply Hpt in H as ->. done.
  - intros H. destruct r; [by destruct H; apply Hpt|].
    split; [done|]. eexists. split; [reflexivity|]. apply (unchanged_throw s XBadGet).
Qed.

Lemma empty_spec x tys a : E !! x = Some (BVar tys a) ->
  exists k t, sees E s x tys k /\ tys !! k.1.2 = Some t /\ says (fun _ => var_empty a) s false.
Proof.
  intros Hx. destruct (variant_view _ _ Hr _ _ _ Hx) as (k1&u1&l1&Hk1&V1).
  destruct (view_content _ _ _ _ _ _ Hx Hk1 V1) as (tys'&k&t&?&Hs&Ht&_).
  pose proof Hs as (a'&Ha'&_). rewrite Hx in Ha'. injection Ha' as <- <-.
  exists k, t. split; [done|]. split; [done|]. apply (says_intro _ _ s _ 0); [done|]. intros n _. done.
Qed.
End visits.
End facts.

(** The level does not matter. *)
Section mono.
Context (C : cfg) (n n' : nat) (Hn : n <= n').
Let HS := mono_sem C n n' Hn.

Lemma mono_do_call {A} (f : list arg -> M A) dn vals : le (do_call (sem C n) f dn vals) (do_call (sem C n') f dn vals).
Proof.
  revert dn. induction vals as [|[[u l] []] vals IH]; intros dn; simpl; [apply le_refl| |done].
  apply mono_scoped; [|intros; by apply le_destroy|done].
  apply mono_stack_obj. intros q. by apply le_move.
Qed.
Lemma mono_one_by_one {A} (f : list arg -> M A) vs vals v : le (one_by_one C (sem C n) f vs vals v) (one_by_one C (sem C n') f vs vals v).
Proof.
  revert vals v. induction vs as [|[[tys a] []] vs IH]; intros vals v; simpl; [apply mono_do_call|..].
  - apply mono_scoped.
    + apply mono_local_variant. intros q. by apply mono_var_move.
    + intros x. by apply mono_var_destroy.
    + intros x. apply mono_visit_user. intros. apply IH.
  - apply mono_visit_user. intros. apply IH.
Qed.
Lemma mono_visit_many {A} (f : list arg -> M A) vs : le (visit_many C (sem C n) f vs) (visit_many C (sem C n') f vs).
Proof.
  destruct vs as [|[[tys1 a1] mv1] [|[[tys2 a2] mv2] [|v3 vs]]]; [apply le_refl..|].
  apply mono_visit_user. intros. apply mono_one_by_one.
Qed.
End mono.

Lemma visit_many_level {A} C n n' (f : list arg -> M A) vs s : n <= n' ->
  visit_many C (sem C n) f vs s <> Fault FFuel ->
  visit_many C (sem C n') f vs s = visit_many C (sem C n) f vs s.
Proof. intros Hn Hf. destruct (mono_visit_many C n n' Hn f vs s) as [H|H]; [done|congruence]. Qed.
