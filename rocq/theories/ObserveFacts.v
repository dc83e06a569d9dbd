(** What is owned is seen (proofs). *)
From stdpp Require Import gmap.
From iris.proofmode Require Import tactics.
From Verif Require Import Base Types Dispatch Variant Sem Values ValuesFacts Client Observe Heap Wp Rep SpecInt SpecVar SpecSem.

Section see.
Context (C : cfg) (W : wpar).
Notation R := (R C W).
Notation RI := (RI C W).
Notation tobj := (tobj C W).
Notation Rvar := (Rvar C W).
Notation Rmems := (Rmems C W).

(** More fuel does no harm. *)
Lemma see_all_mono f g mems ls ks :
  (forall tys l k, f tys l = Some k -> g tys l = Some k) ->
  see_all f mems ls = Some ks -> see_all g mems ls = Some ks.
Proof.
  intros H. revert ls ks. induction mems as [|tys mems IH]; intros [|l ls] ks; simpl; try done.
  destruct (f tys l) as [k|] eqn:E; [|done]. rewrite (H _ _ _ E).
  destruct (see_all f mems ls) as [ks'|] eqn:E'; [|done]. rewrite (IH _ _ E'). done.
Qed.
Lemma see_var_mono m f g tys a k :
  (forall u o v, f u o = Some v -> g u o = Some v) ->
  see_var m f tys a = Some k -> see_var m g tys a = Some k.
Proof.
  intros H. unfold see_var. destruct (m !! a) as [[[] [o|] [w|]]|]; try done.
  destruct (tys !! _) as [t|]; [|done]. destruct (if bool_decide _ then _ else _) as [o1|]; [|done].
  destruct (content _ _ _) as [o2|]; [|done]. destruct (f _ o2) as [v|] eqn:E; [|done].
  rewrite (H _ _ _ E). done.
Qed.
Lemma see_obj_mono m n n' u o v : n <= n' -> see_obj C m n u o = Some v -> see_obj C m n' u o = Some v.
Proof.
  revert n' u o v. induction n as [|n IH]; intros n' u o v Hn H; [done|].
  destruct n' as [|n']; [lia|]. simpl in *. destruct o as [u' z ls| | | |]; try done.
  case_decide; [|done]. destruct (see_all _ _ ls) as [ks|] eqn:E; [|done].
  erewrite see_all_mono; [exact H| |exact E].
  intros tys l k. apply see_var_mono. intros. apply IH; [lia|done].
Qed.

Lemma var_holds_unique m tys a k k' : var_holds C m tys a k -> var_holds C m tys a k' -> k = k'.
Proof.
  intros [n H] [n' H'].
  assert (see_var m (see_obj C m (n + n')) tys a = Some k).
  { eapply see_var_mono; [|exact H]. intros. eapply see_obj_mono; [|done]. lia. }
  assert (see_var m (see_obj C m (n + n')) tys a = Some k').
  { eapply see_var_mono; [|exact H']. intros. eapply see_obj_mono; [|done]. lia. }
  congruence.
Qed.
Lemma obj_holds_unique m u a v v' : obj_holds C m u a v -> obj_holds C m u a v' -> v = v'.
Proof.
  intros (o&n&Ha&H) (o'&n'&Ha'&H'). rewrite Ha in Ha'. injection Ha' as <-.
  apply (see_obj_mono _ _ (n + n')) in H; [|lia]. apply (see_obj_mono _ _ (n + n')) in H'; [|lia]. congruence.
Qed.
Lemma shows_unique m E σ σ' : shows C m E σ -> shows C m E σ' -> σ = σ'.
Proof.
  intros H H'. apply map_eq. intros x. specialize (H x). specialize (H' x).
  destruct (E !! x) as [[tys a|u a]|], (σ !! x) as [[tys1 k1|u1 v1]|] eqn:E1, (σ' !! x) as [[tys2 k2|u2 v2]|] eqn:E2; rewrite ?E1 ?E2; try done.
  - destruct H as [-> H], H' as [-> H']. by rewrite (var_holds_unique _ _ _ _ _ H H').
  - destruct H as [-> H], H' as [-> H']. by rewrite (obj_holds_unique _ _ _ _ _ H H').
Qed.

(** ** From ownership *)
Lemma pt_see l c h m : (l ↦ c : hprop)%I h -> h ⊆ m -> m !! l = Some c.
Proof. intros H Hs. unfold pt, hholds in H. subst. eapply lookup_weaken; [apply lookup_singleton|done]. Qed.

Lemma sub_l (h1 h2 m : heap) : h1 ∪ h2 ⊆ m -> h1 ⊆ m.
Proof. intros H. etrans; [|exact H]. by apply map_union_subseteq_l. Qed.
Lemma sub_r (h1 h2 m : heap) : h1 ##ₘ h2 -> h1 ∪ h2 ⊆ m -> h2 ⊆ m.
Proof. intros Hd H. etrans; [|exact H]. by apply map_union_subseteq_r. Qed.

Lemma apure_inv (φ : Prop) h : (⌞φ⌟ : hprop)%I h -> h = ∅ /\ φ.
Proof. done. Qed.

Section at_level.
Context (m : heap) (see : uid -> obj -> option uval) (n : nat).
Context (Hsee : forall v u o h, R v u o h -> h ⊆ m -> depth v <= n -> see u o = Some v).

Lemma Rvar_see tys a k h : Rvar tys a k h -> h ⊆ m -> depth k.2 <= n -> see_var m see tys a = Some k.
Proof.
  intros H Hs Hd. destruct k as [[bk i] v].
  destruct H as (t&o&h0&h1&->&Hdj&Ht&H). destruct (apure_inv (tys !! i = Some t) _ Ht) as [-> Ht']. rewrite left_id_L in Hs.
  destruct H as (h2&h3&->&Hd23&HRI&H). simpl in *.
  assert (Hcont : exists o2, content m t o = Some o2 /\ see (ity_uid t) o2 = Some v).
  { destruct t as [u|u]; simpl in *.
    - exists o. split; [done|]. eapply Hsee; [done|by eapply sub_l|done].
    - destruct HRI as (p&o'&h4&h5&->&_&Ho&h6&h7&->&Hd67&Hp&HR). destruct (apure_inv (o = OWrap u p) _ Ho) as [-> ->].
      rewrite left_id_L in Hs. apply sub_l in Hs as Hs'.
      exists o'. simpl. rewrite decide_True //. unfold heap_obj. rewrite (pt_see p _ _ _ Hp); [|by eapply sub_l].
      split; [done|]. eapply Hsee; [done|by eapply sub_r|done]. }
  destruct Hcont as (o2&Hc&Hv). apply sub_r in Hs; [|done]. destruct bk.
  - destruct H as (p&h4&h5&->&Hd45&Hb&h6&h7&->&Hd67&Ha&Hp). destruct (apure_inv (bkok C W tys t) _ Hb) as [-> _].
    rewrite left_id_L in Hs. unfold see_var. rewrite (pt_see a _ _ _ Ha); [|by eapply sub_l].
    rewrite bool_decide_eq_true_2; [|lia].
    replace (Z.to_nat (- - (Z.of_nat i + 1) - 1)) with i by lia.
    rewrite Ht'. rewrite decide_True //. unfold heap_obj. rewrite (pt_see p _ _ _ Hp); [|by eapply sub_r].
    rewrite Hc Hv //.
  - unfold see_var. rewrite (pt_see a _ _ _ H Hs). rewrite bool_decide_eq_false_2; [|lia].
    rewrite Nat2Z.id Ht' Hc Hv //.
Qed.

Lemma Rmems_see mems ls ks h : Rmems mems ls ks h -> h ⊆ m -> Forall (fun k => depth k.2 <= n) ks ->
  see_all (see_var m see) mems ls = Some ks.
Proof.
  revert mems ls h. induction ks as [|k ks IH]; intros mems ls h H Hs Hd.
  - destruct mems, ls; simpl in *; by try destruct H.
  - destruct mems as [|tys mems], ls as [|l ls]; simpl in *; try by destruct H.
    destruct H as (h1&h2&->&Hdj&H1&H2). apply Forall_cons in Hd as [Hd1 Hd].
    rewrite (Rvar_see tys l k h1 H1); [|by eapply sub_l|done].
    rewrite (IH mems ls h2 H2); [done|by eapply sub_r|done].
Qed.
End at_level.

Lemma R_see m n : forall v u o h, R v u o h -> h ⊆ m -> depth v <= n -> see_obj C m n u o = Some v.
Proof.
  induction n as [|n IH]; intros v u o h H Hs Hd; [destruct v; simpl in Hd; lia|].
  destruct v as [z ks]. pose proof (R_unfold C W z ks u o) as [Hu]. apply Hu in H.
  destruct H as (ls&h0&h1&->&_&Ho&h2&h3&->&_&Hz&H). destruct (apure_inv (o = OUser u z ls) _ Ho) as [-> ->].
  destruct (apure_inv (strict W = true -> z <> None) _ Hz) as [-> _]. rewrite !left_id_L in Hs. apply depth_UV in Hd.
  simpl. rewrite decide_True //. rewrite (Rmems_see m _ n IH _ _ _ h3 H Hs Hd). done.
Qed.

Lemma Rvar_holds m tys a k h : Rvar tys a k h -> h ⊆ m -> var_holds C m tys a k.
Proof. intros H Hs. exists (depth k.2). eapply Rvar_see; [apply R_see|done|done|done]. Qed.
Lemma tobj_holds m u a v h : tobj a KStk None u v h -> h ⊆ m -> obj_holds C m u a v.
Proof.
  intros (o&h1&h2&->&Hd&Ha&HR) Hs. exists o, (depth v). split.
  - by eapply pt_see, sub_l.
  - eapply R_see; [done|by eapply sub_r|done].
Qed.
End see.
