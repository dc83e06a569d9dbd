(** Ownership is a forest (proofs). *)
From stdpp Require Import gmap.
From iris.proofmode Require Import tactics.
From Verif Require Import Base Types Dispatch Variant Sem Values ValuesFacts Client Observe ObserveFacts Owned.
From Verif Require Import Heap Wp Rep SpecInt SpecVar SpecSem World.

(** [ls] lists the addresses of [h]. *)
Definition covers (h : heap) (ls : list loc) : Prop :=
  NoDup ls /\ forall l, is_Some (h !! l) <-> l ∈ ls.

Lemma covers_empty : covers ∅ [].
Proof. split; [constructor|]. intros l. rewrite lookup_empty elem_of_nil. split; [by intros [? ?]|done]. Qed.
Lemma covers_single l c h : (l ↦ c : hprop)%I h -> covers h [l].
Proof.
  unfold pt, hholds. intros ->. split; [apply NoDup_singleton|]. intros l'.
  rewrite elem_of_list_singleton. destruct (decide (l' = l)) as [->|Hne].
  - rewrite lookup_singleton. naive_solver.
  - rewrite lookup_singleton_ne //. split; [by intros [? ?]|done].
Qed.
Lemma covers_union h1 h2 ls1 ls2 : h1 ##ₘ h2 -> covers h1 ls1 -> covers h2 ls2 -> covers (h1 ∪ h2) (ls1 ++ ls2).
Proof.
  intros Hd [N1 H1] [N2 H2]. split.
  - apply NoDup_app. split; [done|]. split; [|done]. intros l Hl1 Hl2. apply H1 in Hl1 as [c1 E1]. apply H2 in Hl2 as [c2 E2].
    by eapply map_disjoint_spec.
  - intros l. rewrite elem_of_app -H1 -H2 lookup_union_is_Some. done.
Qed.
Lemma covers_perm h ls ls' : ls ≡ₚ ls' -> covers h ls -> covers h ls'.
Proof. intros Hp [N H]. split; [by rewrite -Hp|]. intros l. by rewrite -Hp. Qed.

Section owned.
Context (C : cfg) (W : wpar).
Notation R := (R C W).
Notation Rvar := (Rvar C W).
Notation Rmems := (Rmems C W).

Section at_level.
Context (m : heap) (f : uid -> obj -> option (list loc)) (n : nat).
Context (Hf : forall v u o h, R v u o h -> h ⊆ m -> depth v <= n -> exists ls, f u o = Some ls /\ covers h ls).

Lemma Rvar_owned tys a k h : Rvar tys a k h -> h ⊆ m -> depth k.2 <= n ->
  exists ls, owned_var m f tys a = Some ls /\ covers h ls.
Proof.
  intros H Hs Hd. destruct k as [[bk i] v].
  destruct H as (t&o&h0&h1&->&Hdj&Ht&H). destruct (apure_inv (tys !! i = Some t) _ Ht) as [-> Ht']. rewrite left_id_L in Hs |- *.
  destruct H as (h2&h3&->&Hd23&HRI&H). simpl in *.
  assert (Hcont : exists ls, owned_by m f t o = Some ls /\ covers h2 ls).
  { destruct t as [u|u]; simpl in *.
    - eapply Hf; [done|by eapply sub_l|done].
    - destruct HRI as (p&o'&h4&h5&->&_&Ho&h6&h7&->&Hd67&Hp&HR). destruct (apure_inv (o = OWrap u p) _ Ho) as [-> ->].
      rewrite left_id_L in Hs Hd23 |- *. apply sub_l in Hs as Hs'.
      unfold heap_obj. rewrite (pt_see p _ _ _ Hp); [|by eapply sub_l].
      destruct (Hf v u o' h7) as (ls&E&Hc); [done|by eapply sub_r|done|]. rewrite E. exists (p :: ls). split; [done|].
      apply (covers_union _ _ [p]); [done|by eapply covers_single|done]. }
  destruct Hcont as (ls&E&Hc). apply sub_r in Hs as Hs3; [|done]. destruct bk.
  - destruct H as (p&h4&h5&->&Hd45&Hb&h6&h7&->&Hd67&Ha&Hp). destruct (apure_inv (bkok C W tys t) _ Hb) as [-> _].
    rewrite left_id_L in Hs3 Hd23 |- *. unfold owned_var. rewrite (pt_see a _ _ _ Ha); [|by eapply sub_l].
    rewrite bool_decide_eq_true_2; [|lia].
    replace (Z.to_nat (- - (Z.of_nat i + 1) - 1)) with i by lia.
    rewrite Ht'. unfold heap_obj. rewrite (pt_see p _ _ _ Hp); [|by eapply sub_r].
    rewrite E. eexists. split; [done|]. eapply (covers_perm _ (ls ++ [a] ++ [p])).
    { rewrite (Permutation_app_comm ls). done. }
    apply covers_union; [done|done|]. apply covers_union; [done|by eapply covers_single..].
  - unfold owned_var. rewrite (pt_see a _ _ _ H Hs3). rewrite bool_decide_eq_false_2; [|lia].
    rewrite Nat2Z.id Ht' E. eexists. split; [done|]. eapply (covers_perm _ (ls ++ [a])).
    { rewrite (Permutation_app_comm ls). done. }
    apply covers_union; [done|done|by eapply covers_single].
Qed.

Lemma Rmems_owned mems ls ks h : Rmems mems ls ks h -> h ⊆ m -> Forall (fun k => depth k.2 <= n) ks ->
  exists r, owned_all (owned_var m f) mems ls = Some r /\ covers h r.
Proof.
  revert mems ls h. induction ks as [|k ks IH]; intros mems ls h H Hs Hd.
  - destruct mems, ls; simpl in *; try by destruct H. exists []. split; [done|].
    change (h = ∅) in H. subst. apply covers_empty.
  - destruct mems as [|tys mems], ls as [|l ls]; simpl in *; try by destruct H.
    destruct H as (h1&h2&->&Hdj&H1&H2). apply Forall_cons in Hd as [Hd1 Hd].
    destruct (Rvar_owned tys l k h1 H1) as (r1&E1&C1); [by eapply sub_l|done|].
    destruct (IH mems ls h2 H2) as (r2&E2&C2); [by eapply sub_r|done|].
    rewrite E1 E2. eexists. split; [done|]. by apply covers_union.
Qed.
End at_level.

Lemma R_owned m n : forall v u o h, R v u o h -> h ⊆ m -> depth v <= n ->
  exists ls, owned_obj C m n u o = Some ls /\ covers h ls.
Proof.
  induction n as [|n IH]; intros v u o h H Hs Hd; [destruct v; simpl in Hd; lia|].
  destruct v as [z ks]. pose proof (R_unfold C W z ks u o) as [Hu]. apply Hu in H.
  destruct H as (ls&h0&h1&->&_&Ho&h2&h3&->&_&Hz&H). destruct (apure_inv (o = OUser u z ls) _ Ho) as [-> ->].
  destruct (apure_inv (strict W = true -> z <> None) _ Hz) as [-> _]. rewrite !left_id_L in Hs |- *. apply depth_UV in Hd.
  simpl. by eapply (Rmems_owned m _ n IH).
Qed.

Lemma own_owned m n b α h B : own C W b α h -> h ⊆ m -> aok1 C W B α -> B <= n ->
  exists ls, owned_bnd C m n b = Some ls /\ covers h ls.
Proof.
  intros Ho Hs Ha HB. destruct b as [tys a|u a], α as [tys' k|u' v]; simpl in Ho; try by destruct Ho.
  - destruct Ho as (h0&h1&->&Hd&Ht&Ho). destruct (apure_inv (tys' = tys) _ Ht) as [-> ->].
    rewrite left_id_L in Hs |- *. simpl. eapply (Rvar_owned m _ n); [apply R_owned|done|done|]. destruct Ha. lia.
  - destruct Ho as (h0&h1&->&Hd&Ht&Ho). destruct (apure_inv (u' = u) _ Ht) as [-> ->].
    rewrite left_id_L in Hs |- *. destruct Ho as (o&h2&h3&->&Hd'&Hl&HR). simpl in *.
    rewrite (pt_see a _ _ _ Hl); [|by eapply sub_l].
    destruct (R_owned m n _ _ _ _ HR) as (ls&E&Hc); [by eapply sub_r|lia|]. rewrite E.
    eexists. split; [done|]. apply (covers_union _ _ [a]); [done|by eapply covers_single|done].
Qed.

Lemma world_covers_list m n B (l : list (name * bnd)) : NoDup l.*1 -> forall σ h,
  world C W (list_to_map l) σ h -> h ⊆ m -> aok C W B σ -> B <= n ->
  exists lss, mapM (fun p : name * bnd => owned_bnd C m n p.2) l = Some lss /\ covers h (concat lss).
Proof.
  induction l as [|[x b] l IH]; intros Hnd σ h H Hs Ha HB; simpl in *.
  - exists []. split; [done|]. simpl. unfold world in H.
    assert (Hσ : σ = ∅).
    { apply map_eq. intros x. rewrite lookup_empty.
      pose proof (hprop_in_entails _ _ (big_sepM2_lookup_iff (fun _ => own C W) ∅ σ) h H) as Hi.
      specialize (Hi x). destruct (σ !! x) eqn:Ex; rewrite ?Ex; [|done]. exfalso.
      assert (is_Some ((∅ : env) !! x)) as [? He] by (apply Hi; eauto). by rewrite lookup_empty in He. }
    subst σ. apply (hprop_in_entails _ _ (bi.equiv_entails_1_1 _ _ (big_sepM2_empty (fun _ => own C W)))) in H.
    change (h = ∅) in H. subst h. apply covers_empty.
  - apply NoDup_cons in Hnd as [Hx Hnd].
    assert (Hl : (list_to_map l : env) !! x = None) by by apply not_elem_of_list_to_map_1.
    assert (exists α, σ !! x = Some α) as [α Hα].
    { pose proof (hprop_in_entails _ _ (big_sepM2_lookup_iff (fun _ => own C W) _ σ) h H) as Hi.
      specialize (Hi x). rewrite lookup_insert in Hi. apply Hi. eauto. }
    apply (hprop_in_entails _ _ (world_delete C W _ σ x α Hα)) in H.
    destruct H as (b'&h0&h1&->&Hd&Hb'&h2&h3&->&Hd'&Ho&H). destruct (apure_inv (_ = Some b') _ Hb') as [-> Hb''].
    rewrite lookup_insert in Hb''. injection Hb'' as <-. rewrite left_id_L in Hs |- *.
    rewrite delete_insert in H; [|done].
    destruct (own_owned m n b α h2 B) as (ls&E1&C1); [done|by eapply sub_l|by eapply Ha|done|].
    destruct (IH Hnd (delete x σ) h3) as (lss&E2&C2); [done|by eapply sub_r|by apply aok_delete|done|].
    rewrite E1 /= E2 /=. eexists. split; [done|]. simpl. by apply covers_union.
Qed.

Lemma world_forest m B E σ : world C W E σ m -> aok C W B σ -> forest C m E.
Proof.
  intros H Ha. destruct (world_covers_list m B B (map_to_list E)) with (σ := σ) (h := m) as (lss&E1&N&Hl).
  - apply NoDup_fst_map_to_list.
  - by rewrite list_to_map_to_list.
  - done.
  - done.
  - done.
  - exists B, lss. done.
Qed.
End owned.
