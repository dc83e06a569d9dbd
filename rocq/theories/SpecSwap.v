(** Specification of swap (proofs). *)
From stdpp Require Import gmap.
From iris.proofmode Require Import tactics.
From Verif Require Import Base Types TypesFacts Dispatch DispatchFacts Variant Sem Heap Wp Values ValuesFacts Rep SpecInt SpecVar SpecAssign.

Lemma self_swapped_depth v v' : self_swapped v v' -> depth v' = depth v.
Proof. intros [H _]. by rewrite -(depth_erase v') H depth_erase. Qed.

Section spec.
Context (C : cfg) (W : wpar).
Notation R := (R C W).
Notation RI := (RI C W).
Notation tobj := (tobj C W).
Notation tint := (tint C W).
Notation Rvar := (Rvar C W).
Notation wp := (wp W).
Notation swap_may_throw := (swap_may_throw C).
Context (Hwf : wf_env C W).
Context (k : nat) (S : usem) (Hok : usem_ok C W k S).
Let Hlim : 0 < lim C := we_lim _ _ Hwf.

(** What swap needs of its operands, and what it makes of them. *)
Definition swap_pre (tys : list ity) (k1 k2 : vval) : Prop :=
  if decide (k1.1.2 = k2.1.2)
  then clean k2.2 = true /\
       forall t, tys !! k1.1.2 = Some t -> is_Some (ut_swap (te C (ity_uid t))) -> clean k1.2 = true
  else cleanv k1 = true.
Definition swap_a (k1 k2 : vval) : vval :=
  if decide (k1.1.2 = k2.1.2) then (k1.1, k2.2) else erasev k2.
Definition swap_b (k1 k2 : vval) : vval :=
  if decide (k1.1.2 = k2.1.2) then (k2.1, erase k1.2) else k1.
Definition swap_stage (tys : list ity) (k1 k2 ka kb : vval) : Prop :=
  exists v', skel v' = skel k2.2 /\
  ((exists t, tys !! k2.1.2 = Some t /\ it_move C t = false) /\ ka = k1 /\ kb = (k2.1, v') \/
   massign_fail C k tys (k2.1, v') k1 kb /\ massign_src k (k2.1, v') k1 ka \/
   kb = k1 /\ exists ka0, massign_src k (k2.1, v') k1 ka0 /\ massign_fail C k tys ka0 (erasev k2) ka).
Definition swap_fail (tys : list ity) (k1 k2 ka kb : vval) : Prop :=
  (exists t, t ∈ tys /\ (it_move C t = false \/ it_massign C t = false \/ swap_may_throw (ity_uid t))) /\
  depth ka.2 <= k /\ depth kb.2 <= k /\
  (k1.1.2 = k2.1.2 -> ka.1 = k1.1 /\ kb.1 = k2.1 /\
                      exists t, tys !! k1.1.2 = Some t /\ swap_may_throw (ity_uid t)) /\
  (k1.1.2 <> k2.1.2 -> swap_stage tys k1 k2 ka kb).

Lemma massign_fail_may_throw tys k1 k2 k' : massign_fail C k tys k1 k2 k' ->
  exists t, t ∈ tys /\ (it_move C t = false \/ it_massign C t = false \/ swap_may_throw (ity_uid t)).
Proof.
  intros (t2&Ht2&H). exists t2. split; [by eapply elem_of_list_lookup_2|].
  case_decide; [|destruct H as [? _]]; destruct_and?; auto.
Qed.

Lemma var_swap_spec tys a b k1 k2 : wf_tys C W tys ->
  depth k1.2 <= k -> depth k2.2 <= k -> swap_pre tys k1 k2 ->
  ⊢ {{ Rvar tys a k1 ∗ Rvar tys b k2 }} var_swap C S tys a b
    {{ λ _, Rvar tys a (swap_a k1 k2) ∗ Rvar tys b (swap_b k1 k2)
     | λ _, ∃ ka kb, ⌞swap_fail tys k1 k2 ka kb⌟ ∗ Rvar tys a ka ∗ Rvar tys b kb }} @ W.
Proof.
  iIntros (Hty Hd1 Hd2 Hpre Q X) "[Ha Hb] HQ". unfold var_swap.
  wpb. iApply (which_Rvar with "Ha"). iIntros "Ha". wpb. iApply (which_Rvar with "Hb"). iIntros "Hb".
  unfold swap_pre, swap_a, swap_b, swap_fail in *. destruct (decide (k1.1.2 = k2.1.2)) as [Hi|Hi].
  - rewrite decide_True; [|lia].
    iApply (visit_user_wp _ _ Hlim with "Ha"). iIntros (t l kl wl) "%Ht Hl Hback".
    wpb. unfold known_get. iApply (visit_user_wp _ _ Hlim with "Hb"). iIntros (t' r kr wr) "%Ht' Hr Hback'".
    assert (t' = t) as ->. { rewrite -Hi Ht in Ht'. congruence. }
    rewrite decide_True //. iApply wp_ret. destruct Hpre as [Hc2 Hc1].
    iApply (ok_swap _ _ _ _ Hok with "[$Hl $Hr]"); [done|done|done|by eapply Hc1|]. iSplit.
    + iIntros ([]) "[Hl Hr]". iApply "HQ". iDestruct ("Hback" with "Hl") as "Ha". iDestruct ("Hback'" with "Hr") as "Hb".
      destruct k1 as [[bk1 i1] v1], k2 as [[bk2 i2] v2]. iFrame.
    + iIntros (e) "(%Hm & (%v & %Hv & Hl) & %v' & %Hv' & Hr)". iApply "HQ".
      iDestruct ("Hback" with "Hl") as "Ha". iDestruct ("Hback'" with "Hr") as "Hb".
      iExists (k1.1.1, k1.1.2, v), (k2.1.1, k2.1.2, v'). iFrame "Ha Hb". iPureIntro. split.
      { exists t. split; [by eapply elem_of_list_lookup_2|auto]. }
      destruct k1 as [[bk1 i1] v1], k2 as [[bk2 i2] v2]. simpl in *.
      split; [done|]. split; [done|]. split; [|done]. intros _. split; [done|]. split; [done|]. by exists t.
  - rewrite decide_False; [|lia].
    iApply scoped_wp. iApply local_variant_wp. iIntros (x) "Hx".
    iApply (var_move_spec _ _ Hwf _ _ Hok with "[$Hx $Hb]"); [done|]. iSplit; last first.
    { iIntros (e) "((%t & %Ht & %Hm) & Hx & %v' & %Hv' & Hb)". iSplitL "Hx"; [by iExists _|].
      iApply "HQ". iExists k1, (k2.1.1, k2.1.2, v'). iFrame "Ha Hb". iPureIntro. split.
      { exists t. split; [by eapply elem_of_list_lookup_2|auto]. }
      simpl. rewrite (skel_depth _ _ Hv'). split; [done|]. split; [done|]. split; [done|]. intros _.
      exists v'. split; [done|]. left. split; [by exists t|]. by destruct k2 as [[??]?]. }
    iIntros ([]) "(Hx & %v' & %Hv' & Hb)".
    assert (Hdx : depth (erasev k2).2 <= k) by (simpl; by rewrite depth_erase).
    wpb. iApply (var_massign_spec _ _ Hwf _ _ Hok _ Hty with "[$Hb $Ha]"); [by rewrite /= (skel_depth _ _ Hv')|done|by apply source_clean|].
    iSplit; last first.
    { iIntros (e) "[(%kb & %Hkb & Hb) (%ka & %Hsrc & Ha)]".
      iApply (var_destroy_spec _ _ Hwf _ _ Hok with "Hx"); [done|]. iSplit; [|by iIntros (e') "[]"].
      iIntros ([]) "(%w & Hx)". iExists KVar, _. iSplitR; [done|]. iFrame "Hx". iApply "HQ".
      iExists ka, kb. iFrame "Ha Hb". iPureIntro. split; [by eapply massign_fail_may_throw|]. split; [apply Hsrc|].
      split; [|split; [done|intros _; exists v'; split; [done|]; right; left; by destruct k2 as [[??]?]]].
      eapply massign_fail_depth; [|done..|].
      - pose proof (depth_pos k1.2). lia.
      - simpl. by rewrite (skel_depth _ _ Hv'). }
    iIntros ([]) "(Hb & %ka & %Hsrc & Ha)". pose proof Hsrc as (Hka&Hdk&_).
    iApply (var_massign_spec _ _ Hwf _ _ Hok _ Hty with "[$Ha $Hx]"); [done..|by apply source_clean; rewrite /cleanv /= clean_erase|].
    iSplit.
    + iIntros ([]) "(Ha & %kx & (%Hkx & %Hdkx & _) & Hx)".
      iApply (var_destroy_spec _ _ Hwf _ _ Hok with "Hx"); [done|]. iSplit; [|by iIntros (e') "[]"].
      iIntros ([]) "(%w & Hx)". iExists KVar, _. iSplitR; [done|]. iFrame "Hx". iApply "HQ". iFrame.
    + iIntros (e) "[(%ka' & %Hka' & Ha) (%kx & (%Hkx & %Hdkx & _) & Hx)]".
      iApply (var_destroy_spec _ _ Hwf _ _ Hok with "Hx"); [done|]. iSplit; [|by iIntros (e') "[]"].
      iIntros ([]) "(%w & Hx)". iExists KVar, _. iSplitR; [done|]. iFrame "Hx". iApply "HQ".
      iExists ka', k1. iFrame "Ha Hb". iPureIntro. split; [by eapply massign_fail_may_throw|].
      split; [|split; [done|split; [done|intros _; exists v'; split; [done|]; right; right; split; [done|]; exists ka; destruct k2 as [[??]?]; split; [exact Hsrc|exact Hka']]]].
      eapply massign_fail_depth; [|done..]. pose proof (depth_pos k1.2). lia.
Qed.

Lemma var_swap_self_spec tys a k1 : depth k1.2 <= k ->
  ⊢ {{ Rvar tys a k1 }} var_swap C S tys a a
    {{ λ _, ∃ v', ⌞self_swapped k1.2 v'⌟ ∗ Rvar tys a (k1.1, v')
     | λ _, ∃ ka, ⌞(exists t, tys !! k1.1.2 = Some t /\ swap_may_throw (ity_uid t)) /\ ka.1 = k1.1 /\ depth ka.2 <= k⌟ ∗
            Rvar tys a ka }} @ W.
Proof.
  iIntros (Hd1 Q X) "Ha HQ". unfold var_swap.
  wpb. iApply (which_Rvar with "Ha"). iIntros "Ha". wpb. iApply (which_Rvar with "Ha"). iIntros "Ha".
  rewrite decide_True //. iDestruct (Rvar_unfold with "Ha") as (t) "[%Ht H]".
  destruct k1 as [[bk i] v]. simpl in *.
  assert (Hty : forall l kl wl (back : hprop) Q X,
    tobj l kl wl (ity_uid t) v -∗ back -∗
    (∀ v', ⌞self_swapped v v'⌟ -∗ back -∗ tobj l kl wl (ity_uid t) v' -∗ Q tt) ∧
    (∀ e v', ⌞swap_may_throw (ity_uid t) /\ depth v' <= k⌟ -∗ back -∗ tobj l kl wl (ity_uid t) v' -∗ X e) -∗
    wp (us_swap S (ity_uid t) l l) Q X).
  { intros l kl wl back Q0 X0. iIntros "Hl Hback HQ". iApply (ok_swap_self _ _ _ _ Hok with "Hl"); [done|]. iSplit.
    - iIntros ([]) "(%v' & %Hv' & Hl)". iDestruct "HQ" as "[HQ _]". iApply ("HQ" with "[//] Hback Hl").
    - iIntros (e) "(%Hm & %v' & %Hv' & Hl)". iDestruct "HQ" as "[_ HQ]". iApply ("HQ" with "[//] Hback Hl"). }
  destruct bk.
  - iDestruct "H" as (p) "(%Hb & Ha & Hp)".
    iApply (visit_wp _ _ Hlim tys a KVar _ i t true with "Ha"); [done|by intros _; apply Hb|].
    iIntros "Ha". simpl. wpb. iApply bk_get_wp. iFrame "Ha". iIntros "Ha".
    destruct t as [u|u]; simpl in *.
    + wpb. unfold known_get.
      iApply (visit_wp _ _ Hlim tys a KVar _ i (IPlain u) true with "Ha"); [done|by intros _; apply Hb|].
      iIntros "Ha". simpl. wpb. iApply bk_get_wp. iFrame "Ha". iIntros "Ha". rewrite decide_True //. iApply wp_ret.
      iApply (Hty with "Hp Ha"). iSplit.
      * iIntros (v') "%Hv' Ha Hp". iApply "HQ". iExists v'. iSplitR; [done|]. iApply Rvar_bk; [done..|iFrame].
      * iIntros (e v') "[%Hm %Hv'] Ha Hp". iApply "HQ". iExists (true, i, v'). iSplitR; [by eauto 10|].
        iApply Rvar_bk; [done..|iFrame].
    + iDestruct (tint_wrap with "Hp") as (q) "[Hp Hq]". wpb. iApply wrap_ptr_wp. iFrame "Hp". iIntros "Hp".
      wpb. unfold known_get.
      iApply (visit_wp _ _ Hlim tys a KVar _ i (IWrap u) true with "Ha"); [done|by intros _; apply Hb|].
      iIntros "Ha". simpl. wpb. iApply bk_get_wp. iFrame "Ha". iIntros "Ha".
      wpb. iApply wrap_ptr_wp. iFrame "Hp". iIntros "Hp". rewrite decide_True //. iApply wp_ret.
      iApply (Hty _ _ _ (_ ∗ _)%I with "Hq [Ha Hp]"); [iSplitL "Ha"; [iExact "Ha"|iExact "Hp"]|]. iSplit.
      * iIntros (v') "%Hv' [Ha Hp] Hq". iApply "HQ". iExists v'. iSplitR; [done|]. iApply Rvar_bk; [done..|iFrame "Ha"]. iApply tint_wrap. iExists _. iFrame.
      * iIntros (e v') "[%Hm %Hv'] [Ha Hp] Hq". iApply "HQ". iExists (true, i, v'). iSplitR; [by eauto 10|].
        iApply Rvar_bk; [done..|iFrame "Ha"]. iApply tint_wrap. iExists _. iFrame.
  - iApply (visit_tint _ _ Hlim with "H"); [done|]. iIntros "H". simpl.
    destruct t as [u|u]; simpl in *.
    + wpb. unfold known_get. iApply (visit_tint _ _ Hlim with "H"); [done|]. iIntros "H". simpl.
      rewrite decide_True //. iApply wp_ret.
      iApply (Hty _ _ _ emp%I with "H [//]"). iSplit.
      * iIntros (v') "%Hv' _ H". iApply "HQ". iExists v'. iSplitR; [done|]. iApply Rvar_plain; done.
      * iIntros (e v') "[%Hm %Hv'] _ Hp". iApply "HQ". iExists (false, i, v'). iSplitR; [by eauto 10|].
        iApply Rvar_plain; done.
    + iDestruct (tint_wrap with "H") as (q) "[Hp Hq]". wpb. iApply wrap_ptr_wp. iFrame "Hp". iIntros "Hp".
      wpb. unfold known_get.
      iApply (visit_wp _ _ Hlim tys a KVar _ i (IWrap u) false with "Hp"); [done|done|].
      iIntros "Hp". simpl. wpb. iApply wrap_ptr_wp. iFrame "Hp". iIntros "Hp". rewrite decide_True //. iApply wp_ret.
      iApply (Hty with "Hq Hp"). iSplit.
      * iIntros (v') "%Hv' Hp Hq". iApply "HQ". iExists v'. iSplitR; [done|]. iApply Rvar_plain; [done|]. iApply tint_wrap. iExists _. iFrame.
      * iIntros (e v') "[%Hm %Hv'] Hp Hq". iApply "HQ". iExists (false, i, v'). iSplitR; [by eauto 10|].
        iApply Rvar_plain; [done|]. iApply tint_wrap. iExists _. iFrame.
Qed.

End spec.
