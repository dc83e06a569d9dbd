(** Assigning a part of a variant's content to the variant (proofs): it is safe if the part is
    copied to a temporary first. *)
From stdpp Require Import gmap.
From iris.proofmode Require Import tactics.
From Verif Require Import Base Types TypesFacts Dispatch DispatchFacts Variant Sem Values ValuesFacts Client Observe ObserveFacts Spec Trace TraceFacts History Owned OwnedFacts.
From Verif Require Import Heap Wp Rep Link SpecInt SpecVar SpecAssign SpecSem SpecQuery World ClientProof Levels HistoryProof Reach ReachFacts CoreFacts Check Lax Alias.

Lemma child_depth z ks j k' : ks !! j = Some k' -> depth k'.2 < depth (UV z ks).
Proof.
  intros Hj. assert (Hk : depth (UV z ks) <= depth (UV z ks)) by done. revert Hk.
  generalize (depth (UV z ks)) at 2 3 as n0. intros [|n0] Hk; [pose proof (depth_pos (UV z ks)); lia|].
  apply depth_UV in Hk. rewrite Forall_lookup in Hk. specialize (Hk _ _ Hj). lia.
Qed.

Section own.
Context (C : cfg) (W : wpar) (Hwf : wf_env C W).
Notation wp := (wp W).
Notation rd := (rd W).
Notation Rvar := (Rvar C W).
Notation tobj := (tobj C W).
Notation tint := (tint C W).
Let Hlim : 0 < lim C := we_lim _ _ Hwf.

(** All that is read before the copy, in one state. *)
Lemma own_part_open tys a k1 t u j tys' : tys !! k1.1.2 = Some t -> ity_uid t = u -> ut_members (te C u) !! j = Some tys' ->
  Rvar tys a k1 ⊢ ∃ l b z ks k2, ⌞k1.2 = UV z ks /\ ks !! j = Some k2⌟ ∗
    (rd (var_get C tys a u) (Some l) ∧ rd (member C u l j) (tys', b) ∧
     rd (read_which a) (wz k1.1.1 k1.1.2) ∧ rd (read_which b) (wz k2.1.1 k2.1.2) ∧
     (Rvar tys' b k2 ∗ (Rvar tys' b k2 -∗ Rvar tys a k1))).
Proof.
  intros Ht Hu Hj. constructor. intros h HR.
  pose proof (hprop_in_entails _ _ (Rvar_read_which C W tys a k1) _ HR) as Hwa.
  destruct (hprop_in_entails _ _ (rd_var_get C W Hlim tys a k1 t u Ht) _ HR) as (l&kd&w&Hget&Hsep).
  rewrite decide_True // in Hget. destruct Hsep as (h1&h2&->&Hd&Hl&Hback). rewrite Hu in Hl, Hback.
  destruct (hprop_in_entails _ _ (tobj_member C W l kd w u k1.2 j tys' Hj) _ Hl) as (z&ks&b&k2&h3&h4&->&Hd'&Hp&Hmem&Hsub).
  apply apure_inv in Hp as [-> [Hv Hks]]. rewrite left_id_L in Hd. rewrite left_id_L in Hwa. rewrite left_id_L in Hget. rewrite left_id_L.
  assert (Hwb : (rd (read_which b) (wz k2.1.1 k2.1.2)) h4).
  { destruct Hsub as (h5&h6&->&_&Hb&_). apply (hprop_in_entails _ _ (Rvar_read_which C W tys' b k2)) in Hb.
    intros s Hs. apply Hb. etrans; [|exact Hs]. by apply map_union_subseteq_l. }
  assert (Hup : forall A (m : M A) r, (rd m r) h4 -> (rd m r) (h4 ∪ h2)).
  { intros A m r Hr s Hs. apply Hr. etrans; [|exact Hs]. by apply map_union_subseteq_l. }
  exists l, b, z, ks, k2, ∅, (h4 ∪ h2). rewrite left_id_L. split; [done|]. split; [apply map_disjoint_empty_l|].
  split; [by split|]. split; [|split; [|split; [|split]]]; [done|by apply Hup|done|by apply Hup|].
  - assert (HE : ((Rvar tys' b k2 ∗ ∀ k', Rvar tys' b k' -∗ tobj l kd w u (UV z (<[j := k']> ks))) ∗
      (∀ v', tobj l kd w u v' -∗ Rvar tys a (k1.1, v')) ⊢ Rvar tys' b k2 ∗ (Rvar tys' b k2 -∗ Rvar tys a k1))%I).
    { iIntros "[[$ H1] H2] Hb". iDestruct ("H1" with "Hb") as "Hl". rewrite (list_insert_id _ _ _ Hks) -Hv.
      iDestruct ("H2" with "Hl") as "H". by destruct k1. }
    apply (hprop_in_entails _ _ HE). exists h4, h2. done.
Qed.

Context (S : usem) (k : nat) (Hok : usem_ok C W k S).

Lemma assign_own_wp tys a k1 t u j z ks i2 t2 v2 : depth k1.2 <= k -> tys !! k1.1.2 = Some t -> ity_uid t = u ->
  ut_members (te C u) !! j = Some tys -> k1.2 = UV z ks -> ks !! j = Some (false, i2, v2) -> tys !! i2 = Some t2 ->
  k1.1 <> (false, i2) -> it_copy C t2 = false -> it_move C t2 = true ->
  ⊢ {{ Rvar tys a k1 }} assign_own C S tys a u j false {{ λ _, Rvar tys a (false, i2, erase v2) | λ _, Rvar tys a k1 }} @ W.
Proof.
  iIntros (Hd1 Ht Hu Hj Hv Hks Ht2 Hne Hc2 Hm2 Q X) "H HQ". 
  iDestruct (own_part_open _ _ _ _ _ _ _ Ht Hu Hj with "H") as (l b z' ks' k2) "[[%Hv' %Hk2] H]".
  rewrite Hv in Hv'. injection Hv' as <- <-. rewrite Hks in Hk2. injection Hk2 as <-. simpl.
  pose proof (child_depth z _ _ _ Hks) as Hd. rewrite -Hv /= in Hd.
  unfold assign_own, var_get_ref. wpb. wpb. iApply (wp_rd W _ (Some l)). iSplit; [by iDestruct "H" as "[$ _]"|].
  iDestruct "H" as "[_ H]". iApply wp_ret.
  iApply (wp_rd_bind W _ _ (tys, b)). iSplit; [by iDestruct "H" as "[$ _]"|]. iDestruct "H" as "[_ H]". simpl.
  rewrite decide_True //. unfold var_assign.
  iApply (wp_rd_bind W _ _ (wz k1.1.1 k1.1.2)). iSplit; [by iDestruct "H" as "[$ _]"|]. iDestruct "H" as "[_ H]".
  iApply (wp_rd_bind W _ _ (wz false i2)). iSplit; [by iDestruct "H" as "[$ _]"|]. iDestruct "H" as "[_ [Hb H]]".
  case_decide as Hw.
  { exfalso. apply wz_eq in Hw as [Hw1 Hw2]. apply Hne. by rewrite -Hw1 -Hw2 -surjective_pairing. }
  iDestruct (Rvar_clean with "Hb") as (t3) "[%Ht3 Hb]"; [done|]. simpl in *. rewrite Ht2 in Ht3. injection Ht3 as <-.
  rewrite (which_of_wz false i2). iApply (visit_tint _ _ Hlim with "Hb"); [done|]. iIntros "Hb".
  unfold assigner. simpl. rewrite Hc2 Hm2. unfold assign_2. iApply scoped_wp. iApply stack_obj_wp. iIntros (x) "Hx".
  iApply (i_copy_spec _ _ _ _ Hok with "[$Hx $Hb]"); [lia|]. iSplit; last first.
  { iIntros (e) "(_ & $ & Hb)". iApply "HQ". iApply "H". by iApply Rvar_plain. }
  iIntros ([]) "[Hx Hb]". iDestruct ("H" with "[Hb]") as "H"; [by iApply Rvar_plain|]. wpb.
  iApply (destroy_content_spec _ _ Hwf _ _ Hok with "H"); [done|]. iSplit; [|by iIntros (e) "[]"].
  iIntros ([]) "(%w & Ha)". wpb.
  iApply (i_move_spec _ _ _ _ Hok with "[$Ha $Hx]"); [rewrite depth_erase; lia|].
  iSplit; [|by iIntros (e) "[%He ?]"; congruence].
  iIntros ([]) "(Ha & %v' & %Hv' & Hx)". iApply (write_which_tint with "Ha"). iIntros "Ha".
  iApply (i_destroy_spec _ _ _ _ Hok with "Hx"); [rewrite (skel_depth _ _ Hv') depth_erase; lia|].
  iSplit; [|by iIntros (e) "[]"]. iIntros ([]) "Hx".
  iExists KStk, _. iSplitR; [by iPureIntro|]. iFrame "Hx". iApply "HQ".
  rewrite erase_erase. by iApply Rvar_plain.
Qed.
End own.

(** In reachable states. *)
Section reach.
Context (C : cfg) (st nb : bool) (eqf ltf : uid -> uval -> uval -> bool).
Context (HC : good_env C st nb).
Notation reached := (reached C st nb eqf ltf).
Notation W := (WPar st nb).
Let Hwf : wf_env C W := good_env_wf C st nb HC.

Lemma own_part_safe E s x tys a k1 u j z ks i2 t2 v2 :
  reached E s -> E !! x = Some (BVar tys a) -> sees C E s x tys k1 -> has tys k1 u ->
  ut_members (te C u) !! j = Some tys -> k1.2 = UV z ks -> ks !! j = Some (false, i2, v2) -> tys !! i2 = Some t2 ->
  k1.1 <> (false, i2) -> ~ nothrow_copy C t2 -> nothrow_move C t2 ->
  exists r, settles (fun n => assign_own C (sem C n) tys a u j false) s r /\
    ((exists s', r = Ok tt s' /\ sees C E s' x tys (false, i2, erase v2) /\ forest C (mem s') E /\
        forall y, y <> x -> same_at C E s E s' y) \/
     (exists e s', r = Exn e s' /\ forest C (mem s') E /\ forall y, same_at C E s E s' y)).
Proof.
  intros Hr Hx Hk1 (t&Ht&Hu) Hj Hv Hks Ht2 Hne Hc2%not_nothrow_copy Hm2%it_move_true.
  destruct (reached_inv C st nb eqf ltf HC _ _ Hr) as (B&σ&Hi). pose proof (inv_shows _ _ _ _ _ _ _ Hi) as Hs.
  pose proof (sees_is_var _ _ _ _ _ _ _ Hs Hk1) as Hσ. destruct (inv_aok _ _ _ _ _ _ _ Hi _ _ Hσ) as [Hty Hd].
  pose proof (sem_ok C W Hwf B B ltac:(lia)) as Hok.
  pose proof (assign_own_wp C W Hwf (sem C B) B Hok tys a k1 t u j z ks i2 t2 v2 Hd Ht Hu Hj Hv Hks Ht2 Hne Hc2 Hm2) as Hwp.
  assert (Hpre : world C W E σ ⊢ wp W (assign_own C (sem C B) tys a u j false)
    (λ _, world C W E (<[x := AVar tys (false, i2, erase v2)]> σ)) (λ _, world C W E (<[x := AVar tys k1]> σ))).
  { iIntros "H". iDestruct (world_var with "H") as (a') "(%Ha & Hk & H)"; [exact Hσ|]. rewrite Hx in Ha. injection Ha as <-.
    iApply (Hwp with "Hk"). iSplit; iIntros (?) "Hk"; by iApply "H". }
  pose proof (hprop_in_entails _ _ Hpre _ (inv_world _ _ _ _ _ _ _ Hi)) as Hw. apply wp_unfold in Hw.
  specialize (Hw s ∅). rewrite right_id_L in Hw. specialize (Hw eq_refl (map_disjoint_empty_r _) (inv_ginv _ _ _ _ _ _ _ Hi)).
  exists (assign_own C (sem C B) tys a u j false s). split.
  { exists B. intros n Hn. apply assign_own_mono; [done|]. intros Hf. by rewrite Hf in Hw. }
  assert (Hdv : depth (erase v2) <= B).
  { rewrite depth_erase. pose proof (child_depth z _ _ _ Hks) as Hd2. rewrite -Hv /= in Hd2. simpl in Hd. lia. }
  destruct (assign_own C (sem C B) tys a u j false s) as [[] s'|e s'|f]; [left; exists s'|right; exists e, s'|done].
  all: destruct Hw as (h'&Hm&_&_&_&HQ); rewrite right_id_L in Hm; subst h'; split; [done|].
  all: pose proof (world_shows C W _ _ _ (mem s') HQ ltac:(done)) as Hs'.
  - split; [eapply is_var_sees; [exact Hs'|by apply lookup_insert]|]. split.
    + eapply (world_forest C W (mem s') B); [exact HQ|]. intros y α Hy. destruct (decide (y = x)) as [->|Hyx].
      * rewrite lookup_insert in Hy. injection Hy as <-. split; done.
      * rewrite lookup_insert_ne // in Hy. by eapply (inv_aok _ _ _ _ _ _ _ Hi).
    + intros y Hyx. eapply shows_same; [done..|]. by rewrite lookup_insert_ne.
  - rewrite insert_id // in HQ, Hs'. split.
    + eapply (world_forest C W (mem s') B); [exact HQ|]. by eapply (inv_aok _ _ _ _ _ _ _ Hi).
    + intros y. by eapply shows_same.
Qed.
End reach.
