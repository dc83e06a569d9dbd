(** Specifications of converting construction and assignment (proofs). *)
From stdpp Require Import gmap.
From iris.proofmode Require Import tactics.
From Verif Require Import Base Types TypesFacts Dispatch DispatchFacts Variant Sem Heap Wp Values ValuesFacts Rep SpecInt SpecVar SpecAssign SpecSem.

(** What an operand of type [u] and value [v] becomes in a bounded type of user type [u']. *)
Definition conv_val (C : cfg) (u u' : uid) (v : uval) : uval :=
  if decide (u' = u) then erase v
  else match v with UV z _ => UV (match z with Some x => Some (cv C u u' x) | None => None end) [] end.

(** An operand afterwards: moved from, or as it was. *)
Definition operand (mv : bool) (v v' : uval) : Prop := if mv then skel v' = skel v else v' = v.

Definition init_fail (C : cfg) (u : uid) (mv : bool) (t : ity) : Prop :=
  ity_uid t = u -> (if mv then it_move C t else it_copy C t) = false.

Definition from_ok (C : cfg) (tys : list ity) (k1 : vval) (u : uid) (v2 : uval) (k' : vval) : Prop :=
  exists t1, tys !! k1.1.2 = Some t1 /\
  if decide (ity_uid t1 = u) then k' = (k1.1, v2)
  else exists i t, resolve C tys u = Some i /\ tys !! i = Some t /\ k' = (false, i, conv_val C u (ity_uid t) v2).

Definition from_fail (C : cfg) (n : nat) (tys : list ity) (k1 : vval) (u : uid) (mv : bool) (v2 : uval) (k' : vval) : Prop :=
  exists t1, tys !! k1.1.2 = Some t1 /\
  if decide (ity_uid t1 = u)
  then (if mv then nt_massign (te C u) else nt_cassign (te C u)) = false /\ k'.1 = k1.1 /\ depth k'.2 <= n
  else exists i t, resolve C tys u = Some i /\ tys !! i = Some t /\
       (k' = k1 /\ init_fail C u mv t \/
        massign_fail C n tys k1 (false, i, conv_val C u (ity_uid t) v2) k').

(** The operand of an assignment from a value, afterwards. *)
Definition from_src (n : nat) (mv : bool) (v1 v2 v2' : uval) : Prop :=
  if mv then depth v2' <= n /\ (clean v1 = true -> clean v2' = true) else v2' = v2.

Definition convert_ok (C : cfg) (tys tys' : list ity) (k2 : vval) (k' : vval) : Prop :=
  exists t2 i t, tys' !! k2.1.2 = Some t2 /\ resolve C tys (ity_uid t2) = Some i /\ tys !! i = Some t /\
    k' = (false, i, conv_val C (ity_uid t2) (ity_uid t) k2.2).

Definition convert_fail (C : cfg) (n : nat) (tys tys' : list ity) (k1 k2 : vval) (mv : bool) (k' : vval) : Prop :=
  exists t2 i t, tys' !! k2.1.2 = Some t2 /\ resolve C tys (ity_uid t2) = Some i /\ tys !! i = Some t /\
    (k' = k1 /\ init_fail C (ity_uid t2) mv t \/
     massign_fail C n tys k1 (false, i, conv_val C (ity_uid t2) (ity_uid t) k2.2) k').

Lemma conv_clean C u u' v : clean (conv_val C u u' v) = true.
Proof. unfold conv_val. case_decide; [apply clean_erase|]. by destruct v. Qed.

Lemma conv_depth C u u' v n : depth v <= n -> depth (conv_val C u u' v) <= n.
Proof.
  unfold conv_val. case_decide; [by rewrite depth_erase|]. pose proof (depth_pos v). destruct v; simpl in *. lia.
Qed.

Lemma operand_depth mv v v' : operand mv v v' -> depth v' = depth v.
Proof. destruct mv; simpl; [apply skel_depth|by intros ->]. Qed.
Lemma operand_clean mv v v' : operand mv v v' -> clean v' = clean v.
Proof. destruct mv; simpl; [apply skel_clean|by intros ->]. Qed.

Lemma operand_src n mv v1 v2 v2' : operand mv v2 v2' -> depth v2 <= n -> clean v2 = true -> from_src n mv v1 v2 v2'.
Proof.
  unfold from_src. intros Ho Hd Hc. destruct mv; [|done].
  rewrite (operand_depth _ _ _ Ho) (operand_clean _ _ _ Ho). done.
Qed.

Section spec.
Context (C : cfg) (W : wpar).
Notation R := (R C W).
Notation RI := (RI C W).
Notation tobj := (tobj C W).
Notation tint := (tint C W).
Notation Rvar := (Rvar C W).
Notation wp := (wp W).
Context (Hwf : wf_env C W).
Context (k : nat) (S : usem) (Hok : usem_ok C W k S).
Let Hlim : 0 < lim C := we_lim _ _ Hwf.

Lemma convert_obj_spec u u' d kd wd s ks ws v : ut_members (te C u') = [] ->
  ⊢ {{ traw d kd wd ∗ tobj s ks ws u v }} convert_obj C u u' d s
    {{ λ _, tobj d kd wd u' (match v with UV z _ => UV (match z with Some x => Some (cv C u u' x) | None => None end) [] end)
            ∗ tobj s ks ws u v
     | λ _, traw d kd wd ∗ tobj s ks ws u v }} @ W.
Proof.
  iIntros (Hm Q X) "[Hd Hs] HQ". destruct v as [z vs]. iDestruct (tobj_unfold with "Hs") as (ls) "(%Hz & Hs & Hms)".
  unfold convert_obj. wpb. iApply wp_get_obj. iFrame "Hs". iIntros "Hs". rewrite decide_True //.
  wpb. iApply wp_maybe_throw. iSplit; last first.
  { iIntros (e) "_". iApply "HQ". iFrame "Hd". iApply tobj_unfold. iExists ls. by iFrame. }
  wpb. iApply wp_note_read. iSplitR; [done|]. iApply wp_construct. iFrame "Hd". iIntros "Hd".
  iApply "HQ". iSplitL "Hd".
  - iApply tobj_unfold. iExists []. rewrite Hm. iSplitR; [|by iFrame "Hd"]. iPureIntro.
    intros Hs. specialize (Hz Hs). by destruct z.
  - iApply tobj_unfold. iExists ls. by iFrame.
Qed.

Lemma initialize_spec tys a w u s ks ws v mv i t : depth v <= k ->
  resolve C tys u = Some i -> tys !! i = Some t ->
  ⊢ {{ traw a KVar w ∗ tobj s ks ws u v }} initialize C S tys a u s mv
    {{ λ r, ⌞r = i⌟ ∗ tint a KVar w t (conv_val C u (ity_uid t) v) ∗
            ∃ v', ⌞operand mv v v'⌟ ∗ tobj s ks ws u v'
     | λ _, ⌞init_fail C u mv t⌟ ∗ traw a KVar w ∗ ∃ v', ⌞operand mv v v'⌟ ∗ tobj s ks ws u v' }} @ W.
Proof.
  iIntros (Hd Hr Ht Q X) "[Ha Hs] HQ". unfold initialize. rewrite Hr Ht. wpb.
  destruct (resolve_Some _ _ _ _ Hr) as (t0&r&Ht0&Hrank&_). rewrite Ht in Ht0. injection Ht0 as <-.
  unfold conv_val, init_fail. destruct (decide (ity_uid t = u)) as [<-|Hne].
  - destruct mv; simpl.
    + iApply (i_move_from_spec _ _ _ _ Hok with "[$Ha $Hs]"); [done|]. iSplit.
      * iIntros ([]) "[Ha Hs]". iApply wp_ret. iApply "HQ". by iFrame.
      * iIntros (e) "(%Hm & Ha & Hs)". iApply "HQ". by iFrame.
    + iApply (i_copy_from_spec _ _ _ _ Hok with "[$Ha $Hs]"); [done|]. iSplit.
      * iIntros ([]) "[Ha Hs]". iApply wp_ret. iApply "HQ". iSplitR; [done|]. iFrame "Ha". iExists v. by iFrame.
      * iIntros (e) "(%Hm & Ha & Hs)". iApply "HQ". iSplitR; [done|]. iFrame "Ha". iExists v. by iFrame.
  - assert (Hm : ut_members (te C (ity_uid t)) = []) by (eapply (we_conv _ _ Hwf u); eauto).
    assert (Hop : operand mv v v) by by destruct mv.
    iApply scoped_wp. iApply stack_obj_wp. iIntros (x) "Hx".
    iApply (convert_obj_spec with "[$Hx $Hs]"); [done|]. iSplit; last first.
    { iIntros (e) "[$ Hs]". iApply "HQ". iSplitR; [done|]. iFrame "Ha". iExists v. by iFrame. }
    iIntros ([]) "[Hx Hs]". set (v2 := match v with UV z _ => _ end).
    assert (Hd2 : depth v2 <= k). { pose proof (depth_pos v). unfold v2. destruct v; simpl in *. lia. }
    assert (He2 : erase v2 = v2) by (unfold v2; by destruct v).
    iApply (i_move_from_spec _ _ _ _ Hok with "[$Ha $Hx]"); [done|]. rewrite He2. iSplit.
    + iIntros ([]) "(Ha & %v' & %Hv' & Hx)". iApply (ok_destroy _ _ _ _ Hok with "Hx").
      { by rewrite (skel_depth _ _ Hv'). }
      iSplit; [|by iIntros (e) "[]"]. iIntros ([]) "Hx". iExists KStk, _. iSplitR; [done|]. iFrame "Hx".
      iApply wp_ret. iApply "HQ". iSplitR; [done|]. iFrame "Ha". iExists v. by iFrame.
    + iIntros (e) "(_ & Ha & %v' & %Hv' & Hx)". iApply (ok_destroy _ _ _ _ Hok with "Hx").
      { by rewrite (skel_depth _ _ Hv'). }
      iSplit; [|by iIntros (e') "[]"]. iIntros ([]) "Hx". iExists KStk, _. iSplitR; [done|]. iFrame "Hx".
      iApply "HQ". iSplitR; [done|]. iFrame "Ha". iExists v. by iFrame.
Qed.

Lemma var_from_spec tys a w u s ks ws v mv i t : depth v <= k ->
  resolve C tys u = Some i -> tys !! i = Some t ->
  ⊢ {{ traw a KVar w ∗ tobj s ks ws u v }} var_from C S tys a u s mv
    {{ λ _, Rvar tys a (false, i, conv_val C u (ity_uid t) v) ∗ ∃ v', ⌞operand mv v v'⌟ ∗ tobj s ks ws u v'
     | λ _, ⌞init_fail C u mv t⌟ ∗ traw a KVar w ∗ ∃ v', ⌞operand mv v v'⌟ ∗ tobj s ks ws u v' }} @ W.
Proof.
  iIntros (Hd Hr Ht Q X) "H HQ". unfold var_from. wpb.
  iApply (initialize_spec with "H"); [done..|]. iSplit.
  - iIntros (r) "(-> & Ha & Hs)". iApply (write_which_tint with "Ha"). iIntros "Ha". iApply "HQ". iFrame "Hs".
    by iApply Rvar_plain.
  - iIntros (e) "H". by iApply "HQ".
Qed.

Lemma var_convert_spec tys a w tys' b k2 mv : depth k2.2 <= k ->
  (forall t, t ∈ tys' -> is_Some (resolve C tys (ity_uid t))) ->
  ⊢ {{ traw a KVar w ∗ Rvar tys' b k2 }} var_convert C S tys a tys' b mv
    {{ λ _, (∃ k', ⌞convert_ok C tys tys' k2 k'⌟ ∗ Rvar tys a k') ∗
            ∃ v', ⌞operand mv k2.2 v'⌟ ∗ Rvar tys' b (k2.1.1, k2.1.2, v')
     | λ _, ⌞exists t2 i t, tys' !! k2.1.2 = Some t2 /\ resolve C tys (ity_uid t2) = Some i /\
              tys !! i = Some t /\ init_fail C (ity_uid t2) mv t⌟ ∗
            traw a KVar w ∗ ∃ v', ⌞operand mv k2.2 v'⌟ ∗ Rvar tys' b (k2.1.1, k2.1.2, v') }} @ W.
Proof.
  iIntros (Hd Hres Q X) "[Ha Hb] HQ". unfold var_convert. wpb.
  iApply (visit_user_wp _ _ Hlim with "Hb"). iIntros (t2 l kl wl) "%Ht2 Hl Hback".
  destruct (Hres t2) as [i Hi]; [by eapply elem_of_list_lookup_2|].
  destruct (resolve_Some _ _ _ _ Hi) as (t&r&Ht&_).
  iApply (initialize_spec with "[$Ha $Hl]"); [done..|]. iSplit.
  - iIntros (r') "(-> & Ha & %v' & %Hv' & Hl)". iApply (write_which_tint with "Ha"). iIntros "Ha".
    iApply "HQ". iSplitL "Ha".
    + iExists (false, i, _). iSplitR; [|by iApply Rvar_plain]. iPureIntro. by exists t2, i, t.
    + iExists v'. iSplitR; [done|]. by iApply "Hback".
  - iIntros (e) "(%Hf & Ha & %v' & %Hv' & Hl)". iApply "HQ". iSplitR; [by iPureIntro; exists t2, i, t|].
    iFrame "Ha". iExists v'. iSplitR; [done|]. by iApply "Hback".
Qed.

Lemma var_assign_from_spec tys a k1 u s ks ws v2 mv : wf_tys C W tys ->
  depth k1.2 <= k -> depth v2 <= k -> clean v2 = true -> is_Some (resolve C tys u) ->
  ⊢ {{ Rvar tys a k1 ∗ tobj s ks ws u v2 }} var_assign_from C S tys a u s mv
    {{ λ _, (∃ k', ⌞from_ok C tys k1 u v2 k'⌟ ∗ Rvar tys a k') ∗
            ∃ v2', ⌞from_src k mv k1.2 v2 v2'⌟ ∗ tobj s ks ws u v2'
     | λ _, (∃ k', ⌞from_fail C k tys k1 u mv v2 k'⌟ ∗ Rvar tys a k') ∗
            ∃ v2', ⌞from_src k mv k1.2 v2 v2'⌟ ∗ tobj s ks ws u v2' }} @ W.
Proof.
  iIntros (Hty Hd1 Hd2 Hc [i Hi] Q X) "[Ha Hs] HQ". unfold var_assign_from. wpb.
  iApply (visit_user_wp _ _ Hlim with "Ha"). iIntros (t1 l kl wl) "%Ht1 Hl Hback".
  unfold direct_assign. case_decide as Hu.
  - subst u. wpb. destruct mv.
    + iApply (ok_massign _ _ _ _ Hok with "[$Hl $Hs]"); [done..|]. iSplit.
      * iIntros ([]) "(Hl & %v' & %Hv' & Hs)". iApply wp_ret. iApply wp_ret. iApply "HQ". iSplitL "Hl Hback".
        -- iExists (k1.1, v2). destruct k1 as [[bk1 i1] v1]. simpl in *. iSplitR; [|by iApply "Hback"].
           iPureIntro. exists t1. rewrite decide_True //.
        -- iExists v'. by iFrame.
      * iIntros (e) "(%Hnt & (%v & %Hv & Hl) & %v' & %Hv' & Hs)". iApply "HQ". iSplitL "Hl Hback".
        -- iExists (k1.1, v). destruct k1 as [[bk1 i1] v1]. simpl in *. iSplitR; [|by iApply "Hback"].
           iPureIntro. exists t1. rewrite decide_True //.
        -- iExists v'. by iFrame.
    + iApply (ok_cassign _ _ _ _ Hok with "[$Hl $Hs]"); [done..|]. iSplit.
      * iIntros ([]) "(Hl & Hs)". iApply wp_ret. iApply wp_ret. iApply "HQ". iSplitL "Hl Hback".
        -- iExists (k1.1, v2). destruct k1 as [[bk1 i1] v1]. simpl in *. iSplitR; [|by iApply "Hback"].
           iPureIntro. exists t1. rewrite decide_True //.
        -- iExists v2. by iFrame.
      * iIntros (e) "(%Hnt & (%v & %Hv & Hl) & Hs)". iApply "HQ". iSplitL "Hl Hback".
        -- iExists (k1.1, v). destruct k1 as [[bk1 i1] v1]. simpl in *. iSplitR; [|by iApply "Hback"].
           iPureIntro. exists t1. rewrite decide_True //.
        -- iExists v2. by iFrame.
  - destruct (resolve_Some _ _ _ _ Hi) as (t&r&Ht&_).
    iApply wp_ret. iDestruct ("Hback" with "Hl") as "Ha". rewrite -(vval_eta k1).
    iApply scoped_wp. iApply local_variant_wp. iIntros (x) "Hx".
    iApply (var_from_spec with "[$Hx $Hs]"); [done..|]. iSplit; last first.
    { iIntros (e) "(%Hf & Hx & %v' & %Hv' & Hs)". iSplitL "Hx"; [by iExists _|]. iApply "HQ". iSplitL "Ha".
      - iExists k1. iFrame "Ha". iPureIntro. exists t1. split; [done|]. rewrite decide_False //. exists i, t. eauto.
      - iExists v'. iFrame "Hs". iPureIntro. by apply operand_src. }
    iIntros ([]) "(Hx & %v' & %Hv' & Hs)".
    iApply (variant_massign_spec _ _ Hwf _ _ Hok _ Hty with "[$Ha $Hx]");
      [done|by apply conv_depth|apply source_clean, conv_clean|]. iSplit.
    + iIntros ([]) "(Ha & %k2' & (%Hk2' & %Hdk & _) & Hx)".
      iApply (var_destroy_spec _ _ Hwf _ _ Hok with "Hx"); [done|]. iSplit; [|by iIntros (e) "[]"].
      iIntros ([]) "(%w & Hx)". iExists KVar, _. iSplitR; [done|]. iFrame "Hx". iApply "HQ". iSplitL "Ha".
      * iExists _. iFrame "Ha". iPureIntro. exists t1. split; [done|]. rewrite decide_False //. by exists i, t.
      * iExists v'. iFrame "Hs". iPureIntro. by apply operand_src.
    + iIntros (e) "[(%k' & %Hk' & Ha) (%k2' & (%Hk2' & %Hdk & _) & Hx)]".
      iApply (var_destroy_spec _ _ Hwf _ _ Hok with "Hx"); [done|]. iSplit; [|by iIntros (e') "[]"].
      iIntros ([]) "(%w & Hx)". iExists KVar, _. iSplitR; [done|]. iFrame "Hx". iApply "HQ". iSplitL "Ha".
      * iExists _. iFrame "Ha". iPureIntro. exists t1. split; [done|]. rewrite decide_False //. exists i, t. eauto.
      * iExists v'. iFrame "Hs". iPureIntro. by apply operand_src.
Qed.

Lemma var_assign_convert_spec tys a k1 tys' b k2 mv : wf_tys C W tys ->
  depth k1.2 <= k -> depth k2.2 <= k ->
  (forall t, t ∈ tys' -> is_Some (resolve C tys (ity_uid t))) ->
  ⊢ {{ Rvar tys a k1 ∗ Rvar tys' b k2 }} var_assign_convert C S tys a tys' b mv
    {{ λ _, (∃ k', ⌞convert_ok C tys tys' k2 k'⌟ ∗ Rvar tys a k') ∗
            ∃ v', ⌞operand mv k2.2 v'⌟ ∗ Rvar tys' b (k2.1.1, k2.1.2, v')
     | λ _, (∃ k', ⌞convert_fail C k tys tys' k1 k2 mv k'⌟ ∗ Rvar tys a k') ∗
            ∃ v', ⌞operand mv k2.2 v'⌟ ∗ Rvar tys' b (k2.1.1, k2.1.2, v') }} @ W.
Proof.
  iIntros (Hty Hd1 Hd2 Hres Q X) "[Ha Hb] HQ". unfold var_assign_convert. wpb.
  iApply (visit_user_wp _ _ Hlim with "Ha"). iIntros (t1 l kl wl) "%Ht1 Hl Hback".
  iApply wp_ret. iDestruct ("Hback" with "Hl") as "Ha". rewrite -(vval_eta k1).
  iApply scoped_wp. iApply local_variant_wp. iIntros (x) "Hx".
  iApply (var_convert_spec with "[$Hx $Hb]"); [done..|]. iSplit; last first.
  { iIntros (e) "(%Hf & Hx & Hb)". iSplitL "Hx"; [by iExists _|]. iApply "HQ". iFrame "Hb".
    iExists k1. iFrame "Ha". iPureIntro. destruct Hf as (t2&i&t&H1&H2&H3&H4). exists t2, i, t. eauto 10. }
  iIntros ([]) "((%kx & %Hkx & Hx) & Hb)". destruct Hkx as (t2&i&t&H1&H2&H3&->).
  iApply (variant_massign_spec _ _ Hwf _ _ Hok _ Hty with "[$Ha $Hx]");
    [done|by apply conv_depth|apply source_clean, conv_clean|]. iSplit.
  + iIntros ([]) "(Ha & %k2' & (%Hk2' & %Hdk & _) & Hx)".
    iApply (var_destroy_spec _ _ Hwf _ _ Hok with "Hx"); [done|]. iSplit; [|by iIntros (e) "[]"].
    iIntros ([]) "(%w & Hx)". iExists KVar, _. iSplitR; [done|]. iFrame "Hx". iApply "HQ". iFrame "Hb".
    iExists _. iFrame "Ha". iPureIntro. by exists t2, i, t.
  + iIntros (e) "[(%k' & %Hk' & Ha) (%k2' & (%Hk2' & %Hdk & _) & Hx)]".
    iApply (var_destroy_spec _ _ Hwf _ _ Hok with "Hx"); [done|]. iSplit; [|by iIntros (e') "[]"].
    iIntros ([]) "(%w & Hx)". iExists KVar, _. iSplitR; [done|]. iFrame "Hx". iApply "HQ". iFrame "Hb".
    iExists _. iFrame "Ha". iPureIntro. exists t2, i, t. eauto 10.
Qed.

End spec.
