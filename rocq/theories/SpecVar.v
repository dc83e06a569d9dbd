(** Specifications of the functions of the variant class (proofs). *)
From stdpp Require Import gmap.
From iris.proofmode Require Import tactics.
From Verif Require Import Base Types TypesFacts Dispatch DispatchFacts Variant Sem Heap Wp Values ValuesFacts Rep SpecInt.

(** The discriminator of an index, flagged or not. *)
Definition wz (bk : bool) (i : nat) : Z := if bk then (- (Z.of_nat i + 1))%Z else Z.of_nat i.

Lemma which_of_wz bk i : which_of (wz bk i) = Z.of_nat i.
Proof. unfold which_of, wz. destruct bk; case_decide; lia. Qed.

Lemma wz_eq bk1 bk2 i1 i2 : wz bk1 i1 = wz bk2 i2 <-> bk1 = bk2 /\ i1 = i2.
Proof. unfold wz. destruct bk1, bk2; split; intros; destruct_and?; subst; try split; try done; lia. Qed.

(** Value of a fallback. *)
Definition fbval (C : cfg) (u : uid) : uval :=
  UV (match ut_init (te C u) with DITriv => None | _ => Some (dv C u) end) [].

(** What a failed assignment of a value of type [t2] over a value of another
    index leaves behind. *)
Definition fb_result (C : cfg) (tys : list ity) (k' : vval) : Prop :=
  exists j u, find_fallback C tys = Some (j, MIter j) /\ tys !! j = Some (IPlain u) /\
              k' = (false, j, fbval C u).
Definition kept (k1 k' : vval) : Prop := k'.1.2 = k1.1.2 /\ erase k'.2 = erase k1.2.
Definition afail (C : cfg) (tys : list ity) (k1 : vval) (t2 : ity) (k' : vval) : Prop :=
  it_copy C t2 = false /\
  (it_move C t2 = true -> k' = k1) /\
  (it_move C t2 = false -> has_fallback C tys = true -> fb_result C tys k') /\
  (it_move C t2 = false -> has_fallback C tys = false -> kept k1 k' /\ (k1.1.1 = true -> k' = k1)).
Definition mfail (C : cfg) (tys : list ity) (k1 : vval) (t2 : ity) (k' : vval) : Prop :=
  it_move C t2 = false /\ afail C tys k1 t2 k'.

Section spec.
Context (C : cfg) (W : wpar).
Notation R := (R C W).
Notation RI := (RI C W).
Notation tobj := (tobj C W).
Notation tint := (tint C W).
Notation Rvar := (Rvar C W).
Notation wp := (wp W).

Lemma Rvar_plain tys a i t v : tys !! i = Some t ->
  tint a KVar (Some (Z.of_nat i)) t v ⊢ Rvar tys a (false, i, v).
Proof. iIntros (Ht) "H". rewrite Rvar_unfold /=. iExists t. by iFrame. Qed.

Lemma Rvar_bk tys a i t p v : tys !! i = Some t -> bkok C W tys t ->
  a ↦ Cell KVar (Some (OBackup t (Some p))) (Some (- (Z.of_nat i + 1))%Z) ∗ tint p KHeap None t v
  ⊢ Rvar tys a (true, i, v).
Proof. iIntros (Ht Hb) "[H Hp]". rewrite Rvar_unfold /=. iExists t. iSplitR; [done|].
  iExists p. by iFrame. Qed.

Lemma read_which_tint l k z t v Q X :
  tint l k (Some z) t v -∗ (tint l k (Some z) t v -∗ Q z) -∗ wp (read_which l) Q X.
Proof.
  iIntros "(%o & Hl & HR) HQ". iApply wp_read_which. iFrame "Hl". iIntros "Hl". iApply "HQ".
  iExists o. iFrame.
Qed.
Lemma write_which_tint l k w z t v Q X :
  tint l k w t v -∗ (tint l k (Some z) t v -∗ Q tt) -∗ wp (write_which l z) Q X.
Proof.
  iIntros "(%o & Hl & HR) HQ". iApply wp_write_which. iFrame "Hl". iIntros "Hl". iApply "HQ".
  iExists o. iFrame.
Qed.

Lemma read_which_Rvar tys a k Q X :
  Rvar tys a k -∗ (Rvar tys a k -∗ Q (wz k.1.1 k.1.2)) -∗ wp (read_which a) Q X.
Proof.
  iIntros "H HQ". rewrite Rvar_unfold. iDestruct "H" as (t) "[%Ht H]".
  destruct k as [[[] i] v]; simpl.
  - iDestruct "H" as (p) "(%Hb & Ha & Hp)". iApply wp_read_which. iFrame "Ha". iIntros "Ha".
    iApply "HQ". iExists t. iSplitR; [done|]. iExists p. by iFrame.
  - iApply (read_which_tint with "H"). iIntros "H". iApply "HQ". iExists t. by iFrame.
Qed.

Lemma which_Rvar tys a k Q X :
  Rvar tys a k -∗ (Rvar tys a k -∗ Q (Z.of_nat k.1.2)) -∗ wp (which a) Q X.
Proof.
  iIntros "H HQ". unfold which. wpb. iApply (read_which_Rvar with "H"). iIntros "H".
  iApply wp_ret. rewrite which_of_wz. by iApply "HQ".
Qed.

Lemma Rvar_lookup tys a k : Rvar tys a k ⊢ ⌜is_Some (tys !! k.1.2)⌝.
Proof.
  rewrite Rvar_unfold. iIntros "(%t & %Ht & H)". iPureIntro. by exists t.
Qed.

Lemma visit_wp (Hlim : 0 < lim C) {A} tys a kd c i t bk (f : sty -> loc -> M A) Q X :
  tys !! i = Some t -> (bk = true -> never_uses_backup C tys t = false) ->
  a ↦ Cell kd c (Some (wz bk i)) -∗
  (a ↦ Cell kd c (Some (wz bk i)) -∗ wp (f (if bk then SBk t else SInt t) a) Q X) -∗
  wp (visit C tys a f) Q X.
Proof.
  iIntros (Ht Hb) "Ha HQ". unfold visit. wpb. iApply wp_read_which. iFrame "Ha". iIntros "Ha".
  rewrite which_of_wz (visitation_lookup _ _ _ t) //. iSpecialize ("HQ" with "Ha").
  destruct bk; simpl.
  - rewrite Hb // decide_False //. lia.
  - destruct (never_uses_backup C tys t); [done|]. rewrite decide_True //. lia.
Qed.

Lemma visit_tint (Hlim : 0 < lim C) {A} tys a kd i t v (f : sty -> loc -> M A) Q X :
  tys !! i = Some t ->
  tint a kd (Some (Z.of_nat i)) t v -∗
  (tint a kd (Some (Z.of_nat i)) t v -∗ wp (f (SInt t) a) Q X) -∗
  wp (visit C tys a f) Q X.
Proof.
  iIntros (Ht) "(%o & Ha & HR) HQ".
  iApply (visit_wp Hlim tys a kd (Some o) i t false with "Ha"); [done..|]. iIntros "Ha".
  iApply "HQ". iExists o. iFrame.
Qed.

Lemma visit_user_wp (Hlim : 0 < lim C) {A} tys a k (f : uid -> loc -> M A) Q X :
  Rvar tys a k -∗
  (∀ t l' k' w', ⌞tys !! k.1.2 = Some t⌟ -∗ tobj l' k' w' (ity_uid t) k.2 -∗
     (∀ v', tobj l' k' w' (ity_uid t) v' -∗ Rvar tys a (k.1.1, k.1.2, v')) -∗
     wp (f (ity_uid t) l') Q X) -∗
  wp (visit_user C tys a f) Q X.
Proof.
  iIntros "H HQ". rewrite Rvar_unfold. iDestruct "H" as (t) "[%Ht H]".
  destruct k as [[bk i] v]; simpl in *. unfold visit_user.
  destruct bk.
  - iDestruct "H" as (p) "(%Hb & Ha & Hp)".
    iApply (visit_wp Hlim tys a KVar _ i t true with "Ha"); [done|by intros _; apply Hb|].
    iIntros "Ha". simpl. wpb. iApply bk_get_wp. iFrame "Ha". iIntros "Ha".
    iApply (unwrap_int_wp with "Hp"). iIntros (l' k' w') "Hl Hback".
    iApply ("HQ" with "[//] Hl"). iIntros (v') "Hl".
    iApply Rvar_bk; [done..|]. iFrame "Ha". by iApply "Hback".
  - iApply (visit_tint with "H"); [done..|]. iIntros "H". simpl.
    iApply (unwrap_int_wp with "H"). iIntros (l' k' w') "Hl Hback".
    iApply ("HQ" with "[//] Hl"). iIntros (v') "Hl".
    iApply Rvar_plain; [done..|]. by iApply "Hback".
Qed.

Lemma scoped_wp {A} mk d (body : loc -> M A) Q X :
  wp mk (λ x, wp (body x)
     (λ r, wp (d x) (λ _, ∃ k w, ⌞k <> KHeap⌟ ∗ traw x k w ∗ Q r) (λ _, False))
     (λ e, wp (d x) (λ _, ∃ k w, ⌞k <> KHeap⌟ ∗ traw x k w ∗ X e) (λ _, False))) X
  ⊢ wp (scoped mk d body) Q X.
Proof.
  iIntros "H". unfold scoped. wpb. iApply (wp_wand with "H"). iSplit; [|by auto].
  iIntros (x) "H". iApply wp_finally. iApply (wp_wand with "H"). iSplit.
  - iIntros (r) "H". wpb. iApply (wp_wand with "H"). iSplit; [|by auto].
    iIntros ([]) "(%k & %w & %Hk & Hx & HQ)". iApply (wp_drop_cell _ _ k); [done|]. iFrame.
  - iIntros (r) "H". wpb. iApply (wp_wand with "H"). iSplit; [|by auto].
    iIntros ([]) "(%k & %w & %Hk & Hx & HQ)". iApply (wp_drop_cell _ _ k); [done|]. iFrame.
Qed.

Section ok.
Context (Hwf : wf_env C W).
Context (k : nat) (S : usem) (Hok : usem_ok C W k S).

Let Hlim : 0 < lim C := we_lim _ _ Hwf.

(** ** Structors *)

Lemma destroy_content_spec tys a k1 : depth k1.2 <= k ->
  ⊢ {{ Rvar tys a k1 }} destroy_content C S tys a
    {{ λ _, ∃ w, traw a KVar w | λ _, False }} @ W.
Proof.
  iIntros (Hd Q X) "H HQ". rewrite Rvar_unfold. iDestruct "H" as (t) "[%Ht H]".
  unfold destroy_content. iApply wp_noexcept.
  destruct k1 as [[bk i] v]; simpl in *. destruct bk.
  - iDestruct "H" as (p) "(%Hb & Ha & Hp)".
    iApply (visit_wp Hlim tys a KVar _ i t true with "Ha"); [done|by intros _; apply Hb|].
    iIntros "Ha". iApply wp_noexcept. simpl.
    iApply (bk_destroy_spec with "[$Ha $Hp]"); [done..|]. iSplit; [|by iIntros (e) "[]"].
    iIntros ([]) "Ha". iApply "HQ". by iExists _.
  - iApply (visit_tint Hlim with "H"); [done|]. iIntros "H". iApply wp_noexcept. simpl.
    iApply (i_destroy_spec with "H"); [done..|]. iSplit; [|by iIntros (e) "[]"].
    iIntros ([]) "Ha". iApply "HQ". by iExists _.
Qed.

Lemma var_destroy_spec tys a k1 : depth k1.2 <= k ->
  ⊢ {{ Rvar tys a k1 }} var_destroy C S tys a
    {{ λ _, ∃ w, traw a KVar w | λ _, False }} @ W.
Proof.
  iIntros (Hd Q X) "H HQ". unfold var_destroy. iApply wp_noexcept.
  iApply (destroy_content_spec with "H"); [done|]. iSplit; [|by iIntros (e) "[]"].
  iIntros ([]) "H". by iApply "HQ".
Qed.

Lemma var_default_spec t r a w v :
  idefval C k t = Some v -> (strict W = true -> determinate v = true) ->
  ⊢ {{ traw a KVar w }} var_default C S (t :: r) a
    {{ λ _, Rvar (t :: r) a (false, 0, v) | λ _, ⌞it_default C t = false⌟ ∗ traw a KVar w }} @ W.
Proof.
  iIntros (Hv Hdet Q X) "Ha HQ". unfold var_default. iApply wp_noexcept_if. wpb.
  iApply (i_value_spec with "Ha"); [done..|]. iSplit.
  - iIntros ([]) "Ha". iApply (write_which_tint with "Ha"). iIntros "Ha". iApply "HQ".
    by iApply (Rvar_plain _ _ 0).
  - iIntros (e) "[%Ht Ha]". rewrite Ht. iApply "HQ". by iFrame.
Qed.

Lemma var_copy_spec tys d w s k1 : depth k1.2 <= k ->
  ⊢ {{ traw d KVar w ∗ Rvar tys s k1 }} var_copy C S tys d s
    {{ λ _, Rvar tys d (erasev k1) ∗ Rvar tys s k1
     | λ _, ⌞exists t, tys !! k1.1.2 = Some t /\ it_copy C t = false⌟ ∗ traw d KVar w ∗ Rvar tys s k1 }} @ W.
Proof.
  iIntros (Hd Q X) "[Hd H] HQ". rewrite {1}Rvar_unfold. iDestruct "H" as (t) "[%Ht H]".
  unfold var_copy. wpb.
  destruct k1 as [[bk i] v]; simpl in *. destruct bk.
  - iDestruct "H" as (p) "(%Hb & Ha & Hp)".
    iApply (visit_wp Hlim tys s KVar _ i t true with "Ha"); [done|by intros _; apply Hb|].
    iIntros "Ha". simpl. wpb. iApply bk_get_wp. iFrame "Ha". iIntros "Ha".
    iApply (i_copy_spec with "[$Hd $Hp]"); [done..|]. iSplit.
    + iIntros ([]) "[Hd Hp]". wpb.
      iApply (which_Rvar tys s (true, i, v) with "[Ha Hp]"); [iApply Rvar_bk; [done..|iFrame]|].
      iIntros "Hs". iApply (write_which_tint with "Hd"). iIntros "Hd". iApply "HQ". iFrame.
      by iApply Rvar_plain.
    + iIntros (e) "(%Hc & Hd & Hp)". iApply "HQ". iSplitR; [by eauto|]. iFrame.
      iApply Rvar_bk; [done..|iFrame].
  - iApply (visit_tint Hlim with "H"); [done|]. iIntros "H". simpl.
    iApply (i_copy_spec with "[$Hd $H]"); [done..|]. iSplit.
    + iIntros ([]) "[Hd Hp]". wpb.
      iApply (which_Rvar tys s (false, i, v) with "[Hp]"); [iApply Rvar_plain; [done..|iFrame]|].
      iIntros "Hs". iApply (write_which_tint with "Hd"). iIntros "Hd". iApply "HQ". iFrame.
      by iApply Rvar_plain.
    + iIntros (e) "(%Hc & Hd & Hp)". iApply "HQ". iSplitR; [by eauto|]. iFrame.
      iApply Rvar_plain; [done..|iFrame].
Qed.

Lemma forallb_lookup {A} (f : A -> bool) (l : list A) i x :
  forallb f l = true -> l !! i = Some x -> f x = true.
Proof. intros H Hi. rewrite forallb_forall in H. apply H, elem_of_list_In, elem_of_list_lookup. by exists i. Qed.

Lemma var_move_spec tys d w s k1 : depth k1.2 <= k ->
  ⊢ {{ traw d KVar w ∗ Rvar tys s k1 }} var_move C S tys d s
    {{ λ _, Rvar tys d (erasev k1) ∗ ∃ v', ⌞skel v' = skel k1.2⌟ ∗ Rvar tys s (k1.1.1, k1.1.2, v')
     | λ _, ⌞exists t, tys !! k1.1.2 = Some t /\ it_move C t = false⌟ ∗ traw d KVar w ∗
            ∃ v', ⌞skel v' = skel k1.2⌟ ∗ Rvar tys s (k1.1.1, k1.1.2, v') }} @ W.
Proof.
  iIntros (Hd Q X) "[Hd H] HQ". rewrite {1}Rvar_unfold. iDestruct "H" as (t) "[%Ht H]".
  unfold var_move. iApply wp_noexcept_if.
  assert (Hne : it_move C t = false -> move_noexcept_constructible C tys = false).
  { intros Hm. destruct (move_noexcept_constructible C tys) eqn:E; [|done].
    rewrite (forallb_lookup _ _ _ _ E Ht) in Hm. done. }
  wpb.
  destruct k1 as [[bk i] v]; simpl in *. destruct bk.
  - iDestruct "H" as (p) "(%Hb & Ha & Hp)".
    iApply (visit_wp Hlim tys s KVar _ i t true with "Ha"); [done|by intros _; apply Hb|].
    iIntros "Ha". simpl. wpb. iApply bk_get_wp. iFrame "Ha". iIntros "Ha".
    iApply (i_move_spec with "[$Hd $Hp]"); [done..|]. iSplit.
    + iIntros ([]) "[Hd (%v' & %Hv' & Hp)]". wpb.
      iApply (which_Rvar tys s (true, i, v') with "[Ha Hp]"); [iApply Rvar_bk; [done..|iFrame]|].
      iIntros "Hs". iApply (write_which_tint with "Hd"). iIntros "Hd". iApply "HQ".
      iSplitL "Hd"; [by iApply Rvar_plain|]. iExists v'. by iFrame.
    + iIntros (e) "(%Hc & Hd & (%v' & %Hv' & Hp))". rewrite Hne //. iApply "HQ". iSplitR; [by eauto|].
      iFrame "Hd". iExists v'. iSplitR; [done|]. iApply Rvar_bk; [done..|iFrame].
  - iApply (visit_tint Hlim with "H"); [done|]. iIntros "H". simpl. iApply wp_noexcept_if.
    iApply (i_move_spec with "[$Hd $H]"); [done..|]. iSplit.
    + iIntros ([]) "[Hd (%v' & %Hv' & Hp)]". wpb.
      iApply (which_Rvar tys s (false, i, v') with "[Hp]"); [iApply Rvar_plain; [done..|iFrame]|].
      iIntros "Hs". iApply (write_which_tint with "Hd"). iIntros "Hd". iApply "HQ".
      iSplitL "Hd"; [by iApply Rvar_plain|]. iExists v'. by iFrame.
    + iIntros (e) "(%Hc & Hd & (%v' & %Hv' & Hp))". rewrite Hc Hne //. iApply "HQ". iSplitR; [by eauto|].
      iFrame "Hd". iExists v'. iSplitR; [done|]. iApply Rvar_plain; [done..|iFrame].
Qed.

(** ** Assignment across indices *)

Context (tys : list ity) (Hty : wf_tys C W tys).

Lemma dthrow_exists i t : tys !! i = Some t -> it_copy C t = false -> it_move C t = false ->
  existsb (dthrow C) tys = true.
Proof.
  intros Hi Hc Hm. apply existsb_exists. exists t. split.
  - apply elem_of_list_In, elem_of_list_lookup. by exists i.
  - unfold dthrow. rewrite Hc Hm //.
Qed.

Lemma construct_fallback_spec a w : 0 < k ->
  existsb (dthrow C) tys = true -> has_fallback C tys = true ->
  ⊢ {{ traw a KVar w }} construct_fallback C S tys a
    {{ λ _, ∃ k', ⌞fb_result C tys k'⌟ ∗ Rvar tys a k' | λ _, False }} @ W.
Proof.
  iIntros (Hk Hdt Hfb Q X) "Ha HQ". unfold construct_fallback.
  unfold has_fallback in Hfb. destruct (find_fallback C tys) as [[j m]|] eqn:E; [|done].
  pose proof E as E'. apply find_fallback_Some in E' as (->&(t&Ht&Hdef)&Hmin).
  destruct (wt_fb _ _ _ Hty Hdt j (MIter j) t E Ht) as (u&->&Hini&Hmem&Hstr).
  assert (Hval : defval C k true u = Some (fbval C u)).
  { destruct k as [|k']; [lia|]. simpl. rewrite Hmem /=. done. }
  assert (Hdet : strict W = true -> determinate (fbval C u) = true).
  { intros Hs. specialize (Hstr Hs). unfold fbval. simpl. by destruct (ut_init (te C u)). }
  iApply wp_noexcept. wpb.
  assert (Hcm : construct_mpl C S tys a (MIter j) = us_definit S u a).
  { unfold construct_mpl. simpl. rewrite Ht. destruct (fb_deref C); [done|].
    destruct Hini as [?|Hini]; [done|]. by destruct (ut_init (te C u)). }
  rewrite Hcm. iApply (ok_definit _ _ _ _ Hok with "Ha"); [done..|]. iSplit.
  - iIntros ([]) "Ha". iApply (write_which_tint _ _ _ _ (IPlain u) with "Ha"). iIntros "Ha".
    iApply "HQ". iExists (false, j, fbval C u). iSplitR; [|by iApply Rvar_plain].
    iPureIntro. by exists j, u.
  - iIntros (e) "[%Hn ?]". simpl in Hdef. congruence.
Qed.

(** What remains after the handler of backup_assign. *)

Lemma backup_assigner_spec a k1 i2 t2 s ks ws v2 :
  depth k1.2 <= k -> depth v2 <= k -> clean v2 = true -> tys !! i2 = Some t2 ->
  has_fallback C tys = false -> it_copy C t2 = false -> it_move C t2 = false ->
  ⊢ {{ Rvar tys a k1 ∗ tint s ks ws t2 v2 }}
      assign_4 C S tys a (Z.of_nat i2) (SInt t2) s
    {{ λ _, Rvar tys a (false, i2, v2) ∗ tint s ks ws t2 v2
     | λ _, (∃ k', ⌞kept k1 k' /\ (k1.1.1 = true -> k' = k1)⌟ ∗ Rvar tys a k') ∗ tint s ks ws t2 v2 }} @ W.
Proof.
  iIntros (Hd1 Hd2 Hcl Ht2 Hfb Hc2 Hm2 Q X) "[H Hs] HQ".
  rewrite {1}Rvar_unfold. iDestruct "H" as (t) "[%Ht H]". unfold assign_4.
  pose proof (dthrow_exists _ _ Ht2 Hc2 Hm2) as Hdt.
  destruct k1 as [[bk i] v]; simpl in *. destruct bk.
  - iDestruct "H" as (p) "(%Hb & Ha & Hp)".
    iApply (visit_wp Hlim tys a KVar _ i t true with "Ha"); [done|by intros _; apply Hb|].
    iIntros "Ha". simpl. unfold backup_assign_1. iApply scoped_wp.
    iApply stack_obj_wp. iIntros (b) "Hb". iApply wp_construct. iFrame "Hb". iIntros "Hb".
    wpb. iApply bk_swap_wp. iFrame "Hb Ha". iIntros "Hb Ha".
    wpb. iApply (bk_destroy_null_spec with "Ha"). iSplit; [|by iIntros (e) "[]"]. iIntros ([]) "Ha".
    wpb. iApply wp_on_exn. iApply (i_copy_spec with "[$Ha $Hs]"); [done..|]. iSplit.
    + iIntros ([]) "[Ha Hs]". iApply (write_which_tint with "Ha"). iIntros "Ha".
      iApply (bk_destroy_spec with "[$Hb $Hp]"); [done..|]. iSplit; [|by iIntros (e) "[]"].
      iIntros ([]) "Hb". iExists KStk, _. iSplitR; [by iPureIntro|]. iFrame "Hb". iApply "HQ".
      iFrame. rewrite clean_erase_id //. by iApply Rvar_plain.
    + iIntros (e) "(_ & Ha & Hs)". wpb. iApply wp_construct. iFrame "Ha". iIntros "Ha".
      iApply bk_swap_wp. iFrame "Ha Hb". iIntros "Ha Hb".
      iApply (bk_destroy_null_spec with "Hb"). iSplit; [|by iIntros (e') "[]"]. iIntros ([]) "Hb".
      iExists KStk, _. iSplitR; [by iPureIntro|]. iFrame "Hb". iApply "HQ". iFrame "Hs".
      iExists (true, i, v). iSplitR; [by iPureIntro|]. iApply Rvar_bk; [done..|iFrame].
  - iApply (visit_tint Hlim with "H"); [done|]. iIntros "H". simpl. destruct (it_move C t) eqn:Hm.
    + unfold backup_assign_2. iApply scoped_wp. iApply stack_obj_wp. iIntros (b) "Hb".
      iApply (i_move_spec with "[$Hb $H]"); [done..|]. iSplit; [|by iIntros (e) "[%He ?]"; congruence].
      iIntros ([]) "(Hb & %v' & %Hv' & Ha)". wpb.
      iApply (i_destroy_spec with "Ha"); [done|by rewrite (skel_depth _ _ Hv')|].
      iSplit; [|by iIntros (e) "[]"]. iIntros ([]) "Ha".
      wpb. iApply wp_on_exn. iApply (i_copy_spec with "[$Ha $Hs]"); [done..|]. iSplit.
      * iIntros ([]) "[Ha Hs]". iApply (write_which_tint with "Ha"). iIntros "Ha".
        iApply (i_destroy_spec with "Hb"); [done|by rewrite depth_erase|].
        iSplit; [|by iIntros (e) "[]"]. iIntros ([]) "Hb".
        iExists KStk, _. iSplitR; [by iPureIntro|]. iFrame "Hb". iApply "HQ".
        iFrame. rewrite clean_erase_id //. by iApply Rvar_plain.
      * iIntros (e) "(_ & Ha & Hs)".
        iApply (i_move_spec with "[$Ha $Hb]"); [done|by rewrite depth_erase|].
        iSplit; [|by iIntros (e') "[%He ?]"; congruence].
        iIntros ([]) "(Ha & %v'' & %Hv'' & Hb)".
        iApply (i_destroy_spec with "Hb"); [done|by rewrite (skel_depth _ _ Hv'') depth_erase|].
        iSplit; [|by iIntros (e') "[]"]. iIntros ([]) "Hb".
        iExists KStk, _. iSplitR; [by iPureIntro|]. iFrame "Hb". iApply "HQ". iFrame "Hs".
        iExists (false, i, erase (erase v)). iSplitR; [|by iApply Rvar_plain].
        iPureIntro. rewrite /kept /= !erase_erase //.
    + assert (Hc : it_copy C t = false).
      { destruct (it_copy C t) eqn:Hc; [|done]. rewrite -Hm. symmetry.
        apply (wt_conf _ _ _ Hty Hfb Hdt); [|done]. apply elem_of_list_lookup. by exists i. }
      assert (Hnb : nobk W = false).
      { destruct (nobk W) eqn:Hn; [|done]. destruct (wt_nobk _ _ _ Hty Hn); congruence. }
      unfold backup_assign_3. wpb. iApply new_obj_wp; [done|]. iSplit.
      * iIntros (q) "Hq". iApply (i_copy_spec with "[$Hq $H]"); [done..|]. iSplit; last first.
        { iIntros (e) "(_ & $ & Ha)". iApply "HQ". iFrame "Hs".
          iExists (false, i, v). iSplitR; [by iPureIntro|]. by iApply Rvar_plain. }
        iIntros ([]) "[Hq Ha]". wpb.
        iApply (i_destroy_spec with "Ha"); [done..|]. iSplit; [|by iIntros (e) "[]"]. iIntros ([]) "Ha".
        wpb. iApply wp_on_exn. iApply (i_copy_spec with "[$Ha $Hs]"); [done..|]. iSplit.
        -- iIntros ([]) "[Ha Hs]". wpb. iApply (write_which_tint with "Ha"). iIntros "Ha". wpb.
           iApply (i_destroy_spec with "Hq"); [done|by rewrite depth_erase|].
           iSplit; [|by iIntros (e) "[]"]. iIntros ([]) "Hq". iApply wp_free. iFrame "Hq".
           iApply "HQ". iFrame. rewrite clean_erase_id //. by iApply Rvar_plain.
        -- iIntros (e) "(_ & Ha & Hs)". wpb. iApply wp_construct. iFrame "Ha". iIntros "Ha".
           wpb. unfold which. wpb. iApply wp_read_which. iFrame "Ha". iIntros "Ha". iApply wp_ret.
           rewrite (which_of_wz false). iApply wp_write_which. iFrame "Ha". iIntros "Ha".
           iApply "HQ". iFrame "Hs". iExists (true, i, erase v). iSplitR.
           { iPureIntro. rewrite /kept /= erase_erase //. }
           iApply Rvar_bk; [done| |iFrame].
           split; [|done]. rewrite /never_uses_backup Hfb Hm Hc //.
      * iIntros (e). iApply "HQ". iFrame "Hs".
        iExists (false, i, v). iSplitR; [by iPureIntro|]. by iApply Rvar_plain.
Qed.

Lemma assigner_spec a k1 i2 t2 s ks ws v2 :
  depth k1.2 <= k -> depth v2 <= k -> clean v2 = true -> tys !! i2 = Some t2 ->
  ⊢ {{ Rvar tys a k1 ∗ tint s ks ws t2 v2 }}
      assigner C S tys a (Z.of_nat i2) (SInt t2) s
    {{ λ _, Rvar tys a (false, i2, v2) ∗ tint s ks ws t2 v2
     | λ _, (∃ k', ⌞afail C tys k1 t2 k'⌟ ∗ Rvar tys a k') ∗ tint s ks ws t2 v2 }} @ W.
Proof.
  iIntros (Hd1 Hd2 Hcl Ht2 Q X) "[H Hs] HQ". unfold assigner. simpl.
  destruct (it_copy C t2) eqn:Hc2.
  { unfold assign_1. iApply wp_noexcept. wpb.
    iApply (destroy_content_spec with "H"); [done|]. iSplit; [|by iIntros (e) "[]"].
    iIntros ([]) "(%w & Ha)". wpb. iApply (i_copy_spec with "[$Ha $Hs]"); [done..|]. iSplit.
    - iIntros ([]) "[Ha Hs]". iApply (write_which_tint with "Ha"). iIntros "Ha". iApply "HQ".
      iFrame. rewrite clean_erase_id //. by iApply Rvar_plain.
    - iIntros (e) "[%He ?]". simpl in He. congruence. }
  destruct (it_move C t2) eqn:Hm2.
  { unfold assign_2. iApply scoped_wp. iApply stack_obj_wp. iIntros (x) "Hx".
    iApply (i_copy_spec with "[$Hx $Hs]"); [done..|]. iSplit; last first.
    { iIntros (e) "(_ & $ & Hs)". iApply "HQ". iFrame "Hs". iExists k1. iFrame "H". iPureIntro.
      split; [done|]. split; [done|]. split; congruence. }
    iIntros ([]) "[Hx Hs]". wpb.
    iApply (destroy_content_spec with "H"); [done|]. iSplit; [|by iIntros (e) "[]"].
    iIntros ([]) "(%w & Ha)". wpb.
    iApply (i_move_spec with "[$Ha $Hx]"); [done|by rewrite depth_erase|].
    iSplit; [|by iIntros (e) "[%He ?]"; congruence].
    iIntros ([]) "(Ha & %v' & %Hv' & Hx)". iApply (write_which_tint with "Ha"). iIntros "Ha".
    iApply (i_destroy_spec with "Hx"); [done|by rewrite (skel_depth _ _ Hv') depth_erase|].
    iSplit; [|by iIntros (e) "[]"]. iIntros ([]) "Hx".
    iExists KStk, _. iSplitR; [by iPureIntro|]. iFrame "Hx". iApply "HQ". iFrame "Hs".
    rewrite erase_erase clean_erase_id //. by iApply Rvar_plain. }
  destruct (has_fallback C tys) eqn:Hfb.
  { unfold assign_3. wpb.
    iApply (destroy_content_spec with "H"); [done|]. iSplit; [|by iIntros (e) "[]"].
    iIntros ([]) "(%w & Ha)". wpb. iApply wp_on_exn.
    iApply (i_copy_spec with "[$Ha $Hs]"); [done..|]. iSplit.
    - iIntros ([]) "[Ha Hs]". iApply (write_which_tint with "Ha"). iIntros "Ha". iApply "HQ".
      iFrame. rewrite clean_erase_id //. by iApply Rvar_plain.
    - iIntros (e) "(_ & Ha & Hs)". iApply (construct_fallback_spec with "Ha"); [|by eapply dthrow_exists|done|].
      { pose proof (depth_pos v2). lia. }
      iSplit; [|by iIntros (e') "[]"]. iIntros ([]) "(%k' & %Hk' & Ha)". iApply "HQ". iFrame "Hs".
      iExists k'. iFrame "Ha". iPureIntro. split; [done|]. split; [congruence|]. split; [done|congruence]. }
  iApply (backup_assigner_spec with "[$H $Hs]"); [done..|]. iSplit.
  - iIntros ([]) "H". by iApply "HQ".
  - iIntros (e) "[(%k' & %Hk' & Ha) Hs]". iApply "HQ". iFrame "Hs". iExists k'. iFrame "Ha".
    iPureIntro. split; [done|]. split; [congruence|]. split; [congruence|done].
Qed.

Lemma move_assigner_spec a k1 i2 t2 s ks ws v2 :
  depth k1.2 <= k -> depth v2 <= k -> clean v2 = true -> tys !! i2 = Some t2 ->
  ⊢ {{ Rvar tys a k1 ∗ tint s ks ws t2 v2 }}
      move_assigner C S tys a (Z.of_nat i2) (SInt t2) s
    {{ λ _, Rvar tys a (false, i2, v2) ∗ ∃ v', ⌞skel v' = skel v2⌟ ∗ tint s ks ws t2 v'
     | λ _, (∃ k', ⌞mfail C tys k1 t2 k'⌟ ∗ Rvar tys a k') ∗
            ∃ v', ⌞skel v' = skel v2⌟ ∗ tint s ks ws t2 v' }} @ W.
Proof.
  iIntros (Hd1 Hd2 Hcl Ht2 Q X) "[H Hs] HQ". unfold move_assigner. simpl.
  destruct (it_move C t2) eqn:Hm2.
  { unfold massign_move. iApply wp_noexcept. wpb.
    iApply (destroy_content_spec with "H"); [done|]. iSplit; [|by iIntros (e) "[]"].
    iIntros ([]) "(%w & Ha)". wpb. iApply (i_move_spec with "[$Ha $Hs]"); [done..|]. iSplit.
    - iIntros ([]) "[Ha Hs]". iApply (write_which_tint with "Ha"). iIntros "Ha". iApply "HQ".
      iFrame. rewrite clean_erase_id //. by iApply Rvar_plain.
    - iIntros (e) "[%He ?]". congruence. }
  destruct (it_copy C t2) eqn:Hc2.
  { iApply wp_noexcept. unfold assign_1. iApply wp_noexcept. wpb.
    iApply (destroy_content_spec with "H"); [done|]. iSplit; [|by iIntros (e) "[]"].
    iIntros ([]) "(%w & Ha)". wpb. iApply (i_copy_spec with "[$Ha $Hs]"); [done..|]. iSplit.
    - iIntros ([]) "[Ha Hs]". iApply (write_which_tint with "Ha"). iIntros "Ha". iApply "HQ".
      rewrite clean_erase_id //. iSplitL "Ha"; [by iApply Rvar_plain|]. iExists v2. by iFrame.
    - iIntros (e) "[%He ?]". simpl in He. congruence. }
  destruct (has_fallback C tys) eqn:Hfb.
  { unfold massign_fallback. wpb.
    iApply (destroy_content_spec with "H"); [done|]. iSplit; [|by iIntros (e) "[]"].
    iIntros ([]) "(%w & Ha)". wpb. iApply wp_on_exn.
    iApply (i_move_spec with "[$Ha $Hs]"); [done..|]. iSplit.
    - iIntros ([]) "[Ha Hs]". iApply (write_which_tint with "Ha"). iIntros "Ha". iApply "HQ".
      iFrame. rewrite clean_erase_id //. by iApply Rvar_plain.
    - iIntros (e) "(_ & Ha & Hs)". iApply (construct_fallback_spec with "Ha"); [|by eapply dthrow_exists|done|].
      { pose proof (depth_pos v2). lia. }
      iSplit; [|by iIntros (e') "[]"]. iIntros ([]) "(%k' & %Hk' & Ha)". iApply "HQ". iFrame "Hs".
      iExists k'. iFrame "Ha". iPureIntro. split; [done|]. split; [done|]. split; [congruence|]. split; [done|congruence]. }
  iApply (backup_assigner_spec with "[$H $Hs]"); [done..|]. iSplit.
  - iIntros ([]) "[Ha Hs]". iApply "HQ". iFrame "Ha". iExists v2. by iFrame.
  - iIntros (e) "[(%k' & %Hk' & Ha) Hs]". iApply "HQ". iSplitL "Ha"; [|iExists v2; by iFrame].
    iExists k'. iFrame "Ha".
    iPureIntro. split; [done|]. split; [done|]. split; [congruence|]. split; [congruence|done].
Qed.

End ok.
End spec.
