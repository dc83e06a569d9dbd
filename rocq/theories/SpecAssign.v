(** Specifications of assignment, conversion, swap and queries (proofs). *)
From stdpp Require Import gmap.
From iris.proofmode Require Import tactics.
From Verif Require Import Base Types TypesFacts Dispatch DispatchFacts Variant Sem Heap Wp Values ValuesFacts Rep SpecInt SpecVar.

(** Same discriminator. *)
Definition same (k1 k2 : vval) : Prop := k1.1 = k2.1.
Global Instance same_dec k1 k2 : Decision (same k1 k2).
Proof. unfold same. apply _. Defined.

(** [k2] may be assigned over [k1]: it holds no backups, and is itself one only if [k1] is one with
    the same index. *)
Definition source (k1 k2 : vval) : Prop := clean k2.2 = true /\ (k2.1.1 = true -> k1.1 = k2.1).
Lemma source_clean k1 k2 : cleanv k2 = true -> source k1 k2.
Proof. unfold cleanv, source. destruct (k2.1.1); simpl; [done|]. by intros ->. Qed.

Definition assign_fail (C : cfg) (n : nat) (tys : list ity) (k1 k2 k' : vval) : Prop :=
  exists t2, tys !! k2.1.2 = Some t2 /\
  if decide (same k1 k2)
  then it_cassign C t2 = false /\ k'.1 = k1.1 /\ depth k'.2 <= n
  else afail C tys k1 t2 k'.
Definition massign_fail (C : cfg) (n : nat) (tys : list ity) (k1 k2 k' : vval) : Prop :=
  exists t2, tys !! k2.1.2 = Some t2 /\
  if decide (same k1 k2)
  then it_massign C t2 = false /\ k'.1 = k1.1 /\ depth k'.2 <= n
  else mfail C tys k1 t2 k'.
(** What move assignment leaves in its source. *)
Definition massign_src (n : nat) (k1 k2 k2' : vval) : Prop :=
  k2'.1 = k2.1 /\ depth k2'.2 <= n /\ (clean k1.2 = true -> clean k2'.2 = true) /\
  (~ same k1 k2 -> skel k2'.2 = skel k2.2).

Lemma kept_depth k1 k' : kept k1 k' -> depth k'.2 = depth k1.2.
Proof. intros [_ H]. by rewrite -(depth_erase k'.2) H depth_erase. Qed.

Lemma afail_depth C tys n k1 t2 k' : 0 < n -> afail C tys k1 t2 k' -> depth k1.2 <= n -> depth k'.2 <= n.
Proof.
  intros Hn (Hc&Hm&Hf&Hnf) Hd. destruct (it_move C t2) eqn:E; [by rewrite Hm|].
  destruct (has_fallback C tys) eqn:E'.
  - destruct Hf as (j&u&_&_&->); [done..|]. simpl. lia.
  - destruct Hnf as [Hk _]; [done..|]. by rewrite (kept_depth _ _ Hk).
Qed.

Lemma assign_fail_depth C tys n k1 k2 k' : 0 < n -> assign_fail C n tys k1 k2 k' -> depth k1.2 <= n -> depth k'.2 <= n.
Proof.
  intros Hn (t2&Ht2&H) Hd. case_decide; [by destruct_and!|]. by eapply afail_depth.
Qed.
Lemma massign_fail_depth C tys n k1 k2 k' : 0 < n -> massign_fail C n tys k1 k2 k' -> depth k1.2 <= n -> depth k'.2 <= n.
Proof.
  intros Hn (t2&Ht2&H) Hd. case_decide; [by destruct_and!|]. destruct H. by eapply afail_depth.
Qed.

Section spec.
Context (C : cfg) (W : wpar).
Notation R := (R C W).
Notation RI := (RI C W).
Notation tobj := (tobj C W).
Notation tint := (tint C W).
Notation Rvar := (Rvar C W).
Notation wp := (wp W).
Context (Hwf : wf_env C W).
Context (k : nat) (S : usem) (Hok : usem_ok C W k S).

Let Hlim : 0 < lim C := we_lim _ _ Hwf.

(** The content of a clean variant. *)
Lemma Rvar_clean tys a k1 : k1.1.1 = false ->
  Rvar tys a k1 ⊣⊢ ∃ t, ⌞tys !! k1.1.2 = Some t⌟ ∗ tint a KVar (Some (Z.of_nat k1.1.2)) t k1.2.
Proof. intros H. rewrite Rvar_unfold H. done. Qed.

Lemma vval_eta (k1 : vval) : k1 = (k1.1.1, k1.1.2, k1.2).
Proof. by destruct k1 as [[??]?]. Qed.

Section assign.
Context (tys : list ity) (Hty : wf_tys C W tys).

Lemma var_assign_spec a b k1 k2 : depth k1.2 <= k -> depth k2.2 <= k -> source k1 k2 ->
  ⊢ {{ Rvar tys a k1 ∗ Rvar tys b k2 }} var_assign C S tys a b
    {{ λ _, Rvar tys a k2 ∗ Rvar tys b k2
     | λ _, (∃ k', ⌞assign_fail C k tys k1 k2 k'⌟ ∗ Rvar tys a k') ∗ Rvar tys b k2 }} @ W.
Proof.
  iIntros (Hd1 Hd2 [Hcl Hpk] Q X) "[Ha Hb] HQ". unfold var_assign.
  wpb. iApply (read_which_Rvar with "Ha"). iIntros "Ha".
  wpb. iApply (read_which_Rvar with "Hb"). iIntros "Hb".
  destruct k2 as [[bk2 i2] v2], k1 as [[bk1 i1] v1]. simpl in *.
  case_decide as Hw.
  - apply wz_eq in Hw as [-> ->]. destruct bk2.
    { iDestruct (Rvar_unfold with "Ha") as (t) "[%Ht (%p & %Hp & Ha & Hpa)]".
      iDestruct (Rvar_unfold with "Hb") as (t') "[%Ht' (%q & %Hq & Hb & Hqb)]". simpl in *.
      rewrite Ht in Ht'. injection Ht' as <-.
      iApply (visit_wp _ _ Hlim tys a KVar _ i2 t true with "Ha"); [done|by intros _; apply Hp|].
      iIntros "Ha". simpl. wpb. iApply bk_get_wp. iFrame "Ha". iIntros "Ha".
      wpb. iApply bk_get_wp. iFrame "Hb". iIntros "Hb".
      iApply (i_cassign_spec _ _ _ _ Hok with "[$Hpa $Hqb]"); [done..|]. iSplit.
      + iIntros ([]) "[Hpa Hqb]". iApply "HQ". iSplitL "Ha Hpa"; (iApply Rvar_bk; [done..|iFrame]).
      + iIntros (e) "(%He & (%v' & %Hv' & Hpa) & Hqb)". iApply "HQ".
        iSplitL "Ha Hpa"; [|iApply Rvar_bk; [done..|iFrame]].
        iExists (true, i2, v'). iSplitR; [|iApply Rvar_bk; [done..|iFrame]].
        iPureIntro. exists t. split; [done|]. rewrite decide_True //. }
    iDestruct (Rvar_clean with "Ha") as (t) "[%Ht Ha]"; [done|].
    iDestruct (Rvar_clean with "Hb") as (t') "[%Ht' Hb]"; [done|]. simpl in *.
    rewrite Ht in Ht'. injection Ht' as <-.
    iApply (visit_tint _ _ Hlim with "Ha"); [done|]. iIntros "Ha". simpl.
    iApply (i_cassign_spec _ _ _ _ Hok with "[$Ha $Hb]"); [done..|]. iSplit.
    + iIntros ([]) "[Ha Hb]". iApply "HQ". iSplitL "Ha"; by iApply Rvar_plain.
    + iIntros (e) "(%He & (%v' & %Hv' & Ha) & Hb)". iApply "HQ". iSplitL "Ha"; [|by iApply Rvar_plain].
      iExists (false, i2, v'). iSplitR; [|by iApply Rvar_plain].
      iPureIntro. exists t. split; [done|]. rewrite decide_True //.
  - assert (bk2 = false) as ->.
    { destruct bk2; [|done]. specialize (Hpk eq_refl). injection Hpk as -> ->. done. }
    assert (Hns : ~ same (bk1, i1, v1) (false, i2, v2)).
    { unfold same; simpl. intros Hs. injection Hs as -> ->. done. }
    iDestruct (Rvar_clean with "Hb") as (t) "[%Ht Hb]"; [done|]. simpl in *. rewrite (which_of_wz false i2).
    iApply (visit_tint _ _ Hlim with "Hb"); [done|]. iIntros "Hb".
    iApply (assigner_spec _ _ Hwf _ _ Hok _ Hty with "[$Ha $Hb]"); [done..|]. iSplit.
    + iIntros ([]) "[Ha Hb]". iApply "HQ". iFrame "Ha". by iApply Rvar_plain.
    + iIntros (e) "[(%k' & %Hk' & Ha) Hb]". iApply "HQ". iSplitL "Ha"; [|by iApply Rvar_plain].
      iExists k'. iFrame "Ha". iPureIntro. exists t. split; [done|]. rewrite decide_False //.
Qed.

Lemma variant_massign_spec a b k1 k2 : depth k1.2 <= k -> depth k2.2 <= k -> source k1 k2 ->
  ⊢ {{ Rvar tys a k1 ∗ Rvar tys b k2 }} variant_massign C S tys a b
    {{ λ _, Rvar tys a k2 ∗ ∃ k2', ⌞massign_src k k1 k2 k2'⌟ ∗ Rvar tys b k2'
     | λ _, (∃ k', ⌞massign_fail C k tys k1 k2 k'⌟ ∗ Rvar tys a k') ∗
            ∃ k2', ⌞massign_src k k1 k2 k2'⌟ ∗ Rvar tys b k2' }} @ W.
Proof.
  iIntros (Hd1 Hd2 [Hcl Hpk] Q X) "[Ha Hb] HQ". unfold variant_massign.
  wpb. iApply (read_which_Rvar with "Ha"). iIntros "Ha".
  wpb. iApply (read_which_Rvar with "Hb"). iIntros "Hb".
  destruct k2 as [[bk2 i2] v2], k1 as [[bk1 i1] v1]. simpl in *.
  case_decide as Hw.
  - apply wz_eq in Hw as [-> ->].
    assert (Hs : same (bk2, i2, v1) (bk2, i2, v2)) by done. destruct bk2.
    { iDestruct (Rvar_unfold with "Ha") as (t) "[%Ht (%p & %Hp & Ha & Hpa)]".
      iDestruct (Rvar_unfold with "Hb") as (t') "[%Ht' (%q & %Hq & Hb & Hqb)]". simpl in *.
      rewrite Ht in Ht'. injection Ht' as <-.
      iApply (visit_wp _ _ Hlim tys a KVar _ i2 t true with "Ha"); [done|by intros _; apply Hp|].
      iIntros "Ha". simpl. wpb. iApply bk_get_wp. iFrame "Ha". iIntros "Ha".
      wpb. iApply bk_get_wp. iFrame "Hb". iIntros "Hb".
      iApply (i_massign_spec _ _ _ _ Hok with "[$Hpa $Hqb]"); [done..|]. iSplit.
      + iIntros ([]) "(Hpa & %v' & %Hv' & Hqb)". iApply "HQ". iSplitL "Ha Hpa"; [iApply Rvar_bk; [done..|iFrame]|].
        iExists (true, i2, v'). iSplitR; [|iApply Rvar_bk; [done..|iFrame]]. iPureIntro.
        split; [done|]. split; [by apply Hv'|]. split; [by apply Hv'|done].
      + iIntros (e) "(%He & (%v' & %Hv' & Hpa) & %v'' & %Hv'' & Hqb)". iApply "HQ". iSplitL "Ha Hpa".
        * iExists (true, i2, v'). iSplitR; [|iApply Rvar_bk; [done..|iFrame]].
          iPureIntro. exists t. split; [done|]. rewrite decide_True //.
        * iExists (true, i2, v''). iSplitR; [|iApply Rvar_bk; [done..|iFrame]]. iPureIntro.
          split; [done|]. split; [by apply Hv''|]. split; [by apply Hv''|done]. }
    iDestruct (Rvar_clean with "Ha") as (t) "[%Ht Ha]"; [done|].
    iDestruct (Rvar_clean with "Hb") as (t') "[%Ht' Hb]"; [done|]. simpl in *.
    rewrite Ht in Ht'. injection Ht' as <-.
    iApply (visit_tint _ _ Hlim with "Ha"); [done|]. iIntros "Ha". simpl.
    iApply (i_massign_spec _ _ _ _ Hok with "[$Ha $Hb]"); [done..|]. iSplit.
    + iIntros ([]) "(Ha & %v' & %Hv' & Hb)". iApply "HQ". iSplitL "Ha"; [by iApply Rvar_plain|].
      iExists (false, i2, v'). iSplitR; [|by iApply Rvar_plain]. iPureIntro.
      split; [done|]. split; [by apply Hv'|]. split; [by apply Hv'|done].
    + iIntros (e) "(%He & (%v' & %Hv' & Ha) & %v'' & %Hv'' & Hb)". iApply "HQ". iSplitL "Ha".
      * iExists (false, i2, v'). iSplitR; [|by iApply Rvar_plain].
        iPureIntro. exists t. split; [done|]. rewrite decide_True //.
      * iExists (false, i2, v''). iSplitR; [|by iApply Rvar_plain]. iPureIntro.
        split; [done|]. split; [by apply Hv''|]. split; [by apply Hv''|done].
  - assert (bk2 = false) as ->.
    { destruct bk2; [|done]. specialize (Hpk eq_refl). injection Hpk as -> ->. done. }
    assert (Hns : ~ same (bk1, i1, v1) (false, i2, v2)).
    { unfold same; simpl. intros Hs. injection Hs as -> ->. done. }
    iDestruct (Rvar_clean with "Hb") as (t) "[%Ht Hb]"; [done|]. simpl in *. rewrite (which_of_wz false i2).
    iApply (visit_tint _ _ Hlim with "Hb"); [done|]. iIntros "Hb".
    assert (Hsrc : forall v', skel v' = skel v2 -> massign_src k (bk1, i1, v1) (false, i2, v2) (false, i2, v')).
    { intros v' Hv'. split; [done|]. simpl. rewrite (skel_depth _ _ Hv') (skel_clean _ _ Hv'). done. }
    iApply (move_assigner_spec _ _ Hwf _ _ Hok _ Hty with "[$Ha $Hb]"); [done..|]. iSplit.
    + iIntros ([]) "(Ha & %v' & %Hv' & Hb)". iApply "HQ". iFrame "Ha".
      iExists (false, i2, v'). iSplitR; [by eauto|]. by iApply Rvar_plain.
    + iIntros (e) "[(%k' & %Hk' & Ha) (%v' & %Hv' & Hb)]". iApply "HQ". iSplitL "Ha".
      * iExists k'. iFrame "Ha". iPureIntro. exists t. split; [done|]. rewrite decide_False //.
      * iExists (false, i2, v'). iSplitR; [by eauto|]. by iApply Rvar_plain.
Qed.

Lemma massign_fail_noexcept k1 k2 k' :
  massign_fail C k tys k1 k2 k' ->
  move_noexcept_constructible C tys && move_noexcept_assignable C tys = false.
Proof.
  intros (t2&Ht2&H). destruct (_ && _) eqn:E; [|done]. apply andb_true_iff in E as [E1 E2].
  pose proof (forallb_lookup _ _ _ _ E1 Ht2). pose proof (forallb_lookup _ _ _ _ E2 Ht2).
  case_decide; [|destruct H]; destruct_and?; congruence.
Qed.

Lemma var_massign_spec a b k1 k2 : depth k1.2 <= k -> depth k2.2 <= k -> source k1 k2 ->
  ⊢ {{ Rvar tys a k1 ∗ Rvar tys b k2 }} var_massign C S tys a b
    {{ λ _, Rvar tys a k2 ∗ ∃ k2', ⌞massign_src k k1 k2 k2'⌟ ∗ Rvar tys b k2'
     | λ _, (∃ k', ⌞massign_fail C k tys k1 k2 k'⌟ ∗ Rvar tys a k') ∗
            ∃ k2', ⌞massign_src k k1 k2 k2'⌟ ∗ Rvar tys b k2' }} @ W.
Proof.
  iIntros (Hd1 Hd2 Hcl Q X) "H HQ". unfold var_massign. iApply wp_noexcept_if.
  iApply (variant_massign_spec with "H"); [done..|]. iSplit.
  - iIntros ([]) "H". by iApply "HQ".
  - iIntros (e) "[(%k' & %Hk' & Ha) Hb]". rewrite (massign_fail_noexcept _ _ _ Hk').
    iApply "HQ". iFrame "Hb". iExists k'. by iFrame.
Qed.

End assign.

(** ** Self-assignment *)

Lemma var_assign_self_spec tys a k1 : depth k1.2 <= k ->
  ⊢ {{ Rvar tys a k1 }} var_assign C S tys a a
    {{ λ _, Rvar tys a k1
     | λ _, ⌞exists t, tys !! k1.1.2 = Some t /\ it_cassign C t = false⌟ ∗
            ∃ v', ⌞skel v' = skel k1.2⌟ ∗ Rvar tys a (k1.1.1, k1.1.2, v') }} @ W.
Proof.
  iIntros (Hd1 Q X) "Ha HQ". unfold var_assign.
  wpb. iApply (read_which_Rvar with "Ha"). iIntros "Ha".
  wpb. iApply (read_which_Rvar with "Ha"). iIntros "Ha". rewrite decide_True //.
  iDestruct (Rvar_unfold with "Ha") as (t) "[%Ht H]".
  destruct k1 as [[bk i] v]. simpl in *. destruct bk.
  - iDestruct "H" as (p) "(%Hb & Ha & Hp)".
    iApply (visit_wp _ _ Hlim tys a KVar _ i t true with "Ha"); [done|by intros _; apply Hb|].
    iIntros "Ha". simpl. wpb. iApply bk_get_wp. iFrame "Ha". iIntros "Ha".
    wpb. iApply bk_get_wp. iFrame "Ha". iIntros "Ha".
    iApply (i_cassign_self_spec _ _ _ _ Hok with "Hp"); [done..|]. iSplit.
    + iIntros ([]) "Hp". iApply "HQ". iApply Rvar_bk; [done..|iFrame].
    + iIntros (e) "(%He & %v' & %Hv' & Hp)". iApply "HQ". iSplitR; [by eauto|]. iExists v'.
      iSplitR; [done|]. iApply Rvar_bk; [done..|iFrame].
  - iApply (visit_tint _ _ Hlim with "H"); [done|]. iIntros "H". simpl.
    iApply (i_cassign_self_spec _ _ _ _ Hok with "H"); [done..|]. iSplit.
    + iIntros ([]) "Hp". iApply "HQ". by iApply Rvar_plain.
    + iIntros (e) "(%He & %v' & %Hv' & Hp)". iApply "HQ". iSplitR; [by eauto|]. iExists v'.
      iSplitR; [done|]. by iApply Rvar_plain.
Qed.

Lemma var_massign_self_spec tys a k1 : depth k1.2 <= k ->
  ⊢ {{ Rvar tys a k1 }} var_massign C S tys a a
    {{ λ _, ∃ v', ⌞skel v' = skel k1.2⌟ ∗ Rvar tys a (k1.1.1, k1.1.2, v')
     | λ _, ⌞exists t, tys !! k1.1.2 = Some t /\ it_massign C t = false⌟ ∗
            ∃ v', ⌞skel v' = skel k1.2⌟ ∗ Rvar tys a (k1.1.1, k1.1.2, v') }} @ W.
Proof.
  iIntros (Hd1 Q X) "Ha HQ". unfold var_massign, variant_massign. iApply wp_noexcept_if.
  wpb. iApply (read_which_Rvar with "Ha"). iIntros "Ha".
  wpb. iApply (read_which_Rvar with "Ha"). iIntros "Ha". rewrite decide_True //.
  iDestruct (Rvar_unfold with "Ha") as (t) "[%Ht H]".
  assert (Hne : it_massign C t = false -> move_noexcept_constructible C tys && move_noexcept_assignable C tys = false).
  { intros Hm. destruct (_ && _) eqn:E; [|done]. apply andb_true_iff in E as [E1 E2].
    rewrite (forallb_lookup _ _ _ _ E2 Ht) in Hm. done. }
  destruct k1 as [[bk i] v]. simpl in *. destruct bk.
  - iDestruct "H" as (p) "(%Hb & Ha & Hp)".
    iApply (visit_wp _ _ Hlim tys a KVar _ i t true with "Ha"); [done|by intros _; apply Hb|].
    iIntros "Ha". simpl. wpb. iApply bk_get_wp. iFrame "Ha". iIntros "Ha".
    wpb. iApply bk_get_wp. iFrame "Ha". iIntros "Ha".
    iApply (i_massign_self_spec _ _ _ _ Hok with "Hp"); [done..|]. iSplit.
    + iIntros ([]) "(%v' & %Hv' & Hp)". iApply "HQ". iExists v'. iSplitR; [done|].
      iApply Rvar_bk; [done..|iFrame].
    + iIntros (e) "(%He & %v' & %Hv' & Hp)". rewrite Hne //. iApply "HQ". iSplitR; [by eauto|]. iExists v'.
      iSplitR; [done|]. iApply Rvar_bk; [done..|iFrame].
  - iApply (visit_tint _ _ Hlim with "H"); [done|]. iIntros "H". simpl.
    iApply (i_massign_self_spec _ _ _ _ Hok with "H"); [done..|]. iSplit.
    + iIntros ([]) "(%v' & %Hv' & Hp)". iApply "HQ". iExists v'. iSplitR; [done|]. by iApply Rvar_plain.
    + iIntros (e) "(%He & %v' & %Hv' & Hp)". rewrite Hne //. iApply "HQ". iSplitR; [by eauto|]. iExists v'.
      iSplitR; [done|]. by iApply Rvar_plain.
Qed.

End spec.
