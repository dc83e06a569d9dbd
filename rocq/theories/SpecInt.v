(** Specifications of the operations of bounded types (proofs). *)
From stdpp Require Import gmap.
From iris.proofmode Require Import tactics.
From Verif Require Import Base Types Dispatch DispatchFacts Variant Sem Heap Wp Values ValuesFacts Rep.

Ltac wpb := iApply wp_bind.

Section spec.
Context (C : cfg) (W : wpar).
Notation R := (R C W).
Notation RI := (RI C W).
Notation tobj := (tobj C W).
Notation tint := (tint C W).
Notation Rvar := (Rvar C W).
Notation wp := (wp W).

Lemma tint_plain l k w u v : tint l k w (IPlain u) v ⊣⊢ tobj l k w u v.
Proof. done. Qed.

Lemma tint_wrap l k w u v :
  tint l k w (IWrap u) v ⊣⊢ ∃ p, l ↦ Cell k (Some (OWrap u p)) w ∗ tobj p KHeap None u v.
Proof.
  unfold Rep.tint, Rep.tobj. iSplit.
  - iIntros "(%o & Hl & %p & %o' & -> & Hp & HR)". iExists p. iFrame "Hl". iExists o'. iFrame.
  - iIntros "(%p & Hl & %o' & Hp & HR)". iExists _. iFrame. iExists p, o'. by iFrame.
Qed.

Lemma Rvar_unfold tys a k :
  Rvar tys a k ⊣⊢
  ∃ t, ⌞tys !! k.1.2 = Some t⌟ ∗
    if k.1.1 then ∃ p, ⌞bkok C W tys t⌟ ∗
      a ↦ Cell KVar (Some (OBackup t (Some p))) (Some (- (Z.of_nat k.1.2 + 1))%Z) ∗
      tint p KHeap None t k.2
    else tint a KVar (Some (Z.of_nat k.1.2)) t k.2.
Proof.
  destruct k as [[bk i] v]. unfold Rep.Rvar, Rvarb, Rep.tint. simpl. iSplit.
  - iIntros "(%t & %o & Ht & HR & H)". iExists t. iFrame "Ht". destruct bk.
    + iDestruct "H" as (p) "(Hb & Ha & Hp)". iExists p. iFrame. iExists o. iFrame.
    + iExists o. iFrame.
  - iIntros "(%t & Ht & H)". destruct bk.
    + iDestruct "H" as (p) "(Hb & Ha & %o & Hp & HR)". iExists t, o. iFrame. iExists p. iFrame.
    + iDestruct "H" as (o) "(Ha & HR)". iExists t, o. iFrame.
Qed.

(** ** Monadic helpers *)

Lemma new_obj_wp p kf Q X :
  (p = APBackup -> nobk W = false) ->
  ((∀ q, traw q KHeap None -∗ wp (kf q) (λ _, Q q) (λ e, traw q KHeap None ∗ X e)) ∧ (∀ e, X e))
  ⊢ wp (new_obj p kf) Q X.
Proof.
  iIntros (Hp) "H". unfold new_obj. wpb. iApply wp_alloc. iSplit; [|iDestruct "H" as "[_ $]"].
  iSplitR; [done|]. iDestruct "H" as "[H _]". iIntros (q) "Hq". wpb. iApply wp_on_exn.
  iApply (wp_wand with "[H Hq]"); [by iApply "H"|]. iSplit.
  - iIntros ([]) "HQ". by iApply wp_ret.
  - iIntros (e) "[Hq HX]". iApply wp_free. iFrame.
Qed.

Lemma stack_obj_wp kf Q X :
  (∀ q, traw q KStk None -∗ wp (kf q) (λ _, Q q) (λ e, traw q KStk None ∗ X e))
  ⊢ wp (stack_obj kf) Q X.
Proof.
  iIntros "H". unfold stack_obj. wpb. iApply wp_new_cell; [done|].
  iIntros (q) "Hq". wpb. iApply wp_on_exn.
  iApply (wp_wand with "[H Hq]"); [by iApply "H"|]. iSplit.
  - iIntros ([]) "HQ". by iApply wp_ret.
  - iIntros (e) "[Hq HX]". iApply (wp_drop_cell _ _ KStk); [done|]. iFrame.
Qed.

Lemma local_variant_wp kf Q X :
  (∀ q, traw q KVar None -∗ wp (kf q) (λ _, Q q) (λ e, (∃ w, traw q KVar w) ∗ X e))
  ⊢ wp (local_variant kf) Q X.
Proof.
  iIntros "H". unfold local_variant. wpb. iApply wp_new_cell; [done|].
  iIntros (q) "Hq". wpb. iApply wp_on_exn.
  iApply (wp_wand with "[H Hq]"); [by iApply "H"|]. iSplit.
  - iIntros ([]) "HQ". by iApply wp_ret.
  - iIntros (e) "[[%w Hq] HX]". iApply (wp_drop_cell _ _ KVar); [done|]. iFrame.
Qed.

Lemma wrap_ptr_wp u l k w p Q X :
  l ↦ Cell k (Some (OWrap u p)) w ∗ (l ↦ Cell k (Some (OWrap u p)) w -∗ Q p)
  ⊢ wp (wrap_ptr u l) Q X.
Proof.
  iIntros "[Hl HQ]". unfold wrap_ptr. wpb. iApply wp_get_obj. iFrame "Hl". iIntros "Hl".
  rewrite decide_True //. iApply wp_ret. by iApply "HQ".
Qed.

Lemma bk_ptr_wp t l k w p Q X :
  l ↦ Cell k (Some (OBackup t p)) w ∗ (l ↦ Cell k (Some (OBackup t p)) w -∗ Q p)
  ⊢ wp (bk_ptr t l) Q X.
Proof.
  iIntros "[Hl HQ]". unfold bk_ptr. wpb. iApply wp_get_obj. iFrame "Hl". iIntros "Hl".
  rewrite decide_True //. iApply wp_ret. by iApply "HQ".
Qed.

Lemma bk_get_wp t l k w p Q X :
  l ↦ Cell k (Some (OBackup t (Some p))) w ∗ (l ↦ Cell k (Some (OBackup t (Some p))) w -∗ Q p)
  ⊢ wp (bk_get t l) Q X.
Proof.
  iIntros "[Hl HQ]". unfold bk_get. wpb. iApply bk_ptr_wp. iFrame "Hl". iIntros "Hl".
  iApply wp_ret. by iApply "HQ".
Qed.

Lemma bk_swap_wp t l kl wl p r kr wr q Q X :
  l ↦ Cell kl (Some (OBackup t p)) wl ∗ r ↦ Cell kr (Some (OBackup t q)) wr ∗
  (l ↦ Cell kl (Some (OBackup t q)) wl -∗ r ↦ Cell kr (Some (OBackup t p)) wr -∗ Q tt)
  ⊢ wp (bk_swap t l r) Q X.
Proof.
  iIntros "(Hl & Hr & HQ)". unfold bk_swap. wpb. iApply bk_ptr_wp. iFrame "Hr". iIntros "Hr".
  wpb. iApply bk_ptr_wp. iFrame "Hl". iIntros "Hl".
  wpb. iApply (wp_modify_obj _ r kr wr (OBackup t q)); [done|]. iFrame "Hr". iIntros "Hr".
  iApply (wp_modify_obj _ l kl wl (OBackup t p)); [done|]. iFrame "Hl". iIntros "Hl".
  iApply ("HQ" with "Hl Hr").
Qed.

(** ** Bounded types *)

Ltac tw := iApply tint_wrap; iExists _; iFrame.

Section ok.
Context (k : nat) (S : usem) (Hok : usem_ok C W k S).

Lemma i_copy_spec t d kd wd s ks ws v : depth v <= k ->
  ⊢ {{ traw d kd wd ∗ tint s ks ws t v }} i_copy S t d s
    {{ λ _, tint d kd wd t (erase v) ∗ tint s ks ws t v
     | λ _, ⌞it_copy C t = false⌟ ∗ traw d kd wd ∗ tint s ks ws t v }} @ W.
Proof.
  intros Hd. destruct t as [u|u]; [by apply (ok_copy _ _ _ _ Hok)|].
  iIntros (Q X) "[Hd Hs] HQ". iDestruct (tint_wrap with "Hs") as (p) "[Hs Hp]". unfold i_copy.
  wpb. iApply wrap_ptr_wp. iFrame "Hs". iIntros "Hs".
  wpb. iApply new_obj_wp; [done|]. iSplit.
  - iIntros (q) "Hq". iApply (ok_copy _ _ _ _ Hok with "[$Hq $Hp]"); [done|]. iSplit.
    + iIntros ([]) "[Hq Hp]". iApply wp_construct. iFrame "Hd". iIntros "Hd".
      iApply "HQ". iSplitL "Hd Hq"; tw.
    + iIntros (e) "(%Hnt & $ & Hp)". iApply "HQ". iSplitR; [done|]. iFrame. tw.
  - iIntros (e). iApply "HQ". iSplitR; [done|]. iFrame. tw.
Qed.

Lemma i_move_spec t d kd wd s ks ws v : depth v <= k ->
  ⊢ {{ traw d kd wd ∗ tint s ks ws t v }} i_move S t d s
    {{ λ _, tint d kd wd t (erase v) ∗ ∃ v', ⌞skel v' = skel v⌟ ∗ tint s ks ws t v'
     | λ _, ⌞it_move C t = false⌟ ∗ traw d kd wd ∗ ∃ v', ⌞skel v' = skel v⌟ ∗ tint s ks ws t v' }} @ W.
Proof.
  intros Hd. destruct t as [u|u]; [by apply (ok_move _ _ _ _ Hok)|].
  iIntros (Q X) "[Hd Hs] HQ". iDestruct (tint_wrap with "Hs") as (p) "[Hs Hp]". unfold i_move.
  wpb. iApply wrap_ptr_wp. iFrame "Hs". iIntros "Hs".
  wpb. iApply new_obj_wp; [done|]. iSplit.
  - iIntros (q) "Hq". iApply (ok_move _ _ _ _ Hok with "[$Hq $Hp]"); [done|]. iSplit.
    + iIntros ([]) "(Hq & %v' & Hv' & Hp)". iApply wp_construct. iFrame "Hd". iIntros "Hd".
      iApply "HQ". iSplitL "Hd Hq"; [tw|]. iExists v'. iFrame. tw.
    + iIntros (e) "(%Hnt & $ & %v' & Hv' & Hp)". iApply "HQ". iSplitR; [done|]. iFrame "Hd".
      iExists v'. iFrame. tw.
  - iIntros (e). iApply "HQ". iSplitR; [done|]. iFrame "Hd". iExists v. iSplitR; [done|].
    tw.
Qed.

Lemma i_copy_from_spec t d kd wd s ks ws v : depth v <= k ->
  ⊢ {{ traw d kd wd ∗ tobj s ks ws (ity_uid t) v }} i_copy_from S t d s
    {{ λ _, tint d kd wd t (erase v) ∗ tobj s ks ws (ity_uid t) v
     | λ _, ⌞it_copy C t = false⌟ ∗ traw d kd wd ∗ tobj s ks ws (ity_uid t) v }} @ W.
Proof.
  intros Hd. destruct t as [u|u]; [by apply (ok_copy _ _ _ _ Hok)|].
  iIntros (Q X) "[Hd Hs] HQ". unfold i_copy_from.
  wpb. iApply new_obj_wp; [done|]. iSplit.
  - iIntros (q) "Hq". iApply (ok_copy _ _ _ _ Hok with "[$Hq $Hs]"); [done|]. iSplit.
    + iIntros ([]) "[Hq Hs]". iApply wp_construct. iFrame "Hd". iIntros "Hd".
      iApply "HQ". iFrame. tw.
    + iIntros (e) "(%Hnt & $ & Hp)". iApply "HQ". iSplitR; [done|]. iFrame.
  - iIntros (e). iApply "HQ". iSplitR; [done|]. iFrame.
Qed.

Lemma i_move_from_spec t d kd wd s ks ws v : depth v <= k ->
  ⊢ {{ traw d kd wd ∗ tobj s ks ws (ity_uid t) v }} i_move_from S t d s
    {{ λ _, tint d kd wd t (erase v) ∗ ∃ v', ⌞skel v' = skel v⌟ ∗ tobj s ks ws (ity_uid t) v'
     | λ _, ⌞it_move C t = false⌟ ∗ traw d kd wd ∗ ∃ v', ⌞skel v' = skel v⌟ ∗ tobj s ks ws (ity_uid t) v' }} @ W.
Proof.
  intros Hd. destruct t as [u|u]; [by apply (ok_move _ _ _ _ Hok)|].
  iIntros (Q X) "[Hd Hs] HQ". unfold i_move_from.
  wpb. iApply new_obj_wp; [done|]. iSplit.
  - iIntros (q) "Hq". iApply (ok_move _ _ _ _ Hok with "[$Hq $Hs]"); [done|]. iSplit.
    + iIntros ([]) "(Hq & Hs)". iApply wp_construct. iFrame "Hd". iIntros "Hd".
      iApply "HQ". iFrame. tw.
    + iIntros (e) "(%Hnt & $ & Hp)". iApply "HQ". iSplitR; [done|]. iFrame.
  - iIntros (e). iApply "HQ". iSplitR; [done|]. iFrame "Hd". iExists v. by iFrame.
Qed.

Lemma i_value_spec t d kd wd v :
  idefval C k t = Some v -> (strict W = true -> determinate v = true) ->
  ⊢ {{ traw d kd wd }} i_value S t d
    {{ λ _, tint d kd wd t v | λ _, ⌞it_default C t = false⌟ ∗ traw d kd wd }} @ W.
Proof.
  intros Hv Hdet. destruct t as [u|u]; [by apply (ok_value _ _ _ _ Hok)|].
  iIntros (Q X) "Hd HQ". unfold i_value.
  wpb. iApply new_obj_wp; [done|]. iSplit.
  - iIntros (q) "Hq". iApply (ok_definit _ _ _ _ Hok with "Hq"); [done..|]. iSplit.
    + iIntros ([]) "Hq". iApply wp_construct. iFrame "Hd". iIntros "Hd".
      iApply "HQ". tw.
    + iIntros (e) "(%Hnt & $)". iApply "HQ". iSplitR; [done|]. iFrame.
  - iIntros (e). iApply "HQ". iSplitR; [done|]. iFrame "Hd".
Qed.

(** Copy assignment of a bounded type does not throw. *)
Definition it_cassign (t : ity) : bool := nt_cassign (te C (ity_uid t)).

Lemma i_cassign_spec t l kl wl r kr wr v1 v2 : depth v1 <= k -> depth v2 <= k -> clean v2 = true ->
  ⊢ {{ tint l kl wl t v1 ∗ tint r kr wr t v2 }} i_cassign S t l r
    {{ λ _, tint l kl wl t v2 ∗ tint r kr wr t v2
     | λ _, ⌞it_cassign t = false⌟ ∗ (∃ v', ⌞depth v' <= k⌟ ∗ tint l kl wl t v') ∗ tint r kr wr t v2 }} @ W.
Proof.
  intros Hd1 Hd2 Hc. destruct t as [u|u]; [by apply (ok_cassign _ _ _ _ Hok)|].
  iIntros (Q X) "[Hl Hr] HQ". unfold i_cassign.
  iDestruct (tint_wrap with "Hl") as (p) "[Hl Hp]". iDestruct (tint_wrap with "Hr") as (q) "[Hr Hq]".
  wpb. iApply wrap_ptr_wp. iFrame "Hl". iIntros "Hl".
  wpb. iApply wrap_ptr_wp. iFrame "Hr". iIntros "Hr".
  iApply (ok_cassign _ _ _ _ Hok with "[$Hp $Hq]"); [done..|]. iSplit.
  - iIntros ([]) "[Hp Hq]". iApply "HQ". iSplitL "Hp Hl"; tw.
  - iIntros (e) "(%Hnt & (%v' & Hv' & Hp) & Hq)". iApply "HQ". iSplitR; [done|].
    iSplitL "Hv' Hl Hp"; [|tw]. iExists v'. iFrame. tw.
Qed.

Lemma i_massign_spec t l kl wl r kr wr v1 v2 : depth v1 <= k -> depth v2 <= k -> clean v2 = true ->
  ⊢ {{ tint l kl wl t v1 ∗ tint r kr wr t v2 }} i_massign S t l r
    {{ λ _, tint l kl wl t v2 ∗ ∃ v', ⌞depth v' <= k /\ (clean v1 = true -> clean v' = true)⌟ ∗ tint r kr wr t v'
     | λ _, ⌞it_massign C t = false⌟ ∗ (∃ v', ⌞depth v' <= k⌟ ∗ tint l kl wl t v') ∗
            ∃ v', ⌞depth v' <= k /\ (clean v1 = true -> clean v' = true)⌟ ∗ tint r kr wr t v' }} @ W.
Proof.
  intros Hd1 Hd2 Hc. destruct t as [u|u]; [by apply (ok_massign _ _ _ _ Hok)|].
  iIntros (Q X) "[Hl Hr] HQ". unfold i_massign.
  iDestruct (tint_wrap with "Hl") as (p) "[Hl Hp]". iDestruct (tint_wrap with "Hr") as (q) "[Hr Hq]".
  iApply wp_noexcept.
  wpb. iApply wrap_ptr_wp. iFrame "Hr". iIntros "Hr".
  wpb. iApply wrap_ptr_wp. iFrame "Hl". iIntros "Hl".
  wpb. iApply (wp_modify_obj _ r kr wr (OWrap u q)); [done|]. iFrame "Hr". iIntros "Hr".
  iApply (wp_modify_obj _ l kl wl (OWrap u p)); [done|]. iFrame "Hl". iIntros "Hl".
  iApply "HQ". iSplitL "Hl Hq"; [tw|]. iExists v1.
  iSplitR; [done|]. tw.
Qed.

Lemma i_cassign_self_spec t l kl wl v : depth v <= k ->
  ⊢ {{ tint l kl wl t v }} i_cassign S t l l
    {{ λ _, tint l kl wl t v
     | λ _, ⌞it_cassign t = false⌟ ∗ ∃ v', ⌞skel v' = skel v⌟ ∗ tint l kl wl t v' }} @ W.
Proof.
  intros Hd. destruct t as [u|u]; [by apply (ok_cassign_self _ _ _ _ Hok)|].
  iIntros (Q X) "Hl HQ". unfold i_cassign.
  iDestruct (tint_wrap with "Hl") as (p) "[Hl Hp]".
  wpb. iApply wrap_ptr_wp. iFrame "Hl". iIntros "Hl".
  wpb. iApply wrap_ptr_wp. iFrame "Hl". iIntros "Hl".
  iApply (ok_cassign_self _ _ _ _ Hok with "Hp"); [done..|]. iSplit.
  - iIntros ([]) "Hp". iApply "HQ". tw.
  - iIntros (e) "(%Hnt & (%v' & Hv' & Hp))". iApply "HQ". iSplitR; [done|].
    iExists v'. iFrame. tw.
Qed.

Lemma i_massign_self_spec t l kl wl v : depth v <= k ->
  ⊢ {{ tint l kl wl t v }} i_massign S t l l
    {{ λ _, ∃ v', ⌞skel v' = skel v⌟ ∗ tint l kl wl t v'
     | λ _, ⌞it_massign C t = false⌟ ∗ ∃ v', ⌞skel v' = skel v⌟ ∗ tint l kl wl t v' }} @ W.
Proof.
  intros Hd. destruct t as [u|u]; [by apply (ok_massign_self _ _ _ _ Hok)|].
  iIntros (Q X) "Hl HQ". unfold i_massign.
  iDestruct (tint_wrap with "Hl") as (p) "[Hl Hp]". iApply wp_noexcept.
  wpb. iApply wrap_ptr_wp. iFrame "Hl". iIntros "Hl".
  wpb. iApply wrap_ptr_wp. iFrame "Hl". iIntros "Hl".
  wpb. iApply (wp_modify_obj _ l kl wl (OWrap u p)); [done|]. iFrame "Hl". iIntros "Hl".
  iApply (wp_modify_obj _ l kl wl (OWrap u p)); [done|]. iFrame "Hl". iIntros "Hl".
  iApply "HQ". iExists v. iSplitR; [done|]. tw.
Qed.

Lemma i_destroy_spec t l kl wl v : depth v <= k ->
  ⊢ {{ tint l kl wl t v }} i_destroy S t l {{ λ _, traw l kl wl | λ _, False }} @ W.
Proof.
  intros Hd. destruct t as [u|u]; [by apply (ok_destroy _ _ _ _ Hok)|].
  iIntros (Q X) "Hl HQ". unfold i_destroy.
  iDestruct (tint_wrap with "Hl") as (p) "[Hl Hp]".
  wpb. iApply wrap_ptr_wp. iFrame "Hl". iIntros "Hl".
  wpb. iApply (ok_destroy _ _ _ _ Hok with "Hp"); [done|]. iSplit; [|by iIntros (e) "[]"].
  iIntros ([]) "Hp". wpb. iApply wp_free. iFrame "Hp".
  iApply wp_destruct_obj. iFrame "Hl". iIntros "Hl". by iApply "HQ".
Qed.

(** The holder with a backup, and the null holder. *)
Lemma bk_destroy_spec t l kl wl p v : depth v <= k ->
  ⊢ {{ l ↦ Cell kl (Some (OBackup t (Some p))) wl ∗ tint p KHeap None t v }} bk_destroy S t l
    {{ λ _, traw l kl wl | λ _, False }} @ W.
Proof.
  intros Hd. iIntros (Q X) "[Hl Hp] HQ". unfold bk_destroy.
  wpb. iApply bk_ptr_wp. iFrame "Hl". iIntros "Hl". wpb. wpb.
  iApply (i_destroy_spec with "Hp"); [done|]. iSplit; [|by iIntros (e) "[]"].
  iIntros ([]) "Hp". iApply wp_free. iFrame "Hp".
  iApply wp_destruct_obj. iFrame "Hl". iIntros "Hl". by iApply "HQ".
Qed.

Lemma bk_destroy_null_spec t l kl wl :
  ⊢ {{ l ↦ Cell kl (Some (OBackup t None)) wl }} bk_destroy S t l
    {{ λ _, traw l kl wl | λ _, False }} @ W.
Proof.
  iIntros (Q X) "Hl HQ". unfold bk_destroy.
  wpb. iApply bk_ptr_wp. iFrame "Hl". iIntros "Hl". wpb. iApply wp_ret.
  iApply wp_destruct_obj. iFrame "Hl". iIntros "Hl". by iApply "HQ".
Qed.

Lemma unwrap_int_wp {A} t l kl wl v (f : uid -> loc -> M A) Q X :
  tint l kl wl t v -∗
  (∀ l' k' w', tobj l' k' w' (ity_uid t) v -∗
       (∀ v', tobj l' k' w' (ity_uid t) v' -∗ tint l kl wl t v') -∗
       wp (f (ity_uid t) l') Q X) -∗
  wp (unwrap_int t l f) Q X.
Proof.
  iIntros "Hl HQ". destruct t as [u|u]; simpl.
  - iApply ("HQ" with "Hl"). iIntros (v') "H". done.
  - iDestruct (tint_wrap with "Hl") as (p) "[Hl Hp]".
    wpb. iApply wrap_ptr_wp. iFrame "Hl". iIntros "Hl". iApply ("HQ" with "Hp").
    iIntros (v') "Hp". tw.
Qed.

End ok.
End spec.
