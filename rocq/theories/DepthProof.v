(** Operations that return have not met objects nested deeper than their level (proofs). *)
From stdpp Require Import gmap.
From iris.proofmode Require Import tactics.
From Verif Require Import Base Types TypesFacts Dispatch DispatchFacts Variant Sem Heap Wp Values ValuesFacts Rep SpecInt SpecVar SpecAssign SpecSwap SpecSem.

Section depth.
Context (C : cfg) (W : wpar).
Notation R := (R C W).
Notation RI := (RI C W).
Notation tobj := (tobj C W).
Notation tint := (tint C W).
Notation Rvar := (Rvar C W).
Notation Rmems := (Rmems C W).
Notation wp := (wp W).

(** If [m] returns, then [Q]. *)
Definition pwp {A} (m : M A) (Q : A -> hprop) : hprop :=
  {| hholds h := forall s hf,
       mem s = h ∪ hf -> h ##ₘ hf -> ginv W s ->
       match m s with
       | Ok a s' => exists h', mem s' = h' ∪ hf /\ h' ##ₘ hf /\ ginv W s' /\ Q a h'
       | _ => True
       end |}.

Lemma pwp_wp {A} (m : M A) Q : wp m Q (fun _ => True%I) ⊢ pwp m Q.
Proof.
  constructor; intros h Hw s hf Hm Hd Hg. specialize (Hw s hf Hm Hd Hg).
  destruct (m s) as [a s'|e s'|x]; [|done..]. destruct Hw as (h'&?&?&?&_&?). by exists h'.
Qed.
Lemma pwp_bind {A B} (m : M A) (f : A -> M B) Q : pwp m (fun a => pwp (f a) Q) ⊢ pwp (bind m f) Q.
Proof.
  constructor; intros h Hw s hf Hm Hd Hg. specialize (Hw s hf Hm Hd Hg). unfold bind.
  destruct (m s) as [a s'|e s'|x]; [|done|done].
  destruct Hw as (h'&Hm'&Hd'&Hg'&Hw'). exact (Hw' s' hf Hm' Hd' Hg').
Qed.
Lemma pwp_on_exn {A} (m : M A) hd Q : pwp m Q ⊢ pwp (on_exn m hd) Q.
Proof.
  constructor; intros h Hw s hf Hm Hd Hg. specialize (Hw s hf Hm Hd Hg). unfold on_exn.
  destruct (m s) as [a s'|e s'|x]; [done| |done]. by destruct (hd s').
Qed.
Lemma pwp_noexcept {A} (m : M A) Q : pwp m Q ⊢ pwp (noexcept m) Q.
Proof.
  constructor; intros h Hw s hf Hm Hd Hg. specialize (Hw s hf Hm Hd Hg). unfold noexcept.
  by destruct (m s) as [a s'|e s'|x].
Qed.
Lemma pwp_noexcept_if {A} b (m : M A) Q : pwp m Q ⊢ pwp (noexcept_if b m) Q.
Proof. destruct b; simpl; [apply pwp_noexcept|done]. Qed.
Lemma pwp_faulty {A} f (Q : A -> hprop) P : P ⊢ pwp (faulty f) Q.
Proof. constructor; intros h Hw s hf Hm Hd Hg. done. Qed.
Lemma pwp_ret {A} (a : A) Q : Q a ⊢ pwp (ret a) Q.
Proof. iIntros "H". iApply pwp_wp. by iApply wp_ret. Qed.
Lemma pwp_wand {A} (m : M A) Q Q' : pwp m Q ⊢ (∀ a, Q a -∗ Q' a) -∗ pwp m Q'.
Proof.
  apply bi.wand_intro_r. constructor; intros h (h1&h2&->&Hd12&Hw&Hk) s hf Hm Hd Hg.
  apply map_disjoint_union_l in Hd as [Hd1 Hd2].
  specialize (Hw s (h2 ∪ hf)). rewrite munion_assoc in Hw.
  specialize (Hw Hm ltac:(by apply map_disjoint_union_r_2) Hg).
  destruct (m s) as [a s'|e s'|x]; [|done..].
  destruct Hw as (h'&Hm'&Hd'&Hg'&Hw').
  apply map_disjoint_union_r in Hd' as [Hd1' Hd2'].
  exists (h2 ∪ h'). split.
  { rewrite Hm' munion_assoc. f_equal. by apply map_union_comm. }
  split; [by apply map_disjoint_union_l_2|]. split; [done|]. apply Hk; done.
Qed.

Ltac pb := iApply pwp_bind.
Ltac pw := iApply pwp_wp.
Ltac tw := iApply tint_wrap; iExists _; iFrame.
Ltac ttobj := iApply tobj_unfold; iExists _; iFrame; try done.

(** Primitives that do not touch anything of a value. *)
Lemma pwp_new_obj p kf Q : (p = APBackup -> nobk W = false) ->
  (∀ q, traw q KHeap None -∗ pwp (kf q) (λ _, Q q)) ⊢ pwp (new_obj p kf) Q.
Proof.
  iIntros (Hp) "H". unfold new_obj. pb. pw. iApply wp_alloc. iSplit; [|by iIntros (e)].
  iSplitR; [done|]. iIntros (q) "Hq". pb. iApply pwp_on_exn.
  iApply (pwp_wand with "[H Hq]"); [by iApply "H"|]. iIntros ([]) "HQ". by iApply pwp_ret.
Qed.
Lemma pwp_local_variant kf Q : (∀ q, traw q KVar None -∗ pwp (kf q) (λ _, Q q)) ⊢ pwp (local_variant kf) Q.
Proof.
  iIntros "H". unfold local_variant. pb. pw. iApply wp_new_cell; [done|].
  iIntros (q) "Hq". pb. iApply pwp_on_exn.
  iApply (pwp_wand with "[H Hq]"); [by iApply "H"|]. iIntros ([]) "HQ". by iApply pwp_ret.
Qed.
Lemma pwp_visit (Hlim : 0 < lim C) {A} tys a kd c i t bk (f : sty -> loc -> M A) Q :
  tys !! i = Some t -> (bk = true -> never_uses_backup C tys t = false) ->
  a ↦ Cell kd c (Some (wz bk i)) -∗
  (a ↦ Cell kd c (Some (wz bk i)) -∗ pwp (f (if bk then SBk t else SInt t) a) Q) -∗
  pwp (visit C tys a f) Q.
Proof.
  iIntros (Ht Hb) "Ha HQ". unfold visit. pb. pw. iApply wp_read_which. iFrame "Ha". iIntros "Ha".
  rewrite which_of_wz (visitation_lookup _ _ _ t) //. iSpecialize ("HQ" with "Ha").
  destruct bk; simpl.
  - rewrite Hb // decide_False //. lia.
  - destruct (never_uses_backup C tys t); [done|]. rewrite decide_True //. lia.
Qed.
Lemma pwp_visit_tint (Hlim : 0 < lim C) {A} tys a kd i t v (f : sty -> loc -> M A) Q :
  tys !! i = Some t ->
  tint a kd (Some (Z.of_nat i)) t v -∗
  (tint a kd (Some (Z.of_nat i)) t v -∗ pwp (f (SInt t) a) Q) -∗
  pwp (visit C tys a f) Q.
Proof.
  iIntros (Ht) "(%o & Ha & HR) HQ".
  iApply (pwp_visit Hlim tys a kd (Some o) i t false with "Ha"); [done..|]. iIntros "Ha".
  iApply "HQ". iExists o. iFrame.
Qed.

(** Operations of user types that return only on values at most [k] deep. *)
Record usem_at (k : nat) (S : usem) : Prop := {
  at_copy u d kd wd s ks ws v :
    traw d kd wd ∗ tobj s ks ws u v ⊢
    pwp (us_copy S u d s) (λ _, ⌞depth v <= k⌟ ∗ tobj d kd wd u (erase v) ∗ tobj s ks ws u v);
  at_move u d kd wd s ks ws v :
    traw d kd wd ∗ tobj s ks ws u v ⊢
    pwp (us_move S u d s) (λ _, ⌞depth v <= k⌟ ∗ tobj d kd wd u (erase v) ∗ ∃ v', ⌞skel v' = skel v⌟ ∗ tobj s ks ws u v');
  at_destroy u l kl wl v :
    tobj l kl wl u v ⊢ pwp (us_destroy S u l) (λ _, ⌞depth v <= k⌟ ∗ traw l kl wl);
  at_read u l kl wl v :
    tobj l kl wl u v ⊢ pwp (us_read S u l) (λ _, ⌞depth v <= k⌟ ∗ tobj l kl wl u v)
}.

Lemma stuck_at : usem_at 0 usem_stuck.
Proof. split; intros; apply pwp_faulty. Qed.

Section at_level.
Context (Hwf : wf_env C W).
Context (k : nat) (S : usem) (Hat : usem_at k S).
Let Hlim : 0 < lim C := we_lim _ _ Hwf.

Lemma at_i_copy t d kd wd s ks ws v :
  traw d kd wd ∗ tint s ks ws t v ⊢
  pwp (i_copy S t d s) (λ _, ⌞depth v <= k⌟ ∗ tint d kd wd t (erase v) ∗ tint s ks ws t v).
Proof.
  destruct t as [u|u]; [apply (at_copy _ _ Hat)|].
  iIntros "[Hd Hs]". iDestruct (tint_wrap with "Hs") as (p) "[Hs Hp]". unfold i_copy.
  pb. pw. iApply wrap_ptr_wp. iFrame "Hs". iIntros "Hs".
  pb. iApply pwp_new_obj; [done|]. iIntros (q) "Hq".
  iApply (pwp_wand with "[Hq Hp]"); [iApply (at_copy _ _ Hat); iFrame|].
  iIntros ([]) "(%Hv & Hq & Hp)". pw. iApply wp_construct. iFrame "Hd". iIntros "Hd".
  iSplitR; [done|]. iSplitL "Hd Hq"; tw.
Qed.
Lemma at_i_move t d kd wd s ks ws v :
  traw d kd wd ∗ tint s ks ws t v ⊢
  pwp (i_move S t d s) (λ _, ⌞depth v <= k⌟ ∗ tint d kd wd t (erase v) ∗ ∃ v', ⌞skel v' = skel v⌟ ∗ tint s ks ws t v').
Proof.
  destruct t as [u|u]; [apply (at_move _ _ Hat)|].
  iIntros "[Hd Hs]". iDestruct (tint_wrap with "Hs") as (p) "[Hs Hp]". unfold i_move.
  pb. pw. iApply wrap_ptr_wp. iFrame "Hs". iIntros "Hs".
  pb. iApply pwp_new_obj; [done|]. iIntros (q) "Hq".
  iApply (pwp_wand with "[Hq Hp]"); [iApply (at_move _ _ Hat); iFrame|].
  iIntros ([]) "(%Hv & Hq & %v' & %Hv' & Hp)". pw. iApply wp_construct. iFrame "Hd". iIntros "Hd".
  iSplitR; [done|]. iSplitL "Hd Hq"; [tw|]. iExists v'. iSplitR; [done|]. tw.
Qed.
Lemma at_i_destroy t l kl wl v :
  tint l kl wl t v ⊢ pwp (i_destroy S t l) (λ _, ⌞depth v <= k⌟ ∗ traw l kl wl).
Proof.
  destruct t as [u|u]; [apply (at_destroy _ _ Hat)|].
  iIntros "Hl". iDestruct (tint_wrap with "Hl") as (p) "[Hl Hp]". unfold i_destroy.
  pb. pw. iApply wrap_ptr_wp. iFrame "Hl". iIntros "Hl".
  pb. iApply (pwp_wand with "[Hp]"); [by iApply (at_destroy _ _ Hat)|]. iIntros ([]) "[%Hv Hp]".
  pb. pw. iApply wp_free. iFrame "Hp". iApply pwp_wp. iApply wp_destruct_obj. iFrame "Hl". iIntros "Hl". by iFrame.
Qed.
Lemma at_bk_destroy t l kl wl p v :
  l ↦ Cell kl (Some (OBackup t (Some p))) wl ∗ tint p KHeap None t v ⊢
  pwp (bk_destroy S t l) (λ _, ⌞depth v <= k⌟ ∗ traw l kl wl).
Proof.
  iIntros "[Hl Hp]". unfold bk_destroy. pb. pw. iApply bk_ptr_wp. iFrame "Hl". iIntros "Hl". pb. pb.
  iApply (pwp_wand with "[Hp]"); [by iApply at_i_destroy|]. iIntros ([]) "[%Hv Hp]".
  pw. iApply wp_free. iFrame "Hp". pw. iApply wp_destruct_obj. iFrame "Hl". iIntros "Hl". by iFrame.
Qed.

Lemma at_var_destroy tys a k1 :
  Rvar tys a k1 ⊢ pwp (var_destroy C S tys a) (λ _, ⌞depth k1.2 <= k⌟ ∗ ∃ w, traw a KVar w).
Proof.
  iIntros "H". rewrite Rvar_unfold. iDestruct "H" as (t) "[%Ht H]".
  unfold var_destroy, destroy_content. do 2 iApply pwp_noexcept.
  destruct k1 as [[bk i] v]; simpl in *. destruct bk.
  - iDestruct "H" as (p) "(%Hb & Ha & Hp)".
    iApply (pwp_visit Hlim tys a KVar _ i t true with "Ha"); [done|by intros _; apply Hb|].
    iIntros "Ha". iApply pwp_noexcept. simpl.
    iApply (pwp_wand with "[Ha Hp]"); [iApply at_bk_destroy; iFrame|]. iIntros ([]) "[$ Ha]". by iExists _.
  - iApply (pwp_visit_tint Hlim with "H"); [done|]. iIntros "H". iApply pwp_noexcept. simpl.
    iApply (pwp_wand with "[H]"); [by iApply at_i_destroy|]. iIntros ([]) "[$ Ha]". by iExists _.
Qed.
Lemma at_var_copy tys d w s k1 :
  traw d KVar w ∗ Rvar tys s k1 ⊢
  pwp (var_copy C S tys d s) (λ _, ⌞depth k1.2 <= k⌟ ∗ Rvar tys d (erasev k1) ∗ Rvar tys s k1).
Proof.
  iIntros "[Hd H]". rewrite {1}Rvar_unfold. iDestruct "H" as (t) "[%Ht H]".
  unfold var_copy. pb. destruct k1 as [[bk i] v]; simpl in *. destruct bk.
  - iDestruct "H" as (p) "(%Hb & Ha & Hp)".
    iApply (pwp_visit Hlim tys s KVar _ i t true with "Ha"); [done|by intros _; apply Hb|].
    iIntros "Ha". simpl. pb. pw. iApply bk_get_wp. iFrame "Ha". iIntros "Ha".
    iApply (pwp_wand with "[Hd Hp]"); [iApply at_i_copy; iFrame|]. iIntros ([]) "(%Hv & Hd & Hp)". pb. pw.
    iApply (which_Rvar _ _ tys s (true, i, v) with "[Ha Hp]"); [iApply Rvar_bk; [done..|iFrame]|].
    iIntros "Hs". pw. iApply (write_which_tint with "Hd"). iIntros "Hd". iSplitR; [done|]. iFrame.
    by iApply Rvar_plain.
  - iApply (pwp_visit_tint Hlim with "H"); [done|]. iIntros "H". simpl.
    iApply (pwp_wand with "[Hd H]"); [iApply at_i_copy; iFrame|]. iIntros ([]) "(%Hv & Hd & Hp)". pb. pw.
    iApply (which_Rvar _ _ tys s (false, i, v) with "[Hp]"); [iApply Rvar_plain; [done..|iFrame]|].
    iIntros "Hs". pw. iApply (write_which_tint with "Hd"). iIntros "Hd". iSplitR; [done|]. iFrame.
    by iApply Rvar_plain.
Qed.
Lemma at_var_move tys d w s k1 :
  traw d KVar w ∗ Rvar tys s k1 ⊢
  pwp (var_move C S tys d s) (λ _, ⌞depth k1.2 <= k⌟ ∗ Rvar tys d (erasev k1) ∗
    ∃ v', ⌞skel v' = skel k1.2⌟ ∗ Rvar tys s (k1.1.1, k1.1.2, v')).
Proof.
  iIntros "[Hd H]". rewrite {1}Rvar_unfold. iDestruct "H" as (t) "[%Ht H]".
  unfold var_move. iApply pwp_noexcept_if. pb. destruct k1 as [[bk i] v]; simpl in *. destruct bk.
  - iDestruct "H" as (p) "(%Hb & Ha & Hp)".
    iApply (pwp_visit Hlim tys s KVar _ i t true with "Ha"); [done|by intros _; apply Hb|].
    iIntros "Ha". simpl. pb. pw. iApply bk_get_wp. iFrame "Ha". iIntros "Ha".
    iApply (pwp_wand with "[Hd Hp]"); [iApply at_i_move; iFrame|]. iIntros ([]) "(%Hv & Hd & %v' & %Hv' & Hp)". pb. pw.
    iApply (which_Rvar _ _ tys s (true, i, v') with "[Ha Hp]"); [iApply Rvar_bk; [done..|iFrame]|].
    iIntros "Hs". pw. iApply (write_which_tint with "Hd"). iIntros "Hd". iSplitR; [done|].
    iSplitL "Hd"; [by iApply Rvar_plain|]. iExists v'. by iFrame.
  - iApply (pwp_visit_tint Hlim with "H"); [done|]. iIntros "H". simpl. iApply pwp_noexcept_if.
    iApply (pwp_wand with "[Hd H]"); [iApply at_i_move; iFrame|]. iIntros ([]) "(%Hv & Hd & %v' & %Hv' & Hp)". pb. pw.
    iApply (which_Rvar _ _ tys s (false, i, v') with "[Hp]"); [iApply Rvar_plain; [done..|iFrame]|].
    iIntros "Hs". pw. iApply (write_which_tint with "Hd"). iIntros "Hd". iSplitR; [done|].
    iSplitL "Hd"; [by iApply Rvar_plain|]. iExists v'. by iFrame.
Qed.
Lemma at_var_read tys a k1 : Rvar tys a k1 ⊢ pwp (var_read C S tys a) (λ _, ⌞depth k1.2 <= k⌟ ∗ Rvar tys a k1).
Proof.
  iIntros "H". rewrite {1}Rvar_unfold. iDestruct "H" as (t) "[%Ht H]".
  unfold var_read, visit_user. destruct k1 as [[bk i] v]; simpl in *. destruct bk.
  - iDestruct "H" as (p) "(%Hb & Ha & Hp)".
    iApply (pwp_visit Hlim tys a KVar _ i t true with "Ha"); [done|by intros _; apply Hb|].
    iIntros "Ha". simpl. pb. pw. iApply bk_get_wp. iFrame "Ha". iIntros "Ha". destruct t as [u|u]; simpl.
    + pb. iApply (pwp_wand with "[Hp]"); [by iApply (at_read _ _ Hat)|]. iIntros (v0) "[%Hv Hp]". iApply pwp_ret.
      iSplitR; [done|]. iApply Rvar_bk; [done..|iFrame].
    + iDestruct (tint_wrap with "Hp") as (p') "[Hp Hp']". pb. pw. iApply wrap_ptr_wp. iFrame "Hp". iIntros "Hp".
      pb. iApply (pwp_wand with "[Hp']"); [by iApply (at_read _ _ Hat)|]. iIntros (v0) "[%Hv Hp']". iApply pwp_ret.
      iSplitR; [done|]. iApply Rvar_bk; [done..|iFrame]. tw.
  - iApply (pwp_visit_tint Hlim with "H"); [done|]. iIntros "H". simpl. destruct t as [u|u]; simpl.
    + pb. iApply (pwp_wand with "[H]"); [by iApply (at_read _ _ Hat)|]. iIntros (v0) "[%Hv Hp]". iApply pwp_ret.
      iSplitR; [done|]. iApply Rvar_plain; [done..|iFrame].
    + iDestruct (tint_wrap with "H") as (p') "[Hp Hp']". pb. pw. iApply wrap_ptr_wp. iFrame "Hp". iIntros "Hp".
      pb. iApply (pwp_wand with "[Hp']"); [by iApply (at_read _ _ Hat)|]. iIntros (v0) "[%Hv Hp']". iApply pwp_ret.
      iSplitR; [done|]. iApply Rvar_plain; [done..|]. tw.
Qed.

(** ** Members *)
Notation dks := (Forall (λ k' : vval, depth k'.2 <= k)).
Lemma at_destroy_members mems ls ks : Rmems mems ls ks ⊢ pwp (destroy_members C S mems ls) (λ _, ⌞dks ks⌟).
Proof.
  iIntros "H". iInduction ks as [|k1 ks] "IH" forall (mems ls).
  - destruct mems, ls; simpl; try iDestruct "H" as "[]". iApply pwp_ret. by iPureIntro.
  - destruct mems as [|tys mems], ls as [|l ls]; simpl; try iDestruct "H" as "[]".
    iDestruct "H" as "[H1 H]". pb. iApply (pwp_wand with "[H]"); [by iApply "IH"|]. iIntros ([]) "%Hks".
    pb. iApply (pwp_wand with "[H1]"); [by iApply at_var_destroy|]. iIntros ([]) "(%Hk & %w & Hl)".
    pw. iApply (wp_drop_cell _ _ KVar); [done|]. iFrame "Hl". iPureIntro. by constructor.
Qed.
Lemma at_make_copy mems ls ks : Rmems mems ls ks ⊢
  pwp (make_members C S (λ tys k0 k', var_copy C S tys k' k0) mems ls)
    (λ ls', ⌞dks ks⌟ ∗ Rmems mems ls' (map erasev ks) ∗ Rmems mems ls ks).
Proof.
  iIntros "H". iInduction ks as [|k1 ks] "IH" forall (mems ls).
  - destruct mems, ls; simpl; try iDestruct "H" as "[]". iApply pwp_ret. iSplitR; [by iPureIntro|]. by iFrame.
  - destruct mems as [|tys mems], ls as [|l ls]; simpl; try iDestruct "H" as "[]".
    iDestruct "H" as "[H1 H]". pb. iApply pwp_local_variant. iIntros (q) "Hq".
    iApply (pwp_wand with "[Hq H1]"); [iApply at_var_copy; iFrame|]. iIntros ([]) "(%Hk & Hq & H1)".
    pb. iApply pwp_on_exn. iApply (pwp_wand with "[H]"); [by iApply "IH"|]. iIntros (ls') "(%Hks & Hq' & H)".
    iApply pwp_ret. iSplitR; [by iPureIntro; constructor|]. simpl. iFrame.
Qed.
Lemma at_make_move mems ls ks : Rmems mems ls ks ⊢
  pwp (make_members C S (λ tys k0 k', var_move C S tys k' k0) mems ls)
    (λ ls', ⌞dks ks⌟ ∗ Rmems mems ls' (map erasev ks) ∗ ∃ ks', ⌞map skelv ks' = map skelv ks⌟ ∗ Rmems mems ls ks').
Proof.
  iIntros "H". iInduction ks as [|k1 ks] "IH" forall (mems ls).
  - destruct mems, ls; simpl; try iDestruct "H" as "[]". iApply pwp_ret. iSplitR; [by iPureIntro|]. iSplitR; [done|].
    iExists []. by iFrame.
  - destruct mems as [|tys mems], ls as [|l ls]; simpl; try iDestruct "H" as "[]".
    iDestruct "H" as "[H1 H]". pb. iApply pwp_local_variant. iIntros (q) "Hq".
    iApply (pwp_wand with "[Hq H1]"); [iApply at_var_move; iFrame|]. iIntros ([]) "(%Hk & Hq & %v' & %Hv' & H1)".
    pb. iApply pwp_on_exn. iApply (pwp_wand with "[H]"); [by iApply "IH"|]. iIntros (ls') "(%Hks & Hq' & %ks' & %Hks' & H)".
    iApply pwp_ret. iSplitR; [by iPureIntro; constructor|]. simpl. iFrame.
    iExists ((k1.1.1, k1.1.2, v') :: ks'). iSplitR; [iPureIntro|simpl; iFrame].
    rewrite /= {1}/skelv /= Hv' Hks' //.
Qed.
Lemma at_read_members mems ls ks : Rmems mems ls ks ⊢
  pwp (read_members C S mems ls) (λ _, ⌞dks ks⌟ ∗ Rmems mems ls ks).
Proof.
  iIntros "H". iInduction ks as [|k1 ks] "IH" forall (mems ls).
  - destruct mems, ls; simpl; try iDestruct "H" as "[]". iApply pwp_ret. iSplitR; [by iPureIntro|done].
  - destruct mems as [|tys mems], ls as [|l ls]; simpl; try iDestruct "H" as "[]".
    iDestruct "H" as "[H1 H]". pb. pw. iApply (read_which_Rvar with "H1"). iIntros "H1".
    pb. iApply (pwp_wand with "[H1]"); [by iApply at_var_read|]. iIntros (uv) "[%Hk H1]".
    pb. iApply (pwp_wand with "[H]"); [by iApply "IH"|]. iIntros (r) "[%Hks H]". iApply pwp_ret.
    iSplitR; [by iPureIntro; constructor|]. iFrame.
Qed.

(** ** User types *)
Lemma at_step : usem_at (Datatypes.S k) (sem_step C S).
Proof.
  split; intros.
  - destruct v as [z vs]. iIntros "[Hd Hs]". iDestruct (tobj_unfold with "Hs") as (ls) "(%Hz & Hs & Hm)". cbn [us_copy sem_step]. unfold u_copy.
    pb. pw. iApply expect_user_wp. iFrame "Hs". iIntros "Hs".
    pb. pw. iApply wp_maybe_throw. iSplit; [|by iIntros (e) "_"].
    pb. pw. iApply wp_note_read. iSplitR; [done|].
    pb. iApply (pwp_wand with "[Hm]"); [by iApply at_make_copy|]. iIntros (ls') "(%Hks & Hm' & Hm)".
    pw. iApply wp_construct. iFrame "Hd". iIntros "Hd". iSplitR; [iPureIntro; by apply (depth_UV z vs k)|].
    rewrite erase_UV. iSplitL "Hd Hm'"; ttobj.
  - destruct v as [z vs]. iIntros "[Hd Hs]". iDestruct (tobj_unfold with "Hs") as (ls) "(%Hz & Hs & Hm)". cbn [us_move sem_step]. unfold u_move.
    pb. pw. iApply expect_user_wp. iFrame "Hs". iIntros "Hs".
    pb. iApply pwp_on_exn. pw. iApply wp_maybe_throw. iSplit; [|by iIntros (e) "_"].
    pb. pw. iApply wp_note_read. iSplitR; [done|].
    pb. iApply pwp_on_exn. iApply (pwp_wand with "[Hm]"); [by iApply at_make_move|].
    iIntros (ls') "(%Hks & Hm' & %ks' & %Hks' & Hm)".
    pb. unfold scramble. pb. pw. iApply expect_user_wp. iFrame "Hs". iIntros "Hs".
    pb. pw. iApply wp_choose. iIntros (j). pw. iApply (wp_modify_obj _ s ks ws (OUser u z ls)); [done|]. iFrame "Hs". iIntros "Hs".
    pw. iApply wp_construct. iFrame "Hd". iIntros "Hd". iSplitR; [iPureIntro; by apply (depth_UV z vs k)|].
    rewrite erase_UV. iSplitL "Hd Hm'"; [ttobj|]. iExists (UV (Some j) ks'). iSplitR; [by iPureIntro; apply skel_z|]. ttobj.
  - destruct v as [z vs]. iIntros "Hl". iDestruct (tobj_unfold with "Hl") as (ls) "(%Hz & Hl & Hm)". cbn [us_destroy sem_step]. unfold u_destroy.
    pb. pw. iApply expect_user_wp. iFrame "Hl". iIntros "Hl".
    pb. iApply (pwp_wand with "[Hm]"); [by iApply at_destroy_members|]. iIntros ([]) "%Hks".
    pw. iApply wp_destruct_obj. iFrame "Hl". iIntros "Hl". iFrame. iPureIntro. by apply (depth_UV z vs k).
  - destruct v as [z vs]. iIntros "Hl". iDestruct (tobj_unfold with "Hl") as (ls) "(%Hz & Hl & Hm)". cbn [us_read sem_step]. unfold u_read.
    pb. pw. iApply expect_user_wp. iFrame "Hl". iIntros "Hl".
    pb. pw. iApply wp_note_read. iSplitR; [done|].
    pb. iApply (pwp_wand with "[Hm]"); [by iApply at_read_members|]. iIntros (r) "[%Hks Hm]".
    iApply pwp_ret. iSplitR; [iPureIntro; by apply (depth_UV z vs k)|]. ttobj.
Qed.
End at_level.

Lemma sem_at (Hwf : wf_env C W) n : usem_at (S n) (sem C n).
Proof. induction n as [|n IH]; simpl; apply at_step; [done|apply stuck_at|done|done]. Qed.
End depth.
