(** The semantics of user types meets its specification at every level (proofs). *)
From stdpp Require Import gmap.
From iris.proofmode Require Import tactics.
From Verif Require Import Base Types TypesFacts Dispatch DispatchFacts Variant Sem Heap Wp Values ValuesFacts Rep SpecInt SpecVar SpecAssign SpecSwap.

Definition skelv (k : vval) : vval := (k.1.1, k.1.2, skel k.2).

Lemma skel_UV z ks : skel (UV z ks) = UV None (map skelv ks).
Proof. done. Qed.
Lemma erase_UV z ks : erase (UV z ks) = UV z (map erasev ks).
Proof. done. Qed.
Lemma clean_UV z ks : clean (UV z ks) = forallb cleanv ks.
Proof. done. Qed.

Lemma depth_UV z ks n : depth (UV z ks) <= S n <-> Forall (λ k, depth k.2 <= n) ks.
Proof.
  induction ks as [|k' ks IH]; simpl in *.
  - split; [constructor|lia].
  - rewrite Forall_cons -IH. lia.
Qed.

Lemma skels_depth ks ks' n : map skelv ks' = map skelv ks ->
  Forall (λ k : vval, depth k.2 <= n) ks -> Forall (λ k : vval, depth k.2 <= n) ks'.
Proof.
  intros H. rewrite -!(depth_UV None). intros Hd.
  rewrite (skel_depth _ (UV None ks)) //. rewrite !skel_UV H //.
Qed.

Section sem.
Context (C : cfg) (W : wpar).
Notation R := (R C W).
Notation RI := (RI C W).
Notation tobj := (tobj C W).
Notation tint := (tint C W).
Notation Rvar := (Rvar C W).
Notation Rmems := (Rmems C W).
Notation wp := (wp W).
Context (Hwf : wf_env C W).
Context (k : nat) (S : usem) (Hok : usem_ok C W k S).

Notation dks := (Forall (λ k' : vval, depth k'.2 <= k)).

Lemma var_read_spec tys a k1 : depth k1.2 <= k ->
  ⊢ {{ Rvar tys a k1 }} var_read C S tys a
    {{ λ r, ⌞exists t, tys !! k1.1.2 = Some t /\ r = (ity_uid t, k1.2)⌟ ∗ Rvar tys a k1 | λ _, False }} @ W.
Proof.
  iIntros (Hd Q X) "H HQ". unfold var_read. iApply (visit_user_wp with "H"); [apply Hwf|].
  iIntros (t l' k' w') "%Ht Hl Hback". wpb. iApply (ok_read _ _ _ _ Hok with "Hl"); [done|].
  iSplit; [|by iIntros (e) "[]"]. iIntros (v) "[-> Hl]". iApply wp_ret. iApply "HQ".
  iSplitR; [by eauto|]. rewrite {2}(vval_eta k1). by iApply "Hback".
Qed.

(** ** Members *)

Lemma destroy_members_spec mems ls ks : dks ks ->
  ⊢ {{ Rmems mems ls ks }} destroy_members C S mems ls {{ λ _, emp | λ _, False }} @ W.
Proof.
  iIntros (Hd Q X) "H HQ". iInduction ks as [|k1 ks] "IH" forall (mems ls Hd Q X).
  - destruct mems, ls; simpl; try iDestruct "H" as "[]". iApply wp_ret. by iApply "HQ".
  - destruct mems as [|tys mems], ls as [|l ls]; simpl; try iDestruct "H" as "[]".
    iDestruct "H" as "[H1 H]". apply Forall_cons in Hd as [Hd1 Hd].
    wpb. iApply ("IH" with "[//] H"). iSplit; [|by iIntros (e) "[]"]. iIntros ([]) "_".
    wpb. iApply (var_destroy_spec _ _ Hwf _ _ Hok with "H1"); [done|]. iSplit; [|by iIntros (e) "[]"].
    iIntros ([]) "(%w & Hl)". iApply (wp_drop_cell _ _ KVar); [done|]. iFrame "Hl". by iApply "HQ".
Qed.

Lemma make_copy_spec mems ls ks : dks ks ->
  ⊢ {{ Rmems mems ls ks }}
      make_members C S (λ tys k0 k', var_copy C S tys k' k0) mems ls
    {{ λ ls', Rmems mems ls' (map erasev ks) ∗ Rmems mems ls ks
     | λ _, ⌞mems <> []⌟ ∗ Rmems mems ls ks }} @ W.
Proof.
  iIntros (Hd Q X) "H HQ". iInduction ks as [|k1 ks] "IH" forall (mems ls Hd Q X).
  - destruct mems, ls; simpl; try iDestruct "H" as "[]". iApply wp_ret. iApply "HQ". by iFrame.
  - destruct mems as [|tys mems], ls as [|l ls]; simpl; try iDestruct "H" as "[]".
    iDestruct "H" as "[H1 H]". apply Forall_cons in Hd as [Hd1 Hd].
    wpb. iApply local_variant_wp. iIntros (q) "Hq".
    iApply (var_copy_spec _ _ Hwf _ _ Hok with "[$Hq $H1]"); [done|]. iSplit; last first.
    { iIntros (e) "(_ & Hq & H1)". iSplitL "Hq"; [by iExists _|]. iApply "HQ". iSplitR; [done|]. iFrame. }
    iIntros ([]) "[Hq H1]". wpb. iApply wp_on_exn. iApply ("IH" with "[//] H"). iSplit.
    + iIntros (ls') "[Hq' H]". iApply wp_ret. iApply "HQ". simpl. iFrame.
    + iIntros (e) "[_ H]". wpb. iApply (var_destroy_spec _ _ Hwf _ _ Hok with "Hq").
      { simpl. by rewrite depth_erase. }
      iSplit; [|by iIntros (e') "[]"]. iIntros ([]) "(%w & Hl)". iApply (wp_drop_cell _ _ KVar); [done|].
      iFrame "Hl". iApply "HQ". iSplitR; [done|]. iFrame.
Qed.

Lemma make_move_spec mems ls ks : dks ks ->
  ⊢ {{ Rmems mems ls ks }}
      make_members C S (λ tys k0 k', var_move C S tys k' k0) mems ls
    {{ λ ls', Rmems mems ls' (map erasev ks) ∗ ∃ ks', ⌞map skelv ks' = map skelv ks⌟ ∗ Rmems mems ls ks'
     | λ _, ⌞exists tys, tys ∈ mems /\ forallb (it_move C) tys = false⌟ ∗
            ∃ ks', ⌞map skelv ks' = map skelv ks⌟ ∗ Rmems mems ls ks' }} @ W.
Proof.
  iIntros (Hd Q X) "H HQ". iInduction ks as [|k1 ks] "IH" forall (mems ls Hd Q X).
  - destruct mems, ls; simpl; try iDestruct "H" as "[]". iApply wp_ret. iApply "HQ". iSplitR; [done|].
    iExists []. by iFrame.
  - destruct mems as [|tys mems], ls as [|l ls]; simpl; try iDestruct "H" as "[]".
    iDestruct "H" as "[H1 H]". apply Forall_cons in Hd as [Hd1 Hd].
    wpb. iApply local_variant_wp. iIntros (q) "Hq".
    iApply (var_move_spec _ _ Hwf _ _ Hok with "[$Hq $H1]"); [done|]. iSplit; last first.
    { iIntros (e) "((%t & %Ht & %Hm) & Hq & %v' & %Hv' & H1)". iSplitL "Hq"; [by iExists _|]. iApply "HQ". iSplitR.
      - iPureIntro. exists tys. split; [left|]. destruct (forallb _ _) eqn:E; [|done].
        rewrite (forallb_lookup _ _ _ _ E Ht) in Hm. done.
      - iExists ((k1.1.1, k1.1.2, v') :: ks). iSplitR; [iPureIntro|simpl; iFrame].
        rewrite /= {1}/skelv /= Hv' //. }
    iIntros ([]) "(Hq & %v' & %Hv' & H1)". wpb. iApply wp_on_exn. iApply ("IH" with "[//] H"). iSplit.
    + iIntros (ls') "(Hq' & %ks' & %Hks' & H)". iApply wp_ret. iApply "HQ". simpl. iFrame.
      iExists ((k1.1.1, k1.1.2, v') :: ks'). iSplitR; [iPureIntro|simpl; iFrame].
      rewrite /= {1}/skelv /= Hv' Hks' //.
    + iIntros (e) "((%tys' & %Hin & %Hm) & %ks' & %Hks' & H)".
      wpb. iApply (var_destroy_spec _ _ Hwf _ _ Hok with "Hq").
      { simpl. by rewrite depth_erase. }
      iSplit; [|by iIntros (e') "[]"]. iIntros ([]) "(%w & Hl)". iApply (wp_drop_cell _ _ KVar); [done|].
      iFrame "Hl". iApply "HQ". iSplitR.
      { iPureIntro. exists tys'. split; [by right|done]. }
      iExists ((k1.1.1, k1.1.2, v') :: ks'). iSplitR; [iPureIntro|simpl; iFrame].
      rewrite /= {1}/skelv /= Hv' Hks' //.
Qed.

Definition defmem (n : nat) (tys : list ity) : option vval :=
  match tys with
  | [] => None
  | IPlain u' :: _ => match defval C n false u' with Some v => Some (false, 0, v) | None => None end
  | IWrap u' :: _ => match defval C n true u' with Some v => Some (false, 0, v) | None => None end
  end.

Lemma defmem_Some n tys k' : defmem n tys = Some k' ->
  exists t r v, tys = t :: r /\ k' = (false, 0, v) /\ idefval C n t = Some v.
Proof.
  destruct tys as [|[u|u] r]; simpl; [done|..].
  - destruct (defval C n false u) as [v|] eqn:E; [|done]. intros [= <-]. by exists (IPlain u), r, v.
  - destruct (defval C n true u) as [v|] eqn:E; [|done]. intros [= <-]. by exists (IWrap u), r, v.
Qed.

Lemma defval_depth n b u v : defval C n b u = Some v -> depth v <= n.
Proof.
  revert b u v. induction n as [|n IH]; intros b u v; [done|]. simpl.
  destruct (mapM _ _) as [ks|] eqn:E; [|done]. intros [= <-].
  apply (proj2 (depth_UV _ _ _)). apply mapM_Some in E.
  induction E as [|tys k' mems ks Hk _ IHE]; constructor; [|done].
  destruct tys as [|[u'|u'] r]; [done|..].
  - destruct (defval C n false u') as [v|] eqn:E'; [|done]. injection Hk as <-. simpl. by eapply IH.
  - destruct (defval C n true u') as [v|] eqn:E'; [|done]. injection Hk as <-. simpl. by eapply IH.
Qed.

Lemma idefval_depth n t v : idefval C n t = Some v -> depth v <= n.
Proof. destruct t; apply defval_depth. Qed.

Lemma make_default_spec mems ks :
  mapM (defmem k) mems = Some ks -> (strict W = true -> forallb determinatev ks = true) ->
  ⊢ {{ emp }}
      make_members C S (λ tys _ k', var_default C S tys k') mems (map (λ _, tt) mems)
    {{ λ ls, Rmems mems ls ks
     | λ _, ⌞exists tys t, tys ∈ mems /\ head tys = Some t /\ it_default C t = false⌟ }} @ W.
Proof.
  intros Hks%mapM_Some Hdet. iIntros (Q X) "_ HQ".
  iInduction Hks as [|tys k1 mems ks Hk Hks] "IH" forall (Q X).
  - simpl. iApply wp_ret. by iApply "HQ".
  - simpl. destruct (defmem_Some _ _ _ Hk) as (t&r&v&->&->&Hv).
    wpb. iApply local_variant_wp. iIntros (q) "Hq".
    iApply (var_default_spec _ _ _ _ Hok with "Hq"); [done|..].
    { intros Hs. specialize (Hdet Hs). simpl in Hdet. by apply andb_true_iff in Hdet as [? _]. }
    iSplit; last first.
    { iIntros (e) "(%Ht & Hq)". iSplitL "Hq"; [by iExists _|]. iApply "HQ". iPureIntro.
      exists (t :: r), t. split; [left|done]. }
    iIntros ([]) "Hq". wpb. iApply wp_on_exn. iApply "IH".
    { iPureIntro. intros Hs. specialize (Hdet Hs). simpl in Hdet. by apply andb_true_iff in Hdet as [_ ?]. }
    iSplit.
    + iIntros (ls) "H". iApply wp_ret. iApply "HQ". simpl. iFrame.
    + iIntros (e) "%He". wpb. iApply (var_destroy_spec _ _ Hwf _ _ Hok with "Hq").
      { simpl. by eapply idefval_depth. }
      iSplit; [|by iIntros (e') "[]"]. iIntros ([]) "(%w & Hl)". iApply (wp_drop_cell _ _ KVar); [done|].
      iFrame "Hl". iApply "HQ". iPureIntro. destruct He as (tys'&t'&Hin&Hh).
      exists tys', t'. split; [by right|done].
Qed.

Definition mems_wf (mems : list (list ity)) : Prop := forall tys, tys ∈ mems -> wf_tys C W tys.

Lemma cassign_members_spec mems ls1 ls2 ks1 ks2 : mems_wf mems ->
  dks ks1 -> dks ks2 -> forallb cleanv ks2 = true ->
  ⊢ {{ Rmems mems ls1 ks1 ∗ Rmems mems ls2 ks2 }} assign_members (var_assign C S) mems ls1 ls2
    {{ λ _, Rmems mems ls1 ks2 ∗ Rmems mems ls2 ks2
     | λ _, ⌞mems <> []⌟ ∗ (∃ ks', ⌞dks ks'⌟ ∗ Rmems mems ls1 ks') ∗ Rmems mems ls2 ks2 }} @ W.
Proof.
  iIntros (Hm Hd1 Hd2 Hc Q X) "[H1 H2] HQ".
  iInduction ks1 as [|k1 ks1] "IH" forall (mems ls1 ls2 ks2 Hm Hd1 Hd2 Hc Q X).
  - destruct mems as [|tys mems], ls1 as [|l1 ls1]; simpl; try iDestruct "H1" as "[]".
    destruct ks2 as [|k2 ks2], ls2 as [|l2 ls2]; simpl; try iDestruct "H2" as "[]".
    iApply wp_ret. iApply "HQ". by iFrame.
  - destruct mems as [|tys mems], ls1 as [|l1 ls1]; simpl; try iDestruct "H1" as "[]".
    destruct ks2 as [|k2 ks2], ls2 as [|l2 ls2]; simpl; try iDestruct "H2" as "[]".
    apply Forall_cons in Hd1 as [Hd1 Hds1]. apply Forall_cons in Hd2 as [Hd2 Hds2].
    simpl in Hc. apply andb_true_iff in Hc as [Hc Hcs].
    iDestruct "H1" as "[H1 Hs1]". iDestruct "H2" as "[H2 Hs2]".
    wpb. iApply (var_assign_spec _ _ Hwf _ _ Hok with "[$H1 $H2]"); [apply Hm; left|done..|by apply source_clean|]. iSplit; last first.
    { iIntros (e) "[(%k' & %Hk' & H1) H2]". iApply "HQ". iSplitR; [done|]. iFrame "H2 Hs2".
      iExists (k' :: ks1). simpl. iFrame. iPureIntro. constructor; [|done].
      eapply assign_fail_depth; [|done..]. pose proof (depth_pos k1.2). lia. }
    iIntros ([]) "[H1 H2]". iApply ("IH" with "[] [] [] [] Hs1 Hs2"); [iPureIntro..|].
    { intros tys' Hin. apply Hm. by right. }
    { done. } { done. } { done. }
    iSplit.
    + iIntros ([]) "[Hs1 Hs2]". iApply "HQ". iFrame.
    + iIntros (e) "(_ & (%ks' & %Hks' & Hs1) & Hs2)". iApply "HQ". iSplitR; [done|]. iFrame "H2 Hs2".
      iExists (k2 :: ks'). simpl. iFrame. iPureIntro. by constructor.
Qed.

Definition mfree (mems : list (list ity)) : Prop :=
  forall tys, tys ∈ mems -> forallb (it_move C) tys = true /\ forallb (it_massign C) tys = true.

Lemma massign_members_spec mems ls1 ls2 ks1 ks2 : mems_wf mems ->
  dks ks1 -> dks ks2 -> forallb cleanv ks2 = true ->
  ⊢ {{ Rmems mems ls1 ks1 ∗ Rmems mems ls2 ks2 }} assign_members (var_massign C S) mems ls1 ls2
    {{ λ _, Rmems mems ls1 ks2 ∗ ∃ ks', ⌞dks ks' /\ (forallb cleanv ks1 = true -> forallb cleanv ks' = true)⌟ ∗ Rmems mems ls2 ks'
     | λ _, ⌞~ mfree mems⌟ ∗ (∃ ks', ⌞dks ks'⌟ ∗ Rmems mems ls1 ks') ∗
            ∃ ks', ⌞dks ks' /\ (forallb cleanv ks1 = true -> forallb cleanv ks' = true)⌟ ∗ Rmems mems ls2 ks' }} @ W.
Proof.
  iIntros (Hm Hd1 Hd2 Hc Q X) "[H1 H2] HQ".
  iInduction ks1 as [|k1 ks1] "IH" forall (mems ls1 ls2 ks2 Hm Hd1 Hd2 Hc Q X).
  - destruct mems as [|tys mems], ls1 as [|l1 ls1]; simpl; try iDestruct "H1" as "[]".
    destruct ks2 as [|k2 ks2], ls2 as [|l2 ls2]; simpl; try iDestruct "H2" as "[]".
    iApply wp_ret. iApply "HQ". iFrame. iExists []. by iFrame.
  - destruct mems as [|tys mems], ls1 as [|l1 ls1]; simpl; try iDestruct "H1" as "[]".
    destruct ks2 as [|k2 ks2], ls2 as [|l2 ls2]; simpl; try iDestruct "H2" as "[]".
    apply Forall_cons in Hd1 as [Hd1 Hds1]. apply Forall_cons in Hd2 as [Hd2 Hds2].
    simpl in Hc. apply andb_true_iff in Hc as [Hc Hcs].
    pose proof Hc as [Hbk2 Hcl2]%andb_true_iff. apply negb_true_iff in Hbk2.
    iDestruct "H1" as "[H1 Hs1]". iDestruct "H2" as "[H2 Hs2]".
    assert (Hsrc : forall k2' ks', massign_src k k1 k2 k2' ->
      (dks ks' /\ (forallb cleanv ks1 = true -> forallb cleanv ks' = true)) ->
      dks (k2' :: ks') /\ (cleanv k1 && forallb cleanv ks1 = true -> forallb cleanv (k2' :: ks') = true)).
    { intros k2' ks' (Hk1&Hk2&Hk3&_) [Hks1 Hks2]. split; [by constructor|].
      intros [[_ Hc1]%andb_true_iff Hc2]%andb_true_iff. simpl. rewrite (Hks2 Hc2) andb_true_r.
      unfold cleanv. rewrite Hk1 Hbk2 Hk3 //. }
    wpb. iApply (var_massign_spec _ _ Hwf _ _ Hok with "[$H1 $H2]"); [apply Hm; left|done..|by apply source_clean|]. iSplit; last first.
    { iIntros (e) "[(%k' & %Hk' & H1) (%k2' & %Hk2' & H2)]". iApply "HQ". iSplitR.
      - iPureIntro. intros Hfree. destruct (Hfree tys) as [Hf1 Hf2]; [left|].
        pose proof (massign_fail_noexcept _ _ _ _ _ _ Hk') as Hne.
        rewrite /move_noexcept_constructible /move_noexcept_assignable Hf1 Hf2 in Hne. done.
      - iSplitL "H1 Hs1".
        + iExists (k' :: ks1). simpl. iFrame. iPureIntro. constructor; [|done].
          eapply massign_fail_depth; [|done..]. pose proof (depth_pos k1.2). lia.
        + iExists (k2' :: ks2). simpl. iFrame. iPureIntro. by apply Hsrc. }
    iIntros ([]) "(H1 & %k2' & %Hk2' & H2)". iApply ("IH" with "[] [] [] [] Hs1 Hs2"); [iPureIntro..|].
    { intros tys' Hin. apply Hm. by right. }
    { done. } { done. } { done. }
    iSplit.
    + iIntros ([]) "(Hs1 & %ks' & %Hks' & Hs2)". iApply "HQ". iFrame. iExists (k2' :: ks'). simpl. iFrame.
      iPureIntro. by apply Hsrc.
    + iIntros (e) "(%Hnf & (%ks' & %Hks' & Hs1) & %ks'' & %Hks'' & Hs2)". iApply "HQ". iSplitR.
      { iPureIntro. intros Hf. apply Hnf. intros tys' Hin. apply Hf. by right. }
      iSplitL "H1 Hs1".
      * iExists (k2 :: ks'). simpl. iFrame. iPureIntro. by constructor.
      * iExists (k2' :: ks''). simpl. iFrame. iPureIntro. by apply Hsrc.
Qed.

Lemma cassign_self_members_spec mems ls ks : dks ks ->
  ⊢ {{ Rmems mems ls ks }} assign_members (var_assign C S) mems ls ls
    {{ λ _, Rmems mems ls ks
     | λ _, ⌞mems <> []⌟ ∗ ∃ ks', ⌞map skelv ks' = map skelv ks⌟ ∗ Rmems mems ls ks' }} @ W.
Proof.
  iIntros (Hd Q X) "H HQ". iInduction ks as [|k1 ks] "IH" forall (mems ls Hd Q X).
  - destruct mems, ls; simpl; try iDestruct "H" as "[]". iApply wp_ret. by iApply "HQ".
  - destruct mems as [|tys mems], ls as [|l ls]; simpl; try iDestruct "H" as "[]".
    iDestruct "H" as "[H1 H]". apply Forall_cons in Hd as [Hd1 Hd].
    wpb. iApply (var_assign_self_spec _ _ Hwf _ _ Hok with "H1"); [done|]. iSplit.
    + iIntros ([]) "H1". iApply ("IH" with "[//] H"). iSplit.
      * iIntros ([]) "H". iApply "HQ". iFrame.
      * iIntros (e) "(_ & %ks' & %Hks' & H)". iApply "HQ". iSplitR; [done|]. iExists (k1 :: ks').
        simpl. iFrame. iPureIntro. by rewrite Hks'.
    + iIntros (e) "(_ & %v' & %Hv' & H1)". iApply "HQ". iSplitR; [done|].
      iExists ((k1.1.1, k1.1.2, v') :: ks). iSplitR; [iPureIntro|simpl; iFrame].
      rewrite /= {1}/skelv /= Hv' //.
Qed.

Lemma massign_self_members_spec mems ls ks : dks ks ->
  ⊢ {{ Rmems mems ls ks }} assign_members (var_massign C S) mems ls ls
    {{ λ _, ∃ ks', ⌞map skelv ks' = map skelv ks⌟ ∗ Rmems mems ls ks'
     | λ _, ⌞~ mfree mems⌟ ∗ ∃ ks', ⌞map skelv ks' = map skelv ks⌟ ∗ Rmems mems ls ks' }} @ W.
Proof.
  iIntros (Hd Q X) "H HQ". iInduction ks as [|k1 ks] "IH" forall (mems ls Hd Q X).
  - destruct mems, ls; simpl; try iDestruct "H" as "[]". iApply wp_ret. iApply "HQ". iExists []. by iFrame.
  - destruct mems as [|tys mems], ls as [|l ls]; simpl; try iDestruct "H" as "[]".
    iDestruct "H" as "[H1 H]". apply Forall_cons in Hd as [Hd1 Hd].
    wpb. iApply (var_massign_self_spec _ _ Hwf _ _ Hok with "H1"); [done|]. iSplit.
    + iIntros ([]) "(%v' & %Hv' & H1)". iApply ("IH" with "[//] H"). iSplit.
      * iIntros ([]) "(%ks' & %Hks' & H)". iApply "HQ". iExists ((k1.1.1, k1.1.2, v') :: ks').
        iSplitR; [iPureIntro|simpl; iFrame]. rewrite /= {1}/skelv /= Hv' Hks' //.
      * iIntros (e) "(%Hnf & %ks' & %Hks' & H)". iApply "HQ". iSplitR.
        { iPureIntro. intros Hf. apply Hnf. intros tys' Hin. apply Hf. by right. }
        iExists ((k1.1.1, k1.1.2, v') :: ks').
        iSplitR; [iPureIntro|simpl; iFrame]. rewrite /= {1}/skelv /= Hv' Hks' //.
    + iIntros (e) "((%t & %Ht & %Hma) & %v' & %Hv' & H1)". iApply "HQ". iSplitR.
      { iPureIntro. intros Hf. destruct (Hf tys) as [_ Hf2]; [left|].
        rewrite (forallb_lookup _ _ _ _ Hf2 Ht) in Hma. done. }
      iExists ((k1.1.1, k1.1.2, v') :: ks). iSplitR; [iPureIntro|simpl; iFrame].
      rewrite /= {1}/skelv /= Hv' //.
Qed.

(** Swapping the members cannot throw. *)
Definition sfree (mems : list (list ity)) : Prop :=
  forall tys t, tys ∈ mems -> t ∈ tys -> it_move C t = true /\ it_massign C t = true /\ ~ swap_may_throw C (ity_uid t).

Lemma swap_fail_free n tys k1 k2 ka kb mems : swap_fail C n tys k1 k2 ka kb -> ~ sfree (tys :: mems).
Proof.
  intros ((t&Hin&Ht)&_) Hf. destruct (Hf tys t) as (H1&H2&H3); [left|done|].
  rewrite H1 H2 in Ht. by destruct Ht as [?|[?|?]].
Qed.
Lemma sfree_tail tys mems : ~ sfree mems -> ~ sfree (tys :: mems).
Proof. intros Hn Hf. apply Hn. intros tys' t Hin. apply Hf. by right. Qed.

Lemma swap_clean k1 k2 : cleanv k1 = true -> cleanv k2 = true -> swap_a k1 k2 = k2 /\ swap_b k1 k2 = k1.
Proof.
  destruct k1 as [[b1 i1] v1], k2 as [[b2 i2] v2]. unfold cleanv. simpl.
  intros [->%negb_true_iff Hc1]%andb_true_iff [->%negb_true_iff Hc2]%andb_true_iff.
  unfold swap_a, swap_b, erasev. simpl. case_decide; subst; by rewrite ?(clean_erase_id _ Hc1) ?(clean_erase_id _ Hc2).
Qed.

Lemma swap_members_spec mems ls1 ls2 ks1 ks2 : mems_wf mems ->
  dks ks1 -> dks ks2 -> forallb cleanv ks1 = true -> forallb cleanv ks2 = true ->
  ⊢ {{ Rmems mems ls1 ks1 ∗ Rmems mems ls2 ks2 }} assign_members (var_swap C S) mems ls1 ls2
    {{ λ _, Rmems mems ls1 ks2 ∗ Rmems mems ls2 ks1
     | λ _, ⌞~ sfree mems⌟ ∗ (∃ ks', ⌞dks ks'⌟ ∗ Rmems mems ls1 ks') ∗ (∃ ks', ⌞dks ks'⌟ ∗ Rmems mems ls2 ks') }} @ W.
Proof.
  iIntros (Hm Hd1 Hd2 Hc1 Hc2 Q X) "[H1 H2] HQ".
  iInduction ks1 as [|k1 ks1] "IH" forall (mems ls1 ls2 ks2 Hm Hd1 Hd2 Hc1 Hc2 Q X).
  - destruct mems as [|tys mems], ls1 as [|l1 ls1]; simpl; try iDestruct "H1" as "[]".
    destruct ks2 as [|k2 ks2], ls2 as [|l2 ls2]; simpl; try iDestruct "H2" as "[]".
    iApply wp_ret. iApply "HQ". by iFrame.
  - destruct mems as [|tys mems], ls1 as [|l1 ls1]; simpl; try iDestruct "H1" as "[]".
    destruct ks2 as [|k2 ks2], ls2 as [|l2 ls2]; simpl; try iDestruct "H2" as "[]".
    apply Forall_cons in Hd1 as [Hd1 Hds1]. apply Forall_cons in Hd2 as [Hd2 Hds2].
    simpl in Hc1, Hc2. apply andb_true_iff in Hc1 as [Hc1 Hcs1]. apply andb_true_iff in Hc2 as [Hc2 Hcs2].
    iDestruct "H1" as "[H1 Hs1]". iDestruct "H2" as "[H2 Hs2]".
    destruct (swap_clean _ _ Hc1 Hc2) as [Ea Eb].
    wpb. iApply (var_swap_spec _ _ Hwf _ _ Hok with "[$H1 $H2]"); [apply Hm; left|done|done| |].
    { unfold swap_pre. pose proof Hc1 as [_ Hc1']%andb_true_iff. pose proof Hc2 as [_ Hc2']%andb_true_iff. by case_decide. }
    iSplit; last first.
    { iIntros (e) "(%ka & %kb & %Hf & H1 & H2)". iApply "HQ". iSplitR.
      - iPureIntro. by eapply swap_fail_free.
      - destruct Hf as (_&Hda&Hdb&_). iSplitL "H1 Hs1".
        + iExists (ka :: ks1). simpl. iFrame. iPureIntro. by constructor.
        + iExists (kb :: ks2). simpl. iFrame. iPureIntro. by constructor. }
    iIntros ([]) "[H1 H2]". rewrite Ea Eb. iApply ("IH" with "[] [] [] [] [] Hs1 Hs2"); [iPureIntro..|].
    { intros tys' Hin. apply Hm. by right. }
    { done. } { done. } { done. } { done. }
    iSplit.
    + iIntros ([]) "[Hs1 Hs2]". iApply "HQ". iFrame.
    + iIntros (e) "(%Hnf & (%ks' & %Hks' & Hs1) & %ks'' & %Hks'' & Hs2)". iApply "HQ". iSplitR.
      { iPureIntro. by apply sfree_tail. }
      iSplitL "H1 Hs1".
      * iExists (k2 :: ks'). simpl. iFrame. iPureIntro. by constructor.
      * iExists (k1 :: ks''). simpl. iFrame. iPureIntro. by constructor.
Qed.

Definition selves (ks ks' : list vval) : Prop := Forall2 (λ k k', k'.1 = k.1 /\ self_swapped k.2 k'.2) ks ks'.
Lemma selves_swapped z ks ks' : selves ks ks' -> self_swapped (UV z ks) (UV z ks').
Proof.
  intros H. split.
  - rewrite !erase_UV. f_equal. induction H as [|k1 k2 ks ks' [H1 [H2 _]] _ IH]; [done|].
    rewrite /= IH. f_equal. unfold erasev. by rewrite H1 H2.
  - rewrite clean_UV. intros Hc. f_equal. induction H as [|k1 k2 ks ks' [H1 [_ H2]] _ IH]; [done|].
    simpl in Hc. apply andb_true_iff in Hc as [[_ Hc1]%andb_true_iff Hc2].
    rewrite (IH Hc2). f_equal. destruct k1 as [p1 v1], k2 as [p2 v2]. simpl in *. by rewrite H1 (H2 Hc1).
Qed.

Lemma swap_self_members_spec mems ls ks : dks ks ->
  ⊢ {{ Rmems mems ls ks }} assign_members (var_swap C S) mems ls ls
    {{ λ _, ∃ ks', ⌞selves ks ks'⌟ ∗ Rmems mems ls ks'
     | λ _, ⌞~ sfree mems⌟ ∗ ∃ ks', ⌞dks ks'⌟ ∗ Rmems mems ls ks' }} @ W.
Proof.
  iIntros (Hd Q X) "H HQ". iInduction ks as [|k1 ks] "IH" forall (mems ls Hd Q X).
  - destruct mems, ls; simpl; try iDestruct "H" as "[]". iApply wp_ret. iApply "HQ". iExists []. iFrame. iPureIntro. constructor.
  - destruct mems as [|tys mems], ls as [|l ls]; simpl; try iDestruct "H" as "[]".
    iDestruct "H" as "[H1 H]". apply Forall_cons in Hd as [Hd1 Hd].
    wpb. iApply (var_swap_self_spec _ _ Hwf _ _ Hok with "H1"); [done|]. iSplit.
    + iIntros ([]) "(%v' & %Hv' & H1)". iApply ("IH" with "[//] H"). iSplit.
      * iIntros ([]) "(%ks' & %Hks' & H)". iApply "HQ". iExists ((k1.1, v') :: ks'). simpl. iFrame. iPureIntro. by constructor.
      * iIntros (e) "(%Hnf & %ks' & %Hks' & H)". iApply "HQ". iSplitR; [iPureIntro; by apply sfree_tail|].
        iExists ((k1.1, v') :: ks'). simpl. iFrame. iPureIntro. constructor; [|done].
        simpl. by rewrite (self_swapped_depth _ _ Hv').
    + iIntros (e) "(%ka & %Hka & H1)". destruct Hka as ((t&Ht&Hm)&_&Hda). iApply "HQ". iSplitR.
      { iPureIntro. intros Hf. destruct (Hf tys t) as (_&_&H3); [left|by eapply elem_of_list_lookup_2|done]. }
      iExists (ka :: ks). simpl. iFrame. iPureIntro. by constructor.
Qed.

Lemma read_members_spec mems ls ks : dks ks ->
  ⊢ {{ Rmems mems ls ks }} read_members C S mems ls {{ λ r, ⌞r = ks⌟ ∗ Rmems mems ls ks | λ _, False }} @ W.
Proof.
  iIntros (Hd Q X) "H HQ". iInduction ks as [|k1 ks] "IH" forall (mems ls Hd Q X).
  - destruct mems, ls; simpl; try iDestruct "H" as "[]". iApply wp_ret. iApply "HQ". by iFrame.
  - destruct mems as [|tys mems], ls as [|l ls]; simpl; try iDestruct "H" as "[]".
    iDestruct "H" as "[H1 H]". apply Forall_cons in Hd as [Hd1 Hd].
    wpb. iApply (read_which_Rvar with "H1"). iIntros "H1".
    wpb. iApply (var_read_spec with "H1"); [done|]. iSplit; [|by iIntros (e) "[]"].
    iIntros (uv) "[%Huv H1]". destruct Huv as (t&Ht&->). simpl.
    wpb. iApply ("IH" with "[//] H"). iSplit; [|by iIntros (e) "[]"].
    iIntros (r) "[-> H]". iApply wp_ret. iApply "HQ". iFrame. iPureIntro.
    rewrite which_of_wz Nat2Z.id. f_equal. destruct k1 as [[[] i] v]; simpl; f_equal; f_equal;
      [apply bool_decide_eq_true|apply bool_decide_eq_false]; lia.
Qed.

(** ** Operations of user types *)

(** A user object's own cell. *)
Lemma tobj_unfold l kl wl u z ks :
  tobj l kl wl u (UV z ks) ⊣⊢
  ∃ ls, ⌞strict W = true -> z <> None⌟ ∗ l ↦ Cell kl (Some (OUser u z ls)) wl ∗ Rmems (ut_members (te C u)) ls ks.
Proof.
  unfold Rep.tobj. iSplit.
  - iIntros "(%o & Hl & HR)". rewrite R_unfold. iDestruct "HR" as (ls) "(-> & %Hz & H)". iExists ls. by iFrame.
  - iIntros "(%ls & %Hz & Hl & H)". iExists _. iFrame "Hl". rewrite R_unfold. iExists ls. by iFrame.
Qed.

Lemma expect_user_wp u l kl wl z ls Q X :
  l ↦ Cell kl (Some (OUser u z ls)) wl ∗ (l ↦ Cell kl (Some (OUser u z ls)) wl -∗ Q (z, ls))
  ⊢ wp (expect_user u l) Q X.
Proof.
  iIntros "[Hl HQ]". unfold expect_user. wpb. iApply wp_get_obj. iFrame "Hl". iIntros "Hl".
  rewrite decide_True //. iApply wp_ret. by iApply "HQ".
Qed.

Lemma scramble_wp u l kl wl z ls Q X :
  l ↦ Cell kl (Some (OUser u z ls)) wl -∗
  (∀ j, l ↦ Cell kl (Some (OUser u (Some j) ls)) wl -∗ Q tt) -∗
  wp (scramble u l) Q X.
Proof.
  iIntros "Hl HQ". unfold scramble. wpb. iApply expect_user_wp. iFrame "Hl". iIntros "Hl".
  wpb. iApply wp_choose. iIntros (j). iApply (wp_modify_obj _ l kl wl (OUser u z ls)); [done|].
  iFrame "Hl". iIntros "Hl". by iApply "HQ".
Qed.

Ltac ttobj := iApply tobj_unfold; iExists _; iFrame; try done.

Lemma u_copy_ok u d kd wd s ks ws v : depth v <= Datatypes.S k ->
  ⊢ {{ traw d kd wd ∗ tobj s ks ws u v }} u_copy C S u d s
    {{ λ _, tobj d kd wd u (erase v) ∗ tobj s ks ws u v
     | λ _, ⌞nt_copy (te C u) = false⌟ ∗ traw d kd wd ∗ tobj s ks ws u v }} @ W.
Proof.
  iIntros (Hd Q X) "[Hd Hs] HQ". destruct v as [z vs]. rewrite depth_UV in Hd.
  iDestruct (tobj_unfold with "Hs") as (ls) "(%Hz & Hs & Hm)". unfold u_copy.
  wpb. iApply expect_user_wp. iFrame "Hs". iIntros "Hs".
  wpb. iApply wp_maybe_throw. iSplit; last first.
  { iIntros (e) "%Hnt". iApply "HQ". iSplitR; [done|]. iFrame "Hd". ttobj. }
  wpb. iApply wp_note_read. iSplitR; [done|].
  wpb. iApply (make_copy_spec with "Hm"); [done|]. iSplit; last first.
  { iIntros (e) "[%Hne Hm]". iApply "HQ". iSplitR.
    - iPureIntro. destruct (nt_copy (te C u)) eqn:E; [|done]. by apply (we_copy _ _ Hwf) in E.
    - iFrame "Hd". ttobj. }
  iIntros (ls') "[Hm' Hm]". iApply wp_construct. iFrame "Hd". iIntros "Hd". iApply "HQ".
  rewrite erase_UV. iSplitL "Hd Hm'"; ttobj.
Qed.

Lemma skel_z z z' ks ks' : map skelv ks' = map skelv ks -> skel (UV z' ks') = skel (UV z ks).
Proof. intros H. rewrite !skel_UV H //. Qed.

Lemma u_move_ok u d kd wd s ks ws v : depth v <= Datatypes.S k ->
  ⊢ {{ traw d kd wd ∗ tobj s ks ws u v }} u_move C S u d s
    {{ λ _, tobj d kd wd u (erase v) ∗ ∃ v', ⌞skel v' = skel v⌟ ∗ tobj s ks ws u v'
     | λ _, ⌞nt_move (te C u) = false⌟ ∗ traw d kd wd ∗ ∃ v', ⌞skel v' = skel v⌟ ∗ tobj s ks ws u v' }} @ W.
Proof.
  iIntros (Hd Q X) "[Hd Hs] HQ". destruct v as [z vs]. rewrite depth_UV in Hd.
  iDestruct (tobj_unfold with "Hs") as (ls) "(%Hz & Hs & Hm)". unfold u_move.
  wpb. iApply expect_user_wp. iFrame "Hs". iIntros "Hs".
  wpb. iApply wp_on_exn. iApply wp_maybe_throw. iSplit; last first.
  { iIntros (e) "%Hnt". iApply (scramble_wp with "Hs"). iIntros (j) "Hs". iApply "HQ". iSplitR; [done|].
    iFrame "Hd". iExists (UV (Some j) vs). iSplitR; [done|]. ttobj. }
  wpb. iApply wp_note_read. iSplitR; [done|].
  wpb. iApply wp_on_exn. iApply (make_move_spec with "Hm"); [done|]. iSplit; last first.
  { iIntros (e) "(%Hne & %vs' & %Hvs' & Hm)". iApply (scramble_wp with "Hs"). iIntros (j) "Hs".
    iApply "HQ". iSplitR.
    - iPureIntro. destruct (nt_move (te C u)) eqn:E; [|done]. destruct Hne as (tys&Hin&Hf).
      rewrite (we_move _ _ Hwf _ _ E Hin) in Hf. done.
    - iFrame "Hd". iExists (UV (Some j) vs'). iSplitR; [by iPureIntro; apply skel_z|]. ttobj. }
  iIntros (ls') "(Hm' & %vs' & %Hvs' & Hm)". wpb. iApply (scramble_wp with "Hs"). iIntros (j) "Hs".
  iApply wp_construct. iFrame "Hd". iIntros "Hd". iApply "HQ".
  rewrite erase_UV. iSplitL "Hd Hm'"; [ttobj|].
  iExists (UV (Some j) vs'). iSplitR; [by iPureIntro; apply skel_z|]. ttobj.
Qed.

Lemma u_cassign_ok u l kl wl r kr wr v1 v2 :
  depth v1 <= Datatypes.S k -> depth v2 <= Datatypes.S k -> clean v2 = true ->
  ⊢ {{ tobj l kl wl u v1 ∗ tobj r kr wr u v2 }} u_cassign C S u l r
    {{ λ _, tobj l kl wl u v2 ∗ tobj r kr wr u v2
     | λ _, ⌞nt_cassign (te C u) = false⌟ ∗ (∃ v', ⌞depth v' <= Datatypes.S k⌟ ∗ tobj l kl wl u v') ∗ tobj r kr wr u v2 }} @ W.
Proof.
  iIntros (Hd1 Hd2 Hc Q X) "[Hl Hr] HQ". destruct v1 as [z1 ks1], v2 as [z2 ks2].
  rewrite depth_UV in Hd1. rewrite depth_UV in Hd2. rewrite clean_UV in Hc.
  iDestruct (tobj_unfold with "Hl") as (ls1) "(%Hz1 & Hl & Hm1)".
  iDestruct (tobj_unfold with "Hr") as (ls2) "(%Hz2 & Hr & Hm2)". unfold u_cassign.
  wpb. iApply expect_user_wp. iFrame "Hl". iIntros "Hl".
  wpb. iApply expect_user_wp. iFrame "Hr". iIntros "Hr".
  wpb. iApply wp_on_exn. iApply wp_maybe_throw. iSplit; last first.
  { iIntros (e) "%Hnt". iApply (scramble_wp with "Hl"). iIntros (j) "Hl". iApply "HQ". iSplitR; [done|].
    iSplitL "Hl Hm1"; [|ttobj]. iExists (UV (Some j) ks1). rewrite depth_UV. iSplitR; [done|]. ttobj. }
  wpb. iApply wp_note_read. iSplitR; [done|].
  wpb. iApply (wp_modify_obj _ l kl wl (OUser u z1 ls1)); [done|]. iFrame "Hl". iIntros "Hl".
  iApply (cassign_members_spec with "[$Hm1 $Hm2]"); [|done..|].
  { intros tys Hin. by eapply (we_mems _ _ Hwf). }
  iSplit.
  - iIntros ([]) "[Hm1 Hm2]". iApply "HQ". iSplitL "Hl Hm1"; ttobj.
  - iIntros (e) "(%Hne & (%ks' & %Hks' & Hm1) & Hm2)". iApply "HQ". iSplitR.
    { iPureIntro. destruct (nt_cassign (te C u)) eqn:E; [|done]. by apply (we_cassign _ _ Hwf) in E. }
    iSplitL "Hl Hm1"; [|ttobj]. iExists (UV z2 ks'). rewrite depth_UV. iSplitR; [done|]. ttobj.
Qed.

Lemma u_massign_ok u l kl wl r kr wr v1 v2 :
  depth v1 <= Datatypes.S k -> depth v2 <= Datatypes.S k -> clean v2 = true ->
  ⊢ {{ tobj l kl wl u v1 ∗ tobj r kr wr u v2 }} u_massign C S u l r
    {{ λ _, tobj l kl wl u v2 ∗ ∃ v', ⌞depth v' <= Datatypes.S k /\ (clean v1 = true -> clean v' = true)⌟ ∗ tobj r kr wr u v'
     | λ _, ⌞nt_massign (te C u) = false⌟ ∗ (∃ v', ⌞depth v' <= Datatypes.S k⌟ ∗ tobj l kl wl u v') ∗
            ∃ v', ⌞depth v' <= Datatypes.S k /\ (clean v1 = true -> clean v' = true)⌟ ∗ tobj r kr wr u v' }} @ W.
Proof.
  iIntros (Hd1 Hd2 Hc Q X) "[Hl Hr] HQ". destruct v1 as [z1 ks1], v2 as [z2 ks2].
  rewrite depth_UV in Hd1. rewrite depth_UV in Hd2. rewrite clean_UV in Hc.
  iDestruct (tobj_unfold with "Hl") as (ls1) "(%Hz1 & Hl & Hm1)".
  iDestruct (tobj_unfold with "Hr") as (ls2) "(%Hz2 & Hr & Hm2)". unfold u_massign.
  wpb. iApply expect_user_wp. iFrame "Hl". iIntros "Hl".
  wpb. iApply expect_user_wp. iFrame "Hr". iIntros "Hr".
  wpb. iApply wp_on_exn. iApply wp_maybe_throw. iSplit; last first.
  { iIntros (e) "%Hnt". wpb. iApply (scramble_wp with "Hl"). iIntros (j) "Hl".
    iApply (scramble_wp with "Hr"). iIntros (j') "Hr". iApply "HQ". iSplitR; [done|].
    iSplitL "Hl Hm1".
    - iExists (UV (Some j) ks1). rewrite depth_UV. iSplitR; [done|]. ttobj.
    - iExists (UV (Some j') ks2). rewrite depth_UV clean_UV. iSplitR; [done|]. ttobj. }
  wpb. iApply wp_note_read. iSplitR; [done|].
  wpb. iApply (wp_modify_obj _ l kl wl (OUser u z1 ls1)); [done|]. iFrame "Hl". iIntros "Hl".
  wpb. iApply (scramble_wp with "Hr"). iIntros (j) "Hr".
  iApply (massign_members_spec with "[$Hm1 $Hm2]"); [|done..|].
  { intros tys Hin. by eapply (we_mems _ _ Hwf). }
  iSplit.
  - iIntros ([]) "(Hm1 & %ks' & [%Hks1' %Hks2'] & Hm2)". iApply "HQ". iSplitL "Hl Hm1"; [ttobj|].
    iExists (UV (Some j) ks'). rewrite depth_UV !clean_UV. iSplitR; [done|]. ttobj.
  - iIntros (e) "(%Hne & (%ks' & %Hks' & Hm1) & %ks'' & [%Hks1'' %Hks2''] & Hm2)". iApply "HQ". iSplitR.
    { iPureIntro. destruct (nt_massign (te C u)) eqn:E; [|done]. destruct Hne. intros tys Hin.
      by apply (we_massign _ _ Hwf _ _ E). }
    iSplitL "Hl Hm1".
    + iExists (UV z2 ks'). rewrite depth_UV. iSplitR; [done|]. ttobj.
    + iExists (UV (Some j) ks''). rewrite depth_UV !clean_UV. iSplitR; [done|]. ttobj.
Qed.

Lemma u_cassign_self_ok u l kl wl v : depth v <= Datatypes.S k ->
  ⊢ {{ tobj l kl wl u v }} u_cassign C S u l l
    {{ λ _, tobj l kl wl u v
     | λ _, ⌞nt_cassign (te C u) = false⌟ ∗ ∃ v', ⌞skel v' = skel v⌟ ∗ tobj l kl wl u v' }} @ W.
Proof.
  iIntros (Hd Q X) "Hl HQ". destruct v as [z ks]. rewrite depth_UV in Hd.
  iDestruct (tobj_unfold with "Hl") as (ls) "(%Hz & Hl & Hm)". unfold u_cassign.
  wpb. iApply expect_user_wp. iFrame "Hl". iIntros "Hl".
  wpb. iApply expect_user_wp. iFrame "Hl". iIntros "Hl".
  wpb. iApply wp_on_exn. iApply wp_maybe_throw. iSplit; last first.
  { iIntros (e) "%Hnt". iApply (scramble_wp with "Hl"). iIntros (j) "Hl". iApply "HQ". iSplitR; [done|].
    iExists (UV (Some j) ks). iSplitR; [done|]. ttobj. }
  wpb. iApply wp_note_read. iSplitR; [done|].
  wpb. iApply (wp_modify_obj _ l kl wl (OUser u z ls)); [done|]. iFrame "Hl". iIntros "Hl".
  iApply (cassign_self_members_spec with "Hm"); [done..|]. iSplit.
  - iIntros ([]) "Hm". iApply "HQ". ttobj.
  - iIntros (e) "(%Hne & %ks' & %Hks' & Hm)". iApply "HQ". iSplitR.
    { iPureIntro. destruct (nt_cassign (te C u)) eqn:E; [|done]. by apply (we_cassign _ _ Hwf) in E. }
    iExists (UV z ks'). iSplitR; [by iPureIntro; apply skel_z|]. ttobj.
Qed.

Lemma u_massign_self_ok u l kl wl v : depth v <= Datatypes.S k ->
  ⊢ {{ tobj l kl wl u v }} u_massign C S u l l
    {{ λ _, ∃ v', ⌞skel v' = skel v⌟ ∗ tobj l kl wl u v'
     | λ _, ⌞nt_massign (te C u) = false⌟ ∗ ∃ v', ⌞skel v' = skel v⌟ ∗ tobj l kl wl u v' }} @ W.
Proof.
  iIntros (Hd Q X) "Hl HQ". destruct v as [z ks]. rewrite depth_UV in Hd.
  iDestruct (tobj_unfold with "Hl") as (ls) "(%Hz & Hl & Hm)". unfold u_massign.
  wpb. iApply expect_user_wp. iFrame "Hl". iIntros "Hl".
  wpb. iApply expect_user_wp. iFrame "Hl". iIntros "Hl".
  wpb. iApply wp_on_exn. iApply wp_maybe_throw. iSplit; last first.
  { iIntros (e) "%Hnt". wpb. iApply (scramble_wp with "Hl"). iIntros (j) "Hl".
    iApply (scramble_wp with "Hl"). iIntros (j') "Hl". iApply "HQ". iSplitR; [done|].
    iExists (UV (Some j') ks). iSplitR; [done|]. ttobj. }
  wpb. iApply wp_note_read. iSplitR; [done|].
  wpb. iApply (wp_modify_obj _ l kl wl (OUser u z ls)); [done|]. iFrame "Hl". iIntros "Hl".
  wpb. iApply (scramble_wp with "Hl"). iIntros (j) "Hl".
  iApply (massign_self_members_spec with "Hm"); [done..|]. iSplit.
  - iIntros ([]) "(%ks' & %Hks' & Hm)". iApply "HQ".
    iExists (UV (Some j) ks'). iSplitR; [by iPureIntro; apply skel_z|]. ttobj.
  - iIntros (e) "(%Hne & %ks' & %Hks' & Hm)". iApply "HQ". iSplitR.
    { iPureIntro. destruct (nt_massign (te C u)) eqn:E; [|done]. destruct Hne. intros tys Hin.
      by apply (we_massign _ _ Hwf _ _ E). }
    iExists (UV (Some j) ks'). iSplitR; [by iPureIntro; apply skel_z|]. ttobj.
Qed.

Lemma u_destroy_ok u l kl wl v : depth v <= Datatypes.S k ->
  ⊢ {{ tobj l kl wl u v }} u_destroy C S u l {{ λ _, traw l kl wl | λ _, False }} @ W.
Proof.
  iIntros (Hd Q X) "Hl HQ". destruct v as [z ks]. rewrite depth_UV in Hd.
  iDestruct (tobj_unfold with "Hl") as (ls) "(%Hz & Hl & Hm)". unfold u_destroy.
  wpb. iApply expect_user_wp. iFrame "Hl". iIntros "Hl".
  wpb. iApply (destroy_members_spec with "Hm"); [done|]. iSplit; [|by iIntros (e) "[]"]. iIntros ([]) "_".
  iApply wp_destruct_obj. iFrame "Hl". iIntros "Hl". by iApply "HQ".
Qed.

Lemma std_swap_ok u l kl wl r kr wr v1 v2 : ut_swap (te C u) = None ->
  depth v1 <= Datatypes.S k -> depth v2 <= Datatypes.S k -> clean v2 = true ->
  ⊢ {{ tobj l kl wl u v1 ∗ tobj r kr wr u v2 }} std_swap (u_move C S u) (u_massign C S u) (u_destroy C S u) l r
    {{ λ _, tobj l kl wl u v2 ∗ tobj r kr wr u (erase v1)
     | λ _, ⌞swap_may_throw C u⌟ ∗ (∃ v', ⌞depth v' <= Datatypes.S k⌟ ∗ tobj l kl wl u v') ∗
            (∃ v', ⌞depth v' <= Datatypes.S k⌟ ∗ tobj r kr wr u v') }} @ W.
Proof.
  iIntros (Hno Hd1 Hd2 Hc Q X) "[Hl Hr] HQ". unfold std_swap, swap_may_throw. rewrite Hno. iApply scoped_wp. iApply stack_obj_wp.
  iIntros (x) "Hx". iApply (u_move_ok with "[$Hx $Hl]"); [done|]. iSplit; last first.
  { iIntros (e) "(%Hnt & $ & %v' & %Hv' & Hl)". iApply "HQ". iSplitR; [by eauto|]. iSplitL "Hl".
    - iExists v'. iFrame "Hl". by rewrite (skel_depth _ _ Hv').
    - iExists v2. by iFrame. }
  iIntros ([]) "(Hx & %v1' & %Hv1' & Hl)". pose proof (skel_depth _ _ Hv1') as Hd1'.
  assert (Hdx : depth (erase v1) <= Datatypes.S k) by by rewrite depth_erase.
  wpb. iApply (u_massign_ok with "[$Hl $Hr]"); [by rewrite Hd1'|done..|]. iSplit; last first.
  { iIntros (e) "(%Hnt & (%v' & %Hv' & Hl) & %v'' & [%Hv'' _] & Hr)".
    iApply (u_destroy_ok with "Hx"); [done|]. iSplit; [|by iIntros (e') "[]"].
    iIntros ([]) "Hx". iExists KStk, _. iSplitR; [done|]. iFrame "Hx". iApply "HQ". iSplitR; [by eauto|].
    iSplitL "Hl"; iExists _; by iFrame. }
  iIntros ([]) "(Hl & %v'' & [%Hv'' _] & Hr)".
  iApply (u_massign_ok with "[$Hr $Hx]"); [done..|apply clean_erase|]. iSplit.
  - iIntros ([]) "(Hr & %vx & [%Hvx _] & Hx)".
    iApply (u_destroy_ok with "Hx"); [done|]. iSplit; [|by iIntros (e') "[]"].
    iIntros ([]) "Hx". iExists KStk, _. iSplitR; [done|]. iFrame "Hx". iApply "HQ". iFrame.
  - iIntros (e) "(%Hnt & (%v' & %Hv' & Hr) & %vx & [%Hvx _] & Hx)".
    iApply (u_destroy_ok with "Hx"); [done|]. iSplit; [|by iIntros (e') "[]"].
    iIntros ([]) "Hx". iExists KStk, _. iSplitR; [done|]. iFrame "Hx". iApply "HQ". iSplitR; [by eauto|].
    iSplitL "Hl"; iExists _; by iFrame.
Qed.

Lemma std_swap_self_ok u l kl wl v : ut_swap (te C u) = None -> depth v <= Datatypes.S k ->
  ⊢ {{ tobj l kl wl u v }} std_swap (u_move C S u) (u_massign C S u) (u_destroy C S u) l l
    {{ λ _, tobj l kl wl u (erase v)
     | λ _, ⌞swap_may_throw C u⌟ ∗ (∃ v', ⌞depth v' <= Datatypes.S k⌟ ∗ tobj l kl wl u v') }} @ W.
Proof.
  iIntros (Hno Hd1 Q X) "Hl HQ". unfold std_swap, swap_may_throw. rewrite Hno. iApply scoped_wp. iApply stack_obj_wp.
  iIntros (x) "Hx". iApply (u_move_ok with "[$Hx $Hl]"); [done|]. iSplit; last first.
  { iIntros (e) "(%Hnt & $ & %v' & %Hv' & Hl)". iApply "HQ". iSplitR; [by eauto|].
    iExists v'. iFrame "Hl". by rewrite (skel_depth _ _ Hv'). }
  iIntros ([]) "(Hx & %v1' & %Hv1' & Hl)". pose proof (skel_depth _ _ Hv1') as Hd1'.
  assert (Hdx : depth (erase v) <= Datatypes.S k) by by rewrite depth_erase.
  wpb. iApply (u_massign_self_ok with "Hl"); [by rewrite Hd1'|]. iSplit; last first.
  { iIntros (e) "(%Hnt & (%v' & %Hv' & Hl))".
    iApply (u_destroy_ok with "Hx"); [done|]. iSplit; [|by iIntros (e') "[]"].
    iIntros ([]) "Hx". iExists KStk, _. iSplitR; [done|]. iFrame "Hx". iApply "HQ". iSplitR; [by eauto|].
    iExists _; iFrame. by rewrite (skel_depth _ _ Hv') Hd1'. }
  iIntros ([]) "(%v'' & %Hv'' & Hl)".
  iApply (u_massign_ok with "[$Hl $Hx]"); [by rewrite (skel_depth _ _ Hv'') Hd1'|done|apply clean_erase|]. iSplit.
  - iIntros ([]) "(Hr & %vx & [%Hvx _] & Hx)".
    iApply (u_destroy_ok with "Hx"); [done|]. iSplit; [|by iIntros (e') "[]"].
    iIntros ([]) "Hx". iExists KStk, _. iSplitR; [done|]. iFrame "Hx". iApply "HQ". iFrame.
  - iIntros (e) "(%Hnt & (%v' & %Hv' & Hr) & %vx & [%Hvx _] & Hx)".
    iApply (u_destroy_ok with "Hx"); [done|]. iSplit; [|by iIntros (e') "[]"].
    iIntros ([]) "Hx". iExists KStk, _. iSplitR; [done|]. iFrame "Hx". iApply "HQ". iSplitR; [by eauto|].
    iExists _; by iFrame.
Qed.

Lemma own_swap_ok b u l kl wl r kr wr v1 v2 : ut_swap (te C u) = Some b ->
  depth v1 <= Datatypes.S k -> depth v2 <= Datatypes.S k -> clean v1 = true -> clean v2 = true ->
  ⊢ {{ tobj l kl wl u v1 ∗ tobj r kr wr u v2 }} own_swap C S b u l r
    {{ λ _, tobj l kl wl u v2 ∗ tobj r kr wr u v1
     | λ _, ⌞b = false⌟ ∗ (∃ v', ⌞depth v' <= Datatypes.S k⌟ ∗ tobj l kl wl u v') ∗
            (∃ v', ⌞depth v' <= Datatypes.S k⌟ ∗ tobj r kr wr u v') }} @ W.
Proof.
  iIntros (Hb Hd1 Hd2 Hc1 Hc2 Q X) "[Hl Hr] HQ". destruct v1 as [z1 ks1], v2 as [z2 ks2].
  rewrite depth_UV in Hd1. rewrite depth_UV in Hd2. rewrite clean_UV in Hc1. rewrite clean_UV in Hc2.
  iDestruct (tobj_unfold with "Hl") as (ls1) "(%Hz1 & Hl & Hm1)".
  iDestruct (tobj_unfold with "Hr") as (ls2) "(%Hz2 & Hr & Hm2)". unfold own_swap.
  wpb. iApply expect_user_wp. iFrame "Hl". iIntros "Hl".
  wpb. iApply expect_user_wp. iFrame "Hr". iIntros "Hr".
  wpb. iApply wp_on_exn. iApply wp_maybe_throw. iSplit; last first.
  { iIntros (e) "%Hnt". wpb. iApply (scramble_wp with "Hl"). iIntros (j) "Hl".
    iApply (scramble_wp with "Hr"). iIntros (j') "Hr". iApply "HQ". iSplitR; [done|].
    iSplitL "Hl Hm1".
    - iExists (UV (Some j) ks1). rewrite depth_UV. iSplitR; [done|]. ttobj.
    - iExists (UV (Some j') ks2). rewrite depth_UV. iSplitR; [done|]. ttobj. }
  wpb. iApply wp_note_read. iSplitR; [done|]. wpb. iApply wp_note_read. iSplitR; [done|].
  wpb. iApply (wp_modify_obj _ l kl wl (OUser u z1 ls1)); [done|]. iFrame "Hl". iIntros "Hl".
  wpb. iApply (wp_modify_obj _ r kr wr (OUser u z2 ls2)); [done|]. iFrame "Hr". iIntros "Hr".
  iApply (swap_members_spec with "[$Hm1 $Hm2]"); [|done..|].
  { intros tys Hin. by eapply (we_mems _ _ Hwf). }
  iSplit.
  - iIntros ([]) "(Hm1 & Hm2)". iApply "HQ". iSplitL "Hl Hm1"; ttobj.
  - iIntros (e) "(%Hne & (%ks' & %Hks' & Hm1) & %ks'' & %Hks'' & Hm2)". iApply "HQ". iSplitR.
    { iPureIntro. destruct b; [|done]. destruct Hne. intros tys t Hin. by apply (we_swap _ _ Hwf u). }
    iSplitL "Hl Hm1".
    + iExists (UV z2 ks'). rewrite depth_UV. iSplitR; [done|]. ttobj.
    + iExists (UV z1 ks''). rewrite depth_UV. iSplitR; [done|]. ttobj.
Qed.

Lemma own_swap_self_ok b u l kl wl v : ut_swap (te C u) = Some b -> depth v <= Datatypes.S k ->
  ⊢ {{ tobj l kl wl u v }} own_swap C S b u l l
    {{ λ _, ∃ v', ⌞self_swapped v v'⌟ ∗ tobj l kl wl u v'
     | λ _, ⌞b = false⌟ ∗ ∃ v', ⌞depth v' <= Datatypes.S k⌟ ∗ tobj l kl wl u v' }} @ W.
Proof.
  iIntros (Hb Hd Q X) "Hl HQ". destruct v as [z ks]. rewrite depth_UV in Hd.
  iDestruct (tobj_unfold with "Hl") as (ls) "(%Hz & Hl & Hm)". unfold own_swap.
  wpb. iApply expect_user_wp. iFrame "Hl". iIntros "Hl".
  wpb. iApply expect_user_wp. iFrame "Hl". iIntros "Hl".
  wpb. iApply wp_on_exn. iApply wp_maybe_throw. iSplit; last first.
  { iIntros (e) "%Hnt". wpb. iApply (scramble_wp with "Hl"). iIntros (j) "Hl".
    iApply (scramble_wp with "Hl"). iIntros (j') "Hl". iApply "HQ". iSplitR; [done|].
    iExists (UV (Some j') ks). rewrite depth_UV. iSplitR; [done|]. ttobj. }
  wpb. iApply wp_note_read. iSplitR; [done|]. wpb. iApply wp_note_read. iSplitR; [done|].
  wpb. iApply (wp_modify_obj _ l kl wl (OUser u z ls)); [done|]. iFrame "Hl". iIntros "Hl".
  wpb. iApply (wp_modify_obj _ l kl wl (OUser u z ls)); [done|]. iFrame "Hl". iIntros "Hl".
  iApply (swap_self_members_spec with "Hm"); [done..|]. iSplit.
  - iIntros ([]) "(%ks' & %Hks' & Hm)". iApply "HQ". iExists (UV z ks'). iSplitR; [iPureIntro; by apply selves_swapped|]. ttobj.
  - iIntros (e) "(%Hne & %ks' & %Hks' & Hm)". iApply "HQ". iSplitR.
    { iPureIntro. destruct b; [|done]. destruct Hne. intros tys t Hin. by apply (we_swap _ _ Hwf u). }
    iExists (UV z ks'). rewrite depth_UV. iSplitR; [done|]. ttobj.
Qed.

Lemma u_swap_ok u l kl wl r kr wr v1 v2 : depth v1 <= Datatypes.S k -> depth v2 <= Datatypes.S k -> clean v2 = true ->
  (is_Some (ut_swap (te C u)) -> clean v1 = true) ->
  ⊢ {{ tobj l kl wl u v1 ∗ tobj r kr wr u v2 }} u_swap C S u l r
    {{ λ _, tobj l kl wl u v2 ∗ tobj r kr wr u (erase v1)
     | λ _, ⌞swap_may_throw C u⌟ ∗ (∃ v', ⌞depth v' <= Datatypes.S k⌟ ∗ tobj l kl wl u v') ∗
            (∃ v', ⌞depth v' <= Datatypes.S k⌟ ∗ tobj r kr wr u v') }} @ W.
Proof.
  intros Hd1 Hd2 Hc2 Hc1. unfold u_swap. destruct (ut_swap (te C u)) as [b|] eqn:E; [|by apply std_swap_ok].
  unfold swap_may_throw. rewrite E. rewrite (clean_erase_id v1); [|by apply Hc1]. by apply own_swap_ok; [done..|apply Hc1|].
Qed.

Lemma u_swap_self_ok u l kl wl v : depth v <= Datatypes.S k ->
  ⊢ {{ tobj l kl wl u v }} u_swap C S u l l
    {{ λ _, ∃ v', ⌞self_swapped v v'⌟ ∗ tobj l kl wl u v'
     | λ _, ⌞swap_may_throw C u⌟ ∗ ∃ v', ⌞depth v' <= Datatypes.S k⌟ ∗ tobj l kl wl u v' }} @ W.
Proof.
  intros Hd. unfold u_swap. destruct (ut_swap (te C u)) as [b|] eqn:E.
  - unfold swap_may_throw. rewrite E. by apply own_swap_self_ok.
  - iIntros (Q X) "Hl HQ". iApply (std_swap_self_ok with "Hl"); [done..|]. iSplit.
    + iIntros ([]) "Hl". iApply "HQ". iExists (erase v). iFrame. iPureIntro. split; [apply erase_erase|apply clean_erase_id].
    + iIntros (e) "H". by iApply "HQ".
Qed.

Lemma u_read_ok u l kl wl v : depth v <= Datatypes.S k ->
  ⊢ {{ tobj l kl wl u v }} u_read C S u l {{ λ v', ⌞v' = v⌟ ∗ tobj l kl wl u v | λ _, False }} @ W.
Proof.
  iIntros (Hd Q X) "Hl HQ". destruct v as [z ks]. rewrite depth_UV in Hd.
  iDestruct (tobj_unfold with "Hl") as (ls) "(%Hz & Hl & Hm)". unfold u_read.
  wpb. iApply expect_user_wp. iFrame "Hl". iIntros "Hl".
  wpb. iApply wp_note_read. iSplitR; [done|].
  wpb. iApply (read_members_spec with "Hm"); [done|]. iSplit; [|by iIntros (e) "[]"]. iIntros (r) "[-> Hm]".
  iApply wp_ret. iApply "HQ". iSplitR; [done|]. ttobj.
Qed.

Lemma defval_S n b u :
  defval C (Datatypes.S n) b u =
  match mapM (defmem n) (ut_members (te C u)) with
  | Some ks => Some (UV (if b then match ut_init (te C u) with DITriv => None | _ => Some (dv C u) end
                         else Some (dv C u)) ks)
  | None => None
  end.
Proof. done. Qed.

Lemma u_value_ok u d kd wd v :
  defval C (Datatypes.S k) false u = Some v -> (strict W = true -> determinate v = true) ->
  ⊢ {{ traw d kd wd }} u_value C S u d
    {{ λ _, tobj d kd wd u v | λ _, ⌞nt_default (te C u) = false⌟ ∗ traw d kd wd }} @ W.
Proof.
  rewrite defval_S. intros Hv Hdet.
  destruct (mapM _ _) as [ks|] eqn:E; [|done]. injection Hv as <-.
  iIntros (Q X) "Hd HQ". unfold u_value. wpb. iApply wp_maybe_throw. iSplit; last first.
  { iIntros (e) "%Hnt". iApply "HQ". by iFrame. }
  wpb. iApply (make_default_spec with "[//]"); [done|..].
  { intros Hs. specialize (Hdet Hs). done. }
  iSplit.
  - iIntros (ls) "Hm". iApply wp_construct. iFrame "Hd". iIntros "Hd". iApply "HQ". ttobj.
  - iIntros (e) "%He". iApply "HQ". iFrame "Hd". iPureIntro.
    destruct (nt_default (te C u)) eqn:E'; [|done]. destruct He as (tys&t&Hin&Hh&Hdf).
    by rewrite (we_default _ _ Hwf _ _ _ E' Hin Hh) in Hdf.
Qed.

Lemma u_definit_ok u d kd wd v :
  defval C (Datatypes.S k) true u = Some v -> (strict W = true -> determinate v = true) ->
  ⊢ {{ traw d kd wd }} u_definit C S u d
    {{ λ _, tobj d kd wd u v | λ _, ⌞nt_default (te C u) = false⌟ ∗ traw d kd wd }} @ W.
Proof.
  intros Hv Hdet. unfold u_definit. destruct (ut_init (te C u)) eqn:Ei.
  - apply u_value_ok; [|done]. rewrite -Hv !defval_S Ei. by destruct (mapM _ _).
  - assert (Hmem : ut_members (te C u) = []) by (apply (we_triv _ _ Hwf); congruence).
    rewrite defval_S Hmem Ei /= in Hv. injection Hv as <-. simpl in Hdet.
    iIntros (Q X) "Hd HQ". iApply wp_construct. iFrame "Hd". iIntros "Hd". iApply "HQ".
    iApply tobj_unfold. iExists []. iFrame "Hd". rewrite Hmem. iSplitR; [|done].
    iPureIntro. intros Hs. by specialize (Hdet Hs).
  - apply u_value_ok; [|done]. rewrite -Hv !defval_S Ei. by destruct (mapM _ _).
Qed.

Lemma sem_step_ok : usem_ok C W (Datatypes.S k) (sem_step C S).
Proof.
  split; simpl; intros.
  - by apply u_copy_ok.
  - by apply u_move_ok.
  - by apply u_cassign_ok.
  - by apply u_massign_ok.
  - by apply u_cassign_self_ok.
  - by apply u_massign_self_ok.
  - by apply u_swap_ok.
  - by apply u_swap_self_ok.
  - by apply u_destroy_ok.
  - by apply u_read_ok.
  - by apply u_value_ok.
  - by apply u_definit_ok.
Qed.

End sem.

Section levels.
Context (C : cfg) (W : wpar) (Hwf : wf_env C W).

Lemma usem_ok_0 S : usem_ok C W 0 S.
Proof.
  split; intros; try done;
    match goal with H : depth ?v <= 0 |- _ => pose proof (depth_pos v); lia end.
Qed.

(** Level [n] handles all values at most [n + 1] deep, and those at most [k] deep stay so. *)
Lemma sem_ok n k : k <= S n -> usem_ok C W k (sem C n).
Proof.
  revert k. induction n as [|n IH]; intros k Hk.
  - destruct k as [|[|]]; [apply usem_ok_0|apply (sem_step_ok _ _ Hwf), usem_ok_0|lia].
  - destruct k as [|k]; [apply usem_ok_0|]. apply (sem_step_ok _ _ Hwf), IH. lia.
Qed.

End levels.
