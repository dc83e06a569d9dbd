(** Programs with recursive_wrapper variables follow their specification (proofs). *)
From stdpp Require Import gmap.
From iris.proofmode Require Import tactics.
From iris.bi Require Import big_op.
From Verif Require Import Base Types TypesFacts Dispatch DispatchFacts Variant Sem Values ValuesFacts Client Observe ObserveFacts.
From Verif Require Import Spec Trace History Owned OwnedFacts Heap Wp Rep SpecInt SpecVar SpecAssign SpecSwap SpecSem SpecConv SpecQuery Link World ClientProof.
From Verif Require Import Levels HistoryProof Wrappers WrappersSpec.

Section wworld.
Context (C : cfg) (W : wpar).
Notation tobj := (tobj C W).

Definition wown (f : uid * loc) (ω : uid * loc * uval) : hprop :=
  ⌞ω.1.1 = f.1⌟ ∗ f.2 ↦ Cell KStk (Some (OWrap f.1 ω.1.2)) None ∗ tobj ω.1.2 KHeap None f.1 ω.2.
Definition wworld (F : wenv) (φ : wstate) : hprop := [∗ map] f;ω ∈ F;φ, wown f ω.
Definition wok (B : nat) (φ : wstate) : Prop := forall x ω, φ !! x = Some ω -> depth ω.2 <= B.

Lemma wok_mono B B' φ : B <= B' -> wok B φ -> wok B' φ.
Proof. intros HB H x ω Hx. etrans; [by eapply H|done]. Qed.
Lemma wok_insert B φ x ω : wok B φ -> depth ω.2 <= B -> wok B (<[x := ω]> φ).
Proof.
  intros H Ha y β Hy. destruct (decide (x = y)) as [->|Hne].
  - rewrite lookup_insert in Hy. injection Hy as <-. done.
  - rewrite lookup_insert_ne // in Hy. by eapply H.
Qed.
Lemma wok_delete B φ x : wok B φ -> wok B (delete x φ).
Proof. intros H y β Hy. apply lookup_delete_Some in Hy as [_ Hy]. by eapply H. Qed.

Lemma wworld_empty : wworld ∅ ∅ ⊣⊢ emp.
Proof. apply big_sepM2_empty. Qed.
Lemma wworld_none F φ x : φ !! x = None -> wworld F φ ⊢ ⌜F !! x = None⌝.
Proof.
  iIntros (Hx) "H". iDestruct (big_sepM2_lookup_iff with "H") as %H. iPureIntro.
  exact (some_iff_none _ _ (H x) Hx).
Qed.
Lemma wworld_lookup F φ x ω : φ !! x = Some ω ->
  wworld F φ ⊢ ∃ f, ⌞F !! x = Some f⌟ ∗ wown f ω ∗ ∀ ω', wown f ω' -∗ wworld F (<[x := ω']> φ).
Proof.
  iIntros (Hx) "H". iDestruct (big_sepM2_lookup_iff with "H") as %H.
  destruct (some_iff_some _ _ _ (H x) Hx) as [f Ef]. iExists f. iSplitR; [done|].
  iDestruct (big_sepM2_insert_acc with "H") as "[$ H]"; [done..|].
  iIntros (ω') "Ha". iSpecialize ("H" $! f ω' with "Ha"). rewrite (insert_id F) //.
Qed.
Lemma wworld_insert F φ x f ω : φ !! x = None -> wworld F φ ∗ wown f ω ⊢ wworld (<[x := f]> F) (<[x := ω]> φ).
Proof.
  iIntros (Hx) "[H Ha]". iDestruct (wworld_none with "H") as %Hn; [done|].
  iApply big_sepM2_insert; [done..|]. iFrame.
Qed.
Lemma wworld_delete F φ x ω : φ !! x = Some ω ->
  wworld F φ ⊢ ∃ f, ⌞F !! x = Some f⌟ ∗ wown f ω ∗ wworld (delete x F) (delete x φ).
Proof.
  iIntros (Hx) "H". iDestruct (big_sepM2_lookup_iff with "H") as %H.
  destruct (some_iff_some _ _ _ (H x) Hx) as [f Ef]. iExists f. iSplitR; [done|]. by iApply (big_sepM2_delete with "H").
Qed.
Lemma wworld_lookup2 F φ x y ω ω' : x <> y -> φ !! x = Some ω -> φ !! y = Some ω' ->
  wworld F φ ⊢ ∃ f g, ⌞F !! x = Some f /\ F !! y = Some g⌟ ∗ wown f ω ∗ wown g ω' ∗
    ∀ α β, wown f α -∗ wown g β -∗ wworld F (<[x := α]> (<[y := β]> φ)).
Proof.
  iIntros (Hne Hx Hy) "H". iDestruct (wworld_delete _ _ x with "H") as (f) "(%Ef & Hf & H)"; [done|].
  iDestruct (wworld_lookup _ _ y with "H") as (g) "(%Eg & Hg & H)"; [by rewrite lookup_delete_ne|].
  rewrite lookup_delete_ne // in Eg.
  iExists f, g. iSplitR; [done|]. iFrame "Hf Hg". iIntros (α β) "Hf Hg".
  iSpecialize ("H" with "Hg"). iDestruct (wworld_insert _ _ x f α with "[$H $Hf]") as "H".
  { rewrite lookup_insert_ne // lookup_delete //. }
  rewrite insert_delete_insert insert_id // insert_commute // insert_delete_insert insert_commute //.
Qed.

Lemma wown_part F φ x f ω h : wworld F φ h -> F !! x = Some f -> φ !! x = Some ω -> exists h', h' ⊆ h /\ wown f ω h'.
Proof.
  intros H Hb Ha. apply (hprop_in_entails _ _ (wworld_delete F φ x ω Ha)) in H.
  destruct H as (b'&h0&h1&->&Hd&Hb'&h2&h3&->&Hd'&Ho&_). destruct (apure_inv (F !! x = Some b') _ Hb') as [-> Hb''].
  rewrite Hb in Hb''. injection Hb'' as <-. exists h2. split; [|done]. rewrite left_id_L.
  by apply map_union_subseteq_l.
Qed.
Lemma wworld_shows F φ h m : wworld F φ h -> h ⊆ m -> wshows C m F φ.
Proof.
  intros H Hs x.
  assert (Hiff : forall x, is_Some (F !! x) <-> is_Some (φ !! x)).
  { pose proof (hprop_in_entails _ _ (big_sepM2_lookup_iff (fun _ => wown) F φ) h H) as Hi. exact Hi. }
  pose proof (some_iff_none _ _ (Hiff x)) as HN.
  pose proof (fun α => some_iff_some _ _ α (Hiff x)) as HS.
  destruct (φ !! x) as [[[u' p] v]|] eqn:Ea; last first.
  { by rewrite HN. }
  destruct (HS _ eq_refl) as [[u l] Eb]. rewrite Eb.
  destruct (wown_part F φ x _ _ h H Eb Ea) as (h'&Hs'&Ho). assert (Hm : h' ⊆ m) by by etrans.
  destruct Ho as (h0&h1&->&Hd&Ht&h2&h3&->&Hd2&Hl&o&h4&h5&->&Hd3&Hp&HR).
  destruct (apure_inv (u' = u) _ Ht) as [-> ->]. rewrite left_id_L in Hm. simpl in *.
  assert (Hm3 : h4 ∪ h5 ⊆ m) by by eapply sub_r.
  split; [done|]. split; [by eapply pt_see, sub_l|].
  exists o, (depth v). split; [by eapply pt_see, sub_l|]. eapply R_see; [done|by eapply sub_r|done].
Qed.
End wworld.

Lemma wshows_unique C m F φ φ' : wshows C m F φ -> wshows C m F φ' -> φ = φ'.
Proof.
  unfold wstate in *. intros H H'. apply map_eq. intros x. specialize (H x). specialize (H' x). unfold wstate in *.
  destruct (F !! x) as [[u l]|], (φ !! x) as [[[u1 p1] v1]|], (φ' !! x) as [[[u2 p2] v2]|]; try done.
  destruct H as (->&Hl&o&n&Hp&Hv), H' as (->&Hl'&o'&n'&Hp'&Hv').
  rewrite Hl in Hl'. injection Hl' as <-. rewrite Hp in Hp'. injection Hp' as <-.
  apply (see_obj_mono C m n (n `max` n')) in Hv; [|lia]. apply (see_obj_mono C m n' (n `max` n')) in Hv'; [|lia].
  rewrite Hv in Hv'. injection Hv' as ->. done.
Qed.

(** ** Commands *)
Section client.
Context (C : cfg) (st nb : bool).
Notation W := (WPar st nb).
Context (Hwf : wf_env C W).
Context (eqf ltf : uid -> uval -> uval -> bool).
Context (n D B : nat) (HB : B <= S n) (HD : D <= B).
Notation wp := (wp W).
Notation tobj := (tobj C W).
Notation world := (world C W).
Notation wworld := (wworld C W).
Notation aok := (aok C W).
Context (E : env) (σ : astate) (Hσ : aok B σ) (F : wenv) (φ : wstate) (Hφ : wok B φ).
Notation wop := (wop C n eqf ltf E F).
Notation S := (sem C n).
Notation wstep := (wstep C eqf ltf σ φ).

Let Hok : usem_ok C W B S := sem_ok C W Hwf n B HB.

Definition wpost (c : wcmd) (o : out) (E' : env) (F' : wenv) : hprop :=
  ∃ σ' φ', ⌞wstep c o σ' φ' /\ aok (Datatypes.S B) σ' /\ wok (Datatypes.S B) φ'⌟ ∗ world E' σ' ∗ wworld F' φ'.

Lemma wpost_intro c o E' F' σ' φ' : wstep c o σ' φ' -> aok B σ' -> wok B φ' ->
  world E' σ' ∗ wworld F' φ' ⊢ wpost c o E' F'.
Proof.
  iIntros (H1 H2 H3) "H". iExists σ', φ'. iFrame. iPureIntro. split; [done|].
  split; [eapply aok_mono; [|done]; lia|eapply wok_mono; [|done]; lia].
Qed.

Notation goal c := (world E σ ∗ wworld F φ ⊢ wp (wop c) (λ r, wpost c r.2 r.1.1 r.1.2) (λ e, wpost c (OThrew e) E F)).

Lemma wop_main c : typed C st nb D σ c -> unparked C σ c -> goal (PMain c).
Proof.
  iIntros (Ht Hu) "[H HF]". simpl. wpb.
  iApply (wp_wand with "[H]"); [by iApply (op_ok C st nb Hwf eqf ltf n D B HB HD E σ Hσ c Ht Hu)|]. iSplit.
  - iIntros ([E' o]) "(%σ' & (%Hs & %Ha) & H)". iApply wp_ret. simpl. iExists σ', φ. iFrame. iPureIntro.
    split; [by apply w_main|]. split; [done|]. eapply wok_mono; [|done]. lia.
  - iIntros (e) "(%σ' & (%Hs & %Ha) & H)". iExists σ', φ. iFrame. iPureIntro.
    split; [by apply w_main|]. split; [done|]. eapply wok_mono; [|done]. lia.
Qed.

Lemma wp_need_wrap x f Q X : F !! x = Some f -> Q f ⊢ wp (need_wrap F x) Q X.
Proof. intros Hx. unfold need_wrap. rewrite Hx. apply wp_ret. Qed.
Lemma wp_need_two x y u l r Q X : F !! x = Some (u, l) -> F !! y = Some (u, r) -> Q (u, l, r) ⊢ wp (need_two F x y) Q X.
Proof.
  iIntros (Hx Hy) "H". unfold need_two. wpb. iApply wp_need_wrap; [done|]. wpb. iApply wp_need_wrap; [done|].
  simpl. rewrite decide_True //. by iApply wp_ret.
Qed.
Lemma wp_new_wrap x u kf Q X : F !! x = None ->
  (∀ q, traw q KStk None -∗ wp (kf q) (λ _, Q (<[x := (u, q)]> F)) (λ e, traw q KStk None ∗ X e))
  ⊢ wp (new_wrap F x u kf) Q X.
Proof.
  iIntros (Hx) "H". unfold new_wrap. rewrite Hx. wpb. iApply stack_obj_wp.
  iIntros (q) "Hq". iApply (wp_wand with "[H Hq]"); [by iApply "H"|]. iSplit.
  - iIntros ([]) "HQ". by iApply wp_ret.
  - iIntros (e) "H". done.
Qed.
Lemma wworld_new x u l p v : φ !! x = None ->
  wworld F φ ∗ l ↦ Cell KStk (Some (OWrap u p)) None ∗ tobj p KHeap None u v
  ⊢ wworld (<[x := (u, l)]> F) (<[x := (u, p, v)]> φ).
Proof. iIntros (Hx) "(H & Hl & Hp)". iApply wworld_insert; [done|]. iFrame "H". unfold wown. simpl. by iFrame. Qed.

Lemma wop_default x u : wtyped C st nb D σ φ (PDefault x u) -> goal (PDefault x u).
Proof.
  iIntros (Ht) "[H HF]". destruct Ht as (Hx&v&Hv&Hdet). iDestruct (wworld_none with "HF") as %HF; [done|].
  simpl. wpb. iApply wp_new_wrap; [done|]. iIntros (l) "Hl". wpb. iApply new_obj_wp; [done|]. iSplit.
  - iIntros (q) "Hq". iApply (ok_definit _ _ _ _ Hok with "Hq"); [by eapply defval_mono|done|]. iSplit.
    + iIntros ([]) "Hq". iApply wp_construct. iFrame "Hl". iIntros "Hl". iApply wp_ret. simpl.
      iApply wpost_intro; [by eapply w_default|done| |iFrame "H"; iApply wworld_new; [done|]; iFrame].
      apply wok_insert; [done|]. simpl. pose proof (idefval_depth C D (IWrap u) v Hv). lia.
    + iIntros (e) "(_ & $)". iFrame "Hl". iApply wpost_intro; [by apply w_default_x|done|done|]. iFrame.
  - iIntros (e). iFrame "Hl". iApply wpost_intro; [by apply w_default_x|done|done|]. iFrame.
Qed.

Lemma wold x u p v : φ !! x = Some (u, p, v) ->
  wworld F φ ⊢ ∃ l, ⌞F !! x = Some (u, l)⌟ ∗ l ↦ Cell KStk (Some (OWrap u p)) None ∗ tobj p KHeap None u v ∗
    ∀ p' v', l ↦ Cell KStk (Some (OWrap u p')) None -∗ tobj p' KHeap None u v' -∗ wworld F (<[x := (u, p', v')]> φ).
Proof.
  iIntros (Hx) "H". iDestruct (wworld_lookup with "H") as ([u' l]) "(%Ef & (%Hu & Hl & Hp) & H)"; [done|].
  simpl in *. subst u'. iExists l. iSplitR; [done|]. iFrame "Hl Hp". iIntros (p' v') "Hl Hp".
  iApply ("H" $! (u, p', v')). unfold wown. simpl. by iFrame.
Qed.
Lemma wid x ω F' : φ !! x = Some ω -> wworld F' (<[x := ω]> φ) ⊢ wworld F' φ.
Proof. intros H. rewrite insert_id //. Qed.

Lemma wop_copy x y : wtyped C st nb D σ φ (PCopy x y) -> goal (PCopy x y).
Proof.
  iIntros (Ht) "[H HF]". destruct Ht as (Hx&[[u p] v]&Hy). iDestruct (wworld_none with "HF") as %HF; [done|].
  pose proof (Hφ _ _ Hy) as Hd. simpl in Hd.
  iDestruct (wold with "HF") as (l) "(%Hl & Hs & Hp & HF)"; [done|].
  simpl. wpb. iApply wp_need_wrap; [done|]. simpl. wpb. iApply wp_new_wrap; [done|]. iIntros (a) "Ha".
  wpb. iApply wrap_ptr_wp. iFrame "Hs". iIntros "Hs". wpb. iApply new_obj_wp; [done|]. iSplit.
  - iIntros (q) "Hq". iApply (ok_copy _ _ _ _ Hok with "[$Hq $Hp]"); [done|]. iSplit.
    + iIntros ([]) "[Hq Hp]". iApply wp_construct. iFrame "Ha". iIntros "Ha". iApply wp_ret. simpl.
      iDestruct ("HF" with "Hs Hp") as "HF". iDestruct (wid with "HF") as "HF"; [done|].
      iApply wpost_intro; [by eapply w_copy|done| |iFrame "H"; iApply wworld_new; [done|]; iFrame].
      apply wok_insert; [done|]. simpl. by rewrite depth_erase.
    + iIntros (e) "(_ & $ & Hp)". iFrame "Ha". iDestruct ("HF" with "Hs Hp") as "HF".
      iDestruct (wid with "HF") as "HF"; [done|]. iApply wpost_intro; [by apply w_copy_x|done|done|]. iFrame.
  - iIntros (e). iFrame "Ha". iDestruct ("HF" with "Hs Hp") as "HF".
    iDestruct (wid with "HF") as "HF"; [done|]. iApply wpost_intro; [by apply w_copy_x|done|done|]. iFrame.
Qed.

Lemma wop_move x y : wtyped C st nb D σ φ (PMove x y) -> goal (PMove x y).
Proof.
  iIntros (Ht) "[H HF]". destruct Ht as (Hx&[[u p] v]&Hy). iDestruct (wworld_none with "HF") as %HF; [done|].
  pose proof (Hφ _ _ Hy) as Hd. simpl in Hd.
  iDestruct (wold with "HF") as (l) "(%Hl & Hs & Hp & HF)"; [done|].
  simpl. wpb. iApply wp_need_wrap; [done|]. simpl. wpb. iApply wp_new_wrap; [done|]. iIntros (a) "Ha".
  wpb. iApply wrap_ptr_wp. iFrame "Hs". iIntros "Hs". wpb. iApply new_obj_wp; [done|]. iSplit.
  - iIntros (q) "Hq". iApply (ok_move _ _ _ _ Hok with "[$Hq $Hp]"); [done|]. iSplit.
    + iIntros ([]) "[Hq (%v' & %Hv' & Hp)]". iApply wp_construct. iFrame "Ha". iIntros "Ha". iApply wp_ret. simpl.
      iDestruct ("HF" with "Hs Hp") as "HF".
      iApply wpost_intro; [by eapply w_move|done| |iFrame "H"].
      * apply wok_insert; [apply wok_insert; [done|]|]; simpl; [by rewrite -depth_skel Hv' depth_skel|by rewrite depth_erase].
      * iApply wworld_insert; [rewrite lookup_insert_ne //; intros ->; congruence|]. iFrame "HF". unfold wown. simpl. by iFrame.
    + iIntros (e) "(_ & $ & (%v' & %Hv' & Hp))". iFrame "Ha". iDestruct ("HF" with "Hs Hp") as "HF".
      iApply wpost_intro; [by eapply w_move_x|done| |by iFrame].
      apply wok_insert; [done|]. simpl. by rewrite -depth_skel Hv' depth_skel.
  - iIntros (e). iFrame "Ha". iDestruct ("HF" with "Hs Hp") as "HF".
    iApply wpost_intro; [by eapply w_move_x|done| |by iFrame].
    apply wok_insert; done.
Qed.

Lemma wop_from x y mv : wtyped C st nb D σ φ (PFrom x y mv) -> goal (PFrom x y mv).
Proof.
  iIntros (Ht) "[H HF]". destruct Ht as (Hx&u&v&Hy). iDestruct (wworld_none with "HF") as %HF; [done|].
  pose proof (Hσ _ _ Hy) as Hd. simpl in Hd.
  iDestruct (world_obj with "H") as (b) "(%Hb & Hs & H)"; [exact Hy|].
  simpl. wpb. iApply wp_need_obj; [done|]. simpl. wpb. iApply wp_new_wrap; [done|]. iIntros (a) "Ha".
  destruct mv; wpb; (iApply new_obj_wp; [done|]); iSplit.
  - iIntros (q) "Hq". iApply (ok_move _ _ _ _ Hok with "[$Hq $Hs]"); [done|]. iSplit.
    + iIntros ([]) "[Hq (%v' & %Hv' & Hs)]". iApply wp_construct. iFrame "Ha". iIntros "Ha". iApply wp_ret. simpl.
      iDestruct ("H" with "Hs") as "H".
      iApply wpost_intro; [by eapply (w_from _ _ _ _ _ _ _ true)| | |iFrame "H"; iApply wworld_new; [done|]; iFrame].
      * apply aok_insert; [done|]. simpl. by rewrite -depth_skel Hv' depth_skel.
      * apply wok_insert; [done|]. simpl. by rewrite depth_erase.
    + iIntros (e) "(_ & $ & (%v' & %Hv' & Hs))". iFrame "Ha". iDestruct ("H" with "Hs") as "H".
      iApply wpost_intro; [by eapply (w_from_x _ _ _ _ _ _ _ true)| |done|by iFrame].
      apply aok_insert; [done|]. simpl. by rewrite -depth_skel Hv' depth_skel.
  - iIntros (e). iFrame "Ha". iDestruct ("H" with "Hs") as "H".
    iApply wpost_intro; [by eapply (w_from_x _ _ _ _ _ _ _ true)| |done|by iFrame]. by apply aok_insert.
  - iIntros (q) "Hq". iApply (ok_copy _ _ _ _ Hok with "[$Hq $Hs]"); [done|]. iSplit.
    + iIntros ([]) "[Hq Hs]". iApply wp_construct. iFrame "Ha". iIntros "Ha". iApply wp_ret. simpl.
      iDestruct ("H" with "Hs") as "H".
      iApply wpost_intro; [by eapply (w_from _ _ _ _ _ _ _ false)| | |iFrame "H"; iApply wworld_new; [done|]; iFrame].
      * by apply aok_insert.
      * apply wok_insert; [done|]. simpl. by rewrite depth_erase.
    + iIntros (e) "(_ & $ & Hs)". iFrame "Ha". iDestruct ("H" with "Hs") as "H".
      iApply wpost_intro; [by eapply (w_from_x _ _ _ _ _ _ _ false)| |done|by iFrame]. by apply aok_insert.
  - iIntros (e). iFrame "Ha". iDestruct ("H" with "Hs") as "H".
    iApply wpost_intro; [by eapply (w_from_x _ _ _ _ _ _ _ false)| |done|by iFrame]. by apply aok_insert.
Qed.

Lemma wold2 x y u p1 v1 p2 v2 : x <> y -> φ !! x = Some (u, p1, v1) -> φ !! y = Some (u, p2, v2) ->
  wworld F φ ⊢ ∃ l r, ⌞F !! x = Some (u, l) /\ F !! y = Some (u, r)⌟ ∗
    l ↦ Cell KStk (Some (OWrap u p1)) None ∗ tobj p1 KHeap None u v1 ∗
    r ↦ Cell KStk (Some (OWrap u p2)) None ∗ tobj p2 KHeap None u v2 ∗
    ∀ p1' v1' p2' v2', l ↦ Cell KStk (Some (OWrap u p1')) None -∗ tobj p1' KHeap None u v1' -∗
      r ↦ Cell KStk (Some (OWrap u p2')) None -∗ tobj p2' KHeap None u v2' -∗
      wworld F (<[x := (u, p1', v1')]> (<[y := (u, p2', v2')]> φ)).
Proof.
  iIntros (Hne Hx Hy) "H".
  iDestruct (wworld_lookup2 with "H") as ([u1 l] [u2 r]) "([%El %Er] & (%Hu1 & Hl & Hp) & (%Hu2 & Hr & Hq) & H)"; [done..|].
  simpl in *. subst u1 u2. iExists l, r. iSplitR; [done|]. iFrame "Hl Hp Hr Hq". iIntros (p1' v1' p2' v2') "Hl Hp Hr Hq".
  iApply ("H" $! (u, p1', v1') (u, p2', v2') with "[Hl Hp]"); unfold wown; simpl; by iFrame.
Qed.

Lemma wop_assign x y : wtyped C st nb D σ φ (PAssign x y) -> goal (PAssign x y).
Proof.
  iIntros (Ht) "[H HF]". destruct Ht as (u&p1&v1&p2&v2&Hx&Hy&Hcl).
  pose proof (Hφ _ _ Hx) as Hd1. pose proof (Hφ _ _ Hy) as Hd2. simpl in Hd1, Hd2.
  destruct (decide (x = y)) as [->|Hne].
  - rewrite Hx in Hy. injection Hy as <- <-.
    iDestruct (wold with "HF") as (l) "(%Hl & Hs & Hp & HF)"; [done|].
    simpl. wpb. iApply wp_need_two; [done..|]. simpl. wpb.
    wpb. iApply wrap_ptr_wp. iFrame "Hs". iIntros "Hs". wpb. iApply wrap_ptr_wp. iFrame "Hs". iIntros "Hs".
    iApply (ok_cassign_self _ _ _ _ Hok with "Hp"); [done|]. iSplit.
    + iIntros ([]) "Hp". iApply wp_ret. simpl. iDestruct ("HF" with "Hs Hp") as "HF".
      iDestruct (wid with "HF") as "HF"; [done|]. iApply wpost_intro; [by apply w_assign_self|done|done|]. iFrame.
    + iIntros (e) "(%Hnt & (%v' & %Hv' & Hp))". iDestruct ("HF" with "Hs Hp") as "HF".
      iApply wpost_intro; [by eapply w_assign_self_x|done| |by iFrame].
      apply wok_insert; [done|]. simpl. by rewrite -depth_skel Hv' depth_skel.
  - iDestruct (wold2 with "HF") as (l r) "([%Hl %Hr] & Hs1 & Hp1 & Hs2 & Hp2 & HF)"; [done..|].
    simpl. wpb. iApply wp_need_two; [done..|]. simpl. wpb.
    wpb. iApply wrap_ptr_wp. iFrame "Hs1". iIntros "Hs1". wpb. iApply wrap_ptr_wp. iFrame "Hs2". iIntros "Hs2".
    iApply (ok_cassign _ _ _ _ Hok with "[$Hp1 $Hp2]"); [done..|by apply Hcl|]. iSplit.
    + iIntros ([]) "[Hp1 Hp2]". iApply wp_ret. simpl. iDestruct ("HF" with "Hs1 Hp1 Hs2 Hp2") as "HF".
      rewrite (insert_id φ y) //. iApply wpost_intro; [by eapply w_assign|done| |by iFrame].
      by apply wok_insert.
    + iIntros (e) "(%Hnt & (%v' & %Hv' & Hp1) & Hp2)". iDestruct ("HF" with "Hs1 Hp1 Hs2 Hp2") as "HF".
      rewrite (insert_id φ y) //. iApply wpost_intro; [by eapply w_assign_x|done| |by iFrame].
      by apply wok_insert.
Qed.

(** The pointer exchange of move assignment and swap. *)
Lemma exchange_wp u l r p q Q X : 
  l ↦ Cell KStk (Some (OWrap u p)) None ∗ r ↦ Cell KStk (Some (OWrap u q)) None ∗
  (l ↦ Cell KStk (Some (OWrap u q)) None -∗ r ↦ Cell KStk (Some (OWrap u p)) None -∗ Q tt)
  ⊢ wp (w_swap u l r) Q X.
Proof.
  iIntros "(Hl & Hr & HQ)". iApply wp_noexcept.
  wpb. iApply wrap_ptr_wp. iFrame "Hr". iIntros "Hr".
  wpb. iApply wrap_ptr_wp. iFrame "Hl". iIntros "Hl".
  wpb. iApply (wp_modify_obj _ r KStk None (OWrap u q)); [done|]. iFrame "Hr". iIntros "Hr".
  iApply (wp_modify_obj _ l KStk None (OWrap u p)); [done|]. iFrame "Hl". iIntros "Hl".
  iApply ("HQ" with "Hl Hr").
Qed.
Lemma exchange_self_wp u l p Q X : 
  l ↦ Cell KStk (Some (OWrap u p)) None ∗ (l ↦ Cell KStk (Some (OWrap u p)) None -∗ Q tt)
  ⊢ wp (w_swap u l l) Q X.
Proof.
  iIntros "(Hl & HQ)". iApply wp_noexcept.
  wpb. iApply wrap_ptr_wp. iFrame "Hl". iIntros "Hl".
  wpb. iApply wrap_ptr_wp. iFrame "Hl". iIntros "Hl".
  wpb. iApply (wp_modify_obj _ l KStk None (OWrap u p)); [done|]. iFrame "Hl". iIntros "Hl".
  iApply (wp_modify_obj _ l KStk None (OWrap u p)); [done|]. iFrame "Hl". iIntros "Hl".
  iApply ("HQ" with "Hl").
Qed.

Lemma wop_exchange c x y u p1 v1 p2 v2 : φ !! x = Some (u, p1, v1) -> φ !! y = Some (u, p2, v2) ->
  wstep c ODone σ (<[x := (u, p2, v2)]> (<[y := (u, p1, v1)]> φ)) ->
  world E σ ∗ wworld F φ ⊢
    wp (let! r := need_two F x y in do! w_swap r.1.1 r.1.2 r.2 in ret (E, F, ODone))
      (λ r, wpost c r.2 r.1.1 r.1.2) (λ e, wpost c (OThrew e) E F).
Proof.
  iIntros (Hx Hy Hst) "[H HF]".
  pose proof (Hφ _ _ Hx) as Hd1. pose proof (Hφ _ _ Hy) as Hd2. simpl in Hd1, Hd2.
  destruct (decide (x = y)) as [->|Hne].
  - rewrite Hx in Hy. injection Hy as <- <-. rewrite !insert_id // in Hst.
    iDestruct (wold with "HF") as (l) "(%Hl & Hs & Hp & HF)"; [done|].
    wpb. iApply wp_need_two; [done..|]. simpl. wpb. iApply exchange_self_wp. iFrame "Hs". iIntros "Hs".
    iApply wp_ret. simpl. iDestruct ("HF" with "Hs Hp") as "HF".
    iDestruct (wid with "HF") as "HF"; [done|]. iApply wpost_intro; [done|done|done|]. iFrame.
  - iDestruct (wold2 with "HF") as (l r) "([%Hl %Hr] & Hs1 & Hp1 & Hs2 & Hp2 & HF)"; [done..|].
    wpb. iApply wp_need_two; [done..|]. simpl. wpb. iApply exchange_wp. iFrame "Hs1 Hs2". iIntros "Hs1 Hs2".
    iApply wp_ret. simpl. iDestruct ("HF" with "Hs1 Hp2 Hs2 Hp1") as "HF".
    iApply wpost_intro; [done|done| |by iFrame]. by do 2 (apply wok_insert; [|done]).
Qed.
Lemma wop_move_assign x y : wtyped C st nb D σ φ (PMoveAssign x y) -> goal (PMoveAssign x y).
Proof. intros (u&p1&v1&p2&v2&Hx&Hy). eapply (wop_exchange (PMoveAssign x y)); [done..|]. by apply w_move_assign. Qed.
Lemma wop_swap x y : wtyped C st nb D σ φ (PSwap x y) -> goal (PSwap x y).
Proof. intros (u&p1&v1&p2&v2&Hx&Hy). eapply (wop_exchange (PSwap x y)); [done..|]. by apply w_swapped. Qed.

Lemma wop_assign_from x y mv : wtyped C st nb D σ φ (PAssignFrom x y mv) -> goal (PAssignFrom x y mv).
Proof.
  iIntros (Ht) "[H HF]". destruct Ht as (u&p&v1&v2&Hx&Hy&Hcl).
  pose proof (Hφ _ _ Hx) as Hd1. pose proof (Hσ _ _ Hy) as Hd2. simpl in Hd1, Hd2.
  iDestruct (world_obj with "H") as (b) "(%Hb & Ho & H)"; [exact Hy|].
  iDestruct (wold with "HF") as (l) "(%Hl & Hs & Hp & HF)"; [done|].
  simpl. wpb. iApply wp_need_wrap; [done|]. wpb. iApply wp_need_obj; [done|]. simpl. rewrite decide_True //.
  wpb. wpb. iApply wrap_ptr_wp. iFrame "Hs". iIntros "Hs". destruct mv.
  - iApply (ok_massign _ _ _ _ Hok with "[$Hp $Ho]"); [done..|]. iSplit.
    + iIntros ([]) "[Hp (%v' & (%Hv' & %Hc') & Ho)]". iApply wp_ret. simpl.
      iDestruct ("HF" with "Hs Hp") as "HF". iDestruct ("H" with "Ho") as "H".
      iApply wpost_intro; [by eapply w_assign_from_move| | |by iFrame]; [by apply aok_insert|by apply wok_insert].
    + iIntros (e) "(%Hnt & (%v3 & %Hv3 & Hp) & (%v' & (%Hv' & %Hc') & Ho))".
      iDestruct ("HF" with "Hs Hp") as "HF". iDestruct ("H" with "Ho") as "H".
      iApply wpost_intro; [by eapply w_assign_from_move_x| | |by iFrame]; [by apply aok_insert|by apply wok_insert].
  - iApply (ok_cassign _ _ _ _ Hok with "[$Hp $Ho]"); [done..|]. iSplit.
    + iIntros ([]) "[Hp Ho]". iApply wp_ret. simpl.
      iDestruct ("HF" with "Hs Hp") as "HF". iDestruct ("H" with "Ho") as "H". rewrite (insert_id σ y) //.
      iApply wpost_intro; [by eapply w_assign_from_copy|done| |by iFrame]. by apply wok_insert.
    + iIntros (e) "(%Hnt & (%v3 & %Hv3 & Hp) & Ho)".
      iDestruct ("HF" with "Hs Hp") as "HF". iDestruct ("H" with "Ho") as "H". rewrite (insert_id σ y) //.
      iApply wpost_intro; [by eapply w_assign_from_copy_x|done| |by iFrame]. by apply wok_insert.
Qed.

Lemma wop_drop x : wtyped C st nb D σ φ (PDrop x) -> goal (PDrop x).
Proof.
  iIntros ([[[u p] v] Hx]) "[H HF]". pose proof (Hφ _ _ Hx) as Hd. simpl in Hd.
  iDestruct (wworld_delete with "HF") as ([u' l]) "(%Ef & (%Hu & Hl & Hp) & HF)"; [done|].
  simpl in *. subst u'. wpb. iApply wp_need_wrap; [done|]. simpl. wpb.
  wpb. iApply wrap_ptr_wp. iFrame "Hl". iIntros "Hl".
  wpb. iApply (ok_destroy _ _ _ _ Hok with "Hp"); [done|]. iSplit; [|by iIntros (e) "[]"].
  iIntros ([]) "Hp". wpb. iApply wp_free. iFrame "Hp".
  iApply wp_destruct_obj. iFrame "Hl". iIntros "Hl".
  wpb. iApply (wp_drop_cell _ _ KStk); [done|]. iFrame "Hl". iApply wp_ret. simpl.
  iApply wpost_intro; [by apply w_drop|done|by apply wok_delete|]. iFrame.
Qed.

Lemma wop_get x : wtyped C st nb D σ φ (PGet x) -> goal (PGet x).
Proof.
  iIntros ([[[u p] v] Hx]) "[H HF]". pose proof (Hφ _ _ Hx) as Hd. simpl in Hd.
  iDestruct (wold with "HF") as (l) "(%Hl & Hs & Hp & HF)"; [done|].
  simpl. wpb. iApply wp_need_wrap; [done|]. simpl. wpb. iApply wrap_ptr_wp. iFrame "Hs". iIntros "Hs".
  wpb. iApply (ok_read _ _ _ _ Hok with "Hp"); [done|]. iSplit; [|by iIntros (e) "[]"].
  iIntros (v') "[-> Hp]". iApply wp_ret. simpl. iDestruct ("HF" with "Hs Hp") as "HF".
  iDestruct (wid with "HF") as "HF"; [done|]. iApply wpost_intro; [by eapply w_get|done|done|]. iFrame.
Qed.

Lemma wop_take z x : wtyped C st nb D σ φ (PTake z x) -> goal (PTake z x).
Proof.
  iIntros ([Hz [[[u p] v] Hx]]) "[H HF]". pose proof (Hφ _ _ Hx) as Hd. simpl in Hd.
  iDestruct (world_none with "H") as %HE; [done|].
  iDestruct (wold with "HF") as (l) "(%Hl & Hs & Hp & HF)"; [done|].
  simpl. wpb. iApply wp_need_fresh; [done|]. wpb. iApply wp_need_wrap; [done|]. simpl. wpb.
  iApply wrap_ptr_wp. iFrame "Hs". iIntros "Hs". wpb. iApply stack_obj_wp. iIntros (q) "Hq".
  iApply (ok_copy _ _ _ _ Hok with "[$Hq $Hp]"); [done|]. iSplit.
  - iIntros ([]) "[Hq Hp]". iApply wp_ret. simpl. iDestruct ("HF" with "Hs Hp") as "HF".
    iDestruct (wid with "HF") as "HF"; [done|].
    iApply wpost_intro; [by eapply w_take| |done|iFrame "HF"; iApply world_insert; [done|]; iFrame "H"; simpl; by iFrame].
    apply aok_insert; [done|]. simpl. by rewrite depth_erase.
  - iIntros (e) "(%Hnt & $ & Hp)". iDestruct ("HF" with "Hs Hp") as "HF".
    iDestruct (wid with "HF") as "HF"; [done|]. iApply wpost_intro; [by eapply w_take_x|done|done|]. iFrame.
Qed.

Lemma wop_ok c : wtyped C st nb D σ φ c -> goal c.
Proof.
  destruct c; intros Ht.
  - destruct Ht. by apply wop_main.
  - by apply wop_default.
  - by apply wop_copy.
  - by apply wop_move.
  - by apply wop_from.
  - by apply wop_assign.
  - by apply wop_move_assign.
  - by apply wop_assign_from.
  - by apply wop_swap.
  - by apply wop_drop.
  - by apply wop_get.
  - by apply wop_take.
Qed.
End client.
