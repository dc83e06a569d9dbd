(** Every command does what the specification says (proofs). *)
From stdpp Require Import gmap.
From iris.proofmode Require Import tactics.
From Verif Require Import Base Types TypesFacts Dispatch DispatchFacts Variant Sem Values ValuesFacts Client Observe ObserveFacts.
From Verif Require Import Spec Heap Wp Rep SpecInt SpecVar SpecAssign SpecSwap SpecSem SpecConv SpecQuery Link World.

Lemma defval_mono C n n' b u v : n <= n' -> defval C n b u = Some v -> defval C n' b u = Some v.
Proof.
  revert n' b u v. induction n as [|n IH]; intros n' b u v Hn; [done|]. destruct n' as [|n']; [lia|]. simpl.
  destruct (mapM _ _) as [ks|] eqn:E; [|done]. intros [= <-].
  assert (Hn' : n <= n') by lia. revert E.
  match goal with |- mapM ?f _ = _ -> _ => set (f1 := f) end.
  match goal with |- _ -> match mapM ?f _ with _ => _ end = _ => set (f2 := f) end.
  intros E. assert (mapM f2 (ut_members (te C u)) = Some ks) as ->; [|done].
  apply mapM_Some_2. apply mapM_Some_1 in E. eapply Forall2_impl; [exact E|].
  intros tys k. unfold f1, f2. destruct tys as [|[u'|u'] r]; [done|..].
  - destruct (defval C n false u') as [v|] eqn:E'; [|done]. rewrite (IH _ _ _ _ Hn' E'). done.
  - destruct (defval C n true u') as [v|] eqn:E'; [|done]. rewrite (IH _ _ _ _ Hn' E'). done.
Qed.
Lemma idefval_mono C n n' t v : n <= n' -> idefval C n t = Some v -> idefval C n' t = Some v.
Proof. destruct t; apply defval_mono. Qed.

Section client.
Context (C : cfg) (st nb : bool).
Notation W := (WPar st nb).
Context (Hwf : wf_env C W).
Context (eqf ltf : uid -> uval -> uval -> bool).
Context (n D B : nat) (HB : B <= S n) (HD : D <= B).
Notation wp := (wp W).
Notation Rvar := (Rvar C W).
Notation tobj := (tobj C W).
Notation world := (world C W).
Notation aok := (aok C W).
Context (E : env) (σ : astate) (Hσ : aok B σ).
Notation op := (op C n eqf ltf E).
Notation S := (sem C n).
Notation astep := (astep C eqf ltf σ).

Let Hok : usem_ok C W B S := sem_ok C W Hwf n B HB.
Let Hlim : 0 < lim C := we_lim _ _ Hwf.

Definition post (c : cmd) (o : out) (E' : env) : hprop :=
  ∃ σ', ⌞astep c o σ' /\ aok (Datatypes.S B) σ'⌟ ∗ world E' σ'.

Lemma post_intro c o E' σ' : astep c o σ' -> aok (Datatypes.S B) σ' -> world E' σ' ⊢ post c o E'.
Proof. iIntros (H1 H2) "H". iExists σ'. by iFrame. Qed.

(** Depth [B] is good enough. *)
Lemma post_intro' c o E' σ' : astep c o σ' -> aok B σ' -> world E' σ' ⊢ post c o E'.
Proof. intros H1 H2. apply post_intro; [done|]. eapply aok_mono; [|exact H2]. lia. Qed.

Lemma wp_need_var x tys a Q X : E !! x = Some (BVar tys a) -> Q (tys, a) ⊢ wp (need_var E x) Q X.
Proof. intros Hx. unfold need_var. rewrite Hx. apply wp_ret. Qed.
Lemma wp_need_obj x u a Q X : E !! x = Some (BObj u a) -> Q (u, a) ⊢ wp (need_obj E x) Q X.
Proof. intros Hx. unfold need_obj. rewrite Hx. apply wp_ret. Qed.
Lemma wp_need_fresh x Q X : E !! x = None -> Q tt ⊢ wp (need_fresh E x) Q X.
Proof. intros Hx. unfold need_fresh. rewrite Hx. apply wp_ret. Qed.

Lemma var_ok x tys k : σ !! x = Some (AVar tys k) -> wf_tys C W tys /\ depth k.2 <= B.
Proof. intros H. exact (Hσ _ _ H). Qed.
Lemma obj_ok x u v : σ !! x = Some (AObj u v) -> depth v <= B.
Proof. intros H. exact (Hσ _ _ H). Qed.

Lemma world_id1 x α : σ !! x = Some α -> world E (<[x := α]> σ) ⊢ world E σ.
Proof. intros H. rewrite insert_id //. Qed.

(** ** Construction *)

Lemma wp_new_var x tys kf Q X : E !! x = None ->
  (∀ q, traw q KVar None -∗
        wp (kf q) (λ _, Q (<[x := BVar tys q]> E, ODone)) (λ e, (∃ w, traw q KVar w) ∗ X e))
  ⊢ wp (new_var E x tys kf) Q X.
Proof.
  iIntros (Hx) "H". unfold new_var. wpb. iApply wp_need_fresh; [done|]. wpb. iApply local_variant_wp.
  iIntros (q) "Hq". iApply (wp_wand with "[H Hq]"); [by iApply "H"|]. iSplit.
  - iIntros ([]) "HQ". by iApply wp_ret.
  - iIntros (e) "H". done.
Qed.

Lemma world_new_var E' σ' x tys a k : σ' !! x = None ->
  world E' σ' ∗ Rvar tys a k ⊢ world (<[x := BVar tys a]> E') (<[x := AVar tys k]> σ').
Proof. iIntros (Hx) "[H Ha]". iApply world_insert; [done|]. iFrame "H". simpl. by iFrame. Qed.

Lemma op_default x tys : typed C st nb D σ (CDefault x tys) ->
  world E σ ⊢ wp (op (CDefault x tys)) (λ r, post (CDefault x tys) r.2 r.1) (λ e, post (CDefault x tys) (OThrew e) E).
Proof.
  iIntros (Ht) "H". destruct Ht as (Hx&Hg&t&r&v&->&Hv&Hdet).
  iDestruct (world_none with "H") as %HE; [done|]. simpl. iApply wp_new_var; [done|]. iIntros (q) "Hq".
  iApply (var_default_spec _ _ _ _ Hok with "Hq"); [by eapply idefval_mono|done|]. iSplit.
  - iIntros ([]) "Hq". simpl. iApply post_intro'; [by eapply s_default| |by iApply world_new_var; [done|]; iFrame].
    apply aok_insert; [done|]. split; [by apply good_tys_wf|]. simpl. apply idefval_depth in Hv. lia.
  - iIntros (e) "[%Hd Hq]". iSplitL "Hq"; [by iExists _|]. iApply post_intro'; [|done|done].
    apply s_default_x. by apply not_nothrow_default.
Qed.

Lemma op_copy x y : typed C st nb D σ (CCopy x y) ->
  world E σ ⊢ wp (op (CCopy x y)) (λ r, post (CCopy x y) r.2 r.1) (λ e, post (CCopy x y) (OThrew e) E).
Proof.
  iIntros (Ht) "H". destruct Ht as (Hx&tys&k&Hy). destruct (var_ok _ _ _ Hy) as [Hty Hd].
  iDestruct (world_none with "H") as %HE; [done|]. simpl.
  iDestruct (world_var with "H") as (a) "(%Ha & Hk & H)"; [exact Hy|].
  wpb. iApply wp_need_var; [done|]. simpl. iApply wp_new_var; [done|]. iIntros (q) "Hq".
  iApply (var_copy_spec _ _ Hwf _ _ Hok with "[$Hq $Hk]"); [done|]. iSplit.
  - iIntros ([]) "[Hq Hk]". iDestruct ("H" with "Hk") as "H". iDestruct (world_id1 with "H") as "H"; [done|].
    iApply post_intro'; [by eapply s_copy| |by iApply world_new_var; [done|]; iFrame].
    apply aok_insert; [done|]. split; [done|]. simpl. by rewrite depth_erase.
  - iIntros (e) "((%t & %Ht & %Hc) & Hq & Hk)". iSplitL "Hq"; [by iExists _|].
    iDestruct ("H" with "Hk") as "H". iDestruct (world_id1 with "H") as "H"; [done|].
    iApply post_intro'; [|done|done]. eapply s_copy_x; [done..|]. by apply not_nothrow_copy.
Qed.

Lemma op_move x y : typed C st nb D σ (CMove x y) ->
  world E σ ⊢ wp (op (CMove x y)) (λ r, post (CMove x y) r.2 r.1) (λ e, post (CMove x y) (OThrew e) E).
Proof.
  iIntros (Ht) "H". destruct Ht as (Hx&tys&k&Hy). destruct (var_ok _ _ _ Hy) as [Hty Hd].
  iDestruct (world_none with "H") as %HE; [done|]. simpl.
  iDestruct (world_var with "H") as (a) "(%Ha & Hk & H)"; [exact Hy|].
  wpb. iApply wp_need_var; [done|]. simpl. iApply wp_new_var; [done|]. iIntros (q) "Hq".
  destruct k as [[bk i] v].
  assert (Hxy : x <> y) by (intros ->; unfold Spec.is_var in Hy; congruence).
  iApply (var_move_spec _ _ Hwf _ _ Hok with "[$Hq $Hk]"); [done|]. simpl in *. iSplit.
  - iIntros ([]) "[Hq (%v' & %Hv' & Hk)]". iDestruct ("H" with "Hk") as "H".
    iApply post_intro'; [by eapply s_move| |].
    2: { iApply world_new_var; [by rewrite lookup_insert_ne|]. iFrame. }
    apply aok_insert; [apply aok_insert; [done|]|]; split; try done; simpl.
    + by rewrite (skel_depth _ _ Hv').
    + by rewrite depth_erase.
  - iIntros (e) "((%t & %Ht & %Hc) & Hq & (%v' & %Hv' & Hk))". iSplitL "Hq"; [by iExists _|].
    iDestruct ("H" with "Hk") as "H". iApply post_intro'; [| |done].
    + eapply (s_move_x C eqf ltf σ x y tys (bk, i, v)); [done..|]. by apply not_nothrow_move.
    + apply aok_insert; [done|]. split; [done|]. simpl. by rewrite (skel_depth _ _ Hv').
Qed.

Lemma op_from x tys y mv : typed C st nb D σ (CFrom x tys y mv) ->
  world E σ ⊢ wp (op (CFrom x tys y mv)) (λ r, post (CFrom x tys y mv) r.2 r.1) (λ e, post (CFrom x tys y mv) (OThrew e) E).
Proof.
  iIntros (Ht) "H". destruct Ht as (Hx&Hg&u&v&i&Hy&Hi). pose proof (obj_ok _ _ _ Hy) as Hd.
  iDestruct (world_none with "H") as %HE; [done|]. simpl.
  iDestruct (world_obj with "H") as (a) "(%Ha & Hk & H)"; [exact Hy|].
  wpb. iApply wp_need_obj; [done|]. simpl. iApply wp_new_var; [done|]. iIntros (q) "Hq".
  assert (Hxy : x <> y) by (intros ->; unfold is_obj in Hy; congruence).
  pose proof Hi as (t&_&Ht&_).
  iApply (var_from_spec _ _ Hwf _ _ Hok with "[$Hq $Hk]"); [done|by apply best_match_resolve|done|]. iSplit.
  - iIntros ([]) "[Hq (%v' & %Hv' & Hk)]". iDestruct ("H" with "Hk") as "H".
    iApply post_intro'; [by eapply s_from| |].
    2: { iApply world_new_var; [by rewrite lookup_insert_ne|]. iFrame. }
    apply aok_insert; [apply aok_insert; [done|]|]; simpl.
    + by rewrite (operand_depth _ _ _ Hv').
    + split; [by apply good_tys_wf|]. by apply conv_depth.
  - iIntros (e) "(%Hf & Hq & (%v' & %Hv' & Hk))". iSplitL "Hq"; [by iExists _|].
    iDestruct ("H" with "Hk") as "H". iApply post_intro'; [| |done].
    + eapply s_from_x; [done..|]. by apply init_fail_spec.
    + apply aok_insert; [done|]. simpl. by rewrite (operand_depth _ _ _ Hv').
Qed.

Lemma op_convert x tys y mv : typed C st nb D σ (CConvert x tys y mv) ->
  world E σ ⊢ wp (op (CConvert x tys y mv)) (λ r, post (CConvert x tys y mv) r.2 r.1) (λ e, post (CConvert x tys y mv) (OThrew e) E).
Proof.
  iIntros (Ht) "H". destruct Ht as (Hx&Hg&tys2&k2&Hy&Hi). destruct (var_ok _ _ _ Hy) as [Hty Hd].
  iDestruct (world_none with "H") as %HE; [done|]. simpl.
  iDestruct (world_var with "H") as (a) "(%Ha & Hk & H)"; [exact Hy|].
  wpb. iApply wp_need_var; [done|]. simpl. iApply wp_new_var; [done|]. iIntros (q) "Hq".
  assert (Hxy : x <> y) by (intros ->; unfold Spec.is_var in Hy; congruence).
  destruct k2 as [[bk2 i2] v2]. simpl in *.
  iApply (var_convert_spec _ _ Hwf _ _ Hok with "[$Hq $Hk]"); [done| |].
  { intros t Hin. destruct (Hi t Hin) as [i Hb]. exists i. by apply best_match_resolve. }
  iSplit.
  - iIntros ([]) "[(%k' & %Hk' & Hq) (%v' & %Hv' & Hk)]". iDestruct ("H" with "Hk") as "H".
    iApply post_intro'; [eapply s_convert; [done|by apply convert_ok_spec|done]| |].
    2: { iApply world_new_var; [by rewrite lookup_insert_ne|]. iFrame. }
    apply aok_insert; [apply aok_insert; [done|]|]; (split; [try done; by apply good_tys_wf|]); simpl.
    + by rewrite (operand_depth _ _ _ Hv').
    + destruct Hk' as (t2&i&t&_&_&_&->). by apply conv_depth.
  - iIntros (e) "((%t2 & %i & %t & %Ht2 & %Hr & %Ht & %Hf) & Hq & (%v' & %Hv' & Hk))". iSplitL "Hq"; [by iExists _|].
    iDestruct ("H" with "Hk") as "H". iApply post_intro'; [| |done].
    + eapply (s_convert_x C eqf ltf σ x tys y mv tys2 (bk2, i2, v2)); [done|done|]. exists t2, i, t. split; [done|]. split; [by apply best_match_resolve|].
      split; [done|]. by apply init_fail_spec.
    + apply aok_insert; [done|]. split; [done|]. simpl. by rewrite (operand_depth _ _ _ Hv').
Qed.

Lemma op_drop x : typed C st nb D σ (CDrop x) ->
  world E σ ⊢ wp (op (CDrop x)) (λ r, post (CDrop x) r.2 r.1) (λ e, post (CDrop x) (OThrew e) E).
Proof.
  iIntros ([α Hx]) "H". simpl. iDestruct (world_delete with "H") as (b) "(%Eb & Hb & H)"; [done|].
  rewrite Eb. pose proof (Hσ _ _ Hx) as Ha. destruct b as [tys a|u a], α as [tys' k|u' v]; simpl; try iDestruct "Hb" as "[]".
  - iDestruct "Hb" as "[-> Hb]". wpb. iApply (var_destroy_spec _ _ Hwf _ _ Hok with "Hb"); [apply Ha|].
    iSplit; [|by iIntros (e) "[]"]. iIntros ([]) "(%w & Hl)". wpb. iApply (wp_drop_cell _ _ KVar); [done|]. iFrame "Hl".
    iApply wp_ret. simpl. iApply post_intro'; [apply s_drop|by apply aok_delete|done].
  - iDestruct "Hb" as "[-> Hb]". wpb. iApply (ok_destroy _ _ _ _ Hok with "Hb"); [apply Ha|].
    iSplit; [|by iIntros (e) "[]"]. iIntros ([]) "Hl". wpb. iApply (wp_drop_cell _ _ KStk); [done|]. iFrame "Hl".
    iApply wp_ret. simpl. iApply post_intro'; [apply s_drop|by apply aok_delete|done].
Qed.

(** ** Assignment *)

Lemma aok_two x y α β : aok B σ -> aok1 C W B α -> aok1 C W B β -> aok B (<[x := α]> (<[y := β]> σ)).
Proof. intros. by apply aok_insert; [apply aok_insert|]. Qed.

Lemma world_id2 x y α β : σ !! y = Some β -> world E (<[x := α]> (<[y := β]> σ)) ⊢ world E (<[x := α]> σ).
Proof. intros H. rewrite (insert_id σ) //. Qed.

Lemma op_assign x y : typed C st nb D σ (CAssign x y) -> unparked C σ (CAssign x y) ->
  world E σ ⊢ wp (op (CAssign x y)) (λ r, post (CAssign x y) r.2 r.1) (λ e, post (CAssign x y) (OThrew e) E).
Proof.
  iIntros ((tys&k1&k2&Hx&Hy) Hu) "H". destruct (var_ok _ _ _ Hx) as [Hty Hd1]. destruct (var_ok _ _ _ Hy) as [_ Hd2].
  simpl. destruct (decide (x = y)) as [<-|Hxy].
  - assert (k2 = k1) as -> by (unfold Spec.is_var in *; congruence).
    iDestruct (world_var with "H") as (a) "(%Ha & Hk & H)"; [exact Hx|].
    wpb. iApply wp_need_var; [done|]. wpb. iApply wp_need_var; [done|]. simpl. wpb.
    iApply (var_assign_self_spec _ _ Hwf _ _ Hok with "Hk"); [done|]. iSplit.
    + iIntros ([]) "Hk". iApply wp_ret. simpl. iDestruct ("H" with "Hk") as "H".
      iDestruct (world_id1 with "H") as "H"; [done|]. iApply post_intro'; [by apply s_assign_self|done|done].
    + iIntros (e) "((%t & %Ht & %Hc) & (%v' & %Hv' & Hk))". destruct k1 as [[bk i] v]. simpl in *.
      iDestruct ("H" with "Hk") as "H". iApply post_intro'; [| |done].
      * eapply (s_assign_self_x C eqf ltf σ x tys (bk, i, v)); [done..| |done]. by apply not_nothrow_cassign.
      * apply aok_insert; [done|]. split; [done|]. simpl. by rewrite (skel_depth _ _ Hv').
  - iDestruct (world_var2 with "H") as (a b) "([%Ha %Hb] & Hk1 & Hk2 & H)"; [exact Hxy|exact Hx|exact Hy|].
    wpb. iApply wp_need_var; [done|]. wpb. iApply wp_need_var; [done|]. simpl. wpb.
    iApply (var_assign_spec _ _ Hwf _ _ Hok with "[$Hk1 $Hk2]"); [done..|by eapply Hu|]. iSplit.
    + iIntros ([]) "[Hk1 Hk2]". iApply wp_ret. simpl. iDestruct ("H" with "Hk1 Hk2") as "H".
      iDestruct (world_id2 with "H") as "H"; [done|]. iApply post_intro'; [by eapply s_assign| |done].
      by apply aok_insert.
    + iIntros (e) "[(%k' & %Hk' & Hk1) Hk2]". iDestruct ("H" with "Hk1 Hk2") as "H".
      iDestruct (world_id2 with "H") as "H"; [done|]. iApply post_intro'; [| |done].
      * eapply s_assign_x; [done..|]. by eapply assign_fail_spec.
      * apply aok_insert; [done|]. split; [done|]. eapply assign_fail_depth; [|done..]. pose proof (depth_pos k1.2). lia.
Qed.

Lemma op_massign x y : typed C st nb D σ (CMoveAssign x y) -> unparked C σ (CMoveAssign x y) ->
  world E σ ⊢ wp (op (CMoveAssign x y)) (λ r, post (CMoveAssign x y) r.2 r.1) (λ e, post (CMoveAssign x y) (OThrew e) E).
Proof.
  iIntros ((tys&k1&k2&Hx&Hy) Hu) "H". destruct (var_ok _ _ _ Hx) as [Hty Hd1]. destruct (var_ok _ _ _ Hy) as [_ Hd2].
  simpl. destruct (decide (x = y)) as [<-|Hxy].
  - assert (k2 = k1) as -> by (unfold Spec.is_var in *; congruence).
    iDestruct (world_var with "H") as (a) "(%Ha & Hk & H)"; [exact Hx|].
    wpb. iApply wp_need_var; [done|]. wpb. iApply wp_need_var; [done|]. simpl. wpb. destruct k1 as [[bk i] v]. simpl in *.
    iApply (var_massign_self_spec _ _ Hwf _ _ Hok with "Hk"); [done|]. iSplit.
    + iIntros ([]) "(%v' & %Hv' & Hk)". iApply wp_ret. simpl. iDestruct ("H" with "Hk") as "H".
      iApply post_intro'; [by apply (s_massign_self C eqf ltf σ x tys (bk, i, v))| |done].
      apply aok_insert; [done|]. split; [done|]. simpl. by rewrite (skel_depth _ _ Hv').
    + iIntros (e) "((%t & %Ht & %Hc) & (%v' & %Hv' & Hk))".
      iDestruct ("H" with "Hk") as "H". iApply post_intro'; [| |done].
      * eapply (s_massign_self_x C eqf ltf σ x tys (bk, i, v)); [done..| |done]. by apply not_nothrow_massign.
      * apply aok_insert; [done|]. split; [done|]. simpl. by rewrite (skel_depth _ _ Hv').
  - iDestruct (world_var2 with "H") as (a b) "([%Ha %Hb] & Hk1 & Hk2 & H)"; [exact Hxy|exact Hx|exact Hy|].
    wpb. iApply wp_need_var; [done|]. wpb. iApply wp_need_var; [done|]. simpl. wpb.
    iApply (var_massign_spec _ _ Hwf _ _ Hok with "[$Hk1 $Hk2]"); [done..|by eapply Hu|]. iSplit.
    + iIntros ([]) "[Hk1 (%k2' & %Hk2' & Hk2)]". iApply wp_ret. simpl. iDestruct ("H" with "Hk1 Hk2") as "H".
      iApply post_intro'; [eapply s_massign; [done..|by eapply massign_src_spec]| |done].
      apply aok_two; [done|done|]. split; [done|]. apply Hk2'.
    + iIntros (e) "[(%k' & %Hk' & Hk1) (%k2' & %Hk2' & Hk2)]". iDestruct ("H" with "Hk1 Hk2") as "H".
      iApply post_intro'; [| |done].
      * eapply s_massign_x; [done..|by eapply massign_fail_spec|by eapply massign_src_spec].
      * apply aok_two; [done| |]; (split; [done|]); [|apply Hk2'].
        eapply massign_fail_depth; [|done..]. pose proof (depth_pos k1.2). lia.
Qed.

Lemma op_assign_from x y mv : typed C st nb D σ (CAssignFrom x y mv) -> unparked C σ (CAssignFrom x y mv) ->
  world E σ ⊢ wp (op (CAssignFrom x y mv)) (λ r, post (CAssignFrom x y mv) r.2 r.1) (λ e, post (CAssignFrom x y mv) (OThrew e) E).
Proof.
  iIntros ((tys&k1&u&v&i&Hx&Hy&Hi) Hu) "H". destruct (var_ok _ _ _ Hx) as [Hty Hd1]. pose proof (obj_ok _ _ _ Hy) as Hd2.
  iDestruct (world_var_obj with "H") as (a b) "([%Ha %Hb] & Hk1 & Hk2 & H)"; [exact Hx|exact Hy|]. simpl.
  wpb. iApply wp_need_var; [done|]. wpb. iApply wp_need_obj; [done|]. simpl. wpb.
  assert (Hsrc : forall v', from_src B mv k1.2 v v' -> depth v' <= B).
  { intros v'. destruct mv; simpl; [naive_solver|by intros ->]. }
  iApply (var_assign_from_spec _ _ Hwf _ _ Hok with "[$Hk1 $Hk2]"); [done..|by eapply Hu|by eexists; apply best_match_resolve|]. iSplit.
  - iIntros ([]) "[(%k' & %Hk' & Hk1) (%v' & %Hv' & Hk2)]". iApply wp_ret. simpl. iDestruct ("H" with "Hk1 Hk2") as "H".
    iApply post_intro'; [eapply s_assign_from; [done..|by apply from_ok_spec|by eapply from_src_spec]| |done].
    apply aok_two; [done| |by apply Hsrc]. split; [done|].
    destruct Hk' as (t1&_&Hk'). destruct (decide _); [by subst|]. destruct Hk' as (?&?&_&_&->). by apply conv_depth.
  - iIntros (e) "[(%k' & %Hk' & Hk1) (%v' & %Hv' & Hk2)]". iDestruct ("H" with "Hk1 Hk2") as "H".
    iApply post_intro'; [eapply s_assign_from_x; [done..|by eapply from_fail_spec|by eapply from_src_spec]| |done].
    apply aok_two; [done| |by apply Hsrc]. split; [done|].
    destruct Hk' as (t1&_&Hk'). destruct (decide _); [by apply Hk'|]. destruct Hk' as (?&?&_&_&[[-> _]|Hk']); [done|].
    eapply massign_fail_depth; [|done..]. pose proof (depth_pos k1.2). lia.
Qed.

Lemma op_assign_convert x y mv : typed C st nb D σ (CAssignConvert x y mv) ->
  world E σ ⊢ wp (op (CAssignConvert x y mv)) (λ r, post (CAssignConvert x y mv) r.2 r.1) (λ e, post (CAssignConvert x y mv) (OThrew e) E).
Proof.
  iIntros ((Hxy&tys&k1&tys2&k2&Hx&Hy&Hi)) "H". destruct (var_ok _ _ _ Hx) as [Hty Hd1]. destruct (var_ok _ _ _ Hy) as [Hty2 Hd2].
  iDestruct (world_var2 with "H") as (a b) "([%Ha %Hb] & Hk1 & Hk2 & H)"; [exact Hxy|exact Hx|exact Hy|]. simpl.
  wpb. iApply wp_need_var; [done|]. wpb. iApply wp_need_var; [done|]. simpl. wpb.
  destruct k2 as [[bk2 i2] v2]. simpl in *.
  iApply (var_assign_convert_spec _ _ Hwf _ _ Hok with "[$Hk1 $Hk2]"); [done..| |].
  { intros t Hin. destruct (Hi t Hin) as [i Hb']. exists i. by apply best_match_resolve. }
  iSplit.
  - iIntros ([]) "[(%k' & %Hk' & Hk1) (%v' & %Hv' & Hk2)]". iApply wp_ret. simpl. iDestruct ("H" with "Hk1 Hk2") as "H".
    iApply post_intro'; [eapply (s_assign_convert C eqf ltf σ x y mv tys k1 tys2 (bk2, i2, v2)); [done..|by apply convert_ok_spec|done]| |done].
    apply aok_two; [done| |]; (split; [done|]); [|simpl; by rewrite (operand_depth _ _ _ Hv')].
    destruct Hk' as (?&?&?&_&_&_&->). by apply conv_depth.
  - iIntros (e) "[(%k' & %Hk' & Hk1) (%v' & %Hv' & Hk2)]". iDestruct ("H" with "Hk1 Hk2") as "H".
    iApply post_intro'; [| |done].
    + destruct Hk' as (t2&i&t&Ht2&Hr&Ht&Hk'). apply best_match_resolve in Hr.
      eapply (s_assign_convert_x C eqf ltf σ x y mv tys k1 tys2 (bk2, i2, v2) (false, i, converted C (ity_uid t2) (ity_uid t) v2));
        [done..|by exists t2, i, t|].
      destruct Hk' as [[-> Hf]|Hf]; [left|right].
      * split; [done|]. exists t2, i, t. split_and!; try done. by apply init_fail_spec.
      * by eapply massign_fail_spec.
    + apply aok_two; [done| |]; (split; [done|]); [|simpl; by rewrite (operand_depth _ _ _ Hv')].
      destruct Hk' as (t2&i&t&Ht2&Hr&Ht&[[-> _]|Hf]); [done|].
      eapply massign_fail_depth; [|done..]. pose proof (depth_pos k1.2). lia.
Qed.

Lemma swap_throws tys t : t ∈ tys ->
  it_move C t = false \/ it_massign C t = false \/ swap_may_throw C (ity_uid t) -> swap_can_throw C tys.
Proof.
  intros Hin H. exists t. split; [done|]. destruct H as [H|[H|H]].
  - left. by apply not_nothrow_move.
  - right; left. by apply not_nothrow_massign.
  - auto.
Qed.

Lemma op_swap x y : typed C st nb D σ (CSwap x y) -> unparked C σ (CSwap x y) ->
  world E σ ⊢ wp (op (CSwap x y)) (λ r, post (CSwap x y) r.2 r.1) (λ e, post (CSwap x y) (OThrew e) E).
Proof.
  iIntros ((tys&k1&k2&Hx&Hy) Hu) "H". destruct (var_ok _ _ _ Hx) as [Hty Hd1]. destruct (var_ok _ _ _ Hy) as [_ Hd2].
  simpl. destruct (decide (x = y)) as [<-|Hxy].
  - assert (k2 = k1) as -> by (unfold Spec.is_var in *; congruence).
    iDestruct (world_var with "H") as (a) "(%Ha & Hk & H)"; [exact Hx|].
    wpb. iApply wp_need_var; [done|]. wpb. iApply wp_need_var; [done|]. simpl. wpb.
    iApply (var_swap_self_spec _ _ Hwf _ _ Hok with "Hk"); [done|]. iSplit.
    + iIntros ([]) "(%v' & %Hv' & Hk)". iApply wp_ret. simpl. iDestruct ("H" with "Hk") as "H".
      iApply post_intro'; [by eapply s_swap_self| |done].
      apply aok_insert; [done|]. split; [done|]. simpl. by rewrite (self_swapped_depth _ _ Hv').
    + iIntros (e) "(%ka & %Hka & Hk)". destruct Hka as ((t&Hin&Ht)&Hf&Hd). iDestruct ("H" with "Hk") as "H".
      iApply post_intro'; [| |done].
      * destruct ka as [p v']. simpl in Hf. rewrite Hf. by eapply s_swap_self_x.
      * by apply aok_insert.
  - iDestruct (world_var2 with "H") as (a b) "([%Ha %Hb] & Hk1 & Hk2 & H)"; [exact Hxy|exact Hx|exact Hy|].
    wpb. iApply wp_need_var; [done|]. wpb. iApply wp_need_var; [done|]. simpl. wpb.
    destruct (Hu Hxy _ _ _ Hx Hy) as [Hu1 Hu2].
    iApply (var_swap_spec _ _ Hwf _ _ Hok with "[$Hk1 $Hk2]"); [done..| |].
    { unfold swap_pre. case_decide; auto. }
    iSplit.
    + iIntros ([]) "[Hk1 Hk2]". iApply wp_ret. simpl. iDestruct ("H" with "Hk1 Hk2") as "H".
      iApply post_intro'; [eapply s_swap; [done..|]| |done].
      * unfold swap_a, swap_b. split; intros; case_decide; done.
      * apply aok_two; [done| |]; (split; [done|]); unfold swap_a, swap_b; case_decide; simpl; rewrite ?depth_erase; done.
    + iIntros (e) "(%ka & %kb & %Hf & Hk1 & Hk2)". destruct Hf as ((t&Hin&Ht)&Hda&Hdb&Hsame&Hab). iDestruct ("H" with "Hk1 Hk2") as "H".
      iApply post_intro'; [eapply s_swap_x; [done..|by eapply swap_throws|]| |done].
      { destruct (decide (k1.1.2 = k2.1.2)) as [Hi|Hi].
        - destruct (Hsame Hi) as (?&?&t'&?&?). by eapply swap_failed_same.
        - destruct (Hab Hi) as (v'&Hv'&[((t'&Ht'&Hm)&->&->)|[[Hfl Hsrc]|(->&ka0&Hsrc&Hfl)]]).
          + eapply swap_failed_temp; [done..| |done]. by apply not_nothrow_move.
          + eapply swap_failed_first; [done..|by eapply massign_fail_spec|by eapply massign_src_spec].
          + eapply swap_failed_second; [done..|by eapply massign_src_spec|by eapply massign_fail_spec]. }
      by apply aok_two.
Qed.

(** ** Access through get *)

Lemma world_var_ty x tys k : Spec.is_var σ x tys k -> world E σ ⊢ ⌜exists a t, E !! x = Some (BVar tys a) /\ tys !! k.1.2 = Some t⌝.
Proof.
  iIntros (Hx) "H". iDestruct (world_var with "H") as (a) "(%Ha & Hk & H)"; [exact Hx|].
  iDestruct (Rvar_lookup with "Hk") as %[t Ht]. iPureIntro. by exists a, t.
Qed.

Lemma has_dec tys (k : vval) t u : tys !! k.1.2 = Some t -> (ity_uid t = u <-> has tys k u).
Proof. intros Ht. split; [intros <-; by exists t|]. intros (t'&Ht'&<-). congruence. Qed.

(** get as a reference: the object, or bad_get. *)
Lemma wp_get_ref {A} tys a k t u (f : loc -> M A) Q X : tys !! k.1.2 = Some t ->
  Rvar tys a k ∗
  ((∀ l kd w, ⌞ity_uid t = u⌟ -∗ tobj l kd w u k.2 -∗ (∀ v', tobj l kd w u v' -∗ Rvar tys a (k.1, v')) -∗ wp (f l) Q X) ∧
   (⌞ity_uid t <> u⌟ -∗ Rvar tys a k -∗ X XBadGet))
  ⊢ wp (bind (var_get_ref C tys a u) f) Q X.
Proof.
  iIntros (Ht) "[Hk HQ]". unfold var_get_ref. wpb. wpb.
  iDestruct (rd_var_get C W Hlim tys a k t u Ht with "Hk") as (l kd w) "Hk".
  iApply (wp_rd W _ (if decide (ity_uid t = u) then Some l else None)). iSplit.
  - iDestruct "Hk" as "[Hk _]". iApply "Hk".
  - iDestruct "Hk" as "[_ [Hl Hback]]". destruct (decide (ity_uid t = u)) as [Hu|Hu].
    + iApply wp_ret. rewrite Hu. iDestruct "HQ" as "[HQ _]". iApply ("HQ" with "[//] Hl"). iIntros (v') "Hl". iApply ("Hback" with "Hl").
    + iApply wp_throw. iDestruct "HQ" as "[_ HQ]". iApply ("HQ" with "[//]"). iDestruct ("Hback" with "Hl") as "H". by destruct k.
Qed.

Lemma op_poke x u y : typed C st nb D σ (CPoke x u y) -> unparked C σ (CPoke x u y) ->
  world E σ ⊢ wp (op (CPoke x u y)) (λ r, post (CPoke x u y) r.2 r.1) (λ e, post (CPoke x u y) (OThrew e) E).
Proof.
  iIntros ((tys&k&v&Hx&Hy) Hu) "H". destruct (var_ok _ _ _ Hx) as [Hty Hd1]. pose proof (obj_ok _ _ _ Hy) as Hd2.
  iDestruct (world_var_ty with "H") as %(a0&t&_&Ht); [exact Hx|].
  iDestruct (world_var_obj with "H") as (a b) "([%Ha %Hb] & Hk1 & Hk2 & H)"; [exact Hx|exact Hy|]. simpl.
  wpb. iApply wp_need_var; [done|]. wpb. iApply wp_need_obj; [done|]. simpl. wpb. unfold var_poke.
  iApply wp_get_ref; [done|]. iFrame "Hk1". iSplit.
  - iIntros (l kd w Htu) "Hl Hback". iApply (ok_cassign _ _ _ _ Hok with "[$Hl $Hk2]"); [done..|by eapply Hu|]. iSplit.
    + iIntros ([]) "[Hl Hk2]". iApply wp_ret. simpl. iDestruct ("Hback" with "Hl") as "Hk1".
      iDestruct ("H" with "Hk1 Hk2") as "H". iDestruct (world_id2 with "H") as "H"; [done|].
      iApply post_intro'; [eapply s_poke; [done..|by eapply has_dec]| |done]. by apply aok_insert.
    + iIntros (e) "(%Hc & (%v' & %Hv' & Hl) & Hk2)". iDestruct ("Hback" with "Hl") as "Hk1".
      iDestruct ("H" with "Hk1 Hk2") as "H". iDestruct (world_id2 with "H") as "H"; [done|].
      iApply post_intro'; [eapply s_poke_x; [done|by eapply has_dec|done]| |done]. by apply aok_insert.
  - iIntros (Htu) "Hk1". iDestruct ("H" with "Hk1 Hk2") as "H". iDestruct (world_id2 with "H") as "H"; [done|].
    iDestruct (world_id1 with "H") as "H"; [done|].
    iApply post_intro'; [eapply s_poke_bad; [done|by rewrite -(has_dec _ _ t)]|done|done].
Qed.

Lemma op_take z x u : typed C st nb D σ (CTake z x u) ->
  world E σ ⊢ wp (op (CTake z x u)) (λ r, post (CTake z x u) r.2 r.1) (λ e, post (CTake z x u) (OThrew e) E).
Proof.
  iIntros ((Hz&tys&k&Hx)) "H". destruct (var_ok _ _ _ Hx) as [Hty Hd1].
  iDestruct (world_none with "H") as %HE; [done|].
  iDestruct (world_var_ty with "H") as %(a0&t&_&Ht); [exact Hx|].
  iDestruct (world_var with "H") as (a) "(%Ha & Hk & H)"; [exact Hx|]. simpl.
  wpb. iApply wp_need_fresh; [done|]. wpb. iApply wp_need_var; [done|]. simpl.
  iApply wp_get_ref; [done|]. iFrame "Hk". iSplit.
  - iIntros (l kd w Htu) "Hl Hback". wpb. iApply stack_obj_wp. iIntros (q) "Hq".
    iApply (ok_copy _ _ _ _ Hok with "[$Hq $Hl]"); [done|]. iSplit.
    + iIntros ([]) "[Hq Hl]". iApply wp_ret. simpl. iDestruct ("Hback" with "Hl") as "Hk". iDestruct ("H" with "Hk") as "H".
      iDestruct (world_id1 with "H") as "H"; [by destruct k|].
      iApply post_intro'; [eapply s_take; [done|by eapply has_dec]| |].
      * apply aok_insert; [done|]. simpl. by rewrite depth_erase.
      * iApply world_insert; [done|]. iFrame "H". simpl. by iFrame.
    + iIntros (e) "(%Hc & Hq & Hl)". iFrame "Hq". iDestruct ("Hback" with "Hl") as "Hk". iDestruct ("H" with "Hk") as "H".
      iDestruct (world_id1 with "H") as "H"; [by destruct k|].
      iApply post_intro'; [eapply s_take_x; [done|by eapply has_dec|done]|done|done].
  - iIntros (Htu) "Hk". iDestruct ("H" with "Hk") as "H". iDestruct (world_id1 with "H") as "H"; [done|].
    iApply post_intro'; [eapply s_take_bad; [done|by rewrite -(has_dec _ _ t)]|done|done].
Qed.

Lemma depth_child z ks j k' : ks !! j = Some k' -> depth k'.2 < depth (UV z ks).
Proof.
  intros Hj. assert (Hk : depth (UV z ks) <= depth (UV z ks)) by done. revert Hk.
  generalize (depth (UV z ks)) at 2 3 as n0. intros [|n0] Hk; [pose proof (depth_pos (UV z ks)); lia|].
  apply depth_UV in Hk. rewrite Forall_lookup in Hk. specialize (Hk _ _ Hj). lia.
Qed.

Lemma op_child z x u j : typed C st nb D σ (CChild z x u j) ->
  world E σ ⊢ wp (op (CChild z x u j)) (λ r, post (CChild z x u j) r.2 r.1) (λ e, post (CChild z x u j) (OThrew e) E).
Proof.
  iIntros ((Hz&Hj&tys&k&Hx)) "H". destruct (var_ok _ _ _ Hx) as [Hty Hd1].
  iDestruct (world_none with "H") as %HE; [done|].
  iDestruct (world_var_ty with "H") as %(a0&t&_&Ht); [exact Hx|].
  iDestruct (world_var with "H") as (a) "(%Ha & Hk & H)"; [exact Hx|]. simpl.
  wpb. iApply wp_need_var; [done|]. simpl.
  iApply wp_get_ref; [done|]. iFrame "Hk". iSplit.
  - iIntros (l kd w Htu) "Hl Hback". apply lookup_lt_is_Some_2 in Hj as [tys' Hj].
    iDestruct (tobj_member C W _ _ _ _ _ j with "Hl") as (d ks b k') "([%Hk %Hk'] & Hl)"; [done|].
    iApply (wp_rd_bind _ _ _ (tys', b)). iSplit; [iDestruct "Hl" as "[Hl _]"; iApply "Hl"|].
    iDestruct "Hl" as "[_ [Hb Hl]]". simpl.
    pose proof (depth_child d _ _ _ Hk') as Hd. rewrite -Hk in Hd.
    iApply wp_new_var; [done|]. iIntros (q) "Hq".
    iApply (var_copy_spec _ _ Hwf _ _ Hok with "[$Hq $Hb]"); [lia|]. iSplit.
    + iIntros ([]) "[Hq Hb]". iDestruct ("Hl" with "Hb") as "Hl". rewrite (list_insert_id _ _ _ Hk') -Hk.
      iDestruct ("Hback" with "Hl") as "Hk". iDestruct ("H" with "Hk") as "H".
      iDestruct (world_id1 with "H") as "H"; [by destruct k|].
      iApply post_intro'; [eapply s_child; [done|by eapply has_dec|done..]| |].
      * apply aok_insert; [done|]. split.
        -- eapply (we_mems _ _ Hwf u). by eapply elem_of_list_lookup_2.
        -- simpl. rewrite depth_erase. lia.
      * iApply world_new_var; [done|]. iFrame.
    + iIntros (e) "((%t' & %Ht' & %Hc) & Hq & Hb)". iSplitL "Hq"; [by iExists _|].
      iDestruct ("Hl" with "Hb") as "Hl". rewrite (list_insert_id _ _ _ Hk') -Hk.
      iDestruct ("Hback" with "Hl") as "Hk". iDestruct ("H" with "Hk") as "H".
      iDestruct (world_id1 with "H") as "H"; [by destruct k|].
      iApply post_intro'; [eapply s_child_x; [done|by eapply has_dec|done..|by apply not_nothrow_copy]|done|done].
  - iIntros (Htu) "Hk". iDestruct ("H" with "Hk") as "H". iDestruct (world_id1 with "H") as "H"; [done|].
    iApply post_intro'; [eapply s_child_bad; [done|by rewrite -(has_dec _ _ t)]|done|done].
Qed.

Lemma depth_set_child z ks j k' m : depth (UV z ks) <= m -> depth k'.2 <= m -> depth (UV z (<[j := k']> ks)) <= Datatypes.S m.
Proof.
  intros H1 H2. apply depth_UV. destruct m as [|m]; [pose proof (depth_pos (UV z ks)); lia|]. apply depth_UV in H1.
  apply Forall_insert; [|done]. eapply Forall_impl; [exact H1|]. intros. simpl in *. lia.
Qed.

Lemma op_set_child x u j y : typed C st nb D σ (CSetChild x u j y) -> unparked C σ (CSetChild x u j y) ->
  world E σ ⊢ wp (op (CSetChild x u j y)) (λ r, post (CSetChild x u j y) r.2 r.1) (λ e, post (CSetChild x u j y) (OThrew e) E).
Proof.
  iIntros ((Hxy&tys&k&tys'&ky&Hx&Hj&Hy) Hu) "H". destruct (var_ok _ _ _ Hx) as [Hty Hd1]. destruct (var_ok _ _ _ Hy) as [Hty' Hd2].
  iDestruct (world_var_ty with "H") as %(a0&t&_&Ht); [exact Hx|].
  iDestruct (world_var2 with "H") as (a b) "([%Ha %Hb] & Hk1 & Hk2 & H)"; [exact Hxy|exact Hx|exact Hy|]. simpl.
  wpb. iApply wp_need_var; [done|]. wpb. iApply wp_need_var; [done|]. simpl.
  iApply wp_get_ref; [done|]. iFrame "Hk1". iSplit.
  - iIntros (l kd w Htu) "Hl Hback".
    iDestruct (tobj_member C W _ _ _ _ _ j with "Hl") as (d ks c k') "([%Hk %Hk'] & Hl)"; [done|].
    iApply (wp_rd_bind _ _ _ (tys', c)). iSplit; [iDestruct "Hl" as "[Hl _]"; iApply "Hl"|].
    iDestruct "Hl" as "[_ [Hc Hl]]". simpl.
    pose proof (depth_child d _ _ _ Hk') as Hd. rewrite -Hk in Hd. wpb.
    iApply (var_assign_spec _ _ Hwf _ _ Hok with "[$Hc $Hk2]"); [done|lia|done|by apply source_clean; eapply Hu|]. iSplit.
    + iIntros ([]) "[Hc Hk2]". iDestruct ("Hl" with "Hc") as "Hl". iDestruct ("Hback" with "Hl") as "Hk1".
      iDestruct ("H" with "Hk1 Hk2") as "H". iApply wp_ret. simpl. iDestruct (world_id2 with "H") as "H"; [done|].
      iApply post_intro; [eapply s_set_child; [done|by eapply has_dec|done..]| |done].
      apply aok_insert; [eapply aok_mono; [|done]; lia|]. split; [done|]. apply depth_set_child; [by rewrite -Hk|done].
    + iIntros (e) "[(%k'' & %Hf & Hc) Hk2]". iDestruct ("Hl" with "Hc") as "Hl". iDestruct ("Hback" with "Hl") as "Hk1".
      iDestruct ("H" with "Hk1 Hk2") as "H". iDestruct (world_id2 with "H") as "H"; [done|].
      iApply post_intro; [eapply s_set_child_x; [done|by eapply has_dec|done..|by eapply assign_fail_spec]| |done].
      apply aok_insert; [eapply aok_mono; [|done]; lia|]. split; [done|]. apply depth_set_child; [by rewrite -Hk|].
      eapply assign_fail_depth; [|done|lia]. pose proof (depth_pos k.2). lia.
  - iIntros (Htu) "Hk1". iDestruct ("H" with "Hk1 Hk2") as "H". iDestruct (world_id2 with "H") as "H"; [done|].
    iDestruct (world_id1 with "H") as "H"; [done|].
    iApply post_intro'; [eapply s_set_child_bad; [done|by rewrite -(has_dec _ _ t)]|done|done].
Qed.

(** ** Queries *)

Lemma world_rd {A} x tys k a (m : M A) r : Spec.is_var σ x tys k -> E !! x = Some (BVar tys a) ->
  (Rvar tys a k ⊢ rd W m r) -> world E σ ⊢ rd W m r.
Proof.
  iIntros (Hx Ha Hr) "H". iDestruct (world_var with "H") as (a') "(%Ha' & Hk & _)"; [exact Hx|].
  assert (a' = a) as -> by congruence. iApply (Hr with "Hk").
Qed.

Lemma world_in x tys k a : Spec.is_var σ x tys k -> E !! x = Some (BVar tys a) -> world E σ ⊢ True ∗ Rvar tys a k.
Proof.
  iIntros (Hx Ha) "H". iDestruct (world_var with "H") as (a') "(%Ha' & Hk & H)"; [exact Hx|].
  assert (a' = a) as -> by congruence. iFrame "Hk".
Qed.

Lemma op_which x : typed C st nb D σ (CWhich x) ->
  world E σ ⊢ wp (op (CWhich x)) (λ r, post (CWhich x) r.2 r.1) (λ e, post (CWhich x) (OThrew e) E).
Proof.
  iIntros ((tys&k&Hx)) "H". iDestruct (world_var_ty with "H") as %(a&t&Ha&Ht); [exact Hx|]. simpl.
  wpb. iApply wp_need_var; [done|]. simpl. iApply (wp_rd_bind _ _ _ (Z.of_nat k.1.2)). iSplit.
  - iApply (world_rd with "H"); [done..|]. apply Rvar_which.
  - iApply wp_ret. simpl. iApply post_intro'; [by eapply s_which|done|done].
Qed.

Lemma op_type x : typed C st nb D σ (CType x) ->
  world E σ ⊢ wp (op (CType x)) (λ r, post (CType x) r.2 r.1) (λ e, post (CType x) (OThrew e) E).
Proof.
  iIntros ((tys&k&Hx)) "H". iDestruct (world_var_ty with "H") as %(a&t&Ha&Ht); [exact Hx|]. simpl.
  wpb. iApply wp_need_var; [done|]. simpl. iApply (wp_rd_bind _ _ _ (ity_uid t)). iSplit.
  - iApply (world_rd with "H"); [done..|]. by apply rd_var_type.
  - iApply wp_ret. simpl. iApply post_intro'; [by eapply s_type|done|done].
Qed.

Lemma op_read x : typed C st nb D σ (CRead x) ->
  world E σ ⊢ wp (op (CRead x)) (λ r, post (CRead x) r.2 r.1) (λ e, post (CRead x) (OThrew e) E).
Proof.
  iIntros ((tys&k&Hx)) "H". destruct (var_ok _ _ _ Hx) as [Hty Hd].
  iDestruct (world_var_ty with "H") as %(a&t&Ha&Ht); [exact Hx|]. simpl.
  wpb. iApply wp_need_var; [done|]. simpl. iApply (wp_rd_bind _ _ _ (ity_uid t, k.2)). iSplit.
  - iApply (world_rd with "H"); [done..|]. eapply (rd_var_read _ _ Hlim S (Datatypes.S n)); [|lia|done].
    intros. by apply rd_us_read.
  - iApply wp_ret. simpl. iApply post_intro'; [by eapply s_read|done|done].
Qed.

Lemma rd_get_read {A} tys a k t u (m : option loc -> M A) r : tys !! k.1.2 = Some t ->
  (forall l kd w, ity_uid t = u -> tobj l kd w u k.2 ⊢ rd W (m (Some l)) r) ->
  (ity_uid t <> u -> ⊢ rd W (m None) r) ->
  Rvar tys a k ⊢ rd W (bind (var_get C tys a u) m) r.
Proof.
  iIntros (Ht H1 H2) "Hk". iDestruct (rd_var_get C W Hlim tys a k t u Ht with "Hk") as (l kd w) "Hk".
  iApply rd_bind. iSplit; [iDestruct "Hk" as "[Hk _]"; iApply "Hk"|]. destruct (decide (ity_uid t = u)) as [Hu|Hu].
  - iDestruct "Hk" as "[_ [Hl _]]". rewrite Hu. iApply (H1 with "Hl"). done.
  - iClear "Hk". by iApply H2.
Qed.

Lemma op_get x u : typed C st nb D σ (CGet x u) ->
  world E σ ⊢ wp (op (CGet x u)) (λ r, post (CGet x u) r.2 r.1) (λ e, post (CGet x u) (OThrew e) E).
Proof.
  iIntros ((tys&k&Hx)) "H". destruct (var_ok _ _ _ Hx) as [Hty Hd].
  iDestruct (world_var_ty with "H") as %(a&t&Ha&Ht); [exact Hx|]. simpl.
  wpb. iApply wp_need_var; [done|]. simpl.
  iApply (wp_rd W _ (E, OGet (if decide (ity_uid t = u) then Some (erase k.2) else None))). iSplit.
  - iApply (world_rd with "H"); [done..|]. eapply rd_get_read; [done|..].
    + iIntros (l kd w Hu) "Hl". iApply rd_bind. iSplit; [iApply (rd_us_read _ _ Hlim with "Hl"); lia|].
      iClear "Hl". rewrite decide_True //. iApply rd_ret.
    + iIntros (Hu). rewrite decide_False //. iApply rd_ret.
  - simpl. iApply post_intro'; [|done|done]. destruct (decide (ity_uid t = u)).
    + eapply s_get; [done|by eapply has_dec].
    + eapply s_get_null; [done|by rewrite -(has_dec _ _ t)].
Qed.

Lemma op_get_ref x u : typed C st nb D σ (CGetRef x u) ->
  world E σ ⊢ wp (op (CGetRef x u)) (λ r, post (CGetRef x u) r.2 r.1) (λ e, post (CGetRef x u) (OThrew e) E).
Proof.
  iIntros ((tys&k&Hx)) "H". destruct (var_ok _ _ _ Hx) as [Hty Hd].
  iDestruct (world_var_ty with "H") as %(a0&t&_&Ht); [exact Hx|]. simpl.
  iDestruct (world_var with "H") as (a) "(%Ha & Hk & H)"; [exact Hx|].
  wpb. iApply wp_need_var; [done|]. simpl. iApply wp_get_ref; [done|]. iFrame "Hk". iSplit.
  - iIntros (l kd w Htu) "Hl Hback". iApply (wp_rd_bind _ _ _ k.2). iSplit; [iApply (rd_us_read _ _ Hlim with "Hl"); lia|].
    iApply wp_ret. simpl. iDestruct ("Hback" with "Hl") as "Hk". iDestruct ("H" with "Hk") as "H".
    iDestruct (world_id1 with "H") as "H"; [by destruct k|].
    iApply post_intro'; [eapply s_get_ref; [done|by eapply has_dec]|done|done].
  - iIntros (Htu) "Hk". iDestruct ("H" with "Hk") as "H". iDestruct (world_id1 with "H") as "H"; [done|].
    iApply post_intro'; [eapply s_get_ref_bad; [done|by rewrite -(has_dec _ _ t)]|done|done].
Qed.

Lemma op_eq x y : typed C st nb D σ (CEq x y) ->
  world E σ ⊢ wp (op (CEq x y)) (λ r, post (CEq x y) r.2 r.1) (λ e, post (CEq x y) (OThrew e) E).
Proof.
  iIntros ((tys&k1&k2&Hx&Hy)) "H". destruct (var_ok _ _ _ Hx) as [Hty Hd1]. destruct (var_ok _ _ _ Hy) as [_ Hd2].
  iDestruct (world_var_ty with "H") as %(a&t&Ha&Ht); [exact Hx|].
  iDestruct (world_var_ty with "H") as %(b&t2&Hb&Ht2); [exact Hy|]. simpl.
  wpb. iApply wp_need_var; [done|]. wpb. iApply wp_need_var; [done|]. simpl.
  iApply wp_rd_bind. iSplit.
  - iApply (rd_var_eq C W Hlim n tys _ a b k1 k2 t); [lia|lia|done|]. iSplit; by iApply (world_in with "H").
  - iApply wp_ret. simpl. iApply post_intro'; [|done|done]. eapply s_eq; [done..|]. case_decide; naive_solver.
Qed.

Lemma op_lt x y : typed C st nb D σ (CLt x y) ->
  world E σ ⊢ wp (op (CLt x y)) (λ r, post (CLt x y) r.2 r.1) (λ e, post (CLt x y) (OThrew e) E).
Proof.
  iIntros ((tys&k1&k2&Hx&Hy)) "H". destruct (var_ok _ _ _ Hx) as [Hty Hd1]. destruct (var_ok _ _ _ Hy) as [_ Hd2].
  iDestruct (world_var_ty with "H") as %(a&t&Ha&Ht); [exact Hx|].
  iDestruct (world_var_ty with "H") as %(b&t2&Hb&Ht2); [exact Hy|]. simpl.
  wpb. iApply wp_need_var; [done|]. wpb. iApply wp_need_var; [done|]. simpl.
  iApply wp_rd_bind. iSplit.
  - iApply (rd_var_lt C W Hlim n tys _ a b k1 k2 t); [lia|lia|done|]. iSplit; by iApply (world_in with "H").
  - iApply wp_ret. simpl. iApply post_intro'; [|done|done]. eapply s_lt; [done..|]. case_decide.
    + split; [auto|]. intros [?|[_ ?]]; [lia|done].
    + rewrite bool_decide_eq_true. split; [auto|]. intros [?|[? _]]; done.
Qed.

(** ** Objects with member variants *)

Inductive named : list name -> list (list ity) -> list loc -> list vval -> Prop :=
  | named_nil : named [] [] [] []
  | named_cons y tys a k ys mems ls ks :
      Spec.is_var σ y tys k -> E !! y = Some (BVar tys a) -> named ys mems ls ks ->
      named (y :: ys) (tys :: mems) (a :: ls) (k :: ks).

Lemma world_named ys mems : Forall2 (fun y tys => exists k, Spec.is_var σ y tys k) ys mems ->
  world E σ ⊢ ⌜exists ls ks, named ys mems ls ks⌝.
Proof.
  induction 1 as [|y tys ys mems [k Hk] _ IH].
  - iIntros "_". iPureIntro. exists [], []. constructor.
  - iIntros "H". iDestruct (IH with "H") as %(ls&ks&Hn). iDestruct (world_var_ty with "H") as %(a&t&Ha&_); [exact Hk|].
    iPureIntro. exists (a :: ls), (k :: ks). by constructor.
Qed.

Lemma wp_need_vars ys mems ls ks Q X : named ys mems ls ks -> Q ls ⊢ wp (need_vars E ys) Q X.
Proof.
  intros Hn. revert Q. induction Hn as [|y tys a k ys mems ls ks Hk Ha Hn IH]; intros Q; iIntros "H"; simpl.
  - by iApply wp_ret.
  - wpb. iApply wp_need_var; [done|]. wpb. iApply IH. by iApply wp_ret.
Qed.

Lemma make_named ys mems ls ks : named ys mems ls ks ->
  ⊢ {{ world E σ }} make_members C S (λ tys b d, var_copy C S tys d b) mems ls
    {{ λ ls', Rmems C W mems ls' (map erasev ks) ∗ world E σ | λ _, world E σ }} @ W.
Proof.
  intros Hn. induction Hn as [|y tys a k ys mems ls ks Hk Ha Hn IH]; iIntros (Q X) "H HQ"; simpl.
  - iApply wp_ret. iApply "HQ". by iFrame.
  - destruct (var_ok _ _ _ Hk) as [Hty Hd]. wpb. iApply local_variant_wp. iIntros (q) "Hq".
    iDestruct (world_var with "H") as (a') "(%Ha' & Hk & H)"; [exact Hk|]. assert (a' = a) as -> by congruence.
    iApply (var_copy_spec _ _ Hwf _ _ Hok with "[$Hq $Hk]"); [done|]. iSplit; last first.
    { iIntros (e) "(_ & Hq & Hk)". iSplitL "Hq"; [by iExists _|]. iDestruct ("H" with "Hk") as "H".
      iDestruct (world_id1 with "H") as "H"; [done|]. by iApply "HQ". }
    iIntros ([]) "[Hq Hk]". iDestruct ("H" with "Hk") as "H". iDestruct (world_id1 with "H") as "H"; [done|].
    wpb. iApply wp_on_exn. iApply (IH with "H"). iSplit.
    + iIntros (ls') "[Hls H]". iApply wp_ret. iApply "HQ". iFrame.
    + iIntros (e) "H". wpb. iApply (var_destroy_spec _ _ Hwf _ _ Hok with "Hq").
      { simpl. by rewrite depth_erase. }
      iSplit; [|by iIntros (e') "[]"]. iIntros ([]) "(%w & Hl)". iApply (wp_drop_cell _ _ KVar); [done|].
      iFrame "Hl". by iApply "HQ".
Qed.

Lemma op_make x u z ms : typed C st nb D σ (CMake x u z ms) ->
  world E σ ⊢ wp (op (CMake x u z ms)) (λ r, post (CMake x u z ms) r.2 r.1) (λ e, post (CMake x u z ms) (OThrew e) E).
Proof.
  iIntros ((Hx&Hms)) "H". iDestruct (world_none with "H") as %HE; [done|].
  iDestruct (world_named with "H") as %(ls&ks&Hn); [exact Hms|]. simpl.
  wpb. iApply wp_need_fresh; [done|]. wpb. iApply wp_need_vars; [done|]. wpb. iApply stack_obj_wp. iIntros (q) "Hq".
  wpb. iApply wp_maybe_throw. iSplit; last first.
  { iIntros (e _). iFrame "Hq". iApply post_intro'; [apply s_make_x|done|done]. }
  wpb. iApply (make_named with "H"); [done|]. iSplit; last first.
  { iIntros (e) "H". iFrame "Hq". iApply post_intro'; [apply s_make_x|done|done]. }
  iIntros (ls') "[Hls H]". iApply wp_construct. iFrame "Hq". iIntros "Hq". iApply wp_ret. simpl.
  assert (Hks : Forall2 (fun y k => exists tys, Spec.is_var σ y tys k) ms ks).
  { clear -Hn. induction Hn; constructor; eauto. }
  iApply post_intro; [by eapply s_make| |].
  - apply aok_insert; [eapply aok_mono; [|done]; lia|]. apply depth_UV. apply Forall_map.
    clear -Hks Hσ. induction Hks as [|y k ys ks [tys Hk] _ IH]; constructor; [|done].
    simpl. rewrite depth_erase. by apply (Hσ _ _ Hk).
  - iApply world_insert; [done|]. iFrame "H". simpl. iSplitR; [done|]. iExists _. iFrame "Hq".
    iApply R_unfold. iExists ls'. iSplitR; [done|]. iSplitR; [done|]. done.
Qed.

(** ** All commands *)
Theorem op_ok c : typed C st nb D σ c -> unparked C σ c ->
  world E σ ⊢ wp (op c) (λ r, post c r.2 r.1) (λ e, post c (OThrew e) E).
Proof.
  destruct c; intros Ht Hu.
  - by apply op_make.
  - by apply op_drop.
  - by apply op_default.
  - by apply op_from.
  - by apply op_copy.
  - by apply op_move.
  - by apply op_convert.
  - by apply op_assign.
  - by apply op_massign.
  - by apply op_assign_from.
  - by apply op_assign_convert.
  - by apply op_swap.
  - by apply op_poke.
  - by apply op_take.
  - by apply op_child.
  - by apply op_set_child.
  - by apply op_which.
  - by apply op_read.
  - by apply op_get.
  - by apply op_get_ref.
  - by apply op_type.
  - by apply op_eq.
  - by apply op_lt.
Qed.

End client.
