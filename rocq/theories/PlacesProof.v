(** Programs with references into contents follow their specification (proofs). *)
From stdpp Require Import gmap.
From iris.proofmode Require Import tactics.
From iris.bi Require Import big_op.
From Verif Require Import Base Types TypesFacts Dispatch DispatchFacts Variant Sem Values ValuesFacts Client Observe ObserveFacts.
From Verif Require Import Spec Trace History Owned OwnedFacts Heap Wp Rep SpecInt SpecVar SpecAssign SpecSwap SpecSem SpecConv SpecQuery Link World ClientProof.
From Verif Require Import Levels HistoryProof Places PlacesSpec.

Section shell.
Context (C : cfg) (W : wpar).
Notation R := (R C W).
Notation Rvar := (Rvar C W).
Notation Rvarb := (Rvarb C W).
Notation Rmems := (Rmems C W).
Notation tobj := (tobj C W).
Notation rd := (rd W).

#[local] Instance known_absorbing l c : Absorbing (known l c).
Proof.
  constructor. intros h (h1&h2&->&Hd&_&H). unfold known, hholds in *. by apply lookup_union_Some_r.
Qed.

(** An object without its member variants. *)
Definition Rtop (z : option Z) (ls : list loc) (u : uid) (o : obj) : hprop :=
  ⌞o = OUser u z ls⌟ ∗ ⌞strict W = true -> z <> None⌟.

Lemma shell_close tys a bk i t z ls ks : tys !! i = Some t ->
  Rvarb (Rtop z ls) tys a bk i ∗ Rmems (ut_members (te C (ity_uid t))) ls ks ⊢ Rvar tys a (bk, i, UV z ks).
Proof.
  iIntros (Ht) "[(%t' & %o & %Ht' & HI & Hc) Hm]". rewrite Ht in Ht'. injection Ht' as <-.
  unfold Rep.Rvar. cbn [fst snd]. unfold Rep.Rvarb. iExists t, o. iSplitR; [done|]. iSplitR "Hc"; [|done]. destruct t as [u|u].
  - unfold RIb. iDestruct "HI" as "(-> & %Hz)". rewrite R_unfold. iExists ls. by iFrame.
  - unfold RIb. iDestruct "HI" as (p o') "(-> & Hp & -> & %Hz)". iExists p, (OUser u z ls). iSplitR; [done|]. iFrame "Hp".
    rewrite R_unfold. iExists ls. by iFrame.
Qed.

(** The variant as its shell and the member variants of its object. *)
Lemma shell_open (Hlim : 0 < lim C) tys a bk i z ks :
  Rvar tys a (bk, i, UV z ks) ⊢ ∃ t l kd w ls, ⌞tys !! i = Some t⌟ ∗
    (locates C tys a (ity_uid t) l ∧ known l (Cell kd (Some (OUser (ity_uid t) z ls)) w) ∧
     (Rvarb (Rtop z ls) tys a bk i ∗ Rmems (ut_members (te C (ity_uid t))) ls ks)).
Proof.
  unfold Rep.Rvar. cbn [fst snd]. unfold Rep.Rvarb. iIntros "(%t & %o & %Ht & HI & Hc)".
  destruct t as [u|u]; unfold RIb.
  - rewrite R_unfold. iDestruct "HI" as (ls) "(-> & %Hz & Hm)". destruct bk.
    + iDestruct "Hc" as (p) "(%Hb & Ha & Hp)". iExists (IPlain u), p, KHeap, None, ls. iSplitR; [done|]. iSplit; [|iSplit].
      * iApply locates_backup; [done|done|apply Hb|]. iApply (pt_known with "Ha").
      * iApply (pt_known with "Hp").
      * iFrame "Hm". iExists (IPlain u), (OUser u z ls). iSplitR; [done|]. iSplitR; [by iSplitR|]. iExists p. by iFrame.
    + iExists (IPlain u), a, KVar, (Some (Z.of_nat i)), ls. iSplitR; [done|]. iSplit; [|iSplit].
      * iApply locates_direct; [done|done|]. iApply (pt_known with "Hc").
      * iApply (pt_known with "Hc").
      * iFrame "Hm". iExists (IPlain u), (OUser u z ls). iSplitR; [done|]. iSplitR; [by iSplitR|]. iFrame.
  - iDestruct "HI" as (l o') "(-> & Hl & HR)". rewrite R_unfold. iDestruct "HR" as (ls) "(-> & %Hz & Hm)". destruct bk.
    + iDestruct "Hc" as (p) "(%Hb & Ha & Hp)". iExists (IWrap u), l, KHeap, None, ls. iSplitR; [done|]. iSplit; [|iSplit].
      * iApply locates_backup_wrap; [done|done|apply Hb|].
        iSplit; [iApply (pt_known with "Ha")|iApply (pt_known with "Hp")].
      * iApply (pt_known with "Hl").
      * iFrame "Hm". iExists (IWrap u), (OWrap u l). iSplitR; [done|]. iSplitL "Hl".
        { iExists l, (OUser u z ls). iSplitR; [done|]. iFrame "Hl". by iSplitR. }
        iExists p. by iFrame.
    + iExists (IWrap u), l, KHeap, None, ls. iSplitR; [done|]. iSplit; [|iSplit].
      * iApply locates_wrap; [done|done|]. iApply (pt_known with "Hc").
      * iApply (pt_known with "Hl").
      * iFrame "Hm". iExists (IWrap u), (OWrap u l). iSplitR; [done|]. iSplitL "Hl".
        { iExists l, (OUser u z ls). iSplitR; [done|]. iFrame "Hl". by iSplitR. }
        iFrame.
Qed.

Lemma rd_known_user l k w u z ls : known l (Cell k (Some (OUser u z ls)) w) ⊢ rd (expect_user u l) (z, ls).
Proof.
  constructor. intros h H s Hs. exists s. split; [|apply same_state_refl]. unfold expect_user, bind.
  rewrite (known_get_obj _ _ _ _ _ _ H Hs). rewrite decide_True //.
Qed.

Lemma rd_get_here tys a u l v : 
  locates C tys a v l ⊢ rd (var_get C tys a u) (if decide (v = u) then Some l else None).
Proof.
  iIntros "H". unfold var_get. iApply rd_visit_user. iSplit; [done|]. case_decide; iApply rd_ret.
Qed.

Lemma shell_see m tys a bk i z ls h : Rvarb (Rtop z ls) tys a bk i h -> h ⊆ m ->
  see_var m see_top tys a = Some (bk, i, UV z []).
Proof.
  intros (t&o&h0&h1&->&Hdj&Ht&H) Hs. destruct (apure_inv (tys !! i = Some t) _ Ht) as [-> Ht']. rewrite left_id_L in Hs.
  destruct H as (h2&h3&->&Hd23&HRI&H). simpl in *.
  assert (Htop : forall u o h, Rtop z ls u o h -> see_top u o = Some (UV z [])).
  { intros u o' h (a1&a2&_&_&Ho&_). destruct (apure_inv (o' = OUser u z ls) _ Ho) as [_ ->]. simpl. by rewrite decide_True. }
  assert (Hcont : exists o2, content m t o = Some o2 /\ see_top (ity_uid t) o2 = Some (UV z [])).
  { destruct t as [u|u]; simpl in *.
    - exists o. split; [done|]. by eapply Htop.
    - destruct HRI as (p&o'&h4&h5&->&_&Ho&h6&h7&->&Hd67&Hp&HR). destruct (apure_inv (o = OWrap u p) _ Ho) as [-> ->].
      rewrite left_id_L in Hs. apply sub_l in Hs as Hs'.
      exists o'. simpl. rewrite decide_True //. unfold heap_obj. rewrite (pt_see p _ _ _ Hp); [|by eapply sub_l].
      split; [done|]. by eapply Htop. }
  destruct Hcont as (o2&Hc&Hv). apply sub_r in Hs; [|done]. destruct bk.
  - destruct H as (p&h4&h5&->&Hd45&Hb&h6&h7&->&Hd67&Ha&Hp). destruct (apure_inv (bkok C W tys t) _ Hb) as [-> _].
    rewrite left_id_L in Hs. unfold see_var. rewrite (pt_see a _ _ _ Ha); [|by eapply sub_l].
    rewrite bool_decide_eq_true_2; [|lia].
    replace (Z.to_nat (- - (Z.of_nat i + 1) - 1)) with i by lia.
    rewrite Ht'. rewrite decide_True //. unfold heap_obj. rewrite (pt_see p _ _ _ Hp); [|by eapply sub_r].
    rewrite Hc Hv //.
  - unfold see_var. rewrite (pt_see a _ _ _ H Hs). rewrite bool_decide_eq_false_2; [|lia].
    rewrite Nat2Z.id Ht' Hc Hv //.
Qed.

(** ** Ownership of variables that are set aside *)
Definition refs_ok (refs : list (name * bnd)) (mems : list (list ity)) (ls : list loc) : Prop :=
  length mems = length ls /\ refs.*2 = zip_with BVar mems ls.
Definition kown (f : bnd * list (name * bnd)) (g : aval * list name) : hprop :=
  ⌞g.2 = f.2.*1⌟ ∗
  match f.1, g.1 with
  | BVar tys a, AVar tys' k => ∃ z t ls,
      ⌞tys' = tys /\ k.2 = UV z [] /\ tys !! k.1.2 = Some t /\ refs_ok f.2 (ut_members (te C (ity_uid t))) ls⌟ ∗
      Rvarb (Rtop z ls) tys a k.1.1 k.1.2
  | BObj u a, AObj u' v => ∃ z ls,
      ⌞u' = u /\ v = UV z [] /\ refs_ok f.2 (ut_members (te C u)) ls⌟ ∗ ⌞strict W = true -> z <> None⌟ ∗
      a ↦ Cell KStk (Some (OUser u z ls)) None
  | _, _ => False
  end.
Definition kworld (K : kenv) (κ : kstate) : hprop := [∗ map] f;g ∈ K;κ, kown f g.
Definition kaok (κ : kstate) : Prop := forall x tys k rs, κ !! x = Some (AVar tys k, rs) -> wf_tys C W tys.

Lemma kworld_empty : kworld ∅ ∅ ⊣⊢ emp.
Proof. apply big_sepM2_empty. Qed.
Lemma kworld_iff K κ : kworld K κ ⊢ ⌜forall x, is_Some (K !! x) <-> is_Some (κ !! x)⌝.
Proof. apply big_sepM2_lookup_iff. Qed.
Lemma kworld_none K κ x : κ !! x = None -> kworld K κ ⊢ ⌜K !! x = None⌝.
Proof.
  iIntros (Hx) "H". iDestruct (kworld_iff with "H") as %H. iPureIntro. exact (some_iff_none _ _ (H x) Hx).
Qed.
Lemma kworld_insert K κ x f g : κ !! x = None -> kworld K κ ∗ kown f g ⊢ kworld (<[x := f]> K) (<[x := g]> κ).
Proof.
  iIntros (Hx) "[H Ha]". iDestruct (kworld_none with "H") as %Hn; [done|].
  iApply big_sepM2_insert; [done..|]. iFrame.
Qed.
Lemma kworld_delete K κ x g : κ !! x = Some g ->
  kworld K κ ⊢ ∃ f, ⌞K !! x = Some f⌟ ∗ kown f g ∗ kworld (delete x K) (delete x κ).
Proof.
  iIntros (Hx) "H". iDestruct (kworld_iff with "H") as %H.
  destruct (some_iff_some _ _ _ (H x) Hx) as [f Ef]. iExists f. iSplitR; [done|]. by iApply (big_sepM2_delete with "H").
Qed.

Lemma kown_part K κ x f g h : kworld K κ h -> K !! x = Some f -> κ !! x = Some g -> exists h', h' ⊆ h /\ kown f g h'.
Proof.
  intros H Hb Ha. apply (hprop_in_entails _ _ (kworld_delete K κ x g Ha)) in H.
  destruct H as (b'&h0&h1&->&Hd&Hb'&h2&h3&->&Hd'&Ho&_). destruct (apure_inv (K !! x = Some b') _ Hb') as [-> Hb''].
  rewrite Hb in Hb''. injection Hb'' as <-. exists h2. split; [|done]. rewrite left_id_L.
  by apply map_union_subseteq_l.
Qed.
Lemma kworld_shows K κ h m : kworld K κ h -> h ⊆ m -> kshows m K κ.
Proof.
  intros H Hs x.
  assert (Hiff : forall x, is_Some (K !! x) <-> is_Some (κ !! x)).
  { pose proof (hprop_in_entails _ _ (kworld_iff K κ) h H) as Hi. exact Hi. }
  pose proof (some_iff_none _ _ (Hiff x)) as HN.
  pose proof (fun α => some_iff_some _ _ α (Hiff x)) as HS.
  destruct (κ !! x) as [[α rs]|] eqn:Ea; last first.
  { by rewrite HN. }
  destruct (HS _ eq_refl) as [[b refs] Eb]. rewrite Eb.
  destruct (kown_part K κ x _ _ h H Eb Ea) as (h'&Hs'&Ho). assert (Hm : h' ⊆ m) by by etrans.
  destruct Ho as (h0&h1&->&Hd&Ht&Ho). destruct (apure_inv (rs = refs.*1) _ Ht) as [-> ->]. rewrite left_id_L in Hm.
  split; [done|]. simpl in Ho. destruct b as [tys a|u a], α as [tys' [[bk i] v]|u' v]; try by destruct Ho.
  - destruct Ho as (z&t&ls&h2&h3&->&Hd2&Hp&Hv). destruct (apure_inv (_ /\ _ /\ _) _ Hp) as [-> (->&Hk&Hi&_)].
    simpl in Hk. subst v. rewrite left_id_L in Hm. split; [done|]. by eapply shell_see.
  - destruct Ho as (z&ls&h2&h3&->&Hd2&Hp&h4&h5&->&Hd3&Hz&Ha). destruct (apure_inv (_ /\ _ /\ _) _ Hp) as [-> (->&->&_)].
    destruct (apure_inv (strict W = true -> z <> None) _ Hz) as [-> _].
    rewrite !left_id_L in Hm. split; [done|]. exists (OUser u z ls). split; [by eapply pt_see|]. simpl. by rewrite decide_True.
Qed.

(** References are variables. *)
Lemma world_refs E σ mems ls ks rs : length rs = length mems -> NoDup rs -> (forall r, r ∈ rs -> σ !! r = None) ->
  world C W E σ ∗ Rmems mems ls ks ⊢
  world C W (list_to_map (zip rs (zip_with BVar mems ls)) ∪ E) (list_to_map (zip rs (zip_with AVar mems ks)) ∪ σ) ∗
    ⌞length mems = length ls /\ length mems = length ks⌟.
Proof.
  revert mems ls ks. induction rs as [|r rs IH]; intros [|tys mems] ls ks Hl Hnd Hf; simpl in *; try done.
  - iIntros "[H Hm]". destruct ls, ks; simpl; try done. rewrite !left_id_L. by iFrame.
  - iIntros "[H Hm]". destruct ks as [|k ks], ls as [|l ls]; simpl; try done. iDestruct "Hm" as "[Hk Hm]".
    apply NoDup_cons in Hnd as [Hr Hnd].
    iDestruct (IH mems ls ks with "[$H $Hm]") as "[H [%H1 %H2]]"; [lia|done|intros; apply Hf; by right|].
    rewrite -!insert_union_l. iSplitL; [|iPureIntro; lia]. iApply world_insert; [|by iFrame; simpl; iFrame].
    apply lookup_union_None. split; [|apply Hf; by left]. apply not_elem_of_list_to_map_1.
    rewrite fst_zip; [done|]. rewrite zip_with_length. lia.
Qed.
Lemma world_unrefs E σ refs mems ls : refs_ok refs mems ls -> NoDup refs.*1 -> all_bound E refs ->
  world C W E σ ⊢ ∃ ks, ⌞Forall2 (fun r k => exists tys, Spec.is_var σ r tys k) refs.*1 ks⌟ ∗ Rmems mems ls ks ∗
    world C W (foldr delete E refs.*1) (foldr delete σ refs.*1).
Proof.
  revert mems ls. induction refs as [|[r b] refs IH]; intros mems ls [Hl Hz] Hnd Hb.
  - iIntros "H". destruct mems, ls; try done. iExists []. simpl. iFrame. by iPureIntro; apply Forall2_nil.
  - destruct mems as [|tys mems], ls as [|l ls]; try done. simpl in *. injection Hl as Hl. injection Hz as -> Hz.
    apply NoDup_cons in Hnd as [Hr Hnd]. apply Forall_cons in Hb as [Hb1 Hb]. simpl in Hb1.
    iIntros "H". iDestruct (big_sepM2_lookup_iff with "H") as %Hi.
    destruct (some_iff_some _ _ _ (iff_sym (Hi r)) Hb1) as [α Ha].
    iDestruct (IH mems ls with "H") as (ks) "(%Hks & Hm & H)"; [done..|].
    iDestruct (world_delete _ _ _ _ r α with "H") as (b) "(%Eb & Ho & H)".
    { by rewrite lookup_foldr_delete_not_elem_of. }
    rewrite lookup_foldr_delete_not_elem_of // Hb1 in Eb. injection Eb as <-.
    destruct α as [tys' k|]; simpl; [|done]. iDestruct "Ho" as "[-> Ho]". iExists (k :: ks). simpl. iFrame. iPureIntro.
    apply Forall2_cons. split; [|done]. by exists tys.
Qed.
End shell.

(** What the names stand for. *)
Record kok (E : env) (K : kenv) : Prop := Kok {
  kok_aside : forall x, is_Some (K !! x) -> E !! x = None;
  kok_nodup : forall x b refs, K !! x = Some (b, refs) -> NoDup refs.*1;
  kok_ref : forall x b refs r b', K !! x = Some (b, refs) -> (r, b') ∈ refs ->
    E !! r = Some b' \/ exists refs', K !! r = Some (b', refs');
  kok_once : forall x y f g r, K !! x = Some f -> K !! y = Some g -> r ∈ f.2.*1 -> r ∈ g.2.*1 -> x = y
}.

Lemma kshows_unique m K κ κ' : kshows m K κ -> kshows m K κ' -> κ = κ'.
Proof.
  unfold kstate in *. intros H H'. apply map_eq. intros x. specialize (H x). specialize (H' x). unfold kstate in *.
  destruct (K !! x) as [[b refs]|], (κ !! x) as [[α rs]|], (κ' !! x) as [[α' rs']|]; try done.
  destruct H as [-> H], H' as [-> H']. f_equal. f_equal. destruct b, α, α'; simpl in *; try done.
  - destruct H as [-> H], H' as [-> H']. congruence.
  - destruct H as (->&o&Ho&H), H' as (->&o'&Ho'&H'). rewrite Ho in Ho'. injection Ho' as <-. congruence.
Qed.

(** ** Commands *)
Section client.
Context (C : cfg) (st nb : bool).
Notation W := (WPar st nb).
Context (Hwf : wf_env C W).
Context (eqf ltf : uid -> uval -> uval -> bool).
Context (n D B : nat) (HB : B <= S n) (HD : D <= B).
Notation wp := (wp W).
Notation tobj := (tobj C W).
Notation world := (world C W).
Notation kworld := (kworld C W).
Notation aok := (aok C W).
Notation kaok := (kaok C W).
Context (E : env) (σ : astate) (Hσ : aok B σ) (K : kenv) (κ : kstate) (Hκ : kaok κ) (HK : kok E K).
Notation rop := (rop C n eqf ltf E K).
Notation S := (sem C n).
Notation rstep := (rstep C eqf ltf σ κ).

Let Hok : usem_ok C W B S := sem_ok C W Hwf n B HB.
Let Hlim : 0 < lim C := we_lim _ _ Hwf.

Definition rpost (c : rcmd) (o : out) (E' : env) (K' : kenv) : hprop :=
  ∃ σ' κ', ⌞rstep c o σ' κ' /\ aok (Datatypes.S B) σ' /\ kaok κ'⌟ ∗ world E' σ' ∗ kworld K' κ'.

Lemma rpost_intro c o E' K' σ' κ' : rstep c o σ' κ' -> aok (Datatypes.S B) σ' -> kaok κ' ->
  world E' σ' ∗ kworld K' κ' ⊢ rpost c o E' K'.
Proof. iIntros (H1 H2 H3) "H". iExists σ', κ'. by iFrame. Qed.
Lemma rpost_intro' c o E' σ' : rstep c o σ' κ -> aok B σ' ->
  world E' σ' ∗ kworld K κ ⊢ rpost c o E' K.
Proof. intros H1 H2. apply rpost_intro; [done| |done]. eapply aok_mono; [|exact H2]. lia. Qed.

Notation goal c := (world E σ ∗ kworld K κ ⊢ wp (rop c) (λ r, rpost c r.2 r.1.1 r.1.2) (λ e, rpost c (OThrew e) E K)).

Lemma wp_need (b : bool) Q X : b = true -> Q tt ⊢ wp (need b) Q X.
Proof. intros ->. apply wp_ret. Qed.

Lemma refers_is r : is_ref K r -> kworld K κ ⊢ ⌜refers κ r⌝.
Proof.
  iIntros ((x&[b refs]&Hx&Hr)) "H". iDestruct (kworld_iff with "H") as %Hi.
  destruct (some_iff_some _ _ _ (iff_sym (Hi x)) Hx) as [[α rs] Ha].
  iDestruct (kworld_delete with "H") as ([b' refs']) "(%Ef & (%Hrs & _) & _)"; [done|].
  unfold kenv in *. rewrite Hx in Ef. injection Ef as <- <-. simpl in *. subst rs. iPureIntro. by exists x, α, refs.*1.
Qed.

Lemma rop_main c : rtyped C st nb D σ κ (RMain c) -> goal (RMain c).
Proof.
  iIntros ((Ht&Hu&Hd&Hr)) "[H HF]". simpl. wpb.
  iAssert ⌜allowed K c⌝%I as %Hal.
  { iSplit.
    - destruct (declares c) as [x|] eqn:Hc; [|done]. iApply (kworld_none with "HF"). by apply Hd.
    - destruct c; try done. iIntros (Hir). iDestruct (refers_is with "HF") as %Hir'; [done|].
      by destruct (Hr x). }
  iApply wp_need; [by apply bool_decide_eq_true_2|]. wpb.
  iApply (wp_wand with "[H]"); [by iApply (op_ok C st nb Hwf eqf ltf n D B HB HD E σ Hσ c Ht Hu)|]. iSplit.
  - iIntros ([E' o]) "(%σ' & (%Hs & %Ha) & H)". iApply wp_ret. simpl. iApply rpost_intro; [by apply r_main|done..|]. iFrame.
  - iIntros (e) "(%σ' & (%Hs & %Ha) & H)". iApply rpost_intro; [by apply r_main|done..|]. iFrame.
Qed.

Lemma kaok_insert x α rs : kaok κ -> match α with AVar tys _ => wf_tys C W tys | _ => True end -> kaok (<[x := (α, rs)]> κ).
Proof.
  intros H Ha y tys k rs' Hy. destruct (decide (x = y)) as [->|Hne].
  - unfold kstate in *. rewrite lookup_insert in Hy. injection Hy as -> ->. done.
  - unfold kstate in *. rewrite lookup_insert_ne // in Hy. by eapply H.
Qed.
Lemma kaok_delete x : kaok κ -> kaok (delete x κ).
Proof. intros H y tys k rs Hy. unfold kstate in *. apply lookup_delete_Some in Hy as [_ Hy]. by eapply H. Qed.

Lemma aok_refs rs u z ks σ' : aok B σ' -> depth (UV z ks) <= B ->
  aok B (list_to_map (zip rs (zip_with AVar (ut_members (te C u)) ks)) ∪ σ').
Proof.
  intros Ha Hd x α Hx. apply lookup_union_Some_raw in Hx as [Hx|[_ Hx]]; [|by eapply Ha].
  apply elem_of_list_to_map_2 in Hx. apply elem_of_list_lookup_1 in Hx as [j Hj].
  rewrite lookup_zip_with in Hj. destruct (rs !! j); simpl in Hj; [|done].
  rewrite lookup_zip_with in Hj. destruct (ut_members (te C u) !! j) as [tys|] eqn:Hm; simpl in Hj; [|done].
  destruct (ks !! j) as [k|] eqn:Hk; simpl in Hj; [|done]. injection Hj as -> <-. split.
  - eapply (we_mems _ _ Hwf u). by eapply elem_of_list_lookup_2.
  - pose proof (depth_child C st nb Hwf n D B HB HD z _ _ _ Hk). lia.
Qed.

Lemma elem_zip_fst {A1 A2} (l : list A1) (k : list A2) x y : (x, y) ∈ zip l k -> x ∈ l.
Proof. intros H. by apply elem_of_zip_l in H. Qed.

Lemma rop_open x u rs : rtyped C st nb D σ κ (ROpen x u rs) -> goal (ROpen x u rs).
Proof.
  iIntros ((Hx&Hnd&Hlen&Hfr)) "[H HF]".
  iAssert ⌜unused E K rs⌝%I as %Hun.
  { iSplit; [done|]. rewrite /unused Forall_forall. iIntros (r Hr). destruct (Hfr r Hr). iSplit.
    - by iApply (world_none with "H").
    - by iApply (kworld_none with "HF"). }
  iAssert ⌜forall α, σ !! x = Some α -> κ !! x = None⌝%I as %Hkx.
  { iIntros (α Ha). iDestruct (world_lookup with "H") as (b) "(%Eb & _)"; [done|].
    iDestruct (kworld_iff with "HF") as %Hi. iPureIntro. destruct (κ !! x) as [g|] eqn:Eg; [|done].
    destruct (some_iff_some _ _ _ (Hi x) Eg) as [f Ef]. pose proof (kok_aside _ _ HK x). unfold kenv in *.
    rewrite Ef in H. rewrite H in Eb; [done|by eexists]. }
  destruct Hx as [(tys&[[bk i] [z ks]]&Hx)|([z ks]&Hx)]; pose proof (Hσ _ _ Hx) as Ha; simpl in Ha.
  - iDestruct (world_delete with "H") as (b) "(%Eb & Ho & H)"; [exact Hx|]. simpl. rewrite Eb.
    destruct b as [tys' a|]; simpl; [|done]. iDestruct "Ho" as "[-> Hk]". destruct Ha as [Hty Hd].
    iDestruct (shell_open C W Hlim with "Hk") as (t l kd w ls) "[%Ht Hk]".
    unfold var_get_ref. wpb. wpb.
    iApply (wp_rd W _ (if decide (ity_uid t = u) then Some l else None)). iSplit.
    { iDestruct "Hk" as "[Hk _]". by iApply rd_get_here. }
    destruct (decide (ity_uid t = u)) as [Hu|Hu].
    + iApply wp_ret. wpb. iApply (wp_rd _ _ (z, ls)). iSplit.
      { iDestruct "Hk" as "[_ [Hk _]]". rewrite Hu. iApply (rd_known_user with "Hk"). }
      iDestruct "Hk" as "[_ [_ [Hk Hm]]]". rewrite Hu. wpb. iApply wp_need; [by apply bool_decide_eq_true_2|].
      iApply wp_ret. simpl.
      iDestruct (world_refs C W _ _ _ _ _ _ with "[$H $Hm]") as "[H [%Hl1 %Hl2]]"; [done|done| |].
      { intros r Hr. rewrite lookup_delete_None. right. by apply Hfr. }
      iApply rpost_intro; [by eapply r_open_var; [done|exists t]| | |iFrame "H"].
      * eapply aok_mono; [|eapply (aok_refs rs u z ks); [|exact Hd]]; [lia|by apply aok_delete].
      * by apply kaok_insert.
      * iApply kworld_insert; [by eapply Hkx|]. iFrame "HF". unfold kown. simpl.
        iSplitR. { iPureIntro. rewrite fst_zip //. rewrite zip_with_length. lia. }
        iExists z, t, ls. iFrame. iPureIntro. do 3 (split; [done|]). split; [by rewrite Hu|]. rewrite Hu snd_zip //.
        rewrite zip_with_length. lia.
    + iApply wp_throw. iDestruct "Hk" as "[_ [_ Hk]]". iDestruct (shell_close C W with "Hk") as "Hk"; [done|].
      iDestruct (world_insert C W _ _ x (BVar tys' a) (AVar tys' (bk, i, UV z ks)) with "[$H Hk]") as "H"; [apply lookup_delete|by simpl; iFrame|].
      rewrite !insert_delete_insert insert_id // insert_id //.
      iApply rpost_intro'; [|done|iFrame]. eapply r_open_bad; [done|]. intros (t'&Ht'&Hu'). simpl in Ht'. congruence.
  - iDestruct (world_delete with "H") as (b) "(%Eb & Ho & H)"; [exact Hx|]. simpl. rewrite Eb.
    destruct b as [|u' a]; simpl; [done|]. iDestruct "Ho" as "[-> (%o & Hc & Hk)]".
    rewrite decide_True; [|done]. wpb. iApply wp_ret. rewrite R_unfold. iDestruct "Hk" as (ls) "(-> & %Hz & Hm)".
    wpb. iApply (wp_rd _ _ (z, ls)). iSplit; [iApply (rd_expect_user with "Hc")|].
    wpb. iApply wp_need; [by apply bool_decide_eq_true_2|]. iApply wp_ret. simpl.
    iDestruct (world_refs C W _ _ _ _ _ _ with "[$H $Hm]") as "[H [%Hl1 %Hl2]]"; [done|done| |].
    { intros r Hr. rewrite lookup_delete_None. right. by apply Hfr. }
    iApply rpost_intro; [by eapply r_open_obj| | |iFrame "H"].
    + eapply aok_mono; [|eapply (aok_refs rs u' z ks); [|exact Ha]]; [lia|by apply aok_delete].
    + by apply kaok_insert.
    + iApply kworld_insert; [by eapply Hkx|]. iFrame "HF". unfold kown. simpl.
      iSplitR. { iPureIntro. rewrite fst_zip //. rewrite zip_with_length. lia. }
      iExists z, ls. iFrame. iPureIntro. split; [|done]. do 2 (split; [done|]). split; [done|]. rewrite snd_zip //.
      rewrite zip_with_length. lia.
Qed.

Lemma aok_unrefs B' rs : aok B' σ -> aok B' (foldr delete σ rs).
Proof. intros H. induction rs as [|r rs IH]; [done|]. simpl. by apply aok_delete. Qed.
Lemma refs_depth rs ks : Forall2 (fun r k => exists tys, Spec.is_var σ r tys k) rs ks -> Forall (fun k => depth k.2 <= B) ks.
Proof. induction 1 as [|r k rs ks [tys Hk] _ IH]; constructor; [|done]. apply (Hσ _ _ Hk). Qed.
Lemma world_not_here E' σ' rs x : σ' !! x = None -> world E' σ' ⊢ ⌜foldr delete σ' rs !! x = None⌝.
Proof.
  iIntros (H) "_". iPureIntro. induction rs as [|r rs IH]; [done|]. simpl. apply lookup_delete_None. by right.
Qed.

Lemma rop_close x : rtyped C st nb D σ κ (RClose x) -> goal (RClose x).
Proof.
  iIntros ((α&rs&Hx&Hrs)) "[H HF]". iDestruct (big_sepM2_lookup_iff with "H") as %Hi.
  iDestruct (kworld_delete with "HF") as ([b refs]) "(%Ef & Ho & HF)"; [done|].
  iDestruct "Ho" as "(%Heq & Ho)". simpl in Heq. subst rs.
  assert (Hab : all_bound E refs).
  { apply Forall_forall. intros [r b'] Hr. simpl. destruct (kok_ref _ _ HK _ _ _ _ _ Ef Hr) as [|[refs' Hr']]; [done|].
    destruct (Hi r) as [_ Hi']. destruct Hi' as [b1 Hb1].
    { apply Hrs. by apply (elem_of_list_fmap_1 fst) in Hr. }
    pose proof (kok_aside _ _ HK r) as Hn. unfold kenv in *. rewrite Hr' in Hn. rewrite Hn in Hb1; [done|by eexists]. }
  assert (Hsx : σ !! x = None).
  { destruct (σ !! x) as [β|] eqn:Eb; [|done]. destruct (some_iff_some _ _ _ (Hi x) Eb) as [b1 Hb1].
    pose proof (kok_aside _ _ HK x) as Hn. unfold kenv in *. rewrite Ef in Hn. rewrite Hn in Hb1; [done|by eexists]. }
  simpl. unfold kenv in *. rewrite Ef. wpb. iApply wp_need; [by apply bool_decide_eq_true_2|]. iApply wp_ret. simpl.
  pose proof (kok_nodup _ _ HK _ _ _ Ef) as Hnd.
  assert (Hfx : foldr delete σ refs.*1 !! x = None).
  { clear -Hsx. induction refs.*1 as [|r l IH]; [done|]. simpl. apply lookup_delete_None. by right. }
  destruct b as [tys a|u a], α as [tys' k|u' v]; simpl; try done.
  - iDestruct "Ho" as (z t ls) "(%Hp & Hs)". destruct Hp as (->&Hk&Ht&Hrefs).
    iDestruct (world_unrefs C W with "H") as (ks) "(%Hks & Hm & H)"; [done..|].
    iDestruct (shell_close C W with "[$Hs $Hm]") as "Hs"; [done|].
    assert (Hd : depth (UV z ks) <= Datatypes.S B) by (apply depth_UV; by eapply refs_depth).
    iApply (rpost_intro _ _ _ _ (<[x := fill (AVar tys k) ks]> (foldr delete σ refs.*1)) (delete x κ)); [by eapply r_close|..].
    + apply aok_insert; [eapply aok_mono, aok_unrefs, Hσ; lia|]. simpl. rewrite Hk. split; [by eapply Hκ|done].
    + by apply kaok_delete.
    + iFrame "HF". iApply world_insert; [done|]. iFrame "H". simpl. rewrite Hk. iSplitR; [done|]. by destruct k as [[??]?].
  - iDestruct "Ho" as (z ls) "(%Hp & %Hz & Hc)". destruct Hp as (->&->&Hrefs).
    iDestruct (world_unrefs C W with "H") as (ks) "(%Hks & Hm & H)"; [done..|].
    assert (Hd : depth (UV z ks) <= Datatypes.S B) by (apply depth_UV; by eapply refs_depth).
    iApply (rpost_intro _ _ _ _ (<[x := fill (AObj u (UV z [])) ks]> (foldr delete σ refs.*1)) (delete x κ)); [by eapply r_close|..].
    + apply aok_insert; [eapply aok_mono, aok_unrefs, Hσ; lia|]. done.
    + by apply kaok_delete.
    + iFrame "HF". iApply world_insert; [done|]. iFrame "H". simpl. iSplitR; [done|]. iExists (OUser u z ls). iFrame "Hc".
      rewrite R_unfold. iExists ls. by iFrame.
Qed.

(** The operand as an object of its own. *)
Lemma aside o : o ∉ dom σ -> σ !! o = None.
Proof. apply not_elem_of_dom. Qed.
Lemma put_back x y o α β γ δ : o <> x -> o <> y -> x <> y -> σ !! o = None ->
  <[y := δ]> (delete o (<[x := α]> (<[o := β]> (<[o := γ]> σ)))) = <[x := α]> (<[y := δ]> σ).
Proof.
  intros H1 H2 H3 Ho. rewrite delete_insert_ne // insert_insert delete_insert // insert_commute //.
Qed.

Lemma rop_assign_get x y u mv : rtyped C st nb D σ κ (RAssignGet x y u mv) -> goal (RAssignGet x y u mv).
Proof.
  iIntros ((Hne&tys&k1&tys2&k2&Hx&Hy&[i Hi]&Hcl)) "[H HF]".
  destruct (Hσ _ _ Hx) as [Hty Hd1]. destruct (Hσ _ _ Hy) as [Hty2 Hd2].
  iDestruct (world_var_ty C st nb E σ with "H") as %(a0&t&_&Ht); [exact Hy|].
  iDestruct (world_var2 with "H") as (a b) "([%Ha %Hb] & Hk1 & Hk2 & H)"; [exact Hne|exact Hx|exact Hy|]. simpl.
  wpb. iApply wp_need_var; [done|]. wpb. iApply wp_need_var; [done|]. simpl.
  iApply (wp_get_ref C st nb Hwf); [done|]. iFrame "Hk2".
  set (o := fresh (dom σ)). pose proof (aside o (is_fresh _)) as Ho.
  assert (Hox : o <> x) by (intros ->; unfold Spec.is_var in Hx; congruence).
  assert (Hoy : o <> y) by (intros ->; unfold Spec.is_var in Hy; congruence).
  iSplit.
  - iIntros (l kd w Htu) "Hl Hback". wpb.
    assert (Hh : has tys2 k2 u) by by exists t.
    assert (Hsrc : forall v', from_src B mv k1.2 k2.2 v' -> depth v' <= B).
    { intros v'. destruct mv; simpl; [naive_solver|by intros ->]. }
    iApply (var_assign_from_spec _ _ Hwf _ _ Hok with "[$Hk1 $Hl]"); [done..|by eexists; apply best_match_resolve|]. iSplit.
    + iIntros ([]) "[(%k' & %Hk' & Hk1) (%v' & %Hv' & Hl)]". iApply wp_ret. simpl. iDestruct ("Hback" with "Hl") as "Hk2".
      iDestruct ("H" with "Hk1 Hk2") as "H". iApply rpost_intro'; [| |iFrame].
      * rewrite -(put_back x y o _ (AObj u v') (AObj u k2.2)) //.
        eapply r_assign_get; [done..| |].
        -- eapply s_assign_from; [unfold Spec.is_var; by rewrite lookup_insert_ne|unfold is_obj; by rewrite lookup_insert|by apply from_ok_spec|by eapply from_src_spec].
        -- unfold is_obj. rewrite lookup_insert_ne // lookup_insert //.
      * apply (aok_two C st nb B σ); [done| |split; [done|by apply Hsrc]]. split; [done|].
        destruct Hk' as (t1&_&Hk'). destruct (decide _); [by subst|]. destruct Hk' as (?&?&_&_&->). by apply conv_depth.
    + iIntros (e) "[(%k' & %Hk' & Hk1) (%v' & %Hv' & Hl)]". iDestruct ("Hback" with "Hl") as "Hk2".
      iDestruct ("H" with "Hk1 Hk2") as "H". iApply rpost_intro'; [| |iFrame].
      * rewrite -(put_back x y o _ (AObj u v') (AObj u k2.2)) //.
        eapply r_assign_get; [done..| |].
        -- eapply s_assign_from_x; [unfold Spec.is_var; by rewrite lookup_insert_ne|unfold is_obj; by rewrite lookup_insert|by eapply from_fail_spec|by eapply from_src_spec].
        -- unfold is_obj. rewrite lookup_insert_ne // lookup_insert //.
      * apply (aok_two C st nb B σ); [done| |split; [done|by apply Hsrc]]. split; [done|].
        destruct Hk' as (t1&_&Hk'). destruct (decide _); [by apply Hk'|]. destruct Hk' as (?&?&_&_&[[-> _]|Hk']); [done|].
        eapply massign_fail_depth; [|done..]. pose proof (depth_pos k1.2). lia.
  - iIntros (Htu) "Hk2". iDestruct ("H" with "Hk1 Hk2") as "H". rewrite (insert_id σ y) // (insert_id σ x) //.
    iApply rpost_intro'; [|done|iFrame]. eapply r_assign_get_bad; [done|]. intros (t'&Ht'&Hu'). congruence.
Qed.

Lemma rop_from_get x tys y u mv : rtyped C st nb D σ κ (RFromGet x tys y u mv) -> goal (RFromGet x tys y u mv).
Proof.
  iIntros ((Hx&Hkx&Hg&[i Hi]&tys2&k2&Hy)) "[H HF]".
  destruct (Hσ _ _ Hy) as [Hty2 Hd2]. pose proof Hi as (ti&_&Hti&_).
  iDestruct (world_none with "H") as %HE; [done|]. iDestruct (kworld_none with "HF") as %HKx; [done|].
  iDestruct (world_var_ty C st nb E σ with "H") as %(a0&t&_&Ht); [exact Hy|].
  iDestruct (world_var with "H") as (b) "(%Hb & Hk2 & H)"; [exact Hy|]. simpl.
  wpb. iApply wp_need; [by apply bool_decide_eq_true_2|]. wpb. iApply wp_need_var; [done|]. simpl.
  iApply (wp_get_ref C st nb Hwf); [done|]. iFrame "Hk2".
  set (o := fresh ({[x]} ∪ dom σ)). assert (Ho' : o ∉ ({[x]} ∪ dom σ : gset name)) by apply is_fresh.
  apply not_elem_of_union in Ho' as [Hox Ho]. apply not_elem_of_singleton in Hox. apply aside in Ho.
  assert (Hoy : o <> y) by (intros ->; unfold Spec.is_var in Hy; congruence).
  assert (Hxy : x <> y) by (intros ->; unfold Spec.is_var in Hy; congruence).
  iSplit.
  - iIntros (l kd w Htu) "Hl Hback". wpb. iApply wp_new_var; [done|]. iIntros (q) "Hq".
    assert (Hh : has tys2 k2 u) by by exists t.
    iApply (var_from_spec _ _ Hwf _ _ Hok with "[$Hq $Hl]"); [done|by apply best_match_resolve|done|]. iSplit.
    + iIntros ([]) "[Hq (%v' & %Hv' & Hl)]". iDestruct ("Hback" with "Hl") as "Hk2". iDestruct ("H" with "Hk2") as "H".
      iApply wp_ret. simpl. iApply rpost_intro'; [| |iFrame "HF"].
      * eapply r_from_get; [done|done|exact Ho|done| |].
        -- eapply s_from; [unfold is_obj; by rewrite lookup_insert|done..].
        -- unfold is_obj. rewrite lookup_insert_ne // lookup_insert //.
      * apply aok_insert; [apply aok_delete, aok_insert; [|split; [by apply good_tys_wf|by apply conv_depth]]|].
        -- apply aok_insert; [apply aok_insert; [done|]|]; simpl; [done|]. by rewrite (operand_depth _ _ _ Hv').
        -- split; [done|]. simpl. by rewrite (operand_depth _ _ _ Hv').
      * rewrite put_back //. iApply world_new_var; [by rewrite lookup_insert_ne|]. iFrame.
    + iIntros (e) "(%Hf & Hq & (%v' & %Hv' & Hl))". iSplitL "Hq"; [by iExists _|].
      iDestruct ("Hback" with "Hl") as "Hk2". iDestruct ("H" with "Hk2") as "H".
      iApply rpost_intro'; [| |iFrame "HF"].
      * eapply r_from_get; [done|done|exact Ho|done| |].
        -- eapply s_from_x; [unfold is_obj; by rewrite lookup_insert|done..|]. by apply init_fail_spec.
        -- unfold is_obj. rewrite lookup_insert //.
      * apply aok_insert; [apply aok_delete; apply aok_insert; [apply aok_insert; [done|]|]; simpl; [done|]; by rewrite (operand_depth _ _ _ Hv')|].
        split; [done|]. simpl. by rewrite (operand_depth _ _ _ Hv').
      * rewrite insert_insert delete_insert //.
  - iIntros (Htu) "Hk2". iDestruct ("H" with "Hk2") as "H". rewrite insert_id //.
    iApply rpost_intro'; [|done|iFrame]. eapply r_from_get_bad; [done|]. intros (t'&Ht'&Hu'). congruence.
Qed.

Lemma rop_poke_get x u y : rtyped C st nb D σ κ (RPokeGet x u y) -> goal (RPokeGet x u y).
Proof.
  iIntros ((Hne&tys&k1&tys2&k2&Hx&Hy&Hcl)) "[H HF]".
  destruct (Hσ _ _ Hx) as [Hty Hd1]. destruct (Hσ _ _ Hy) as [Hty2 Hd2].
  iDestruct (world_var_ty C st nb E σ with "H") as %(a0&t&_&Ht); [exact Hy|].
  iDestruct (world_var_ty C st nb E σ with "H") as %(a1&t1&_&Ht1); [exact Hx|].
  iDestruct (world_var2 with "H") as (a b) "([%Ha %Hb] & Hk1 & Hk2 & H)"; [exact Hne|exact Hx|exact Hy|]. simpl.
  wpb. iApply wp_need_var; [done|]. wpb. iApply wp_need_var; [done|]. simpl.
  iApply (wp_get_ref C st nb Hwf); [done|]. iFrame "Hk2".
  set (o := fresh (dom σ)). pose proof (aside o (is_fresh _)) as Ho.
  assert (Hox : o <> x) by (intros ->; unfold Spec.is_var in Hx; congruence).
  iSplit.
  - iIntros (l kd w Htu) "Hl Hback". wpb. unfold var_poke.
    assert (Hh : has tys2 k2 u) by by exists t.
    assert (Hpb : forall α, delete o (<[x := α]> (<[o := AObj u k2.2]> σ)) = <[x := α]> σ).
    { intros. rewrite delete_insert_ne // delete_insert //. }
    iApply (wp_get_ref C st nb Hwf); [done|]. iFrame "Hk1". iSplit.
    + iIntros (l1 kd1 w1 Htu1) "Hl1 Hback1". assert (Hh1 : has tys k1 u) by by exists t1.
      iApply (ok_cassign _ _ _ _ Hok with "[$Hl1 $Hl]"); [done..|]. iSplit.
      * iIntros ([]) "[Hl1 Hl]". iApply wp_ret. simpl. iDestruct ("Hback" with "Hl") as "Hk2". iDestruct ("Hback1" with "Hl1") as "Hk1".
        iDestruct ("H" with "Hk1 Hk2") as "H". rewrite (insert_id σ y); [|by destruct k2].
        iApply (rpost_intro' _ _ _ (<[x := AVar tys (k1.1, k2.2)]> σ)); [rewrite -Hpb; eapply r_poke_get; [done..|eapply s_poke; [unfold Spec.is_var; by rewrite lookup_insert_ne|unfold is_obj; by rewrite lookup_insert|done]]| |iFrame].
        by apply aok_insert.
      * iIntros (e) "(%Hc & (%v' & %Hv' & Hl1) & Hl)". iDestruct ("Hback" with "Hl") as "Hk2". iDestruct ("Hback1" with "Hl1") as "Hk1".
        iDestruct ("H" with "Hk1 Hk2") as "H". rewrite (insert_id σ y); [|by destruct k2].
        iApply (rpost_intro' _ _ _ (<[x := AVar tys (k1.1, v')]> σ)); [rewrite -Hpb; eapply r_poke_get; [done..|eapply s_poke_x; [unfold Spec.is_var; by rewrite lookup_insert_ne|done..]]| |iFrame].
        by apply aok_insert.
    + iIntros (Htu1) "Hk1". iDestruct ("Hback" with "Hl") as "Hk2".
      iDestruct ("H" with "Hk1 Hk2") as "H". rewrite (insert_id σ y); [|by destruct k2]. rewrite (insert_id σ x) //.
      iApply (rpost_intro' _ _ _ σ); [|done|iFrame]. rewrite -{2}(delete_insert σ o (AObj u k2.2)) //.
      eapply r_poke_get; [done..|]. eapply s_poke_bad; [unfold Spec.is_var; by rewrite lookup_insert_ne|].
      intros (t'&Ht'&Hu'). congruence.
  - iIntros (Htu) "Hk2". iDestruct ("H" with "Hk1 Hk2") as "H". rewrite (insert_id σ y) // (insert_id σ x) //.
    iApply rpost_intro'; [|done|iFrame]. eapply r_poke_get_bad; [done|]. intros (t'&Ht'&Hu'). congruence.
Qed.

Lemma rop_ok c : rtyped C st nb D σ κ c -> goal c.
Proof.
  destruct c; intros Ht.
  - by apply rop_main.
  - by apply rop_open.
  - by apply rop_close.
  - by apply rop_from_get.
  - by apply rop_assign_get.
  - by apply rop_poke_get.
Qed.
End client.
