(** Operations that keep contents where they are (proofs). *)
From stdpp Require Import gmap.
From iris.proofmode Require Import tactics.
From Verif Require Import Base Types TypesFacts Dispatch DispatchFacts Variant Sem Values ValuesFacts Client Observe.
From Verif Require Import Heap Wp Rep SpecInt SpecVar SpecAssign SpecSwap SpecConv SpecQuery.

#[local] Existing Instance known_absorbing.

Section place.
Context (C : cfg) (W : wpar).
Notation tobj := (tobj C W).
Notation tint := (tint C W).
Notation Rvar := (Rvar C W).
Notation wp := (wp W).
Context (Hwf : wf_env C W).
Context (k : nat) (S : usem) (Hok : usem_ok C W k S).
Let Hlim : 0 < lim C := we_lim _ _ Hwf.

(** A variant without its content, which is at [l]. *)
Definition ispine (t : ity) (a : loc) (kd : ckind) (w : option Z) (l : loc) (kd' : ckind) (w' : option Z) : hprop :=
  match t with
  | IPlain _ => (⌞l = a /\ kd' = kd /\ w' = w⌟)%I
  | IWrap u => (⌞kd' = KHeap /\ w' = None⌟ ∗ a ↦ Cell kd (Some (OWrap u l)) w)%I
  end.
Definition spine (tys : list ity) (bk : bool) (i : nat) (t : ity) (a l : loc) (kd : ckind) (w : option Z) : hprop :=
  if bk then (∃ p, ⌞bkok C W tys t⌟ ∗ a ↦ Cell KVar (Some (OBackup t (Some p))) (Some (wz true i)) ∗
                   ispine t p KHeap None l kd w)%I
  else ispine t a KVar (Some (wz false i)) l kd w.

Lemma tint_split t a kd w v :
  tint a kd w t v ⊣⊢ ∃ l kd' w', ispine t a kd w l kd' w' ∗ tobj l kd' w' (ity_uid t) v.
Proof.
  destruct t as [u|u]; simpl.
  - iSplit.
    + iIntros "H". iExists a, kd, w. iSplitR; [done|]. iExact "H".
    + iIntros "(%l & %kd' & %w' & %He & H)". destruct He as (-> & -> & ->). iExact "H".
  - rewrite tint_wrap. iSplit.
    + iIntros "(%p & H & Hp)". iExists p, KHeap, None. iFrame "Hp". by iFrame "H".
    + iIntros "(%l & %kd' & %w' & [%He H] & Hp)". destruct He as [-> ->]. iExists l. iFrame.
Qed.
Lemma Rvar_split tys a k1 :
  Rvar tys a k1 ⊣⊢ ∃ t l kd w, ⌞tys !! k1.1.2 = Some t⌟ ∗ spine tys k1.1.1 k1.1.2 t a l kd w ∗ tobj l kd w (ity_uid t) k1.2.
Proof.
  rewrite Rvar_unfold. destruct k1 as [[[] i] v]; simpl.
  - iSplit.
    + iIntros "(%t & Ht & %p & Hb & Ha & H)". iDestruct (tint_split with "H") as (l kd w) "[H Hl]".
      iExists t, l, kd, w. iFrame "Ht Hl". iExists p. iFrame.
    + iIntros "(%t & %l & %kd & %w & Ht & (%p & Hb & Ha & H) & Hl)". iExists t. iFrame "Ht". iExists p. iFrame "Hb Ha".
      iApply tint_split. iExists l, kd, w. iFrame.
  - iSplit.
    + iIntros "(%t & Ht & H)". iDestruct (tint_split with "H") as (l kd w) "[H Hl]". iExists t, l, kd, w. iFrame.
    + iIntros "(%t & %l & %kd & %w & Ht & H & Hl)". iExists t. iFrame "Ht". iApply tint_split. iExists l, kd, w. iFrame.
Qed.

Lemma spine_stored tys bk i t a l kd w v : spine tys bk i t a l kd w ∗ tobj l kd w (ity_uid t) v ⊢ stored a l.
Proof.
  iIntros "[H Hl]". destruct bk; simpl.
  - iDestruct "H" as (p) "(_ & Ha & H)". destruct t as [u|u]; simpl.
    + iDestruct "H" as %(-> & -> & ->). iDestruct "Hl" as (o) "[Hl HR]".
      iDestruct (R_is_user with "HR") as "[(%z & %ls & ->) HR]".
      iApply (stored_backup _ (IPlain u) p _ (OUser u z ls)); [done|].
      iSplit; [iApply (pt_known with "Ha")|iApply (pt_known with "Hl")].
    + iDestruct "H" as "[_ Hp]". iApply (stored_backup _ (IWrap u) p _ (OWrap u l)); [done|].
      iSplit; [iApply (pt_known with "Ha")|iApply (pt_known with "Hp")].
  - destruct t as [u|u]; simpl.
    + iDestruct "H" as %(-> & -> & ->). iDestruct "Hl" as (o) "[Hl HR]".
      iDestruct (R_is_user with "HR") as "[(%z & %ls & ->) HR]".
      iApply stored_here; [|iApply (pt_known with "Hl")]. done.
    + iDestruct "H" as "[_ H]". iApply stored_here; [|iApply (pt_known with "H")]. done.
Qed.

Lemma Rvar_stored_split tys a k1 :
  Rvar tys a k1 ⊢ ∃ t l kd w, ⌞tys !! k1.1.2 = Some t⌟ ∗
    (stored a l ∧ (spine tys k1.1.1 k1.1.2 t a l kd w ∗ tobj l kd w (ity_uid t) k1.2)).
Proof.
  rewrite Rvar_split. iIntros "(%t & %l & %kd & %w & Ht & H)". iExists t, l, kd, w. iFrame "Ht".
  iSplit; [|done]. by iApply spine_stored.
Qed.

(** The address of the content of an alternative. *)
Lemma iptr_wp {A} t a kd w l kd' w' v (f : uid -> loc -> M A) Q X :
  ispine t a kd w l kd' w' -∗ tobj l kd' w' (ity_uid t) v -∗
  (ispine t a kd w l kd' w' -∗ tobj l kd' w' (ity_uid t) v -∗ wp (f (ity_uid t) l) Q X) -∗
  wp (unwrap_int t a f) Q X.
Proof.
  iIntros "H Hl HQ". destruct t as [u|u]; simpl.
  - iDestruct "H" as %(-> & -> & ->). iApply ("HQ" with "[//] Hl").
  - iDestruct "H" as "[%Hk Ha]". wpb. iApply wrap_ptr_wp. iFrame "Ha". iIntros "Ha". iApply ("HQ" with "[$Ha] Hl"). done.
Qed.
Lemma read_which_spine tys bk i t a l kd w v Q X :
  spine tys bk i t a l kd w -∗ tobj l kd w (ity_uid t) v -∗
  (spine tys bk i t a l kd w -∗ tobj l kd w (ity_uid t) v -∗ Q (wz bk i)) -∗
  wp (read_which a) Q X.
Proof.
  iIntros "H Hl HQ". destruct bk.
  - iDestruct "H" as (p) "(Hb & Ha & H)". iApply wp_read_which. iFrame "Ha". iIntros "Ha".
    iApply ("HQ" with "[Hb Ha H] Hl"). iExists p. iFrame.
  - destruct t as [u|u]; simpl.
    + iDestruct "H" as %(-> & -> & ->). iDestruct "Hl" as (o) "[Hl HR]". iApply wp_read_which. iFrame "Hl". iIntros "Hl".
      iApply ("HQ" with "[//]"). iExists o. iFrame.
    + iDestruct "H" as "[Hk Ha]". iApply wp_read_which. iFrame "Ha". iIntros "Ha". iApply ("HQ" with "[$Ha $Hk] Hl").
Qed.
Lemma which_spine tys bk i t a l kd w v Q X :
  spine tys bk i t a l kd w -∗ tobj l kd w (ity_uid t) v -∗
  (spine tys bk i t a l kd w -∗ tobj l kd w (ity_uid t) v -∗ Q (Z.of_nat i)) -∗
  wp (which a) Q X.
Proof.
  iIntros "H Hl HQ". unfold which. wpb. iApply (read_which_spine with "H Hl"). iIntros "H Hl". iApply wp_ret.
  rewrite which_of_wz. iApply ("HQ" with "H Hl").
Qed.
Lemma visit_spine {A} tys bk i t a l kd w v (f : sty -> loc -> M A) Q X : tys !! i = Some t ->
  spine tys bk i t a l kd w -∗ tobj l kd w (ity_uid t) v -∗
  (spine tys bk i t a l kd w -∗ tobj l kd w (ity_uid t) v -∗ wp (f (if bk then SBk t else SInt t) a) Q X) -∗
  wp (visit C tys a f) Q X.
Proof.
  iIntros (Ht) "H Hl HQ". destruct bk.
  - iDestruct "H" as (p) "(%Hb & Ha & H)".
    iApply (visit_wp _ _ Hlim tys a KVar _ i t true with "Ha"); [done|by intros _; apply Hb|]. iIntros "Ha".
    iApply ("HQ" with "[Ha H] Hl"). iExists p. by iFrame.
  - destruct t as [u|u]; simpl.
    + iDestruct "H" as %(-> & -> & ->). iDestruct "Hl" as (o) "[Hl HR]".
      iApply (visit_wp _ _ Hlim tys a KVar _ i (IPlain u) false with "Hl"); [done|done|]. iIntros "Hl".
      iApply ("HQ" with "[//]"). iExists o. iFrame.
    + iDestruct "H" as "[Hk Ha]".
      iApply (visit_wp _ _ Hlim tys a KVar _ i (IWrap u) false with "Ha"); [done|done|]. iIntros "Ha".
      iApply ("HQ" with "[$Ha $Hk] Hl").
Qed.
Lemma visit_user_spine {A} tys bk i t a l kd w v (f : uid -> loc -> M A) Q X : tys !! i = Some t ->
  spine tys bk i t a l kd w -∗ tobj l kd w (ity_uid t) v -∗
  (spine tys bk i t a l kd w -∗ tobj l kd w (ity_uid t) v -∗ wp (f (ity_uid t) l) Q X) -∗
  wp (visit_user C tys a f) Q X.
Proof.
  iIntros (Ht) "H Hl HQ". unfold visit_user. iApply (visit_spine with "H Hl"); [done|]. iIntros "H Hl". destruct bk; simpl.
  - iDestruct "H" as (p) "(Hb & Ha & H)". wpb. iApply bk_get_wp. iFrame "Ha". iIntros "Ha".
    iApply (iptr_wp with "H Hl"). iIntros "H Hl". iApply ("HQ" with "[Hb Ha H] Hl"). iExists p. iFrame.
  - iApply (iptr_wp with "H Hl"). done.
Qed.

(** Both variants keep their contents where they are; or exchange the pointers to them. *)
Definition stay (a l b r : loc) : hprop := stored a l ∧ stored b r.
Lemma stay_intro tys a b ba i ta l kl wl va bb j tb r kr wr vb :
  spine tys ba i ta a l kl wl -∗ tobj l kl wl (ity_uid ta) va -∗
  spine tys bb j tb b r kr wr -∗ tobj r kr wr (ity_uid tb) vb -∗ stay a l b r.
Proof.
  iIntros "H1 H2 H3 H4". iSplit.
  - iApply (spine_stored tys ba i ta a l kl wl va with "[$H1 $H2]").
  - iApply (spine_stored tys bb j tb b r kr wr vb with "[$H3 $H4]").
Qed.

Lemma i_cassign_place t a ka wa l kl wl v1 b kb wb r kr wr v2 Q X :
  depth v1 <= k -> depth v2 <= k -> clean v2 = true ->
  ispine t a ka wa l kl wl ∗ tobj l kl wl (ity_uid t) v1 ∗ ispine t b kb wb r kr wr ∗ tobj r kr wr (ity_uid t) v2 ∗
  (∀ v, ispine t a ka wa l kl wl -∗ tobj l kl wl (ity_uid t) v -∗ ispine t b kb wb r kr wr -∗
        tobj r kr wr (ity_uid t) v2 -∗ Q tt ∧ ∀ e, X e)
  ⊢ wp (i_cassign S t a b) Q X.
Proof.
  iIntros (H1 H2 Hc) "(Ha & Hl & Hb & Hr & HQ)". destruct t as [u|u]; simpl.
  - iDestruct "Ha" as %(-> & -> & ->). iDestruct "Hb" as %(-> & -> & ->).
    iApply (ok_cassign _ _ _ _ Hok with "[$Hl $Hr]"); [done..|]. iSplit.
    + iIntros ([]) "[Hl Hr]". iDestruct ("HQ" with "[//] Hl [//] Hr") as "[$ _]".
    + iIntros (e) "(_ & (%v' & _ & Hl) & Hr)". iDestruct ("HQ" with "[//] Hl [//] Hr") as "[_ HQ]". iApply "HQ".
  - iDestruct "Ha" as "[%Hk1 Ha]". iDestruct "Hb" as "[%Hk2 Hb]".
    wpb. iApply wrap_ptr_wp. iFrame "Ha". iIntros "Ha". wpb. iApply wrap_ptr_wp. iFrame "Hb". iIntros "Hb".
    iApply (ok_cassign _ _ _ _ Hok with "[$Hl $Hr]"); [done..|]. iSplit.
    + iIntros ([]) "[Hl Hr]". iDestruct ("HQ" with "[$Ha //] Hl [$Hb //] Hr") as "[$ _]".
    + iIntros (e) "(_ & (%v' & _ & Hl) & Hr)". iDestruct ("HQ" with "[$Ha //] Hl [$Hb //] Hr") as "[_ HQ]". iApply "HQ".
Qed.

(** Assignment between variants with equal discriminators. *)
Lemma var_assign_place tys a b k1 k2 : depth k1.2 <= k -> depth k2.2 <= k -> clean k2.2 = true -> k1.1 = k2.1 ->
  Rvar tys a k1 ∗ Rvar tys b k2 ⊢ ∃ l r, stay a l b r ∧
    wp (var_assign C S tys a b) (λ _, stay a l b r) (λ _, stay a l b r).
Proof.
  iIntros (Hd1 Hd2 Hc Hk) "[Ha Hb]". destruct k1 as [[bk i] v1], k2 as [[bk2 i2] v2]. simpl in *. injection Hk as <- <-.
  iDestruct (Rvar_split with "Ha") as (t l kl wl) "(%Ht & Ha & Hl)".
  iDestruct (Rvar_split with "Hb") as (t' r kr wr) "(%Ht' & Hb & Hr)". simpl in *. rewrite Ht in Ht'. injection Ht' as <-.
  iExists l, r. iSplit; [iApply (stay_intro with "Ha Hl Hb Hr")|].
  unfold var_assign. wpb. iApply (read_which_spine with "Ha Hl"). iIntros "Ha Hl".
  wpb. iApply (read_which_spine with "Hb Hr"). iIntros "Hb Hr". rewrite decide_True //.
  iApply (visit_spine with "Ha Hl"); [done|]. iIntros "Ha Hl". destruct bk; simpl.
  - iDestruct "Ha" as (p) "(Hkp & Ha & Hp)". iDestruct "Hb" as (q) "(Hkq & Hb & Hq)".
    wpb. iApply bk_get_wp. iFrame "Ha". iIntros "Ha". wpb. iApply bk_get_wp. iFrame "Hb". iIntros "Hb".
    iApply i_cassign_place; [exact Hd1|exact Hd2|done|]. iFrame "Hp Hl Hq Hr". iIntros (v) "Hp Hl Hq Hr".
    iAssert (spine tys true i t a l kl wl) with "[Hkp Ha Hp]" as "Ha"; [iExists p; iFrame|].
    iAssert (spine tys true i t b r kr wr) with "[Hkq Hb Hq]" as "Hb"; [iExists q; iFrame|].
    iSplit; [|iIntros (e)]; iApply (stay_intro with "Ha Hl Hb Hr").
  - iApply i_cassign_place; [exact Hd1|exact Hd2|done|]. iFrame "Ha Hl Hb Hr". iIntros (v) "Ha Hl Hb Hr".
    iSplit; [|iIntros (e)]; iApply (stay_intro tys _ _ false _ _ _ _ _ _ false with "Ha Hl Hb Hr").
Qed.

(** Self-assignment and moves. *)
Definition wraps (t : ity) : bool := match t with IWrap _ => true | IPlain _ => false end.
Lemma i_cassign_self_place t a ka wa l kl wl v Q X : depth v <= k ->
  ispine t a ka wa l kl wl ∗ tobj l kl wl (ity_uid t) v ∗
  (∀ v', ispine t a ka wa l kl wl -∗ tobj l kl wl (ity_uid t) v' -∗ Q tt ∧ ∀ e, X e)
  ⊢ wp (i_cassign S t a a) Q X.
Proof.
  iIntros (H1) "(Ha & Hl & HQ)". destruct t as [u|u]; simpl.
  - iDestruct "Ha" as %(-> & -> & ->).
    iApply (ok_cassign_self _ _ _ _ Hok with "Hl"); [done..|]. iSplit.
    + iIntros ([]) "Hl". iDestruct ("HQ" with "[//] Hl") as "[$ _]".
    + iIntros (e) "(_ & %v' & _ & Hl)". iDestruct ("HQ" with "[//] Hl") as "[_ HQ]". iApply "HQ".
  - iDestruct "Ha" as "[%Hk1 Ha]".
    wpb. iApply wrap_ptr_wp. iFrame "Ha". iIntros "Ha". wpb. iApply wrap_ptr_wp. iFrame "Ha". iIntros "Ha".
    iApply (ok_cassign_self _ _ _ _ Hok with "Hl"); [done..|]. iSplit.
    + iIntros ([]) "Hl". iDestruct ("HQ" with "[$Ha //] Hl") as "[$ _]".
    + iIntros (e) "(_ & %v' & _ & Hl)". iDestruct ("HQ" with "[$Ha //] Hl") as "[_ HQ]". iApply "HQ".
Qed.
Lemma i_massign_self_place t a ka wa l kl wl v Q X : depth v <= k ->
  ispine t a ka wa l kl wl ∗ tobj l kl wl (ity_uid t) v ∗
  (∀ v', ispine t a ka wa l kl wl -∗ tobj l kl wl (ity_uid t) v' -∗ Q tt ∧ ∀ e, ⌞it_massign C t = false⌟ -∗ X e)
  ⊢ wp (i_massign S t a a) Q X.
Proof.
  iIntros (H1) "(Ha & Hl & HQ)". destruct t as [u|u]; simpl.
  - iDestruct "Ha" as %(-> & -> & ->).
    iApply (ok_massign_self _ _ _ _ Hok with "Hl"); [done..|]. iSplit.
    + iIntros ([]) "(%v' & _ & Hl)". iDestruct ("HQ" with "[//] Hl") as "[$ _]".
    + iIntros (e) "(%Hm & %v' & _ & Hl)". iDestruct ("HQ" with "[//] Hl") as "[_ HQ]". by iApply "HQ".
  - iDestruct "Ha" as "[%Hk1 Ha]". iApply wp_noexcept.
    wpb. iApply wrap_ptr_wp. iFrame "Ha". iIntros "Ha". wpb. iApply wrap_ptr_wp. iFrame "Ha". iIntros "Ha".
    wpb. iApply (wp_modify_obj _ a ka wa (OWrap u l)); [done|]. iFrame "Ha". iIntros "Ha".
    iApply (wp_modify_obj _ a ka wa (OWrap u l)); [done|]. iFrame "Ha". iIntros "Ha".
    iDestruct ("HQ" with "[$Ha //] Hl") as "[$ _]".
Qed.
Lemma i_massign_place t a ka wa l kl wl v1 b kb wb r kr wr v2 Q X :
  depth v1 <= k -> depth v2 <= k -> clean v2 = true ->
  ispine t a ka wa l kl wl ∗ tobj l kl wl (ity_uid t) v1 ∗ ispine t b kb wb r kr wr ∗ tobj r kr wr (ity_uid t) v2 ∗
  (∀ v v', (if wraps t then ispine t a ka wa r kr wr else ispine t a ka wa l kl wl) -∗
           tobj l kl wl (ity_uid t) v -∗
           (if wraps t then ispine t b kb wb l kl wl else ispine t b kb wb r kr wr) -∗
           tobj r kr wr (ity_uid t) v' -∗ Q tt ∧ ∀ e, ⌞it_massign C t = false⌟ -∗ X e)
  ⊢ wp (i_massign S t a b) Q X.
Proof.
  iIntros (H1 H2 Hc) "(Ha & Hl & Hb & Hr & HQ)". destruct t as [u|u]; simpl.
  - iDestruct "Ha" as %(-> & -> & ->). iDestruct "Hb" as %(-> & -> & ->).
    iApply (ok_massign _ _ _ _ Hok with "[$Hl $Hr]"); [done..|]. iSplit.
    + iIntros ([]) "(Hl & %v' & _ & Hr)". iDestruct ("HQ" with "[//] Hl [//] Hr") as "[$ _]".
    + iIntros (e) "(%Hm & (%v & _ & Hl) & %v' & _ & Hr)". iDestruct ("HQ" with "[//] Hl [//] Hr") as "[_ HQ]". by iApply "HQ".
  - iDestruct "Ha" as "[%Hk1 Ha]". iDestruct "Hb" as "[%Hk2 Hb]". iApply wp_noexcept.
    wpb. iApply wrap_ptr_wp. iFrame "Hb". iIntros "Hb". wpb. iApply wrap_ptr_wp. iFrame "Ha". iIntros "Ha".
    wpb. iApply (wp_modify_obj _ b kb wb (OWrap u r)); [done|]. iFrame "Hb". iIntros "Hb".
    iApply (wp_modify_obj _ a ka wa (OWrap u l)); [done|]. iFrame "Ha". iIntros "Ha".
    iDestruct ("HQ" with "[$Ha //] Hl [$Hb //] Hr") as "[$ _]".
Qed.

Lemma var_assign_self_place tys a k1 : depth k1.2 <= k ->
  Rvar tys a k1 ⊢ ∃ l, stored a l ∧ wp (var_assign C S tys a a) (λ _, stored a l) (λ _, stored a l).
Proof.
  iIntros (Hd1) "Ha". destruct k1 as [[bk i] v1]. simpl in *.
  iDestruct (Rvar_split with "Ha") as (t l kl wl) "(%Ht & Ha & Hl)". simpl in *.
  iExists l. iSplit; [iApply (spine_stored with "[$Ha $Hl]")|].
  unfold var_assign. wpb. iApply (read_which_spine with "Ha Hl"). iIntros "Ha Hl".
  wpb. iApply (read_which_spine with "Ha Hl"). iIntros "Ha Hl". rewrite decide_True //.
  iApply (visit_spine with "Ha Hl"); [done|]. iIntros "Ha Hl". destruct bk; simpl.
  - iDestruct "Ha" as (p) "(Hkp & Ha & Hp)".
    wpb. iApply bk_get_wp. iFrame "Ha". iIntros "Ha". wpb. iApply bk_get_wp. iFrame "Ha". iIntros "Ha".
    iApply i_cassign_self_place; [exact Hd1|]. iFrame "Hp Hl". iIntros (v) "Hp Hl".
    iAssert (spine tys true i t a l kl wl) with "[Hkp Ha Hp]" as "Ha"; [iExists p; iFrame|].
    iSplit; [|iIntros (e)]; iApply (spine_stored tys true i t with "[$Ha $Hl]").
  - iApply i_cassign_self_place; [exact Hd1|]. iFrame "Ha Hl". iIntros (v) "Ha Hl".
    iSplit; [|iIntros (e)]; iApply (spine_stored tys false i t with "[$Ha $Hl]").
Qed.

Lemma massign_noexcept tys i t : tys !! i = Some t -> it_massign C t = false ->
  move_noexcept_constructible C tys && move_noexcept_assignable C tys = false.
Proof.
  intros Ht Hm. destruct (_ && _) eqn:E; [|done]. apply andb_true_iff in E as [E1 E2].
  rewrite (forallb_lookup _ _ _ _ E2 Ht) in Hm. done.
Qed.
Lemma var_massign_self_place tys a k1 : depth k1.2 <= k ->
  Rvar tys a k1 ⊢ ∃ l, stored a l ∧ wp (var_massign C S tys a a) (λ _, stored a l) (λ _, stored a l).
Proof.
  iIntros (Hd1) "Ha". destruct k1 as [[bk i] v1]. simpl in *.
  iDestruct (Rvar_split with "Ha") as (t l kl wl) "(%Ht & Ha & Hl)". simpl in *.
  iExists l. iSplit; [iApply (spine_stored with "[$Ha $Hl]")|].
  unfold var_massign, variant_massign. iApply wp_noexcept_if.
  wpb. iApply (read_which_spine with "Ha Hl"). iIntros "Ha Hl".
  wpb. iApply (read_which_spine with "Ha Hl"). iIntros "Ha Hl". rewrite decide_True //.
  iApply (visit_spine with "Ha Hl"); [done|]. iIntros "Ha Hl". destruct bk; simpl.
  - iDestruct "Ha" as (p) "(Hkp & Ha & Hp)".
    wpb. iApply bk_get_wp. iFrame "Ha". iIntros "Ha". wpb. iApply bk_get_wp. iFrame "Ha". iIntros "Ha".
    iApply i_massign_self_place; [exact Hd1|]. iFrame "Hp Hl". iIntros (v) "Hp Hl".
    iAssert (spine tys true i t a l kl wl) with "[Hkp Ha Hp]" as "Ha"; [iExists p; iFrame|].
    iSplit; [|iIntros (e Hm); rewrite (massign_noexcept _ _ _ Ht Hm)]; iApply (spine_stored tys true i t with "[$Ha $Hl]").
  - iApply i_massign_self_place; [exact Hd1|]. iFrame "Ha Hl". iIntros (v) "Ha Hl".
    iSplit; [|iIntros (e Hm); rewrite (massign_noexcept _ _ _ Ht Hm)]; iApply (spine_stored tys false i t with "[$Ha $Hl]").
Qed.

(** Moves between variants with equal discriminators. *)
Definition moved_to (t : ity) (a l b r : loc) : hprop := if wraps t then stay a r b l else stay a l b r.
Lemma moved_intro tys a b bk i t l kl wl v r kr wr v' :
  (if wraps t then spine tys bk i t a r kr wr else spine tys bk i t a l kl wl) -∗
  tobj l kl wl (ity_uid t) v -∗
  (if wraps t then spine tys bk i t b l kl wl else spine tys bk i t b r kr wr) -∗
  tobj r kr wr (ity_uid t) v' -∗ moved_to t a l b r.
Proof.
  iIntros "H1 H2 H3 H4". unfold moved_to. destruct (wraps t).
  - iApply (stay_intro with "H1 H4 H3 H2").
  - iApply (stay_intro with "H1 H2 H3 H4").
Qed.
Lemma var_massign_place tys a b k1 k2 t : depth k1.2 <= k -> depth k2.2 <= k -> clean k2.2 = true -> k1.1 = k2.1 ->
  tys !! k1.1.2 = Some t ->
  Rvar tys a k1 ∗ Rvar tys b k2 ⊢ ∃ l r, stay a l b r ∧
    wp (var_massign C S tys a b) (λ _, moved_to t a l b r) (λ _, moved_to t a l b r).
Proof.
  iIntros (Hd1 Hd2 Hc Hk Ht) "[Ha Hb]". destruct k1 as [[bk i] v1], k2 as [[bk2 i2] v2]. simpl in *. injection Hk as <- <-.
  iDestruct (Rvar_split with "Ha") as (t1 l kl wl) "(%Ht1 & Ha & Hl)".
  iDestruct (Rvar_split with "Hb") as (t' r kr wr) "(%Ht' & Hb & Hr)". simpl in *. rewrite Ht in Ht', Ht1.
  injection Ht' as <-. injection Ht1 as <-.
  iExists l, r. iSplit; [iApply (stay_intro with "Ha Hl Hb Hr")|].
  unfold var_massign, variant_massign. iApply wp_noexcept_if.
  wpb. iApply (read_which_spine with "Ha Hl"). iIntros "Ha Hl".
  wpb. iApply (read_which_spine with "Hb Hr"). iIntros "Hb Hr". rewrite decide_True //.
  iApply (visit_spine with "Ha Hl"); [done|]. iIntros "Ha Hl". destruct bk; simpl.
  - iDestruct "Ha" as (p) "(#Hkp & Ha & Hp)". iDestruct "Hb" as (q) "(Hkq & Hb & Hq)".
    wpb. iApply bk_get_wp. iFrame "Ha". iIntros "Ha". wpb. iApply bk_get_wp. iFrame "Hb". iIntros "Hb".
    iApply i_massign_place; [exact Hd1|exact Hd2|done|]. iFrame "Hp Hl Hq Hr". iIntros (v v') "Hp Hl Hq Hr".
    iAssert (moved_to t a l b r) with "[Hkp Hkq Ha Hb Hp Hl Hq Hr]" as "H".
    { iApply (moved_intro tys a b true i t with "[Hkp Ha Hp] Hl [Hkq Hb Hq] Hr").
      - destruct (wraps t); iExists p; iFrame; done.
      - destruct (wraps t); iExists q; iFrame; done. }
    iSplit; [|iIntros (e Hm); rewrite (massign_noexcept _ _ _ Ht Hm)]; done.
  - iApply i_massign_place; [exact Hd1|exact Hd2|done|]. iFrame "Ha Hl Hb Hr". iIntros (v v') "Ha Hl Hb Hr".
    iAssert (moved_to t a l b r) with "[Ha Hb Hl Hr]" as "H".
    { iApply (moved_intro tys a b false i t with "Ha Hl Hb Hr"). }
    iSplit; [|iIntros (e Hm); rewrite (massign_noexcept _ _ _ Ht Hm)]; done.
Qed.

(** Swap of equal alternatives. *)
Lemma var_swap_place tys a b k1 k2 : depth k1.2 <= k -> depth k2.2 <= k -> k1.1.2 = k2.1.2 -> swap_pre C tys k1 k2 ->
  Rvar tys a k1 ∗ Rvar tys b k2 ⊢ ∃ l r, stay a l b r ∧
    wp (var_swap C S tys a b) (λ _, stay a l b r) (λ _, stay a l b r).
Proof.
  iIntros (Hd1 Hd2 Hk Hpre) "[Ha Hb]". destruct k1 as [[bk i] v1], k2 as [[bk2 i2] v2]. simpl in *. subst i2.
  unfold swap_pre in Hpre. simpl in Hpre. rewrite decide_True // in Hpre. destruct Hpre as [Hc2 Hc1].
  iDestruct (Rvar_split with "Ha") as (t l kl wl) "(%Ht & Ha & Hl)".
  iDestruct (Rvar_split with "Hb") as (t' r kr wr) "(%Ht' & Hb & Hr)". simpl in *. rewrite Ht in Ht'. injection Ht' as <-.
  iExists l, r. iSplit; [iApply (stay_intro with "Ha Hl Hb Hr")|].
  unfold var_swap. wpb. iApply (which_spine with "Ha Hl"). iIntros "Ha Hl".
  wpb. iApply (which_spine with "Hb Hr"). iIntros "Hb Hr". rewrite decide_True //.
  iApply (visit_user_spine with "Ha Hl"); [done|]. iIntros "Ha Hl".
  wpb. iApply (visit_user_spine with "Hb Hr"); [done|]. iIntros "Hb Hr". rewrite decide_True //. iApply wp_ret.
  iApply (ok_swap _ _ _ _ Hok with "[$Hl $Hr]"); [done|done|done|by eapply Hc1|]. iSplit.
  - iIntros ([]) "[Hl Hr]". iApply (stay_intro with "Ha Hl Hb Hr").
  - iIntros (e) "(_ & (%v & _ & Hl) & %v' & _ & Hr)". iApply (stay_intro with "Ha Hl Hb Hr").
Qed.
Lemma var_swap_self_place tys a k1 : depth k1.2 <= k ->
  Rvar tys a k1 ⊢ ∃ l, stored a l ∧ wp (var_swap C S tys a a) (λ _, stored a l) (λ _, stored a l).
Proof.
  iIntros (Hd1) "Ha". destruct k1 as [[bk i] v1]. simpl in *.
  iDestruct (Rvar_split with "Ha") as (t l kl wl) "(%Ht & Ha & Hl)". simpl in *.
  iExists l. iSplit; [iApply (spine_stored with "[$Ha $Hl]")|].
  unfold var_swap. wpb. iApply (which_spine with "Ha Hl"). iIntros "Ha Hl".
  wpb. iApply (which_spine with "Ha Hl"). iIntros "Ha Hl". rewrite decide_True //.
  iApply (visit_user_spine with "Ha Hl"); [done|]. iIntros "Ha Hl".
  wpb. iApply (visit_user_spine with "Ha Hl"); [done|]. iIntros "Ha Hl". rewrite decide_True //. iApply wp_ret.
  iApply (ok_swap_self _ _ _ _ Hok with "Hl"); [done|]. iSplit.
  - iIntros ([]) "(%v & _ & Hl)". iApply (spine_stored with "[$Ha $Hl]").
  - iIntros (e) "(_ & %v & _ & Hl)". iApply (spine_stored with "[$Ha $Hl]").
Qed.

(** Assignment of an object of the type of the content. *)
Lemma var_assign_from_place tys a k1 t s ks ws v2 mv :
  depth k1.2 <= k -> depth v2 <= k -> clean v2 = true -> tys !! k1.1.2 = Some t ->
  Rvar tys a k1 ∗ tobj s ks ws (ity_uid t) v2 ⊢ ∃ l, stored a l ∧
    wp (var_assign_from C S tys a (ity_uid t) s mv) (λ _, stored a l) (λ _, stored a l).
Proof.
  iIntros (Hd1 Hd2 Hc Ht) "[Ha Hs]". destruct k1 as [[bk i] v1]. simpl in *.
  iDestruct (Rvar_split with "Ha") as (t' l kl wl) "(%Ht' & Ha & Hl)". simpl in *. rewrite Ht in Ht'. injection Ht' as <-.
  iExists l. iSplit; [iApply (spine_stored with "[$Ha $Hl]")|].
  unfold var_assign_from. wpb. iApply (visit_user_spine with "Ha Hl"); [done|]. iIntros "Ha Hl".
  unfold direct_assign. rewrite decide_True //. wpb. destruct mv.
  - iApply (ok_massign _ _ _ _ Hok with "[$Hl $Hs]"); [done..|]. iSplit.
    + iIntros ([]) "(Hl & Hs)". iApply wp_ret. iApply wp_ret. iApply (spine_stored with "[$Ha $Hl]").
    + iIntros (e) "(_ & (%v & _ & Hl) & Hs)". iApply (spine_stored with "[$Ha $Hl]").
  - iApply (ok_cassign _ _ _ _ Hok with "[$Hl $Hs]"); [done..|]. iSplit.
    + iIntros ([]) "(Hl & Hs)". iApply wp_ret. iApply wp_ret. iApply (spine_stored with "[$Ha $Hl]").
    + iIntros (e) "(_ & (%v & _ & Hl) & Hs)". iApply (spine_stored with "[$Ha $Hl]").
Qed.

(** Assignment through get. *)
Lemma var_poke_place tys a k1 u s ks ws v2 : depth k1.2 <= k -> depth v2 <= k -> clean v2 = true ->
  Rvar tys a k1 ∗ tobj s ks ws u v2 ⊢ ∃ l, stored a l ∧
    wp (var_poke C S tys a u s) (λ _, stored a l) (λ _, stored a l).
Proof.
  iIntros (Hd1 Hd2 Hc) "[Ha Hs]". destruct k1 as [[bk i] v1]. simpl in *.
  iDestruct (Rvar_split with "Ha") as (t l kl wl) "(%Ht & Ha & Hl)". simpl in *.
  iExists l. iSplit; [iApply (spine_stored with "[$Ha $Hl]")|].
  unfold var_poke, var_get_ref, var_get. wpb. wpb. iApply (visit_user_spine with "Ha Hl"); [done|]. iIntros "Ha Hl".
  iApply wp_ret. case_decide as Hu; last first.
  { iApply wp_throw. iApply (spine_stored with "[$Ha $Hl]"). }
  iApply wp_ret. subst u. iApply (ok_cassign _ _ _ _ Hok with "[$Hl $Hs]"); [done..|]. iSplit.
  - iIntros ([]) "(Hl & Hs)". iApply (spine_stored with "[$Ha $Hl]").
  - iIntros (e) "(_ & (%v & _ & Hl) & Hs)". iApply (spine_stored with "[$Ha $Hl]").
Qed.

End place.
