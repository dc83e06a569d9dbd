(** Read-only computations: they may look at the same variant twice, so they are treated
    without ownership transfer. *)
From stdpp Require Import gmap.
From iris.proofmode Require Import tactics.
From Verif Require Import Base Types Dispatch Variant Sem Heap Wp DispatchFacts Values ValuesFacts Rep SpecInt SpecVar SpecAssign SpecSem.
From Verif Require Client.
From Verif Require Import Observe.

(** Nothing but the consumption of an indeterminate value can be noticed. *)
Definition same_state (W : wpar) (s s' : state) : Prop :=
  mem s' = mem s /\ nxt s' = nxt s /\ tr s' = tr s /\ thrown s' = thrown s /\
  orc s' = orc s /\ opos s' = opos s /\ (strict W = true -> ind s' = ind s).

Lemma same_state_refl W s : same_state W s s.
Proof. repeat split. Qed.
Lemma same_state_trans W s1 s2 s3 : same_state W s1 s2 -> same_state W s2 s3 -> same_state W s1 s3.
Proof.
  intros (?&?&?&?&?&?&Hi1) (?&?&?&?&?&?&Hi2). repeat split; try congruence.
  intros H'. rewrite Hi2 // Hi1 //.
Qed.
Lemma same_state_ginv W s s' : same_state W s s' -> ginv W s -> ginv W s'.
Proof.
  intros (Hm&Hn&Ht&_&_&_&Hi) [H1 H2 H3 H4 H5 H6]. split.
  - intros l c. rewrite Hm Hn. apply H1.
  - intros l. rewrite Ht Hm. apply H2.
  - intros l. rewrite Ht Hm. apply H3.
  - intros e. rewrite Ht Hn. apply H4.
  - intros H. rewrite Hi; auto.
  - intros H l. rewrite Ht. auto.
Qed.

Section rd.
Context (W : wpar).

(** Wherever this memory is, [m] computes [a] and changes nothing. *)
Definition rd {A} (m : M A) (a : A) : hprop :=
  {| hholds h := forall s, h ⊆ mem s -> exists s', m s = Ok a s' /\ same_state W s s' |}.

Global Instance rd_absorbing {A} (m : M A) a : Absorbing (rd m a).
Proof.
  constructor. intros h (h1&h2&->&Hd&_&H) s Hs. apply H. etrans; [|exact Hs].
  by apply map_union_subseteq_r.
Qed.

Lemma rd_ret {A} (a : A) : ⊢ rd (ret a) a.
Proof. constructor. intros h _ s Hs. exists s. split; [done|apply same_state_refl]. Qed.

Lemma rd_bind {A B} (m : M A) (f : A -> M B) a b : rd m a ∧ rd (f a) b ⊢ rd (bind m f) b.
Proof.
  constructor. intros h [H1 H2] s Hs. destruct (H1 s Hs) as (s1&E1&S1).
  destruct (H2 s1) as (s2&E2&S2). { by destruct S1 as (->&_). }
  exists s2. unfold bind. rewrite E1. split; [done|]. by eapply same_state_trans.
Qed.

Lemma rd_get_cell l c : l ↦ c ⊢ rd (get_cell l) c.
Proof.
  constructor. intros h H s Hs. unfold pt, hholds in H. subst. unfold get_cell.
  rewrite (lookup_weaken _ _ _ _ (lookup_singleton l c) Hs). exists s. split; [done|apply same_state_refl].
Qed.

Lemma rd_note_read z : (strict W = true -> z <> None) -> ⊢ rd (note_read z) tt.
Proof.
  intros Hz. constructor. intros h _ s Hs. eexists. split; [done|]. repeat split. simpl. intros H.
  destruct z; [done|]. by specialize (Hz H).
Qed.

Lemma rd_get_obj l k o w : l ↦ Cell k (Some o) w ⊢ rd (get_obj l) o.
Proof.
  unfold get_obj. iIntros "H". iApply rd_bind. iSplit; [by iApply rd_get_cell|]. simpl. by iApply rd_ret.
Qed.
Lemma rd_read_which l k o w : l ↦ Cell k o (Some w) ⊢ rd (read_which l) w.
Proof.
  unfold read_which. iIntros "H". iApply rd_bind. iSplit; [by iApply rd_get_cell|]. simpl. by iApply rd_ret.
Qed.

(** Use inside an ordinary computation. *)
Lemma wp_rd {A} (m : M A) a Q X : rd m a ∧ Q a ⊢ wp W m Q X.
Proof.
  constructor. intros h [H HQ]. apply wp_unfold. intros s hf Hm Hd Hg. destruct (H s) as (s'&E&HS).
  { rewrite Hm. by apply map_union_subseteq_l. }
  rewrite E. exists h. pose proof HS as (->&_&_&->&_). split; [done|]. split; [done|].
  split; [by eapply same_state_ginv|]. done.
Qed.
Lemma wp_rd_bind {A B} (m : M A) (f : A -> M B) a Q X :
  rd m a ∧ wp W (f a) Q X ⊢ wp W (bind m f) Q X.
Proof. iIntros "H". iApply wp_bind. iApply (wp_rd _ a). done. Qed.

(** Visiting the variant at [a] calls the visitor on the object at [l] of type [u]. *)
Definition locates (C : cfg) (tys : list ity) (a : loc) (u : uid) (l : loc) : hprop :=
  {| hholds h := forall A (f : uid -> loc -> M A) s, h ⊆ mem s -> visit_user C tys a f s = f u l s |}.

Global Instance locates_absorbing C tys a u l : Absorbing (locates C tys a u l).
Proof.
  constructor. intros h (h1&h2&->&Hd&_&H) A f s Hs. apply H. etrans; [|exact Hs].
  by apply map_union_subseteq_r.
Qed.

Lemma rd_visit_user C {A} tys a u l (f : uid -> loc -> M A) b :
  locates C tys a u l ∧ rd (f u l) b ⊢ rd (visit_user C tys a f) b.
Proof. constructor. intros h [H1 H2] s Hs. rewrite H1 //. by apply H2. Qed.
Lemma wp_visit_user C {A} tys a u l (f : uid -> loc -> M A) Q X :
  locates C tys a u l ∧ wp W (f u l) Q X ⊢ wp W (visit_user C tys a f) Q X.
Proof.
  constructor. intros h [H1 H2]. apply wp_unfold. intros s hf Hm Hd Hg. rewrite H1; [by apply (proj1 (wp_unfold _ _ _ _ _) H2)|].
  rewrite Hm. by apply map_union_subseteq_l.
Qed.

End rd.

Section query.
Context (C : cfg) (W : wpar) (Hlim : 0 < lim C).
Notation R := (R C W).
Notation RI := (RI C W).
Notation tobj := (tobj C W).
Notation tint := (tint C W).
Notation Rvar := (Rvar C W).
Notation Rmems := (Rmems C W).
Notation rd := (rd W).
Notation locates := (locates C).

(** A cell that is there. *)
Definition known (l : loc) (c : cell) : hprop := {| hholds h := h !! l = Some c |}.
Local Instance known_absorbing l c : Absorbing (known l c).
Proof.
  constructor. intros h (h1&h2&->&Hd&_&H). unfold known, hholds in *. by apply lookup_union_Some_r.
Qed.
Lemma pt_known l c : l ↦ c ⊢ known l c.
Proof. constructor. intros h H. unfold pt, known, hholds in *. subst. apply lookup_singleton. Qed.

Lemma known_read_which a k o w h s : known a (Cell k (Some o) (Some w)) h -> h ⊆ mem s ->
  read_which a s = Ok w s /\ get_obj a s = Ok o s.
Proof.
  intros H Hs. unfold known, hholds in H. unfold read_which, get_obj, get_cell, bind.
  rewrite (lookup_weaken _ _ _ _ H Hs) /=. done.
Qed.
Lemma known_get_obj a k o w h s : known a (Cell k (Some o) w) h -> h ⊆ mem s -> get_obj a s = Ok o s.
Proof.
  intros H Hs. unfold known, hholds in H. unfold get_obj, get_cell, bind.
  rewrite (lookup_weaken _ _ _ _ H Hs) /=. done.
Qed.

Lemma locates_direct tys a i u o :
  tys !! i = Some (IPlain u) ->
  known a (Cell KVar (Some o) (Some (Z.of_nat i))) ⊢ locates tys a u a.
Proof.
  intros Ht. constructor. intros h H A f s Hs. destruct (known_read_which _ _ _ _ _ _ H Hs) as [E _].
  unfold visit_user, visit, bind. rewrite E. rewrite (which_of_wz false i) (visitation_lookup _ _ _ (IPlain u)) //.
  destruct (never_uses_backup C tys _); [done|]. rewrite decide_True //. lia.
Qed.
Lemma locates_wrap tys a i u l :
  tys !! i = Some (IWrap u) ->
  known a (Cell KVar (Some (OWrap u l)) (Some (Z.of_nat i))) ⊢ locates tys a u l.
Proof.
  intros Ht. constructor. intros h H A f s Hs. destruct (known_read_which _ _ _ _ _ _ H Hs) as [E E'].
  unfold visit_user, visit, bind. rewrite E. rewrite (which_of_wz false i) (visitation_lookup _ _ _ (IWrap u)) //.
  assert (Hu : unwrap (SInt (IWrap u)) a f s = f u l s).
  { simpl. unfold wrap_ptr, bind. rewrite E' decide_True //. }
  destruct (never_uses_backup C tys _); [done|]. rewrite decide_True //. lia.
Qed.
Lemma locates_backup tys a i u p :
  tys !! i = Some (IPlain u) -> never_uses_backup C tys (IPlain u) = false ->
  known a (Cell KVar (Some (OBackup (IPlain u) (Some p))) (Some (- (Z.of_nat i + 1))%Z)) ⊢ locates tys a u p.
Proof.
  intros Ht Hn. constructor. intros h H A f s Hs. destruct (known_read_which _ _ _ _ _ _ H Hs) as [E E'].
  unfold visit_user, visit, bind. rewrite E. rewrite (which_of_wz true i) (visitation_lookup _ _ _ (IPlain u)) //.
  rewrite Hn decide_False; [|lia]. simpl. unfold bk_get, bk_ptr, bind. rewrite E' decide_True //.
Qed.
Lemma locates_backup_wrap tys a i u p l w k :
  tys !! i = Some (IWrap u) -> never_uses_backup C tys (IWrap u) = false ->
  known a (Cell KVar (Some (OBackup (IWrap u) (Some p))) (Some (- (Z.of_nat i + 1))%Z)) ∧
  known p (Cell k (Some (OWrap u l)) w) ⊢ locates tys a u l.
Proof.
  intros Ht Hn. constructor. intros h [H H2] A f s Hs. destruct (known_read_which _ _ _ _ _ _ H Hs) as [E E'].
  pose proof (known_get_obj _ _ _ _ _ _ H2 Hs) as E2.
  unfold visit_user, visit, bind. rewrite E. rewrite (which_of_wz true i) (visitation_lookup _ _ _ (IWrap u)) //.
  rewrite Hn decide_False; [|lia]. simpl.
  assert (Hg : bk_get (IWrap u) a s = Ok p s). { unfold bk_get, bk_ptr, bind. rewrite E' decide_True //. }
  assert (Hw : wrap_ptr u p s = Ok l s). { unfold wrap_ptr, bind. rewrite E2 decide_True //. }
  unfold bind. rewrite Hg Hw //.
Qed.

(** Where the content is. *)
Definition stored (a l : loc) : hprop := {| hholds h := forall m, h ⊆ m -> stored_at m a l |}.
Global Instance stored_absorbing a l : Absorbing (stored a l).
Proof.
  constructor. intros h (h1&h2&->&Hd&_&H) m Hs. apply H. etrans; [|exact Hs]. by apply map_union_subseteq_r.
Qed.
Lemma stored_here a o w l : match o with OBackup _ _ => False | _ => content_in o a l end ->
  known a (Cell KVar (Some o) (Some w)) ⊢ stored a l.
Proof.
  intros Ho. constructor. intros h H m Hs. unfold known, hholds in H. exists o, w.
  split; [by eapply lookup_weaken|]. by destruct o.
Qed.
Lemma stored_backup a t p w o l : content_in o p l ->
  known a (Cell KVar (Some (OBackup t (Some p))) (Some w)) ∧ known p (Cell KHeap (Some o) None) ⊢ stored a l.
Proof.
  intros Ho. constructor. intros h [H H'] m Hs. unfold known, hholds in *. eexists _, w.
  split; [by eapply lookup_weaken|]. simpl. exists o. split; [by eapply lookup_weaken|done].
Qed.
Lemma R_is_user v u o : R v u o ⊢ ⌞exists z ls, o = OUser u z ls⌟ ∗ R v u o.
Proof.
  destruct v as [z ks]. rewrite R_unfold. iIntros "(%ls & -> & H)". iSplitR; [by eauto|]. iExists ls. by iFrame.
Qed.

(** The object that visitation finds in a variant, with the rest of the variant. *)
Lemma Rvar_open_stored tys a k :
  Rvar tys a k ⊢ ∃ t l kd w, ⌞tys !! k.1.2 = Some t⌟ ∗
    (locates tys a (ity_uid t) l ∧ stored a l ∧
     (tobj l kd w (ity_uid t) k.2 ∗ ∀ v', tobj l kd w (ity_uid t) v' -∗ Rvar tys a (k.1, v'))).
Proof.
  destruct k as [[bk i] v]; simpl. rewrite Rvar_unfold /=. iIntros "(%t & %Ht & H)". destruct bk.
  - iDestruct "H" as (p) "(%Hb & Ha & %o & Hp & HR)". destruct t as [u|u]; simpl.
    + iExists (IPlain u), p, KHeap, None. iSplitR; [done|]. iDestruct (R_is_user with "HR") as "[(%z & %ls & ->) HR]".
      iSplit; [|iSplit].
      * iApply locates_backup; [done|apply Hb|]. iApply (pt_known with "Ha").
      * iApply (stored_backup _ (IPlain u) p _ (OUser u z ls)); [done|].
        iSplit; [iApply (pt_known with "Ha")|iApply (pt_known with "Hp")].
      * iSplitL "Hp HR". { iExists _. iFrame. }
        iIntros (v') "HT". rewrite Rvar_unfold /=. iExists (IPlain u). iSplitR; [done|]. iExists p. by iFrame.
    + iDestruct "HR" as (l o') "(-> & Hl & HR)". iExists (IWrap u), l, KHeap, None. iSplitR; [done|]. iSplit; [|iSplit].
      * iApply locates_backup_wrap; [done|apply Hb|].
        iSplit; [iApply (pt_known with "Ha")|iApply (pt_known with "Hp")].
      * iApply (stored_backup _ (IWrap u) p _ (OWrap u l)); [done|].
        iSplit; [iApply (pt_known with "Ha")|iApply (pt_known with "Hp")].
      * iSplitL "Hl HR". { iExists o'. iFrame. }
        iIntros (v') "(%o & Hl & HR)". rewrite Rvar_unfold /=. iExists (IWrap u). iSplitR; [done|]. iExists p. iFrame "Ha".
        iSplitR; [done|]. iExists (OWrap u l). iFrame "Hp". iExists l, o. by iFrame.
  - iDestruct "H" as (o) "[Ha HR]". destruct t as [u|u]; simpl.
    + iExists (IPlain u), a, KVar, (Some (Z.of_nat i)). iSplitR; [done|].
      iDestruct (R_is_user with "HR") as "[(%z & %ls & ->) HR]". iSplit; [|iSplit].
      * iApply locates_direct; [done|]. iApply (pt_known with "Ha").
      * iApply stored_here; [|iApply (pt_known with "Ha")]. done.
      * iSplitL. { iExists _. iFrame. }
        iIntros (v') "HT". rewrite Rvar_unfold /=. iExists (IPlain u). iSplitR; [done|]. done.
    + iDestruct "HR" as (l o') "(-> & Hl & HR)". iExists (IWrap u), l, KHeap, None. iSplitR; [done|]. iSplit; [|iSplit].
      * iApply locates_wrap; [done|]. iApply (pt_known with "Ha").
      * iApply stored_here; [|iApply (pt_known with "Ha")]. done.
      * iSplitL "Hl HR". { iExists o'. iFrame. }
        iIntros (v') "(%o & Hl & HR)". rewrite Rvar_unfold /=. iExists (IWrap u). iSplitR; [done|].
        iExists (OWrap u l). iFrame "Ha". iExists l, o. by iFrame.
Qed.
Lemma Rvar_open tys a k :
  Rvar tys a k ⊢ ∃ t l kd w, ⌞tys !! k.1.2 = Some t⌟ ∗
    (locates tys a (ity_uid t) l ∧
     (tobj l kd w (ity_uid t) k.2 ∗ ∀ v', tobj l kd w (ity_uid t) v' -∗ Rvar tys a (k.1, v'))).
Proof.
  iIntros "H". iDestruct (Rvar_open_stored with "H") as (t l kd w) "[%Ht H]". iExists t, l, kd, w. iSplitR; [done|].
  iSplit; [by rewrite bi.and_elim_l|]. by rewrite !bi.and_elim_r.
Qed.

Lemma Rvar_which tys a k : Rvar tys a k ⊢ rd (which a) (Z.of_nat k.1.2).
Proof.
  iIntros "H". unfold which. iApply rd_bind. instantiate (1 := wz k.1.1 k.1.2). iSplit.
  - rewrite Rvar_unfold. iDestruct "H" as (t) "[%Ht H]". destruct k as [[[] i] v]; simpl.
    + iDestruct "H" as (p) "(%Hb & Ha & Hp)". iApply (rd_read_which with "Ha").
    + iDestruct "H" as (o) "[Ha HR]". iApply (rd_read_which with "Ha").
  - rewrite which_of_wz. by iApply rd_ret.
Qed.

Lemma Rvar_read_which tys a k : Rvar tys a k ⊢ rd (read_which a) (wz k.1.1 k.1.2).
Proof.
  iIntros "H". rewrite Rvar_unfold. iDestruct "H" as (t) "[%Ht H]". destruct k as [[[] i] v]; simpl.
  - iDestruct "H" as (p) "(%Hb & Ha & Hp)". iApply (rd_read_which with "Ha").
  - iDestruct "H" as (o) "[Ha HR]". iApply (rd_read_which with "Ha").
Qed.

Lemma rd_expect_user l kl wl u z ls :
  l ↦ Cell kl (Some (OUser u z ls)) wl ⊢ rd (expect_user u l) (z, ls).
Proof.
  iIntros "Hl". unfold expect_user. iApply rd_bind. iSplit; [iApply (rd_get_obj with "Hl")|]. simpl.
  rewrite decide_True //. iApply rd_ret.
Qed.

Section read.
Context (S : usem) (k : nat).
Context (Hrd : forall u l kl wl v, depth v <= k -> tobj l kl wl u v ⊢ rd (us_read S u l) v).

Lemma rd_var_read tys a k1 t : depth k1.2 <= k -> tys !! k1.1.2 = Some t ->
  Rvar tys a k1 ⊢ rd (var_read C S tys a) (ity_uid t, k1.2).
Proof.
  iIntros (Hd Ht) "H". unfold var_read. iDestruct (Rvar_open with "H") as (t' l kd w) "[%Ht' H]".
  rewrite Ht in Ht'. injection Ht' as <-. iApply (rd_visit_user with "[H]"). iSplit; [by iDestruct "H" as "[$ _]"|].
  iDestruct "H" as "[_ [H Hb]]". iApply rd_bind. iSplit; [by iApply (Hrd with "H")|]. iApply rd_ret.
Qed.

Lemma rd_read_members mems ls ks : Forall (fun k1 => depth k1.2 <= k) ks ->
  Rmems mems ls ks ⊢ rd (read_members C S mems ls) ks.
Proof.
  revert mems ls. induction ks as [|k1 ks IH]; intros mems ls Hd.
  - destruct mems, ls; simpl; try by iIntros "[]". iIntros "_". iApply rd_ret.
  - destruct mems as [|tys mems], ls as [|l ls]; simpl; try by iIntros "[]".
    apply Forall_cons in Hd as [Hd1 Hd]. iIntros "[H1 H]".
    iDestruct (Rvar_lookup with "H1") as %[t Ht].
    iApply rd_bind. iSplit; [iApply (Rvar_read_which with "H1")|].
    iApply rd_bind. iSplit; [by iApply (rd_var_read with "H1")|].
    iApply rd_bind. iSplit; [by iApply (IH with "H")|]. simpl.
    match goal with |- environments.envs_entails _ (rd (ret (?x :: _)) _) => assert (x = k1) as -> end.
    + rewrite which_of_wz Nat2Z.id. destruct k1 as [[[] i] v]; simpl; f_equal; f_equal;
        [apply bool_decide_eq_true|apply bool_decide_eq_false]; lia.
    + iApply rd_ret.
Qed.

Lemma rd_u_read u l kl wl v : depth v <= Datatypes.S k -> tobj l kl wl u v ⊢ rd (u_read C S u l) v.
Proof.
  intros Hd. destruct v as [z ks]. rewrite tobj_unfold. iIntros "(%ls & %Hz & Hl & H)".
  apply depth_UV in Hd. unfold u_read.
  iApply rd_bind. iSplit; [iApply (rd_expect_user with "Hl")|].
  iApply rd_bind. iSplit; [by iApply rd_note_read|].
  iApply rd_bind. iSplit; [by iApply (rd_read_members with "H")|]. iApply rd_ret.
Qed.
End read.

Lemma rd_us_read n u l kl wl v : depth v <= S n -> tobj l kl wl u v ⊢ rd (us_read (sem C n) u l) v.
Proof.
  revert u l kl wl v. induction n as [|n IH]; intros u l kl wl v Hd; simpl.
  - apply (rd_u_read usem_stuck 0); [|done]. intros u' l' kl' wl' v' Hd'. destruct v'; simpl in Hd'. lia.
  - by apply (rd_u_read (sem C n) (S n)).
Qed.

(** ** Queries on variants *)
Section queries.
Context (n : nat).
Notation S := (sem C n).

Lemma rd_var_get tys a k t u : tys !! k.1.2 = Some t ->
  Rvar tys a k ⊢ ∃ l kd w, rd (var_get C tys a u) (if decide (ity_uid t = u) then Some l else None) ∧
    (tobj l kd w (ity_uid t) k.2 ∗ ∀ v', tobj l kd w (ity_uid t) v' -∗ Rvar tys a (k.1, v')).
Proof.
  iIntros (Ht) "H". iDestruct (Rvar_open with "H") as (t' l kd w) "[%Ht' H]".
  rewrite Ht in Ht'. injection Ht' as <-. iExists l, kd, w. iSplit; [|by iDestruct "H" as "[_ $]"].
  unfold var_get. iApply rd_visit_user. iSplit; [by iDestruct "H" as "[$ _]"|].
  case_decide; iApply rd_ret.
Qed.

Lemma rd_var_type tys a k t : tys !! k.1.2 = Some t ->
  Rvar tys a k ⊢ rd (var_type C tys a) (ity_uid t).
Proof.
  iIntros (Ht) "H". iDestruct (Rvar_open with "H") as (t' l kd w) "[%Ht' H]".
  rewrite Ht in Ht'. injection Ht' as <-.
  unfold var_type. iApply rd_visit_user. iSplit; [by iDestruct "H" as "[$ _]"|]. iApply rd_ret.
Qed.

(** Two variants, which may be the same one. *)
Lemma Rvar_sees tys a k t : tys !! k.1.2 = Some t ->
  True ∗ Rvar tys a k ⊢ ∃ l kd w, locates tys a (ity_uid t) l ∧ (True ∗ tobj l kd w (ity_uid t) k.2).
Proof.
  iIntros (Ht) "[_ H]". iDestruct (Rvar_open with "H") as (t' l kd w) "[%Ht' H]".
  rewrite Ht in Ht'. injection Ht' as <-. iExists l, kd, w. iSplit; [by iDestruct "H" as "[$ _]"|].
  iDestruct "H" as "[_ [$ _]]".
Qed.

Lemma rd_compare tys cmp a b k1 k2 t :
  depth k1.2 <= Datatypes.S n -> depth k2.2 <= Datatypes.S n -> tys !! k1.1.2 = Some t -> k1.1.2 = k2.1.2 ->
  (True ∗ Rvar tys a k1) ∧ (True ∗ Rvar tys b k2) ⊢
  rd (visit_user C tys b (comparer C S tys cmp a)) (cmp (ity_uid t) k1.2 k2.2).
Proof.
  intros Hd1 Hd2 Ht Hi. assert (Ht2 : tys !! k2.1.2 = Some t) by congruence.
  constructor. intros h [H1 H2].
  destruct (hprop_in_entails _ _ (Rvar_sees tys a k1 t Ht) h H1) as (l1&kd1&w1&Hl1&Ho1).
  destruct (hprop_in_entails _ _ (Rvar_sees tys b k2 t Ht2) h H2) as (l2&kd2&w2&Hl2&Ho2).
  assert (Hx : (locates tys a (ity_uid t) l1 ∧ locates tys b (ity_uid t) l2 ∧
                (True ∗ tobj l1 kd1 w1 (ity_uid t) k1.2) ∧ (True ∗ tobj l2 kd2 w2 (ity_uid t) k2.2))
               ⊢ rd (visit_user C tys b (comparer C S tys cmp a)) (cmp (ity_uid t) k1.2 k2.2)).
  2: { apply (hprop_in_entails _ _ Hx). by repeat split. }
  clear H1 H2 Hl1 Ho1 Hl2 Ho2. iIntros "H".
  iApply rd_visit_user. iSplit; [by iDestruct "H" as "(_ & $ & _)"|]. unfold comparer.
  iApply rd_bind. iSplit.
  { unfold known_get. iApply rd_visit_user. iSplit; [by iDestruct "H" as "($ & _)"|].
    rewrite decide_True //. iApply rd_ret. }
  iApply rd_bind. iSplit; [iDestruct "H" as "(_ & _ & [_ H] & _)"; by iApply (rd_us_read with "H")|].
  iApply rd_bind. iSplit; [iDestruct "H" as "(_ & _ & _ & [_ H])"; by iApply (rd_us_read with "H")|].
  iApply rd_ret.
Qed.

Lemma rd_var_eq tys cmp a b k1 k2 t :
  depth k1.2 <= Datatypes.S n -> depth k2.2 <= Datatypes.S n -> tys !! k1.1.2 = Some t ->
  (True ∗ Rvar tys a k1) ∧ (True ∗ Rvar tys b k2) ⊢
  rd (var_eq C S tys cmp a b) (if decide (k1.1.2 = k2.1.2) then cmp (ity_uid t) k1.2 k2.2 else false).
Proof.
  iIntros (Hd1 Hd2 Ht) "H". unfold var_eq.
  iApply rd_bind. iSplit; [iDestruct "H" as "[[_ H] _]"; iApply (Rvar_which with "H")|].
  iApply rd_bind. iSplit; [iDestruct "H" as "[_ [_ H]]"; iApply (Rvar_which with "H")|].
  destruct (decide (k1.1.2 = k2.1.2)) as [E|E].
  - rewrite decide_True; [|by rewrite E]. by iApply rd_compare.
  - rewrite decide_False; [|lia]. iApply rd_ret.
Qed.

Lemma rd_var_lt tys cmp a b k1 k2 t :
  depth k1.2 <= Datatypes.S n -> depth k2.2 <= Datatypes.S n -> tys !! k1.1.2 = Some t ->
  (True ∗ Rvar tys a k1) ∧ (True ∗ Rvar tys b k2) ⊢
  rd (var_lt C S tys cmp a b) (if decide (k1.1.2 = k2.1.2) then cmp (ity_uid t) k1.2 k2.2
                               else bool_decide (k1.1.2 < k2.1.2)).
Proof.
  iIntros (Hd1 Hd2 Ht) "H". unfold var_lt.
  iApply rd_bind. iSplit; [iDestruct "H" as "[[_ H] _]"; iApply (Rvar_which with "H")|].
  iApply rd_bind. iSplit; [iDestruct "H" as "[_ [_ H]]"; iApply (Rvar_which with "H")|].
  destruct (decide (k1.1.2 = k2.1.2)) as [E|E].
  - rewrite decide_True; [|by rewrite E]. by iApply rd_compare.
  - rewrite decide_False; [|lia].
    rewrite (bool_decide_ext (Z.of_nat k1.1.2 < Z.of_nat k2.1.2)%Z (k1.1.2 < k2.1.2)); [iApply rd_ret|lia].
Qed.
End queries.

(** ** Members of a user object *)
Lemma Rmems_lookup mems ls ks j tys : mems !! j = Some tys ->
  Rmems mems ls ks ⊢ ∃ l k, ⌞ls !! j = Some l /\ ks !! j = Some k⌟ ∗ Rvar tys l k ∗
    ∀ k', Rvar tys l k' -∗ Rmems mems ls (<[j := k']> ks).
Proof.
  revert mems ls ks. induction j as [|j IH]; intros mems ls ks Hj.
  - destruct mems as [|tys' mems]; [done|]. injection Hj as ->.
    destruct ks as [|k ks], ls as [|l ls]; simpl; try by iIntros "[]".
    iIntros "[H1 H]". iExists l, k. iSplitR; [done|]. iFrame "H1". iIntros (k') "H1". iFrame.
  - destruct mems as [|tys' mems]; [done|]. simpl in Hj.
    destruct ks as [|k ks], ls as [|l ls]; simpl; try by iIntros "[]".
    iIntros "[H1 H]". iDestruct (IH with "H") as (l' k') "(%Hl & H & Hb)"; [done|].
    iExists l', k'. iSplitR; [done|]. iFrame "H". iIntros (k2) "H". iFrame "H1". by iApply "Hb".
Qed.

Lemma tobj_member l kl wl u v j tys : ut_members (te C u) !! j = Some tys ->
  tobj l kl wl u v ⊢ ∃ z ks a k, ⌞v = UV z ks /\ ks !! j = Some k⌟ ∗
    (rd (Client.member C u l j) (tys, a) ∧
     (Rvar tys a k ∗ ∀ k', Rvar tys a k' -∗ tobj l kl wl u (UV z (<[j := k']> ks)))).
Proof.
  iIntros (Hj) "H". destruct v as [z ks]. rewrite tobj_unfold. iDestruct "H" as (ls) "(%Hz & Hl & H)".
  iDestruct (Rmems_lookup with "H") as (a k) "([%Ha %Hk] & H & Hb)"; [done|].
  iExists z, ks, a, k. iSplitR; [done|]. iSplit.
  - unfold Client.member. iApply rd_bind. iSplit; [iApply (rd_expect_user with "Hl")|]. simpl.
    rewrite Hj Ha. iApply rd_ret.
  - iFrame "H". iIntros (k') "H". rewrite tobj_unfold. iExists ls. iSplitR; [done|]. iFrame "Hl". by iApply "Hb".
Qed.
End query.
