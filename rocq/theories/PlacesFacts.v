(** Programs with references into contents: whole histories (proofs). *)
From stdpp Require Import gmap.
From iris.proofmode Require Import tactics.
From iris.bi Require Import big_op.
From Verif Require Import Base Types TypesFacts Dispatch DispatchFacts Variant Sem Values ValuesFacts Client Observe ObserveFacts.
From Verif Require Import Spec Trace TraceFacts History Owned OwnedFacts Heap Wp Rep SpecInt SpecVar SpecSem SpecQuery Link World ClientProof.
From Verif Require Import Levels HistoryProof Reach ReachFacts LifeFacts Places PlacesSpec PlacesProof.

(** ** Levels *)
Lemma mono_rop C n n' eqf ltf E K c : n <= n' -> le (rop C n eqf ltf E K c) (rop C n' eqf ltf E K c).
Proof.
  intros Hn. pose proof (mono_sem C n n' Hn) as HS. pose proof (mono_op C n n' eqf ltf E) as Hop.
  destruct c; unfold rop.
  - apply le_bind; [apply le_refl|]. intros. apply le_bind; [by apply Hop|]. intros. apply le_refl.
  - apply le_refl.
  - apply le_refl.
  - apply le_bind; [apply le_refl|]. intros. apply le_bind; [apply le_refl|]. intros. apply le_bind; [apply le_refl|]. intros.
    apply le_bind; [|intros; apply le_refl]. unfold new_var. apply le_bind; [apply le_refl|]. intros.
    apply le_bind; [|intros; apply le_refl]. apply mono_local_variant. intros. by apply mono_var_from.
  - apply le_bind; [apply le_refl|]. intros. apply le_bind; [apply le_refl|]. intros. apply le_bind; [apply le_refl|]. intros.
    apply le_bind; [|intros; apply le_refl]. by apply mono_var_assign_from.
  - apply le_bind; [apply le_refl|]. intros. apply le_bind; [apply le_refl|]. intros. apply le_bind; [apply le_refl|]. intros.
    apply le_bind; [|intros; apply le_refl]. by apply mono_var_poke.
Qed.
Lemma rexec_mono C n n' eqf ltf c E K s : n <= n' ->
  rexec C n eqf ltf c E K s <> RFaulted FFuel -> rexec C n' eqf ltf c E K s = rexec C n eqf ltf c E K s.
Proof.
  intros Hn. unfold rexec. destruct (mono_rop C n n' eqf ltf E K c Hn s) as [-> | ->]; done.
Qed.

(** ** Names *)
Lemma outs_after {A B} (P : B -> Prop) (Q : A -> Prop) (m : M A) f : outs Q m -> (forall a, Q a -> outs P (f a)) -> outs P (bind m f).
Proof. intros Hm Hf s b s'. unfold bind. destruct (m s) eqn:Em; [|done..]. apply Hf. by eapply Hm. Qed.
Lemma outs_need b : outs (fun _ => b = true) (need b).
Proof. unfold need. destruct b; [by apply outs_ret|apply outs_faulty]. Qed.

Lemma op_binds C n eqf ltf E c :
  outs (fun r => forall z, declares c <> Some z -> c <> CDrop z -> r.1 !! z = E !! z) (op C n eqf ltf E c).
Proof.
  destruct c; unfold op, new_var; repeat first
    [ apply outs_ret; intros z1 Hz1 Hz2; simpl in *; try done;
      first [rewrite lookup_insert_ne; [done|congruence]|rewrite lookup_delete_ne; [done|congruence]]
    | apply outs_faulty
    | apply outs_bind; intros
    | match goal with |- outs _ (match ?x with _ => _ end) => destruct x end ].
Qed.

Lemma typed_fresh C st nb D σ c x : typed C st nb D σ c -> declares c = Some x -> σ !! x = None.
Proof. destruct c; simpl; try done; intros H [= <-]; by destruct H. Qed.

Lemma zip_fst_in {A B} (l : list A) (k : list B) x : x ∈ (zip l k).*1 -> x ∈ l.
Proof. intros H. apply elem_of_list_fmap in H as ([? ?]&->&H). by apply elem_of_zip_l in H. Qed.
Lemma zip_fst_nodup {A B} (l : list A) (k : list B) : NoDup l -> NoDup (zip l k).*1.
Proof.
  revert k. induction l as [|x l IH]; intros [|y k] H; simpl; [constructor..|]. apply NoDup_cons in H as [H1 H2].
  apply NoDup_cons. split; [|by apply IH]. by intros ?%zip_fst_in.
Qed.

Lemma kok_empty : kok ∅ ∅.
Proof.
  split; intros x; unfold kenv, env; rewrite ?lookup_empty; [by intros [? ?]|intros; done..].
Qed.
Lemma kok_env E E' K : kok E K ->
  (forall z, E' !! z <> E !! z -> K !! z = None /\ ~ is_ref K z) -> kok E' K.
Proof.
  intros [H1 H2 H3 H4] HE.
  assert (Hs : forall z, is_Some (K !! z) \/ is_ref K z -> E' !! z = E !! z).
  { intros z Hz. destruct (decide (E' !! z = E !! z)) as [|Hne]; [done|]. destruct (HE z Hne) as [H5 H6].
    destruct Hz as [[? Hz]|Hz]; [|done]. unfold kenv in *. congruence. }
  split; [|done| |done].
  - intros x Hx. rewrite Hs; [|by left]. by apply H1.
  - intros x b refs r b' Hx Hr. rewrite Hs; [by eapply H3|]. right. exists x, (b, refs). split; [done|].
    by apply (elem_of_list_fmap_1 fst) in Hr.
Qed.
Lemma kok_open E K x b rs bs : kok E K -> E !! x = Some b -> unused E K rs ->
  kok (list_to_map (zip rs bs) ∪ delete x E) (<[x := (b, zip rs bs)]> K).
Proof.
  intros [H1 H2 H3 H4] Hx [Hnd Hun]. rewrite Forall_forall in Hun. unfold kenv, env in *.
  assert (Hxk : K !! x = None).
  { destruct (K !! x) eqn:Ek; [|done]. specialize (H1 x). unfold kenv in *. rewrite Ek in H1. rewrite H1 in Hx; [done|by eexists]. }
  assert (Hxrs : x ∉ rs) by (intros Hr; destruct (Hun x Hr) as [He _]; congruence).
  assert (Hnew : forall r, r ∈ (zip rs bs).*1 -> E !! r = None /\ K !! r = None).
  { intros r Hr. apply Hun. by apply zip_fst_in in Hr. }
  assert (Hold : forall y f r, K !! y = Some f -> r ∈ f.2.*1 -> is_Some (E !! r) \/ is_Some (K !! r)).
  { intros y [b0 refs] r Hy Hr. apply elem_of_list_fmap in Hr as ([r' b']&->&Hr).
    destruct (H3 _ _ _ _ _ Hy Hr) as [He|[? He]]; [left|right]; by eexists. }
  assert (Hlt : forall r, r ∉ (zip rs bs).*1 -> (list_to_map (zip rs bs) : gmap name bnd) !! r = None).
  { intros r Hr. by apply not_elem_of_list_to_map_1. }
  split.
  - intros y Hy. apply lookup_union_None. destruct (decide (y = x)) as [->|Hne].
    + split; [|apply lookup_delete]. apply Hlt. by intros ?%zip_fst_in.
    + rewrite lookup_insert_ne // in Hy. split; [|rewrite lookup_delete_ne //; by apply H1].
      apply Hlt. intros Hr. destruct (Hnew y Hr) as [_ Hn]. destruct Hy as [? Hy]. congruence.
  - intros y b0 refs Hy. destruct (decide (y = x)) as [->|Hne].
    + rewrite lookup_insert in Hy. injection Hy as <- <-. by apply zip_fst_nodup.
    + rewrite lookup_insert_ne // in Hy. by eapply H2.
  - intros y b0 refs r b' Hy Hr. destruct (decide (y = x)) as [->|Hne].
    + rewrite lookup_insert in Hy. injection Hy as <- <-. left. apply lookup_union_Some_l.
      apply elem_of_list_to_map_1; [by apply zip_fst_nodup|done].
    + rewrite lookup_insert_ne // in Hy. destruct (decide (r = x)) as [->|Hrx].
      * right. rewrite lookup_insert. destruct (H3 _ _ _ _ _ Hy Hr) as [He|[? He]]; [|congruence].
        assert (b' = b) as -> by congruence. by eexists.
      * destruct (H3 _ _ _ _ _ Hy Hr) as [He|[refs' He]].
        -- left. rewrite lookup_union_r; [by rewrite lookup_delete_ne|]. apply Hlt. intros Hn. destruct (Hnew r Hn). congruence.
        -- right. exists refs'. by rewrite lookup_insert_ne.
  - intros y y' f g r Hy Hy' Hr Hr'. destruct (decide (y = x)) as [->|Hne], (decide (y' = x)) as [->|Hne']; [done|..].
    + rewrite lookup_insert in Hy. injection Hy as <-. rewrite lookup_insert_ne // in Hy'. simpl in Hr.
      destruct (Hnew r Hr) as [Hn1 Hn2]. destruct (Hold _ _ _ Hy' Hr') as [[? Ho]|[? Ho]]; congruence.
    + rewrite lookup_insert in Hy'. injection Hy' as <-. rewrite lookup_insert_ne // in Hy. simpl in Hr'.
      destruct (Hnew r Hr') as [Hn1 Hn2]. destruct (Hold _ _ _ Hy Hr) as [[? Ho]|[? Ho]]; congruence.
    + rewrite lookup_insert_ne // in Hy. rewrite lookup_insert_ne // in Hy'. by eapply H4.
Qed.
Lemma kok_close E K x b refs : kok E K -> K !! x = Some (b, refs) ->
  kok (<[x := b]> (foldr delete E refs.*1)) (delete x K).
Proof.
  intros [H1 H2 H3 H4] Hx. unfold kenv, env in *.
  assert (Hin : forall r, r ∈ refs.*1 -> E !! r <> None \/ K !! r <> None).
  { intros r Hr. apply elem_of_list_fmap in Hr as ([r' b']&->&Hr). simpl.
    destruct (H3 _ _ _ _ _ Hx Hr) as [He|[? He]]; [left|right]; congruence. }
  assert (Hnone : forall l r, E !! r = None -> foldr delete E l !! r = None).
  { intros l r Hr. induction l as [|a l IH]; [done|]. simpl. apply lookup_delete_None. by right. }
  split.
  - intros y [f Hy]. apply lookup_delete_Some in Hy as [Hne Hy]. rewrite lookup_insert_ne //. apply Hnone, H1. by eexists.
  - intros y b0 refs0 Hy. apply lookup_delete_Some in Hy as [Hne Hy]. by eapply H2.
  - intros y b0 refs0 r b' Hy Hr. apply lookup_delete_Some in Hy as [Hne Hy].
    assert (Hnr : r ∉ refs.*1).
    { intros Hr'. apply Hne. eapply (H4 x y _ _ r); [exact Hx|exact Hy|done|]. by apply (elem_of_list_fmap_1 fst) in Hr. }
    destruct (decide (r = x)) as [->|Hrx].
    + left. rewrite lookup_insert. destruct (H3 _ _ _ _ _ Hy Hr) as [He|[refs' He]]; [|congruence].
      rewrite H1 in He; [done|by eexists].
    + destruct (H3 _ _ _ _ _ Hy Hr) as [He|[refs' He]].
      * left. rewrite lookup_insert_ne // lookup_foldr_delete_not_elem_of //.
      * right. exists refs'. by rewrite lookup_delete_ne.
  - intros y y' f g r Hy Hy'. apply lookup_delete_Some in Hy as [Hne Hy]. apply lookup_delete_Some in Hy' as [Hne' Hy'].
    by eapply H4.
Qed.

Lemma rop_kok C st nb D n eqf ltf E K σ κ c : kok E K -> rtyped C st nb D σ κ c ->
  (forall x, is_Some (E !! x) <-> is_Some (σ !! x)) -> (forall x, is_Some (K !! x) <-> is_Some (κ !! x)) ->
  outs (fun r => kok r.1.1 r.1.2) (rop C n eqf ltf E K c).
Proof.
  intros Hk Ht HE HK. destruct c; unfold rop.
  - eapply outs_after; [apply outs_need|]. intros _ [Ha1 Ha2]%bool_decide_eq_true. destruct Ht as (Ht&_&Hd&_).
    eapply outs_after; [apply op_binds|]. intros [E' o] Hb. apply outs_ret. simpl in *. apply (kok_env E); [done|].
    intros z Hz. destruct (decide (declares c = Some z)) as [Hc|Hc].
    + rewrite Hc in Ha1. split; [done|]. pose proof (typed_fresh _ _ _ _ _ _ _ Ht Hc) as Hs.
      apply (some_iff_none _ _ (HE z)) in Hs. intros (x&[b refs]&Hx&Hr). simpl in Hr.
      apply elem_of_list_fmap in Hr as ([r b']&Heq&Hr). simpl in Heq. subst r.
      destruct (kok_ref _ _ Hk _ _ _ _ _ Hx Hr) as [He|[? He]]; unfold kenv in *; congruence.
    + assert (Hdr : c = CDrop z).
      { destruct (decide (E' !! z = E !! z)) as [|_]; [done|]. destruct c; try (exfalso; apply Hz, Hb; done).
        destruct (decide (x = z)) as [->|]; [done|]. exfalso. apply Hz, Hb; [done|congruence]. }
      subst c. split; [|done]. simpl in Ht. destruct (K !! z) eqn:Ek; [|done]. exfalso.
      pose proof (kok_aside _ _ Hk z) as Hn. unfold kenv in *. rewrite Ek in Hn. apply HE in Ht. rewrite Hn in Ht; [by destruct Ht|by eexists].
  - destruct (E !! x) as [b|] eqn:Hx; [|apply outs_faulty]. apply outs_bind. intros l. apply outs_bind. intros r.
    eapply outs_after; [apply outs_need|]. intros _ [Hu Hl]%bool_decide_eq_true. apply outs_ret. simpl. by apply kok_open.
  - destruct (K !! x) as [[b refs]|] eqn:Hx; [|apply outs_faulty]. eapply outs_after; [apply outs_need|].
    intros _ Ha%bool_decide_eq_true. apply outs_ret. simpl. by apply kok_close.
  - destruct Ht as (Hx&Hkx&_). apply outs_bind. intros. apply outs_bind. intros. apply outs_bind. intros.
    eapply (outs_after _ (fun r => forall z, z <> x -> r.1 !! z = E !! z)).
    { unfold new_var. apply outs_bind. intros. apply outs_bind. intros. apply outs_ret. intros z Hz. simpl. by rewrite lookup_insert_ne. }
    intros [E' o] Hb. apply outs_ret. simpl in *. apply (kok_env E); [done|]. intros z Hz.
    assert (z = x) as -> by (destruct (decide (z = x)); [done|]; destruct Hz; by apply Hb).
    apply (some_iff_none _ _ (HE x)) in Hx. apply (some_iff_none _ _ (HK x)) in Hkx.
    split; [done|]. intros (y0&[b refs]&Hy&Hr). simpl in Hr.
    apply elem_of_list_fmap in Hr as ([r b']&Heq&Hr). simpl in Heq. subst r.
    destruct (kok_ref _ _ Hk _ _ _ _ _ Hy Hr) as [He|[? He]]; unfold kenv in *; congruence.
  - do 4 (apply outs_bind; intros). by apply outs_ret.
  - do 4 (apply outs_bind; intros). by apply outs_ret.
Qed.

Section history.
Context (C : cfg) (st nb : bool) (eqf ltf : uid -> uval -> uval -> bool).
Context (HC : good_env C st nb).
Notation W := (WPar st nb).
Notation rhistory := (rhistory C st nb eqf ltf).
Notation rreached := (rreached C st nb eqf ltf).
Notation radmissible := (radmissible C st nb).
Notation ryields := (ryields C eqf ltf).
Notation rtakes := (rtakes C st nb eqf ltf).
Notation rstep := (rstep C eqf ltf).
Let Hwf : wf_env C W := good_env_wf C st nb HC.

Record rinv (B : nat) (E : env) (K : kenv) (s : state) (σ : astate) (κ : kstate) : Prop := Rinv {
  rinv_world : (world C W E σ ∗ kworld C W K κ)%I (mem s);
  rinv_aok : aok C W B σ;
  rinv_kaok : kaok C W κ;
  rinv_kok : kok E K;
  rinv_ginv : ginv W s
}.

Lemma rinv_shows B E K s σ κ : rinv B E K s σ κ -> shows C (mem s) E σ /\ kshows (mem s) K κ.
Proof.
  intros [(h1&h2&Hm&Hd&H1&H2) _ _ _ _]. rewrite Hm. split.
  - eapply world_shows; [done|]. by apply map_union_subseteq_l.
  - eapply kworld_shows; [done|]. by apply map_union_subseteq_r.
Qed.
Lemma rinv_doms B E K s σ κ : rinv B E K s σ κ ->
  (forall x, is_Some (E !! x) <-> is_Some (σ !! x)) /\ (forall x, is_Some (K !! x) <-> is_Some (κ !! x)).
Proof.
  intros [(h1&h2&Hm&Hd&H1&H2) _ _ _ _]. split.
  - pose proof (hprop_in_entails _ _ (big_sepM2_lookup_iff (fun _ => own C W) E σ) h1 H1) as Hi. exact Hi.
  - pose proof (hprop_in_entails _ _ (kworld_iff C W K κ) h2 H2) as Hi. exact Hi.
Qed.

Lemma rinv_init orc : rinv 0 ∅ ∅ (init orc) ∅ ∅.
Proof.
  split.
  - exists ∅, ∅. split; [by rewrite left_id_L|]. split; [apply map_disjoint_empty_l|]. split.
    + apply (hprop_in_entails _ _ (bi.equiv_entails_1_2 _ _ (world_empty C W))). done.
    + apply (hprop_in_entails _ _ (bi.equiv_entails_1_2 _ _ (kworld_empty C W))). done.
  - intros x α. by rewrite lookup_empty.
  - intros x tys k rs. unfold kstate. by rewrite lookup_empty.
  - apply kok_empty.
  - apply ginv_init.
Qed.

Lemma rinv_exec n D B E K s σ κ c : D <= B -> B <= S n -> rinv B E K s σ κ -> rtyped C st nb D σ κ c ->
  exists E' K' o s' σ' κ', rexec C n eqf ltf c E K s = RDone E' K' o s' /\ rstep σ κ c o σ' κ' /\
    rinv (S B) E' K' s' σ' κ'.
Proof.
  intros HD HB Hi Ht. destruct (rinv_doms _ _ _ _ _ _ Hi) as [HE HK]. destruct Hi as [Hw Ha Hk Hko Hg].
  pose proof (rop_ok C st nb Hwf eqf ltf n D B HB HD E σ Ha K κ Hk Hko c Ht) as Hop.
  pose proof (rop_kok C st nb D n eqf ltf E K σ κ c Hko Ht HE HK s) as Hkk.
  apply (hprop_in_entails _ _ Hop) in Hw. apply wp_unfold in Hw.
  specialize (Hw s ∅). rewrite right_id_L in Hw. specialize (Hw eq_refl ltac:(apply map_disjoint_empty_r) Hg).
  unfold rexec.
  destruct (rop C n eqf ltf E K c s) as [[[E' K'] o] s'|e s'|f]; [..|done].
  - destruct Hw as (h'&Hm&_&Hg'&Hth&Hp). rewrite right_id_L in Hm. subst h'.
    destruct Hp as (σ'&κ'&h0&h1&Hm&Hd&Hp&Hw'). destruct (apure_inv (_ /\ _ /\ _) _ Hp) as [-> (Hs&Ha'&Hk')].
    rewrite left_id_L in Hm. subst h1. exists E', K', o, s', σ', κ'. split; [done|]. split; [done|]. split; try done.
    by apply (Hkk _ _ eq_refl).
  - destruct Hw as (h'&Hm&_&Hg'&Hth&Hp). rewrite right_id_L in Hm. subst h'.
    destruct Hp as (σ'&κ'&h0&h1&Hm&Hd&Hp&Hw'). destruct (apure_inv (_ /\ _ /\ _) _ Hp) as [-> (Hs&Ha'&Hk')].
    rewrite left_id_L in Hm. subst h1. by exists E, K, (OThrew e), s', σ', κ'.
Qed.

Lemma rinv_mono B B' E K s σ κ : B <= B' -> rinv B E K s σ κ -> rinv B' E K s σ κ.
Proof. intros HB [? ? ? ? ?]. split; [done|by eapply aok_mono|done..]. Qed.

Lemma ryields_det c E K s r r' : ryields c E K s r -> ryields c E K s r' -> r = r'.
Proof. intros [n Hn] [n' Hn']. rewrite -(Hn (n `max` n')); [|lia]. apply Hn'. lia. Qed.

Lemma rinv_step B E K s σ κ c : rinv B E K s σ κ -> radmissible E K s c ->
  exists E' K' o s' σ' κ', ryields c E K s (RDone E' K' o s') /\ rstep σ κ c o σ' κ' /\
    exists B', rinv B' E' K' s' σ' κ'.
Proof.
  intros Hi (D&σ0&κ0&Hsh&Hwsh&Ht). destruct (rinv_shows _ _ _ _ _ _ Hi) as [Hs1 Hs2].
  assert (σ0 = σ) as -> by by eapply shows_unique. assert (κ0 = κ) as -> by by eapply kshows_unique.
  destruct (rinv_exec (B `max` D) D (B `max` D) E K s σ κ c) as (E'&K'&o&s'&σ'&κ'&Hex&Hs&Hi'); [lia|lia| |done..|].
  { eapply rinv_mono; [|done]. lia. }
  exists E', K', o, s', σ', κ'. split; [|split; [done|by eexists]].
  exists (B `max` D). intros n Hn. rewrite (rexec_mono C (B `max` D) n) //. by rewrite Hex.
Qed.

Lemma rhistory_inv orc h E K s : rhistory orc h E K s -> exists B σ κ, rinv B E K s σ κ.
Proof.
  induction 1 as [|h E K s c E' K' o s' Hh IH Hadm Hy].
  - exists 0, ∅, ∅. apply rinv_init.
  - destruct IH as (B&σ&κ&Hi).
    destruct (rinv_step B E K s σ κ c) as (E1&K1&o1&s1&σ1&κ1&Hy1&_&[B' Hi1]); [done..|].
    pose proof (ryields_det _ _ _ _ _ _ Hy Hy1) as [= -> -> -> ->]. by exists B', σ1, κ1.
Qed.
Lemma rreached_inv E K s : rreached E K s -> exists B σ κ, rinv B E K s σ κ.
Proof. intros (orc&h&Hh). by eapply rhistory_inv. Qed.

Lemma no_undefined E K s c : rreached E K s -> radmissible E K s c ->
  exists E' K' o s', ryields c E K s (RDone E' K' o s') /\ rreached E' K' s'.
Proof.
  intros Hr Ha. destruct (rreached_inv _ _ _ Hr) as (B&σ&κ&Hi).
  destruct (rinv_step B E K s σ κ c) as (E'&K'&o&s'&σ'&κ'&Hy&_); [done..|]. exists E', K', o, s'. split; [done|].
  destruct Hr as (orc&h&Hh). exists orc, (h ++ [c]). by eapply rhistory_step.
Qed.
Lemma rtakes_reached c E K s E' K' o s' : rtakes c E K s E' K' o s' -> rreached E' K' s'.
Proof. intros ((orc&h&Hh)&Ha&Hy). exists orc, (h ++ [c]). by eapply rhistory_step. Qed.

Lemma takes_inv c E K s E' K' o s' : rtakes c E K s E' K' o s' ->
  exists B B' σ κ σ' κ', rinv B E K s σ κ /\ rinv B' E' K' s' σ' κ' /\ rstep σ κ c o σ' κ'.
Proof.
  intros (Hr&Ha&Hy). destruct (rreached_inv _ _ _ Hr) as (B&σ&κ&Hi).
  destruct (rinv_step B E K s σ κ c) as (E1&K1&o1&s1&σ'&κ'&Hy1&Hst&[B' Hi']); [done..|].
  pose proof (ryields_det _ _ _ _ _ _ Hy Hy1) as [= -> -> -> ->]. by exists B, B', σ, κ, σ', κ'.
Qed.
Lemma takes_spec c E K s E' K' o s' : rtakes c E K s E' K' o s' ->
  exists σ κ σ' κ', shows C (mem s) E σ /\ kshows (mem s) K κ /\ shows C (mem s') E' σ' /\ kshows (mem s') K' κ' /\
    rstep σ κ c o σ' κ'.
Proof.
  intros Ht. destruct (takes_inv _ _ _ _ _ _ _ _ Ht) as (B&B'&σ&κ&σ'&κ'&Hi&Hi'&Hst).
  destruct (rinv_shows _ _ _ _ _ _ Hi), (rinv_shows _ _ _ _ _ _ Hi'). by exists σ, κ, σ', κ'.
Qed.

(** ** Lifetimes *)
Lemma r_lifetimes E K s l : rreached E K s ->
  occupant l (tr s) = Some (tag_at (mem s) l) /\
  forall k, cnt (EvC k l) (tr s) = cnt (EvD k l) (tr s) + if decide (tag_at (mem s) l = Some k) then 1 else 0.
Proof.
  intros Hr. destruct (rreached_inv _ _ _ Hr) as (B&σ&κ&[_ _ _ _ Hg]). pose proof (gi_life _ _ Hg l) as Hl.
  split; [done|]. intros k. by apply occupant_count.
Qed.
Lemma r_blocks E K s l : rreached E K s ->
  exists b, block l (tr s) = Some b /\ (b = BLive <-> is_block (mem s) l).
Proof. intros Hr. destruct (rreached_inv _ _ _ Hr) as (B&σ&κ&[_ _ _ _ Hg]). apply (gi_block _ _ Hg l). Qed.

Lemma r_nothing_left s : rreached ∅ ∅ s -> mem s = ∅.
Proof.
  intros Hr. destruct (rreached_inv _ _ _ Hr) as (B&σ&κ&Hi). destruct (rinv_doms _ _ _ _ _ _ Hi) as [HE HK].
  destruct Hi as [(h1&h2&Hm&Hd&H1&H2) _ _ _ _].
  assert (σ = ∅) as ->.
  { apply map_eq. intros x. rewrite lookup_empty. destruct (σ !! x) eqn:Ex; [|done]. exfalso.
    assert (is_Some ((∅ : env) !! x)) as [? He] by (apply HE; rewrite Ex; eauto). by rewrite lookup_empty in He. }
  assert (κ = ∅) as ->.
  { unfold kstate, kenv in *. apply map_eq. intros x. rewrite lookup_empty. destruct (κ !! x) eqn:Ex; [|done]. exfalso.
    assert (is_Some ((∅ : gmap name (bnd * list (name * bnd))) !! x)) as [? He] by (apply HK; unfold kstate; rewrite Ex; eauto). by rewrite lookup_empty in He. }
  apply (hprop_in_entails _ _ (bi.equiv_entails_1_1 _ _ (world_empty C W))) in H1.
  apply (hprop_in_entails _ _ (bi.equiv_entails_1_1 _ _ (kworld_empty C W))) in H2.
  change (h1 = ∅) in H1. change (h2 = ∅) in H2. subst. by rewrite Hm left_id_L.
Qed.

(** ** What references refer to *)
Lemma r_names E K s x b refs : rreached E K s -> K !! x = Some (b, refs) ->
  E !! x = None /\ NoDup refs.*1 /\
  forall r b', (r, b') ∈ refs -> E !! r = Some b' \/ exists refs', K !! r = Some (b', refs').
Proof.
  intros Hr Hx. destruct (rreached_inv _ _ _ Hr) as (B&σ&κ&[_ _ _ [H1 H2 H3 _] _]).
  split; [apply H1; by eexists|]. split; [by eapply H2|]. intros. by eapply H3.
Qed.
Lemma shell_points m tys a bk i z ls t h : Rvarb C W (Rtop W z ls) tys a bk i h -> h ⊆ m -> tys !! i = Some t ->
  exists l kd w, stored_at m a l /\ m !! l = Some (Cell kd (Some (OUser (ity_uid t) z ls)) w).
Proof.
  intros (t'&o&h0&h1&->&Hdj&Ht&H) Hs Ht2. destruct (apure_inv (tys !! i = Some t') _ Ht) as [-> Ht']. rewrite left_id_L in Hs.
  rewrite Ht2 in Ht'. injection Ht' as <-.
  destruct H as (h2&h3&->&Hd23&HRI&H). simpl in *.
  assert (Htop : forall u o h, Rtop W z ls u o h -> h = ∅ /\ o = OUser u z ls).
  { intros u o' h (a1&a2&->&_&Ho&Hz). destruct (apure_inv (o' = OUser u z ls) _ Ho) as [-> ->].
    destruct (apure_inv (st = true -> z <> None) _ Hz) as [-> _]. by rewrite left_id_L. }
  pose proof (sub_l _ _ _ Hs) as Hs2. pose proof (sub_r _ _ _ Hd23 Hs) as Hs3.
  destruct t as [u|u]; simpl in *.
  - apply Htop in HRI as [-> ->]. destruct bk.
    + destruct H as (p&h4&h5&->&Hd45&Hb&h6&h7&->&Hd67&Ha&Hp). destruct (apure_inv (bkok C W tys (IPlain u)) _ Hb) as [-> _].
      rewrite left_id_L in Hs3. pose proof (pt_see a _ _ _ Ha (sub_l _ _ _ Hs3)) as Ea.
      pose proof (pt_see p _ _ _ Hp (sub_r _ _ _ Hd67 Hs3)) as Ep.
      exists p, KHeap, None. split; [|done]. eexists _, _. split; [done|]. simpl. by eexists.
    + pose proof (pt_see a _ _ _ H Hs3) as Ea. exists a, KVar, (Some (Z.of_nat i)). split; [|done]. by eexists _, _.
  - destruct HRI as (p&o'&h4&h5&->&_&Ho&h6&h7&->&Hd67&Hp&HR). destruct (apure_inv (o = OWrap u p) _ Ho) as [-> ->].
    apply Htop in HR as [-> ->]. rewrite left_id_L in Hs2. pose proof (pt_see p _ _ _ Hp (sub_l _ _ _ Hs2)) as Ep.
    destruct bk.
    + destruct H as (q&h4&h5&->&Hd45&Hb&h7&h8&->&Hd78&Ha&Hq). destruct (apure_inv (bkok C W tys (IWrap u)) _ Hb) as [-> _].
      rewrite left_id_L in Hs3. pose proof (pt_see a _ _ _ Ha (sub_l _ _ _ Hs3)) as Ea.
      pose proof (pt_see q _ _ _ Hq (sub_r _ _ _ Hd78 Hs3)) as Eq.
      exists p, KHeap, None. split; [|done]. eexists _, _. split; [done|]. simpl. by eexists.
    + pose proof (pt_see a _ _ _ H Hs3) as Ea. exists p, KHeap, None. split; [|done]. by eexists _, _.
Qed.
Lemma r_points E K s x b refs : rreached E K s -> K !! x = Some (b, refs) ->
  exists u l, points C (mem s) b u l refs.*2.
Proof.
  intros Hr Hx. destruct (rreached_inv _ _ _ Hr) as (B&σ&κ&Hi). destruct (rinv_doms _ _ _ _ _ _ Hi) as [_ HK].
  destruct Hi as [(h1&h2&Hm&Hd&H1&H2) _ _ _ _].
  destruct (some_iff_some _ _ _ (iff_sym (HK x)) Hx) as [[α rs] Ha].
  destruct (kown_part C W K κ x _ _ h2 H2 Hx Ha) as (h'&Hs'&Ho).
  assert (Hs : h' ⊆ mem s). { etrans; [exact Hs'|]. rewrite Hm. by apply map_union_subseteq_r. } clear Hs'.
  destruct Ho as (h3&h4&->&Hd3&Ht&Ho). destruct (apure_inv (rs = refs.*1) _ Ht) as [-> ->]. rewrite left_id_L in Hs.
  simpl in Ho. destruct b as [tys a|u a], α as [tys' [[bk i] v]|u' v]; try by destruct Ho.
  - destruct Ho as (z&t&ls&h5&h6&->&Hd2&Hp&Hv). destruct (apure_inv (_ /\ _ /\ _) _ Hp) as [-> (->&Hk&Hti&Hl&Hz)].
    rewrite left_id_L in Hs. simpl in *. destruct (shell_points _ _ _ _ _ _ _ _ _ Hv Hs Hti) as (l&kd&w&Hst&Hl').
    exists (ity_uid t), l. split; [done|]. exists kd, w, z, ls. split; [done|]. split; [congruence|done].
  - destruct Ho as (z&ls&h5&h6&->&Hd2&Hp&h7&h8&->&Hd4&Hz&Hc). destruct (apure_inv (_ /\ _ /\ _) _ Hp) as [-> (->&->&Hl&Hz')].
    destruct (apure_inv (st = true -> z <> None) _ Hz) as [-> _]. rewrite !left_id_L in Hs.
    exists u, a. split; [done|]. exists KStk, None, z, ls. split; [by eapply pt_see|]. split; [congruence|done].
Qed.

(** No two names stand for the same place. *)
Lemma own_addr b α : own C W b α ⊢ ∃ c, True ∗ (match b with BVar _ a | BObj _ a => a end) ↦ c.
Proof.
  destruct b as [tys a|u a], α as [tys' k|u' v]; simpl; try by iIntros "[]".
  - iIntros "[-> H]". rewrite Rvar_unfold. iDestruct "H" as (t) "[%Ht H]". destruct k.1.1.
    + iDestruct "H" as (p) "(_ & Ha & Hp)". iExists _. iFrame "Ha".
    + iDestruct "H" as (o) "[Ha Ho]". iExists _. iFrame "Ha".
  - iIntros "[-> (%o & Ha & Ho)]". iExists _. iFrame "Ha".
Qed.
Lemma r_distinct E K s x y b b' : rreached E K s -> x <> y -> E !! x = Some b -> E !! y = Some b' ->
  (match b with BVar _ a | BObj _ a => a end) <> (match b' with BVar _ a | BObj _ a => a end).
Proof.
  intros Hr Hne Hx Hy Heq. destruct (rreached_inv _ _ _ Hr) as (B&σ&κ&Hi). destruct (rinv_doms _ _ _ _ _ _ Hi) as [HE _].
  destruct Hi as [(h1&h2&Hm&Hd&H1&H2) _ _ _ _].
  destruct (some_iff_some _ _ _ (iff_sym (HE x)) Hx) as [α Ha]. destruct (some_iff_some _ _ _ (iff_sym (HE y)) Hy) as [β Hb].
  assert (Hc : world C W E σ ⊢ ∃ c c', True ∗ (match b with BVar _ a | BObj _ a => a end) ↦ c ∗ (match b' with BVar _ a | BObj _ a => a end) ↦ c').
  { iIntros "H". iDestruct (world_lookup2 with "H") as (b1 b2) "([%E1 %E2] & Hb & Hc & _)"; [exact Hne|done..|].
    rewrite Hx in E1. rewrite Hy in E2. injection E1 as <-. injection E2 as <-.
    iDestruct (own_addr with "Hb") as (c) "[_ Hb]". iDestruct (own_addr with "Hc") as (c') "[_ Hc]". iExists c, c'. iFrame. }
  apply (hprop_in_entails _ _ Hc) in H1. destruct H1 as (c&c'&h3&h4&->&Hd3&_&h5&h6&->&Hd5&Hp&Hq).
  unfold pt, hholds in Hp, Hq. subst h5 h6. rewrite Heq in Hd5.
  by apply (map_disjoint_spec _ _) with (x := c) (y := c') (i := match b' with BVar _ a | BObj _ a => a end) in Hd5; rewrite ?lookup_singleton.
Qed.

(** ** Scopes *)
Lemma r_kept c E K s E' K' o s' x f : rtakes c E K s E' K' o s' -> K !! x = Some f -> c <> RClose x -> K' !! x = Some f.
Proof.
  intros (Hr&Ha&[n Hn]) Hx Hc. specialize (Hn n (le_n n)). unfold rexec in Hn.
  destruct (rop C n eqf ltf E K c s) as [[[E1 K1] o1] s1|e s1|] eqn:Hop; [|by injection Hn as _ <- _ _|done].
  injection Hn as <- <- <- <-.
  assert (Hall : outs (fun r => r.1.2 !! x = Some f) (rop C n eqf ltf E K c)).
  { destruct c; unfold rop.
    - do 2 (apply outs_bind; intros). by apply outs_ret.
    - destruct (E !! x0) as [b|] eqn:Hx0; [|apply outs_faulty]. do 3 (apply outs_bind; intros). apply outs_ret. simpl.
      unfold kenv in *. rewrite lookup_insert_ne //. intros ->.
      destruct (rreached_inv _ _ _ Hr) as (B&σ&κ&[_ _ _ [H1 _ _ _] _]). rewrite H1 in Hx0; [done|by eexists].
    - destruct (K !! x0) as [[b refs]|] eqn:Hx0; [|apply outs_faulty]. apply outs_bind. intros. apply outs_ret. simpl.
      unfold kenv in *. rewrite lookup_delete_ne //. congruence.
    - do 4 (apply outs_bind; intros). by apply outs_ret.
    - do 4 (apply outs_bind; intros). by apply outs_ret.
    - do 4 (apply outs_bind; intros). by apply outs_ret. }
  by apply (Hall _ _ _ Hop).
Qed.
Lemma r_close_nothing x E K s E' K' o s' : rtakes (RClose x) E K s E' K' o s' -> o = ODone /\ s' = s.
Proof.
  intros (Hr&Ha&[n Hn]). specialize (Hn n (le_n n)). unfold rexec, rop in Hn.
  destruct (K !! x) as [[b refs]|]; [|done]. unfold need in Hn. destruct (bool_decide _); simpl in Hn; [|done].
  by injection Hn as _ _ <- <-.
Qed.

(** An opened variable that is closed at once is as it was. *)
Lemma close_open (E : env) x b (refs : list (name * bnd)) : E !! x = Some b -> (forall r, r ∈ refs.*1 -> E !! r = None) ->
  <[x := b]> (foldr delete (list_to_map refs ∪ delete x E) refs.*1) = E.
Proof.
  intros Hx Hr. apply map_eq. intros y. destruct (decide (y = x)) as [->|Hne]; [by rewrite lookup_insert|].
  rewrite lookup_insert_ne //. destruct (decide (y ∈ refs.*1)) as [Hy|Hy].
  - rewrite lookup_foldr_delete; [by rewrite Hr|done].
  - rewrite lookup_foldr_delete_not_elem_of // lookup_union_r; [by rewrite lookup_delete_ne|]. by apply not_elem_of_list_to_map_1.
Qed.
Lemma r_round x u rs E K s E1 K1 s1 E2 K2 o s2 :
  rtakes (ROpen x u rs) E K s E1 K1 ODone s1 -> rtakes (RClose x) E1 K1 s1 E2 K2 o s2 ->
  E2 = E /\ K2 = K /\ mem s2 = mem s /\ tr s2 = tr s.
Proof.
  intros Ho Hc. pose proof (r_close_nothing _ _ _ _ _ _ _ _ Hc) as [_ ->].
  destruct Hc as (_&_&[n2 Hn2]). specialize (Hn2 n2 (le_n n2)). unfold rexec, rop in Hn2.
  destruct Ho as (Hr&Ha&[n Hn]). specialize (Hn n (le_n n)). unfold rexec in Hn.
  destruct (rreached_inv _ _ _ Hr) as (B&σ&κ&Hi).
  assert (Hsame : forall r s', rop C n eqf ltf E K (ROpen x u rs) s = Ok r s' -> mem s' = mem s /\ tr s' = tr s /\
     exists b bs, E !! x = Some b /\ unused E K rs /\ r = (list_to_map (zip rs bs) ∪ delete x E, <[x := (b, zip rs bs)]> K, ODone)).
  { intros r s' Hop. unfold rop in Hop. destruct (E !! x) as [b|] eqn:Hx; [|done]. unfold bind in Hop.
    destruct (opened C b u s) as [l s3|e s3|] eqn:Hl; [|done..].
    destruct (expect_user u l s3) as [[z ls] s4|e s4|] eqn:He; [|done..].
    unfold need in Hop. destruct (bool_decide _) eqn:Hb; [|done]. apply bool_decide_eq_true in Hb as [Hu _]. simpl in Hop.
    injection Hop as <- <-.
    assert (s4 = s3) as ->.
    { unfold expect_user, bind in He. destruct (get_obj l s3) as [oo s5|e s5|] eqn:Hg; [|done..].
      assert (s5 = s3) as ->. { unfold get_obj, get_cell, bind in Hg. destruct (mem s3 !! l) as [[? [?|] ?]|]; simpl in Hg; try done. by injection Hg as _ ->. }
      destruct oo; try done. case_decide; [|done]. by injection He as _ _ ->. }
    assert (mem s3 = mem s /\ tr s3 = tr s) as [-> ->].
    { destruct b as [tys a|u' a]; simpl in Hl; [|case_decide; [by injection Hl as _ ->|done]].
      destruct (rinv_doms _ _ _ _ _ _ Hi) as [HE _]. destruct (rinv_world _ _ _ _ _ _ Hi) as (h1&h2&Hm&Hd&H1&H2).
      destruct (some_iff_some _ _ _ (iff_sym (HE x)) Hx) as [α Hα].
      destruct (own_part C W E σ x _ _ h1 H1 Hx Hα) as (h'&Hs'&Hown).
      assert (Hs : h' ⊆ mem s). { etrans; [exact Hs'|]. rewrite Hm. by apply map_union_subseteq_l. }
      destruct α as [tys' k|]; [|by destruct Hown]. simpl in Hown. destruct Hown as (a1&a2&->&_&He1&Hv).
      destruct (apure_inv (tys' = tys) _ He1) as [-> ->]. rewrite left_id_L in Hs.
      pose proof (hprop_in_entails _ _ (Rvar_lookup C W tys a k) _ Hv) as [t Ht].
      apply (hprop_in_entails _ _ (rd_var_get C W (we_lim _ _ Hwf) tys a k t u Ht)) in Hv.
      destruct Hv as (l0&kd&w&Hrd&_). destruct (Hrd s Hs) as (s6&Hg&Hsm&_&Htr&_).
      unfold var_get_ref, bind in Hl. rewrite Hg in Hl. case_decide; [|done]. injection Hl as _ <-. done. }
    do 2 (split; [done|]). by eexists b, _. }
  destruct (rop C n eqf ltf E K (ROpen x u rs) s) as [[[E3 K3] o3] s3|e s3|] eqn:Hop; [|by injection Hn|done].
  destruct (Hsame _ _ eq_refl) as (Hm&Htr&b&bs&Hx&[Hnd Hun]&Heq). injection Heq as -> -> ->. injection Hn as <- <- <-.
  unfold kenv in *. rewrite lookup_insert in Hn2. unfold need in Hn2. destruct (bool_decide _); [|done]. simpl in Hn2.
  injection Hn2 as <- <- <-. rewrite Forall_forall in Hun.
  split; [apply close_open; [done|]; intros r Hr'; apply Hun; by apply zip_fst_in in Hr'|].
  split; [|done]. apply delete_insert. destruct (K !! x) as [f|] eqn:Ek; [|done].
  pose proof (kok_aside _ _ (rinv_kok _ _ _ _ _ _ Hi) x) as Hn. unfold kenv in *. rewrite Ek in Hn. rewrite Hn in Hx; [done|by eexists].
Qed.
(** Assigning to a reference is assigning to the member. *)
Lemma open_is n x u rs E K s E1 K1 s1 : rexec C n eqf ltf (ROpen x u rs) E K s = RDone E1 K1 ODone s1 ->
  exists b l z ls, E !! x = Some b /\ opened C b u s = Ok l s1 /\ expect_user u l s1 = Ok (z, ls) s1 /\ unused E K rs /\
    length rs = length (ut_members (te C u)) /\
    E1 = list_to_map (zip rs (zip_with BVar (ut_members (te C u)) ls)) ∪ delete x E /\
    K1 = <[x := (b, zip rs (zip_with BVar (ut_members (te C u)) ls))]> K.
Proof.
  unfold rexec, rop. destruct (E !! x) as [b|] eqn:Hx; [|done]. unfold bind.
  destruct (opened C b u s) as [l s3|e s3|] eqn:Hl; [|done..].
  destruct (expect_user u l s3) as [[z ls] s4|e s4|] eqn:He; [|done..].
  unfold need. destruct (bool_decide _) eqn:Hb; [|done]. apply bool_decide_eq_true in Hb as [Hu Hlen]. simpl.
  intros Heq.
  assert (s4 = s3) as ->.
  { unfold expect_user, bind in He. destruct (get_obj l s3) as [oo s5|e s5|] eqn:Hg; [|done..].
    assert (s5 = s3) as ->. { unfold get_obj, get_cell, bind in Hg. destruct (mem s3 !! l) as [[? [?|] ?]|]; simpl in Hg; try done. by injection Hg as _ ->. }
    destruct oo; try done. case_decide; [|done]. by injection He as _ _ ->. }
  injection Heq as <- <- <-. by exists b, l, z, ls.
Qed.
Lemma lookup_ref (E : env) rs (bs : list bnd) j r b : NoDup rs -> rs !! j = Some r -> bs !! j = Some b ->
  (list_to_map (zip rs bs) ∪ E : env) !! r = Some b.
Proof.
  intros Hnd Hr Hb. apply lookup_union_Some_l. apply elem_of_list_to_map_1; [by apply zip_fst_nodup|].
  apply elem_of_list_lookup. exists j. by apply lookup_zip_with_Some; eauto 10.
Qed.
Lemma r_member x u rs r j y tys a E K s E1 K1 s1 E2 K2 o s2 : E !! x = Some (BVar tys a) -> rs !! j = Some r -> y ∉ rs ->
  rtakes (ROpen x u rs) E K s E1 K1 ODone s1 -> rtakes (RMain (CAssign r y)) E1 K1 s1 E2 K2 o s2 ->
  yields C eqf ltf (CSetChild x u j y) E s (Done E o s2) /\ rtakes (RClose x) E2 K2 s2 E K ODone s2.
Proof.
  intros Hx Hj Hy Ho Ha. pose proof (rtakes_reached _ _ _ _ _ _ _ _ Ha) as Hr2.
  destruct Ho as (Hr&_&[n1 Hn1]). pose proof (Hn1 n1 (le_n n1)) as Hn1'.
  apply open_is in Hn1' as (b&l&z&ls&Hxb&Hop&He&[Hnd Hun]&Hlen&HE1&HK1).
  rewrite Hx in Hxb. injection Hxb as <-. simpl in Hop. rewrite Forall_forall in Hun.
  set (refs := zip rs (zip_with BVar (ut_members (te C u)) ls)) in *.
  assert (Hrefs : forall r, r ∈ refs.*1 -> E !! r = None) by (intros r0 Hr0; apply Hun; by apply zip_fst_in in Hr0).
  destruct Ha as (Hr1&_&[n2 Hn2]).
  assert (E2 = E1 /\ K2 = K1) as [-> ->].
  { specialize (Hn2 n2 (le_n n2)). unfold rexec, rop, bind in Hn2. unfold need in Hn2. destruct (bool_decide _); [|done]. simpl in Hn2.
    unfold op, bind in Hn2. destruct (need_var E1 r s1) as [p s3|e s3|]; [..|done]; [|by injection Hn2 as <- <- _ _].
    destruct (need_var E1 y s3) as [q s4|e s4|]; [..|done]; [|by injection Hn2 as <- <- _ _].
    destruct (var_assign _ _ _ _ _ _) as [? s5|e s5|]; [..|done]; by injection Hn2 as <- <- _ _. }
  assert (Hall : forall r b, (r, b) ∈ refs -> E1 !! r = Some b).
  { intros r0 b0 Hin. subst E1. apply lookup_union_Some_l. apply elem_of_list_to_map_1; [by apply zip_fst_nodup|done]. }
  assert (Hxk : K !! x = None).
  { destruct (rreached_inv _ _ _ Hr) as (B&σ&κ&Hi). destruct (K !! x) as [f|] eqn:Ek; [|done].
    pose proof (kok_aside _ _ (rinv_kok _ _ _ _ _ _ Hi) x) as Hn. unfold kenv in *. rewrite Ek in Hn. rewrite Hn in Hx; [done|by eexists]. }
  assert (Hxk1 : K1 !! x = Some (BVar tys a, refs)) by (subst K1; unfold kenv; by rewrite lookup_insert).
  split.
  - exists (n1 `max` n2). intros n Hn. assert (Hm : n2 <= n) by lia. specialize (Hn2 n Hm).
    unfold rexec, rop, bind in Hn2. unfold need in Hn2. destruct (bool_decide _); [|done]. simpl in Hn2.
    unfold exec. unfold op, bind in *. unfold need_var in *. rewrite Hx. simpl.
    destruct (E1 !! r) as [[tysr ar|]|] eqn:Hr0; [|done..]. simpl in Hn2.
    destruct (E1 !! y) as [[tysy ay|]|] eqn:Hy0; [|done..]. simpl in Hn2.
    assert (Hey : E !! y = Some (BVar tysy ay)).
    { rewrite HE1 in Hy0. rewrite lookup_union_r in Hy0; [by apply lookup_delete_Some in Hy0 as [_ ?]|].
      apply not_elem_of_list_to_map_1. by intros ?%zip_fst_in. }
    rewrite Hey. simpl. rewrite Hop. simpl. unfold member, bind. rewrite He. simpl.
    assert (Hjr : exists tysj aj, ut_members (te C u) !! j = Some tysj /\ ls !! j = Some aj /\ BVar tysr ar = BVar tysj aj).
    { rewrite HE1 in Hr0. apply lookup_union_Some_raw in Hr0 as [Hr0|[_ Hr0]].
      - apply elem_of_list_to_map_2 in Hr0. apply elem_of_list_lookup in Hr0 as [j' Hj'].
        apply lookup_zip_with_Some in Hj' as (r1&b1&[= <- <-]&Hr1'&Hb1).
        assert (j' = j) as -> by by eapply NoDup_lookup.
        apply lookup_zip_with_Some in Hb1 as (tysj&aj&Hb1&Htj&Haj). by exists tysj, aj.
      - apply lookup_delete_Some in Hr0 as [_ Hr0]. destruct (Hun r) as [Hn0 _]; [by eapply elem_of_list_lookup_2|unfold env in *; by rewrite Hn0 in Hr0]. }
    destruct Hjr as (tysj&aj&Htj&Haj&[= -> ->]). rewrite Htj Haj. simpl.
    destruct (var_assign _ _ _ _ _ _) as [? s5|e s5|]; [..|done]; by injection Hn2 as <- <-.
  - split; [done|]. split.
    + destruct (rreached_inv _ _ _ Hr2) as (B&σ&κ&Hi). destruct (rinv_shows _ _ _ _ _ _ Hi) as [Hs Hks].
      destruct (rinv_doms _ _ _ _ _ _ Hi) as [HE _]. exists 0, σ, κ. split; [done|]. split; [done|]. simpl.
      specialize (Hks x). unfold kenv, kstate in *. rewrite Hxk1 in Hks. destruct (κ !! x) as [[α rs']|]; [|done]. destruct Hks as [-> _].
      eexists _, _. split; [done|]. intros r0 Hr0. apply HE. apply elem_of_list_fmap in Hr0 as ([r1 b1]&->&Hin).
      simpl. rewrite (Hall _ _ Hin). by eexists.
    + exists 0. intros n _. unfold rexec, rop. rewrite Hxk1. unfold need, bind. rewrite bool_decide_eq_true_2.
      2:{ unfold all_bound. apply Forall_forall. intros [r0 b0] Hin. by apply Hall. }
      simpl. subst E1 K1. unfold kenv in *. rewrite close_open // delete_insert //.
Qed.
End history.

(** ** Programs without references *)
Section main.
Context (C : cfg) (st nb : bool) (eqf ltf : uid -> uval -> uval -> bool).
Notation rhistory := (rhistory C st nb eqf ltf).
Notation radmissible := (radmissible C st nb).
Notation ryields := (ryields C eqf ltf).

Lemma allowed_empty c : allowed ∅ c.
Proof.
  split; [by case_match|]. destruct c; try done. intros (y&f&Hy&_). unfold kenv in *. by rewrite lookup_empty in Hy.
Qed.
Lemma main_exec n c E s : rexec C n eqf ltf (RMain c) E ∅ s =
  match exec C n eqf ltf c E s with Done E' o s' => RDone E' ∅ o s' | Faulted f => RFaulted f end.
Proof.
  unfold rexec, rop, bind, exec. rewrite bool_decide_eq_true_2; [|apply allowed_empty]. simpl.
  by destruct (op C n eqf ltf E c s) as [[? ?] ?|?|].
Qed.
Lemma main_yields c E s E' K' o s' : ryields (RMain c) E ∅ s (RDone E' K' o s') <->
  K' = ∅ /\ yields C eqf ltf c E s (Done E' o s').
Proof.
  split.
  - intros [n0 Hn]. assert (K' = ∅) as ->.
    { specialize (Hn n0 (le_n n0)). rewrite main_exec in Hn. destruct (exec _ _ _ _ _ _ _); [by injection Hn|done]. }
    split; [done|]. exists n0. intros n Hn'. specialize (Hn n Hn'). rewrite main_exec in Hn.
    destruct (exec _ _ _ _ _ _ _); [by injection Hn as -> -> ->|done].
  - intros [-> [n0 Hn]]. exists n0. intros n Hn'. rewrite main_exec. by rewrite Hn.
Qed.
Lemma main_admissible E s c : admissible C st nb E s c <-> radmissible E ∅ s (RMain c).
Proof.
  split.
  - intros (D&σ&Hs&Ht&Hu). exists D, σ, ∅. split; [done|]. split; [intros x; unfold kenv, kstate; by rewrite !lookup_empty|].
    split; [done|]. split; [done|]. split; [intros; unfold kstate; by rewrite lookup_empty|].
    intros r _ (x&α&rs&Hx&_). unfold kstate in *. by rewrite lookup_empty in Hx.
  - intros (D&σ&κ&Hs&_&Ht&Hu&_). by exists D, σ.
Qed.
Lemma main_history orc h E s : history C st nb eqf ltf orc h E s <-> rhistory orc (RMain <$> h) E ∅ s.
Proof.
  split.
  - induction 1 as [|h E s c E' o s' Hh IH Ha Hy]; [apply rhistory_start|]. rewrite fmap_app.
    eapply rhistory_step; [exact IH|by apply main_admissible|]. by apply main_yields.
  - assert (Hgen : forall h' K, rhistory orc h' E K s -> forall h, h' = RMain <$> h -> K = ∅ /\ history C st nb eqf ltf orc h E s).
    { intros h' K H. induction H as [|h' E K s c E' K' o s' Hh IH Ha Hy]; intros h1 Heq.
      - split; [done|]. destruct h1; [apply history_start|done].
      - destruct h1 as [|c0 h0 _] using rev_ind; [by destruct h'|]. rewrite fmap_app in Heq.
        apply app_inj_tail in Heq as [-> ->]. destruct (IH _ eq_refl) as [-> Hh0]. apply main_yields in Hy as [-> Hy]. split; [done|].
        eapply history_step; [done|by apply main_admissible|done]. }
    intros H. by apply (Hgen _ _ H h).
Qed.
End main.
