(** Programs do to the values of their variables what they say (proofs). *)
From Coq.ssr Require Import ssreflect.
From Coq Require Import ZArith Lia.
From stdpp Require Import gmap.
From iris.proofmode Require Import tactics.
From Verif Require Import Base Types Dispatch Variant Sem Values ValuesFacts Client Observe ObserveFacts Spec Trace History Owned OwnedFacts.
From Verif Require Import Heap Wp Rep SpecInt SpecVar SpecQuery Link World ClientProof Levels HistoryProof Reach ReachFacts CoreFacts.
From Verif Require Import Places PlacesSpec PlacesProof PlacesFacts Programs ProgramsSpec ProgramsFacts AlikeSpec PlacesAlikeSpec MeaningSpec.

Section meaning.
Context (C : cfg) (st nb : bool) (eqf ltf : uid -> uval -> uval -> bool).
Context (HC : good_env C st nb).
Notation rreached := (rreached C st nb eqf ltf).
Notation radmissible := (radmissible C st nb).
Notation rtakes := (rtakes C st nb eqf ltf).
Notation rx n := (rexec C n eqf ltf).
Notation types := (fmap bnd_ty).
Notation rstep := (rstep C eqf ltf).
Notation means := (means C eqf ltf).
Notation vstep := (vstep C eqf ltf).

Definition steps (c : rcmd) (E : env) (K : kenv) s o (E' : env) (K' : kenv) s' : Prop :=
  forall σ κ, shows C (mem s) E σ -> kshows (mem s) K κ ->
  exists σ' κ', shows C (mem s') E' σ' /\ kshows (mem s') K' κ' /\ rstep σ κ c o σ' κ'.
Lemma rtakes_steps c E K s E' K' o s' : rtakes c E K s E' K' o s' -> steps c E K s o E' K' s'.
Proof.
  intros Ht σ κ Hs Hk. destruct (takes_spec C st nb eqf ltf HC _ _ _ _ _ _ _ _ Ht) as (σ1&κ1&σ2&κ2&Hs1&Hk1&Hs2&Hk2&Hst).
  assert (σ1 = σ) as -> by by eapply shows_unique. assert (κ1 = κ) as -> by by eapply kshows_unique.
  by exists σ2, κ2.
Qed.
Lemma rx_steps n c E K s E' K' o s' : rreached E K s -> radmissible E K s c -> rx n c E K s = RDone E' K' o s' ->
  rreached E' K' s' /\ steps c E K s o E' K' s'.
Proof.
  intros Hr Ha Hx. destruct (rx_ok C st nb eqf ltf HC n c E K s Hr Ha) as [Hf|(E1&K1&o1&s1&Hx1&Ht)]; [congruence|].
  rewrite Hx in Hx1. injection Hx1 as <- <- <- <-. split; [by eapply rtakes_reached|by apply rtakes_steps].
Qed.

Lemma rstep_plain c σ κ o σ' κ' : (forall x u rs, c <> ROpen x u rs) -> (forall x, c <> RClose x) -> rstep σ κ c o σ' κ' ->
  κ' = κ /\ vstep σ c o σ'.
Proof.
  intros H1 H2 Hst. unfold vstep. destruct Hst; try by (exfalso; by eapply H1).
  all: try by (exfalso; by eapply H2).
  all: (split; [done|]; by econstructor).
Qed.
Lemma steps_checks c Γ E K s o s' : checks C Γ c -> steps c E K s o E K s' ->
  forall σ κ, shows C (mem s) E σ -> kshows (mem s) K κ ->
  exists σ', shows C (mem s') E σ' /\ kshows (mem s') K κ /\ vstep σ c o σ'.
Proof.
  intros Hc Hst σ κ Hs Hk. destruct (Hst σ κ Hs Hk) as (σ'&κ'&Hs'&Hk'&H).
  destruct (rstep_plain c σ κ o σ' κ') as [-> ?]; [by intros ??? ->|by intros ? ->|done|]. by exists σ'.
Qed.
Lemma steps_decl c Γ x t E K s o E' s' : declaration C st nb Γ c x t -> steps c E K s o E' K s' ->
  forall σ κ, shows C (mem s) E σ -> kshows (mem s) K κ ->
  exists σ', shows C (mem s') E' σ' /\ kshows (mem s') K κ /\ vstep σ c o σ'.
Proof.
  intros Hc Hst σ κ Hs Hk. destruct (Hst σ κ Hs Hk) as (σ'&κ'&Hs'&Hk'&H).
  destruct (rstep_plain c σ κ o σ' κ') as [-> ?]; [by intros ??? ->|by intros ? ->|done|]. by exists σ'.
Qed.
Lemma steps_drop x E K s E' s' : steps (RMain (CDrop x)) E K s ODone E' K s' ->
  forall σ κ, shows C (mem s) E σ -> kshows (mem s) K κ ->
  shows C (mem s') E' (delete x σ) /\ kshows (mem s') K κ.
Proof.
  intros Hst σ κ Hs Hk. destruct (Hst σ κ Hs Hk) as (σ'&κ'&Hs'&Hk'&H). inversion H as [c o' σ0 H'| | | | | | | | | |]; subst.
  by inversion H'; subst.
Qed.

Definition follows (p : prog) (E : env) (K : kenv) s r s' : Prop :=
  forall σ κ, shows C (mem s) E σ -> kshows (mem s) K κ ->
  exists σ', shows C (mem s') E σ' /\ kshows (mem s') K κ /\ means p σ r σ'.
Definition good (p : prog) (E : env) (K : kenv) s (r : presult) : Prop :=
  match r with
  | PRet E' K' s' => E' = E /\ K' = K /\ rreached E K s' /\ follows p E K s None s'
  | PExn e E' K' s' => E' = E /\ K' = K /\ rreached E K s' /\ follows p E K s (Some e) s'
  | _ => True
  end.
(** The end of a scope. *)
Lemma good_exit n p E1 K1 E K s r c : good p E1 K1 s r ->
  (forall s1, rreached E1 K1 s1 -> rx n c E1 K1 s1 = RFaulted FFuel \/ exists s2, rx n c E1 K1 s1 = RDone E K ODone s2 /\
     rreached E K s2 /\ steps c E1 K1 s1 ODone E K s2) ->
  match at_exit C n eqf ltf r c with
  | PRet E' K' s' => E' = E /\ K' = K /\ rreached E K s' /\ exists s1, follows p E1 K1 s None s1 /\ steps c E1 K1 s1 ODone E K s'
  | PExn e E' K' s' => E' = E /\ K' = K /\ rreached E K s' /\ exists s1, follows p E1 K1 s (Some e) s1 /\ steps c E1 K1 s1 ODone E K s'
  | _ => True
  end.
Proof.
  intros Hg Hc. destruct r as [E' K' s1|e E' K' s1|f|]; simpl in *; try done.
  - destruct Hg as (->&->&Hr&Hf). destruct (Hc s1 Hr) as [->|(s2&->&Hr2&Hst)]; [done|]. simpl. eauto 10.
  - destruct Hg as (->&->&Hr&Hf). destruct (Hc s1 Hr) as [->|(s2&->&Hr2&Hst)]; [done|]. simpl. eauto 10.
Qed.

Lemma meaning n m : forall p (E : env) (K : kenv) s, compiles C st nb (types E) (dom K) p -> rreached E K s ->
  (forall c E' K' s', issues C n m eqf ltf p E K s c E' K' s' -> rreached E' K' s' -> sources_unparked C E' s' c) ->
  good p E K s (prun C n m eqf ltf p E K s).
Proof.
  assert (Hcmd : forall c E K s, checks C (types E) c -> rreached E K s -> sources_unparked C E s c ->
    match rx n c E K s with RDone E' K' o s' => E' = E /\ K' = K /\ rreached E K s' /\ steps c E K s o E K s' | _ => True end).
  { intros c E K s Hc Hr Hup. destruct (rx n c E K s) as [E' K' o s'|f] eqn:Hx; [|done].
    destruct (checks_frame C eqf ltf n c _ E K s E' K' o s' Hc Hx) as [-> ->].
    destruct (rx_steps n c E K s E K o s' Hr) as [??]; [by eapply checks_admissible|done|done]. }
  induction p as [|c|c p IH|p IHp q IHq|p IHp q IHq|x rs ps IH|x ps IH|x y p IH|]; intros E K s Hcomp Hr Hup; simpl in Hcomp; cbn [prun].
  - split; [done|]. split; [done|]. split; [done|]. intros σ κ Hs Hk. exists σ. split; [done|]. split; [done|]. constructor.
  - specialize (Hcmd c E K s Hcomp Hr). destruct (rx n c E K s) as [E' K' o s'|f]; [|done].
    destruct Hcmd as (->&->&Hr'&Hst); [apply (Hup c E K s); [constructor|done]|].
    assert (Hm : follows (PDo c) E K s (ending o) s').
    { intros σ κ Hs Hk. destruct (steps_checks _ _ _ _ _ _ _ Hcomp Hst σ κ Hs Hk) as (σ'&?&?&?). exists σ'. split; [done|]. split; [done|]. by constructor. }
    by destruct o.
  - destruct Hcomp as (x&t&Hd&Hx&HxT&Hp).
    assert (HxE : E !! x = None). { unfold env, ctx in *. rewrite lookup_fmap in Hx. by destruct (E !! x). }
    assert (HxK : K !! x = None) by (by apply not_elem_of_dom).
    rewrite (decl_declares C st nb _ _ _ _ Hd).
    destruct (rx n c E K s) as [E' K' o s'|f] eqn:Hrx; [|done].
    destruct (rx_steps n c E K s E' K' o s' Hr) as [Hr' Hst]; [by eapply decl_admissible|done|].
    destruct (decl_frame C st nb eqf ltf n c x t E K s E' K' o s' Hd Hrx) as [-> [(e&->&->)|[Ho (b&Hb&->)]]].
    + cbn. split; [done|]. split; [done|]. split; [done|]. intros σ κ Hs Hk. destruct (steps_decl _ _ _ _ _ _ _ _ _ _ Hd Hst σ κ Hs Hk) as (σ'&?&?&?).
      exists σ'. split; [done|]. split; [done|]. by apply m_let_bad.
    + assert (Hend : ending o = None) by (destruct o; try done; by destruct (Ho e)).
      assert (Hnr : ~ is_ref K x).
      { intros (y&[b' refs]&Hy&Hin). simpl in Hin. apply elem_of_list_fmap in Hin as ([r b2]&->&Hin). simpl in *.
        destruct (r_names C st nb eqf ltf HC E K s y b' refs Hr Hy) as (_&_&Hrf).
        destruct (Hrf _ _ Hin) as [H|[? H]]; unfold env, kenv in *; congruence. }
      assert (Hpo : presult_of (RDone (<[x:=b]> E) K o s') = PRet (<[x:=b]> E) K s') by (destruct o; try done; by destruct (Ho e)).
      rewrite Hpo. cbn [and_then].
      pose proof (good_exit n p (<[x:=b]> E) K E K s' (prun C n m eqf ltf p (<[x:=b]> E) K s') (RMain (CDrop x))) as Hex.
      assert (Hall : forall r s2 s1, follows p (<[x:=b]> E) K s' r s1 -> steps (RMain (CDrop x)) (<[x:=b]> E) K s1 ODone E K s2 ->
        follows (PLet c p) E K s r s2).
      { intros r s2 s1 Hf Hs2 σ κ Hs Hk. destruct (steps_decl _ _ _ _ _ _ _ _ _ _ Hd Hst σ κ Hs Hk) as (σ1&Hs1&Hk1&H1). destruct (Hf σ1 κ Hs1 Hk1) as (σ2&Hs2'&Hk2&H2).
        destruct (steps_drop _ _ _ _ _ _ Hs2 σ2 κ Hs2' Hk2) as [Hs3 Hk3]. exists (delete x σ2). split; [done|]. split; [done|].
        eapply m_let; [exact (decl_declares C st nb _ _ _ _ Hd)|done..]. }
      assert (Hgood : good p (<[x:=b]> E) K s' (prun C n m eqf ltf p (<[x:=b]> E) K s')).
      { apply IH; [unfold env, ctx in *; by rewrite fmap_insert Hb|done|]. intros c' E' K' s2 Hi. apply Hup. eapply i_let; [|exact Hi]. by rewrite Hrx Hpo. }
      assert (Hdrop : forall s1, rreached (<[x:=b]> E) K s1 -> rx n (RMain (CDrop x)) (<[x:=b]> E) K s1 = RFaulted FFuel \/
        exists s2, rx n (RMain (CDrop x)) (<[x:=b]> E) K s1 = RDone E K ODone s2 /\ rreached E K s2 /\ steps (RMain (CDrop x)) (<[x:=b]> E) K s1 ODone E K s2).
      { intros s4 Hr4. assert (Hxb : (<[x:=b]> E) !! x = Some b) by (by rewrite lookup_insert).
        pose proof (drop_adm C st nb eqf ltf HC x (<[x:=b]> E) K s4 b Hr4 Hxb Hnr) as Ha.
        destruct (drop_ok C st nb eqf ltf HC n x (<[x:=b]> E) K s4 b Hr4 Hxb Hnr) as [|(s5&Hd5&Hr5)]; [by left|right].
        rewrite delete_insert in Hd5, Hr5; [|done]. exists s5. split; [done|]. split; [done|]. by eapply rx_steps. }
      specialize (Hex Hgood Hdrop).
      destruct (at_exit C n eqf ltf (prun C n m eqf ltf p (<[x:=b]> E) K s') (RMain (CDrop x))) as [E3 K3 s3|e E3 K3 s3|f|]; cbn; try done;
        destruct Hex as (->&->&Hr3&s1&Hf1&Hs1); (split; [done|]; split; [done|]; split; [done|]; by eapply Hall).
  - destruct Hcomp as [Hcp Hcq]. pose proof (IHp E K s Hcp Hr) as H1.
    assert (Hup1 : forall c E' K' s', issues C n m eqf ltf p E K s c E' K' s' -> rreached E' K' s' -> sources_unparked C E' s' c).
    { intros c' E' K' s2 Hi. apply Hup. by apply i_seq_l. }
    specialize (H1 Hup1). destruct (prun C n m eqf ltf p E K s) as [E' K' s'|e E' K' s'|f|] eqn:Hrun; cbn in *; try done.
    + destruct H1 as (->&->&Hr'&Hf). pose proof (IHq E K s' Hcq Hr') as H2.
      assert (Hup2 : forall c E' K' s2, issues C n m eqf ltf q E K s' c E' K' s2 -> rreached E' K' s2 -> sources_unparked C E' s2 c).
      { intros c' E' K' s2 Hi. apply Hup. by eapply i_seq_r. }
      specialize (H2 Hup2). assert (Hall : forall r s2, follows q E K s' r s2 -> follows (PSeq p q) E K s r s2).
      { intros r s2 Hf2 σ κ Hs Hk. destruct (Hf σ κ Hs Hk) as (σ1&Hs1&Hk1&Hm1). destruct (Hf2 σ1 κ Hs1 Hk1) as (σ2&Hs2&Hk2&Hm2).
        exists σ2. split; [done|]. split; [done|]. by eapply m_seq. }
      destruct (prun C n m eqf ltf q E K s') as [E' K' s2|e E' K' s2|f|]; cbn in *; try done;
        destruct H2 as (->&->&?&?); (split; [done|]; split; [done|]; split; [done|]; by apply Hall).
    + destruct H1 as (->&->&Hr'&Hf). split; [done|]. split; [done|]. split; [done|].
      intros σ κ Hs Hk. destruct (Hf σ κ Hs Hk) as (σ1&Hs1&Hk1&Hm1). exists σ1. split; [done|]. split; [done|]. by apply m_seq_bad.
  - destruct Hcomp as [Hcp Hcq]. pose proof (IHp E K s Hcp Hr) as H1.
    assert (Hup1 : forall c E' K' s', issues C n m eqf ltf p E K s c E' K' s' -> rreached E' K' s' -> sources_unparked C E' s' c).
    { intros c' E' K' s2 Hi. apply Hup. by apply i_try. }
    specialize (H1 Hup1). destruct (prun C n m eqf ltf p E K s) as [E' K' s'|e E' K' s'|f|] eqn:Hrun; cbn in *; try done.
    + destruct H1 as (->&->&Hr'&Hf). split; [done|]. split; [done|]. split; [done|].
      intros σ κ Hs Hk. destruct (Hf σ κ Hs Hk) as (σ1&Hs1&Hk1&Hm1). exists σ1. split; [done|]. split; [done|]. by apply m_try.
    + destruct H1 as (->&->&Hr'&Hf). pose proof (IHq E K s' Hcq Hr') as H2.
      assert (Hup2 : forall c E' K' s2, issues C n m eqf ltf q E K s' c E' K' s2 -> rreached E' K' s2 -> sources_unparked C E' s2 c).
      { intros c' E' K' s2 Hi. apply Hup. by eapply i_catch. }
      specialize (H2 Hup2). assert (Hall : forall r s2, follows q E K s' r s2 -> follows (PTry p q) E K s r s2).
      { intros r s2 Hf2 σ κ Hs Hk. destruct (Hf σ κ Hs Hk) as (σ1&Hs1&Hk1&Hm1). destruct (Hf2 σ1 κ Hs1 Hk1) as (σ2&Hs2&Hk2&Hm2).
        exists σ2. split; [done|]. split; [done|]. by eapply m_catch. }
      destruct (prun C n m eqf ltf q E K s') as [E' K' s2|e2 E' K' s2|f|]; cbn in *; try done;
        destruct H2 as (->&->&?&?); (split; [done|]; split; [done|]; split; [done|]; by apply Hall).
  - destruct Hcomp as (tys&Hx&Hps). unfold ctx, env in *. rewrite lookup_fmap in Hx.
    destruct (E !! x) as [[tys' a|]|] eqn:HxE; simpl in Hx; try done. injection Hx as ->.
    destruct (visit_type C st nb eqf ltf HC E K s x tys a Hr HxE) as (k&t&l&kd&w&z&ls&Hvh&Ht&_&Hl&Hlen&Hv).
    destruct (Hps t) as (Hnd&Hlr&Hun&Hp); [by eapply elem_of_list_lookup_2|].
    assert (Hun' : forall r, r ∈ rs (ity_uid t) -> E !! r = None /\ K !! r = None).
    { intros r Hin. destruct (Hun r Hin) as [H1 H2]. split; [|by apply not_elem_of_dom]. rewrite lookup_fmap in H1. by destruct (E !! r). }
    destruct (open_ok C st nb eqf ltf HC x (rs (ity_uid t)) E K s tys a t l kd w z ls Hr HxE Hl Hv Hnd Hlr Hun') as [Ho Hr1].
    set (refs := zip (rs (ity_uid t)) (zip_with BVar (ut_members (te C (ity_uid t))) ls)) in *.
    assert (Hao : radmissible E K s (ROpen x (ity_uid t) (rs (ity_uid t)))).
    { destruct (looks C st nb eqf ltf HC _ _ _ Hr) as (σ&κ&Hs&Hk&HK&Hvar&_&Hnone&_). exists 0, σ, κ. split; [done|]. split; [done|].
      split; [|split; [done|split; [done|]]].
      - left. exists tys. apply Hvar. unfold env, ctx in *. by rewrite lookup_fmap HxE.
      - intros r Hin. destruct (Hun' r Hin) as [H1 H2]. split; [by apply Hnone|]. specialize (HK r). unfold kenv, kstate in *.
        destruct (κ !! r); [|done]. destruct HK as [_ HK]. destruct HK; [done|]. congruence. }
    destruct (rx_steps n _ _ _ _ _ _ _ _ Hr Hao (Ho n)) as [_ Hso].
    unfold dispatch. unfold env in *. rewrite HxE Hv. unfold ret at 1. rewrite Ho. cbn [presult_of and_then].
    set (E1 := list_to_map refs ∪ delete x E) in *. set (K1 := <[x:=(BVar tys a, refs)]> K) in *.
    pose proof (good_exit n (ps (ity_uid t)) E1 K1 E K s (prun C n m eqf ltf (ps (ity_uid t)) E1 K1 s) (RClose x)) as Hex.
    assert (Hall : forall r s2 s1, follows (ps (ity_uid t)) E1 K1 s r s1 -> steps (RClose x) E1 K1 s1 ODone E K s2 ->
      follows (PVisit x rs ps) E K s r s2).
    { intros r s2 s1 Hf Hs2 σ κ Hs Hk. destruct (Hso σ κ Hs Hk) as (σ1&κ1&Hs1&Hk1&H1). destruct (Hf σ1 κ1 Hs1 Hk1) as (σ2&Hs2'&Hk2&H2).
      destruct (Hs2 σ2 κ1 Hs2' Hk2) as (σ3&κ3&Hs3&Hk3&H3).
      pose proof (Hs x) as Hsx. unfold env in *. rewrite HxE in Hsx. destruct (σ !! x) as [[tys' k'|]|] eqn:Hσx; try done. destruct Hsx as [-> Hk'].
      assert (k' = k) as -> by by eapply var_holds_unique.
      assert (Hκx : κ !! x = None).
      { pose proof (Hk x) as Hkx. unfold kenv, kstate in *. destruct (κ !! x) as [[??]|]; [|done]. destruct (K !! x) as [[? ?]|] eqn:HKx; [|done].
        destruct (r_names C st nb eqf ltf HC _ _ _ _ _ _ Hr HKx) as [Hn _]. unfold env in *. congruence. }
      inversion H1 as [|x' u' rs' tys' bi z' ks Hx1 Hh| |x' u' rs' z' ks Hx1| | | | | | |]; subst.
      2: { unfold is_obj in Hx1. unfold astate in *. congruence. }
      unfold is_var in Hx1. unfold astate in *. rewrite Hσx in Hx1. injection Hx1 as <- ->.
      inversion H3 as [| | | |x' α rs' ks' Hκ1 Hall'| | | | | |]; subst. unfold kstate in *. rewrite lookup_insert in Hκ1. injection Hκ1 as <- <-.
      eexists. split; [exact Hs3|]. split; [by rewrite delete_insert in Hk3|].
      cbn [fill]. simpl. eapply m_visit; [exact Hσx|by exists t|exact H2|exact Hall']. }
    assert (Hgood : good (ps (ity_uid t)) E1 K1 s (prun C n m eqf ltf (ps (ity_uid t)) E1 K1 s)).
    { apply IH; [|done|].
      - pose proof (types_refs E x (rs (ity_uid t)) (ut_members (te C (ity_uid t))) ls Hlr Hlen) as HT. unfold env, ctx in HT.
        unfold E1, refs, env. rewrite HT. unfold K1, kenv. by rewrite dom_insert_L.
      - intros c' E' K' s2 Hi. apply Hup. eapply i_visit; [exact HxE|by rewrite Hv|by rewrite Ho|done]. }
    assert (Hclose : forall s1, rreached E1 K1 s1 -> rx n (RClose x) E1 K1 s1 = RFaulted FFuel \/ exists s2, rx n (RClose x) E1 K1 s1 = RDone E K ODone s2 /\
      rreached E K s2 /\ steps (RClose x) E1 K1 s1 ODone E K s2).
    { intros s1 Hr2. right. destruct (close_ok C st nb eqf ltf HC x (BVar tys a) refs _ _ s1 E Hr2) as [Hc Hr3].
      - unfold K1, kenv. by rewrite lookup_insert.
      - intros [r1 b1] Hin. simpl. apply lookup_union_Some_l. apply elem_of_list_to_map_1; [by apply zip_fst_nodup|done].
      - apply close_open; [done|]. intros r1 Hin. apply Hun'. by eapply zip_fst_in.
      - unfold K1, kenv in *. rewrite delete_insert in Hc, Hr3; [|].
        + exists s1. split; [done|]. split; [done|]. eapply (rx_steps n); [exact Hr2| |done].
          destruct (looks C st nb eqf ltf HC _ _ _ Hr2) as (σ&κ&Hs&Hk&_). exists 0, σ, κ. split; [done|]. split; [done|].
          pose proof (Hk x) as Hkx. unfold kenv, kstate in *. rewrite lookup_insert in Hkx. destruct (κ !! x) as [[α rs']|] eqn:Hκ; [|done].
          destruct Hkx as [-> _]. exists α, refs.*1. split; [done|]. intros r Hin. apply elem_of_list_fmap in Hin as ([r' b']&->&Hin).
          assert (Hb : E1 !! r' = Some b').
          { apply lookup_union_Some_l. apply elem_of_list_to_map_1; [by apply zip_fst_nodup|done]. }
          specialize (Hs r'). unfold env in *. rewrite Hb in Hs. simpl. destruct (σ !! r'); [by eexists|by destruct b'].
        + destruct (K !! x) as [[? ?]|] eqn:Hkx; [|done]. destruct (r_names C st nb eqf ltf HC _ _ _ _ _ _ Hr Hkx) as [Hn _]. unfold env in *. congruence. }
    specialize (Hex Hgood Hclose).
    destruct (at_exit C n eqf ltf (prun C n m eqf ltf (ps (ity_uid t)) E1 K1 s) (RClose x)) as [E3 K3 s3|e E3 K3 s3|f|]; cbn; try done;
      destruct Hex as (->&->&Hr3&s1&Hf1&Hs1); (split; [done|]; split; [done|]; split; [done|]; by eapply Hall).
  - destruct Hcomp as (tys&Hx&Hps). unfold ctx, env in *. rewrite lookup_fmap in Hx.
    destruct (E !! x) as [[tys' a|]|] eqn:HxE; simpl in Hx; try done. injection Hx as ->.
    destruct (visit_type C st nb eqf ltf HC E K s x tys a Hr HxE) as (k&t&l&kd&w&z&ls&Hvh&Ht&_&Hl&Hlen&Hv).
    unfold dispatch. unfold env in *. rewrite HxE Hv. unfold ret at 1.
    assert (Hgood : good (ps (ity_uid t)) E K s (prun C n m eqf ltf (ps (ity_uid t)) E K s)).
    { apply IH; [by eapply Hps, elem_of_list_lookup_2|done|].
      intros c' E' K' s2 Hi. apply Hup. eapply i_switch; [exact HxE|by rewrite Hv|done]. }
    assert (Hall : forall r s2, follows (ps (ity_uid t)) E K s r s2 -> follows (PSwitch x ps) E K s r s2).
    { intros r s2 Hf σ κ Hs Hk. destruct (Hf σ κ Hs Hk) as (σ1&Hs1&Hk1&H1). exists σ1. split; [done|]. split; [done|].
      pose proof (Hs x) as Hsx. unfold env in *. rewrite HxE in Hsx. destruct (σ !! x) as [[tys' k'|]|] eqn:Hσx; try done. destruct Hsx as [-> Hk'].
      assert (k' = k) as -> by by eapply var_holds_unique. eapply m_switch; [exact Hσx|by exists t|done]. }
    destruct (prun C n m eqf ltf (ps (ity_uid t)) E K s) as [E3 K3 s3|e E3 K3 s3|f|]; cbn in *; try done;
      destruct Hgood as (->&->&Hr3&Hf1); (split; [done|]; split; [done|]; split; [done|]; by eapply Hall).
  - destruct Hcomp as [Hxy Hp].
    assert (Hl : forall k s, rreached E K s ->
      (forall c E' K' s', issues C n m eqf ltf (PWhile x y p) E K s c E' K' s' -> rreached E' K' s' -> sources_unparked C E' s' c) ->
      good (PWhile x y p) E K s (loop C n eqf ltf x y (prun C n m eqf ltf p) k E K s)).
    { clear s Hr Hup. induction k as [|k IHk]; intros s Hr Hup; cbn [loop]; [done|].
      pose proof (Hcmd (RMain (CEq x y)) E K s Hxy Hr) as Hc. destruct (rx n (RMain (CEq x y)) E K s) as [E' K' o s'|f] eqn:Hrx; [|done].
      destruct Hc as (->&->&Hr'&Hst); [by intros σ _|].
      assert (Ho : o = OBool true \/ o <> OBool true).
      { destruct o as [| | | | | |[]]; first [by left|by right]. }
      destruct Ho as [->|Ho].
      - pose proof (IH E K s' Hp Hr') as H1.
        assert (Hup1 : forall c E' K' s2, issues C n m eqf ltf p E K s' c E' K' s2 -> rreached E' K' s2 -> sources_unparked C E' s2 c).
        { intros c' E' K' s2 Hi. apply Hup. by eapply i_while. }
        specialize (H1 Hup1). destruct (prun C n m eqf ltf p E K s') as [E' K' s2|e E' K' s2|f|] eqn:Hrun; cbn in *; try done.
        + destruct H1 as (->&->&Hr2&Hf). pose proof (IHk s2 Hr2) as H2.
          assert (Hup2 : forall c E' K' s3, issues C n m eqf ltf (PWhile x y p) E K s2 c E' K' s3 -> rreached E' K' s3 -> sources_unparked C E' s3 c).
          { intros c' E' K' s3 Hi. apply Hup. by eapply i_again. }
          specialize (H2 Hup2). assert (Hall : forall r s3, follows (PWhile x y p) E K s2 r s3 -> follows (PWhile x y p) E K s r s3).
          { intros r s3 Hf2 σ κ Hs Hk. destruct (steps_checks _ _ _ _ _ _ _ (Hxy : checks C _ (RMain (CEq x y))) Hst σ κ Hs Hk) as (σ1&Hs1&Hk1&Hm1). destruct (Hf σ1 κ Hs1 Hk1) as (σ2&Hs2&Hk2&Hm2).
            destruct (Hf2 σ2 κ Hs2 Hk2) as (σ3&Hs3&Hk3&Hm3). exists σ3. split; [done|]. split; [done|]. by eapply m_while. }
          destruct (loop C n eqf ltf x y (prun C n m eqf ltf p) k E K s2) as [E' K' s3|e E' K' s3|f|]; cbn in *; try done;
            destruct H2 as (->&->&?&?); (split; [done|]; split; [done|]; split; [done|]; by apply Hall).
        + destruct H1 as (->&->&Hr2&Hf). split; [done|]. split; [done|]. split; [done|].
          intros σ κ Hs Hk. destruct (steps_checks _ _ _ _ _ _ _ (Hxy : checks C _ (RMain (CEq x y))) Hst σ κ Hs Hk) as (σ1&Hs1&Hk1&Hm1). destruct (Hf σ1 κ Hs1 Hk1) as (σ2&Hs2&Hk2&Hm2).
          exists σ2. split; [done|]. split; [done|]. by eapply m_while_bad.
      - assert (Hm : follows (PWhile x y p) E K s (ending o) s').
        { intros σ κ Hs Hk. destruct (steps_checks _ _ _ _ _ _ _ (Hxy : checks C _ (RMain (CEq x y))) Hst σ κ Hs Hk) as (σ1&Hs1&Hk1&Hm1). exists σ1. split; [done|]. split; [done|]. by apply m_while_end. }
        destruct o as [| | | | | |[]]; try done. }
    by apply Hl.
  - done.
Qed.

(** ** Names that are not mentioned *)
Lemma lookup_refs (rs : list name) (as_ : list aval) (σ : astate) x z : z ∉ rs -> z <> x ->
  (list_to_map (zip rs as_) ∪ delete x σ : astate) !! z = σ !! z.
Proof.
  intros Hz Hx. rewrite lookup_union_r; [by rewrite lookup_delete_ne|].
  apply not_elem_of_list_to_map_1. intros Hin. apply Hz. by eapply zip_fst_in.
Qed.
Lemma vstep_other σ c o σ' z : vstep σ c o σ' -> z ∉ rnames c -> σ' !! z = σ !! z.
Proof.
  assert (Hfresh : forall σ c o a u y (τ : astate) r, astep C eqf ltf (<[o := AObj u a]> σ) c r τ -> σ !! o = None ->
    z ∉ y :: filter (fun w => w <> o) (names c) -> (delete o τ : astate) !! z = σ !! z).
  { intros σ0 c0 o0 a u y τ r Ha Ho Hn. destruct (decide (z = o0)) as [->|Hne]; [by rewrite lookup_delete|].
    rewrite lookup_delete_ne //. rewrite (astep_other _ _ _ _ _ _ _ z Ha).
    - by rewrite lookup_insert_ne.
    - intros Hin. apply Hn. right. by apply elem_of_list_filter. }
  unfold vstep. intros Hst Hz. inversion Hst; subst; simpl in Hz; repeat match goal with
    | H : _ ∉ _ :: _ |- _ => apply not_elem_of_cons in H as [? ?] end; try done.
  - by eapply astep_other.
  - by apply lookup_refs.
  - by apply lookup_refs.
  - rewrite lookup_insert_ne //. eapply (Hfresh _ _ _ _ _ y); [done..|]. simpl. rewrite !filter_cons. repeat case_decide; set_solver.
  - rewrite lookup_insert_ne //. eapply (Hfresh _ _ _ _ _ y); [done..|]. simpl. rewrite !filter_cons. repeat case_decide; set_solver.
  - eapply (Hfresh _ _ _ _ _ y); [done..|]. simpl. rewrite !filter_cons. repeat case_decide; set_solver.
Qed.
Lemma declares_names c x : rdeclares c = Some x -> x ∈ rnames c.
Proof. destruct c as [[]| | | | |]; simpl; try done; intros [= ->]; set_solver. Qed.
Lemma foldr_delete_other (rs : list name) (σ : astate) z : z ∉ rs -> (foldr delete σ rs : astate) !! z = σ !! z.
Proof.
  induction rs as [|r rs IH]; simpl; [done|]. intros Hz. apply not_elem_of_cons in Hz as [Hne Hz]. rewrite lookup_delete_ne; [|done]. by apply IH.
Qed.
Lemma means_other p σ r σ' z : means p σ r σ' -> ~ mentions p z -> σ' !! z = σ !! z.
Proof.
  induction 1 as [σ|c σ o σ' H|c p σ e σ' H|c p x σ o σ1 r σ2 Hx H Ho Hm IH|p q σ e σ' Hm IH|p q σ σ1 r σ' H1 IH1 H2 IH2|p q σ σ' Hm IH
    |p q σ e σ1 r σ' H1 IH1 H2 IH2|x rs ps σ tys bi z' ks u r σ2 ks' Hx Hh Hm IH Hall|x ps σ tys k u r σ' Hx Hh Hm IH
    |x y p σ o σ' H Ho|x y p σ σ1 e σ' H Hm IH|x y p σ σ1 σ2 r σ' H H1 IH1 H2 IH2]; simpl; intros Hz.
  - done.
  - by eapply vstep_other.
  - eapply vstep_other; [done|]. tauto.
  - assert (z <> x). { intros ->. apply Hz. left. by apply declares_names. }
    rewrite lookup_delete_ne //. rewrite IH; [|tauto]. eapply vstep_other; [done|]. tauto.
  - apply IH. tauto.
  - rewrite IH2; [|tauto]. apply IH1. tauto.
  - apply IH. tauto.
  - rewrite IH2; [|tauto]. apply IH1. tauto.
  - assert (z <> x) by (intros ->; apply Hz; by left). assert (z ∉ rs u) by (intros ?; apply Hz; right; exists u; by left).
    rewrite lookup_insert_ne //. rewrite foldr_delete_other // IH; [by apply lookup_refs|]. intros ?. apply Hz. right. exists u. by right.
  - apply IH. intros ?. apply Hz. right. by exists u.
  - eapply vstep_other; [done|]. simpl. set_solver.
  - rewrite IH; [|tauto]. eapply vstep_other; [done|]. simpl. set_solver.
  - rewrite IH2; [|simpl; tauto]. rewrite IH1; [|tauto]. eapply vstep_other; [done|]. simpl. set_solver.
Qed.

(** ** Loops *)
Lemma means_loop x y p (I : astate -> Prop) :
  (forall σ σ1 σ2, I σ -> vstep σ (RMain (CEq x y)) (OBool true) σ1 -> means p σ1 None σ2 -> I σ2) ->
  forall σ σ', I σ -> means (PWhile x y p) σ None σ' -> exists σ1, I σ1 /\ vstep σ1 (RMain (CEq x y)) (OBool false) σ'.
Proof.
  intros HI σ σ' Hσ Hm. remember (PWhile x y p) as q eqn:Hq. remember (None : option exn) as r eqn:Hr. revert Hq Hr Hσ.
  induction Hm as [σ|c σ o σ' H|c p' σ e σ' H|c p' x' σ o σ1 r σ2 Hx H Ho Hm IH|p' q σ e σ' Hm IH|p' q σ σ1 r σ' H1 IH1 H2 IH2|p' q σ σ' Hm IH
    |p' q σ e σ1 r σ' H1 IH1 H2 IH2|x' rs ps σ tys bi z' ks u r σ2 ks' Hx Hh Hm IH Hall|x' ps σ tys k u r σ' Hx Hh Hm IH
    |x' y' p' σ o σ' H Ho|x' y' p' σ σ1 e σ' H Hm IH|x' y' p' σ σ1 σ2 r σ' H H1 IH1 H2 IH2]; intros Hq Hr Hσ; try done.
  - injection Hq as -> -> ->. exists σ. split; [done|]. inversion H as [c o' σ0 Hst'| | | | | | | | | |]; subst. inversion Hst'; subst; simpl in Hr; try done.
    destruct b; [by destruct Ho|exact H].
  - injection Hq as -> -> ->. subst r. apply IH2; [done..|]. by eapply HI.
Qed.

(** ** Runs *)
Lemma runs : nb = true -> forall p (E : env) (K : kenv) s n m σ κ, compiles C st nb (types E) (dom K) p -> rreached E K s ->
  shows C (mem s) E σ -> kshows (mem s) K κ ->
  match prun C n m eqf ltf p E K s with
  | PRet E' K' s' => E' = E /\ K' = K /\ exists σ', shows C (mem s') E σ' /\ kshows (mem s') K κ /\ means p σ None σ'
  | PExn e E' K' s' => E' = E /\ K' = K /\ exists σ', shows C (mem s') E σ' /\ kshows (mem s') K κ /\ means p σ (Some e) σ'
  | _ => True
  end.
Proof.
  intros Hnb p E K s n m σ κ Hc Hr Hs Hk. pose proof (meaning n m p E K s Hc Hr) as Hg. unfold good in Hg.
  assert (Hup : forall c E' K' s', issues C n m eqf ltf p E K s c E' K' s' -> rreached E' K' s' -> sources_unparked C E' s' c).
  { intros. by eapply never_parked. }
  specialize (Hg Hup). destruct (prun C n m eqf ltf p E K s); try done; destruct Hg as (->&->&_&Hf); (split; [done|]; split; [done|]; by apply Hf).
Qed.
Lemma runs_parked : forall p (E : env) (K : kenv) s n m σ κ, compiles C st nb (types E) (dom K) p -> rreached E K s ->
  (forall c E' K' s', issues C n m eqf ltf p E K s c E' K' s' -> rreached E' K' s' -> sources_unparked C E' s' c) ->
  shows C (mem s) E σ -> kshows (mem s) K κ ->
  match prun C n m eqf ltf p E K s with
  | PRet E' K' s' => E' = E /\ K' = K /\ exists σ', shows C (mem s') E σ' /\ kshows (mem s') K κ /\ means p σ None σ'
  | PExn e E' K' s' => E' = E /\ K' = K /\ exists σ', shows C (mem s') E σ' /\ kshows (mem s') K κ /\ means p σ (Some e) σ'
  | _ => True
  end.
Proof.
  intros p E K s n m σ κ Hc Hr Hup Hs Hk. pose proof (meaning n m p E K s Hc Hr Hup) as Hg. unfold good in Hg.
  destruct (prun C n m eqf ltf p E K s); try done; destruct Hg as (->&->&_&Hf); (split; [done|]; split; [done|]; by apply Hf).
Qed.
Lemma ended_runs : nb = true -> forall p (E : env) (K : kenv) s n m σ E' s' σ', compiles C st nb (types E) (dom K) p -> rreached E K s ->
  shows C (mem s) E σ -> ended (prun C n m eqf ltf p E K s) E' s' -> shows C (mem s') E' σ' -> exists r, means p σ r σ'.
Proof.
  intros Hnb p E K s n m σ E' s' σ' Hc Hr Hs (K'&He) Hs'. destruct (looks C st nb eqf ltf HC _ _ _ Hr) as (σ0&κ&_&Hk&_).
  pose proof (runs Hnb p E K s n m σ κ Hc Hr Hs Hk) as Hg. destruct He as [He|[e He]]; rewrite He in Hg; destruct Hg as (->&->&σ1&H1&_&Hm).
  - assert (σ1 = σ') as -> by by eapply shows_unique. by exists None.
  - assert (σ1 = σ') as -> by by eapply shows_unique. by exists (Some e).
Qed.
Lemma keeps : nb = true -> forall p (E : env) (K : kenv) s n m σ E' s' σ' z, compiles C st nb (types E) (dom K) p -> rreached E K s ->
  shows C (mem s) E σ -> ended (prun C n m eqf ltf p E K s) E' s' -> shows C (mem s') E' σ' -> ~ mentions p z -> σ' !! z = σ !! z.
Proof.
  intros Hnb p E K s n m σ E' s' σ' z Hc Hr Hs He Hs' Hz. destruct (ended_runs Hnb _ _ _ _ _ _ _ _ _ _ Hc Hr Hs He Hs') as [r Hm].
  by eapply means_other.
Qed.
Lemma loops : nb = true -> forall x y p (E : env) (K : kenv) s n m σ E' K' s' σ' (I : astate -> Prop),
  compiles C st nb (types E) (dom K) (PWhile x y p) -> rreached E K s ->
  shows C (mem s) E σ -> prun C n m eqf ltf (PWhile x y p) E K s = PRet E' K' s' -> shows C (mem s') E' σ' ->
  I σ -> (forall σ1 σ2, I σ1 -> equal C eqf ltf σ1 x y true -> means p σ1 None σ2 -> I σ2) ->
  I σ' /\ equal C eqf ltf σ' x y false.
Proof.
  intros Hnb x y p E K s n m σ E' K' s' σ' I Hc Hr Hs He Hs' HI HIp.
  assert (Heq : forall σ1 b σ2, vstep σ1 (RMain (CEq x y)) (OBool b) σ2 -> σ2 = σ1).
  { intros σ1 b σ2 H. inversion H as [c o' σ0 Hst'| | | | | | | | | |]; subst. by inversion Hst'; subst. }
  assert (Heq' : forall σ1 b, vstep σ1 (RMain (CEq x y)) (OBool b) σ1 -> equal C eqf ltf σ1 x y b).
  { intros σ1 b H. inversion H as [c o' σ0 Hst'| | | | | | | | | |]; subst. exact Hst'. }
  destruct (looks C st nb eqf ltf HC _ _ _ Hr) as (σ0&κ&_&Hk&_).
  pose proof (runs Hnb _ E K s n m σ κ Hc Hr Hs Hk) as Hg. rewrite He in Hg. destruct Hg as (->&->&σ1&H1&_&Hm).
  assert (σ1 = σ') as -> by by eapply shows_unique.
  destruct (means_loop x y p I) with (σ := σ) (σ' := σ') as (σ2&HI2&Hst); [|done|done|].
  - intros τ τ1 τ2 Hτ Hst H2. assert (τ1 = τ) as -> by by eapply Heq. eapply HIp; [exact Hτ| |exact H2]. by apply Heq'.
  - assert (σ' = σ2) as -> by by eapply Heq. split; [done|]. by apply Heq'.
Qed.
End meaning.

(** ** Swapping by moves *)
Section swap.
Context (C : cfg) (st : bool) (eqf ltf : uid -> uval -> uval -> bool) (HC : good_env C st true).
Lemma erasev_clean k : cleanv k = true -> erasev k = k.
Proof.
  unfold cleanv, erasev. intros H. apply andb_true_iff in H as [H1 H2]. rewrite clean_erase_id //. destruct k as [[[] i] v]; done.
Qed.
Lemma m_do_inv c σ r σ' : means C eqf ltf (PDo c) σ r σ' -> exists o, vstep C eqf ltf σ c o σ' /\ ending o = r.
Proof. intros H. inversion H; subst. eauto. Qed.
Lemma v_move σ t x o σ' : vstep C eqf ltf σ (RMain (CMove t x)) o σ' -> ending o = None ->
  exists tys k v', is_var σ x tys k /\ σ' = <[t := AVar tys (erasev k)]> (<[x := AVar tys (k.1, v')]> σ).
Proof.
  intros H Ho. inversion H as [c o' σ0 Ha| | | | | | | | | |]; subst. inversion Ha; subst; [|done]. eauto 10.
Qed.
Lemma v_massign σ x y o σ' : x <> y -> vstep C eqf ltf σ (RMain (CMoveAssign x y)) o σ' -> ending o = None ->
  exists tys k2 k2', is_var σ y tys k2 /\ σ' = <[x := AVar tys k2]> (<[y := AVar tys k2']> σ).
Proof.
  intros Hne H Ho. inversion H as [c o' σ0 Ha| | | | | | | | | |]; subst. inversion Ha; subst; try done. eauto 10.
Qed.
Lemma move_swap_ok : forall (E : env) (K : kenv) s n m x y t tys k1 k2 E' K' s',
  rreached C st true eqf ltf E K s -> NoDup [x; y; t] -> E !! t = None -> K !! t = None ->
  sees C E s x tys k1 -> sees C E s y tys k2 ->
  prun C n m eqf ltf (PLet (RMain (CMove t x)) (PSeq (PDo (RMain (CMoveAssign x y))) (PDo (RMain (CMoveAssign y t))))) E K s = PRet E' K' s' ->
  sees C E' s' x tys k2 /\ sees C E' s' y tys k1.
Proof.
  intros E K s n m x y t tys k1 k2 E' K' s' Hr Hnd HtE HtK Hx Hy Hrun.
  apply NoDup_cons in Hnd as [Hxyt Hnd]. apply NoDup_cons in Hnd as [Hyt _].
  assert (Hxy : x <> y) by set_solver. assert (Hxt : x <> t) by set_solver. assert (Hyt' : y <> t) by set_solver.
  destruct (looks C st true eqf ltf HC _ _ _ Hr) as (σ&κ&Hs&Hk&_&_&_&_&Hcl&_).
  destruct Hx as (a1&Hx&Hk1), Hy as (a2&Hy&Hk2).
  assert (Hσ1 : σ !! x = Some (AVar tys k1)).
  { specialize (Hs x). unfold env in *. rewrite Hx in Hs. destruct (σ !! x) as [[]|]; try done. destruct Hs as [-> Hk']. f_equal. f_equal. by eapply var_holds_unique. }
  assert (Hσ2 : σ !! y = Some (AVar tys k2)).
  { specialize (Hs y). unfold env in *. rewrite Hy in Hs. destruct (σ !! y) as [[]|]; try done. destruct Hs as [-> Hk']. f_equal. f_equal. by eapply var_holds_unique. }
  pose proof (runs C st true eqf ltf HC eq_refl (PLet (RMain (CMove t x)) (PSeq (PDo (RMain (CMoveAssign x y))) (PDo (RMain (CMoveAssign y t))))) E K s n m σ κ) as Hm.
  rewrite Hrun in Hm. destruct Hm as (->&->&σ'&Hs'&_&Hm); [|done..|].
  { simpl. exists t, (TVar tys). unfold env, ctx, kenv in *. split; [|split; [|split; [by apply not_elem_of_dom|]]].
    - split; [done|]. exists tys. split; [done|]. by rewrite lookup_fmap Hx.
    - by rewrite lookup_fmap HtE.
    - split; exists tys.
      + rewrite !lookup_insert_ne // !lookup_fmap Hx Hy. done.
      + rewrite lookup_insert lookup_insert_ne // lookup_fmap Hy. done. }
  assert (He1 : erasev k1 = k1). { apply erasev_clean. by eapply Hcl. }
  inversion Hm as [| | |c p x' σ0 o σ1 r σ2 Hd Hst Ho Hm2| | | | | | | | |]; subst. simpl in Hd. injection Hd as <-.
  inversion Hm2 as [| | | | |p q σ0 σ3 r σ4 H3 H4| | | | | | |]; subst.
  destruct (m_do_inv _ _ _ _ H3) as (o1&Hst3&Hr3), (m_do_inv _ _ _ _ H4) as (o2&Hst4&Hr4).
  destruct (v_move _ _ _ _ _ Hst Ho) as (tys1&kx&v'&Hvx&->). unfold is_var, astate in *. rewrite Hσ1 in Hvx. injection Hvx as <- <-.
  destruct (v_massign _ _ _ _ _ Hxy Hst3 Hr3) as (tys2&ky&ky'&Hvy&->). unfold is_var, astate in *.
  rewrite !lookup_insert_ne // Hσ2 in Hvy. injection Hvy as <- <-.
  destruct (v_massign _ _ _ _ _ Hyt' Hst4 Hr4) as (tys3&kt&kt'&Hvt&->). unfold is_var, astate in *.
  rewrite lookup_insert_ne // lookup_insert_ne // lookup_insert in Hvt. injection Hvt as <- <-. rewrite He1 in Hs'.
  split.
  - exists a1. split; [done|]. specialize (Hs' x). unfold env, astate in *. rewrite Hx in Hs'.
    rewrite lookup_delete_ne // lookup_insert_ne // lookup_insert_ne // lookup_insert in Hs'. by destruct Hs'.
  - exists a2. split; [done|]. specialize (Hs' y). unfold env, astate in *. rewrite Hy in Hs'.
    rewrite lookup_delete_ne // lookup_insert in Hs'. by destruct Hs'.
Qed.
End swap.
