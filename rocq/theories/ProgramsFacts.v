(** Programs that compile do not go wrong (proofs). *)
From Coq.ssr Require Import ssreflect.
From Coq Require Import ZArith Lia.
From stdpp Require Import gmap.
From iris.proofmode Require Import tactics.
From Verif Require Import Base Types Dispatch Variant Sem Values ValuesFacts Client Observe ObserveFacts Spec Trace History Owned OwnedFacts.
From Verif Require Import Heap Wp Rep SpecInt SpecVar SpecQuery Link World ClientProof Levels HistoryProof Reach ReachFacts CoreFacts.
From Verif Require Import Places PlacesSpec PlacesProof PlacesFacts Programs ProgramsSpec.

Section programs.
Context (C : cfg) (st nb : bool) (eqf ltf : uid -> uval -> uval -> bool).
Context (HC : good_env C st nb).
Notation W := (WPar st nb).
Notation rreached := (rreached C st nb eqf ltf).
Notation radmissible := (radmissible C st nb).
Notation rtakes := (rtakes C st nb eqf ltf).
Notation rx n := (rexec C n eqf ltf).
Notation types := (fmap bnd_ty).
Let Hwf : wf_env C W := good_env_wf C st nb HC.

(** ** What the types say about the state *)
Lemma looks E K s : rreached E K s -> exists σ κ, shows C (mem s) E σ /\ kshows (mem s) K κ /\
  (forall x, is_Some (K !! x) <-> is_Some (κ !! x)) /\
  (forall x tys, (types E : ctx) !! x = Some (TVar tys) -> exists k, is_var σ x tys k) /\
  (forall x u, (types E : ctx) !! x = Some (TObj u) -> exists v, is_obj σ x u v) /\
  (forall x, E !! x = None -> σ !! x = None) /\
  (nb = true -> forall x tys k, is_var σ x tys k -> cleanv k = true) /\
  (nb = true -> forall x u v, is_obj σ x u v -> clean v = true).
Proof.
  intros Hr. destruct (rreached_inv C st nb eqf ltf HC _ _ _ Hr) as (B&σ&κ&Hi).
  destruct (rinv_shows _ _ _ _ _ _ _ _ _ Hi) as [Hs1 Hs2]. destruct (rinv_doms _ _ _ _ _ _ _ _ _ Hi) as [HE HK].
  destruct Hi as [(h1&h2&Hm&Hd&H1&H2) _ _ _ _].
  exists σ, κ. split; [done|]. split; [done|]. split; [done|]. unfold env, ctx in *. repeat split.
  - intros x tys Hx. rewrite lookup_fmap in Hx. specialize (Hs1 x). unfold env in *.
    destruct (E !! x) as [[tys' a|u a]|]; simpl in Hx; try done. injection Hx as ->.
    destruct (σ !! x) as [[tys' k|u v]|] eqn:Hx'; [|done..]. destruct Hs1 as [-> _]. by exists k.
  - intros x u Hx. rewrite lookup_fmap in Hx. specialize (Hs1 x). unfold env in *.
    destruct (E !! x) as [[tys' a|u' a]|]; simpl in Hx; try done. injection Hx as ->.
    destruct (σ !! x) as [[tys' k|u' v]|] eqn:Hx'; [done| |done]. destruct Hs1 as [-> _]. by exists v.
  - intros x Hx. specialize (HE x). destruct (σ !! x); [|done]. destruct HE as [_ HE]. destruct HE; [done|]. congruence.
  - intros -> x tys k Hx. pose proof (world_shaped C st true E σ h1 x _ H1 Hx) as Hsh. simpl in Hsh. by eapply shapedv_clean.
  - intros -> x u v Hx. pose proof (world_shaped C st true E σ h1 x _ H1 Hx) as Hsh. simpl in Hsh. by eapply shaped_clean.
Qed.

(** ** One command *)
Lemma rx_ok n c E K s : rreached E K s -> radmissible E K s c ->
  rx n c E K s = RFaulted FFuel \/ exists E' K' o s', rx n c E K s = RDone E' K' o s' /\ rtakes c E K s E' K' o s'.
Proof.
  intros Hr Ha. destruct (no_undefined C st nb eqf ltf HC _ _ _ _ Hr Ha) as (E'&K'&o&s'&Hy&_).
  assert (Hd : rx n c E K s = RFaulted FFuel \/ rx n c E K s <> RFaulted FFuel).
  { destruct (rx n c E K s) as [|f]; [by right|]. destruct f; first [by left|by right]. }
  destruct Hd as [Hd|Hd]; [by left|right]. exists E', K', o, s'. split; [|done]. destruct Hy as [n0 Hn0].
  rewrite -(rexec_mono C n (n `max` n0) eqf ltf c E K s); [|lia|done]. apply Hn0. lia.
Qed.

Lemma checks_outs n c Γ E K : checks C Γ c -> outs (fun r => r.1.1 = E /\ r.1.2 = K /\ forall e, r.2 <> OThrew e) (rop C n eqf ltf E K c).
Proof.
  intros Hc. destruct c as [c| | | | |]; unfold rop; try done.
  - eapply outs_after; [apply outs_need|]. intros _ _.
    assert (Hb : outs (fun r => r.1 = E /\ forall e, r.2 <> OThrew e) (op C n eqf ltf E c)).
    { intros s0 r s1 Hop. split; [|by eapply op_returns]. apply map_eq. intros z.
      apply (op_binds C n eqf ltf E c s0 r s1 Hop z); destruct c; done. }
    eapply outs_after; [exact Hb|]. intros [E' o] [HE Ho]. apply outs_ret. done.
  - repeat (apply outs_bind; intros). apply outs_ret. done.
  - repeat (apply outs_bind; intros). apply outs_ret. done.
Qed.
Lemma checks_frame n c Γ E K s E' K' o s' : checks C Γ c -> rx n c E K s = RDone E' K' o s' -> E' = E /\ K' = K.
Proof.
  intros Hc. unfold rexec. pose proof (checks_outs n c Γ E K Hc s) as Ho.
  destruct (rop C n eqf ltf E K c s) as [[[E1 K1] o1] s1|e s1|]; [|by intros [= <- <- _ _]|done].
  destruct (Ho _ _ eq_refl) as (H1&H2&_). simpl in *. subst. by intros [= <- <- _ _].
Qed.

Lemma decl_outs n c x t E K : declaration C st nb (types E) c x t ->
  outs (fun r => r.1.2 = K /\ (forall e, r.2 <> OThrew e) /\ exists b, bnd_ty b = t /\ r.1.1 = <[x := b]> E) (rop C n eqf ltf E K c).
Proof.
  intros Hc.
  assert (Hvar : forall y tys, (types E : ctx) !! y = Some (TVar tys) -> outs (fun p => p.1 = tys) (need_var E y)).
  { intros y tys Hy. unfold ctx, env in *. rewrite lookup_fmap in Hy. unfold need_var, env.
    destruct (E !! y) as [[tys' a|u a]|]; simpl in Hy; try done. injection Hy as ->. by apply outs_ret. }
  assert (Hnew : forall z tys k (Q : env * out -> Prop), (forall a, Q (<[z := BVar tys a]> E, ODone)) -> outs Q (new_var E z tys k)).
  { intros z tys k Q HQ. unfold new_var. repeat (apply outs_bind; intros). by apply outs_ret. }
  destruct c as [c| | | | |]; unfold rop; try done.
  - eapply outs_after; [apply outs_need|]. intros _ _.
    assert (Hb : outs (fun r => (forall e, r.2 <> OThrew e) /\ exists b, bnd_ty b = t /\ r.1 = <[x := b]> E) (op C n eqf ltf E c)).
    { destruct c; unfold op; try done; simpl in Hc.
      - destruct Hc as (->&->&_). repeat (apply outs_bind; intros). apply outs_ret. split; [done|]. eexists; split; [|reflexivity]; done.
      - destruct Hc as (->&->&_). apply Hnew. intros. split; [done|]. eexists; split; [|reflexivity]; done.
      - destruct Hc as (->&->&_). apply outs_bind. intros. apply Hnew. intros. split; [done|]. eexists; split; [|reflexivity]; done.
      - destruct Hc as (->&tys&->&Hy). eapply outs_after; [by apply Hvar|]. intros p <-. apply Hnew. intros. split; [done|]. eexists; split; [|reflexivity]; done.
      - destruct Hc as (->&tys&->&Hy). eapply outs_after; [by apply Hvar|]. intros p <-. apply Hnew. intros. split; [done|]. eexists; split; [|reflexivity]; done.
      - destruct Hc as (->&->&_). apply outs_bind. intros. apply Hnew. intros. split; [done|]. eexists; split; [|reflexivity]; done.
      - destruct Hc as (->&->&_). repeat (apply outs_bind; intros). apply outs_ret. split; [done|]. eexists; split; [|reflexivity]; done.
      - destruct Hc as (->&tys&tys'&->&Hy&Hj). do 2 (apply outs_bind; intros).
        eapply (outs_after _ (fun q => q.1 = tys')).
        + unfold member. apply outs_bind. intros. rewrite Hj. case_match; [by apply outs_ret|apply outs_faulty].
        + intros q <-. apply Hnew. intros. split; [done|]. eexists; split; [|reflexivity]; done. }
    eapply outs_after; [exact Hb|]. intros [E' o] [HE Ho]. by apply outs_ret.
  - destruct Hc as (->&->&_). do 3 (apply outs_bind; intros). eapply outs_after; [apply Hnew|].
    + intros a2. instantiate (1 := fun r => exists a, r = (<[x := BVar tys a]> E, ODone)). by eexists.
    + intros r [a2 ->]. apply outs_ret. split; [done|]. split; [done|]. eexists; split; [|reflexivity]; done.
Qed.
Lemma decl_frame n c x t E K s E' K' o s' : declaration C st nb (types E) c x t -> rx n c E K s = RDone E' K' o s' ->
  K' = K /\ ((exists e, o = OThrew e /\ E' = E) \/ (forall e, o <> OThrew e) /\ exists b, bnd_ty b = t /\ E' = <[x := b]> E).
Proof.
  intros Hc. unfold rexec. pose proof (decl_outs n c x t E K Hc s) as Ho.
  destruct (rop C n eqf ltf E K c s) as [[[E1 K1] o1] s1|e s1|]; [| |done].
  - destruct (Ho _ _ eq_refl) as (H1&H2&H3). simpl in *. intros [= <- <- <- <-]. split; [done|]. by right.
  - intros [= <- <- <- <-]. split; [done|]. left. by exists e.
Qed.
Lemma decl_declares Γ c x t : declaration C st nb Γ c x t -> rdeclares c = Some x.
Proof. destruct c as [[]| | | | |]; simpl; try done; by intros [-> _]. Qed.

(** A variable that is dropped. *)
Lemma drop_adm x E K s b : rreached E K s -> E !! x = Some b -> ~ is_ref K x -> radmissible E K s (RMain (CDrop x)).
Proof.
  intros Hr Hx Hnr. destruct (looks _ _ _ Hr) as (σ&κ&Hs&Hk&HK&_&_&_).
  exists 0, σ, κ. split; [done|]. split; [done|]. split; [|split; [done|split; [done|]]].
  - simpl. specialize (Hs x). unfold env in *. rewrite Hx in Hs. destruct (σ !! x); [by eexists|by destruct b].
  - intros r [= <-] (y&α&rs&Hy&Hin). apply Hnr. specialize (Hk y). unfold kenv, kstate in *. rewrite Hy in Hk.
    destruct (K !! y) as [[b' refs]|] eqn:Hky; [|done]. destruct Hk as [-> _]. by exists y, (b', refs).
Qed.
Lemma drop_ok n x E K s b : rreached E K s -> E !! x = Some b -> ~ is_ref K x ->
  rx n (RMain (CDrop x)) E K s = RFaulted FFuel \/
  exists s', rx n (RMain (CDrop x)) E K s = RDone (delete x E) K ODone s' /\ rreached (delete x E) K s'.
Proof.
  intros Hr Hx Hnr. pose proof (drop_adm x E K s b Hr Hx Hnr) as Ha.
  destruct (rx_ok n _ _ _ _ Hr Ha) as [|(E'&K'&o&s'&Hrx&Ht)]; [by left|right]. exists s'.
  destruct (takes_spec C st nb eqf ltf HC _ _ _ _ _ _ _ _ Ht) as (σ1&κ1&σ2&κ2&Hs1&_&Hs2&_&Hst).
  assert (o = ODone /\ σ2 !! x = None) as [-> Hn].
  { inversion Hst as [c o' σ' Hst'| | | | | | | | | |]; subst. inversion Hst'; subst. split; [done|]. by rewrite lookup_delete. }
  assert (E' = delete x E /\ K' = K) as [-> ->].
  { revert Hrx. unfold rexec. destruct (rop C n eqf ltf E K (RMain (CDrop x)) s) as [[[E1 K1] o1] s1|e s1|] eqn:Hop; try done.
    intros [= <- <- _ <-].
    assert (Ho : outs (fun r => r.1.2 = K /\ forall z, z <> x -> r.1.1 !! z = E !! z) (rop C n eqf ltf E K (RMain (CDrop x)))).
    { unfold rop. eapply outs_after; [apply outs_need|]. intros _ _. eapply outs_after; [apply op_binds|].
      intros [E2 o2] Hb. apply outs_ret. split; [done|]. intros z Hz. apply Hb; [done|]. by intros [= ->]. }
    destruct (Ho _ _ _ Hop) as [HK1 Hz]. simpl in HK1, Hz. split; [|done]. apply map_eq. intros z. destruct (decide (z = x)) as [->|Hne].
    - rewrite lookup_delete. specialize (Hs2 x). unfold env, astate in *. rewrite Hn in Hs2. by destruct (E1 !! x) as [[]|].
    - rewrite lookup_delete_ne //. by apply Hz. }
  split; [done|]. by eapply rtakes_reached.
Qed.

(** Visitation: the type of the content, and the references to its member variants. *)
Lemma Rmems_len mems ls ks h : Rmems C W mems ls ks h -> length ls = length mems.
Proof.
  revert mems ls h. induction ks as [|k ks IHk]; intros mems ls h H.
  - destruct mems, ls; simpl in *; by try destruct H.
  - destruct mems as [|tys mems], ls as [|l ls]; simpl in *; try by destruct H.
    destruct H as (h1&h2&->&Hdj&H1&H2). f_equal. by eapply IHk.
Qed.
Lemma visit_type E K s x tys a : rreached E K s -> E !! x = Some (BVar tys a) ->
  exists k t l kd w z ls, var_holds C (mem s) tys a k /\ tys !! k.1.2 = Some t /\
    stored_at (mem s) a l /\ mem s !! l = Some (Cell kd (Some (OUser (ity_uid t) z ls)) w) /\ length ls = length (ut_members (te C (ity_uid t))) /\
    forall A (f : uid -> loc -> M A), visit_user C tys a f s = f (ity_uid t) l s.
Proof.
  intros Hr Hx. destruct (rreached_inv C st nb eqf ltf HC _ _ _ Hr) as (B&σ&κ&Hi).
  destruct (rinv_shows _ _ _ _ _ _ _ _ _ Hi) as [Hs _].
  destruct Hi as [(h1&h2&Hm&Hd&H1&H2) _ _ _ _]. pose proof (Hs x) as Hsx. unfold env in *. rewrite Hx in Hsx.
  destruct (σ !! x) as [[tys' k|u v]|] eqn:Hσ; [|done..]. destruct Hsx as [-> Hk].
  destruct (own_part C W E σ x _ _ _ H1 Hx Hσ) as (h'&Hsub&Ho). simpl in Ho.
  destruct Ho as (h3&h4&->&_&Ht&HR). destruct (apure_inv (tys = tys) _ Ht) as [-> _]. rewrite left_id_L in Hsub.
  pose proof (Rvar_open_stored C W (ge_lim _ _ _ HC) tys a k) as Hop. apply (hprop_in_entails _ _ Hop) in HR as Ho.
  destruct Ho as (t&l&kd&w&h5&h6&->&_&Htt&Hl&Hst&HT). destruct (apure_inv (tys !! k.1.2 = Some t) _ Htt) as [-> Htt'].
  rewrite left_id_L in Hsub. assert (Hs6 : h6 ⊆ mem s).
  { rewrite Hm. etrans; [exact Hsub|]. by apply map_union_subseteq_l. }
  destruct HT as (h7&h8&Heq&_&(o&h9&h10&->&Hd78&Hp&HR')&_).
  destruct k as [bi [z ks]]. pose proof (R_unfold C W z ks (ity_uid t) o) as [Hu]. apply Hu in HR'.
  destruct HR' as (ls&h0&h11&->&_&Ho&h12&h13&->&_&Hz&HM). destruct (apure_inv (o = OUser _ z ls) _ Ho) as [-> ->].
  exists (bi, UV z ks), t, l, kd, w, z, ls. split; [done|]. split; [done|]. split; [by apply Hst|]. split; [|split].
  - eapply pt_see; [exact Hp|]. rewrite Heq in Hs6. exact (sub_l _ _ _ (sub_l _ _ _ Hs6)).
  - by eapply Rmems_len.
  - intros A f. by apply Hl.
Qed.

Lemma types_refs (E : env) x rs mems (ls : list loc) : length rs = length mems -> length ls = length mems ->
  (types (list_to_map (zip rs (zip_with BVar mems ls)) ∪ delete x E : env) : ctx) =
  list_to_map (zip rs (TVar <$> mems)) ∪ delete x (types E).
Proof.
  intros H1 H2. unfold env, ctx. rewrite map_fmap_union fmap_delete. f_equal.
  rewrite -list_to_map_fmap. f_equal. revert mems ls H1 H2.
  induction rs as [|r rs IH]; intros [|m mems] [|l ls] H1 H2; simpl in *; try done. f_equal. apply IH; lia.
Qed.

Lemma open_ok x rs E K s tys a t l kd w z ls : rreached E K s -> E !! x = Some (BVar tys a) ->
  mem s !! l = Some (Cell kd (Some (OUser (ity_uid t) z ls)) w) ->
  (forall A (f : uid -> loc -> M A), visit_user C tys a f s = f (ity_uid t) l s) ->
  NoDup rs -> length rs = length (ut_members (te C (ity_uid t))) ->
  (forall r, r ∈ rs -> E !! r = None /\ K !! r = None) ->
  let refs := zip rs (zip_with BVar (ut_members (te C (ity_uid t))) ls) in
  let E1 := list_to_map refs ∪ delete x E in let K1 := <[x := (BVar tys a, refs)]> K in
  (forall n, rx n (ROpen x (ity_uid t) rs) E K s = RDone E1 K1 ODone s) /\ rreached E1 K1 s.
Proof.
  intros Hr Hx Hl Hv Hnd Hlen Hun refs E1 K1.
  assert (Hrx : forall n, rx n (ROpen x (ity_uid t) rs) E K s = RDone E1 K1 ODone s).
  { intros n. unfold rexec, rop. unfold env in *. rewrite Hx. unfold bind at 1. simpl. unfold var_get_ref, var_get, bind. rewrite Hv.
    unfold ret at 1. rewrite decide_True //. unfold ret at 1, expect_user, bind. unfold get_obj, get_cell, bind. rewrite Hl. simpl.
    rewrite decide_True //. unfold ret at 1. unfold need. rewrite bool_decide_eq_true_2; [done|].
    split; [|done]. split; [done|]. by apply Forall_forall. }
  split; [done|]. destruct (looks _ _ _ Hr) as (σ&κ&Hs&Hk&HK&Hvar&_&Hnone&_).
  apply (rtakes_reached C st nb eqf ltf (ROpen x (ity_uid t) rs) E K s E1 K1 ODone s).
  split; [done|]. split; [|by exists 0].
  exists 0, σ, κ. split; [done|]. split; [done|]. split; [|split; [done|split; [done|]]].
  - left. exists tys. apply Hvar. unfold env, ctx in *. by rewrite lookup_fmap Hx.
  - intros r Hin. destruct (Hun r Hin) as [H1 H2]. split; [by apply Hnone|]. specialize (HK r). unfold kenv, kstate in *.
    destruct (κ !! r); [|done]. destruct HK as [_ HK]. destruct HK; [done|]. congruence.
Qed.

Lemma close_ok x b refs E K s E0 : rreached E K s -> K !! x = Some (b, refs) -> (forall p, p ∈ refs -> E !! p.1 = Some p.2) ->
  <[x := b]> (foldr delete E refs.*1) = E0 ->
  (forall n, rx n (RClose x) E K s = RDone E0 (delete x K) ODone s) /\ rreached E0 (delete x K) s.
Proof.
  intros Hr Hx Hb HE0.
  assert (Hrx : forall n, rx n (RClose x) E K s = RDone E0 (delete x K) ODone s).
  { intros n. unfold rexec, rop, bind. unfold kenv, env in *. rewrite Hx. unfold need. rewrite bool_decide_eq_true_2; [|by apply Forall_forall].
    unfold ret. by rewrite HE0. }
  split; [done|]. destruct (looks _ _ _ Hr) as (σ&κ&Hs&Hk&_).
  apply (rtakes_reached C st nb eqf ltf (RClose x) E K s E0 (delete x K) ODone s).
  split; [done|]. split; [|by exists 0]. exists 0, σ, κ. split; [done|]. split; [done|].
  pose proof (Hk x) as Hkx. unfold kenv, kstate in *. rewrite Hx in Hkx. destruct (κ !! x) as [[α rs]|] eqn:Hκ; [|done].
  destruct Hkx as [-> _]. exists α, refs.*1. split; [done|]. intros r Hin. apply elem_of_list_fmap in Hin as ([r' b']&->&Hin).
  specialize (Hb _ Hin). simpl in *. specialize (Hs r'). unfold env in *. rewrite Hb in Hs. destruct (σ !! r'); [by eexists|by destruct b'].
Qed.

(** ** Typing gives permission *)
Lemma checks_admissible E K s c : rreached E K s -> checks C (types E) c -> sources_unparked C E s c -> radmissible E K s c.
Proof.
  intros Hr Hc Hup. destruct (looks _ _ _ Hr) as (σ&κ&Hs&Hk&_&Hv&Ho&_).
  specialize (Hup σ Hs). exists 0, σ, κ. split; [done|]. split; [done|].
  destruct c as [c| | | | |]; simpl in Hc; try done.
  - split; [|split; [done|split; [by destruct c|by destruct c]]]. clear Hup.
    destruct c; try done; simpl in *.
    all: try (destruct Hc as (tys&Hx&Hy); apply Hv in Hx as [k1 Hx]; apply Hv in Hy as [k2 Hy]; by exists tys, k1, k2).
    all: try (destruct Hc as (tys&Hx); destruct (Hv _ _ Hx) as [k1 Hk1]; by exists tys, k1).
    + destruct Hc as (tys&u&i&Hx&Hy&Hm). apply Hv in Hx as [k1 Hx]. apply Ho in Hy as [v Hy]. by exists tys, k1, u, v, i.
    + destruct Hc as (Hne&tys&tys2&Hx&Hy&Hm). apply Hv in Hx as [k1 Hx]. apply Hv in Hy as [k2 Hy]. split; [done|]. by exists tys, k1, tys2, k2.
    + destruct Hc as (tys&Hx&Hy). apply Hv in Hx as [k1 Hx]. apply Ho in Hy as [v Hy]. by exists tys, k1, v.
    + destruct Hc as (Hne&tys&tys2&Hx&Hm&Hy). apply Hv in Hx as [k1 Hx]. apply Hv in Hy as [k2 Hy]. split; [done|]. by exists tys, k1, tys2, k2.
  - destruct Hc as (Hne&tys&tys2&i&Hx&Hy&Hm). apply Hv in Hx as [k1 Hx]. apply Hv in Hy as [k2 Hy]. split; [done|].
    exists tys, k1, tys2, k2. split; [done|]. split; [done|]. split; [by exists i|by eapply Hup].
  - destruct Hc as (Hne&tys&tys2&Hx&Hy). apply Hv in Hx as [k1 Hx]. apply Hv in Hy as [k2 Hy]. split; [done|].
    exists tys, k1, tys2, k2. split; [done|]. split; [done|]. by eapply Hup.
Qed.
(** Without backups nothing is parked. *)
Lemma never_parked E K s c : nb = true -> rreached E K s -> sources_unparked C E s c.
Proof.
  intros Hnb Hr σ Hs. destruct (looks _ _ _ Hr) as (σ'&κ&Hs'&_&_&_&_&_&Hcv&Hco).
  assert (σ' = σ) as -> by by eapply shows_unique. specialize (Hcv Hnb). specialize (Hco Hnb).
  assert (Hc2 : forall x tys k, is_var σ x tys k -> clean k.2 = true).
  { intros x tys k Hx. apply Hcv in Hx. unfold cleanv in Hx. by apply andb_true_iff in Hx as [_ ?]. }
  assert (Hc1 : forall x tys k, is_var σ x tys k -> k.1.1 = true -> False).
  { intros x tys k Hx. apply Hcv in Hx. unfold cleanv in Hx. apply andb_true_iff in Hx as [Hx _]. by destruct k.1.1. }
  destruct c as [c| | | | |]; try done.
  - destruct c; try done; simpl in *.
    + intros Hne tys k1 k2 Hx Hy. split; [by eapply Hc2|]. intros Hb. by destruct (Hc1 _ _ _ Hy).
    + intros Hne tys k1 k2 Hx Hy. split; [by eapply Hc2|]. intros Hb. by destruct (Hc1 _ _ _ Hy).
    + intros u v. apply Hco.
    + intros Hne tys k1 k2 Hx Hy. split; [|intros _; by eapply Hcv]. intros _. split; [by eapply Hc2|]. intros. by eapply Hc2.
    + intros u' v. apply Hco.
    + intros tys k. apply Hcv.
  - intros tys k. apply Hc2.
  - intros tys k. apply Hc2.
Qed.
Lemma decl_admissible E K s c x t : rreached E K s -> declaration C st nb (types E) c x t ->
  E !! x = None -> K !! x = None -> radmissible E K s c.
Proof.
  intros Hr Hc Hx Hxk. destruct (looks _ _ _ Hr) as (σ&κ&Hs&Hk&HK&Hv&Ho&Hnone&_).
  assert (Hκ : κ !! x = None).
  { specialize (HK x). unfold kenv, kstate in *. destruct (κ !! x); [|done]. destruct HK as [_ HK]. destruct HK; [done|]. congruence. }
  apply Hnone in Hx.
  assert (Hd : exists D, rtyped C st nb D σ κ c).
  { destruct c as [c| | | | |]; simpl in Hc; try done.
    - destruct c; try done; simpl in Hc.
      + destruct Hc as (->&_&Hms). exists 0. split; [|split; [done|split; [by intros ? [= <-]|done]]]. split; [done|].
        eapply Forall2_impl; [exact Hms|]. simpl. intros y tys Hy. by apply Hv.
      + destruct Hc as (->&_&Hg&D&t0&r&v&->&Hd&Hst). exists D. split; [|split; [done|split; [by intros ? [= <-]|done]]]. split; [done|].
        split; [done|]. by exists t0, r, v.
      + destruct Hc as (->&_&Hg&u&i&Hy&Hm). exists 0. split; [|split; [done|split; [by intros ? [= <-]|done]]]. split; [done|].
        split; [done|]. apply Ho in Hy as [v Hy]. by exists u, v, i.
      + destruct Hc as (->&tys&_&Hy). exists 0. split; [|split; [done|split; [by intros ? [= <-]|done]]]. split; [done|]. exists tys. by apply Hv.
      + destruct Hc as (->&tys&_&Hy). exists 0. split; [|split; [done|split; [by intros ? [= <-]|done]]]. split; [done|]. exists tys. by apply Hv.
      + destruct Hc as (->&_&Hg&tys2&Hy&Hm). exists 0. split; [|split; [done|split; [by intros ? [= <-]|done]]]. split; [done|].
        split; [done|]. apply Hv in Hy as [k2 Hy]. by exists tys2, k2.
      + destruct Hc as (->&_&tys&Hy). exists 0. split; [|split; [done|split; [by intros ? [= <-]|done]]]. split; [done|]. exists tys. by apply Hv.
      + destruct Hc as (->&tys&tys'&_&Hy&Hj). exists 0. split; [|split; [done|split; [by intros ? [= <-]|done]]]. split; [done|].
        split; [by eapply lookup_lt_Some|]. exists tys. by apply Hv.
    - destruct Hc as (->&_&Hg&Hm&tys2&Hy). exists 0. split; [done|]. split; [done|]. split; [done|]. split; [done|]. exists tys2. by apply Hv. }
  destruct Hd as [D Hd]. by exists D, σ, κ.
Qed.

(** ** More nested calls, more rounds *)
Definition bad (B : presult -> Prop) : Prop := forall r, B r -> r = PWrong FFuel \/ r = PMore.
Lemma prun_grow (B : presult -> Prop) n n' m m' : bad B ->
  (forall c E K s, rx n' c E K s = rx n c E K s \/ (rx n c E K s = RFaulted FFuel /\ B (PWrong FFuel))) ->
  (m' = m \/ m <= m' /\ B PMore) ->
  forall p E K s, prun C n' m' eqf ltf p E K s = prun C n m eqf ltf p E K s \/ B (prun C n m eqf ltf p E K s).
Proof.
  intros HB Hrx Hm.
  assert (Hat : forall r r' k k', (r' = r \/ B r) -> (forall E K s, k' E K s = k E K s \/ B (k E K s)) ->
    and_then r' k' = and_then r k \/ B (and_then r k)).
  { intros r r' k k' Hr Hk. destruct Hr as [->|Hr].
    - destruct r; simpl; [apply Hk|by left..].
    - right. destruct (HB _ Hr) as [-> | ->]; done. }
  assert (Hpo : forall c E K s, presult_of (rx n' c E K s) = presult_of (rx n c E K s) \/ B (presult_of (rx n c E K s))).
  { intros c E K s. destruct (Hrx c E K s) as [->|[-> ?]]; [by left|by right]. }
  assert (Hae : forall r r' c, (r' = r \/ B r) -> at_exit C n' eqf ltf r' c = at_exit C n eqf ltf r c \/ B (at_exit C n eqf ltf r c)).
  { intros r r' c [->|Hr].
    - destruct r; simpl; [apply Hpo| |by left..]. destruct (Hrx c E K s) as [->|[-> ?]]; [by left|by right].
    - right. destruct (HB _ Hr) as [-> | ->]; done. }
  assert (Hdi : forall x E K s k k', (forall u s, k' u s = k u s \/ B (k u s)) ->
    dispatch C x E K s k' = dispatch C x E K s k \/ B (dispatch C x E K s k)).
  { intros x E K s k k' Hk. unfold dispatch. destruct (E !! x) as [[]|]; [|by left..]. destruct (visit_user _ _ _ _ _); [apply Hk|by left..]. }
  induction p as [|c|c p IH|p IHp q IHq|p IHp q IHq|x rs ps IH|x ps IH|x y p IH|]; intros E K s; simpl.
  - by left.
  - apply Hpo.
  - destruct (rdeclares c); [|by left]. apply Hat; [apply Hpo|]. intros. by apply Hae.
  - by apply Hat.
  - destruct (IHp E K s) as [->|Hb].
    + destruct (prun C n m eqf ltf p E K s); [by left|apply IHq|by left..].
    + right. destruct (HB _ Hb) as [He|He]; by rewrite He in Hb |- *.
  - apply Hdi. intros. apply Hat; [apply Hpo|]. intros. by apply Hae.
  - apply Hdi. intros. apply IH.
  - assert (Hl : forall k k' E K s, (k' = k \/ k <= k' /\ B PMore) ->
      loop C n' eqf ltf x y (prun C n' m' eqf ltf p) k' E K s = loop C n eqf ltf x y (prun C n m eqf ltf p) k E K s \/
      B (loop C n eqf ltf x y (prun C n m eqf ltf p) k E K s)).
    { clear E K s. induction k as [|k IHk]; intros k' E K s Hk.
      - destruct Hk as [->|[_ Hk]]; [by left|by right].
      - assert (exists k1, k' = S k1 /\ (k1 = k \/ k <= k1 /\ B PMore)) as (k1&->&Hk1).
        { destruct Hk as [->|[Hle Hb]]; [by exists k; auto|]. destruct k' as [|k1]; [lia|]. exists k1. split; [done|]. right. split; [lia|done]. }
        simpl. destruct (Hrx (RMain (CEq x y)) E K s) as [->|[-> ?]]; [|by right].
        destruct (rx n (RMain (CEq x y)) E K s) as [E' K' o s'|f]; [|by left]. destruct o; try by left. match goal with |- context [if ?b then _ else _] => destruct b; [|by left] end.
        apply Hat; [apply IH|]. intros. by apply IHk. }
    by apply Hl.
  - by left.
Qed.
Lemma prun_mono n n' m p E K s : n <= n' -> prun C n m eqf ltf p E K s <> PWrong FFuel ->
  prun C n' m eqf ltf p E K s = prun C n m eqf ltf p E K s.
Proof.
  intros Hn Hne. destruct (prun_grow (fun r => r = PWrong FFuel) n n' m m) with (p := p) (E := E) (K := K) (s := s) as [H|H]; [..|done|done].
  - intros r ->. by left.
  - intros c E' K' s'. destruct (rx n c E' K' s') as [|f] eqn:He; [left|].
    + rewrite -He. apply rexec_mono; [done|]. by rewrite He.
    + destruct f; try by right. all: left; rewrite -He; apply rexec_mono; [done|by rewrite He].
  - by left.
Qed.
Lemma prun_rounds n m m' p E K s : m <= m' -> prun C n m eqf ltf p E K s <> PMore ->
  prun C n m' eqf ltf p E K s = prun C n m eqf ltf p E K s.
Proof.
  intros Hn Hne. destruct (prun_grow (fun r => r = PMore) n n m m') with (p := p) (E := E) (K := K) (s := s) as [H|H]; [..|done|done].
  - intros r ->. by right.
  - intros. by left.
  - by right.
Qed.

(** ** Soundness *)
Definition fine (L : Prop) (E : env) (K : kenv) (r : presult) : Prop :=
  match r with
  | PRet E' K' s' | PExn _ E' K' s' => E' = E /\ K' = K /\ rreached E K s'
  | PMore => ~ L
  | PWrong _ => False
  end.
Lemma fine_weaken (L L' : Prop) E K r : (L' -> L) -> fine L E K r -> fine L' E K r.
Proof. destruct r; simpl; auto. Qed.

Lemma exit_runs L E1 K1 E K r c : fine L E1 K1 r ->
  (forall s, rreached E1 K1 s -> exists n0 s', (forall n, n0 <= n -> rx n c E1 K1 s = RDone E K ODone s') /\ rreached E K s') ->
  exists n0 r', (forall n, n0 <= n -> at_exit C n eqf ltf r c = r') /\ fine L E K r'.
Proof.
  intros Hf Hc. destruct r as [E' K' s|e E' K' s|f|]; simpl in Hf; [| |done|].
  - destruct Hf as (->&->&Hr). destruct (Hc s Hr) as (n0&s'&Hn&Hr'). exists n0, (PRet E K s'). split; [|done].
    intros n Hle. simpl. by rewrite Hn.
  - destruct Hf as (->&->&Hr). destruct (Hc s Hr) as (n0&s'&Hn&Hr'). exists n0, (PExn e E K s'). split; [|done].
    intros n Hle. simpl. by rewrite Hn.
  - exists 0, PMore. done.
Qed.
Lemma rx_runs c E K s : rreached E K s -> radmissible E K s c ->
  exists n0 E' K' o s', (forall n, n0 <= n -> rx n c E K s = RDone E' K' o s') /\ rtakes c E K s E' K' o s'.
Proof.
  intros Hr Ha. destruct (no_undefined C st nb eqf ltf HC _ _ _ _ Hr Ha) as (E'&K'&o&s'&[n0 Hn]&_).
  exists n0, E', K', o, s'. split; [done|]. split; [done|]. split; [done|]. by exists n0.
Qed.
Lemma drop_runs x E K s b : rreached E K s -> E !! x = Some b -> ~ is_ref K x ->
  exists n0 s', (forall n, n0 <= n -> rx n (RMain (CDrop x)) E K s = RDone (delete x E) K ODone s') /\ rreached (delete x E) K s'.
Proof.
  intros Hr Hx Hnr. assert (Ha : exists n, rx n (RMain (CDrop x)) E K s <> RFaulted FFuel).
  { pose proof (drop_adm x E K s b Hr Hx Hnr) as Ha. destruct (rx_runs _ _ _ _ Hr Ha) as (n0&E'&K'&o&s'&Hn&_).
    exists n0. by rewrite Hn. }
  destruct Ha as [n0 Hn0]. destruct (drop_ok n0 x E K s b Hr Hx Hnr) as [|(s'&Hn&Hr')]; [done|].
  exists n0, s'. split; [|done]. intros n Hle. rewrite -Hn. by apply rexec_mono.
Qed.

Lemma issues_mono n n' m p E K s c' E' K' s' : n <= n' ->
  issues C n m eqf ltf p E K s c' E' K' s' -> issues C n' m eqf ltf p E K s c' E' K' s'.
Proof.
  intros Hn.
  assert (Hpo : forall c E K s E1 K1 s1, presult_of (rx n c E K s) = PRet E1 K1 s1 -> presult_of (rx n' c E K s) = PRet E1 K1 s1).
  { intros c E0 K0 s0 E1 K1 s1 H. rewrite (rexec_mono C n n') //. intros He. by rewrite He in H. }
  induction 1.
  - constructor.
  - econstructor; eauto.
  - by constructor.
  - eapply i_seq_r; [|done]. rewrite (prun_mono n n') //. congruence.
  - by apply i_try.
  - eapply i_catch; [|done]. rewrite (prun_mono n n') //. congruence.
  - eapply i_visit; eauto.
  - eapply i_switch; eauto.
  - eapply i_while; [|done]. rewrite (rexec_mono C n n') //. congruence.
  - eapply i_again; [| |done].
    + rewrite (rexec_mono C n n') //. congruence.
    + rewrite (prun_mono n n') //. congruence.
Qed.

Lemma only_parked : forall p (E : env) (K : kenv) s m, compiles C st nb (types E) (dom K) p -> rreached E K s ->
  (forall n c E' K' s', issues C n m eqf ltf p E K s c E' K' s' -> rreached E' K' s' -> sources_unparked C E' s' c) ->
  exists r, proceeds C eqf ltf p m E K s r /\ fine (loop_free p) E K r.
Proof.
  assert (Hcmd : forall c E K s, checks C (types E) c -> rreached E K s -> sources_unparked C E s c ->
    exists n0 o s', (forall n, n0 <= n -> rx n c E K s = RDone E K o s') /\ rreached E K s').
  { intros c E K s Hc Hr Hup. destruct (rx_runs c E K s Hr) as (n0&E'&K'&o&s'&Hn&Ht); [by apply checks_admissible|].
    destruct (checks_frame n0 c _ E K s E' K' o s' Hc) as [-> ->]; [by apply Hn|].
    exists n0, o, s'. split; [done|]. by eapply rtakes_reached. }
  induction p as [|c|c p IH|p IHp q IHq|p IHp q IHq|x rs ps IH|x ps IH|x y p IH|]; intros E K s m Hcomp Hr Hup; simpl in Hcomp.
  - exists (PRet E K s). split; [|done]. by exists 0.
  - destruct (Hcmd c E K s Hcomp Hr) as (n0&o&s'&Hn&Hr'); [by apply (Hup 0 c E K s); [constructor|]|]. exists (presult_of (RDone E K o s')). split.
    + exists n0. intros n Hle. simpl. by rewrite Hn.
    + by destruct o.
  - destruct Hcomp as (x&t&Hd&Hx&HxT&Hp).
    assert (HxE : E !! x = None). { unfold env, ctx in *. rewrite lookup_fmap in Hx. by destruct (E !! x). }
    assert (HxK : K !! x = None) by (by apply not_elem_of_dom).
    destruct (rx_runs c E K s Hr) as (n0&E'&K'&o&s'&Hn&Ht); [by eapply decl_admissible|].
    pose proof (rtakes_reached _ _ _ _ _ _ _ _ _ _ _ _ _ Ht) as Hr'.
    destruct (decl_frame n0 c x t E K s E' K' o s' Hd) as [-> [(e&->&->)|[Ho (b&Hb&->)]]]; [by apply Hn|..].
    + exists (PExn e E K s'). split; [|done]. exists n0. intros n Hle. simpl. rewrite (decl_declares _ _ _ _ Hd). by rewrite Hn.
    + assert (Hnr : ~ is_ref K x).
      { intros (y&[b' refs]&Hy&Hin). simpl in Hin. apply elem_of_list_fmap in Hin as ([r b2]&->&Hin). simpl in *.
        destruct (r_names C st nb eqf ltf HC E K s y b' refs Hr Hy) as (_&_&Hrf).
        destruct (Hrf _ _ Hin) as [H|[? H]]; unfold env, kenv in *; congruence. }
      destruct (IH (<[x:=b]> E) K s' m) as (r&[n1 Hn1]&Hf).
      { unfold env, ctx in *. rewrite fmap_insert Hb. done. } { done. }
      { intros n c' E' K' s2 Hi. apply (Hup (n `max` n0)). eapply i_let; [|eapply issues_mono; [|exact Hi]; lia].
        rewrite Hn; [|lia]. destruct o; try done. by destruct (Ho e). }
      destruct (exit_runs (loop_free p) (<[x:=b]> E) K E K r (RMain (CDrop x)) Hf) as (n2&r'&Hn2&Hf').
      { intros s1 Hr1. destruct (drop_runs x (<[x:=b]> E) K s1 b) as (n2&s2&Hn2&Hr2); [done|by rewrite lookup_insert|done|].
        rewrite delete_insert in Hn2, Hr2; [|done]. eauto. }
      exists r'. split; [|done]. exists (n0 `max` n1 `max` n2). intros n Hle. simpl. rewrite (decl_declares _ _ _ _ Hd).
      rewrite Hn; [|lia]. replace (presult_of (RDone (<[x:=b]> E) K o s')) with (PRet (<[x:=b]> E) K s'); [|destruct o; try done; by destruct (Ho e)].
      simpl. rewrite Hn1; [|lia]. apply Hn2. lia.
  - destruct Hcomp as [Hcp Hcq]. destruct (IHp E K s m Hcp Hr) as (r&[n1 Hn1]&Hf).
    { intros n c' E' K' s2 Hi. apply (Hup n). by apply i_seq_l. }
    destruct r as [E' K' s'|e E' K' s'|f|]; simpl in Hf; [| |done|].
    + destruct Hf as (->&->&Hr'). destruct (IHq E K s' m Hcq Hr') as (r&[n2 Hn2]&Hf2).
      { intros n c' E' K' s2 Hi. apply (Hup (n `max` n1)). eapply i_seq_r; [apply Hn1; lia|]. eapply issues_mono; [|exact Hi]. lia. }
      exists r. split.
      * exists (n1 `max` n2). intros n Hle. simpl. rewrite Hn1; [|lia]. simpl. apply Hn2. lia.
      * eapply fine_weaken; [|exact Hf2]. by intros [].
    + exists (PExn e E' K' s'). split; [|done]. exists n1. intros n Hle. simpl. by rewrite Hn1.
    + exists PMore. split; [|simpl; tauto]. exists n1. intros n Hle. simpl. by rewrite Hn1.
  - destruct Hcomp as [Hcp Hcq]. destruct (IHp E K s m Hcp Hr) as (r&[n1 Hn1]&Hf).
    { intros n c' E' K' s2 Hi. apply (Hup n). by apply i_try. }
    destruct r as [E' K' s'|e E' K' s'|f|]; simpl in Hf; [| |done|].
    + exists (PRet E' K' s'). split; [|done]. exists n1. intros n Hle. simpl. by rewrite Hn1.
    + destruct Hf as (->&->&Hr'). destruct (IHq E K s' m Hcq Hr') as (r&[n2 Hn2]&Hf2).
      { intros n c' E' K' s2 Hi. apply (Hup (n `max` n1)). eapply i_catch; [apply Hn1; lia|]. eapply issues_mono; [|exact Hi]. lia. }
      exists r. split.
      * exists (n1 `max` n2). intros n Hle. simpl. rewrite Hn1; [|lia]. simpl. apply Hn2. lia.
      * eapply fine_weaken; [|exact Hf2]. by intros [].
    + exists PMore. split; [|simpl; tauto]. exists n1. intros n Hle. simpl. by rewrite Hn1.
  - destruct Hcomp as (tys&Hx&Hps). unfold ctx, env in *. rewrite lookup_fmap in Hx.
    destruct (E !! x) as [[tys' a|]|] eqn:HxE; simpl in Hx; try done. injection Hx as ->.
    destruct (visit_type E K s x tys a Hr HxE) as (k&t&l&kd&w&z&ls&_&Ht&_&Hl&Hlen&Hv).
    destruct (Hps t) as (Hnd&Hlr&Hun&Hp); [by eapply elem_of_list_lookup_2|].
    assert (Hun' : forall r, r ∈ rs (ity_uid t) -> E !! r = None /\ K !! r = None).
    { intros r Hin. destruct (Hun r Hin) as [H1 H2]. split; [|by apply not_elem_of_dom]. rewrite lookup_fmap in H1. by destruct (E !! r). }
    destruct (open_ok x (rs (ity_uid t)) E K s tys a t l kd w z ls Hr HxE Hl Hv Hnd Hlr Hun') as [Ho Hr1].
    set (refs := zip (rs (ity_uid t)) (zip_with BVar (ut_members (te C (ity_uid t))) ls)) in *.
    destruct (IH (ity_uid t) (list_to_map refs ∪ delete x E) (<[x:=(BVar tys a, refs)]> K) s m) as (r&[n1 Hn1]&Hf).
    { pose proof (types_refs E x (rs (ity_uid t)) (ut_members (te C (ity_uid t))) ls Hlr Hlen) as HT. unfold env, ctx in HT.
      unfold refs. rewrite HT. unfold kenv. by rewrite dom_insert_L. }
    { done. }
    { intros n c' E' K' s2 Hi. apply (Hup n). eapply i_visit; [exact HxE|by rewrite Hv|by rewrite Ho|done]. }
    destruct (exit_runs _ _ _ E K r (RClose x) Hf) as (n2&r'&Hn2&Hf').
    { intros s1 Hr2. destruct (close_ok x (BVar tys a) refs _ _ s1 E Hr2) as [Hc Hr3].
      - unfold kenv. by rewrite lookup_insert.
      - intros [r1 b1] Hin. simpl. apply lookup_union_Some_l. apply elem_of_list_to_map_1; [by apply zip_fst_nodup|done].
      - apply close_open; [done|]. intros r1 Hin. apply Hun'. by eapply zip_fst_in.
      - unfold kenv in *. rewrite delete_insert in Hc, Hr3; [|].
        + by exists 0, s1.
        + destruct (K !! x) as [[? ?]|] eqn:Hkx; [|done]. destruct (r_names C st nb eqf ltf HC _ _ _ _ _ _ Hr Hkx) as [Hn _]. unfold env in *. congruence. }
    exists r'. split; [|by eapply fine_weaken; [|exact Hf']; simpl; auto]. exists (n1 `max` n2). intros n Hle. simpl. unfold dispatch.
    unfold env in *. rewrite HxE Hv. unfold ret at 1. rewrite Ho. simpl. rewrite Hn1; [|lia]. apply Hn2. lia.
  - destruct Hcomp as (tys&Hx&Hps). unfold ctx, env in *. rewrite lookup_fmap in Hx.
    destruct (E !! x) as [[tys' a|]|] eqn:HxE; simpl in Hx; try done. injection Hx as ->.
    destruct (visit_type E K s x tys a Hr HxE) as (k&t&l&kd&w&z&ls&_&Ht&_&Hl&Hlen&Hv).
    destruct (IH (ity_uid t) E K s m) as (r&[n1 Hn1]&Hf); [by eapply Hps, elem_of_list_lookup_2|done|..].
    { intros n c' E' K' s2 Hi. apply (Hup n). eapply i_switch; [exact HxE|by rewrite Hv|done]. }
    exists r. split; [|by eapply fine_weaken; [|exact Hf]; simpl; auto]. exists n1. intros n Hle. simpl. unfold dispatch.
    unfold env in *. rewrite HxE Hv. unfold ret at 1. by apply Hn1.
  - destruct Hcomp as [Hxy Hp].
    assert (Hl : forall k s, rreached E K s ->
      (forall n c E' K' s', issues C n m eqf ltf (PWhile x y p) E K s c E' K' s' -> rreached E' K' s' -> sources_unparked C E' s' c) -> exists r, (exists n0, forall n, n0 <= n ->
      loop C n eqf ltf x y (prun C n m eqf ltf p) k E K s = r) /\ fine False E K r).
    { clear s Hr Hup. induction k as [|k IHk]; intros s Hr Hup.
      - exists PMore. split; [by exists 0|]. simpl. auto.
      - destruct (Hcmd (RMain (CEq x y)) E K s Hxy Hr) as (n0&o&s'&Hn&Hr'); [by intros σ _|].
        assert (Hother : (forall n, n0 <= n -> loop C n eqf ltf x y (prun C n m eqf ltf p) (S k) E K s = presult_of (RDone E K o s')) \/ o = OBool true).
        { destruct o as [| | | | | |]; try (left; intros n Hle; simpl; by rewrite Hn).
          match goal with |- _ \/ OBool ?b = _ => destruct b; [by right|] end. left. intros n Hle. simpl. by rewrite Hn. }
        destruct Hother as [Hother| ->].
        + exists (presult_of (RDone E K o s')). split; [by exists n0|]. by destruct o.
        + destruct (IH E K s' m Hp Hr') as (r&[n1 Hn1]&Hf).
          { intros n c' E' K' s2 Hi. apply (Hup (n `max` n0)). eapply i_while; [apply Hn; lia|]. eapply issues_mono; [|exact Hi]. lia. }
          destruct r as [E' K' s2|e E' K' s2|f|]; simpl in Hf; [| |done|].
          * destruct Hf as (->&->&Hr2). destruct (IHk s2 Hr2) as (r&[n2 Hn2]&Hf2).
            { intros n c' E' K' s3 Hi. apply (Hup (n `max` n0 `max` n1)). eapply i_again; [apply Hn; lia|apply Hn1; lia|]. eapply issues_mono; [|exact Hi]. lia. }
            exists r. split; [|done].
            exists (n0 `max` n1 `max` n2). intros n Hle. simpl. rewrite Hn; [|lia]. rewrite Hn1; [|lia]. simpl. apply Hn2. lia.
          * exists (PExn e E' K' s2). split; [|done]. exists (n0 `max` n1). intros n Hle. simpl. rewrite Hn; [|lia]. rewrite Hn1; [done|lia].
          * exists PMore. split; [|simpl; auto]. exists (n0 `max` n1). intros n Hle. simpl. rewrite Hn; [|lia]. rewrite Hn1; [done|lia]. }
    destruct (Hl m s Hr Hup) as (r&[n0 Hn]&Hf). exists r. split; [|by eapply fine_weaken; [|exact Hf]]. exists n0. exact Hn.
  - exists PMore. split; [by exists 0|]. simpl. auto.
Qed.


Lemma sound : nb = true -> forall p (E : env) (K : kenv) s m, compiles C st nb (types E) (dom K) p -> rreached E K s ->
  exists r, proceeds C eqf ltf p m E K s r /\ fine (loop_free p) E K r.
Proof.
  intros Hnb p E K s m Hc Hr. apply only_parked; [done..|]. intros. by eapply never_parked.
Qed.
Lemma always : nb = true -> forall p (E : env) (K : kenv) s n m, compiles C st nb (types E) (dom K) p -> rreached E K s ->
  match prun C n m eqf ltf p E K s with
  | PRet E' K' s' | PExn _ E' K' s' => E' = E /\ K' = K /\ rreached E K s'
  | PMore => ~ loop_free p
  | PWrong f => f = FFuel
  end.
Proof.
  intros Hnb p E K s n m Hc Hr. destruct (sound Hnb p E K s m Hc Hr) as (r&[n0 Hn]&Hf).
  assert (Hd : prun C n m eqf ltf p E K s = PWrong FFuel \/ prun C n m eqf ltf p E K s <> PWrong FFuel).
  { destruct (prun C n m eqf ltf p E K s) as [| |f|]; try by right. destruct f; first [by left|by right]. }
  destruct Hd as [->|Hd]; [done|]. rewrite -(prun_mono n (n `max` n0) m p E K s); [|lia|done]. rewrite Hn; [|lia].
  by destruct r.
Qed.
Lemma terminates : nb = true -> forall p (E : env) (K : kenv) s, compiles C st nb (types E) (dom K) p -> loop_free p -> rreached E K s ->
  exists n0 s', rreached E K s' /\ ((forall n m, n0 <= n -> prun C n m eqf ltf p E K s = PRet E K s') \/
    exists e, forall n m, n0 <= n -> prun C n m eqf ltf p E K s = PExn e E K s').
Proof.
  intros Hnb p E K s Hc Hl Hr. destruct (sound Hnb p E K s 0 Hc Hr) as (r&[n0 Hn]&Hf).
  assert (Hm : r <> PMore) by (by intros ->).
  assert (Hall : forall n m, n0 <= n -> prun C n m eqf ltf p E K s = r).
  { intros n m Hle. rewrite -(Hn n Hle). apply prun_rounds; [lia|]. by rewrite Hn. }
  destruct r as [E' K' s'|e E' K' s'|f|]; simpl in Hf; [| |done|done].
  - destruct Hf as (->&->&Hr'). exists n0, s'. split; [done|]. by left.
  - destruct Hf as (->&->&Hr'). exists n0, s'. split; [done|]. right. by exists e.
Qed.
Lemma nothing_left : nb = true -> forall p orc n m, compiles C st nb ∅ ∅ p ->
  match prun C n m eqf ltf p ∅ ∅ (init orc) with
  | PRet E' K' s' | PExn _ E' K' s' => mem s' = ∅ /\ forall l,
      (forall k, cnt (EvC k l) (tr s') = cnt (EvD k l) (tr s')) /\ block l (tr s') <> Some BLive
  | _ => True
  end.
Proof.
  intros Hnb p orc n m Hc. assert (Hr : rreached ∅ ∅ (init orc)) by (exists orc, []; constructor).
  pose proof (always Hnb p ∅ ∅ (init orc) n m) as Ha.
  assert (Hfin : forall s', rreached ∅ ∅ s' -> mem s' = ∅ /\ forall l,
      (forall k, cnt (EvC k l) (tr s') = cnt (EvD k l) (tr s')) /\ block l (tr s') <> Some BLive).
  { intros s' Hr'. pose proof (r_nothing_left C st nb eqf ltf HC s' Hr') as Hm. split; [done|]. intros l. split.
    - intros k. destruct (r_lifetimes C st nb eqf ltf HC ∅ ∅ s' l Hr') as [_ Hk]. rewrite Hk.
      rewrite decide_False; [lia|]. rewrite Hm. unfold tag_at. by rewrite lookup_empty.
    - destruct (r_blocks C st nb eqf ltf HC ∅ ∅ s' l Hr') as (b&Hb&Hiff). rewrite Hb. intros [= ->].
      destruct Hiff as [Hiff _]. destruct (Hiff eq_refl) as (c&Hl&_). rewrite Hm in Hl. by rewrite lookup_empty in Hl. }
  assert (Hc' : compiles C st nb (types (∅ : env)) (dom (∅ : kenv)) p).
  { unfold env, ctx, kenv in *. by rewrite fmap_empty dom_empty_L. }
  specialize (Ha Hc' Hr). revert Ha. generalize (prun C n m eqf ltf p ∅ ∅ (init orc)).
  intros [E' K' s'|e E' K' s'|f|]; try done; intros (_&_&Ha); by apply Hfin.
Qed.

Lemma switch_is p x ps E K s tys a k t n m : p = PSwitch x ps -> rreached E K s -> E !! x = Some (BVar tys a) ->
  var_holds C (mem s) tys a k -> tys !! k.1.2 = Some t ->
  prun C n m eqf ltf p E K s = prun C n m eqf ltf (ps (ity_uid t)) E K s.
Proof.
  intros -> Hr Hx Hk Ht. destruct (visit_type E K s x tys a Hr Hx) as (k'&t'&l&kd&w&z&ls&Hk'&Ht'&_&_&_&Hv).
  assert (k' = k) as -> by by eapply var_holds_unique.
  rewrite Ht in Ht'. injection Ht' as <-. simpl. unfold dispatch, env in *. rewrite Hx Hv. done.
Qed.
Lemma visit_is : nb = true -> forall x rs ps E K s tys a k t n m, rreached E K s -> E !! x = Some (BVar tys a) ->
  var_holds C (mem s) tys a k -> tys !! k.1.2 = Some t ->
  compiles C st nb (types E) (dom K) (PVisit x rs ps) ->
  exists l refs, points C (mem s) (BVar tys a) (ity_uid t) l refs.*2 /\ refs.*1 = rs (ity_uid t) /\
    prun C n m eqf ltf (PVisit x rs ps) E K s =
    match prun C n m eqf ltf (ps (ity_uid t)) (list_to_map refs ∪ delete x E) (<[x := (BVar tys a, refs)]> K) s with
    | PRet _ _ s' => PRet E K s'
    | PExn e _ _ s' => PExn e E K s'
    | r => r
    end.
Proof.
  intros Hnb x rs ps E K s tys a k t n m Hr HxE Hk Ht Hcomp. destruct (visit_type E K s x tys a Hr HxE) as (k'&t'&l&kd&w&z&ls&Hk'&Ht'&Hst&Hl&Hlen&Hv).
  assert (k' = k) as -> by by eapply var_holds_unique. rewrite Ht in Ht'. injection Ht' as <-.
  destruct Hcomp as (tys'&Hx&Hps). unfold ctx, env in *. rewrite lookup_fmap HxE in Hx. simpl in Hx. injection Hx as <-.
  destruct (Hps t) as (Hnd&Hlr&Hun&Hp); [by eapply elem_of_list_lookup_2|].
  assert (Hun' : forall r, r ∈ rs (ity_uid t) -> E !! r = None /\ K !! r = None).
  { intros r Hin. destruct (Hun r Hin) as [H1 H2]. split; [|by apply not_elem_of_dom]. rewrite lookup_fmap in H1. by destruct (E !! r). }
  destruct (open_ok x (rs (ity_uid t)) E K s tys a t l kd w z ls Hr HxE Hl Hv Hnd Hlr Hun') as [Ho Hr1].
  set (refs := zip (rs (ity_uid t)) (zip_with BVar (ut_members (te C (ity_uid t))) ls)) in *.
  assert (Hlen2 : length (zip_with BVar (ut_members (te C (ity_uid t))) ls) = length (rs (ity_uid t))).
  { rewrite zip_with_length. lia. }
  exists l, refs. split; [|split].
  - split; [done|]. exists kd, w, z, ls. split; [done|]. split; [done|]. unfold refs. apply snd_zip. lia.
  - unfold refs. apply fst_zip. lia.
  - simpl. unfold dispatch. unfold env in *. rewrite HxE Hv. unfold ret at 1. rewrite Ho. simpl.
    pose proof (always Hnb (ps (ity_uid t)) (list_to_map refs ∪ delete x E) (<[x:=(BVar tys a, refs)]> K) s n m) as Ha.
    assert (Hcl : forall s1, rreached (list_to_map refs ∪ delete x E) (<[x:=(BVar tys a, refs)]> K) s1 ->
      rx n (RClose x) (list_to_map refs ∪ delete x E) (<[x:=(BVar tys a, refs)]> K) s1 = RDone E K ODone s1).
    { intros s1 Hr2. destruct (close_ok x (BVar tys a) refs _ _ s1 E Hr2) as [Hc _].
      - unfold kenv. by rewrite lookup_insert.
      - intros [r1 b1] Hin. simpl. apply lookup_union_Some_l. apply elem_of_list_to_map_1; [by apply zip_fst_nodup|done].
      - apply close_open; [done|]. intros r1 Hin. apply Hun'. by eapply zip_fst_in.
      - unfold kenv in *. rewrite delete_insert in Hc; [done|].
        destruct (K !! x) as [[? ?]|] eqn:Hkx; [|done]. destruct (r_names C st nb eqf ltf HC _ _ _ _ _ _ Hr Hkx) as [Hn _]. unfold env in *. congruence. }
    assert (HA : compiles C st nb (types (list_to_map refs ∪ delete x E : env)) (dom (<[x:=(BVar tys a, refs)]> K)) (ps (ity_uid t))).
    { pose proof (types_refs E x (rs (ity_uid t)) (ut_members (te C (ity_uid t))) ls Hlr Hlen) as HT. unfold env, ctx in HT.
      unfold refs, env. rewrite HT. unfold kenv. by rewrite dom_insert_L. }
    specialize (Ha HA Hr1). unfold env, kenv in *.
    destruct (prun C n m eqf ltf (ps (ity_uid t)) _ _ s) as [E' K' s'|e E' K' s'|f|]; simpl.
    + destruct Ha as (->&->&Hr2). by rewrite Hcl.
    + destruct Ha as (->&->&Hr2). by rewrite Hcl.
    + done.
    + done.
Qed.
End programs.
