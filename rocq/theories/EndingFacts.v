(** Recursion over variants that need heap backups terminates (proofs). *)
From Coq.ssr Require Import ssreflect.
From Coq Require Import ZArith Lia.
From stdpp Require Import gmap.
From iris.prelude Require Import prelude.
From Verif Require Import Base Types Variant Sem Values ValuesFacts Client Observe ObserveFacts Spec Trace History Reach ReachFacts.
From Verif Require Import SpecSem HistoryProof Places PlacesSpec PlacesProof PlacesFacts Programs ProgramsSpec ProgramsFacts PlacesAlikeSpec MeaningSpec MeaningFacts.
From Verif Require Import Calls CallsSpec CallsMeaningSpec CallsFacts CallsMeaningFacts TidySpec BlameSpec BlameFacts TidyFacts GuardsSpec GuardsFacts.

Lemma minus_inv (A : gset name) l x y : y ∈ A ∖ {[x]} ∖ list_to_set l -> y ∈ A /\ y <> x /\ y ∉ l.
Proof. set_solver. Qed.
Lemma minus_in (A R : gset name) l x y : y ∈ (A ∖ {[x]} ∖ list_to_set l) ∪ (if decide (x ∈ A ∪ R) then list_to_set l ∪ (R ∖ {[x]} ∖ list_to_set l) else R ∖ {[x]} ∖ list_to_set l) ->
  y ∈ A ∪ R \/ y ∈ l.
Proof. destruct (decide (x ∈ A ∪ R)); set_solver. Qed.

Section ends.
Context (C : cfg) (st nb : bool) (eqf ltf : uid -> uval -> uval -> bool) (HC : good_env C st nb).
Context (Φ : list func) (sigs : list (list vty)) (N : nat).
Context (HΦ : funcs_compile C st nb sigs N Φ) (HS : Forall structural_func Φ).
Notation rreached := (rreached C st nb eqf ltf).
Notation rx n := (rexec C n eqf ltf).
Notation types := (fmap bnd_ty).
Notation call := (call Φ N).
(** No operand of the commands of the run is in a backup. *)
Definition unparked_run (n m : nat) (p : prog) (E : env) (K : kenv) s : Prop := forall c E' K' s',
  issues C n m eqf ltf p E K s c E' K' s' -> rreached E' K' s' -> sources_unparked C E' s' c.

(** What an earlier part of the program leaves alone. *)
Lemma kept d lev p ρ Γ0 T0 (E : env) (K : kenv) s σ n m E' K' s' e :
  sim N lev ρ Γ0 T0 (types E) (dom K) -> (forall x, fmentions p x -> x < N) -> fcompiles C st nb sigs Γ0 T0 p ->
  rreached E K s -> unparked_run n m (expand (call d lev) ρ p) E K s -> shows C (mem s) E σ ->
  prun C n m eqf ltf (expand (call d lev) ρ p) E K s = match e with None => PRet E' K' s' | Some e => PExn e E' K' s' end ->
  E' = E /\ K' = K /\ rreached E K s' /\ exists σ', shows C (mem s') E σ' /\
    forall y, y < N -> ~ fmentions p y -> σ' !! ρ y = σ !! ρ y.
Proof.
  intros Hsim Htxt Hc Hr Hup Hs Hrun.
  assert (Hcomp : compiles C st nb (types E) (dom K) (expand (call d lev) ρ p)).
  { eapply (expand_compiles C st nb Φ sigs N HΦ lev); [exact (call_compiles C st nb Φ sigs N HΦ d lev)|exact Hsim|exact Htxt|exact Hc]. }
  pose proof (meaning C st nb eqf ltf HC n m _ E K s Hcomp Hr Hup) as Hg. unfold good in Hg.
  destruct (looks C st nb eqf ltf HC _ _ _ Hr) as (σ0&κ&Hs0&Hk&_).
  assert (Hoth : forall r σ', means C eqf ltf (expand (call d lev) ρ p) σ r σ' -> forall y, y < N -> ~ fmentions p y -> σ' !! ρ y = σ !! ρ y).
  { intros r σ' Hm y Hy Hny. eapply (means_other C st nb eqf ltf HC); [exact Hm|]. intros Hmen.
    apply (expand_mentions N _ (fun z => N * S lev <= z)) in Hmen as [(x&Hx&He)|Hge].
    - apply (s_inj _ _ _ _ _ _ _ Hsim) in He; [by subst|done|by apply Htxt].
    - pose proof (s_lt _ _ _ _ _ _ _ Hsim y Hy). lia.
    - intros. by eapply call_mentions. }
  destruct e as [e|]; rewrite Hrun in Hg; destruct Hg as (->&->&Hr'&Hf); destruct (Hf σ κ Hs Hk) as (σ'&Hs'&_&Hm); (split; [done|]; split; [done|]; split; [done|]; exists σ'; split; [done|]; by eapply Hoth).
Qed.

Lemma ends : forall d p lev ρ Γ0 T0 (A R : gset name) (E : env) (K : kenv) s σ n m,
  sim N lev ρ Γ0 T0 (types E) (dom K) -> (forall x, fmentions p x -> x < N) -> fcompiles C st nb sigs Γ0 T0 p -> structural A R p ->
  rreached E K s -> unparked_run n m (expand (call d lev) ρ p) E K s -> shows C (mem s) E σ -> (forall x, x ∈ A ∪ R -> x < N) ->
  (forall x, x ∈ A -> atmost σ (ρ x) d) -> (forall x, x ∈ R -> below σ (ρ x) d) ->
  prun C n m eqf ltf (expand (call d lev) ρ p) E K s <> PMore.
Proof.
  induction d as [d IHd] using lt_wf_ind.
  induction p as [|c|c p IH|p IHp q IHq|p IHp q IHq|x rs ps IH|x ps IH|x y p IH|f xs];
    intros lev ρ Γ0 T0 A R E K s σ n m Hsim Htxt Hc Hst Hr Hup Hs HN HA HR; cbn [expand prun]; cbn [expand] in Hup.
  - done.
  - apply not_more.
  - destruct Hc as (x&t&Hd&Hx&HxT&Hp).
    assert (Hxc : x ∈ rnames c). { destruct c as [[]| | | | |]; simpl in Hd; try done; destruct Hd as [-> _]; simpl; set_solver. }
    assert (Hlt : x < N) by (apply Htxt; by left).
    assert (Hd' : declaration C st nb (types E : ctx) (ren ρ c) (ρ x) t).
    { eapply decl_ren; [|exact Hd]. intros y t' Hy. by eapply (s_var _ _ _ _ _ _ _ Hsim). }
    destruct (s_new _ _ _ _ _ _ _ Hsim x Hlt Hx HxT) as [H1 H2].
    assert (HxE : E !! ρ x = None). { unfold env, ctx in *. rewrite lookup_fmap in H1. by destruct (E !! ρ x). }
    assert (HxK : K !! ρ x = None) by (by apply not_elem_of_dom).
    rewrite (decl_declares C st nb _ _ _ _ Hd').
    destruct (rx n (ren ρ c) E K s) as [E' K' o s'|fl] eqn:Hrx; [|done].
    destruct (rx_steps C st nb eqf ltf HC n (ren ρ c) E K s E' K' o s' Hr) as [Hr' Hstp]; [by eapply decl_admissible|done|].
    destruct (decl_frame C st nb eqf ltf n (ren ρ c) (ρ x) t E K s E' K' o s' Hd' Hrx) as [-> [(e&->&->)|[Ho (b&Hb&->)]]]; [done|].
    assert (Hpo : presult_of (RDone (<[ρ x:=b]> E) K o s') = PRet (<[ρ x:=b]> E) K s') by (destruct o; try done; by destruct (Ho e)).
    rewrite Hpo. cbn [and_then]. apply exit_more.
    destruct (looks C st nb eqf ltf HC _ _ _ Hr) as (σ0&κ&_&Hk&_).
    destruct (steps_decl C st nb eqf ltf _ _ _ _ _ _ _ _ _ _ Hd' Hstp σ κ Hs Hk) as (σ1&Hs1&_&Hv).
    assert (Hoth : forall y, y < N -> y ∉ rnames c -> σ1 !! ρ y = σ !! ρ y).
    { intros y Hy Hyc. eapply (vstep_other C st nb eqf ltf HC); [exact Hv|]. rewrite rnames_ren. intros Hin. apply elem_of_list_fmap in Hin as (y'&He&Hin).
      apply (s_inj _ _ _ _ _ _ _ Hsim) in He; [by subst|done|apply Htxt; by left]. }
    eapply (IH lev ρ (<[x:=t]> Γ0) T0 _ _ (<[ρ x:=b]> E) K s' σ1); [|by intros; apply Htxt; right|done|exact Hst|done| |done|..].
    + unfold env, ctx in *. rewrite fmap_insert Hb. by apply sim_let.
    + intros c' E2 K2 s2 Hi. eapply Hup, i_let; [|exact Hi]. rewrite Hrx. exact Hpo.
    + intros y Hy. apply HN. set_solver.
    + intros y Hy. apply elem_of_difference in Hy as [Hy Hny]. eapply atmost_same; [apply Hoth|by apply HA]; [apply HN; set_solver|set_solver].
    + intros y Hy. apply elem_of_difference in Hy as [Hy Hny]. eapply below_same; [apply Hoth|by apply HR]; [apply HN; set_solver|set_solver].
  - destruct Hc as [Hcp Hcq], Hst as [Hsp (X&HX&Hsq)].
    assert (H1 : prun C n m eqf ltf (expand (call d lev) ρ p) E K s <> PMore).
    { eapply IHp; try done; [by intros; apply Htxt; left|]. intros c' E2 K2 s2 Hi. eapply Hup, i_seq_l; exact Hi. }
    destruct (prun C n m eqf ltf (expand (call d lev) ρ p) E K s) as [E' K' s'|e E' K' s'|fl|] eqn:Hrun; try done.
    destruct (kept d lev p ρ Γ0 T0 E K s σ n m E' K' s' None) as (->&->&Hr'&σ'&Hs'&Hoth); try done; [by intros; apply Htxt; left|by intros c' E2 K2 s2 Hi; eapply Hup, i_seq_l; exact Hi|].
    cbn [and_then]. eapply (IHq lev ρ Γ0 T0 _ _ E K s' σ'); [done|by intros; apply Htxt; right|done|exact Hsq|done|by intros c' E2 K2 s2 Hi; eapply Hup, i_seq_r; [exact Hrun|exact Hi]|done|..].
    + intros y Hy. apply HN. set_solver.
    + intros y Hy. apply elem_of_difference in Hy as [Hy Hny]. eapply atmost_same; [apply Hoth|by apply HA]; [apply HN; set_solver|auto].
    + intros y Hy. apply elem_of_difference in Hy as [Hy Hny]. eapply below_same; [apply Hoth|by apply HR]; [apply HN; set_solver|auto].
  - destruct Hc as [Hcp Hcq], Hst as [Hsp (X&HX&Hsq)].
    assert (H1 : prun C n m eqf ltf (expand (call d lev) ρ p) E K s <> PMore).
    { eapply IHp; try done; [by intros; apply Htxt; left|]. intros c' E2 K2 s2 Hi. eapply Hup, i_try; exact Hi. }
    destruct (prun C n m eqf ltf (expand (call d lev) ρ p) E K s) as [E' K' s'|e E' K' s'|fl|] eqn:Hrun; try done.
    destruct (kept d lev p ρ Γ0 T0 E K s σ n m E' K' s' (Some e)) as (->&->&Hr'&σ'&Hs'&Hoth); try done; [by intros; apply Htxt; left|by intros c' E2 K2 s2 Hi; eapply Hup, i_try; exact Hi|].
    eapply (IHq lev ρ Γ0 T0 _ _ E K s' σ'); [done|by intros; apply Htxt; right|done|exact Hsq|done|by intros c' E2 K2 s2 Hi; eapply Hup, i_catch; [exact Hrun|exact Hi]|done|..].
    + intros y Hy. apply HN. set_solver.
    + intros y Hy. apply elem_of_difference in Hy as [Hy Hny]. eapply atmost_same; [apply Hoth|by apply HA]; [apply HN; set_solver|auto].
    + intros y Hy. apply elem_of_difference in Hy as [Hy Hny]. eapply below_same; [apply Hoth|by apply HR]; [apply HN; set_solver|auto].
  - assert (Hcomp : compiles C st nb (types E) (dom K) (expand (call d lev) ρ (FVisit x rs ps))).
    { eapply (expand_compiles C st nb Φ sigs N HΦ lev); [exact (call_compiles C st nb Φ sigs N HΦ d lev)|exact Hsim|exact Htxt|exact Hc]. }
    destruct Hc as (tys&Hx&Hps). destruct (s_var _ _ _ _ _ _ _ Hsim _ _ Hx) as [HxN HxE'].
    unfold ctx, env in *. rewrite lookup_fmap in HxE'.
    destruct (E !! ρ x) as [[tys' a|]|] eqn:HxE; simpl in HxE'; try done. injection HxE' as ->.
    destruct (visit_type C st nb eqf ltf HC E K s (ρ x) tys a Hr HxE) as (k&t&l&kd&w&z&ls&Hvh&Ht&_&Hl&Hlen&Hv).
    destruct (Hps t) as (Hnd&Hlr&Hun&Hp); [by eapply elem_of_list_lookup_2|].
    set (u := ity_uid t) in *.
    assert (Hrs : forall r, r ∈ rs u -> r < N) by (intros r Hin; apply Htxt; right; exists u; by left).
    assert (Hun' : forall r, r ∈ map ρ (rs u) -> E !! r = None /\ K !! r = None).
    { intros r Hin. apply elem_of_list_fmap in Hin as (r'&->&Hin). destruct (Hun r' Hin) as [H1 H2].
      destruct (s_new _ _ _ _ _ _ _ Hsim r' (Hrs r' Hin) H1 H2) as [H3 H4]. split; [|by apply not_elem_of_dom].
      unfold env, ctx in *. rewrite lookup_fmap in H3. by destruct (E !! ρ r'). }
    assert (Hnd' : NoDup (map ρ (rs u))).
    { apply NoDup_fmap_2_strong; [|done]. intros a' b' Ha Hb. apply (s_inj _ _ _ _ _ _ _ Hsim); by apply Hrs. }
    assert (Hlr' : length (map ρ (rs u)) = length (ut_members (te C u))) by (by rewrite map_length).
    destruct (open_ok C st nb eqf ltf HC (ρ x) (map ρ (rs u)) E K s tys a t l kd w z ls Hr HxE Hl Hv Hnd' Hlr' Hun') as [Ho Hr1].
    set (refs := zip (map ρ (rs u)) (zip_with BVar (ut_members (te C u)) ls)) in *.
    assert (Hao : radmissible C st nb E K s (ROpen (ρ x) u (map ρ (rs u)))).
    { destruct (looks C st nb eqf ltf HC _ _ _ Hr) as (σ0&κ&Hs0&Hk&HK&Hvar&_&Hnone&_). exists 0, σ0, κ. split; [done|]. split; [done|].
      split; [|split; [done|split; [done|]]].
      - left. exists tys. apply Hvar. unfold env, ctx in *. by rewrite lookup_fmap HxE.
      - intros r Hin. destruct (Hun' r Hin) as [H1 H2]. split; [by apply Hnone|]. specialize (HK r). unfold kenv, kstate in *.
        destruct (κ !! r); [|done]. destruct HK as [_ HK]. destruct HK; [done|]. congruence. }
    destruct (rx_steps C st nb eqf ltf HC n _ _ _ _ _ _ _ _ Hr Hao (Ho n)) as [_ Hso].
    destruct (looks C st nb eqf ltf HC _ _ _ Hr) as (σ0&κ&Hs0&Hk&_&_&_&Hnone&_).
    assert (σ0 = σ) as -> by by eapply shows_unique.
    destruct (Hso σ κ Hs Hk) as (σ1&κ1&Hs1&Hk1&H1).
    unfold dispatch. unfold env in *. rewrite HxE Hv. unfold ret at 1. rewrite Ho. cbn [presult_of and_then]. apply exit_more.
    set (E1 := list_to_map refs ∪ delete (ρ x) E) in *. set (K1 := <[ρ x:=(BVar tys a, refs)]> K) in *.
    pose proof (Hs (ρ x)) as Hsx. unfold env in *. rewrite HxE in Hsx. destruct (σ !! ρ x) as [[tys' k'|]|] eqn:Hσx; try done. destruct Hsx as [-> Hk'].
    assert (k' = k) as -> by by eapply var_holds_unique. clear Hk'.
    inversion H1 as [|x' u' rs' tys' bi z' ks Hx1 Hh| |x' u' rs' z' ks Hx1| | | | | | |]; subst.
    2: { unfold is_obj in Hx1. unfold astate in *. congruence. }
    unfold is_var in Hx1. unfold astate in *. rewrite Hσx in Hx1. injection Hx1 as <- ->. clear H1 Hso.
    set (σ1 := list_to_map (zip (map ρ (rs u)) (zip_with AVar (ut_members (te C u)) ks)) ∪ delete (ρ x) σ) in *.
    assert (Hoth : forall y, y < N -> y <> x -> y ∉ rs u -> σ1 !! ρ y = σ !! ρ y).
    { intros y Hy Hne Hyr. apply lookup_refs.
      - intros Hin. apply elem_of_list_fmap in Hin as (y'&He&Hin). apply (s_inj _ _ _ _ _ _ _ Hsim) in He; [by subst|done|by apply Hrs].
      - intros He. by apply (s_inj _ _ _ _ _ _ _ Hsim) in He. }
    assert (Hmem : x ∈ A ∪ R -> forall r, r ∈ rs u -> below σ1 (ρ r) d).
    { intros HxAR r Hin. assert (HE1 : is_Some (E1 !! ρ r)).
      { unfold E1, refs. assert (Hin' : ρ r ∈ map ρ (rs u)) by (apply elem_of_list_fmap; by exists r).
        destruct (elem_of_list_lookup_1 _ _ Hin') as [i Hi].
        destruct (lookup_lt_is_Some_2 (zip_with BVar (ut_members (te C u)) ls) i) as [b Hb].
        { rewrite zip_with_length. apply lookup_lt_Some in Hi. lia. }
        exists b. apply lookup_union_Some_l. apply elem_of_list_to_map_1; [by apply zip_fst_nodup|].
        apply elem_of_list_lookup_2 with i. apply lookup_zip_with_Some. eauto. }
      assert (Hs1' : shows C (mem s) E1 σ1) by exact Hs1. pose proof (Hs1' (ρ r)) as Hsr. unfold env, astate in *. destruct HE1 as [b Hb]. rewrite Hb in Hsr.
      destruct (σ1 !! ρ r) as [α|] eqn:Hσ1; [|by destruct b]. unfold σ1 in Hσ1. apply lookup_union_Some_raw in Hσ1 as [Hσ1|[_ Hσ1]].
      - assert (Hσ1' : σ1 !! ρ r = Some α) by (apply lookup_union_Some_raw; by left).
        apply elem_of_list_to_map_2 in Hσ1. apply elem_of_zip_r in Hσ1. apply elem_of_lookup_zip_with in Hσ1 as (i&tys'&k&->&_&Hki).
        exists tys', k. split; [exact Hσ1'|]. assert (Hkd : udepth k.2 < udepth (UV z' ks)) by (apply udepth_member; by eapply elem_of_list_lookup_2).
        apply elem_of_union in HxAR as [Hxa|Hxr].
        + specialize (HA x Hxa _ _ Hσx). cbn [snd] in HA. lia.
        + destruct (HR x Hxr) as (tys2&k2&Hx2&Hd2). unfold is_var, astate in *. rewrite Hσx in Hx2. injection Hx2 as <- <-. cbn [snd] in Hd2. lia.
      - exfalso. apply lookup_delete_Some in Hσ1 as [_ Hσ1]. destruct (Hun' (ρ r)) as [HEr _]; [apply elem_of_list_fmap; by exists r|].
        apply Hnone in HEr. unfold astate in *. congruence. }
    eapply (IH u lev ρ _ _ _ _ E1 K1 s σ1); [|..|exact Hp|exact (Hst u)|done| |done| | |].
    + pose proof (types_refs E (ρ x) (map ρ (rs u)) (ut_members (te C u)) ls Hlr' Hlen) as HT. unfold env, ctx in HT.
      unfold E1, refs, env. rewrite HT. unfold K1, kenv. rewrite dom_insert_L. apply (sim_visit C st nb Φ sigs N HΦ); try done.
      * by rewrite fmap_length.
      * intros r Hin. split; [by apply Hrs|]. by apply Hun.
    + intros y Hy. apply Htxt. right. exists u. by right.
    + intros c' E2 K2 s2 Hi. eapply Hup, i_visit; [exact HxE|rewrite Hv; reflexivity| |exact Hi]. by rewrite Ho.
    + intros y Hy. apply minus_in in Hy as [Hy|Hy]; [by apply HN|by apply Hrs].
    + intros y Hy. apply minus_inv in Hy as (Hy&Hnx&Hny).
      eapply atmost_same; [apply Hoth; [apply HN, elem_of_union; by left|done|done]|by apply HA].
    + assert (HQ : forall y, y ∈ R ∖ {[x]} ∖ list_to_set (rs u) -> below σ1 (ρ y) d).
      { intros y Hy. apply minus_inv in Hy as (Hy&Hnx&Hny).
        eapply below_same; [apply Hoth; [apply HN, elem_of_union; by right|done|done]|by apply HR]. }
      intros y Hy. destruct (decide (x ∈ A ∪ R)) as [HxAR|]; [|by apply HQ]. apply elem_of_union in Hy as [Hy|Hy]; [|by apply HQ].
      apply Hmem; [done|]. by apply elem_of_list_to_set in Hy.
  - destruct Hc as (tys&Hx&Hps). destruct (s_var _ _ _ _ _ _ _ Hsim _ _ Hx) as [HxN HxE'].
    unfold ctx, env in *. rewrite lookup_fmap in HxE'.
    destruct (E !! ρ x) as [[tys' a|]|] eqn:HxE; simpl in HxE'; try done. injection HxE' as ->.
    destruct (visit_type C st nb eqf ltf HC E K s (ρ x) tys a Hr HxE) as (k&t&l&kd&w&z&ls&Hvh&Ht&_&Hl&Hlen&Hv).
    unfold dispatch. unfold env in *. rewrite HxE Hv. unfold ret at 1.
    eapply (IH (ity_uid t)); [done|..|by eapply Hps, elem_of_list_lookup_2|apply Hst|done| |done|done|done|done].
    + intros y Hy. apply Htxt. right. by exists (ity_uid t).
    + intros c' E2 K2 s2 Hi. eapply Hup, i_switch; [exact HxE|rewrite Hv; reflexivity|exact Hi].
  - done.
  - destruct Hst as (x&ys&->&HxR). destruct (HR x HxR) as (tys&k&Hk&Hdk).
    destruct d as [|d]; [lia|]. cbn [Calls.call] in Hup |- *. destruct Hc as (ts&Hf&Hnd&Hxs).
    destruct (funcs_lookup C st nb Φ sigs N HΦ f ts Hf) as (F&HF&Hnp&Hlen&Htx&Hb). rewrite HF in Hup |- *.
    pose proof (Forall_lookup_1 _ _ _ _ HS HF) as Hsf. unfold structural_func in Hsf.
    destruct (fn_params F) as [|x0 ps] eqn:Hps; [done|].
    assert (Hsim' : sim N (S lev) (binding N lev (x0 :: ps) (map ρ (x :: ys))) (list_to_map (zip (x0 :: ps) ts)) ∅ (types E) (dom K)).
    { apply sim_call; try done.
      - intros y Hy. apply Htx. by left.
      - apply NoDup_fmap_2_strong; [|done]. intros a b Ha Hb'. apply (s_inj _ _ _ _ _ _ _ Hsim); by apply Htxt.
      - apply Forall2_fmap_l. eapply Forall2_impl; [exact Hxs|]. simpl. intros a t Ha. by eapply (s_var _ _ _ _ _ _ _ Hsim).
      - intros z Hz. apply elem_of_list_fmap in Hz as (a&->&Ha). apply (s_lt _ _ _ _ _ _ _ Hsim). by apply Htxt.
      - apply (s_fresh _ _ _ _ _ _ _ Hsim). }
    refine (IHd d _ (fn_body F) (S lev) _ _ ∅ {[x0]} ∅ E K s σ n m Hsim' _ Hb Hsf Hr Hup Hs _ _ _); [lia|..].
    + intros y Hy. apply Htx. by right.
    + intros y Hy. apply elem_of_union in Hy as [Hy|Hy]; [|by apply elem_of_empty in Hy]. apply elem_of_singleton in Hy as ->. apply Htx. left. by left.
    + intros y Hy. apply elem_of_singleton in Hy as ->.
      rewrite (binding_param N lev _ (map ρ (x :: ys)) x0 (ρ x)); [|done|..].
      * intros tys' k' Hk'. unfold is_var, astate in *. rewrite Hk in Hk'. injection Hk' as <- <-. lia.
      * rewrite Hlen map_length. symmetry. by eapply Forall2_length.
      * simpl. left.
    + intros y Hy. by apply elem_of_empty in Hy.
Qed.

Lemma results p (E : env) (K : kenv) s : compiles C st nb (types E) (dom K) p -> rreached E K s -> (forall n m, unparked_run n m p E K s) ->
  (forall n m, prun C n m eqf ltf p E K s <> PMore) ->
  exists r, match r with PRet E' K' s' | PExn _ E' K' s' => E' = E /\ K' = K /\ rreached E K s' | _ => False end /\
    proceeds C eqf ltf p 0 E K s r /\ forall n m, prun C n m eqf ltf p E K s = PWrong FFuel \/ prun C n m eqf ltf p E K s = r.
Proof.
  intros Hc Hr Hup Hne. destruct (only_parked C st nb eqf ltf HC p E K s 0 Hc Hr) as (r&[n0 Hn]&Hf); [by intros n; apply Hup|]. exists r. split; [|split; [by exists n0|]].
  - destruct r; try done. simpl in Hf. by destruct (Hne n0 0 (Hn n0 ltac:(lia))).
  - intros n m. rewrite (prun_rounds C eqf ltf n 0 m); [|lia|done].
    assert (Hd : prun C n 0 eqf ltf p E K s = PWrong FFuel \/ prun C n 0 eqf ltf p E K s <> PWrong FFuel).
    { destruct (prun C n 0 eqf ltf p E K s) as [| |[]|]; try (by right); by left. }
    destruct Hd as [Hd|Hd]; [by left|right]. rewrite -(prun_mono C eqf ltf n (n `max` n0)); [|lia|done]. apply Hn. lia.
Qed.

Lemma main_ends : forall p lev ρ Γ0 T0 (E : env) (K : kenv) s,
  sim N lev ρ Γ0 T0 (types E) (dom K) -> (forall x, fmentions p x -> x < N) -> fcompiles C st nb sigs Γ0 T0 p -> loopless p ->
  rreached E K s -> forall d', (forall d n m, d' <= d -> unparked_run n m (expand (call d lev) ρ p) E K s) ->
  exists d0, forall d n m, d0 <= d -> prun C n m eqf ltf (expand (call d lev) ρ p) E K s <> PMore.
Proof.
  assert (Hgrow : forall d d' lev p ρ n m E K s, d <= d' -> prun C n m eqf ltf (expand (call d lev) ρ p) E K s <> PMore ->
    prun C n m eqf ltf (expand (call d' lev) ρ p) E K s = prun C n m eqf ltf (expand (call d lev) ρ p) E K s).
  { intros d d' lev p ρ n m E K s Hd Hne. edestruct (expand_grow C eqf ltf n m) as [Heq|Heq]; [|exact Heq|by destruct Hne].
    intros f xs E1 K1 s1. by apply (call_grow C eqf ltf Φ N n m d d' Hd). }
  induction p as [|c|c p IH|p IHp q IHq|p IHp q IHq|x rs ps IH|x ps IH|x y p IH|f xs];
    intros lev ρ Γ0 T0 E K s Hsim Htxt Hc Hl Hr d' Hup; cbn [expand prun]; cbn [expand] in Hup.
  - by exists 0.
  - exists 0. intros. apply not_more.
  - destruct Hc as (x&t&Hd&Hx&HxT&Hp).
    assert (Hlt : x < N). { apply Htxt. left. destruct c as [[]| | | | |]; simpl in Hd; try done; destruct Hd as [-> _]; simpl; set_solver. }
    assert (Hd' : declaration C st nb (types E : ctx) (ren ρ c) (ρ x) t).
    { eapply decl_ren; [|exact Hd]. intros y t' Hy. by eapply (s_var _ _ _ _ _ _ _ Hsim). }
    destruct (s_new _ _ _ _ _ _ _ Hsim x Hlt Hx HxT) as [H1 H2].
    assert (HxE : E !! ρ x = None). { unfold env, ctx in *. rewrite lookup_fmap in H1. by destruct (E !! ρ x). }
    assert (HxK : K !! ρ x = None) by (by apply not_elem_of_dom).
    rewrite (decl_declares C st nb _ _ _ _ Hd').
    assert (Ha : radmissible C st nb E K s (ren ρ c)) by by eapply decl_admissible.
    destruct (rx_runs C st nb eqf ltf HC (ren ρ c) E K s Hr Ha) as (n0&E'&K'&o&s'&Hn&Ht).
    assert (Hr' : rreached E' K' s') by by eapply rtakes_reached.
    assert (Hrx : forall n, rx n (ren ρ c) E K s = RFaulted FFuel \/ rx n (ren ρ c) E K s = RDone E' K' o s').
    { intros n. destruct (rx_ok C st nb eqf ltf HC n _ E K s Hr Ha) as [Hf|(E1&K1&o1&s1&Hx1&_)]; [by left|right].
      rewrite -(Hn (n `max` n0) ltac:(lia)). symmetry. apply rexec_mono; [lia|by rewrite Hx1]. }
    destruct (decl_frame C st nb eqf ltf n0 (ren ρ c) (ρ x) t E K s E' K' o s' Hd' (Hn n0 ltac:(lia))) as [-> [(e&->&->)|[Ho (b&Hb&->)]]].
    { exists 0. intros d n m _. destruct (Hrx n) as [-> | ->]; done. }
    assert (Hpo : presult_of (RDone (<[ρ x:=b]> E) K o s') = PRet (<[ρ x:=b]> E) K s') by (destruct o; try done; by destruct (Ho e)).
    destruct (IH lev ρ (<[x:=t]> Γ0) T0 (<[ρ x:=b]> E) K s') with (d' := d') as [d0 Hd0]; [|by intros; apply Htxt; right|done|done|done|..].
    { unfold env, ctx in *. rewrite fmap_insert Hb. by apply sim_let. }
    { intros d n m Hle c' E2 K2 s2 Hi. apply (Hup d (n `max` n0) m Hle). eapply i_let; [|eapply issues_mono; [|exact Hi]; lia]. rewrite Hn; [done|lia]. }
    exists d0. intros d n m Hle. destruct (Hrx n) as [-> | ->]; [done|]. rewrite Hpo. cbn [and_then]. apply exit_more. by apply Hd0.
  - destruct Hc as [Hcp Hcq], Hl as [Hlp Hlq].
    assert (Hupp : forall d n m, d' <= d -> unparked_run n m (expand (call d lev) ρ p) E K s).
    { intros d n m Hle c' E2 K2 s2 Hi. apply (Hup d n m Hle). by apply i_seq_l. }
    destruct (IHp lev ρ Γ0 T0 E K s) with (d' := d') as [d0 Hd0]; try done; [by intros; apply Htxt; left|].
    set (d1 := d0 `max` d'). assert (Hd1 : forall d n m, d1 <= d -> prun C n m eqf ltf (expand (call d lev) ρ p) E K s <> PMore) by (intros; apply Hd0; lia).
    destruct (results (expand (call d1 lev) ρ p) E K s) as (r&Hf&[n0 Hn]&Hall); [..|by intros; apply Hupp; lia|by intros; apply Hd1|].
    { eapply (expand_compiles C st nb Φ sigs N HΦ lev); [exact (call_compiles C st nb Φ sigs N HΦ d1 lev)|exact Hsim|by intros; apply Htxt; left|exact Hcp]. }
    { done. }
    destruct r as [E' K' s'|e E' K' s'| |]; try done; destruct Hf as (->&->&Hr').
    + destruct (IHq lev ρ Γ0 T0 E K s') with (d' := d1) as [d2 Hd2]; try done; [by intros; apply Htxt; right|..].
      { intros d n m Hle c' E2 K2 s2 Hi. apply (Hup d (n `max` n0) m); [lia|]. eapply i_seq_r; [|eapply issues_mono; [|exact Hi]; lia].
        rewrite (Hgrow d1 d); [|done|by apply Hd1]. rewrite (prun_rounds C eqf ltf _ 0 m); [apply Hn; lia|lia|by apply Hd1]. }
      exists (d1 `max` d2). intros d n m Hle. rewrite (Hgrow d1 d); [|lia|by apply Hd1].
      destruct (Hall n m) as [-> | ->]; [done|]. cbn [and_then]. apply Hd2. lia.
    + exists d1. intros d n m Hle. rewrite (Hgrow d1 d); [|lia|by apply Hd1]. by destruct (Hall n m) as [-> | ->].
  - destruct Hc as [Hcp Hcq], Hl as [Hlp Hlq].
    assert (Hupp : forall d n m, d' <= d -> unparked_run n m (expand (call d lev) ρ p) E K s).
    { intros d n m Hle c' E2 K2 s2 Hi. apply (Hup d n m Hle). by apply i_try. }
    destruct (IHp lev ρ Γ0 T0 E K s) with (d' := d') as [d0 Hd0]; try done; [by intros; apply Htxt; left|].
    set (d1 := d0 `max` d'). assert (Hd1 : forall d n m, d1 <= d -> prun C n m eqf ltf (expand (call d lev) ρ p) E K s <> PMore) by (intros; apply Hd0; lia).
    destruct (results (expand (call d1 lev) ρ p) E K s) as (r&Hf&[n0 Hn]&Hall); [..|by intros; apply Hupp; lia|by intros; apply Hd1|].
    { eapply (expand_compiles C st nb Φ sigs N HΦ lev); [exact (call_compiles C st nb Φ sigs N HΦ d1 lev)|exact Hsim|by intros; apply Htxt; left|exact Hcp]. }
    { done. }
    destruct r as [E' K' s'|e E' K' s'| |]; try done; destruct Hf as (->&->&Hr').
    + exists d1. intros d n m Hle. rewrite (Hgrow d1 d); [|lia|by apply Hd1]. by destruct (Hall n m) as [-> | ->].
    + destruct (IHq lev ρ Γ0 T0 E K s') with (d' := d1) as [d2 Hd2]; try done; [by intros; apply Htxt; right|..].
      { intros d n m Hle c' E2 K2 s2 Hi. apply (Hup d (n `max` n0) m); [lia|]. eapply i_catch; [|eapply issues_mono; [|exact Hi]; lia].
        rewrite (Hgrow d1 d); [|done|by apply Hd1]. rewrite (prun_rounds C eqf ltf _ 0 m); [apply Hn; lia|lia|by apply Hd1]. }
      exists (d1 `max` d2). intros d n m Hle. rewrite (Hgrow d1 d); [|lia|by apply Hd1].
      destruct (Hall n m) as [-> | ->]; [done|]. apply Hd2. lia.
  - destruct Hc as (tys&Hx&Hps). destruct (s_var _ _ _ _ _ _ _ Hsim _ _ Hx) as [HxN HxE'].
    unfold ctx, env in *. rewrite lookup_fmap in HxE'.
    destruct (E !! ρ x) as [[tys' a|]|] eqn:HxE; simpl in HxE'; try done. injection HxE' as ->.
    destruct (visit_type C st nb eqf ltf HC E K s (ρ x) tys a Hr HxE) as (k&t&l&kd&w&z&ls&Hvh&Ht&_&Hl'&Hlen&Hv).
    destruct (Hps t) as (Hnd&Hlr&Hun&Hp); [by eapply elem_of_list_lookup_2|].
    set (u := ity_uid t) in *.
    assert (Hrs : forall r, r ∈ rs u -> r < N) by (intros r Hin; apply Htxt; right; exists u; by left).
    assert (Hun' : forall r, r ∈ map ρ (rs u) -> E !! r = None /\ K !! r = None).
    { intros r Hin. apply elem_of_list_fmap in Hin as (r'&->&Hin). destruct (Hun r' Hin) as [H1 H2].
      destruct (s_new _ _ _ _ _ _ _ Hsim r' (Hrs r' Hin) H1 H2) as [H3 H4]. split; [|by apply not_elem_of_dom].
      unfold env, ctx in *. rewrite lookup_fmap in H3. by destruct (E !! ρ r'). }
    assert (Hnd' : NoDup (map ρ (rs u))).
    { apply NoDup_fmap_2_strong; [|done]. intros a' b' Ha Hb. apply (s_inj _ _ _ _ _ _ _ Hsim); by apply Hrs. }
    assert (Hlr' : length (map ρ (rs u)) = length (ut_members (te C u))) by (by rewrite map_length).
    destruct (open_ok C st nb eqf ltf HC (ρ x) (map ρ (rs u)) E K s tys a t l kd w z ls Hr HxE Hl' Hv Hnd' Hlr' Hun') as [Ho Hr1].
    set (refs := zip (map ρ (rs u)) (zip_with BVar (ut_members (te C u)) ls)) in *.
    destruct (IH u lev ρ (list_to_map (zip (rs u) (TVar <$> ut_members (te C u))) ∪ delete x Γ0) ({[x]} ∪ T0) (list_to_map refs ∪ delete (ρ x) E) (<[ρ x:=(BVar tys a, refs)]> K) s) with (d' := d') as [d0 Hd0].
    { pose proof (types_refs E (ρ x) (map ρ (rs u)) (ut_members (te C u)) ls Hlr' Hlen) as HT. unfold env, ctx in HT.
      unfold refs, env. rewrite HT. unfold kenv. rewrite dom_insert_L. apply (sim_visit C st nb Φ sigs N HΦ); try done.
      - by rewrite fmap_length.
      - intros r Hin. split; [by apply Hrs|]. by apply Hun. }
    { intros y Hy. apply Htxt. right. exists u. by right. }
    { exact Hp. }
    { apply Hl. }
    { done. }
    { intros d n m Hle c' E2 K2 s2 Hi. apply (Hup d n m Hle). eapply i_visit; [exact HxE|rewrite Hv; reflexivity|by rewrite Ho|exact Hi]. }
    exists d0. intros d n m Hle. unfold dispatch. unfold env in *. rewrite HxE Hv. unfold ret at 1. rewrite Ho. cbn [presult_of and_then].
    apply exit_more. by apply Hd0.
  - destruct Hc as (tys&Hx&Hps). destruct (s_var _ _ _ _ _ _ _ Hsim _ _ Hx) as [HxN HxE'].
    unfold ctx, env in *. rewrite lookup_fmap in HxE'.
    destruct (E !! ρ x) as [[tys' a|]|] eqn:HxE; simpl in HxE'; try done. injection HxE' as ->.
    destruct (visit_type C st nb eqf ltf HC E K s (ρ x) tys a Hr HxE) as (k&t&l&kd&w&z&ls&Hvh&Ht&_&Hl'&Hlen&Hv).
    destruct (IH (ity_uid t) lev ρ Γ0 T0 E K s) with (d' := d') as [d0 Hd0]; [done|..|by eapply Hps, elem_of_list_lookup_2|apply Hl|done| |].
    { intros y Hy. apply Htxt. right. by exists (ity_uid t). }
    { intros d n m Hle c' E2 K2 s2 Hi. apply (Hup d n m Hle). eapply i_switch; [exact HxE|rewrite Hv; reflexivity|exact Hi]. }
    exists d0. intros d n m Hle. unfold dispatch. unfold env in *. rewrite HxE Hv. unfold ret at 1. by apply Hd0.
  - done.
  - destruct xs as [|x ys]; [done|]. destruct Hc as (ts&Hf&Hnd&Hxs).
    destruct (funcs_lookup C st nb Φ sigs N HΦ f ts Hf) as (F&HF&Hnp&Hlen&Htx&Hb).
    pose proof (Forall_lookup_1 _ _ _ _ HS HF) as Hsf. unfold structural_func in Hsf.
    destruct (fn_params F) as [|x0 ps] eqn:Hps; [done|].
    destruct (looks C st nb eqf ltf HC _ _ _ Hr) as (σ&κ&Hs&_).
    set (d0 := match σ !! ρ x with Some (AVar _ k) => udepth k.2 | _ => 0 end).
    assert (Hsim' : sim N (S lev) (binding N lev (x0 :: ps) (map ρ (x :: ys))) (list_to_map (zip (x0 :: ps) ts)) ∅ (types E) (dom K)).
    { apply sim_call; try done.
      - intros y Hy. apply Htx. by left.
      - apply NoDup_fmap_2_strong; [|done]. intros a b Ha Hb'. apply (s_inj _ _ _ _ _ _ _ Hsim); by apply Htxt.
      - apply Forall2_fmap_l. eapply Forall2_impl; [exact Hxs|]. simpl. intros a t Ha. by eapply (s_var _ _ _ _ _ _ _ Hsim).
      - intros z Hz. apply elem_of_list_fmap in Hz as (a&->&Ha). apply (s_lt _ _ _ _ _ _ _ Hsim). by apply Htxt.
      - apply (s_fresh _ _ _ _ _ _ _ Hsim). }
    exists (S d0 `max` d'). intros [|d] n m Hle; [lia|]. specialize (Hup (S d) n m ltac:(lia)). cbn [Calls.call] in Hup |- *. rewrite HF Hps in Hup |- *.
    refine (ends d (fn_body F) (S lev) _ _ ∅ {[x0]} ∅ E K s σ n m Hsim' _ Hb Hsf Hr Hup Hs _ _ _).
    + intros y Hy. apply Htx. by right.
    + intros y Hy. apply elem_of_union in Hy as [Hy|Hy]; [|by apply elem_of_empty in Hy]. apply elem_of_singleton in Hy as ->. apply Htx. left. by left.
    + intros y Hy. apply elem_of_singleton in Hy as ->.
      rewrite (binding_param N lev _ (map ρ (x :: ys)) x0 (ρ x)); [|done|..].
      * intros tys' k' Hk'. unfold is_var, d0, astate in *. rewrite Hk' in Hle. lia.
      * rewrite Hlen map_length. symmetry. by eapply Forall2_length.
      * simpl. left.
    + intros y Hy. by apply elem_of_empty in Hy.
Qed.

Lemma program_ends p (E : env) (K : kenv) s : (forall x, is_Some (E !! x) \/ is_Some (K !! x) \/ fmentions p x -> x < N) ->
  fcompiles C st nb sigs (types E) (dom K) p -> loopless p -> rreached E K s -> (forall d n m, unparked_run n m (unroll Φ N d p) E K s) ->
  exists d0 n0 s', rreached E K s' /\
    ((forall d n m, d0 <= d -> n0 <= n -> prun C n m eqf ltf (unroll Φ N d p) E K s = PRet E K s') \/
     exists e, forall d n m, d0 <= d -> n0 <= n -> prun C n m eqf ltf (unroll Φ N d p) E K s = PExn e E K s').
Proof.
  intros HN Hc Hl Hr Hup. assert (Hsim : sim N 0 id (types E) (dom K) (types E) (dom K)).
  { apply sim_start. intros x [Hx|Hx]; apply HN; [left|right; left]; [|by apply elem_of_dom].
    unfold env, ctx in *. rewrite lookup_fmap fmap_is_Some in Hx. done. }
  destruct (main_ends p 0 id (types E) (dom K) E K s Hsim) with (d' := 0) as [d0 Hd0]; try done; [by intros; apply HN; auto|by intros; apply Hup|].
  destruct (results (unroll Φ N d0 p) E K s) as (r&Hf&[n0 Hn]&_).
  { eapply (expand_compiles C st nb Φ sigs N HΦ 0); [exact (call_compiles C st nb Φ sigs N HΦ d0 0)|exact Hsim|by intros; apply HN; auto|exact Hc]. }
  { done. }
  { intros. by apply Hup. }
  { intros. by apply Hd0. }
  assert (Hall : forall d n m, d0 <= d -> n0 <= n -> prun C n m eqf ltf (unroll Φ N d p) E K s = r).
  { intros d n m Hd Hle. rewrite (unroll_grow C eqf ltf Φ N n m d0 d); [|done|by apply Hd0].
    rewrite (prun_rounds C eqf ltf n 0 m); [by apply Hn|lia|by apply Hd0]. }
  destruct r as [E' K' s'|e E' K' s'| |]; try done; destruct Hf as (->&->&Hr'); exists d0, n0, s'; (split; [done|]).
  - by left.
  - right. by exists e.
Qed.

(** ** Theorems *)
Definition in_env (p : fprog) (E : env) (K : kenv) : Prop := forall x, is_Some (E !! x) \/ is_Some (K !! x) \/ fmentions p x -> x < N.
Lemma tryless_ends p (E : env) (K : kenv) s σ κ : Forall (fun F => ftryless (fn_body F)) Φ -> in_env p E K -> ftryless p ->
  fcompiles C st nb sigs (types E) (dom K) p -> loopless p -> rreached E K s -> all_but C nobody E s ->
  shows C (mem s) E σ -> kshows (mem s) K κ ->
  exists d0 n0 r, (forall d n m, d0 <= d -> n0 <= n -> prun C n m eqf ltf (unroll Φ N d p) E K s = r) /\
    match r with
    | PRet E' K' s' => E' = E /\ K' = K /\ rreached E K s' /\ all_but C nobody E s' /\
        exists σ', shows C (mem s') E σ' /\ kshows (mem s') K κ /\ fmeans C eqf ltf Φ p σ None σ'
    | PExn e E' K' s' => E' = E /\ K' = K /\ rreached E K s' /\
        exists σ', shows C (mem s') E σ' /\ kshows (mem s') K κ /\ fmeans C eqf ltf Φ p σ (Some e) σ'
    | _ => False
    end.
Proof.
  intros HG HN Ht Hc Hl Hr Hb Hs Hk. destruct (program_ends p E K s HN Hc Hl Hr) as (d0&n0&s'&Hr'&Hres).
  { intros d n m. refine (careful_issues C st nb eqf ltf HC n m _ E K s nobody nobody (fun _ => True) _ Hr (nobody_careful _ (unroll_tryless Φ N HG d p Ht)) Hb).
    by apply (tidy_compiles C st nb Φ sigs N HΦ). }
  destruct (tryless_functions C st nb eqf ltf HC Φ sigs N HΦ HG p E K s d0 0 σ κ HN Ht Hc Hr Hb Hs Hk) as (r&[n1 Hn]&Hf).
  exists d0, n0, r. destruct Hres as [Hres|[e Hres]].
  - assert (Hr1 : r = PRet E K s'). { rewrite -(Hn (n0 `max` n1)); [|lia]. apply Hres; lia. } subst r. done.
  - assert (Hr1 : r = PExn e E K s'). { rewrite -(Hn (n0 `max` n1)); [|lia]. apply Hres; lia. } subst r. done.
Qed.
Lemma calm_ends p (E : env) (K : kenv) s σ κ : in_env p E K ->
  fcompiles C st nb sigs (types E) (dom K) p -> loopless p -> rreached E K s -> calm_from s -> tidy C E K s ->
  shows C (mem s) E σ -> kshows (mem s) K κ ->
  exists d0 n0 r, (forall d n m, d0 <= d -> n0 <= n -> prun C n m eqf ltf (unroll Φ N d p) E K s = r) /\
    match r with
    | PRet E' K' s' => E' = E /\ K' = K /\ rreached E K s' /\ calm_from s' /\ tidy C E K s' /\
        exists σ', shows C (mem s') E σ' /\ kshows (mem s') K κ /\ fmeans C eqf ltf Φ p σ None σ'
    | PExn e E' K' s' => E' = E /\ K' = K /\ rreached E K s' /\ calm_from s' /\ tidy C E K s' /\ e = XBadGet /\
        exists σ', shows C (mem s') E σ' /\ kshows (mem s') K κ /\ fmeans C eqf ltf Φ p σ (Some e) σ'
    | _ => False
    end.
Proof.
  intros HN Hc Hl Hr Hq Ht Hs Hk. destruct (program_ends p E K s HN Hc Hl Hr) as (d0&n0&s'&Hr'&Hres).
  { intros d n m. destruct (program_tidy C st nb eqf ltf HC n m (unroll Φ N d p) E K s) as [_ Hi]; [by apply (tidy_compiles C st nb Φ sigs N HΦ)|done..|]. exact Hi. }
  destruct (tidy_functions C st nb eqf ltf HC Φ sigs N HΦ p E K s d0 0 σ κ HN Hc Hr Hq Ht Hs Hk) as (r&[n1 Hn]&Hf).
  exists d0, n0, r. destruct Hres as [Hres|[e Hres]].
  - assert (Hr1 : r = PRet E K s'). { rewrite -(Hn (n0 `max` n1)); [|lia]. apply Hres; lia. } subst r. done.
  - assert (Hr1 : r = PExn e E K s'). { rewrite -(Hn (n0 `max` n1)); [|lia]. apply Hres; lia. } subst r. done.
Qed.
Lemma call_bound f x xs (E : env) (K : kenv) s tys k d n m :
  (forall z, is_Some (E !! z) \/ is_Some (K !! z) \/ z ∈ x :: xs -> z < N) ->
  fcompiles C st nb sigs (types E) (dom K) (FCall f (x :: xs)) -> rreached E K s -> unparked_run n m (unroll Φ N d (FCall f (x :: xs))) E K s ->
  sees C E s x tys k -> udepth k.2 < d ->
  prun C n m eqf ltf (unroll Φ N d (FCall f (x :: xs))) E K s <> PMore.
Proof.
  intros HN Hc Hr Hup Hs Hd. destruct (looks C st nb eqf ltf HC _ _ _ Hr) as (σ&κ&Hσ&_).
  refine (ends d (FCall f (x :: xs)) 0 id (types E) (dom K) ∅ {[x]} E K s σ n m _ _ Hc _ Hr Hup Hσ _ _ _).
  - apply sim_start. intros z [Hz|Hz]; apply HN; [left|right; left]; [|by apply elem_of_dom].
    unfold env, ctx in *. rewrite lookup_fmap fmap_is_Some in Hz. done.
  - intros z Hz. apply HN. auto.
  - exists x, xs. split; [done|]. by apply elem_of_singleton.
  - intros z Hz. apply HN. right. right. apply elem_of_union in Hz as [Hz|Hz]; [by apply elem_of_empty in Hz|]. apply elem_of_singleton in Hz as ->. by left.
  - intros z Hz. by apply elem_of_empty in Hz.
  - intros z Hz. apply elem_of_singleton in Hz as ->. exists tys, k. split; [|done].
    destruct Hs as (a&Ha&Hk). specialize (Hσ x). unfold is_var. unfold env, astate in *. simpl. rewrite Ha in Hσ. unfold id. destruct (σ !! x) as [[tys' k'|]|]; try done.
    destruct Hσ as [-> Hk']. do 2 f_equal. by eapply var_holds_unique.
Qed.
Lemma tryless_bound : Forall (fun F => ftryless (fn_body F)) Φ -> forall f x xs (E : env) (K : kenv) s tys k d n m,
  (forall z, is_Some (E !! z) \/ is_Some (K !! z) \/ z ∈ x :: xs -> z < N) ->
  fcompiles C st nb sigs (types E) (dom K) (FCall f (x :: xs)) -> rreached E K s -> all_but C nobody E s ->
  sees C E s x tys k -> udepth k.2 < d ->
  prun C n m eqf ltf (unroll Φ N d (FCall f (x :: xs))) E K s <> PMore.
Proof.
  intros HG f x xs E K s tys k d n m HN Hc Hr Hb Hs Hd. assert (Ht : ftryless (FCall f (x :: xs))) by done. eapply call_bound; [done..| |done|done].
  refine (careful_issues C st nb eqf ltf HC n m _ E K s nobody nobody (fun _ => True) _ Hr (nobody_careful _ (unroll_tryless Φ N HG d _ Ht)) Hb).
  apply (tidy_compiles C st nb Φ sigs N HΦ); [|done]. exact HN.
Qed.
End ends.
