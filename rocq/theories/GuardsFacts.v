(** A check that no operand is in a heap backup (proofs). *)
From Coq.ssr Require Import ssreflect.
From Coq Require Import ZArith Lia.
From stdpp Require Import gmap.
From iris.prelude Require Import prelude.
From Verif Require Import Base Types Variant Sem Values ValuesFacts Client Observe ObserveFacts Spec Trace History Reach ReachFacts.
From Verif Require Import SpecSem HistoryProof Places PlacesSpec PlacesProof PlacesFacts Programs ProgramsSpec ProgramsFacts PlacesAlikeSpec MeaningSpec MeaningFacts.
From Verif Require Import Calls CallsSpec CallsMeaningSpec CallsFacts CallsMeaningFacts TidySpec BlameSpec BlameFacts TidyFacts GuardsSpec.

Definition but (B : names) (σ : astate) : Prop := forall x α, σ !! x = Some α -> ~ B x -> neat α.
Lemma but_mono (B B' : names) σ : within B B' -> but B σ -> but B' σ.
Proof. intros HB H x α Hx Hn. apply (H x α Hx). intros Hb. by apply Hn, HB. Qed.
Lemma but_insert (B : names) σ x α : (~ B x -> neat α) -> but (fun z => B z \/ z = x) σ -> but B (<[x:=α]> σ).
Proof.
  intros Ha H y β. unfold astate in *. destruct (decide (y = x)) as [->|Hne].
  - rewrite lookup_insert. by intros [= <-].
  - rewrite lookup_insert_ne //. intros Hy Hn. apply (H y β Hy). tauto.
Qed.
Lemma but_delete (B : names) σ x : but (fun z => B z \/ z = x) σ -> but B (delete x σ).
Proof. intros H y β Hy Hn. unfold astate in *. apply lookup_delete_Some in Hy as [Hne Hy]. apply (H y β Hy). intros [?|?]; congruence. Qed.

Section steps.
Context (C : cfg) (eqf ltf : uid -> uval -> uval -> bool).
Ltac inside := let zz := fresh "zz" in intros zz Hz; simpl in *; repeat match goal with |- context [zz = ?a] => lazymatch goal with _ : zz = a |- _ => fail | _ : zz <> a |- _ => fail | _ => destruct (decide (zz = a)) end end; subst; tauto.
Ltac prep Hσ := repeat first [apply but_insert; [intros Hn; simpl in *|] | apply but_delete];
  try (eapply but_mono; [|exact Hσ]; by inside).

Lemma astep_ok B σ c o σ' : astep C eqf ltf σ c o σ' -> (forall e, o <> OThrew e) -> allowed (RMain c) B -> but B σ -> but (after_ok (RMain c) B) σ'.
Proof.
  intros Hst Ho Hal Hσ.
  assert (Hv : forall x tys k, is_var σ x tys k -> ~ B x -> cleanv k = true) by (intros x tys k H; exact (Hσ _ _ H)).
  assert (Hc : forall x tys k, is_var σ x tys k -> ~ B x -> clean k.2 = true) by (intros x tys k H ?; eapply cleanv_in, Hv; eauto).
  assert (Hb : forall x u v, is_obj σ x u v -> ~ B x -> clean v = true) by (intros x u v H; exact (Hσ _ _ H)).
  inversion Hst; subst; try (by match goal with |- context [OThrew ?e] => destruct (Ho e) | H : context [OThrew ?e] |- _ => destruct (Ho e) end).
  all: try match goal with H : from_source ?mv _ _ _ |- _ => destruct mv end.
  all: prep Hσ.
  all: try apply erasev_neat; try apply clean_erase; try apply converted_clean.
  all: try (apply cleanv_with; [eapply Hv; [eassumption|tauto]|]).
  all: try (eapply moved_clean; [eassumption|eapply Hc; [eassumption|tauto]]).
  all: try (eapply operand_after_clean; [eassumption|first [eapply Hb; [eassumption|tauto]|eapply Hc; [eassumption|tauto]]]).
  all: try (match goal with H : foreign _ _ _ _ _ |- _ => destruct H as (?&?&?&_&_&_&->); apply converted_clean end).
  all: try (match goal with H : idefval _ _ _ = _ |- _ => unfold cleanv; simpl; by eapply idefval_clean end).
  { change (clean (UV None (map erasev ks)) = true). apply clean_all, Forall_fmap, Forall_true. intros k. apply erasev_neat. }
  - change (clean k2.2 = true). by eauto.
  - change (clean k2.2 = true). by eauto.
  - match goal with H : move_source _ _ _ |- _ => destruct H as (Hk&Hcl&_) end.
    match goal with H1 : is_var σ x _ k1, H2 : is_var σ y _ k2 |- _ => pose proof (Hcl (Hc _ _ _ H1 ltac:(tauto))) as Hc2; pose proof (Hv _ _ _ H2 ltac:(tauto)) as Hc1 end.
    unfold cleanv in *. rewrite Hk Hc2 andb_true_r. by apply andb_true_iff in Hc1 as [? _].
  - match goal with H : assigned_from _ _ _ _ _ _ |- _ => destruct H as (t1&_&Hin&Hout) end.
    destruct (decide (ity_uid t1 = u)) as [Hu|Hu].
    + rewrite (Hin Hu). apply cleanv_with; [eapply Hv; [eassumption|tauto]|by eauto].
    + destruct (Hout Hu) as (i&t&_&_&->). apply converted_clean.
  - match goal with H : clean _ = true -> clean v2' = true |- _ => apply H end. eapply Hc; [eassumption|tauto].
  - match goal with H : assigned_from _ _ _ _ _ _ |- _ => destruct H as (t1&_&Hin&Hout) end.
    destruct (decide (ity_uid t1 = u)) as [Hu|Hu].
    + rewrite (Hin Hu). apply cleanv_with; [eapply Hv; [eassumption|tauto]|by eauto].
    + destruct (Hout Hu) as (i&t&_&_&->). apply converted_clean.
  - match goal with H : v2' = _ |- _ => subst end. by eauto.
  - match goal with H : swapped _ _ _ _ |- _ => destruct H as [Hin Hout] end. destruct (Hal ltac:(done)) as [Hbx Hby]. destruct (decide (k1.1.2 = k2.1.2)) as [Hi|Hi].
    + destruct (Hin Hi) as [-> _]. apply cleanv_with; by eauto.
    + destruct (Hout Hi) as [-> _]. apply erasev_neat.
  - match goal with H : swapped _ _ _ _ |- _ => destruct H as [Hin Hout] end. destruct (Hal ltac:(done)) as [Hbx Hby]. destruct (decide (k1.1.2 = k2.1.2)) as [Hi|Hi].
    + destruct (Hin Hi) as [_ ->]. apply cleanv_with; [by eauto|]. apply clean_erase.
    + destruct (Hout Hi) as [_ ->]. by eauto.
  - match goal with H : self_swap _ _ |- _ => destruct H as [_ Hs] end. rewrite Hs; eauto.
  - by eauto.
  - apply clean_all, Forall_insert; [|by eauto]. apply (clean_all d).
    match goal with H : k.2 = UV d ks |- _ => rewrite -H end. by eauto.
Qed.
Lemma astep_failed B σ c e σ' : astep C eqf ltf σ c (OThrew e) σ' -> allowed (RMain c) B -> but B σ -> but (after_failed (RMain c) B) σ'.
Proof.
  intros Hst Hal Hσ.
  assert (Hv : forall x tys k, is_var σ x tys k -> ~ B x -> cleanv k = true) by (intros x tys k H; exact (Hσ _ _ H)).
  assert (Hc : forall x tys k, is_var σ x tys k -> ~ B x -> clean k.2 = true) by (intros x tys k H ?; eapply cleanv_in, Hv; eauto).
  assert (Hb : forall x u v, is_obj σ x u v -> ~ B x -> clean v = true) by (intros x u v H; exact (Hσ _ _ H)).
  inversion Hst; subst.
  all: try match goal with H : from_source ?mv _ _ _ |- _ => destruct mv end.
  all: prep Hσ; try (exfalso; tauto).
  all: try (apply cleanv_with; [eapply Hv; [eassumption|tauto]|]).
  all: try (eapply moved_clean; [eassumption|eapply Hc; [eassumption|tauto]]).
  all: try (eapply operand_after_clean; [eassumption|first [eapply Hb; [eassumption|tauto]|eapply Hc; [eassumption|tauto]]]).
  all: try (match goal with H : _ = ?v |- clean ?v = true => subst | H : ?v = _ |- clean ?v = true => subst end; by eauto).
Qed.

(** Contents as operands. *)
Definition temp_names (B : names) (o y : name) : names := fun z => (B z /\ z <> o) \/ (z = o /\ B y).
Lemma but_temp B σ o y tys k u : is_var σ y tys k -> but B σ -> but (temp_names B o y) (<[o := AObj u k.2]> σ).
Proof.
  intros Hy Hσ. apply but_insert.
  - intros Hn. apply cleanv_in. apply (Hσ _ _ Hy). intros Hb. apply Hn. right. done.
  - eapply but_mono; [|exact Hσ]. intros z Hz. unfold temp_names. destruct (decide (z = o)); tauto.
Qed.
Lemma temp_is_var σ o u v x tys k : is_var (<[o := AObj u v]> σ) x tys k -> x <> o.
Proof. intros H ->. unfold is_var, astate in *. rewrite lookup_insert in H. done. Qed.
Lemma vstep_ok B σ c o σ' : vstep C eqf ltf σ c o σ' -> match c with ROpen _ _ _ | RClose _ => False | _ => True end ->
  (forall e, o <> OThrew e) -> allowed c B -> but B σ -> but (after_ok c B) σ'.
Proof.
  intros Hst Hp Ho Hal Hσ. unfold vstep in Hst. inversion Hst; subst; try done; try by (exfalso; by eapply Ho).
  - by eapply astep_ok.
  - match goal with H : astep _ _ _ _ _ _ _ |- _ => rename H into Hin end. match goal with H : is_obj _ _ _ v' |- _ => rename H into Hob end.
    pose proof (astep_ok (temp_names B o0 y) _ _ _ _ Hin Ho I (but_temp B σ o0 y tys2 k2 u H Hσ)) as H'. simpl in *.
    apply but_insert.
    + intros Hn. apply cleanv_with; [exact (Hσ _ _ H Hn)|]. apply (H' _ _ Hob). intros [[_ ?]|[_ ?]]; done.
    + apply but_delete. eapply but_mono; [|exact H']. intros z [[? ?]|[-> ?]]; tauto.
  - match goal with H : astep _ _ _ _ _ _ _ |- _ => rename H into Hin end. match goal with H : is_obj _ _ _ v' |- _ => rename H into Hob end.
    assert (Hx : x <> o0) by (inversion Hin; subst; by eapply temp_is_var).
    assert (Hal' : allowed (RMain (CAssignFrom x o0 mv)) (temp_names B o0 y)). { simpl in *. intros [[_ ?]|[_ ?]]; done. }
    pose proof (astep_ok (temp_names B o0 y) _ _ _ _ Hin Ho Hal' (but_temp B σ o0 y tys2 k2 u H Hσ)) as H'.
    apply but_insert.
    + intros Hn. assert (Hy : ~ B y) by (destruct mv; simpl in *; tauto). apply cleanv_with; [exact (Hσ _ _ H Hy)|]. apply (H' _ _ Hob).
      destruct mv; simpl in *; unfold temp_names; tauto.
    + apply but_delete. eapply but_mono; [|exact H']. intros z Hz. destruct mv; simpl in *; unfold temp_names in Hz; [|tauto].
      destruct (decide (z = o0)); tauto.
  - match goal with H : astep _ _ _ _ _ _ _ |- _ => rename H into Hin end.
    assert (Hal' : allowed (RMain (CPoke x u o0)) (temp_names B o0 y)). { simpl in *. intros [[_ ?]|[_ ?]]; done. }
    pose proof (astep_ok (temp_names B o0 y) _ _ _ _ Hin Ho Hal' (but_temp B σ o0 y tys2 k2 u H Hσ)) as H'.
    apply but_delete. eapply but_mono; [|exact H']. intros z [[? ?]|[-> ?]]; simpl in *; tauto.
Qed.
Lemma vstep_failed B σ c e σ' : vstep C eqf ltf σ c (OThrew e) σ' -> match c with ROpen _ _ _ | RClose _ => False | _ => True end ->
  allowed c B -> but B σ -> but (after_failed c B) σ'.
Proof.
  intros Hst Hp Hal Hσ. unfold vstep in Hst.
  inversion Hst; subst; try done; try (eapply but_mono; [|exact Hσ]; intros z Hz; simpl; tauto).
  - by eapply astep_failed.
  - match goal with H : astep _ _ _ _ _ _ _ |- _ => rename H into Hin end. match goal with H : is_obj _ _ _ v' |- _ => rename H into Hob end.
    pose proof (astep_failed (temp_names B o y) _ _ _ _ Hin I (but_temp B σ o y tys2 k2 u H Hσ)) as H'. simpl in *.
    apply but_insert.
    + intros Hn. apply cleanv_with; [exact (Hσ _ _ H Hn)|]. apply (H' _ _ Hob). intros [[_ ?]|[_ ?]]; done.
    + apply but_delete. eapply but_mono; [|exact H']. intros z [[? ?]|[-> ?]]; tauto.
  - match goal with H : astep _ _ _ _ _ _ _ |- _ => rename H into Hin end. match goal with H : is_obj _ _ _ v' |- _ => rename H into Hob end.
    assert (Hx : x <> o) by (inversion Hin; subst; by eapply temp_is_var).
    assert (Hal' : allowed (RMain (CAssignFrom x o mv)) (temp_names B o y)). { simpl in *. intros [[_ ?]|[_ ?]]; done. }
    pose proof (astep_failed (temp_names B o y) _ _ _ _ Hin Hal' (but_temp B σ o y tys2 k2 u H Hσ)) as H'.
    apply but_insert.
    + intros Hn. simpl in Hn. assert (Hy : ~ B y) by tauto. apply cleanv_with; [exact (Hσ _ _ H Hy)|]. apply (H' _ _ Hob).
      simpl. unfold temp_names. intros [[[_ ?]|[_ ?]]|[?|[? _]]]; [done|done|congruence|tauto].
    + apply but_delete. eapply but_mono; [|exact H']. intros z Hz. simpl in *. unfold temp_names in Hz. destruct (decide (z = o)); tauto.
  - match goal with H : astep _ _ _ _ _ _ _ |- _ => rename H into Hin end.
    assert (Hal' : allowed (RMain (CPoke x u o)) (temp_names B o y)). { simpl in *. intros [[_ ?]|[_ ?]]; done. }
    pose proof (astep_failed (temp_names B o y) _ _ _ _ Hin Hal' (but_temp B σ o y tys2 k2 u H Hσ)) as H'.
    apply but_delete. eapply but_mono; [|exact H']. intros z Hz. simpl in *. unfold temp_names in Hz. destruct (decide (z = o)); tauto.
Qed.

(** New variables are not in backups. *)
Lemma decl_ok st nb Γ B σ c x t o σ' : declaration C st nb Γ c x t -> σ !! x = None -> vstep C eqf ltf σ c o σ' -> (forall e, o <> OThrew e) -> but B σ ->
  but (fun z => B z /\ z <> x) σ'.
Proof.
  intros Hd Hx Hst Ho Hσ.
  assert (Hσ' : but (fun z => B z /\ z <> x) σ). { intros z α Hz Hn. apply (Hσ z α Hz). intros Hb. apply Hn. split; [done|]. intros ->. unfold astate in *. congruence. }
  pose proof (vstep_ok (fun z => B z /\ z <> x) σ c o σ' Hst (decl_plain C st nb Γ c x t Hd) Ho) as H.
  destruct c as [[]| | | | |]; simpl in Hd; try done; exact (H I Hσ').
Qed.
Lemma decl_failed st nb Γ B σ c x t e σ' : declaration C st nb Γ c x t -> vstep C eqf ltf σ c (OThrew e) σ' -> but B σ -> but B σ'.
Proof.
  intros Hd Hst Hσ. pose proof (vstep_failed B σ c e σ' Hst (decl_plain C st nb Γ c x t Hd)) as H.
  destruct c as [[]| | | | |]; simpl in Hd; try done; exact (H I Hσ).
Qed.

(** ** Programs *)
Definition outcome (N X : names) (r : option exn) : names := match r with None => N | Some _ => X end.
Lemma eq_still σ x y o σ' : vstep C eqf ltf σ (RMain (CEq x y)) o σ' -> σ' = σ /\ ending o = None.
Proof. intros H. inversion H as [c o' s0 H'| | | | | | | | | |]; subst. by inversion H'; subst. Qed.
Lemma but_refs (B : names) σ x tys bi z ks (rs : list name) u : is_var σ x tys (bi, UV z ks) -> (forall r, r ∈ rs -> σ !! r = None) -> but B σ ->
  but (fun y => (B y /\ y <> x /\ y ∉ rs) \/ (y ∈ rs /\ B x)) (list_to_map (zip rs (zip_with AVar (ut_members (te C u)) ks)) ∪ delete x σ).
Proof.
  intros Hx Hrs Hσ y α Hy Hn. unfold astate in *. apply lookup_union_Some_raw in Hy as [Hy|[Hnone Hy]].
  - apply elem_of_list_to_map_2 in Hy. assert (y ∈ rs) by (by eapply elem_of_zip_l).
    apply elem_of_zip_r in Hy. apply elem_of_lookup_zip_with in Hy as (i&tys'&k&->&_&Hk).
    assert (Hc : neat (AVar tys (bi, UV z ks))) by (apply (Hσ _ _ Hx); tauto). apply cleanv_in, clean_all in Hc.
    exact (Forall_lookup_1 _ _ _ _ Hc Hk).
  - apply lookup_delete_Some in Hy as [Hne Hy]. apply (Hσ _ _ Hy). intros Hb. apply Hn. left. do 2 (split; [done|]). intros Hin.
    apply Hrs in Hin. congruence.
Qed.
Lemma careful_means st nb p : forall Γ T σ r σ' B N X, compiles C st nb Γ T p -> fits Γ σ -> means C eqf ltf p σ r σ' -> careful p B N X -> but B σ ->
  but (outcome N X r) σ'.
Proof.
  induction p as [|c|c p IH|p IHp q IHq|p IHp q IHq|x rs ps IH|x ps IH|x y p IH|]; intros Γ T σ r σ' B N X Hc F H Hg Hσ; simpl in Hg.
  - inversion H; subst. by eapply but_mono.
  - destruct Hg as (Hal&HN&HX). inversion H; subst. pose proof (checks_plain C Γ c Hc) as Hp.
    assert (Ho : (exists e, o = OThrew e) \/ (ending o = None /\ forall e, o <> OThrew e)) by (destruct o; first [by left; eexists|by right]).
    destruct Ho as [[e ->]|[-> Ho]]; simpl.
    + eapply but_mono; [exact HX|]. by eapply vstep_failed.
    + eapply but_mono; [exact HN|]. by eapply vstep_ok.
  - destruct Hc as (x&t&Hd&Hx&_&Hp). destruct Hg as (HBX&Hg). destruct (Hg x (decl_declares C st nb _ _ _ _ Hd)) as (N'&X'&Hgx&HN&HX). clear Hg. rename Hgx into Hg.
    inversion H as [| |c' p' σ1 e σ2 Hb|c' p' x' σ1 o σ2 r' σ3 Hx' Hs Ho Hm| | | | | | | | |]; subst.
    + simpl. eapply but_mono; [exact HBX|]. by eapply decl_failed.
    + rewrite (decl_declares C st nb _ _ _ _ Hd) in Hx'. injection Hx' as <-.
      assert (Hfx : σ !! x = None). { unfold astate, ctx in *. destruct (σ !! x) as [α|] eqn:Hl; [|done]. apply F in Hl. unfold ctx in *. congruence. }
      assert (H3 : but (outcome N' X' r) σ3).
      { eapply IH; [exact Hp|by eapply decl_fits|exact Hm|exact Hg|]. eapply decl_ok; [done..| |done]. intros e ->. done. }
      intros z α Hz Hn. unfold astate in *. apply lookup_delete_Some in Hz as [Hne Hz]. apply (H3 z α Hz). intros Hb. apply Hn.
      destruct r; simpl in *; [by apply HX|by apply HN].
  - destruct Hc as [Hcp Hcq]. destruct Hg as (M&Hgp&Hgq). inversion H; subst.
    + match goal with H : means _ _ _ p _ _ _ |- _ => exact (IHp Γ T σ _ _ B M X Hcp F H Hgp Hσ) end.
    + match goal with H1 : means _ _ _ p _ _ _, H2 : means _ _ _ q _ _ _ |- _ =>
        exact (IHq Γ T _ _ _ M N X Hcq (means_fits C st nb eqf ltf p Γ T _ _ _ Hcp F H1) H2 Hgq (IHp Γ T σ _ _ B M X Hcp F H1 Hgp Hσ)) end.
  - destruct Hc as [Hcp Hcq]. destruct Hg as (Y&Hgp&Hgq). inversion H; subst.
    + match goal with H : means _ _ _ p _ _ _ |- _ => exact (IHp Γ T σ _ _ B N Y Hcp F H Hgp Hσ) end.
    + match goal with H1 : means _ _ _ p _ _ _, H2 : means _ _ _ q _ _ _ |- _ =>
        exact (IHq Γ T _ _ _ Y N X Hcq (means_fits C st nb eqf ltf p Γ T _ _ _ Hcp F H1) H2 Hgq (IHp Γ T σ _ _ B N Y Hcp F H1 Hgp Hσ)) end.
  - destruct Hc as (tys&Hx&Hps). inversion H as [| | | | | | | |x' rs' ps' σ1 tys' bi z ks u r' σ2 ks' Hv Hh Hm Hall| | | |]; subst.
    pose proof (F x _ Hv) as Hx'. simpl in Hx'. unfold ctx in *. rewrite Hx in Hx'. injection Hx' as <-.
    destruct Hh as (t&Ht&<-). destruct (Hps t) as (Hnd&Hlr&Hun&Hp); [by eapply elem_of_list_lookup_2|].
    destruct (Hg (ity_uid t)) as (N'&X'&Hgu&[HN HNx]&[HX HXx]).
    assert (H2 : but (outcome N' X' r) σ2).
    { eapply (IH (ity_uid t)); [exact Hp| |exact Hm|exact Hgu|].
      - apply fits_refs; [done..|]. intros r' Hr'. by apply Hun.
      - eapply but_refs; [exact Hv| |done]. intros r' Hr'. destruct (Hun r' Hr') as [Hnone _]. unfold astate in *.
        destruct (σ !! r') as [α|] eqn:Hl; [|done]. apply F in Hl. unfold ctx in *. congruence. }
    intros y α Hy Hn. unfold astate in *. apply lookup_insert_Some in Hy as [[<- <-]|[Hne Hy]].
    + assert (Hnx : ~ B x /\ forall r', r' ∈ rs (ity_uid t) -> ~ outcome N' X' r r').
      { destruct r; simpl in *; (split; [by intros Hb; apply Hn; auto|]; intros r' Hr' Hb; apply Hn); [apply HXx|apply HNx]; right; by exists r'. }
      destruct Hnx as [HnB Hnr]. simpl. eapply (cleanv_with (bi, UV z ks)); [exact (Hσ _ _ Hv HnB)|]. apply clean_all, Forall_lookup_2. intros i k Hk.
      destruct (Forall2_lookup_r _ _ _ _ _ Hall Hk) as (r'&Hr'&tys'&Hv'). apply (H2 _ _ Hv'). apply Hnr. by eapply elem_of_list_lookup_2.
    + apply foldr_delete_Some in Hy as [Hny Hy]. apply (H2 _ _ Hy). intros Hb. apply Hn. destruct r; simpl in *; [by apply HX|by apply HN].
  - destruct Hc as (tys&Hx&Hps). inversion H as [| | | | | | | | |x' ps' σ1 tys' k u r' σ2 Hv Hh Hm| | |]; subst.
    pose proof (F x _ Hv) as Hx'. simpl in Hx'. unfold ctx in *. rewrite Hx in Hx'. injection Hx' as <-.
    destruct Hh as (t&Ht&<-). eapply (IH (ity_uid t)); [apply Hps; by eapply elem_of_list_lookup_2|done|done|apply Hg|done].
  - destruct Hc as [Hxy Hp]. assert (Hck : checks C Γ (RMain (CEq x y))) by done. destruct Hg as (I&HBI&HIN&Hg). apply (but_mono _ _ _ HBI) in Hσ. clear HBI.
    remember (PWhile x y p) as q eqn:Hq. revert Hq F Hσ.
    induction H as [| | | | | | | | | |x' y' p' σ o σ' Hs Ho|x' y' p' σ σ1 e σ' Hs Hm|x' y' p' σ σ1 σ2 r σ' Hs Hm _ Hm2 IH2]; intros Hq F Hσ; try done; injection Hq as -> -> ->.
    + destruct (eq_still _ _ _ _ _ Hs) as [-> ->]. by eapply but_mono.
    + destruct (eq_still _ _ _ _ _ Hs) as [-> _]. exact (IH Γ T _ _ _ I I X Hp F Hm Hg Hσ).
    + destruct (eq_still _ _ _ _ _ Hs) as [-> _]. apply IH2; [done|by eapply means_fits|]. exact (IH Γ T _ _ _ I I X Hp F Hm Hg Hσ).
  - inversion H.
Qed.
End steps.

Section prog.
Context (C : cfg) (st nb : bool) (eqf ltf : uid -> uval -> uval -> bool) (HC : good_env C st nb).
Notation rreached := (rreached C st nb eqf ltf).
Notation radmissible := (radmissible C st nb).
Notation rx n := (rexec C n eqf ltf).
Notation types := (fmap bnd_ty).
Notation all_but := (all_but C).

Lemma all_but_shown B E s σ : shows C (mem s) E σ -> but B σ -> all_but B E s.
Proof. intros Hs Hb σ' Hs'. assert (σ' = σ) as -> by by eapply shows_unique. exact Hb. Qed.
Lemma allowed_unparked B E s c : all_but B E s -> allowed c B -> sources_unparked C E s c.
Proof.
  intros Ht Hal σ Hs. pose proof (Ht σ Hs) as Hσ.
  assert (Hcv : forall x tys k, is_var σ x tys k -> ~ B x -> cleanv k = true) by (intros x tys k H; exact (Hσ _ _ H)).
  assert (Hco : forall x u v, is_obj σ x u v -> ~ B x -> clean v = true) by (intros x u v H; exact (Hσ _ _ H)).
  assert (Hc2 : forall x tys k, is_var σ x tys k -> ~ B x -> clean k.2 = true) by (intros x tys k H Hn; apply cleanv_in; by eapply Hcv).
  assert (Hc1 : forall x tys k, is_var σ x tys k -> ~ B x -> k.1.1 = true -> False).
  { intros x tys k Hx Hn. eapply Hcv in Hx; [|done]. unfold cleanv in Hx. apply andb_true_iff in Hx as [Hx _]. by destruct k.1.1. }
  destruct c as [c| | | | |]; try done.
  - destruct c; try done; simpl in *.
    + intros Hne tys k1 k2 Hx Hy. specialize (Hal Hne). split; [by eapply Hc2|]. intros Hb. by destruct (Hc1 _ _ _ Hy).
    + intros Hne tys k1 k2 Hx Hy. specialize (Hal Hne). split; [by eapply Hc2|]. intros Hb. by destruct (Hc1 _ _ _ Hy).
    + intros u v Hy. by eapply Hco.
    + intros Hne tys k1 k2 Hx Hy. destruct (Hal Hne) as [H1 H2]. split; [|intros _; by eapply Hcv]. intros _. split; [by eapply Hc2|]. intros. by eapply Hc2.
    + intros u' v Hy. by eapply Hco.
    + intros tys k Hy. by eapply Hcv.
  - intros tys k Hy. by eapply Hc2.
  - intros tys k Hy. by eapply Hc2.
Qed.

(** What is known where a part of a program has ended. *)
Lemma part n m p (E : env) (K : kenv) s B N X : compiles C st nb (types E) (dom K) p -> rreached E K s -> careful p B N X -> all_but B E s ->
  (forall c E' K' s', issues C n m eqf ltf p E K s c E' K' s' -> rreached E' K' s' -> sources_unparked C E' s' c) ->
  match prun C n m eqf ltf p E K s with
  | PRet E' K' s' => E' = E /\ K' = K /\ rreached E K s' /\ all_but N E s'
  | PExn e E' K' s' => E' = E /\ K' = K /\ rreached E K s' /\ all_but X E s'
  | _ => True
  end.
Proof.
  intros Hc Hr Hg Hb Hup. pose proof (meaning C st nb eqf ltf HC n m p E K s Hc Hr Hup) as Hm.
  destruct (looks C st nb eqf ltf HC _ _ _ Hr) as (σ&κ&Hs&Hk&_).
  destruct (prun C n m eqf ltf p E K s) as [E' K' s'|e E' K' s'|f|]; try done; simpl in Hm; destruct Hm as (->&->&Hr'&Hf); do 3 (split; [done|]);
    destruct (Hf σ κ Hs Hk) as (σ'&Hs'&_&Hm); apply (all_but_shown _ _ _ _ Hs');
    exact (careful_means C eqf ltf st nb p _ _ σ _ σ' B N X Hc (shows_fits C _ _ _ Hs) Hm Hg (Hb σ Hs)).
Qed.

Lemma careful_issues n m : forall p (E : env) (K : kenv) s B N X, compiles C st nb (types E) (dom K) p -> rreached E K s -> careful p B N X -> all_but B E s ->
  forall c E' K' s', issues C n m eqf ltf p E K s c E' K' s' -> rreached E' K' s' -> sources_unparked C E' s' c.
Proof.
  induction p as [|c|c p IH|p IHp q IHq|p IHp q IHq|x rs ps IH|x ps IH|x y p IH|]; intros E K s B N X Hc Hr Hg Hb c' E' K' s' Hi; simpl in Hc, Hg.
  - inversion Hi.
  - inversion Hi; subst. intros _. destruct Hg as [Hal _]. by eapply allowed_unparked.
  - destruct Hc as (x&t&Hd&Hx&HxT&Hp). destruct Hg as (HBX&Hg). destruct (Hg x (decl_declares C st nb _ _ _ _ Hd)) as (N'&X'&Hgx&_). clear Hg. rename Hgx into Hg.
    assert (HxE : E !! x = None). { unfold env, ctx in *. rewrite lookup_fmap in Hx. by destruct (E !! x). }
    assert (HxK : K !! x = None) by (by apply not_elem_of_dom).
    assert (Ha : radmissible E K s c) by by eapply (decl_admissible C st nb eqf ltf HC).
    inversion Hi as [|c1 p1 E0 K0 s0 E1 K1 s1 c2 E2 K2 s2 H1 Hi'| | | | | | | |]; subst.
    destruct (rx n c E K s) as [E2 K2 o s2|f] eqn:Hrx; [|done].
    destruct (rx_steps C st nb eqf ltf HC n c E K s E2 K2 o s2 Hr Ha Hrx) as [Hr2 Hst].
    destruct (decl_frame C st nb eqf ltf n c x t E K s E2 K2 o s2 Hd Hrx) as [-> [(e&->&->)|[Ho (b&Hbt&->)]]]; [done|].
    assert (He : E1 = <[x:=b]> E /\ K1 = K /\ s1 = s2) by (destruct o; simpl in H1; by inversion H1). destruct He as (->&->&->).
    destruct (looks C st nb eqf ltf HC _ _ _ Hr) as (σ&κ&Hs&Hk&_&_&_&Hnone&_).
    destruct (steps_decl C st nb eqf ltf _ _ _ _ _ _ _ _ _ _ Hd Hst σ κ Hs Hk) as (σ'&Hs'&_&Hv).
    eapply (IH (<[x:=b]> E) K s2 _ _ _); [|exact Hr2|exact Hg| |exact Hi'].
    + unfold env, ctx in *. rewrite fmap_insert Hbt. done.
    + apply (all_but_shown _ _ _ _ Hs'). eapply decl_ok; [exact Hd|by apply Hnone|exact Hv|done|exact (Hb σ Hs)].
  - destruct Hc as [Hcp Hcq]. destruct Hg as (M&Hgp&Hgq). inversion Hi; subst; [by eapply IHp|].
    pose proof (part n m p E K s B M X Hcp Hr Hgp Hb (IHp E K s B M X Hcp Hr Hgp Hb)) as Hpt.
    match goal with H : prun _ _ _ _ _ _ _ _ _ = PRet _ _ _ |- _ => rewrite H in Hpt; destruct Hpt as (->&->&Hr1&Hb1) end.
    by eapply IHq.
  - destruct Hc as [Hcp Hcq]. destruct Hg as (Y&Hgp&Hgq). inversion Hi; subst; [by eapply IHp|].
    pose proof (part n m p E K s B N Y Hcp Hr Hgp Hb (IHp E K s B N Y Hcp Hr Hgp Hb)) as Hpt.
    match goal with H : prun _ _ _ _ _ _ _ _ _ = PExn _ _ _ _ |- _ => rewrite H in Hpt; destruct Hpt as (->&->&Hr1&Hb1) end.
    by eapply IHq.
  - destruct Hc as (tys&Hx&Hps). unfold ctx, env in *. rewrite lookup_fmap in Hx.
    destruct (E !! x) as [[tys' a|]|] eqn:HxE; simpl in Hx; try done. injection Hx as ->.
    destruct (visit_type C st nb eqf ltf HC E K s x tys a Hr HxE) as (k&t&l&kd&w&z&ls&Hvh&Htt&_&Hl&Hlen&Hv).
    destruct (Hps t) as (Hnd&Hln&Hfr&Hp); [by eapply elem_of_list_lookup_2|].
    assert (Hun' : forall r, r ∈ rs (ity_uid t) -> E !! r = None /\ K !! r = None).
    { intros r Hin. destruct (Hfr r Hin) as [H1 H2]. rewrite lookup_fmap in H1. apply fmap_None in H1. split; [done|by apply not_elem_of_dom]. }
    destruct (open_ok C st nb eqf ltf HC x (rs (ity_uid t)) E K s tys a t l kd w z ls Hr HxE Hl Hv Hnd Hln Hun') as [Hop Hr1].
    set (refs := zip (rs (ity_uid t)) (zip_with BVar (ut_members (te C (ity_uid t))) ls)) in *.
    set (E1 := list_to_map refs ∪ delete x E) in *. set (K1 := <[x:=(BVar tys a, refs)]> K) in *.
    assert (Ha : radmissible E K s (ROpen x (ity_uid t) (rs (ity_uid t)))).
    { destruct (looks C st nb eqf ltf HC _ _ _ Hr) as (σ&κ&Hs&Hk&HK&Hvar&_&Hnone&_).
      exists 0, σ, κ. split; [done|]. split; [done|]. split; [|split; [done|split; [done|]]].
      - left. exists tys. apply Hvar. unfold env, ctx in *. by rewrite lookup_fmap HxE.
      - intros r Hin. destruct (Hun' r Hin) as [H1 H2]. split; [by apply Hnone|]. specialize (HK r). unfold kenv, kstate in *.
        destruct (κ !! r); [|done]. destruct HK as [_ HK]. destruct HK; [done|]. congruence. }
    destruct (rx_steps C st nb eqf ltf HC n _ _ _ _ _ _ _ _ Hr Ha (Hop n)) as [_ Hso].
    destruct (looks C st nb eqf ltf HC _ _ _ Hr) as (σ&κ&Hs&Hk&_&_&_&Hnone&_).
    destruct (Hso σ κ Hs Hk) as (σ1&κ1&Hs1&Hk1&H1).
    destruct (Hg (ity_uid t)) as (N'&X'&Hgu&_).
    inversion Hi as [| | | | | |x2 rs2 ps2 E2 K2 s2 tys2 a2 u2 s02 E12 K12 s12 c2 E22 K22 s22 Hx2 Hv2 Ho2 Hi'| | |]; subst.
    unfold env in *. rewrite HxE in Hx2. injection Hx2 as <- <-. rewrite Hv in Hv2. unfold ret in Hv2. injection Hv2 as <- <-.
    rewrite Hop in Ho2. simpl in Ho2. injection Ho2 as <- <- <-.
    eapply (IH (ity_uid t) E1 K1 s _ _ _); [|exact Hr1|exact Hgu| |exact Hi'].
    + unfold E1, K1, refs. pose proof (types_refs E x (rs (ity_uid t)) (ut_members (te C (ity_uid t))) ls Hln Hlen) as HT. unfold env, ctx in HT.
      rewrite HT. unfold kenv. by rewrite dom_insert_L.
    + apply (all_but_shown _ _ _ _ Hs1).
      pose proof (Hs x) as Hsx. unfold env in *. rewrite HxE in Hsx. destruct (σ !! x) as [[tys' k'|]|] eqn:Hσx; try done.
      inversion H1 as [|x' u' rs' tys'' bi z' ks Hx1 Hh| |x' u' rs' z' ks Hx1| | | | | | |]; subst.
      2: { unfold is_obj in Hx1. unfold astate in *. congruence. }
      eapply (but_refs C eqf ltf); [exact Hx1| |exact (Hb σ Hs)]. intros r Hr'. apply Hnone. by apply Hun'.
  - destruct Hc as (tys&Hx&Hps). unfold ctx, env in *. rewrite lookup_fmap in Hx.
    destruct (E !! x) as [[tys' a|]|] eqn:HxE; simpl in Hx; try done. injection Hx as ->.
    destruct (visit_type C st nb eqf ltf HC E K s x tys a Hr HxE) as (k&t&l&kd&w&z&ls&Hvh&Htt&_&Hl&Hlen&Hv).
    inversion Hi as [| | | | | | |x2 ps2 E2 K2 s2 tys2 a2 u2 s02 c2 E22 K22 s22 Hx2 Hv2 Hi'| |]; subst.
    unfold env in *. rewrite HxE in Hx2. injection Hx2 as <- <-. rewrite Hv in Hv2. unfold ret in Hv2. injection Hv2 as <- <-.
    eapply (IH (ity_uid t) E K s _ _ _); [apply Hps; by eapply elem_of_list_lookup_2|exact Hr|apply Hg|exact Hb|exact Hi'].
  - destruct Hc as [Hxy Hp]. destruct Hg as (I&HBI&_&Hg).
    assert (Hb' : all_but I E s) by (intros σ Hs; eapply but_mono; [exact HBI|exact (Hb σ Hs)]). clear HBI Hb.
    assert (Hcmp : forall s E1 K1 s1, rreached E K s -> all_but I E s -> rexec C n eqf ltf (RMain (CEq x y)) E K s = RDone E1 K1 (OBool true) s1 ->
      E1 = E /\ K1 = K /\ rreached E K s1 /\ all_but I E s1).
    { clear s Hr Hi Hb'. intros s E1 K1 s1 Hr Hb' Hrx.
      assert (Hck : checks C (types E) (RMain (CEq x y))) by done.
      destruct (checks_frame C eqf ltf n _ _ E K s E1 K1 _ s1 Hck Hrx) as [-> ->].
      destruct (rx_steps C st nb eqf ltf HC n (RMain (CEq x y)) E K s E K (OBool true) s1 Hr) as [Hr1 Hst]; [|done|].
      { apply (checks_admissible C st nb eqf ltf HC); [done..|]. by intros σ _. }
      do 3 (split; [done|]). destruct (looks C st nb eqf ltf HC _ _ _ Hr) as (σ&κ&Hs&Hk&_).
      destruct (steps_checks C eqf ltf _ _ _ _ _ _ _ Hck Hst σ κ Hs Hk) as (σ'&Hs'&_&Hv). destruct (eq_still C eqf ltf _ _ _ _ _ Hv) as [-> _].
      apply (all_but_shown _ _ _ _ Hs'). exact (Hb' σ Hs). }
    remember (PWhile x y p) as q eqn:Hq. revert Hq. assert (HE : exists E0 K0, E0 = E /\ K0 = K) by eauto. destruct HE as (E0&K0&HE0&HK0).
    rewrite -HE0 -HK0 in Hi. revert HE0 HK0 Hr Hb'. induction Hi as [| | | | | | | |x1 y1 p1 E0 K0 s E1 K1 s1 c' E' K' s' H1 Hi _|x1 y1 p1 E0 K0 s E1 K1 s1 E2 K2 s2 c' E' K' s' H1 H2 Hi IHi];
      intros HE0 HK0 Hr Hb' Hq; try done; injection Hq as -> -> ->; subst E0 K0.
    + destruct (Hcmp _ _ _ _ Hr Hb' H1) as (->&->&Hr1&Hb1). by eapply IH.
    + destruct (Hcmp _ _ _ _ Hr Hb' H1) as (->&->&Hr1&Hb1).
      pose proof (part n m p E K s1 I I X Hp Hr1 Hg Hb1 (IH E K s1 I I X Hp Hr1 Hg Hb1)) as Hpt. rewrite H2 in Hpt. destruct Hpt as (->&->&Hr2&Hb2).
      by apply IHi.
  - inversion Hi.
Qed.

(** ** Theorems *)
Lemma careful_sound p (E : env) (K : kenv) s m B N X :
  compiles C st nb (types E) (dom K) p -> careful p B N X -> rreached E K s -> all_but B E s ->
  exists r, proceeds C eqf ltf p m E K s r /\
    match r with
    | PRet E' K' s' => E' = E /\ K' = K /\ rreached E K s' /\ all_but N E s'
    | PExn e E' K' s' => E' = E /\ K' = K /\ rreached E K s' /\ all_but X E s'
    | PMore => ~ loop_free p
    | PWrong _ => False
    end.
Proof.
  intros Hc Hg Hr Hb. destruct (only_parked C st nb eqf ltf HC p E K s m Hc Hr) as (r&[n0 Hn]&Hf).
  { intros n. exact (careful_issues n m p E K s B N X Hc Hr Hg Hb). }
  exists r. split; [by exists n0|].
  pose proof (part n0 m p E K s B N X Hc Hr Hg Hb (careful_issues n0 m p E K s B N X Hc Hr Hg Hb)) as Hpt. rewrite Hn in Hpt; [|done]. by destruct r.
Qed.
Lemma careful_meaning p (E : env) (K : kenv) s n m B N X σ κ :
  compiles C st nb (types E) (dom K) p -> careful p B N X -> rreached E K s -> all_but B E s ->
  shows C (mem s) E σ -> kshows (mem s) K κ ->
  match prun C n m eqf ltf p E K s with
  | PRet E' K' s' => E' = E /\ K' = K /\
      exists σ', shows C (mem s') E σ' /\ kshows (mem s') K κ /\ means C eqf ltf p σ None σ'
  | PExn e E' K' s' => E' = E /\ K' = K /\
      exists σ', shows C (mem s') E σ' /\ kshows (mem s') K κ /\ means C eqf ltf p σ (Some e) σ'
  | _ => True
  end.
Proof. intros Hc Hg Hr Hb Hs Hk. apply (runs_parked C st nb eqf ltf HC); try done. by eapply careful_issues. Qed.

Lemma tryless_careful p : forall (B X : names), (forall z, ~ B z) -> (forall z, X z) -> tryless p -> careful p B B X.
Proof.
  induction p as [|c|c p IH|p IHp q IHq|p IHp q IHq|x rs ps IH|x ps IH|x y p IH|]; intros B X HB HX Ht; simpl in Ht |- *.
  - by intros z.
  - split; [|split; [|by intros z _]].
    + destruct c as [[]| | | | |]; simpl; first [exact I|exact (HB _)|intros _; exact (HB _)|intros _; split; exact (HB _)].
    + intros z Hz. exfalso. destruct c as [[]| | | | |]; simpl in Hz; try match type of Hz with (if ?b then _ else _) _ => destruct b end;
        try match type of Hz with match ?b with _ => _ end _ => destruct b end;
        repeat match goal with H : _ \/ _ |- _ => destruct H | H : _ /\ _ |- _ => destruct H end;
        match goal with H : B _ |- _ => exact (HB _ H) end.
  - split; [by intros z _|]. intros x _. exists (fun z => B z /\ z <> x), X. split; [|split].
    + apply IH; [|done..]. intros z [Hz _]. exact (HB z Hz).
    + intros z [[Hz _] _]. exact Hz.
    + by intros z _.
  - destruct Ht as [Hp Hq]. exists B. split; [by apply IHp|by apply IHq].
  - done.
  - assert (HI : forall u z, ~ ((B z /\ z <> x /\ z ∉ rs u) \/ (z ∈ rs u /\ B x))). { intros u z [[Hz _]|[_ Hz]]; exact (HB _ Hz). }
    intros u. exists (fun z => (B z /\ z <> x /\ z ∉ rs u) \/ (z ∈ rs u /\ B x)), X. split; [apply IH; [apply HI|done|by apply Ht]|]. split; [split|split].
    + intros z [Hz _]. destruct (HI _ _ Hz).
    + intros [Hz|(r&_&Hz)]; [destruct (HB _ Hz)|destruct (HI _ _ Hz)].
    + by intros z _.
    + by intros _.
  - intros u. by apply IH.
  - exists B. split; [by intros z|]. split; [by intros z|]. by apply IH.
  - done.
Qed.
Lemma nobody_careful p : tryless p -> careful p nobody nobody (fun _ => True).
Proof. apply tryless_careful; [|done]. intros z Hz. exact Hz. Qed.
Lemma nobody_start orc : all_but nobody ∅ (init orc).
Proof. intros σ Hs x α Hx _. specialize (Hs x). unfold env, astate in *. rewrite lookup_empty Hx in Hs. by destruct α. Qed.
Lemma tryless_sound p (E : env) (K : kenv) s m :
  compiles C st nb (types E) (dom K) p -> tryless p -> rreached E K s -> all_but nobody E s ->
  exists r, proceeds C eqf ltf p m E K s r /\
    match r with
    | PRet E' K' s' => E' = E /\ K' = K /\ rreached E K s' /\ all_but nobody E s'
    | PExn e E' K' s' => E' = E /\ K' = K /\ rreached E K s'
    | PMore => ~ loop_free p
    | PWrong _ => False
    end.
Proof.
  intros Hc Ht Hr Hb. destruct (careful_sound p E K s m nobody nobody (fun _ => True) Hc (nobody_careful p Ht) Hr Hb) as (r&Hp&Hf).
  exists r. split; [done|]. destruct r; try done. tauto.
Qed.
Lemma careful_whole p orc m N X : compiles C st nb ∅ ∅ p -> careful p nobody N X ->
  exists r, proceeds C eqf ltf p m ∅ ∅ (init orc) r /\
    match r with
    | PRet _ _ s' => mem s' = ∅
    | PExn e _ _ s' => mem s' = ∅
    | PMore => ~ loop_free p
    | PWrong _ => False
    end.
Proof.
  intros Hc Hg. assert (Hr : rreached ∅ ∅ (init orc)) by (exists orc, []; constructor).
  destruct (careful_sound p ∅ ∅ (init orc) m nobody N X) as (r&Hp&Hf).
  { unfold env, ctx, kenv in *. by rewrite fmap_empty dom_empty_L. } { done. } { done. } { apply nobody_start. }
  exists r. split; [done|]. destruct r as [E' K' s'|e E' K' s'|f|]; try done.
  - destruct Hf as (_&_&Hr'&_). exact (r_nothing_left C st nb eqf ltf HC s' Hr').
  - destruct Hf as (_&_&Hr'&_). exact (r_nothing_left C st nb eqf ltf HC s' Hr').
Qed.

(** Functions. *)
Context (Φ : list func) (sigs : list (list vty)) (N : nat) (HΦ : funcs_compile C st nb sigs N Φ).
Context (HG : Forall (fun F => ftryless (fn_body F)) Φ).
Lemma expand_tryless call ρ p : (forall f xs, tryless (call f xs)) -> ftryless p -> tryless (expand call ρ p).
Proof.
  intros Hc. induction p as [|c|c p IH|p IHp q IHq|p IHp q IHq|x rs ps IH|x ps IH|x y p IH|f xs]; simpl; try done.
  - intros [? ?]. auto.
  - intros H u. auto.
  - intros H u. auto.
Qed.
Lemma call_tryless d : forall lev f xs, tryless (call Φ N d lev f xs).
Proof.
  induction d as [|d IH]; intros lev f xs; simpl; [done|]. destruct (Φ !! f) as [F|] eqn:HF; [|done].
  apply expand_tryless; [apply IH|]. pose proof HG as HG2. rewrite Forall_lookup in HG2. by eapply HG2.
Qed.
Lemma unroll_tryless d p : ftryless p -> tryless (unroll Φ N d p).
Proof. apply expand_tryless, call_tryless. Qed.
Lemma tryless_functions p (E : env) (K : kenv) s d m σ κ :
  (forall x, is_Some (E !! x) \/ is_Some (K !! x) \/ fmentions p x -> x < N) -> ftryless p ->
  fcompiles C st nb sigs (types E) (dom K) p -> rreached E K s -> all_but nobody E s ->
  shows C (mem s) E σ -> kshows (mem s) K κ ->
  exists r, proceeds C eqf ltf (unroll Φ N d p) m E K s r /\
    match r with
    | PRet E' K' s' => E' = E /\ K' = K /\ rreached E K s' /\ all_but nobody E s' /\
        exists σ', shows C (mem s') E σ' /\ kshows (mem s') K κ /\ fmeans C eqf ltf Φ p σ None σ'
    | PExn e E' K' s' => E' = E /\ K' = K /\ rreached E K s' /\
        exists σ', shows C (mem s') E σ' /\ kshows (mem s') K κ /\ fmeans C eqf ltf Φ p σ (Some e) σ'
    | PMore => True
    | PWrong _ => False
    end.
Proof.
  intros HN Ht Hc Hr Hb Hs Hk. pose proof (tidy_compiles C st nb Φ sigs N HΦ d p E K HN Hc) as Hcu.
  pose proof (unroll_tryless d p Ht) as Htu.
  destruct (tryless_sound (unroll Φ N d p) E K s m Hcu Htu Hr Hb) as (r&[n0 Hn]&Hf). exists r. split; [by exists n0|].
  pose proof (careful_meaning (unroll Φ N d p) E K s n0 m _ _ _ σ κ Hcu (nobody_careful _ Htu) Hr Hb Hs Hk) as Hm. rewrite Hn in Hm; [|done].
  destruct r as [E' K' s'|e E' K' s'|f|]; try done.
  - destruct Hf as (->&->&?&?). do 4 (split; [done|]). destruct Hm as (_&_&σ'&Hs'&Hk'&Hm). exists σ'. split; [done|]. split; [done|].
    by eapply (tidy_unrolled C st nb eqf ltf HC Φ sigs N HΦ).
  - destruct Hf as (->&->&?). do 3 (split; [done|]). destruct Hm as (_&_&σ'&Hs'&Hk'&Hm). exists σ'. split; [done|]. split; [done|].
    by eapply (tidy_unrolled C st nb eqf ltf HC Φ sigs N HΦ).
Qed.
End prog.
