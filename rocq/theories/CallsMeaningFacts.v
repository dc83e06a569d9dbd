(** Facts about CallsMeaningSpec.v. *)
From Coq Require Import ssreflect.
From stdpp Require Import base gmap list numbers.
From Coq Require Import ZArith Lia.
From Verif Require Import Base Types Variant Sem Values Client Observe Spec History Reach Places PlacesSpec Programs ProgramsSpec PlacesAlikeSpec MeaningSpec Calls CallsSpec CallsMeaningSpec.
From Verif Require Import ValuesFacts CoreFacts ObserveFacts ReachFacts PlacesFacts ProgramsFacts MeaningFacts CallsFacts.

(** ** Renaming *)
Section view.
Context (C : cfg) (eqf ltf : uid -> uval -> uval -> bool).

Record view (D : name -> Prop) (ρ : name -> name) (σ σ0 : astate) : Prop := View {
  v_at : forall x, D x -> σ0 !! x = σ !! ρ x;
  v_dom : forall x, is_Some (σ0 !! x) -> D x;
  v_inj : forall x y, D x -> D y -> ρ x = ρ y -> x = y }.

Section one.
Context (D : name -> Prop) (ρ : name -> name).
Notation view := (view D ρ).
Lemma view_insert σ σ0 x α : view σ σ0 -> D x -> view (<[ρ x := α]> σ) (<[x := α]> σ0).
Proof.
  intros [Ha Hd Hi] Hx. unfold astate in *. split; [..|done].
  - intros y Hy. destruct (decide (y = x)) as [->|Hne]; [by rewrite !lookup_insert|].
    rewrite lookup_insert_ne; [|done]. rewrite lookup_insert_ne; [by apply Ha|]. intros He. apply Hne. by rewrite (Hi _ _ Hx Hy He).
  - intros y Hy. destruct (decide (y = x)) as [->|Hne]; [done|]. rewrite lookup_insert_ne in Hy; [|done]. by apply Hd.
Qed.
Lemma view_delete σ σ0 x : view σ σ0 -> D x -> view (delete (ρ x) σ) (delete x σ0).
Proof.
  intros [Ha Hd Hi] Hx. unfold astate in *. split; [..|done].
  - intros y Hy. destruct (decide (y = x)) as [->|Hne]; [by rewrite !lookup_delete|].
    rewrite lookup_delete_ne; [|done]. rewrite lookup_delete_ne; [by apply Ha|]. intros He. apply Hne. by rewrite (Hi _ _ Hx Hy He).
  - intros y Hy. destruct (decide (y = x)) as [->|Hne]; [done|]. rewrite lookup_delete_ne in Hy; [|done]. by apply Hd.
Qed.
Lemma view_var σ σ0 x tys k : view σ σ0 -> D x -> is_var σ (ρ x) tys k -> is_var σ0 x tys k.
Proof. intros V Hx H. unfold is_var in *. by rewrite (v_at _ _ _ _ V). Qed.
Lemma view_obj σ σ0 x u v : view σ σ0 -> D x -> is_obj σ (ρ x) u v -> is_obj σ0 x u v.
Proof. intros V Hx H. unfold is_obj in *. by rewrite (v_at _ _ _ _ V). Qed.
Lemma view_vars σ σ0 (ms : list name) (ks : list vval) : view σ σ0 -> (forall x, x ∈ ms -> D x) ->
  Forall2 (fun y k => exists tys, is_var σ y tys k) (map ρ ms) ks -> Forall2 (fun y k => exists tys, is_var σ0 y tys k) ms ks.
Proof.
  intros V. revert ks. induction ms as [|y ms IH]; intros ks Hms H; inversion H as [|? ? ? ? [tys Hy] Hr]; subst; constructor.
  - exists tys. eapply view_var; [done|apply Hms; by left|done].
  - apply IH; [|done]. intros. apply Hms. by right.
Qed.

Lemma astep_ren σ σ0 c o σ' : view σ σ0 -> (forall x, x ∈ names c -> D x) -> astep C eqf ltf σ (ren_cmd ρ c) o σ' ->
  exists σ0', view σ' σ0' /\ astep C eqf ltf σ0 c o σ0'.
Proof.
  Ltac inn Hn := apply Hn; first [left | right; left | right; right; left | right; right; right; left].
  intros V Hn H.
  destruct c; simpl in H, Hn; inversion H; subst; clear H.
  all: repeat match goal with
    | H : is_var _ (ρ ?y) _ _ |- _ => apply (view_var _ _ _ _ _ V) in H; [|inn Hn]
    | H : is_obj _ (ρ ?y) _ _ |- _ => apply (view_obj _ _ _ _ _ V) in H; [|inn Hn]
    | H : Forall2 _ (map ρ _) _ |- _ => apply (view_vars _ _ _ _ V) in H; [|intros; apply Hn; by right]
    | H : ρ ?a <> ρ ?b |- _ => assert (a <> b) by (by intros ->); clear H
    | H : ρ ?a = ρ ?b |- _ => apply (v_inj _ _ _ _ V) in H; [subst|inn Hn|inn Hn]
    end.
  all: eexists; split; [repeat first [apply view_insert; [|inn Hn] | apply view_delete; [|inn Hn] | exact V]|].
  all: try solve [econstructor; eauto].
Qed.
End one.

(** A command that uses [get] has an object of its own. *)
Definition temp (N o : name) (ρ : name -> name) (z : name) : name := match decide (z = N) with left _ => o | right _ => ρ z end.
Lemma temp_at N o ρ : temp N o ρ N = o.
Proof. unfold temp. by rewrite decide_True. Qed.
Lemma temp_ne N o ρ z : z <> N -> temp N o ρ z = ρ z.
Proof. intros. unfold temp. by rewrite decide_False. Qed.
Lemma view_temp N ρ σ σ0 o (α : aval) : view (fun x => x < N) ρ σ σ0 -> σ !! o = None ->
  view (fun z => z = N \/ z < N /\ ρ z <> o) (temp N o ρ) (<[o := α]> σ) (<[N := α]> σ0).
Proof.
  intros [Ha Hd Hi] Ho. unfold astate in *. split.
  - intros x [->|[Hx Hne]]; [rewrite temp_at; by rewrite !lookup_insert|]. rewrite temp_ne; [|lia].
    rewrite lookup_insert_ne; [|lia]. rewrite lookup_insert_ne; [by apply Ha|done].
  - intros x Hx. destruct (decide (x = N)) as [->|Hne]; [by left|right]. rewrite lookup_insert_ne in Hx; [|done].
    assert (x < N) by (by apply Hd). split; [done|]. intros He. rewrite (Ha x) // He Ho in Hx. by destruct Hx.
  - intros x y [->|[Hx Hnx]] [->|[Hy Hny]]; rewrite ?temp_at; try done.
    + rewrite temp_ne; [|lia]. intros He. by destruct Hny.
    + rewrite temp_ne; [|lia]. done.
    + rewrite !temp_ne; [|lia|lia]. by apply Hi.
Qed.
Lemma view_temp_end N ρ σ σ0 o σ1 σ01 : view (fun x => x < N) ρ σ σ0 ->
  view (fun z => z = N \/ z < N /\ ρ z <> o) (temp N o ρ) σ1 σ01 ->
  view (fun x => x < N) ρ (delete o σ1) (delete N σ01).
Proof.
  intros V [Ha Hd _]. unfold astate in *. split; [| |exact (v_inj _ _ _ _ V)].
  - intros x Hx. rewrite lookup_delete_ne; [|lia]. destruct (decide (ρ x = o)) as [He|Hne].
    + rewrite He lookup_delete. destruct (σ01 !! x) eqn:Hx1; [|done]. destruct (Hd x) as [->|[_ ?]]; [by eexists|lia|done].
    + rewrite lookup_delete_ne; [|done]. rewrite Ha; [|by right]. rewrite temp_ne //. lia.
  - intros x [α Hx]. apply lookup_delete_Some in Hx as [Hne Hx]. destruct (Hd x) as [->|[? _]]; [by eexists|done|done].
Qed.

Lemma vstep_ren N ρ σ σ0 c o σ' : view (fun x => x < N) ρ σ σ0 -> (forall x, x ∈ rnames c -> x < N) -> match c with ROpen _ _ _ | RClose _ => False | _ => True end ->
  vstep C eqf ltf σ (ren ρ c) o σ' -> exists σ0', view (fun x => x < N) ρ σ' σ0' /\ vstep C eqf ltf σ0 c o σ0'.
Proof.
  intros V Hn Hcl H. unfold vstep in *. destruct c as [c|x u rs|x|x tys y u mv|x y u mv|x u y]; simpl in H, Hn.
  - inversion H as [c' o' σ1 Ha| | | | | | | | | |]; subst. destruct (astep_ren _ _ _ _ _ _ _ V Hn Ha) as (σ0'&V'&Ha').
    exists σ0'. split; [done|]. by constructor.
  - done.
  - done.
  - assert (HxN : x < N) by (apply Hn; by left). assert (HyN : y < N) by (apply Hn; right; by left).
    inversion H as [| | | | |x' tys' y' u' mv' tys2 k2 o' r σ1 v' Hy Hh Ho Hne Ha Hv|x' tys' y' u' mv' tys2 k2 Hy Hh| | | |]; subst.
    + pose proof (view_temp N ρ σ σ0 o' (AObj u k2.2) V Ho) as V1.
      destruct (astep_ren _ _ _ _ (CFrom x tys N mv) o σ1 V1) as (σ01&V2&Ha2).
      { intros z Hz. simpl in Hz. apply elem_of_cons in Hz as [->|Hz]; [right; by split|]. apply elem_of_list_singleton in Hz as ->. by left. }
      { simpl. rewrite temp_at temp_ne //. lia. }
      exists (<[y := AVar tys2 (k2.1, v')]> (delete N σ01)). split.
      { apply (view_insert (fun x => x < N)); [by eapply view_temp_end|done]. }
      eapply r_from_get; [by eapply view_var|done| |lia|exact Ha2|].
      * destruct (σ0 !! N) eqn:E; [|done]. assert (N < N) by (eapply (v_dom _ _ _ _ V); by eexists). lia.
      * eapply view_obj; [exact V2|by left|]. by rewrite temp_at.
    + exists σ0. split; [done|]. eapply r_from_get_bad; [by eapply view_var|done].
  - assert (HxN : x < N) by (apply Hn; by left). assert (HyN : y < N) by (apply Hn; right; by left).
    inversion H as [| | | | | | |x' y' u' mv' tys2 k2 o' r σ1 v' Hy Hh Ho Ha Hv|x' y' u' mv' tys2 k2 Hy Hh| |]; subst.
    + pose proof (view_temp N ρ σ σ0 o' (AObj u k2.2) V Ho) as V1.
      assert (Hxo : ρ x <> o').
      { intros He. unfold astate in *. inversion Ha; subst; match goal with E : is_var (<[ρ x:=_]> σ) (ρ x) _ _ |- _ => unfold is_var in E; unfold astate in *; by rewrite lookup_insert in E end. }
      destruct (astep_ren _ _ _ _ (CAssignFrom x N mv) o σ1 V1) as (σ01&V2&Ha2).
      { intros z Hz. simpl in Hz. apply elem_of_cons in Hz as [->|Hz]; [right; by split|]. apply elem_of_list_singleton in Hz as ->. by left. }
      { simpl. rewrite temp_at temp_ne //. lia. }
      exists (<[y := AVar tys2 (k2.1, v')]> (delete N σ01)). split.
      { apply (view_insert (fun x => x < N)); [by eapply view_temp_end|done]. }
      eapply r_assign_get; [by eapply view_var|done| |exact Ha2|].
      * destruct (σ0 !! N) eqn:E; [|done]. assert (N < N) by (eapply (v_dom _ _ _ _ V); by eexists). lia.
      * eapply view_obj; [exact V2|by left|]. by rewrite temp_at.
    + exists σ0. split; [done|]. eapply r_assign_get_bad; [by eapply view_var|done].
  - assert (HxN : x < N) by (apply Hn; by left). assert (HyN : y < N) by (apply Hn; right; by left).
    inversion H as [| | | | | | | | |x' y' u' tys2 k2 o' r σ1 Hy Hh Ho Ha|x' y' u' tys2 k2 Hy Hh]; subst.
    + pose proof (view_temp N ρ σ σ0 o' (AObj u k2.2) V Ho) as V1.
      assert (Hxo : ρ x <> o').
      { intros He. unfold astate in *. inversion Ha; subst; match goal with E : is_var (<[ρ x:=_]> σ) (ρ x) _ _ |- _ => unfold is_var in E; unfold astate in *; by rewrite lookup_insert in E end. }
      destruct (astep_ren _ _ _ _ (CPoke x u N) o σ1 V1) as (σ01&V2&Ha2).
      { intros z Hz. simpl in Hz. apply elem_of_cons in Hz as [->|Hz]; [right; by split|]. apply elem_of_list_singleton in Hz as ->. by left. }
      { simpl. rewrite temp_at temp_ne //. lia. }
      exists (delete N σ01). split; [by eapply view_temp_end|].
      eapply r_poke_get; [by eapply view_var|done| |exact Ha2].
      destruct (σ0 !! N) eqn:E; [|done]. assert (N < N) by (eapply (v_dom _ _ _ _ V); by eexists). lia.
    + exists σ0. split; [done|]. eapply r_poke_get_bad; [by eapply view_var|done].
Qed.
End view.

(** ** Types of values *)
Section fits.
Context (C : cfg) (st nb : bool) (eqf ltf : uid -> uval -> uval -> bool).
Definition aty (α : aval) : vty := match α with AVar tys _ => TVar tys | AObj u _ => TObj u end.
Definition fits (Γ : ctx) (σ : astate) : Prop := forall x α, σ !! x = Some α -> Γ !! x = Some (aty α).
(** The type of what a declaration makes. *)
Definition made (Γ : ctx) (c : cmd) (t : vty) : Prop :=
  match c with
  | CMake _ u _ _ => t = TObj u
  | CDefault _ tys | CFrom _ tys _ _ | CConvert _ tys _ _ => t = TVar tys
  | CCopy _ y | CMove _ y => Γ !! y = Some t
  | CTake _ _ u => t = TObj u
  | CChild _ _ u j => exists tys, ut_members (te C u) !! j = Some tys /\ t = TVar tys
  | _ => False
  end.
Lemma astep_fits Γ σ c o σ' z α : fits Γ σ -> astep C eqf ltf σ c o σ' -> σ' !! z = Some α ->
  Γ !! z = Some (aty α) \/ declares c = Some z /\ ending o = None /\ made Γ c (aty α).
Proof.
  intros F H Hz. unfold astate, ctx in *.
  assert (Fv : forall x tys k, is_var σ x tys k -> Γ !! x = Some (TVar tys)) by (intros x tys k Hx; exact (F x _ Hx)).
  assert (Fo : forall x u v, is_obj σ x u v -> Γ !! x = Some (TObj u)) by (intros x u v Hx; exact (F x _ Hx)).
  destruct H; repeat first [apply lookup_insert_Some in Hz as [[<- <-]|[? Hz]] | apply lookup_delete_Some in Hz as [? Hz]].
  all: try (left; by apply F).
  all: try (left; simpl; by eauto).
  all: right; (split; [done|]); (split; [done|]); simpl; eauto.
Qed.
Lemma fits_temp Γ σ o u v : fits Γ σ -> fits (<[o := TObj u]> Γ) (<[o := AObj u v]> σ).
Proof.
  intros F x α Hx. unfold astate, ctx in *. apply lookup_insert_Some in Hx as [[<- <-]|[Hne Hx]]; [by rewrite lookup_insert|].
  rewrite lookup_insert_ne; [|done]. by apply F.
Qed.
Lemma vstep_fits Γ σ c o σ' z α : fits Γ σ -> vstep C eqf ltf σ c o σ' -> match c with ROpen _ _ _ | RClose _ => False | _ => True end ->
  σ' !! z = Some α ->
  Γ !! z = Some (aty α) \/ rdeclares c = Some z /\ ending o = None /\
    match c with RMain c => made Γ c (aty α) | RFromGet _ tys _ _ _ => aty α = TVar tys | _ => False end.
Proof.
  intros F H Hcl Hz. unfold vstep in H. destruct c as [c|x u rs|x|x tys y u mv|x y u mv|x u y]; [|done|done|..].
  - inversion H as [c' o' σ1 Ha| | | | | | | | | |]; subst. by eapply astep_fits.
  - inversion H as [| | | | |x' tys' y' u' mv' tys2 k2 o' r σ1 v' Hy Hh Ho Hne Ha Hv|x' tys' y' u' mv' tys2 k2 Hy Hh| | | |]; subst; [|left; by apply F].
    unfold astate, ctx in *. apply lookup_insert_Some in Hz as [[<- <-]|[? Hz]]; [left; exact (F y _ Hy)|]. apply lookup_delete_Some in Hz as [Hzo Hz].
    destruct (astep_fits _ _ _ _ _ z α (fits_temp Γ σ o' u k2.2 F) Ha Hz) as [Hl|(Hd&He&Hm)]; [left|by right].
    unfold ctx in *. by rewrite lookup_insert_ne in Hl.
  - inversion H as [| | | | | | |x' y' u' mv' tys2 k2 o' r σ1 v' Hy Hh Ho Ha Hv|x' y' u' mv' tys2 k2 Hy Hh| |]; subst; [|left; by apply F].
    unfold astate, ctx in *. apply lookup_insert_Some in Hz as [[<- <-]|[? Hz]]; [left; exact (F y _ Hy)|]. apply lookup_delete_Some in Hz as [Hzo Hz].
    destruct (astep_fits _ _ _ _ _ z α (fits_temp Γ σ o' u k2.2 F) Ha Hz) as [Hl|(Hd&He&Hm)]; [left|done].
    unfold ctx in *. by rewrite lookup_insert_ne in Hl.
  - inversion H as [| | | | | | | | |x' y' u' tys2 k2 o' r σ1 Hy Hh Ho Ha|x' y' u' tys2 k2 Hy Hh]; subst; [|left; by apply F].
    unfold astate, ctx in *. apply lookup_delete_Some in Hz as [Hzo Hz].
    destruct (astep_fits _ _ _ _ _ z α (fits_temp Γ σ o' u k2.2 F) Ha Hz) as [Hl|(Hd&He&Hm)]; [left|done].
    unfold ctx in *. by rewrite lookup_insert_ne in Hl.
Qed.
Lemma checks_plain Γ c : checks C Γ c -> match c with ROpen _ _ _ | RClose _ => False | _ => True end.
Proof. by destruct c. Qed.
Lemma decl_plain Γ c x t : declaration C st nb Γ c x t -> match c with ROpen _ _ _ | RClose _ => False | _ => True end.
Proof. by destruct c. Qed.
Lemma checks_fits Γ σ c o σ' : checks C Γ c -> fits Γ σ -> vstep C eqf ltf σ c o σ' -> fits Γ σ'.
Proof.
  intros Hc F H z α Hz. destruct (vstep_fits _ _ _ _ _ z α F H (checks_plain _ _ Hc) Hz) as [?|(Hd&_)]; [done|].
  by destruct c as [[]| | | | |].
Qed.
Lemma decl_fits_bad Γ σ c x t e σ' : declaration C st nb Γ c x t -> fits Γ σ -> vstep C eqf ltf σ c (OThrew e) σ' -> fits Γ σ'.
Proof. intros Hc F H z α Hz. by destruct (vstep_fits _ _ _ _ _ z α F H (decl_plain _ _ _ _ Hc) Hz) as [?|(_&Hd&_)]. Qed.
Lemma decl_fits Γ σ c x t o σ' : declaration C st nb Γ c x t -> Γ !! x = None -> fits Γ σ -> vstep C eqf ltf σ c o σ' -> fits (<[x := t]> Γ) σ'.
Proof.
  intros Hc Hx F H z α Hz. unfold ctx in *. destruct (vstep_fits _ _ _ _ _ z α F H (decl_plain _ _ _ _ Hc) Hz) as [Hl|(Hd&_&Hm)].
  - rewrite lookup_insert_ne; [done|]. intros ->. unfold ctx in *. congruence.
  - rewrite (decl_declares C st nb _ _ _ _ Hc) in Hd. injection Hd as <-. rewrite lookup_insert. f_equal.
    destruct c as [[]| | | | |]; simpl in Hc, Hm; try done; destruct Hc as [_ Hc]; unfold ctx in *.
    all: try (destruct Hc as [-> _]; done).
    all: try (destruct Hc as (tys0&->&Hy); congruence).
    destruct Hc as (tys0&tys1&->&_&Hj), Hm as (tys2&Hj2&->). congruence.
Qed.
Lemma fits_refs Γ σ x (rs : list name) tss ks : fits Γ σ -> NoDup rs -> length rs = length tss -> (forall r, r ∈ rs -> Γ !! r = None) ->
  fits (list_to_map (zip rs (TVar <$> tss)) ∪ delete x Γ) (list_to_map (zip rs (zip_with AVar tss ks)) ∪ delete x σ).
Proof.
  intros F Hnd Hlen Hrs z α Hz. unfold astate, ctx in *. apply lookup_union_Some_raw in Hz as [Hz|[_ Hz]].
  - apply elem_of_list_to_map_2, elem_of_list_lookup in Hz as [i Hi]. apply lookup_zip_with_Some in Hi as (r&β&[= -> ->]&Hr&Hb).
    apply lookup_zip_with_Some in Hb as (tys&k&->&Ht&Hk). apply lookup_union_Some_l. apply elem_of_list_to_map_1; [by apply zip_fst_nodup|].
    apply elem_of_list_lookup_2 with i. apply lookup_zip_with_Some. exists r, (TVar tys). split; [done|]. split; [done|]. by rewrite list_lookup_fmap Ht.
  - apply lookup_delete_Some in Hz as [Hne Hz]. apply F in Hz. rewrite lookup_union_r; [by rewrite lookup_delete_ne|].
    apply not_elem_of_list_to_map_1. intros Hin. apply zip_fst_in in Hin. apply Hrs in Hin. unfold ctx in *. congruence.
Qed.
Lemma foldr_delete_Some (rs : list name) (σ : astate) z α : (foldr delete σ rs : astate) !! z = Some α -> z ∉ rs /\ σ !! z = Some α.
Proof.
  unfold astate in *. induction rs as [|r rs IH]; simpl; [by split; [apply not_elem_of_nil|]|]. intros H. apply lookup_delete_Some in H as [Hne H].
  destruct (IH H) as [Hn Hz]. split; [|done]. apply not_elem_of_cons. by split.
Qed.
Lemma means_fits p : forall Γ T σ r σ', compiles C st nb Γ T p -> fits Γ σ -> means C eqf ltf p σ r σ' -> fits Γ σ'.
Proof.
  induction p as [|c|c p IH|p IHp q IHq|p IHp q IHq|x rs ps IH|x ps IH|x y p IH|]; intros Γ T σ r σ' Hc F H.
  - by inversion H; subst.
  - inversion H; subst. by eapply checks_fits.
  - destruct Hc as (x&t&Hd&Hx&_&Hp). inversion H as [| |c' p' σ1 e σ2 Hb|c' p' x' σ1 o σ2 r' σ3 Hx' Hs Ho Hm| | | | | | | | |]; subst.
    + by eapply decl_fits_bad.
    + rewrite (decl_declares C st nb _ _ _ _ Hd) in Hx'. injection Hx' as <-.
      assert (F2 : fits (<[x:=t]> Γ) σ3) by (eapply IH; [exact Hp| |exact Hm]; by eapply decl_fits).
      intros z α Hz. unfold astate, ctx in *. apply lookup_delete_Some in Hz as [Hne Hz]. apply F2 in Hz. unfold ctx in *. by rewrite lookup_insert_ne in Hz.
  - destruct Hc as [Hcp Hcq]. inversion H; subst; eauto.
  - destruct Hc as [Hcp Hcq]. inversion H; subst; eauto.
  - destruct Hc as (tys&Hx&Hps). inversion H as [| | | | | | | |x' rs' ps' σ1 tys' bi z ks u r' σ2 ks' Hv Hh Hm Hall| | | |]; subst.
    pose proof (F x _ Hv) as Hx'. simpl in Hx'. unfold ctx in *. rewrite Hx in Hx'. injection Hx' as <-.
    destruct Hh as (t&Ht&<-). destruct (Hps t) as (Hnd&Hlr&Hun&Hp); [by eapply elem_of_list_lookup_2|].
    assert (F2 : fits (list_to_map (zip (rs (ity_uid t)) (TVar <$> ut_members (te C (ity_uid t)))) ∪ delete x Γ) σ2).
    { eapply IH; [exact Hp| |exact Hm]. apply fits_refs; [done..|]. intros r' Hr'. by apply Hun. }
    intros y α Hy. unfold astate, ctx in *. apply lookup_insert_Some in Hy as [[<- <-]|[Hne Hy]]; [done|].
    apply foldr_delete_Some in Hy as [Hny Hy]. apply F2 in Hy. unfold ctx in *. rewrite lookup_union_r in Hy.
    + by rewrite lookup_delete_ne in Hy.
    + apply not_elem_of_list_to_map_1. intros Hin. by apply zip_fst_in in Hin.
  - destruct Hc as (tys&Hx&Hps). inversion H as [| | | | | | | | |x' ps' σ1 tys' k u r' σ2 Hv Hh Hm| | |]; subst.
    pose proof (F x _ Hv) as Hx'. simpl in Hx'. unfold ctx in *. rewrite Hx in Hx'. injection Hx' as <-.
    destruct Hh as (t&Ht&<-). eapply IH; [apply Hps; by eapply elem_of_list_lookup_2|done|done].
  - destruct Hc as [Hxy Hp]. assert (Hck : checks C Γ (RMain (CEq x y))) by done. remember (PWhile x y p) as q eqn:Hq. revert Hq F.
    induction H as [| | | | | | | | | |x' y' p' σ o σ' Hs Ho|x' y' p' σ σ1 e σ' Hs Hm|x' y' p' σ σ1 σ2 r σ' Hs Hm _ Hm2 IH2]; intros Hq F; try done; injection Hq as -> -> ->.
    + by eapply checks_fits.
    + eapply IH; [exact Hp| |exact Hm]. by eapply checks_fits.
    + apply IH2; [done|]. eapply IH; [exact Hp| |exact Hm]. by eapply checks_fits.
  - inversion H.
Qed.
End fits.

(** ** Programs with calls *)
Section calls.
Context (C : cfg) (st nb : bool) (eqf ltf : uid -> uval -> uval -> bool) (HC : good_env C st nb).
Context (Φ : list func) (sigs : list (list vty)) (N : nat).
Context (HΦ : funcs_compile C st nb sigs N Φ).
Notation view := (view (fun x => x < N)).
Notation fmeans := (fmeans C eqf ltf Φ).
Notation call := (call Φ N).

Lemma view_exists ρ σ : (forall x y, x < N -> y < N -> ρ x = ρ y -> x = y) -> exists σ0, view ρ σ σ0.
Proof.
  intros Hi. exists (omap id (list_to_map ((fun x => (x, (σ : gmap name aval) !! ρ x)) <$> seq 0 N) : gmap name (option aval))).
  assert (Hl : forall x, (omap id (list_to_map ((fun x => (x, (σ : gmap name aval) !! ρ x)) <$> seq 0 N) : gmap name (option aval)) : gmap name aval) !! x =
    match decide (x < N) with left _ => (σ : gmap name aval) !! ρ x | right _ => None end).
  { intros x. rewrite lookup_omap. case_decide as Hx.
    - rewrite (elem_of_list_to_map_1 _ x ((σ : gmap name aval) !! ρ x)); [done| |].
      + rewrite -list_fmap_compose. simpl. rewrite list_fmap_id. apply NoDup_ListNoDup, seq_NoDup.
      + apply elem_of_list_fmap. exists x. split; [done|]. apply elem_of_seq. lia.
    - rewrite not_elem_of_list_to_map_1; [done|]. rewrite -list_fmap_compose. simpl. rewrite list_fmap_id. intros Hin. apply elem_of_seq in Hin. lia. }
  unfold astate in *. split; [..|done].
  - intros x Hx. by rewrite Hl decide_True.
  - intros x Hx. rewrite Hl in Hx. case_decide; [done|]. by destruct Hx.
Qed.
Lemma view_open ρ σ σ0 x (rs : list name) (αs : list aval) : view ρ σ σ0 -> x < N -> NoDup rs -> (forall r, r ∈ rs -> r < N) ->
  view ρ (list_to_map (zip (map ρ rs) αs) ∪ delete (ρ x) σ) (list_to_map (zip rs αs) ∪ delete x σ0).
Proof.
  intros V Hx Hnd Hrs. destruct (view_delete (fun x => x < N) ρ σ σ0 x V Hx) as [Ha Hd Hi]. unfold astate in *. split; [..|done].
  - intros y Hy. destruct ((list_to_map (zip rs αs) : gmap name aval) !! y) as [α|] eqn:E.
    + rewrite (lookup_union_Some_l _ _ _ _ E). symmetry. apply lookup_union_Some_l.
      apply elem_of_list_to_map_2 in E. apply elem_of_list_to_map_1.
      * apply zip_fst_nodup. apply NoDup_fmap_2_strong; [|done]. intros a b Hia Hib. apply Hi; by apply Hrs.
      * rewrite zip_map_l. apply elem_of_list_fmap. by exists (y, α).
    + rewrite lookup_union_r // lookup_union_r; [by apply Ha|]. apply not_elem_of_list_to_map_1. intros Hin.
      apply not_elem_of_list_to_map_2 in E. apply E. rewrite zip_map_l -list_fmap_compose in Hin. apply elem_of_list_fmap in Hin as ([r α]&He&Hin).
      simpl in He. apply elem_of_list_fmap. exists (r, α). split; [|done]. simpl. apply Hi; [done|apply Hrs; by eapply elem_of_zip_l|done].
  - intros y [α Hy]. apply lookup_union_Some_raw in Hy as [Hy|[_ Hy]].
    + apply elem_of_list_to_map_2 in Hy. apply Hrs. by eapply elem_of_zip_l.
    + apply Hd. by eexists.
Qed.
Lemma view_close ρ σ σ0 (rs : list name) : view ρ σ σ0 -> (forall r, r ∈ rs -> r < N) -> view ρ (foldr delete σ (map ρ rs)) (foldr delete σ0 rs).
Proof.
  intros V. induction rs as [|r rs IH]; intros Hrs; [done|]. simpl. apply view_delete; [|apply Hrs; by left]. apply IH. intros. apply Hrs. by right.
Qed.

Lemma means_calls : forall d p lev ρ Γ0 T0 Γ T σ σ0 r σ', sim N lev ρ Γ0 T0 Γ T -> (forall x, fmentions p x -> x < N) ->
  fcompiles C st nb sigs Γ0 T0 p -> fits Γ σ -> view ρ σ σ0 -> means C eqf ltf (expand (call d lev) ρ p) σ r σ' ->
  exists σ0', fmeans p σ0 r σ0' /\ view ρ σ' σ0'.
Proof.
  induction d as [d IHd] using lt_wf_ind.
  induction p as [|c|c p IH|p IHp q IHq|p IHp q IHq|x rs ps IH|x ps IH|x y p IH|f xs];
    intros lev ρ Γ0 T0 Γ T σ σ0 r σ' Hsim Htxt Hc F V Hm.
  all: assert (Hcomp : compiles C st nb Γ T (expand (call d lev) ρ _)) by
    (eapply (expand_compiles C st nb Φ sigs N HΦ lev); [exact (call_compiles C st nb Φ sigs N HΦ d lev)|exact Hsim|exact Htxt|exact Hc]).
  all: cbn [expand] in Hm, Hcomp.
  - inversion Hm; subst. exists σ0. split; [constructor|done].
  - inversion Hm as [|c' σ1 o σ2 Hs| | | | | | | | | | |]; subst.
    destruct (vstep_ren C eqf ltf N ρ σ σ0 c o σ') as (σ0'&V'&Hs'); [done..|by eapply checks_plain|done|].
    exists σ0'. split; [by constructor|done].
  - destruct Hc as (x&t&Hd&Hx&HxT&Hp). assert (Hlt : x < N). { apply Htxt. left. destruct c as [[]| | | | |]; simpl in Hd; try done; destruct Hd as [-> _]; simpl; set_solver. }
    assert (Hd' : declaration C st nb Γ (ren ρ c) (ρ x) t).
    { eapply decl_ren; [|exact Hd]. intros y t' Hy. by eapply (s_var _ _ _ _ _ _ _ Hsim). }
    destruct (s_new _ _ _ _ _ _ _ Hsim x Hlt Hx HxT) as [H1 H2].
    inversion Hm as [| |c' p' σ1 e σ2 Hb|c' p' x' σ1 o σ2 r' σ3 Hx' Hs Ho Hm'| | | | | | | | |]; subst.
    + destruct (vstep_ren C eqf ltf N ρ σ σ0 c (OThrew e) σ') as (σ0'&V'&Hs'); [done|by intros; apply Htxt; left|exact (decl_plain C st nb _ _ _ _ Hd)|done|].
      exists σ0'. split; [by constructor|done].
    + rewrite (decl_declares C st nb _ _ _ _ Hd') in Hx'. injection Hx' as <-.
      destruct (vstep_ren C eqf ltf N ρ σ σ0 c o σ2) as (σ01&V'&Hs'); [done|by intros; apply Htxt; left|exact (decl_plain C st nb _ _ _ _ Hd)|done|].
      destruct (IH lev ρ (<[x:=t]> Γ0) T0 (<[ρ x:=t]> Γ) T σ2 σ01 r σ3) as (σ02&Hf&V2); [by apply sim_let|by intros; apply Htxt; right|done|by eapply decl_fits|done|done|].
      exists (delete x σ02). split; [|by apply (view_delete (fun x => x < N))]. eapply f_let; [by eapply decl_declares|exact Hs'|done|done].
  - destruct Hc as [Hcp Hcq], Hcomp as [Hkp Hkq]. inversion Hm as [| | | |p' q' σ1 e σ2 H1|p' q' σ1 σ2 r' σ3 H1 H2| | | | | | |]; subst.
    + destruct (IHp lev ρ Γ0 T0 Γ T σ σ0 (Some e) σ') as (σ01&Hf&V1); [done|by intros; apply Htxt; left|done..|]. exists σ01. split; [by apply f_seq_bad|done].
    + destruct (IHp lev ρ Γ0 T0 Γ T σ σ0 None σ2) as (σ01&Hf&V1); [done|by intros; apply Htxt; left|done..|].
      destruct (IHq lev ρ Γ0 T0 Γ T σ2 σ01 r σ') as (σ02&Hf2&V2); [done|by intros; apply Htxt; right|done|exact (means_fits C st nb eqf ltf _ _ _ _ _ _ Hkp F H1)|done|done|].
      exists σ02. split; [by eapply f_seq|done].
  - destruct Hc as [Hcp Hcq], Hcomp as [Hkp Hkq]. inversion Hm as [| | | | | |p' q' σ1 σ2 H1|p' q' σ1 e σ2 r' σ3 H1 H2| | | | |]; subst.
    + destruct (IHp lev ρ Γ0 T0 Γ T σ σ0 None σ') as (σ01&Hf&V1); [done|by intros; apply Htxt; left|done..|]. exists σ01. split; [by apply f_try|done].
    + destruct (IHp lev ρ Γ0 T0 Γ T σ σ0 (Some e) σ2) as (σ01&Hf&V1); [done|by intros; apply Htxt; left|done..|].
      destruct (IHq lev ρ Γ0 T0 Γ T σ2 σ01 r σ') as (σ02&Hf2&V2); [done|by intros; apply Htxt; right|done|exact (means_fits C st nb eqf ltf _ _ _ _ _ _ Hkp F H1)|done|done|].
      exists σ02. split; [by eapply f_catch|done].
  - destruct Hc as (tys&Hx&Hps). destruct (s_var _ _ _ _ _ _ _ Hsim _ _ Hx) as [HxN HxΓ].
    inversion Hm as [| | | | | | | |x' rs' ps' σ1 tys' bi z ks u r' σ2 ks' Hv Hh Hm' Hall| | | |]; subst.
    pose proof (F _ _ Hv) as Hx'. simpl in Hx'. unfold ctx in *. rewrite HxΓ in Hx'. injection Hx' as <-.
    pose proof Hh as (t&Ht&Hu). destruct (Hps t) as (Hnd&Hlr&Hun&Hp); [by eapply elem_of_list_lookup_2|]. rewrite Hu in Hnd, Hlr, Hun, Hp.
    assert (Hrs : forall r, r ∈ rs u -> r < N) by (intros r0 Hin; apply Htxt; right; exists u; by left).
    assert (Hun' : forall r, r ∈ map ρ (rs u) -> Γ !! r = None).
    { intros r0 Hin. apply elem_of_list_fmap in Hin as (r'&->&Hin). destruct (Hun r' Hin) as [H1 H2].
      by apply (s_new _ _ _ _ _ _ _ Hsim r' (Hrs r' Hin) H1 H2). }
    assert (Hnd' : NoDup (map ρ (rs u))).
    { apply NoDup_fmap_2_strong; [|done]. intros a' b' Ha Hb. apply (s_inj _ _ _ _ _ _ _ Hsim); by apply Hrs. }
    edestruct (IH u lev ρ) as (σ02&Hf&V2); [| |exact Hp| | |exact Hm'|].
    + apply (sim_visit C st nb Φ sigs N HΦ) with (Γ0 := Γ0) (x := x) (T0 := T0) (rs := rs u) (ts := TVar <$> ut_members (te C u)); [exact Hsim|done|by eexists|done|by rewrite fmap_length|].
      intros r0 Hin. split; [by apply Hrs|]. by apply Hun.
    + intros y Hy. apply Htxt. right. exists u. by right.
    + apply fits_refs; [done|done|by rewrite map_length|done].
    + by apply view_open.
    + exists (<[x := AVar tys (bi, UV z ks')]> (foldr delete σ02 (rs u))). split.
      * eapply f_visit; [by eapply (view_var (fun x => x < N))|done|exact Hf|]. eapply (view_vars (fun x => x < N)); [exact V2|done|done].
      * apply (view_insert (fun x => x < N)); [|done]. by apply view_close.
  - destruct Hc as (tys&Hx&Hps). destruct (s_var _ _ _ _ _ _ _ Hsim _ _ Hx) as [HxN HxΓ].
    inversion Hm as [| | | | | | | | |x' ps' σ1 tys' k u r' σ2 Hv Hh Hm'| | |]; subst.
    pose proof (F _ _ Hv) as Hx'. simpl in Hx'. unfold ctx in *. rewrite HxΓ in Hx'. injection Hx' as <-.
    pose proof Hh as (t&Ht&Hu). destruct (IH u lev ρ Γ0 T0 Γ T σ σ0 r σ') as (σ02&Hf&V2); [done| |rewrite -Hu; apply Hps; by eapply elem_of_list_lookup_2|done|done|done|].
    { intros y Hy. apply Htxt. right. by exists u. }
    exists σ02. split; [|done]. eapply f_switch; [by eapply (view_var (fun x => x < N))|done|done].
  - destruct Hc as [Hxy Hp], Hcomp as [Hxy' Hp'].
    assert (Heq : forall σ σ0 o σ', view ρ σ σ0 -> vstep C eqf ltf σ (RMain (CEq (ρ x) (ρ y))) o σ' -> exists σ0', view ρ σ' σ0' /\ vstep C eqf ltf σ0 (RMain (CEq x y)) o σ0').
    { intros s s0 o s' V1 H1. eapply (vstep_ren C eqf ltf N ρ s s0 (RMain (CEq x y))); [done| |done|done].
      intros w Hw. apply Htxt. simpl in *. rewrite !elem_of_cons elem_of_nil in Hw. tauto. }
    assert (Htp : forall x, fmentions p x -> x < N) by (intros; apply Htxt; simpl; tauto).
    remember (PWhile (ρ x) (ρ y) (expand (call d lev) ρ p)) as q eqn:Hq. revert σ0 Hq F V.
    induction Hm as [| | | | | | | | | |x' y' p' σ o σ' Hs Ho|x' y' p' σ σ1 e σ' Hs Hm|x' y' p' σ σ1 σ2 r σ' Hs Hm _ Hm2 IH2]; intros σ0 Hq F V; try done; injection Hq as -> -> ->.
    + destruct (Heq _ _ _ _ V Hs) as (σ01&V1&H1). exists σ01. split; [by apply f_while_end|done].
    + destruct (Heq _ _ _ _ V Hs) as (σ01&V1&H1).
      destruct (IH lev ρ Γ0 T0 Γ T σ1 σ01 (Some e) σ') as (σ02&Hf&V2); [done..|exact (checks_fits C eqf ltf Γ _ (RMain (CEq (ρ x) (ρ y))) _ _ Hxy' F Hs)|done|done|].
      exists σ02. split; [by eapply f_while_bad|done].
    + destruct (Heq _ _ _ _ V Hs) as (σ01&V1&H1). assert (F1 : fits Γ σ1) by exact (checks_fits C eqf ltf Γ _ (RMain (CEq (ρ x) (ρ y))) _ _ Hxy' F Hs).
      destruct (IH lev ρ Γ0 T0 Γ T σ1 σ01 None σ2) as (σ02&Hf&V2); [done..|].
      destruct (IH2 σ02) as (σ03&Hf3&V3); [done|exact (means_fits C st nb eqf ltf _ _ _ _ _ _ Hp' F1 Hm)|done|].
      exists σ03. split; [by eapply f_while|done].
  - destruct d as [|d]; [by inversion Hm|]. pose proof Hm as Hm0. cbn [Calls.call] in Hm. destruct Hc as (ts&Hf&Hnd&Hxs).
    destruct (funcs_lookup C st nb Φ sigs N HΦ f ts Hf) as (F0&HF&Hnp&Hlen&Htx&Hb). rewrite HF in Hm.
    set (ps := fn_params F0) in *. set (xs' := map ρ xs) in *.
    assert (Hlen2 : length ps = length xs') by (unfold xs'; rewrite Hlen map_length; symmetry; by eapply Forall2_length).
    assert (Hsim' : sim N (S lev) (binding N lev ps xs') (list_to_map (zip ps ts)) ∅ Γ T).
    { apply sim_call; try done.
      - intros y Hy. apply Htx. by left.
      - apply NoDup_fmap_2_strong; [|done]. intros a b Ha Hb'. apply (s_inj _ _ _ _ _ _ _ Hsim); by apply Htxt.
      - apply Forall2_fmap_l. eapply Forall2_impl; [exact Hxs|]. simpl. intros a t Ha. by eapply (s_var _ _ _ _ _ _ _ Hsim).
      - intros z Hz. apply elem_of_list_fmap in Hz as (a&->&Ha). apply (s_lt _ _ _ _ _ _ _ Hsim). by apply Htxt.
      - apply (s_fresh _ _ _ _ _ _ _ Hsim). }
    destruct (view_exists (binding N lev ps xs') σ (s_inj _ _ _ _ _ _ _ Hsim')) as [σc Vc].
    destruct (IHd d ltac:(lia) (fn_body F0) (S lev) _ _ ∅ Γ T σ σc r σ' Hsim') as (σ1&Hf1&V1); [by intros; apply Htx; right|exact Hb|done|done|exact Hm|].
    destruct (view_exists ρ σ' (s_inj _ _ _ _ _ _ _ Hsim)) as [σ0' V'].
    assert (Hpar : forall y x, (y, x) ∈ zip ps xs -> y < N /\ x < N /\ binding N lev ps xs' y = ρ x).
    { intros y x Hin. split; [apply Htx; left; by eapply elem_of_zip_l|]. split; [apply Htxt; by eapply elem_of_zip_r|].
      apply binding_param; [done|done|]. apply elem_of_list_lookup in Hin as [i Hi]. apply lookup_zip_with_Some in Hi as (y'&x'&[= <- <-]&Hy&Hx).
      apply elem_of_list_lookup_2 with i. apply lookup_zip_with_Some. exists y, (ρ x). split; [done|]. split; [done|]. unfold xs'. by rewrite list_lookup_fmap Hx. }
    exists σ0'. split; [|done]. eapply f_call; [exact HF|..|exact (Called C eqf ltf Φ f _ _ _ F0 HF Hf1)| |].
    + intros y x Hin. destruct (Hpar y x Hin) as (HyN&HxN&He). rewrite (v_at _ _ _ _ Vc y HyN) (v_at _ _ _ _ V x HxN). by rewrite He.
    + intros y Hy. destruct (σc !! y) as [α|] eqn:E; [|done]. exfalso. assert (HyN : y < N) by (eapply (v_dom _ _ _ _ Vc); by eexists).
      rewrite (v_at _ _ _ _ Vc y HyN) in E. apply F in E. destruct (binding_cases N lev ps xs' y Hnp Hlen2) as [[Hin _]|[_ He]]; [done|].
      rewrite He in E. destruct (s_fresh _ _ _ _ _ _ _ Hsim (y + N * S lev)) as [Hnone _]; [lia|]. pose proof (eq_trans (eq_sym E) Hnone). done.
    + intros y x Hin. destruct (Hpar y x Hin) as (HyN&HxN&He). rewrite (v_at _ _ _ _ V1 y HyN) (v_at _ _ _ _ V' x HxN). by rewrite He.
    + intros z Hz. destruct (decide (z < N)) as [HzN|HzN].
      * rewrite (v_at _ _ _ _ V z HzN) (v_at _ _ _ _ V' z HzN). eapply (means_other C st nb eqf ltf HC); [exact Hm0|]. intros Hmen.
        apply call_mentions in Hmen as [Hin|Hge].
        -- apply elem_of_list_fmap in Hin as (x&He&Hin). apply (s_inj _ _ _ _ _ _ _ Hsim) in He; [by subst|done|by apply Htxt].
        -- pose proof (s_lt _ _ _ _ _ _ _ Hsim z HzN). lia.
      * destruct (σ0' !! z) eqn:E1; [destruct HzN; eapply (v_dom _ _ _ _ V'); by eexists|].
        destruct (σ0 !! z) eqn:E2; [destruct HzN; eapply (v_dom _ _ _ _ V); by eexists|]. done.
Qed.
End calls.

(** ** Runs *)
Section program.
Context (C : cfg) (st : bool) (eqf ltf : uid -> uval -> uval -> bool) (HC : good_env C st true).
Context (Φ : list func) (sigs : list (list vty)) (N : nat) (HΦ : funcs_compile C st true sigs N Φ).
Notation rreached := (rreached C st true eqf ltf).
Notation types := (fmap bnd_ty).

Lemma shows_fits m E σ : shows C m E σ -> fits (types E) σ.
Proof.
  intros Hs x α Hx. specialize (Hs x). unfold env, astate, ctx in *. rewrite Hx in Hs. rewrite lookup_fmap.
  destruct (E !! x) as [[tys a|u a]|], α; try done; destruct Hs as [-> _]; done.
Qed.
Lemma shows_dom m E σ x : shows C m E σ -> is_Some (σ !! x) -> is_Some (E !! x).
Proof. intros Hs [α Hx]. specialize (Hs x). unfold env, astate in *. rewrite Hx in Hs. by destruct (E !! x) as [[]|], α. Qed.

Lemma unrolled_means d p (E : env) (K : kenv) m m' σ r σ' :
  (forall x, is_Some (E !! x) \/ is_Some (K !! x) \/ fmentions p x -> x < N) ->
  fcompiles C st true sigs (types E) (dom K) p -> shows C m E σ -> shows C m' E σ' ->
  means C eqf ltf (unroll Φ N d p) σ r σ' -> fmeans C eqf ltf Φ p σ r σ'.
Proof.
  intros HN Hc Hs Hs' Hm.
  assert (Hv : forall m σ, shows C m E σ -> view (fun x => x < N) id σ σ).
  { intros m0 σ2 H. split; [done| |done]. intros x Hx. apply HN. left. by eapply shows_dom. }
  destruct (means_calls C st true eqf ltf HC Φ sigs N HΦ d p 0 id (types E) (dom K) (types E) (dom K) σ σ r σ') as (σ0&Hf&Hw).
  - apply sim_start. intros x [Hx|Hx]; apply HN; [left|right; left; by apply elem_of_dom].
    unfold env, ctx in *. by rewrite lookup_fmap fmap_is_Some in Hx.
  - auto.
  - done.
  - by eapply shows_fits.
  - by eapply Hv.
  - done.
  - unfold astate in *. replace σ' with σ0; [done|]. apply map_eq. intros x. destruct (decide (x < N)) as [Hx|Hx]; [by rewrite (v_at _ _ _ _ Hw x Hx)|].
    assert (E0 : σ0 !! x = None). { apply eq_None_not_Some. intros Hx'. by apply Hx, (v_dom _ _ _ _ Hw). }
    rewrite E0. destruct (σ' !! x) eqn:E1; [|done]. destruct Hx. apply HN. left. eapply shows_dom; [exact Hs'|]. by eexists.
Qed.
Lemma program_meaning p (E : env) (K : kenv) s d n m σ κ :
  (forall x, is_Some (E !! x) \/ is_Some (K !! x) \/ fmentions p x -> x < N) ->
  fcompiles C st true sigs (types E) (dom K) p -> rreached E K s -> shows C (mem s) E σ -> kshows (mem s) K κ ->
  match prun C n m eqf ltf (unroll Φ N d p) E K s with
  | PRet E' K' s' => E' = E /\ K' = K /\
      exists σ', shows C (mem s') E σ' /\ kshows (mem s') K κ /\ fmeans C eqf ltf Φ p σ None σ'
  | PExn e E' K' s' => E' = E /\ K' = K /\
      exists σ', shows C (mem s') E σ' /\ kshows (mem s') K κ /\ fmeans C eqf ltf Φ p σ (Some e) σ'
  | _ => True
  end.
Proof.
  intros HN Hc Hr Hs Hk.
  pose proof (runs C st true eqf ltf HC eq_refl (unroll Φ N d p) E K s n m σ κ (program_compiles C st Φ sigs N HΦ d p E K HN Hc) Hr Hs Hk) as H.
  destruct (prun C n m eqf ltf (unroll Φ N d p) E K s); try done;
    destruct H as (->&->&σ'&Hs'&Hk'&Hm); (split; [done|]; split; [done|]; exists σ'; split; [done|]; split; [done|]);
    by eapply unrolled_means.
Qed.
End program.

(** ** Values that are seen have the members that their types have. *)
Lemma see_shaped C m n : forall u o v, see_obj C m n u o = Some v -> clean v = true -> shaped C false true v u.
Proof.
  induction n as [|n IH]; [done|]. intros u o v. simpl. destruct o as [u' z ls| | | |]; try done.
  destruct (decide (u' = u)) as [->|]; [|done]. destruct (see_all _ _ _) as [ks|] eqn:Ek; [|done]. intros [= <-] Hcl.
  apply shaped_unfold. split; [done|]. simpl in Hcl. revert ls ks Ek Hcl. induction (ut_members (te C u)) as [|tys mems IHm]; intros [|l ls] ks; simpl; try done.
  { intros [= <-] _. constructor. }
  destruct (see_var _ _ _ _) as [k|] eqn:E1; [|done]. destruct (see_all _ _ _) as [ks'|] eqn:E2; [|done]. intros [= <-]. simpl.
  intros Hcl. apply andb_true_iff in Hcl as [Hk Hks]. constructor; [|by eapply IHm].
  unfold see_var in E1. destruct (m !! l) as [[[] [o1|] [w|]]|]; try done. cbv zeta in E1.
  destruct (tys !! _) as [t|] eqn:Et; [|done].
  match type of E1 with match ?X with _ => _ end = _ => destruct X as [o2|]; [|done] end.
  match type of E1 with match ?X with _ => _ end = _ => destruct X as [o3|]; [|done] end.
  destruct (see_obj C m n (ity_uid t) o3) as [v|] eqn:Ev; [|done]. injection E1 as <-. simpl in Hk. apply andb_true_iff in Hk as [Hb Hv].
  exists t. split; [exact Et|]. split; [by eapply IH|]. simpl in *. intros Hb'. rewrite Hb' in Hb. done.
Qed.
Lemma seen_shaped C m tys a k : var_holds C m tys a k -> cleanv k = true -> shapedv C false true tys k.
Proof.
  intros [n E1] Hcl. unfold see_var in E1. destruct (m !! a) as [[[] [o1|] [w|]]|]; try done. cbv zeta in E1.
  destruct (tys !! _) as [t|] eqn:Et; [|done].
  match type of E1 with match ?X with _ => _ end = _ => destruct X as [o2|]; [|done] end.
  match type of E1 with match ?X with _ => _ end = _ => destruct X as [o3|]; [|done] end.
  destruct (see_obj C m n (ity_uid t) o3) as [v|] eqn:Ev; [|done]. injection E1 as <-. unfold cleanv in Hcl. simpl in Hcl. apply andb_true_iff in Hcl as [Hb Hv].
  exists t. split; [exact Et|]. split; [by eapply see_shaped|]. simpl in *. intros Hb'. rewrite Hb' in Hb. done.
Qed.

(** ** Mirroring *)
Section mirror.
Context (C : cfg) (eqf ltf : uid -> uval -> uval -> bool) (u : uid) (tys : list ity).
Context (Hu : ut_members (te C u) = [tys; tys]).
Context (Ho : forall t, t ∈ tys -> ity_uid t <> u -> ut_members (te C (ity_uid t)) = []).
Notation Φ := [mirror_func u].
Notation fmeans := (fmeans C eqf ltf Φ).

Lemma mirror_clean v : clean v = true -> clean (mirror_image v) = true.
Proof.
  induction v as [z ks IH] using uval_ind'. destruct ks as [|ka [|kb [|? ?]]]; try done. simpl.
  apply Forall_cons_1 in IH as [Ia IH]. apply Forall_cons_1 in IH as [Ib _].
  intros H. apply andb_true_iff in H as [Ha H]. apply andb_true_iff in H as [Hb _]. apply andb_true_iff in Ha as [Ha1 Ha2]. apply andb_true_iff in Hb as [Hb1 Hb2].
  simpl. by rewrite Ha1 Hb1 (Ia Ha2) (Ib Hb2).
Qed.

Lemma call_inv x σ r σ' : fmeans (FCall 0 [x]) σ r σ' -> exists σ0 σ1, σ0 !! 1 = σ !! x /\ (forall y, y <> 1 -> σ0 !! y = None) /\
  fmeans (fn_body (mirror_func u)) σ0 r σ1 /\ σ' !! x = σ1 !! 1 /\ forall z, z <> x -> σ' !! z = σ !! z.
Proof.
  intros H. inversion H as [| | | | | | | | | | | | |f F xs σ2 r2 σ0 σ1 σ3 Hf H1 H2 [F' Hf' H3] H4 H5]; subst.
  simpl in Hf, Hf'. injection Hf as <-. injection Hf' as <-. exists σ0, σ1. simpl in *. split; [apply H1; set_solver|].
  split; [intros y Hy; apply H2; set_solver|]. split; [done|]. split; [apply H4; set_solver|]. intros z Hz. apply H5. set_solver.
Qed.
Lemma call_other x σ r σ' z : fmeans (FCall 0 [x]) σ r σ' -> z <> x -> σ' !! z = σ !! z.
Proof. intros H. destruct (call_inv _ _ _ _ H) as (?&?&_&_&_&_&Hz). apply Hz. Qed.

Lemma first_of (a b : aval) (σ : astate) : ((list_to_map (zip [30; 31] [a; b]) : astate) ∪ σ) !! 30 = Some a.
Proof. unfold astate in *. apply lookup_union_Some_l. apply lookup_insert. Qed.
Lemma second_of (a b : aval) (σ : astate) : ((list_to_map (zip [30; 31] [a; b]) : astate) ∪ σ) !! 31 = Some b.
Proof. unfold astate in *. apply lookup_union_Some_l. simpl. rewrite lookup_insert_ne; [|done]. apply lookup_insert. Qed.
Lemma v_swap σ x y o σ' : x <> y -> vstep C eqf ltf σ (RMain (CSwap x y)) o σ' -> ending o = None ->
  exists tys k1 k2 ka kb, is_var σ x tys k1 /\ is_var σ y tys k2 /\ swapped k1 k2 ka kb /\ σ' = <[x := AVar tys ka]> (<[y := AVar tys kb]> σ).
Proof.
  intros Hne H He. inversion H as [c o' σ0 Ha| | | | | | | | | |]; subst. inversion Ha; subst; try done. eauto 12.
Qed.

Lemma mirrored v : forall bi x σ σ', σ !! x = Some (AVar tys (bi, v)) -> shapedv C false true tys (bi, v) ->
  fmeans (FCall 0 [x]) σ None σ' -> σ' !! x = Some (AVar tys (bi, mirror_image v)).
Proof.
  induction v as [z ks IH] using uval_ind'. intros bi x σ σ' Hx Hsh Hm. pose proof (shapedv_clean _ _ _ _ Hsh) as Hcl.
  destruct (call_inv _ _ _ _ Hm) as (σ0&σ1&H0&Hn&Hb&H1&_). rewrite Hx in H0. clear Hm Hx.
  rewrite H1. clear H1 σ' σ x. simpl in Hb.
  inversion Hb as [| | | | | | | |x' rs ps σ2 tys' bi' z' ks1 u' r σ3 ks' Hv Hh Hp Hf| | | | |]; subst. clear Hb.
  unfold is_var, astate in *. rewrite H0 in Hv. injection Hv as <- <- <- <-. rewrite lookup_insert. do 2 f_equal.
  destruct Hsh as (t&Ht&Hs&_). destruct Hh as (t'&Ht'&<-). simpl in Ht, Ht'. rewrite Ht in Ht'. injection Ht' as <-.
  simpl in Hs. apply shaped_unfold in Hs as [_ Hs].
  destruct (decide (ity_uid t = u)) as [Heq|Hne].
  - rewrite -> Heq in *. clear Heq. rewrite -> Hu in Hs, Hp. destruct (Forall2_cons_inv_l _ _ _ _ Hs) as (ka&ks2&Ha&Hs2&->).
    destruct (Forall2_cons_inv_l _ _ _ _ Hs2) as (kb&ks3&Hb&Hs3&->). apply Forall2_nil_inv_l in Hs3 as ->.
    apply Forall_cons_1 in IH as [IHa IH]. apply Forall_cons_1 in IH as [IHb _].
    destruct (Forall2_cons_inv_l _ _ _ _ Hf) as (ka'&ks2&[ta Hka]&Hf2&->).
    destruct (Forall2_cons_inv_l _ _ _ _ Hf2) as (kb'&ks3&[tb Hkb]&Hf3&->). apply Forall2_nil_inv_l in Hf3 as ->.
    clear Hf Hf2 Hs Hs2. simpl in Hp.
    inversion Hp as [| | | | |p q σ4 σ5 r σ6 Hp1 Hp2| | | | | | | |]; subst. clear Hp.
    inversion Hp2 as [| | | | |p q σ4 σ6 r σ7 Hp3 Hp4| | | | | | | |]; subst. clear Hp2.
    assert (Hd : exists o, vstep C eqf ltf σ6 (RMain (CSwap 30 31)) o σ3 /\ ending o = None) by (inversion Hp4; subst; eauto).
    destruct Hd as (o&Hst&Ho'). clear Hp4.
    destruct ka as [bia va], kb as [bib vb].
    assert (E1 : σ5 !! 30 = Some (AVar tys (bia, mirror_image va))).
    { eapply (IHa bia 30); [|exact Ha|exact Hp1]. apply first_of. }
    assert (E2 : σ5 !! 31 = Some (AVar tys (bib, vb))).
    { rewrite (call_other _ _ _ _ 31 Hp1); [|done]. apply second_of. }
    assert (E3 : σ6 !! 30 = Some (AVar tys (bia, mirror_image va))) by (by rewrite (call_other _ _ _ _ 30 Hp3)).
    assert (E4 : σ6 !! 31 = Some (AVar tys (bib, mirror_image vb))) by (by eapply (IHb bib 31)).
    destruct (v_swap _ 30 31 _ _ ltac:(done) Hst Ho') as (ts&k1&k2&ka&kb&Hk1&Hk2&Hsw&->). unfold is_var in *.
    rewrite E3 in Hk1. rewrite E4 in Hk2. injection Hk1 as <- <-. injection Hk2 as <-.
    rewrite lookup_insert in Hka. rewrite lookup_insert_ne in Hkb; [|done]. rewrite lookup_insert in Hkb. injection Hka as _ <-. injection Hkb as _ <-.
    apply shapedv_clean in Ha. apply shapedv_clean in Hb. unfold cleanv in Ha, Hb. simpl in Ha, Hb.
    apply andb_true_iff in Ha as [Ha1 Ha2]. apply andb_true_iff in Hb as [Hb1 Hb2]. apply mirror_clean in Ha2, Hb2.
    destruct bia as [[] ia]; [done|]. destruct bib as [[] ib]; [done|]. simpl. f_equal.
    destruct Hsw as [Hw1 Hw2]. simpl in Hw1, Hw2. destruct (decide (ia = ib)) as [->|Hn'].
    + destruct (Hw1 eq_refl) as [-> ->]. by rewrite (clean_erase_id _ Ha2).
    + destruct (Hw2 Hn') as [-> ->]. unfold erasev. simpl. by rewrite (clean_erase_id _ Hb2).
  - rewrite (Ho t) in Hs; [|by eapply elem_of_list_lookup_2|done]. apply Forall2_nil_inv_l in Hs as ->. apply Forall2_nil_inv_l in Hf as ->. done.
Qed.

(** It compiles, and is structurally recursive. *)
Lemma two (r a b : name) : r ∈ [a; b] -> r = a \/ r = b.
Proof. rewrite !elem_of_cons elem_of_nil. tauto. Qed.
Lemma mirror_below x : x ∈ fn_params (mirror_func u) \/ fmentions (fn_body (mirror_func u)) x -> x < 32.
Proof.
  simpl. intros [H|[->|(u'&H)]]; [apply elem_of_list_singleton in H; lia|lia|]. destruct (decide (u' = u)).
  - destruct H as [H|[H|[H|H]]]; [apply two in H|apply elem_of_list_singleton in H..|apply two in H]; lia.
  - by destruct H as [H|H]; [inversion H|].
Qed.
Lemma mirror_types st N : 32 <= N -> funcs_compile C st true [[TVar tys]] N Φ.
Proof.
  intros HN. constructor; [|constructor]. split; [apply NoDup_singleton|]. split; [done|]. split.
  { intros x Hx. apply mirror_below in Hx. lia. }
  exists tys. split; [by vm_compute|]. intros t Ht. cbv zeta. destruct (decide (ity_uid t = u)) as [Heq|Hne].
  - rewrite Heq Hu. split; [apply (bool_decide_unpack _); by vm_compute|]. split; [done|]. split.
    { intros r Hr. apply two in Hr as [->| ->]; (split; [by vm_compute|apply (bool_decide_unpack _); by vm_compute]). }
    split; [|split].
    + exists [TVar tys]. split; [done|]. split; [apply NoDup_singleton|]. constructor; [by vm_compute|constructor].
    + exists [TVar tys]. split; [done|]. split; [apply NoDup_singleton|]. constructor; [by vm_compute|constructor].
    + exists tys. split; by vm_compute.
  - rewrite (Ho t) //. split; [constructor|]. split; [done|]. split; [by inversion 1|done].
Qed.
Lemma mirror_structure : Forall structural_func Φ.
Proof.
  constructor; [|constructor]. intros u'. cbv zeta. destruct (decide (u' = u)) as [->|]; [|done].
  match goal with |- context [decide (?x ∈ ?A ∪ ?B)] => destruct (decide (x ∈ A ∪ B)) as [_|Hn] end; [|destruct Hn; set_solver]. split.
  - exists 30, []. split; [done|]. set_solver.
  - exists {[30]}. split; [intros x H; apply elem_of_list_singleton in H; set_solver|]. split.
    + exists 31, []. split; [done|]. set_solver.
    + exists {[31]}. split; [|done]. intros x H; apply elem_of_list_singleton in H; set_solver.
Qed.

Context (st : bool) (HC : good_env C st true).
Lemma mirror_runs N (E : env) (K : kenv) s x k d m : 32 <= N ->
  (forall y, is_Some (E !! y) \/ is_Some (K !! y) -> y < N) -> rreached C st true eqf ltf E K s ->
  sees C E s x tys k -> udepth k.2 < d ->
  exists s', rreached C st true eqf ltf E K s' /\
    (forall y tys' k', y <> x -> sees C E s y tys' k' -> sees C E s' y tys' k') /\
    (forall y u' v', sees_obj C E s y u' v' -> sees_obj C E s' y u' v') /\
    ((proceeds C eqf ltf (unroll Φ N d (FCall 0 [x])) m E K s (PRet E K s') /\ sees C E s' x tys (k.1, mirror_image k.2)) \/
     exists e, proceeds C eqf ltf (unroll Φ N d (FCall 0 [x])) m E K s (PExn e E K s')).
Proof.
  intros HN HNE Hr Hx Hd.
  destruct Hx as (a&Hx&Hk).
  assert (HΓ : (bnd_ty <$> E : ctx) !! x = Some (TVar tys)). { unfold env, ctx in *. by rewrite lookup_fmap Hx. }
  assert (Hc : fcompiles C st true [[TVar tys]] (bnd_ty <$> E) (dom K) (FCall 0 [x])).
  { exists [TVar tys]. split; [done|]. split; [apply NoDup_singleton|]. by constructor. }
  assert (Hall : forall z, is_Some (E !! z) \/ is_Some (K !! z) \/ z ∈ [x] -> z < N).
  { intros z [Hz|[Hz|Hz]]; [auto..|]. apply elem_of_list_singleton in Hz as ->. apply HNE. left. by eexists. }
  pose proof (mirror_types st N HN) as HΦ.
  destruct (looks C st true eqf ltf HC _ _ _ Hr) as (σ&κ&Hs&Hκ&_&_&_&_&Hcl&_).
  destruct (program_sound C st eqf ltf HC Φ _ N HΦ (FCall 0 [x]) E K s d m Hall Hc Hr) as (r&[n0 Hp]&Hfine).
  pose proof (Hp n0 (le_n _)) as Hp0.
  pose proof (call_ends C st eqf ltf HC Φ _ N HΦ mirror_structure 0 x [] E K s tys k d n0 m Hall Hc Hr (ex_intro _ a (conj Hx Hk)) Hd) as Hmore.
  pose proof (program_meaning C st eqf ltf HC Φ _ N HΦ (FCall 0 [x]) E K s d n0 m σ κ Hall Hc Hr Hs Hκ) as Hmean.
  rewrite Hp0 in Hmean, Hmore.
  assert (Hσx : σ !! x = Some (AVar tys k)).
  { specialize (Hs x). unfold env, astate in *. rewrite Hx in Hs. destruct (σ !! x) as [[]|]; try done. destruct Hs as [-> Hk']. do 2 f_equal. by eapply var_holds_unique. }
  assert (Hkeep : forall s' σ' r, shows C (mem s') E σ' -> fmeans (FCall 0 [x]) σ r σ' ->
    (forall y tys' k', y <> x -> sees C E s y tys' k' -> sees C E s' y tys' k') /\
    (forall y u' v', sees_obj C E s y u' v' -> sees_obj C E s' y u' v')).
  { intros s' σ' r' Hs' Hm. split.
    - intros y tys' k' Hy (b&Hb&Hyk). exists b. split; [done|]. pose proof (call_other _ _ _ _ _ Hm Hy) as Ho'.
      specialize (Hs y). specialize (Hs' y). unfold env, astate in *. rewrite Ho' in Hs'. rewrite Hb in Hs, Hs'.
      destruct (σ !! y) as [[]|]; try done. destruct Hs as [-> Hs], Hs' as [_ Hs']. by rewrite (var_holds_unique _ _ _ _ _ _ Hyk Hs).
    - intros y u' v' (b&Hb&Hyv). exists b. split; [done|]. assert (Hy : y <> x). { intros ->. unfold env in *. by rewrite Hx in Hb. }
      pose proof (call_other _ _ _ _ _ Hm Hy) as Ho'.
      specialize (Hs y). specialize (Hs' y). unfold env, astate in *. rewrite Ho' in Hs'. rewrite Hb in Hs, Hs'.
      destruct (σ !! y) as [[]|]; try done. destruct Hs as [-> Hs], Hs' as [_ Hs']. by rewrite (obj_holds_unique _ _ _ _ _ _ Hyv Hs). }
  destruct r as [E' K' s'|e E' K' s'|msg|]; try done; destruct Hfine as (->&->&Hr'); destruct Hmean as (_&_&σ'&Hs'&_&Hm); exists s';
    destruct (Hkeep _ _ _ Hs' Hm) as [Hk1 Hk2]; (split; [done|]; split; [done|]; split; [done|]).
  - left. split; [by exists n0|]. exists a. split; [done|].
    assert (Hm' : σ' !! x = Some (AVar tys (k.1, mirror_image k.2))).
    { destruct k as [bi v]. eapply mirrored; [exact Hσx| |exact Hm]. eapply seen_shaped; [exact Hk|]. by eapply Hcl. }
    specialize (Hs' x). unfold env, astate in *. rewrite Hx Hm' in Hs'. by destruct Hs'.
  - right. exists e. by exists n0.
Qed.
End mirror.

(** ** The rule for recursive functions *)
Section rule.
Context (C : cfg) (eqf ltf : uid -> uval -> uval -> bool) (Φ : list func) (S : nat -> astate -> option exn -> astate -> Prop).
Context (HS : forall f F σ0 r σ1, Φ !! f = Some F -> fmeans_with C eqf ltf Φ S (fn_body F) σ0 r σ1 -> S f σ0 r σ1).
Lemma with_mono (S1 S2 : nat -> astate -> option exn -> astate -> Prop) : (forall f σ0 r σ1, S1 f σ0 r σ1 -> S2 f σ0 r σ1) ->
  forall p σ r σ', fmeans_with C eqf ltf Φ S1 p σ r σ' -> fmeans_with C eqf ltf Φ S2 p σ r σ'.
Proof. intros H12. induction 1; econstructor; eauto. Defined.
Fixpoint called_ok f σ0 r σ1 (H : called C eqf ltf Φ f σ0 r σ1) {struct H} : S f σ0 r σ1 :=
  match H with
  | Called _ _ _ _ _ _ _ _ F HF Hb => HS f F σ0 r σ1 HF (with_mono _ S called_ok _ _ _ _ Hb)
  end.
Lemma recursive_rule p σ r σ' : fmeans C eqf ltf Φ p σ r σ' -> fmeans_with C eqf ltf Φ S p σ r σ'.
Proof. apply with_mono, called_ok. Qed.
End rule.
