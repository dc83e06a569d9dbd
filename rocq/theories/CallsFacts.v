(** Programs with recursive functions (proofs). *)
From Coq.ssr Require Import ssreflect.
From Coq Require Import ZArith Lia.
From stdpp Require Import gmap.
From iris.proofmode Require Import tactics.
From Verif Require Import Base Types Dispatch Variant Sem Values ValuesFacts Client Observe ObserveFacts Spec Trace History Owned OwnedFacts.
From Verif Require Import Heap Wp Rep SpecInt SpecVar SpecQuery Link World ClientProof Levels HistoryProof Reach ReachFacts CoreFacts.
From Verif Require Import Places PlacesSpec PlacesProof PlacesFacts Programs ProgramsSpec ProgramsFacts AlikeSpec PlacesAlikeSpec MeaningSpec MeaningFacts.
From Verif Require Import Calls CallsSpec.

(** ** Renaming *)
Section rename.
Context (C : cfg) (st nb : bool) (ρ : name -> name) (Γ0 Γ : ctx).
Context (HΓ : forall x t, Γ0 !! x = Some t -> Γ !! ρ x = Some t).
Context (Hinj : forall x y t t', Γ0 !! x = Some t -> Γ0 !! y = Some t' -> ρ x = ρ y -> x = y).
Lemma checks_ren c : checks C Γ0 c -> checks C Γ (ren ρ c).
Proof.
  destruct c as [[]| | | | |]; simpl; try done.
  all: try by (intros (tys&H1&H2); exists tys; eauto).
  all: try by (intros (tys&H1); exists tys; eauto).
  - intros (tys&u&i&H1&H2&H3). exists tys, u, i. eauto.
  - intros (Hne&tys&tys2&H1&H2&H3). split; [intros He; apply Hne; by eapply Hinj|]. exists tys, tys2. eauto.
  - intros (Hne&tys&tys2&H1&H2&H3). split; [intros He; apply Hne; by eapply Hinj|]. exists tys, tys2. eauto.
  - intros (Hne&tys&tys2&i&H1&H2&H3). split; [intros He; apply Hne; by eapply Hinj|]. exists tys, tys2, i. eauto.
  - intros (Hne&tys&tys2&H1&H2). split; [intros He; apply Hne; by eapply Hinj|]. exists tys, tys2. eauto.
Qed.
Lemma decl_ren c x t : declaration C st nb Γ0 c x t -> declaration C st nb Γ (ren ρ c) (ρ x) t.
Proof.
  destruct c as [[]| | | | |]; simpl; try done.
  - intros (->&->&H). split; [done|]. split; [done|]. apply Forall2_fmap_l. eapply Forall2_impl; [exact H|]. simpl. eauto.
  - by intros (->&->&H).
  - intros (->&->&Hg&u&i&H1&H2). split; [done|]. split; [done|]. split; [done|]. exists u, i. eauto.
  - intros (->&tys&->&H1). split; [done|]. exists tys. eauto.
  - intros (->&tys&->&H1). split; [done|]. exists tys. eauto.
  - intros (->&->&Hg&tys2&H1&H2). split; [done|]. split; [done|]. split; [done|]. exists tys2. eauto.
  - intros (->&->&tys&H1). split; [done|]. split; [done|]. exists tys. eauto.
  - intros (->&tys&tys'&->&H1&H2). split; [done|]. exists tys, tys'. eauto.
  - intros (->&->&Hg&Hi&tys2&H1). split; [done|]. split; [done|]. split; [done|]. split; [done|]. exists tys2. eauto.
Qed.
End rename.
Lemma rnames_ren ρ c : rnames (ren ρ c) = map ρ (rnames c).
Proof. destruct c as [[]| | | | |]; done. Qed.

(** ** Calls compile *)
Section calls.
Context (C : cfg) (st nb : bool).
Context (Φ : list func) (sigs : list (list vty)) (N : nat).
Context (HΦ : funcs_compile C st nb sigs N Φ).
Notation call := (call Φ N).

Record sim (lev : nat) (ρ : name -> name) (Γ0 : ctx) (T0 : gset name) (Γ : ctx) (T : gset name) : Prop := Sim {
  s_var : forall x t, Γ0 !! x = Some t -> x < N /\ Γ !! ρ x = Some t;
  s_new : forall x, x < N -> Γ0 !! x = None -> x ∉ T0 -> Γ !! ρ x = None /\ ρ x ∉ T;
  s_inj : forall x y, x < N -> y < N -> ρ x = ρ y -> x = y;
  s_lt : forall x, x < N -> ρ x < N * S lev;
  s_fresh : forall z, N * S lev <= z -> Γ !! z = None /\ z ∉ T }.

Lemma sim_let lev ρ Γ0 T0 Γ T x t : sim lev ρ Γ0 T0 Γ T -> x < N -> Γ0 !! x = None -> x ∉ T0 ->
  sim lev ρ (<[x := t]> Γ0) T0 (<[ρ x := t]> Γ) T.
Proof.
  intros [Hv Hn Hi Hl Hf] Hx HxΓ HxT. unfold ctx in *. split.
  - intros y t' Hy. destruct (decide (y = x)) as [->|Hne].
    + rewrite lookup_insert in Hy. injection Hy as <-. by rewrite lookup_insert.
    + rewrite lookup_insert_ne in Hy; [|done]. destruct (Hv _ _ Hy) as [Hlt Hy']. split; [done|]. rewrite lookup_insert_ne //. intros He. apply Hne. symmetry. by apply Hi.
  - intros y Hy HyΓ HyT. destruct (decide (y = x)) as [->|Hne]; [by rewrite lookup_insert in HyΓ|]. rewrite lookup_insert_ne in HyΓ; [|done].
    destruct (Hn y Hy HyΓ HyT). split; [|done]. rewrite lookup_insert_ne //. intros He. apply Hne. symmetry. by apply Hi.
  - done.
  - done.
  - intros z Hz. destruct (Hf z Hz). split; [|done]. rewrite lookup_insert_ne //. intros <-. specialize (Hl x Hx). lia.
Qed.
Lemma zip_map_l {A B D} (f : A -> B) (l : list A) (k : list D) : zip (map f l) k = (fun p => (f p.1, p.2)) <$> zip l k.
Proof. revert k. induction l as [|a l IH]; intros [|b k]; simpl; try done. by rewrite IH. Qed.
Lemma lookup_zip_ren (ρ : name -> name) (rs : list name) (ts : list vty) r t : NoDup rs -> (forall x y, x ∈ rs -> y ∈ rs -> ρ x = ρ y -> x = y) ->
  (list_to_map (zip rs ts) : ctx) !! r = Some t -> (list_to_map (zip (map ρ rs) ts) : ctx) !! ρ r = Some t.
Proof.
  intros Hnd Hi Hr. apply elem_of_list_to_map_2 in Hr. apply elem_of_list_to_map_1.
  - apply zip_fst_nodup. apply NoDup_fmap_2_strong; [|done]. intros x y Hx Hy. by apply Hi.
  - rewrite zip_map_l. apply elem_of_list_fmap. by exists (r, t).
Qed.
Lemma lookup_zip_none (rs : list name) (ts : list vty) r : r ∉ rs -> (list_to_map (zip rs ts) : ctx) !! r = None.
Proof. intros Hr. apply not_elem_of_list_to_map_1. intros Hin. apply Hr. by eapply zip_fst_in. Qed.
Lemma sim_visit lev ρ Γ0 T0 Γ T x rs ts : sim lev ρ Γ0 T0 Γ T -> x < N -> is_Some (Γ0 !! x) ->
  NoDup rs -> length rs = length ts -> (forall r, r ∈ rs -> r < N /\ Γ0 !! r = None /\ r ∉ T0) ->
  sim lev ρ (list_to_map (zip rs ts) ∪ delete x Γ0) ({[x]} ∪ T0) (list_to_map (zip (map ρ rs) ts) ∪ delete (ρ x) Γ) ({[ρ x]} ∪ T).
Proof.
  intros [Hv Hn Hi Hl Hf] Hx HxΓ Hnd Hlen Hrs. unfold ctx in *.
  assert (Hin : forall r, r < N -> ρ r ∈ map ρ rs -> r ∈ rs).
  { intros r Hr Hin. apply elem_of_list_fmap in Hin as (r'&He&Hin). rewrite (Hi r r'); [done|done|by apply Hrs|done]. }
  split.
  - intros y t Hy. apply lookup_union_Some_raw in Hy as [Hy|[Hy1 Hy2]].
    + assert (y ∈ rs). { apply elem_of_list_to_map_2 in Hy. by eapply elem_of_zip_l. }
      split; [by apply Hrs|]. apply lookup_union_Some_l. apply lookup_zip_ren; [done|..|done]. intros a b Ha Hb. apply Hi; by apply Hrs.
    + apply lookup_delete_Some in Hy2 as [Hne Hy2]. destruct (Hv _ _ Hy2) as [Hlt Hy']. split; [done|].
      rewrite lookup_union_r.
      * rewrite lookup_delete_ne //. intros He. apply Hne. by apply Hi.
      * apply lookup_zip_none. intros Hin'. apply Hin in Hin'; [|done]. destruct (Hrs y Hin') as (_&?&_). congruence.
  - intros y Hy HyΓ HyT. apply lookup_union_None in HyΓ as [Hy1 Hy2].
    assert (y <> x) by set_solver. rewrite lookup_delete_ne in Hy2; [|done].
    assert (Hyr : y ∉ rs).
    { intros Hyr. destruct (elem_of_list_lookup_1 _ _ Hyr) as [i Hir].
      destruct (lookup_lt_is_Some_2 ts i) as [t Ht]; [rewrite -Hlen; by eapply lookup_lt_Some|].
      apply not_elem_of_list_to_map_2 in Hy1. apply Hy1. apply elem_of_list_fmap. exists (y, t). split; [done|].
      apply elem_of_list_lookup_2 with i. apply lookup_zip_with_Some. eauto. }
    destruct (Hn y Hy Hy2) as [H1 H2]; [set_solver|]. assert (ρ y <> ρ x) by (intros He; by apply Hi in He).
    split; [|set_solver]. apply lookup_union_None. split; [|by rewrite lookup_delete_ne].
    apply lookup_zip_none. intros Hin'. apply Hyr. by apply Hin.
  - done.
  - done.
  - intros z Hz. destruct (Hf z Hz). assert (z <> ρ x). { intros ->. specialize (Hl x Hx). lia. }
    split; [|set_solver]. apply lookup_union_None. split; [|by rewrite lookup_delete_ne].
    apply lookup_zip_none. intros Hin'. apply elem_of_list_fmap in Hin' as (r&->&Hr). destruct (Hrs r Hr) as (Hr'&_). specialize (Hl r Hr'). lia.
Qed.
Lemma binding_param lev ps xs y x : NoDup ps -> length ps = length xs -> (y, x) ∈ zip ps xs -> binding N lev ps xs y = x.
Proof.
  intros Hnd Hlen Hin. unfold binding. by rewrite (elem_of_list_to_map_1 _ y x); [|by apply zip_fst_nodup|].
Qed.
Lemma binding_cases lev ps xs y : NoDup ps -> length ps = length xs ->
  (y ∈ ps /\ (y, binding N lev ps xs y) ∈ zip ps xs /\ binding N lev ps xs y ∈ xs) \/ (y ∉ ps /\ binding N lev ps xs y = y + N * S lev).
Proof.
  intros Hnd Hlen. unfold binding. destruct ((list_to_map (zip ps xs) : gmap name name) !! y) as [x|] eqn:Hy.
  - left. apply elem_of_list_to_map_2 in Hy. split; [by eapply elem_of_zip_l|]. split; [done|]. by eapply elem_of_zip_r.
  - right. split; [|done]. intros Hyr. destruct (elem_of_list_lookup_1 _ _ Hyr) as [i Hir].
    destruct (lookup_lt_is_Some_2 xs i) as [t Ht]; [rewrite -Hlen; by eapply lookup_lt_Some|].
    apply not_elem_of_list_to_map_2 in Hy. apply Hy. apply elem_of_list_fmap. exists (y, t). split; [done|].
    apply elem_of_list_lookup_2 with i. apply lookup_zip_with_Some. eauto.
Qed.
Lemma sim_call lev (Γ : ctx) (T : gset name) ps ts xs : NoDup ps -> length ps = length ts -> (forall x, x ∈ ps -> x < N) ->
  NoDup xs -> Forall2 (fun x t => Γ !! x = Some t) xs ts -> (forall x, x ∈ xs -> x < N * S lev) ->
  (forall z, N * S lev <= z -> Γ !! z = None /\ z ∉ T) ->
  sim (S lev) (binding N lev ps xs) (list_to_map (zip ps ts)) ∅ Γ T.
Proof.
  intros Hnd Hlen Hps Hndx Hxs Hlt Hf. unfold ctx in *. assert (Hlen2 : length ps = length xs) by (by rewrite (Forall2_length _ _ _ Hxs)).
  split.
  - intros y t Hy. apply elem_of_list_to_map_2 in Hy. split; [apply Hps; by eapply elem_of_zip_l|].
    apply elem_of_list_lookup_1 in Hy as [i Hi]. apply lookup_zip_with_Some in Hi as (y'&t'&[= <- <-]&Hy&Ht).
    destruct (lookup_lt_is_Some_2 xs i) as [x Hx]; [rewrite -Hlen2; by eapply lookup_lt_Some|].
    rewrite (binding_param lev ps xs y x); [|done|done|].
    + exact (Forall2_lookup_lr _ _ _ _ _ _ Hxs Hx Ht).
    + apply elem_of_list_lookup_2 with i. apply lookup_zip_with_Some. eauto.
  - intros y Hy HyΓ _. destruct (binding_cases lev ps xs y Hnd Hlen2) as [(Hin&_)|[Hin ->]].
    + exfalso. destruct (elem_of_list_lookup_1 _ _ Hin) as [i Hir].
      destruct (lookup_lt_is_Some_2 ts i) as [t Ht]; [rewrite -Hlen; by eapply lookup_lt_Some|].
      apply not_elem_of_list_to_map_2 in HyΓ. apply HyΓ. apply elem_of_list_fmap. exists (y, t). split; [done|].
      apply elem_of_list_lookup_2 with i. apply lookup_zip_with_Some. eauto.
    + apply Hf. lia.
  - intros y z Hy Hz He. destruct (binding_cases lev ps xs y Hnd Hlen2) as [(Hin&Hzip&Hb)|[Hin Hb]], (binding_cases lev ps xs z Hnd Hlen2) as [(Hin'&Hzip'&Hb')|[Hin' Hb']].
    + apply elem_of_list_lookup_1 in Hzip as [i Hi]. apply lookup_zip_with_Some in Hi as (?&?&[= <- <-]&Hi1&Hi2).
      apply elem_of_list_lookup_1 in Hzip' as [j Hj]. apply lookup_zip_with_Some in Hj as (?&?&[= <- <-]&Hj1&Hj2).
      rewrite He in Hi2. assert (i = j) as -> by by eapply (NoDup_lookup xs). congruence.
    + specialize (Hlt _ Hb). lia.
    + specialize (Hlt _ Hb'). lia.
    + lia.
  - intros y Hy. destruct (binding_cases lev ps xs y Hnd Hlen2) as [(_&_&Hb)|[_ ->]]; [|lia]. specialize (Hlt _ Hb). lia.
  - intros z Hz. apply Hf. lia.
Qed.

(** Calls at level [lev]. *)
Definition call_ok (lev : nat) (cl : nat -> list name -> prog) : Prop := forall f ts xs (Γ : ctx) (T : gset name),
  sigs !! f = Some ts -> NoDup xs -> Forall2 (fun x t => Γ !! x = Some t) xs ts -> (forall x, x ∈ xs -> x < N * S lev) ->
  (forall z, N * S lev <= z -> Γ !! z = None /\ z ∉ T) -> compiles C st nb Γ T (cl f xs).
Lemma expand_compiles lev cl : call_ok lev cl -> forall p ρ Γ0 T0 Γ T, sim lev ρ Γ0 T0 Γ T ->
  (forall x, fmentions p x -> x < N) -> fcompiles C st nb sigs Γ0 T0 p -> compiles C st nb Γ T (expand cl ρ p).
Proof.
  intros Hcl. induction p as [|c|c p IH|p IHp q IHq|p IHp q IHq|x rs ps IH|x ps IH|x y p IH|f xs]; intros ρ Γ0 T0 Γ T Hsim Htxt Hc; simpl in *.
  all: assert (HΓ : forall x t, Γ0 !! x = Some t -> Γ !! ρ x = Some t) by (intros; by eapply (s_var _ _ _ _ _ _ Hsim)).
  all: assert (Hinj : forall x y t t', Γ0 !! x = Some t -> Γ0 !! y = Some t' -> ρ x = ρ y -> x = y)
    by (intros a b t t' Ha Hb; apply (s_inj _ _ _ _ _ _ Hsim); by eapply (s_var _ _ _ _ _ _ Hsim)).
  - done.
  - by eapply checks_ren.
  - destruct Hc as (x&t&Hd&Hx&HxT&Hp). assert (Hlt : x < N). { apply Htxt. left. destruct c as [[]| | | | |]; simpl in Hd; try done; destruct Hd as [-> _]; simpl; set_solver. }
    exists (ρ x), t. destruct (s_new _ _ _ _ _ _ Hsim x Hlt Hx HxT) as [H1 H2]. split; [by eapply decl_ren|]. split; [done|]. split; [done|].
    eapply IH; [by apply sim_let|by intros; apply Htxt; right|done].
  - destruct Hc as [H1 H2]. split; [eapply IHp|eapply IHq]; try done; intros; apply Htxt; tauto.
  - destruct Hc as [H1 H2]. split; [eapply IHp|eapply IHq]; try done; intros; apply Htxt; tauto.
  - destruct Hc as (tys&Hx&Hps). exists tys. split; [by apply HΓ|]. intros t Ht. destruct (Hps t Ht) as (Hnd&Hlen&Hrs&Hp).
    assert (Hrs' : forall r, r ∈ rs (ity_uid t) -> r < N /\ Γ0 !! r = None /\ r ∉ T0).
    { intros r Hr. split; [|by apply Hrs]. apply Htxt. right. exists (ity_uid t). by left. }
    split; [|split; [|split]].
    + apply NoDup_fmap_2_strong; [|done]. intros a b Ha Hb. apply (s_inj _ _ _ _ _ _ Hsim); by apply Hrs'.
    + by rewrite map_length.
    + intros r Hr. apply elem_of_list_fmap in Hr as (r'&->&Hr). apply (s_new _ _ _ _ _ _ Hsim); by apply Hrs'.
    + eapply IH; [apply sim_visit; [done|..|done]|..|done].
      * by eapply (s_var _ _ _ _ _ _ Hsim).
      * by eexists.
      * done.
      * by rewrite fmap_length.
      * intros z Hz. apply Htxt. right. exists (ity_uid t). by right.
  - destruct Hc as (tys&Hx&Hps). exists tys. split; [by apply HΓ|]. intros t Ht. eapply IH; [done|..|by apply Hps].
    intros z Hz. apply Htxt. right. by exists (ity_uid t).
  - destruct Hc as [(tys&Hx&Hy) Hp]. split; [exists tys; by split; apply HΓ|]. eapply IH; [done|..|done]. intros; apply Htxt; tauto.
  - destruct Hc as (ts&Hf&Hnd&Hxs). eapply Hcl; [done|..].
    + apply NoDup_fmap_2_strong; [|done]. intros a b Ha Hb. apply (s_inj _ _ _ _ _ _ Hsim); by apply Htxt.
    + apply Forall2_fmap_l. eapply Forall2_impl; [exact Hxs|]. simpl. intros a t. apply HΓ.
    + intros z Hz. apply elem_of_list_fmap in Hz as (a&->&Ha). apply (s_lt _ _ _ _ _ _ Hsim). by apply Htxt.
    + apply (s_fresh _ _ _ _ _ _ Hsim).
Qed.
Lemma funcs_lookup f ts : sigs !! f = Some ts -> exists F, Φ !! f = Some F /\ func_compiles C st nb sigs N F ts.
Proof. intros Hf. destruct (Forall2_lookup_r _ _ _ _ _ HΦ Hf) as (F&H1&H2). by exists F. Qed.
Lemma call_compiles d lev : call_ok lev (call d lev).
Proof.
  revert lev. induction d as [|d IH]; intros lev f ts xs Γ T Hf Hnd Hxs Hlt Hfr; simpl; [done|].
  destruct (funcs_lookup f ts Hf) as (F&HF&Hnp&Hlen&Htxt&Hb). rewrite HF.
  eapply expand_compiles; [apply IH| |by intros; apply Htxt; right|exact Hb]. apply sim_call; try done. intros; apply Htxt; by left.
Qed.
Lemma sim_start (Γ : ctx) (T : gset name) : (forall x, is_Some (Γ !! x) \/ x ∈ T -> x < N) -> sim 0 id Γ T Γ T.
Proof.
  intros H. split.
  - intros x t Hx. split; [|done]. apply H. left. by eexists.
  - intros x Hx H1 H2. by split.
  - done.
  - unfold id. intros. lia.
  - intros z Hz. split.
    + destruct (Γ !! z) eqn:E; [|done]. assert (z < N) by (apply H; left; by eexists). lia.
    + intros Hin. assert (z < N) by (apply H; by right). lia.
Qed.
Lemma unroll_compiles d p (Γ : ctx) (T : gset name) : (forall x, is_Some (Γ !! x) \/ x ∈ T \/ fmentions p x -> x < N) ->
  fcompiles C st nb sigs Γ T p -> compiles C st nb Γ T (unroll Φ N d p).
Proof.
  intros H Hc. unfold unroll. eapply expand_compiles; [apply call_compiles|apply sim_start|..|exact Hc].
  - intros x [Hx|Hx]; apply H; tauto.
  - intros x Hx. apply H. tauto.
Qed.
End calls.

(** ** More nested calls *)
Section depth.
Context (C : cfg) (eqf ltf : uid -> uval -> uval -> bool) (Φ : list func) (N n m : nat).
Notation run := (prun C n m eqf ltf).
Lemma expand_grow (cl cl' : nat -> list name -> prog) :
  (forall f xs E K s, run (cl' f xs) E K s = run (cl f xs) E K s \/ run (cl f xs) E K s = PMore) ->
  forall p ρ E K s, run (expand cl' ρ p) E K s = run (expand cl ρ p) E K s \/ run (expand cl ρ p) E K s = PMore.
Proof.
  intros Hcl.
  assert (Hat : forall r r' k k', (r' = r \/ r = PMore) -> (forall E K s, k' E K s = k E K s \/ k E K s = PMore) ->
    and_then r' k' = and_then r k \/ and_then r k = PMore).
  { intros r r' k k' [->| ->] Hk; [|by right]. destruct r; simpl; [apply Hk|by left..]. }
  assert (Hae : forall r r' c, (r' = r \/ r = PMore) -> at_exit C n eqf ltf r' c = at_exit C n eqf ltf r c \/ at_exit C n eqf ltf r c = PMore).
  { intros r r' c [->| ->]; [by left|by right]. }
  assert (Hdi : forall x E K s k k', (forall u s, k' u s = k u s \/ k u s = PMore) ->
    dispatch C x E K s k' = dispatch C x E K s k \/ dispatch C x E K s k = PMore).
  { intros x E K s k k' Hk. unfold dispatch. destruct (E !! x) as [[]|]; [|by left..]. destruct (visit_user _ _ _ _ _); [apply Hk|by left..]. }
  induction p as [|c|c p IH|p IHp q IHq|p IHp q IHq|x rs ps IH|x ps IH|x y p IH|f xs]; intros ρ E K s; cbn [expand prun].
  - by left.
  - by left.
  - destruct (rdeclares (ren ρ c)); [|by left]. apply Hat; [by left|]. intros. by apply Hae.
  - apply Hat; [apply IHp|]. intros. apply IHq.
  - destruct (IHp ρ E K s) as [->| ->]; [|by right]. destruct (run (expand cl ρ p) E K s); [by left|apply IHq|by left..].
  - apply Hdi. intros. apply Hat; [by left|]. intros. by apply Hae.
  - apply Hdi. intros. apply IH.
  - assert (Hl : forall k E K s,
      loop C n eqf ltf (ρ x) (ρ y) (run (expand cl' ρ p)) k E K s = loop C n eqf ltf (ρ x) (ρ y) (run (expand cl ρ p)) k E K s \/
      loop C n eqf ltf (ρ x) (ρ y) (run (expand cl ρ p)) k E K s = PMore).
    { clear E K s. induction k as [|k IHk]; intros E K s; cbn [loop]; [by left|].
      destruct (rexec C n eqf ltf (RMain (CEq (ρ x) (ρ y))) E K s) as [E' K' o s'|fl]; [|by left].
      destruct o as [| | | | | |[]]; try by left. apply Hat; [apply IH|apply IHk]. }
    apply Hl.
  - apply Hcl.
Qed.
Lemma call_grow d d' : d <= d' -> forall lev f xs E K s,
  run (call Φ N d' lev f xs) E K s = run (call Φ N d lev f xs) E K s \/ run (call Φ N d lev f xs) E K s = PMore.
Proof.
  revert d'. induction d as [|d IH]; intros d' Hle lev f xs E K s; [by right|]. destruct d' as [|d']; [lia|]. cbn [call].
  destruct (Φ !! f) as [F|]; [|by left]. apply expand_grow. intros. apply IH. lia.
Qed.
Lemma unroll_grow d d' p E K s : d <= d' -> run (unroll Φ N d p) E K s <> PMore -> run (unroll Φ N d' p) E K s = run (unroll Φ N d p) E K s.
Proof.
  intros Hle Hne. destruct (expand_grow (call Φ N d 0) (call Φ N d' 0)) with (p := p) (ρ := id : name -> name) (E := E) (K := K) (s := s) as [H|H]; try done.
  intros. by apply call_grow.
Qed.
End depth.

(** ** The names in an unrolled program *)
Section mention.
Context (Φ : list func) (N : nat).
Lemma expand_mentions (cl : nat -> list name -> prog) (P : name -> Prop) : (forall f xs z, mentions (cl f xs) z -> z ∈ xs \/ P z) ->
  forall p ρ z, mentions (expand cl ρ p) z -> (exists x, fmentions p x /\ z = ρ x) \/ P z.
Proof.
  intros Hcl. induction p as [|c|c p IH|p IHp q IHq|p IHp q IHq|x rs ps IH|x ps IH|x y p IH|f xs]; intros ρ z; simpl.
  - done.
  - rewrite rnames_ren. intros Hz. apply elem_of_list_fmap in Hz as (x&->&Hx). left. by exists x.
  - rewrite rnames_ren. intros [Hz|Hz].
    + apply elem_of_list_fmap in Hz as (x&->&Hx). left. exists x. tauto.
    + destruct (IH _ _ Hz) as [(x&Hx&->)|?]; [left; exists x; tauto|by right].
  - intros [Hz|Hz]; [destruct (IHp _ _ Hz) as [(x&Hx&->)|?]|destruct (IHq _ _ Hz) as [(x&Hx&->)|?]]; try (left; exists x; tauto); by right.
  - intros [Hz|Hz]; [destruct (IHp _ _ Hz) as [(x&Hx&->)|?]|destruct (IHq _ _ Hz) as [(x&Hx&->)|?]]; try (left; exists x; tauto); by right.
  - intros [->|(u&[Hz|Hz])].
    + left. exists x. tauto.
    + apply elem_of_list_fmap in Hz as (r&->&Hr). left. exists r. split; [|done]. right. exists u. tauto.
    + destruct (IH _ _ _ Hz) as [(r&Hr&->)|?]; [left|by right]. exists r. split; [|done]. right. exists u. tauto.
  - intros [->|(u&Hz)].
    + left. exists x. tauto.
    + destruct (IH _ _ _ Hz) as [(r&Hr&->)|?]; [left|by right]. exists r. split; [|done]. right. by exists u.
  - intros [->|[->|Hz]].
    + left. exists x. tauto.
    + left. exists y. tauto.
    + destruct (IH _ _ Hz) as [(r&Hr&->)|?]; [left; exists r; tauto|by right].
  - intros Hz. destruct (Hcl _ _ _ Hz) as [Hx|?]; [left|by right]. apply elem_of_list_fmap in Hx as (x&->&Hx). by exists x.
Qed.
Lemma call_mentions d lev f xs z :
  mentions (call Φ N d lev f xs) z -> z ∈ xs \/ N * S lev <= z.
Proof.
  revert lev f xs z. induction d as [|d IH]; intros lev f xs z; simpl; [done|].
  destruct (Φ !! f) as [F|] eqn:HF; simpl.
  - intros Hz. apply (expand_mentions _ (fun z => N * S (S lev) <= z) (IH (S lev))) in Hz as [(x&Hx&->)|Hz]; [|right; lia].
    unfold binding. destruct ((list_to_map (zip (fn_params F) xs) : gmap name name) !! x) as [y|] eqn:Hy; [|right; lia].
    left. apply elem_of_list_to_map_2 in Hy. by eapply elem_of_zip_r.
  - intros [Hz|[]]. right. apply elem_of_list_singleton in Hz as ->. lia.
Qed.
End mention.

(** ** Structural recursion ends *)
Section ends.
Context (C : cfg) (st : bool) (eqf ltf : uid -> uval -> uval -> bool) (HC : good_env C st true).
Context (Φ : list func) (sigs : list (list vty)) (N : nat).
Context (HΦ : funcs_compile C st true sigs N Φ) (HS : Forall structural_func Φ).
Notation rreached := (rreached C st true eqf ltf).
Notation rx n := (rexec C n eqf ltf).
Notation types := (fmap bnd_ty).
Notation call := (call Φ N).

Definition atmost (σ : astate) (z : name) (d : nat) : Prop := forall tys k, is_var σ z tys k -> udepth k.2 <= d.
Definition below (σ : astate) (z : name) (d : nat) : Prop := exists tys k, is_var σ z tys k /\ udepth k.2 < d.
Lemma atmost_same σ σ' z d : σ' !! z = σ !! z -> atmost σ z d -> atmost σ' z d.
Proof. unfold atmost, is_var. by intros ->. Qed.
Lemma below_same σ σ' z d : σ' !! z = σ !! z -> below σ z d -> below σ' z d.
Proof. unfold below, is_var. by intros ->. Qed.
Lemma udepth_member z (ks : list vval) k : k ∈ ks -> udepth k.2 < udepth (UV z ks).
Proof.
  intros Hk. cbn [udepth]. apply Nat.lt_succ_r. induction ks as [|k' ks IH]; simpl; [by inversion Hk|].
  apply elem_of_cons in Hk as [->|Hk]; [lia|]. specialize (IH Hk). lia.
Qed.
Lemma not_more r : presult_of r <> PMore.
Proof. by destruct r as [? ? [] ?|]. Qed.
Lemma exit_more n r c : r <> PMore -> at_exit C n eqf ltf r c <> PMore.
Proof.
  destruct r as [E K s|e E K s|f|]; simpl; try done; intros _; [apply not_more|].
  by destruct (rexec C n eqf ltf c E K s) as [? ? [] ?|].
Qed.

Lemma minus_inv (A : gset name) l x y : y ∈ A ∖ {[x]} ∖ list_to_set l -> y ∈ A /\ y <> x /\ y ∉ l.
Proof. set_solver. Qed.
Lemma minus_in (A R : gset name) l x y : y ∈ (A ∖ {[x]} ∖ list_to_set l) ∪ (if decide (x ∈ A ∪ R) then list_to_set l ∪ (R ∖ {[x]} ∖ list_to_set l) else R ∖ {[x]} ∖ list_to_set l) ->
  y ∈ A ∪ R \/ y ∈ l.
Proof. destruct (decide (x ∈ A ∪ R)); set_solver. Qed.

(** What an earlier part of the program leaves alone. *)
Lemma kept d lev p ρ Γ0 T0 (E : env) (K : kenv) s σ n m E' K' s' e :
  sim N lev ρ Γ0 T0 (types E) (dom K) -> (forall x, fmentions p x -> x < N) -> fcompiles C st true sigs Γ0 T0 p ->
  rreached E K s -> shows C (mem s) E σ ->
  prun C n m eqf ltf (expand (call d lev) ρ p) E K s = match e with None => PRet E' K' s' | Some e => PExn e E' K' s' end ->
  E' = E /\ K' = K /\ rreached E K s' /\ exists σ', shows C (mem s') E σ' /\
    forall y, y < N -> ~ fmentions p y -> σ' !! ρ y = σ !! ρ y.
Proof.
  intros Hsim Htxt Hc Hr Hs Hrun.
  assert (Hcomp : compiles C st true (types E) (dom K) (expand (call d lev) ρ p)).
  { eapply (expand_compiles C st true Φ sigs N HΦ lev); [exact (call_compiles C st true Φ sigs N HΦ d lev)|exact Hsim|exact Htxt|exact Hc]. }
  pose proof (always C st true eqf ltf HC eq_refl _ E K s n m Hcomp Hr) as Ha.
  destruct (looks C st true eqf ltf HC _ _ _ Hr) as (σ0&κ&Hs0&Hk&_).
  pose proof (runs C st true eqf ltf HC eq_refl _ E K s n m σ κ Hcomp Hr Hs Hk) as Hg.
  assert (Hoth : forall r σ', means C eqf ltf (expand (call d lev) ρ p) σ r σ' -> forall y, y < N -> ~ fmentions p y -> σ' !! ρ y = σ !! ρ y).
  { intros r σ' Hm y Hy Hny. eapply (means_other C st true eqf ltf HC); [exact Hm|]. intros Hmen.
    apply (expand_mentions N _ (fun z => N * S lev <= z)) in Hmen as [(x&Hx&He)|Hge].
    - apply (s_inj _ _ _ _ _ _ _ Hsim) in He; [by subst|done|by apply Htxt].
    - pose proof (s_lt _ _ _ _ _ _ _ Hsim y Hy). lia.
    - intros. by eapply call_mentions. }
  destruct e as [e|]; rewrite Hrun in Ha, Hg; destruct Ha as (->&->&Hr'), Hg as (_&_&σ'&Hs'&_&Hm); (split; [done|]; split; [done|]; split; [done|]; exists σ'; split; [done|]; by eapply Hoth).
Qed.

Lemma ends : forall d p lev ρ Γ0 T0 (A R : gset name) (E : env) (K : kenv) s σ n m,
  sim N lev ρ Γ0 T0 (types E) (dom K) -> (forall x, fmentions p x -> x < N) -> fcompiles C st true sigs Γ0 T0 p -> structural A R p ->
  rreached E K s -> shows C (mem s) E σ -> (forall x, x ∈ A ∪ R -> x < N) ->
  (forall x, x ∈ A -> atmost σ (ρ x) d) -> (forall x, x ∈ R -> below σ (ρ x) d) ->
  prun C n m eqf ltf (expand (call d lev) ρ p) E K s <> PMore.
Proof.
  induction d as [d IHd] using lt_wf_ind.
  induction p as [|c|c p IH|p IHp q IHq|p IHp q IHq|x rs ps IH|x ps IH|x y p IH|f xs];
    intros lev ρ Γ0 T0 A R E K s σ n m Hsim Htxt Hc Hst Hr Hs HN HA HR; cbn [expand prun].
  - done.
  - apply not_more.
  - destruct Hc as (x&t&Hd&Hx&HxT&Hp).
    assert (Hxc : x ∈ rnames c). { destruct c as [[]| | | | |]; simpl in Hd; try done; destruct Hd as [-> _]; simpl; set_solver. }
    assert (Hlt : x < N) by (apply Htxt; by left).
    assert (Hd' : declaration C st true (types E : ctx) (ren ρ c) (ρ x) t).
    { eapply decl_ren; [|exact Hd]. intros y t' Hy. by eapply (s_var _ _ _ _ _ _ _ Hsim). }
    destruct (s_new _ _ _ _ _ _ _ Hsim x Hlt Hx HxT) as [H1 H2].
    assert (HxE : E !! ρ x = None). { unfold env, ctx in *. rewrite lookup_fmap in H1. by destruct (E !! ρ x). }
    assert (HxK : K !! ρ x = None) by (by apply not_elem_of_dom).
    rewrite (decl_declares C st true _ _ _ _ Hd').
    destruct (rx n (ren ρ c) E K s) as [E' K' o s'|fl] eqn:Hrx; [|done].
    destruct (rx_steps C st true eqf ltf HC n (ren ρ c) E K s E' K' o s' Hr) as [Hr' Hstp]; [by eapply decl_admissible|done|].
    destruct (decl_frame C st true eqf ltf n (ren ρ c) (ρ x) t E K s E' K' o s' Hd' Hrx) as [-> [(e&->&->)|[Ho (b&Hb&->)]]]; [done|].
    assert (Hpo : presult_of (RDone (<[ρ x:=b]> E) K o s') = PRet (<[ρ x:=b]> E) K s') by (destruct o; try done; by destruct (Ho e)).
    rewrite Hpo. cbn [and_then]. apply exit_more.
    destruct (looks C st true eqf ltf HC _ _ _ Hr) as (σ0&κ&_&Hk&_).
    destruct (steps_decl C st true eqf ltf _ _ _ _ _ _ _ _ _ _ Hd' Hstp σ κ Hs Hk) as (σ1&Hs1&_&Hv).
    assert (Hoth : forall y, y < N -> y ∉ rnames c -> σ1 !! ρ y = σ !! ρ y).
    { intros y Hy Hyc. eapply (vstep_other C st true eqf ltf HC); [exact Hv|]. rewrite rnames_ren. intros Hin. apply elem_of_list_fmap in Hin as (y'&He&Hin).
      apply (s_inj _ _ _ _ _ _ _ Hsim) in He; [by subst|done|apply Htxt; by left]. }
    eapply (IH lev ρ (<[x:=t]> Γ0) T0 _ _ (<[ρ x:=b]> E) K s' σ1); [|by intros; apply Htxt; right|done|exact Hst|done|done|..].
    + unfold env, ctx in *. rewrite fmap_insert Hb. by apply sim_let.
    + intros y Hy. apply HN. set_solver.
    + intros y Hy. apply elem_of_difference in Hy as [Hy Hny]. eapply atmost_same; [apply Hoth|by apply HA]; [apply HN; set_solver|set_solver].
    + intros y Hy. apply elem_of_difference in Hy as [Hy Hny]. eapply below_same; [apply Hoth|by apply HR]; [apply HN; set_solver|set_solver].
  - destruct Hc as [Hcp Hcq], Hst as [Hsp (X&HX&Hsq)].
    assert (H1 : prun C n m eqf ltf (expand (call d lev) ρ p) E K s <> PMore).
    { eapply IHp; try done. intros; apply Htxt; by left. }
    destruct (prun C n m eqf ltf (expand (call d lev) ρ p) E K s) as [E' K' s'|e E' K' s'|fl|] eqn:Hrun; try done.
    destruct (kept d lev p ρ Γ0 T0 E K s σ n m E' K' s' None) as (->&->&Hr'&σ'&Hs'&Hoth); try done; [by intros; apply Htxt; left|].
    cbn [and_then]. eapply (IHq lev ρ Γ0 T0 _ _ E K s' σ'); [done|by intros; apply Htxt; right|done|exact Hsq|done|done|..].
    + intros y Hy. apply HN. set_solver.
    + intros y Hy. apply elem_of_difference in Hy as [Hy Hny]. eapply atmost_same; [apply Hoth|by apply HA]; [apply HN; set_solver|auto].
    + intros y Hy. apply elem_of_difference in Hy as [Hy Hny]. eapply below_same; [apply Hoth|by apply HR]; [apply HN; set_solver|auto].
  - destruct Hc as [Hcp Hcq], Hst as [Hsp (X&HX&Hsq)].
    assert (H1 : prun C n m eqf ltf (expand (call d lev) ρ p) E K s <> PMore).
    { eapply IHp; try done. intros; apply Htxt; by left. }
    destruct (prun C n m eqf ltf (expand (call d lev) ρ p) E K s) as [E' K' s'|e E' K' s'|fl|] eqn:Hrun; try done.
    destruct (kept d lev p ρ Γ0 T0 E K s σ n m E' K' s' (Some e)) as (->&->&Hr'&σ'&Hs'&Hoth); try done; [by intros; apply Htxt; left|].
    eapply (IHq lev ρ Γ0 T0 _ _ E K s' σ'); [done|by intros; apply Htxt; right|done|exact Hsq|done|done|..].
    + intros y Hy. apply HN. set_solver.
    + intros y Hy. apply elem_of_difference in Hy as [Hy Hny]. eapply atmost_same; [apply Hoth|by apply HA]; [apply HN; set_solver|auto].
    + intros y Hy. apply elem_of_difference in Hy as [Hy Hny]. eapply below_same; [apply Hoth|by apply HR]; [apply HN; set_solver|auto].
  - assert (Hcomp : compiles C st true (types E) (dom K) (expand (call d lev) ρ (FVisit x rs ps))).
    { eapply (expand_compiles C st true Φ sigs N HΦ lev); [exact (call_compiles C st true Φ sigs N HΦ d lev)|exact Hsim|exact Htxt|exact Hc]. }
    destruct Hc as (tys&Hx&Hps). destruct (s_var _ _ _ _ _ _ _ Hsim _ _ Hx) as [HxN HxE'].
    unfold ctx, env in *. rewrite lookup_fmap in HxE'.
    destruct (E !! ρ x) as [[tys' a|]|] eqn:HxE; simpl in HxE'; try done. injection HxE' as ->.
    destruct (visit_type C st true eqf ltf HC E K s (ρ x) tys a Hr HxE) as (k&t&l&kd&w&z&ls&Hvh&Ht&_&Hl&Hlen&Hv).
    destruct (Hps t) as (Hnd&Hlr&Hun&Hp); [by eapply elem_of_list_lookup_2|].
    set (u := ity_uid t) in *.
    assert (Hrs : forall r, r ∈ rs u -> r < N) by (intros r Hin; apply Htxt; right; exists u; by left).
    assert (Hun' : forall r, r ∈ map ρ (rs u) -> E !! r = None /\ K !! r = None).
    { intros r Hin. apply elem_of_list_fmap in Hin as (r'&->&Hin). destruct (Hun r' Hin) as [H1 H2].
      destruct (s_new _ _ _ _ _ _ _ Hsim r' (Hrs r' Hin) H1 H2) as [H3 H4]. split; [|by apply not_elem_of_dom].
      unfold env, ctx in *. rewrite lookup_fmap in H3. by destruct (E !! ρ r'). }
    assert (Hnd' : NoDup (map ρ (rs u))).
    { apply NoDup_fmap_2_strong; [|done]. intros a' b' Ha Hb. apply (s_inj _ _ _ _ _ _ _ Hsim); by apply Hrs. }
    assert (Hlr' : length (map ρ (rs u)) = length (ut_members (te C u))) by (by rewrite map_length).
    destruct (open_ok C st true eqf ltf HC (ρ x) (map ρ (rs u)) E K s tys a t l kd w z ls Hr HxE Hl Hv Hnd' Hlr' Hun') as [Ho Hr1].
    set (refs := zip (map ρ (rs u)) (zip_with BVar (ut_members (te C u)) ls)) in *.
    assert (Hao : radmissible C st true E K s (ROpen (ρ x) u (map ρ (rs u)))).
    { destruct (looks C st true eqf ltf HC _ _ _ Hr) as (σ0&κ&Hs0&Hk&HK&Hvar&_&Hnone&_). exists 0, σ0, κ. split; [done|]. split; [done|].
      split; [|split; [done|split; [done|]]].
      - left. exists tys. apply Hvar. unfold env, ctx in *. by rewrite lookup_fmap HxE.
      - intros r Hin. destruct (Hun' r Hin) as [H1 H2]. split; [by apply Hnone|]. specialize (HK r). unfold kenv, kstate in *.
        destruct (κ !! r); [|done]. destruct HK as [_ HK]. destruct HK; [done|]. congruence. }
    destruct (rx_steps C st true eqf ltf HC n _ _ _ _ _ _ _ _ Hr Hao (Ho n)) as [_ Hso].
    destruct (looks C st true eqf ltf HC _ _ _ Hr) as (σ0&κ&Hs0&Hk&_&_&_&Hnone&_).
    assert (σ0 = σ) as -> by by eapply shows_unique.
    destruct (Hso σ κ Hs Hk) as (σ1&κ1&Hs1&Hk1&H1).
    unfold dispatch. unfold env in *. rewrite HxE Hv. unfold ret at 1. rewrite Ho. cbn [presult_of and_then]. apply exit_more.
    set (E1 := list_to_map refs ∪ delete (ρ x) E) in *. set (K1 := <[ρ x:=(BVar tys a, refs)]> K) in *.
    pose proof (Hs (ρ x)) as Hsx. unfold env in *. rewrite HxE in Hsx. destruct (σ !! ρ x) as [[tys' k'|]|] eqn:Hσx; try done. destruct Hsx as [-> Hk'].
    assert (k' = k) as -> by by eapply var_holds_unique. clear Hk'.
    inversion H1 as [|x' u' rs' tys' bi z' ks Hx1 Hh| |x' u' rs' z' ks Hx1| | | | | | |]; subst.
    2: { unfold is_obj in Hx1. unfold astate in *. congruence. }
    unfold is_var in Hx1. unfold astate in *. rewrite Hσx in Hx1. injection Hx1 as <- ->. clear H1 Hso.
    set (σ1 := list_to_map (zip (map ρ (rs u)) (zip_with AVar (ut_members (te C u)) ks)) ∪ delete (ρ x) σ) in *.
    assert (Hoth : forall y, y < N -> y <> x -> y ∉ rs u -> σ1 !! ρ y = σ !! ρ y).
    { intros y Hy Hne Hyr. apply lookup_refs.
      - intros Hin. apply elem_of_list_fmap in Hin as (y'&He&Hin). apply (s_inj _ _ _ _ _ _ _ Hsim) in He; [by subst|done|by apply Hrs].
      - intros He. by apply (s_inj _ _ _ _ _ _ _ Hsim) in He. }
    assert (Hmem : x ∈ A ∪ R -> forall r, r ∈ rs u -> below σ1 (ρ r) d).
    { intros HxAR r Hin. assert (HE1 : is_Some (E1 !! ρ r)).
      { unfold E1, refs. assert (Hin' : ρ r ∈ map ρ (rs u)) by (apply elem_of_list_fmap; by exists r).
        destruct (elem_of_list_lookup_1 _ _ Hin') as [i Hi].
        destruct (lookup_lt_is_Some_2 (zip_with BVar (ut_members (te C u)) ls) i) as [b Hb].
        { rewrite zip_with_length. apply lookup_lt_Some in Hi. lia. }
        exists b. apply lookup_union_Some_l. apply elem_of_list_to_map_1; [by apply zip_fst_nodup|].
        apply elem_of_list_lookup_2 with i. apply lookup_zip_with_Some. eauto. }
      assert (Hs1' : shows C (mem s) E1 σ1) by exact Hs1. pose proof (Hs1' (ρ r)) as Hsr. unfold env, astate in *. destruct HE1 as [b Hb]. rewrite Hb in Hsr.
      destruct (σ1 !! ρ r) as [α|] eqn:Hσ1; [|by destruct b]. unfold σ1 in Hσ1. apply lookup_union_Some_raw in Hσ1 as [Hσ1|[_ Hσ1]].
      - assert (Hσ1' : σ1 !! ρ r = Some α) by (apply lookup_union_Some_raw; by left).
        apply elem_of_list_to_map_2 in Hσ1. apply elem_of_zip_r in Hσ1. apply elem_of_lookup_zip_with in Hσ1 as (i&tys'&k&->&_&Hki).
        exists tys', k. split; [exact Hσ1'|]. assert (Hkd : udepth k.2 < udepth (UV z' ks)) by (apply udepth_member; by eapply elem_of_list_lookup_2).
        apply elem_of_union in HxAR as [Hxa|Hxr].
        + specialize (HA x Hxa _ _ Hσx). cbn [snd] in HA. lia.
        + destruct (HR x Hxr) as (tys2&k2&Hx2&Hd2). unfold is_var, astate in *. rewrite Hσx in Hx2. injection Hx2 as <- <-. cbn [snd] in Hd2. lia.
      - exfalso. apply lookup_delete_Some in Hσ1 as [_ Hσ1]. destruct (Hun' (ρ r)) as [HEr _]; [apply elem_of_list_fmap; by exists r|].
        apply Hnone in HEr. unfold astate in *. congruence. }
    eapply (IH u lev ρ _ _ _ _ E1 K1 s σ1); [|..|exact Hp|exact (Hst u)|done|done| | |].
    + pose proof (types_refs E (ρ x) (map ρ (rs u)) (ut_members (te C u)) ls Hlr' Hlen) as HT. unfold env, ctx in HT.
      unfold E1, refs, env. rewrite HT. unfold K1, kenv. rewrite dom_insert_L. apply (sim_visit C st true Φ sigs N HΦ); try done.
      * by rewrite fmap_length.
      * intros r Hin. split; [by apply Hrs|]. by apply Hun.
    + intros y Hy. apply Htxt. right. exists u. by right.
    + intros y Hy. apply minus_in in Hy as [Hy|Hy]; [by apply HN|by apply Hrs].
    + intros y Hy. apply minus_inv in Hy as (Hy&Hnx&Hny).
      eapply atmost_same; [apply Hoth; [apply HN, elem_of_union; by left|done|done]|by apply HA].
    + assert (HQ : forall y, y ∈ R ∖ {[x]} ∖ list_to_set (rs u) -> below σ1 (ρ y) d).
      { intros y Hy. apply minus_inv in Hy as (Hy&Hnx&Hny).
        eapply below_same; [apply Hoth; [apply HN, elem_of_union; by right|done|done]|by apply HR]. }
      intros y Hy. destruct (decide (x ∈ A ∪ R)) as [HxAR|]; [|by apply HQ]. apply elem_of_union in Hy as [Hy|Hy]; [|by apply HQ].
      apply Hmem; [done|]. by apply elem_of_list_to_set in Hy.
  - destruct Hc as (tys&Hx&Hps). destruct (s_var _ _ _ _ _ _ _ Hsim _ _ Hx) as [HxN HxE'].
    unfold ctx, env in *. rewrite lookup_fmap in HxE'.
    destruct (E !! ρ x) as [[tys' a|]|] eqn:HxE; simpl in HxE'; try done. injection HxE' as ->.
    destruct (visit_type C st true eqf ltf HC E K s (ρ x) tys a Hr HxE) as (k&t&l&kd&w&z&ls&Hvh&Ht&_&Hl&Hlen&Hv).
    unfold dispatch. unfold env in *. rewrite HxE Hv. unfold ret at 1.
    eapply (IH (ity_uid t)); [done|..|by eapply Hps, elem_of_list_lookup_2|apply Hst|done|done|done|done|done].
    intros y Hy. apply Htxt. right. by exists (ity_uid t).
  - done.
  - destruct Hst as (x&ys&->&HxR). destruct (HR x HxR) as (tys&k&Hk&Hdk).
    destruct d as [|d]; [lia|]. cbn [call]. destruct Hc as (ts&Hf&Hnd&Hxs).
    destruct (funcs_lookup C st true Φ sigs N HΦ f ts Hf) as (F&HF&Hnp&Hlen&Htx&Hb). rewrite HF.
    pose proof (Forall_lookup_1 _ _ _ _ HS HF) as Hsf. unfold structural_func in Hsf.
    destruct (fn_params F) as [|x0 ps] eqn:Hps; [done|].
    assert (Hsim' : sim N (S lev) (binding N lev (x0 :: ps) (map ρ (x :: ys))) (list_to_map (zip (x0 :: ps) ts)) ∅ (types E) (dom K)).
    { apply sim_call; try done.
      - intros y Hy. apply Htx. by left.
      - apply NoDup_fmap_2_strong; [|done]. intros a b Ha Hb'. apply (s_inj _ _ _ _ _ _ _ Hsim); by apply Htxt.
      - apply Forall2_fmap_l. eapply Forall2_impl; [exact Hxs|]. simpl. intros a t Ha. by eapply (s_var _ _ _ _ _ _ _ Hsim).
      - intros z Hz. apply elem_of_list_fmap in Hz as (a&->&Ha). apply (s_lt _ _ _ _ _ _ _ Hsim). by apply Htxt.
      - apply (s_fresh _ _ _ _ _ _ _ Hsim). }
    refine (IHd d _ (fn_body F) (S lev) _ _ ∅ {[x0]} ∅ E K s σ n m Hsim' _ Hb Hsf Hr Hs _ _ _); [lia|..].
    + intros y Hy. apply Htx. by right.
    + intros y Hy. apply elem_of_union in Hy as [Hy|Hy]; [|by apply elem_of_empty in Hy]. apply elem_of_singleton in Hy as ->. apply Htx. left. by left.
    + intros y Hy. apply elem_of_singleton in Hy as ->.
      rewrite (binding_param N lev _ (map ρ (x :: ys)) x0 (ρ x)); [|done|..].
      * intros tys' k' Hk'. unfold is_var, astate in *. rewrite Hk in Hk'. injection Hk' as <- <-. lia.
      * rewrite Hlen map_length. symmetry. by eapply Forall2_length.
      * simpl. left.
    + intros y Hy. by apply elem_of_empty in Hy.
Qed.

Lemma results p (E : env) (K : kenv) s : compiles C st true (types E) (dom K) p -> rreached E K s ->
  (forall n m, prun C n m eqf ltf p E K s <> PMore) ->
  exists r, match r with PRet E' K' s' | PExn _ E' K' s' => E' = E /\ K' = K /\ rreached E K s' | _ => False end /\
    proceeds C eqf ltf p 0 E K s r /\ forall n m, prun C n m eqf ltf p E K s = PWrong FFuel \/ prun C n m eqf ltf p E K s = r.
Proof.
  intros Hc Hr Hne. destruct (sound C st true eqf ltf HC eq_refl p E K s 0 Hc Hr) as (r&[n0 Hn]&Hf). exists r. split; [|split; [by exists n0|]].
  - destruct r; try done. simpl in Hf. by destruct (Hne n0 0 (Hn n0 ltac:(lia))).
  - intros n m. rewrite (prun_rounds C eqf ltf n 0 m); [|lia|done].
    assert (Hd : prun C n 0 eqf ltf p E K s = PWrong FFuel \/ prun C n 0 eqf ltf p E K s <> PWrong FFuel).
    { destruct (prun C n 0 eqf ltf p E K s) as [| |[]|]; try (by right); by left. }
    destruct Hd as [Hd|Hd]; [by left|right]. rewrite -(prun_mono C eqf ltf n (n `max` n0)); [|lia|done]. apply Hn. lia.
Qed.

Lemma main_ends : forall p lev ρ Γ0 T0 (E : env) (K : kenv) s,
  sim N lev ρ Γ0 T0 (types E) (dom K) -> (forall x, fmentions p x -> x < N) -> fcompiles C st true sigs Γ0 T0 p -> loopless p ->
  rreached E K s ->
  exists d0, forall d n m, d0 <= d -> prun C n m eqf ltf (expand (call d lev) ρ p) E K s <> PMore.
Proof.
  assert (Hgrow : forall d d' lev p ρ n m E K s, d <= d' -> prun C n m eqf ltf (expand (call d lev) ρ p) E K s <> PMore ->
    prun C n m eqf ltf (expand (call d' lev) ρ p) E K s = prun C n m eqf ltf (expand (call d lev) ρ p) E K s).
  { intros d d' lev p ρ n m E K s Hd Hne. edestruct (expand_grow C eqf ltf n m) as [Heq|Heq]; [|exact Heq|by destruct Hne].
    intros f xs E1 K1 s1. by apply (call_grow C eqf ltf Φ N n m d d' Hd). }
  induction p as [|c|c p IH|p IHp q IHq|p IHp q IHq|x rs ps IH|x ps IH|x y p IH|f xs];
    intros lev ρ Γ0 T0 E K s Hsim Htxt Hc Hl Hr; cbn [expand prun].
  - by exists 0.
  - exists 0. intros. apply not_more.
  - destruct Hc as (x&t&Hd&Hx&HxT&Hp).
    assert (Hlt : x < N). { apply Htxt. left. destruct c as [[]| | | | |]; simpl in Hd; try done; destruct Hd as [-> _]; simpl; set_solver. }
    assert (Hd' : declaration C st true (types E : ctx) (ren ρ c) (ρ x) t).
    { eapply decl_ren; [|exact Hd]. intros y t' Hy. by eapply (s_var _ _ _ _ _ _ _ Hsim). }
    destruct (s_new _ _ _ _ _ _ _ Hsim x Hlt Hx HxT) as [H1 H2].
    assert (HxE : E !! ρ x = None). { unfold env, ctx in *. rewrite lookup_fmap in H1. by destruct (E !! ρ x). }
    assert (HxK : K !! ρ x = None) by (by apply not_elem_of_dom).
    rewrite (decl_declares C st true _ _ _ _ Hd').
    assert (Ha : radmissible C st true E K s (ren ρ c)) by by eapply decl_admissible.
    destruct (rx_runs C st true eqf ltf HC (ren ρ c) E K s Hr Ha) as (n0&E'&K'&o&s'&Hn&Ht).
    assert (Hr' : rreached E' K' s') by by eapply rtakes_reached.
    assert (Hrx : forall n, rx n (ren ρ c) E K s = RFaulted FFuel \/ rx n (ren ρ c) E K s = RDone E' K' o s').
    { intros n. destruct (rx_ok C st true eqf ltf HC n _ E K s Hr Ha) as [Hf|(E1&K1&o1&s1&Hx1&_)]; [by left|right].
      rewrite -(Hn (n `max` n0) ltac:(lia)). symmetry. apply rexec_mono; [lia|by rewrite Hx1]. }
    destruct (decl_frame C st true eqf ltf n0 (ren ρ c) (ρ x) t E K s E' K' o s' Hd' (Hn n0 ltac:(lia))) as [-> [(e&->&->)|[Ho (b&Hb&->)]]].
    { exists 0. intros d n m _. destruct (Hrx n) as [-> | ->]; done. }
    assert (Hpo : presult_of (RDone (<[ρ x:=b]> E) K o s') = PRet (<[ρ x:=b]> E) K s') by (destruct o; try done; by destruct (Ho e)).
    destruct (IH lev ρ (<[x:=t]> Γ0) T0 (<[ρ x:=b]> E) K s') as [d0 Hd0]; [|by intros; apply Htxt; right|done..|].
    { unfold env, ctx in *. rewrite fmap_insert Hb. by apply sim_let. }
    exists d0. intros d n m Hle. destruct (Hrx n) as [-> | ->]; [done|]. rewrite Hpo. cbn [and_then]. apply exit_more. by apply Hd0.
  - destruct Hc as [Hcp Hcq], Hl as [Hlp Hlq].
    destruct (IHp lev ρ Γ0 T0 E K s) as [d1 Hd1]; try done; [by intros; apply Htxt; left|].
    destruct (results (expand (call d1 lev) ρ p) E K s) as (r&Hf&_&Hall); [..|by intros; apply Hd1|].
    { eapply (expand_compiles C st true Φ sigs N HΦ lev); [exact (call_compiles C st true Φ sigs N HΦ d1 lev)|exact Hsim|by intros; apply Htxt; left|exact Hcp]. }
    { done. }
    destruct r as [E' K' s'|e E' K' s'| |]; try done; destruct Hf as (->&->&Hr').
    + destruct (IHq lev ρ Γ0 T0 E K s') as [d2 Hd2]; try done; [by intros; apply Htxt; right|].
      exists (d1 `max` d2). intros d n m Hle. rewrite (Hgrow d1 d); [|lia|by apply Hd1].
      destruct (Hall n m) as [-> | ->]; [done|]. cbn [and_then]. apply Hd2. lia.
    + exists d1. intros d n m Hle. rewrite (Hgrow d1 d); [|lia|by apply Hd1]. by destruct (Hall n m) as [-> | ->].
  - destruct Hc as [Hcp Hcq], Hl as [Hlp Hlq].
    destruct (IHp lev ρ Γ0 T0 E K s) as [d1 Hd1]; try done; [by intros; apply Htxt; left|].
    destruct (results (expand (call d1 lev) ρ p) E K s) as (r&Hf&_&Hall); [..|by intros; apply Hd1|].
    { eapply (expand_compiles C st true Φ sigs N HΦ lev); [exact (call_compiles C st true Φ sigs N HΦ d1 lev)|exact Hsim|by intros; apply Htxt; left|exact Hcp]. }
    { done. }
    destruct r as [E' K' s'|e E' K' s'| |]; try done; destruct Hf as (->&->&Hr').
    + exists d1. intros d n m Hle. rewrite (Hgrow d1 d); [|lia|by apply Hd1]. by destruct (Hall n m) as [-> | ->].
    + destruct (IHq lev ρ Γ0 T0 E K s') as [d2 Hd2]; try done; [by intros; apply Htxt; right|].
      exists (d1 `max` d2). intros d n m Hle. rewrite (Hgrow d1 d); [|lia|by apply Hd1].
      destruct (Hall n m) as [-> | ->]; [done|]. apply Hd2. lia.
  - destruct Hc as (tys&Hx&Hps). destruct (s_var _ _ _ _ _ _ _ Hsim _ _ Hx) as [HxN HxE'].
    unfold ctx, env in *. rewrite lookup_fmap in HxE'.
    destruct (E !! ρ x) as [[tys' a|]|] eqn:HxE; simpl in HxE'; try done. injection HxE' as ->.
    destruct (visit_type C st true eqf ltf HC E K s (ρ x) tys a Hr HxE) as (k&t&l&kd&w&z&ls&Hvh&Ht&_&Hl'&Hlen&Hv).
    destruct (Hps t) as (Hnd&Hlr&Hun&Hp); [by eapply elem_of_list_lookup_2|].
    set (u := ity_uid t) in *.
    assert (Hrs : forall r, r ∈ rs u -> r < N) by (intros r Hin; apply Htxt; right; exists u; by left).
    assert (Hun' : forall r, r ∈ map ρ (rs u) -> E !! r = None /\ K !! r = None).
    { intros r Hin. apply elem_of_list_fmap in Hin as (r'&->&Hin). destruct (Hun r' Hin) as [H1 H2].
      destruct (s_new _ _ _ _ _ _ _ Hsim r' (Hrs r' Hin) H1 H2) as [H3 H4]. split; [|by apply not_elem_of_dom].
      unfold env, ctx in *. rewrite lookup_fmap in H3. by destruct (E !! ρ r'). }
    assert (Hnd' : NoDup (map ρ (rs u))).
    { apply NoDup_fmap_2_strong; [|done]. intros a' b' Ha Hb. apply (s_inj _ _ _ _ _ _ _ Hsim); by apply Hrs. }
    assert (Hlr' : length (map ρ (rs u)) = length (ut_members (te C u))) by (by rewrite map_length).
    destruct (open_ok C st true eqf ltf HC (ρ x) (map ρ (rs u)) E K s tys a t l kd w z ls Hr HxE Hl' Hv Hnd' Hlr' Hun') as [Ho Hr1].
    set (refs := zip (map ρ (rs u)) (zip_with BVar (ut_members (te C u)) ls)) in *.
    destruct (IH u lev ρ (list_to_map (zip (rs u) (TVar <$> ut_members (te C u))) ∪ delete x Γ0) ({[x]} ∪ T0) (list_to_map refs ∪ delete (ρ x) E) (<[ρ x:=(BVar tys a, refs)]> K) s) as [d0 Hd0].
    { pose proof (types_refs E (ρ x) (map ρ (rs u)) (ut_members (te C u)) ls Hlr' Hlen) as HT. unfold env, ctx in HT.
      unfold refs, env. rewrite HT. unfold kenv. rewrite dom_insert_L. apply (sim_visit C st true Φ sigs N HΦ); try done.
      - by rewrite fmap_length.
      - intros r Hin. split; [by apply Hrs|]. by apply Hun. }
    { intros y Hy. apply Htxt. right. exists u. by right. }
    { exact Hp. }
    { apply Hl. }
    { done. }
    exists d0. intros d n m Hle. unfold dispatch. unfold env in *. rewrite HxE Hv. unfold ret at 1. rewrite Ho. cbn [presult_of and_then].
    apply exit_more. by apply Hd0.
  - destruct Hc as (tys&Hx&Hps). destruct (s_var _ _ _ _ _ _ _ Hsim _ _ Hx) as [HxN HxE'].
    unfold ctx, env in *. rewrite lookup_fmap in HxE'.
    destruct (E !! ρ x) as [[tys' a|]|] eqn:HxE; simpl in HxE'; try done. injection HxE' as ->.
    destruct (visit_type C st true eqf ltf HC E K s (ρ x) tys a Hr HxE) as (k&t&l&kd&w&z&ls&Hvh&Ht&_&Hl'&Hlen&Hv).
    destruct (IH (ity_uid t) lev ρ Γ0 T0 E K s) as [d0 Hd0]; [done|..|by eapply Hps, elem_of_list_lookup_2|apply Hl|done|].
    { intros y Hy. apply Htxt. right. by exists (ity_uid t). }
    exists d0. intros d n m Hle. unfold dispatch. unfold env in *. rewrite HxE Hv. unfold ret at 1. by apply Hd0.
  - done.
  - destruct xs as [|x ys]; [done|]. destruct Hc as (ts&Hf&Hnd&Hxs).
    destruct (funcs_lookup C st true Φ sigs N HΦ f ts Hf) as (F&HF&Hnp&Hlen&Htx&Hb).
    pose proof (Forall_lookup_1 _ _ _ _ HS HF) as Hsf. unfold structural_func in Hsf.
    destruct (fn_params F) as [|x0 ps] eqn:Hps; [done|].
    destruct (looks C st true eqf ltf HC _ _ _ Hr) as (σ&κ&Hs&_).
    set (d0 := match σ !! ρ x with Some (AVar _ k) => udepth k.2 | _ => 0 end).
    assert (Hsim' : sim N (S lev) (binding N lev (x0 :: ps) (map ρ (x :: ys))) (list_to_map (zip (x0 :: ps) ts)) ∅ (types E) (dom K)).
    { apply sim_call; try done.
      - intros y Hy. apply Htx. by left.
      - apply NoDup_fmap_2_strong; [|done]. intros a b Ha Hb'. apply (s_inj _ _ _ _ _ _ _ Hsim); by apply Htxt.
      - apply Forall2_fmap_l. eapply Forall2_impl; [exact Hxs|]. simpl. intros a t Ha. by eapply (s_var _ _ _ _ _ _ _ Hsim).
      - intros z Hz. apply elem_of_list_fmap in Hz as (a&->&Ha). apply (s_lt _ _ _ _ _ _ _ Hsim). by apply Htxt.
      - apply (s_fresh _ _ _ _ _ _ _ Hsim). }
    exists (S d0). intros [|d] n m Hle; [lia|]. cbn [Calls.call]. rewrite HF Hps.
    refine (ends d (fn_body F) (S lev) _ _ ∅ {[x0]} ∅ E K s σ n m Hsim' _ Hb Hsf Hr Hs _ _ _).
    + intros y Hy. apply Htx. by right.
    + intros y Hy. apply elem_of_union in Hy as [Hy|Hy]; [|by apply elem_of_empty in Hy]. apply elem_of_singleton in Hy as ->. apply Htx. left. by left.
    + intros y Hy. apply elem_of_singleton in Hy as ->.
      rewrite (binding_param N lev _ (map ρ (x :: ys)) x0 (ρ x)); [|done|..].
      * intros tys' k' Hk'. unfold is_var, d0, astate in *. rewrite Hk' in Hle. lia.
      * rewrite Hlen map_length. symmetry. by eapply Forall2_length.
      * simpl. left.
    + intros y Hy. by apply elem_of_empty in Hy.
Qed.

Lemma program_ends p (E : env) (K : kenv) s : (forall x, is_Some (E !! x) \/ is_Some (K !! x) \/ fmentions p x -> x < N) ->
  fcompiles C st true sigs (types E) (dom K) p -> loopless p -> rreached E K s ->
  exists d0 n0 s', rreached E K s' /\
    ((forall d n m, d0 <= d -> n0 <= n -> prun C n m eqf ltf (unroll Φ N d p) E K s = PRet E K s') \/
     exists e, forall d n m, d0 <= d -> n0 <= n -> prun C n m eqf ltf (unroll Φ N d p) E K s = PExn e E K s').
Proof.
  intros HN Hc Hl Hr. assert (Hsim : sim N 0 id (types E) (dom K) (types E) (dom K)).
  { apply sim_start. intros x [Hx|Hx]; apply HN; [left|right; left]; [|by apply elem_of_dom].
    unfold env, ctx in *. rewrite lookup_fmap fmap_is_Some in Hx. done. }
  destruct (main_ends p 0 id (types E) (dom K) E K s Hsim) as [d0 Hd0]; try done; [by intros; apply HN; auto|].
  destruct (results (unroll Φ N d0 p) E K s) as (r&Hf&[n0 Hn]&_).
  { eapply (expand_compiles C st true Φ sigs N HΦ 0); [exact (call_compiles C st true Φ sigs N HΦ d0 0)|exact Hsim|by intros; apply HN; auto|exact Hc]. }
  { done. }
  { intros. by apply Hd0. }
  assert (Hall : forall d n m, d0 <= d -> n0 <= n -> prun C n m eqf ltf (unroll Φ N d p) E K s = r).
  { intros d n m Hd Hle. rewrite (unroll_grow C eqf ltf Φ N n m d0 d); [|done|by apply Hd0].
    rewrite (prun_rounds C eqf ltf n 0 m); [by apply Hn|lia|by apply Hd0]. }
  destruct r as [E' K' s'|e E' K' s'| |]; try done; destruct Hf as (->&->&Hr'); exists d0, n0, s'; (split; [done|]).
  - by left.
  - right. by exists e.
Qed.
End ends.

(** ** Whole programs *)
Section whole.
Context (C : cfg) (st : bool) (eqf ltf : uid -> uval -> uval -> bool) (HC : good_env C st true).
Context (Φ : list func) (sigs : list (list vty)) (N : nat) (HΦ : funcs_compile C st true sigs N Φ).
Notation rreached := (rreached C st true eqf ltf).
Notation types := (fmap bnd_ty).
Lemma program_compiles d p (E : env) (K : kenv) :
  (forall x, is_Some (E !! x) \/ is_Some (K !! x) \/ fmentions p x -> x < N) ->
  fcompiles C st true sigs (types E) (dom K) p -> compiles C st true (types E) (dom K) (unroll Φ N d p).
Proof.
  intros HN Hc. apply (unroll_compiles C st true Φ sigs N HΦ); [|done]. intros x [Hx|[Hx|Hx]]; apply HN.
  - left. unfold env, ctx in *. rewrite lookup_fmap fmap_is_Some in Hx. done.
  - right. left. by apply elem_of_dom.
  - auto.
Qed.
Lemma program_sound p (E : env) (K : kenv) s d m :
  (forall x, is_Some (E !! x) \/ is_Some (K !! x) \/ fmentions p x -> x < N) ->
  fcompiles C st true sigs (types E) (dom K) p -> rreached E K s ->
  exists r, proceeds C eqf ltf (unroll Φ N d p) m E K s r /\
    match r with
    | PRet E' K' s' | PExn _ E' K' s' => E' = E /\ K' = K /\ rreached E K s'
    | PMore => True
    | PWrong _ => False
    end.
Proof.
  intros HN Hc Hr. destruct (sound C st true eqf ltf HC eq_refl (unroll Φ N d p) E K s m) as (r&Hp&Hf); [by apply program_compiles|done|].
  exists r. split; [done|]. by destruct r.
Qed.
Lemma program_clean p orc d n m : (forall x, fmentions p x -> x < N) -> fcompiles C st true sigs ∅ ∅ p ->
  match prun C n m eqf ltf (unroll Φ N d p) ∅ ∅ (init orc) with
  | PRet E' K' s' | PExn _ E' K' s' => mem s' = ∅ /\ forall l,
      (forall k, cnt (EvC k l) (tr s') = cnt (EvD k l) (tr s')) /\ block l (tr s') <> Some BLive
  | _ => True
  end.
Proof.
  intros HN Hc. apply (nothing_left C st true eqf ltf HC eq_refl). apply (unroll_compiles C st true Φ sigs N HΦ); [|done].
  intros x [Hx|[Hx|Hx]]; [by destruct Hx|set_solver|by apply HN].
Qed.
Lemma call_ends (HS : Forall structural_func Φ) f x xs (E : env) (K : kenv) s tys k d n m :
  (forall z, is_Some (E !! z) \/ is_Some (K !! z) \/ z ∈ x :: xs -> z < N) ->
  fcompiles C st true sigs (types E) (dom K) (FCall f (x :: xs)) -> rreached E K s ->
  sees C E s x tys k -> udepth k.2 < d ->
  prun C n m eqf ltf (unroll Φ N d (FCall f (x :: xs))) E K s <> PMore.
Proof.
  intros HN Hc Hr Hs Hd. destruct (looks C st true eqf ltf HC _ _ _ Hr) as (σ&κ&Hσ&_).
  refine (ends C st eqf ltf HC Φ sigs N HΦ HS d (FCall f (x :: xs)) 0 id (types E) (dom K) ∅ {[x]} E K s σ n m _ _ Hc _ Hr Hσ _ _ _).
  - apply sim_start. intros z [Hz|Hz]; apply HN; [left|right; left]; [|by apply elem_of_dom].
    unfold env, ctx in *. rewrite lookup_fmap fmap_is_Some in Hz. done.
  - intros z Hz. apply HN. auto.
  - exists x, xs. split; [done|]. by apply elem_of_singleton.
  - intros z Hz. apply HN. right. right. apply elem_of_union in Hz as [Hz|Hz]; [by apply elem_of_empty in Hz|]. apply elem_of_singleton in Hz as ->. by left.
  - intros z Hz. by apply elem_of_empty in Hz.
  - intros z Hz. apply elem_of_singleton in Hz as ->. exists tys, k. split; [|done].
    destruct Hs as (a&Ha&Hk). specialize (Hσ x). unfold is_var. unfold env, astate in *. simpl. rewrite Ha in Hσ. unfold id. destruct (σ !! x) as [[tys' k'|]|]; try done.
    destruct Hσ as [-> Hk']. do 2 f_equal. by eapply var_holds_unique.
Qed.
End whole.
