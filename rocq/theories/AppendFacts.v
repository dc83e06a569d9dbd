(** Appending to lists of variants that need heap backups (proofs). *)
From Coq.ssr Require Import ssreflect.
From Coq Require Import ZArith Lia.
From stdpp Require Import gmap.
From iris.prelude Require Import prelude.
From Verif Require Import Base Types Variant Sem Values ValuesFacts Client Observe ObserveFacts Spec Trace History Reach ReachFacts CoreFacts.
From Verif Require Import SpecSem HistoryProof Places PlacesSpec PlacesProof PlacesFacts Programs ProgramsSpec ProgramsFacts PlacesAlikeSpec MeaningSpec MeaningFacts.
From Verif Require Import Calls CallsSpec CallsMeaningSpec CallsFacts CallsMeaningFacts TidySpec BlameSpec BlameFacts TidyFacts GuardsSpec GuardsFacts EndingSpec EndingFacts.

Section append.
Context (C : cfg) (eqf ltf : uid -> uval -> uval -> bool) (u : uid) (tys : list ity).
Context (Hu : ut_members (te C u) = [tys]).
Context (Ho : forall t, t ∈ tys -> ity_uid t <> u -> ut_members (te C (ity_uid t)) = []).
Notation Φ := [append_func u].
Notation fmeans := (fmeans C eqf ltf Φ).

Lemma call_inv2 x y σ r σ' : fmeans (FCall 0 [x; y]) σ r σ' -> exists σ0 σ1, σ0 !! 1 = σ !! x /\ σ0 !! 2 = σ !! y /\
  fmeans (fn_body (append_func u)) σ0 r σ1 /\ σ' !! x = σ1 !! 1 /\ σ' !! y = σ1 !! 2 /\ forall z, z <> x -> z <> y -> σ' !! z = σ !! z.
Proof.
  intros H. inversion H as [| | | | | | | | | | | | |f F xs σ2 r2 σ0 σ1 σ3 Hf H1 H2 [F' Hf' H3] H4 H5]; subst.
  simpl in Hf, Hf'. injection Hf as <-. injection Hf' as <-. exists σ0, σ1. simpl in *.
  split; [apply H1; set_solver|]. split; [apply H1; set_solver|]. split; [done|]. split; [apply H4; set_solver|]. split; [apply H4; set_solver|].
  intros z Hz Hz'. apply H5. set_solver.
Qed.
Lemma appended v : forall bi x y σ r σ' w, x <> y -> σ !! x = Some (AVar tys (bi, v)) -> σ !! y = Some (AVar tys w) ->
  shapedv C false true tys (bi, v) -> fmeans (FCall 0 [x; y]) σ r σ' ->
  (forall z, z <> x -> σ' !! z = σ !! z) /\ (r = None -> σ' !! x = Some (AVar tys (append_image w bi v))).
Proof.
  induction v as [z ks IH] using uval_ind'. intros bi x y σ r σ' w Hne Hx Hy Hsh Hm.
  destruct (call_inv2 _ _ _ _ _ Hm) as (σ0&σ1&H1&H2&Hb&E1&E2&Hoth). rewrite Hx in H1. rewrite Hy in H2. clear Hm.
  assert (Hg : σ1 !! 2 = Some (AVar tys w) /\ (r = None -> σ1 !! 1 = Some (AVar tys (append_image w bi (UV z ks))))).
  2: { destruct Hg as [G2 G1]. split; [|intros Hr; by rewrite E1 G1]. intros z' Hz. destruct (decide (z' = y)) as [->|Hzy]; [by rewrite E2 G2|by apply Hoth]. }
  clear E1 E2 Hoth Hx Hy Hne x y σ σ'. simpl in Hb.
  inversion Hb as [| | | | | | | | |x' ps σ2 tys' k u' r' σ3 Hv Hh Hp| | | |]; subst. clear Hb.
  unfold is_var, astate in *. rewrite H1 in Hv. injection Hv as <- <-.
  destruct Hsh as (t&Ht&Hs&_). destruct Hh as (t'&Ht'&<-). simpl in Ht, Ht'. rewrite Ht in Ht'. injection Ht' as <-.
  simpl in Hs. apply shaped_unfold in Hs as [_ Hs].
  destruct (decide (ity_uid t = u)) as [Heq|Hne].
  - rewrite -> Heq in *. rewrite -> Hu in Hs. destruct (Forall2_cons_inv_l _ _ _ _ Hs) as (ka&ks2&Ha&Hs2&->). apply Forall2_nil_inv_l in Hs2 as ->.
    apply Forall_cons_1 in IH as [IHa _].
    inversion Hp as [| | | | | | | |x' rs ps' σ2 tys' bi' z' ks1 u' r' σ3 ks' Hv Hh Hp1 Hf| | | | |]; subst. clear Hp.
    unfold is_var, astate in *. rewrite H1 in Hv. injection Hv as <- <- <- <-.
    destruct Hh as (t'&Ht'&<-). simpl in Ht'. rewrite Ht in Ht'. injection Ht' as <-.
    destruct (decide (ity_uid t = ity_uid t)) as [_|Hn]; [|done].
    destruct (Forall2_cons_inv_l _ _ _ _ Hf) as (ka'&ks2&[ta Hka]&Hf2&->). apply Forall2_nil_inv_l in Hf2 as ->.
    rewrite Hu in Hp1. simpl in Hp1. destruct ka as [bia va].
    assert (Hd : 30 <> 2) by done. edestruct (fun A B => IHa bia 30 2 (<[30:=AVar tys (bia, va)]> ∅ ∪ delete 1 σ0) r σ3 w Hd A B Ha Hp1) as [Hoth Him].
    { apply lookup_union_Some_l. apply lookup_insert. }
    { rewrite lookup_union_r; [|by rewrite lookup_insert_ne]. by rewrite lookup_delete_ne. }
    split.
    + rewrite lookup_insert_ne; [|done]. simpl. rewrite lookup_delete_ne; [|done]. rewrite Hoth; [|done].
      rewrite lookup_union_r; [|by rewrite lookup_insert_ne]. by rewrite lookup_delete_ne.
    + intros Hr. rewrite lookup_insert. specialize (Him Hr). unfold is_var in Hka. rewrite Hka in Him. injection Him as _ ->. done.
  - rewrite (Ho t) in Hs; [|by eapply elem_of_list_lookup_2|done]. apply Forall2_nil_inv_l in Hs as ->.
    inversion Hp as [|c σ2 o σ3 Hst| | | | | | | | | | | |]; subst. inversion Hst as [c o' σ4 Ha| | | | | | | | | |]; subst.
    inversion Ha; subst; unfold is_var, astate in *; simpl; try done.
    + rewrite lookup_insert_ne; [|done]. split; [done|]. intros _. rewrite lookup_insert.
      match goal with H : is_var σ0 2 _ _ |- _ => unfold is_var in H; unfold astate in *; rewrite H2 in H; by injection H as <- <- | H : _ = Some (AVar _ ?k) |- Some (AVar _ ?k) = _ => rewrite H2 in H; by injection H as <- <- end.
    + rewrite lookup_insert_ne; [|done]. done.
Qed.

Lemma of_two (r a b : name) : r ∈ [a; b] -> r = a \/ r = b.
Proof. rewrite !elem_of_cons elem_of_nil. tauto. Qed.
(** It compiles, is structurally recursive, and has no try block. *)
Lemma append_below x : x ∈ fn_params (append_func u) \/ fmentions (fn_body (append_func u)) x -> x < 32.
Proof.
  simpl. intros [H|[->|(u'&H)]]; [apply of_two in H; lia|lia|]. destruct (decide (u' = u)).
  - destruct H as [->|(u2&H)]; [lia|]. destruct (decide (u2 = u)).
    + destruct H as [H|H]; [apply elem_of_list_singleton in H; lia|apply of_two in H; lia].
    + by destruct H as [H|H]; [inversion H|].
  - apply of_two in H. lia.
Qed.
Lemma append_types st nb N : 32 <= N -> funcs_compile C st nb [[TVar tys; TVar tys]] N Φ.
Proof.
  intros HN. constructor; [|constructor]. split; [apply (bool_decide_unpack _); by vm_compute|]. split; [done|]. split.
  { intros x Hx. apply append_below in Hx. lia. }
  exists tys. split; [by vm_compute|]. intros t Ht. cbv zeta. destruct (decide (ity_uid t = u)) as [Heq|Hne].
  - exists tys. split; [by vm_compute|]. intros t' Ht'. cbv beta zeta. destruct (decide (ity_uid t' = u)) as [Heq'|Hne'].
    + rewrite Heq'. rewrite Hu. split; [apply NoDup_singleton|]. split; [done|]. split.
      { intros r Hr. apply elem_of_list_singleton in Hr as ->. split; [by vm_compute|apply (bool_decide_unpack _); by vm_compute]. }
      exists [TVar tys; TVar tys]. split; [done|]. split; [apply (bool_decide_unpack _); by vm_compute|].
      constructor; [by vm_compute|]. constructor; [by vm_compute|constructor].
    + rewrite (Ho t') //. split; [constructor|]. split; [done|]. split; [by inversion 1|done].
  - exists tys. split; by vm_compute.
Qed.
Lemma append_structure : Forall structural_func Φ.
Proof.
  constructor; [|constructor]. intros u'. cbv zeta. destruct (decide (u' = u)) as [->|]; [|done].
  intros u2. cbv zeta. destruct (decide (u2 = u)) as [->|]; [|done].
  match goal with |- context [decide (?x ∈ ?A ∪ ?B)] => destruct (decide (x ∈ A ∪ B)) as [_|Hn] end; [|destruct Hn; set_solver].
  exists 30, [2]. split; [done|]. set_solver.
Qed.
Lemma append_tryless : Forall (fun F => ftryless (fn_body F)) Φ.
Proof. constructor; [|constructor]. intros u'. destruct (decide (u' = u)); [|done]. intros u2. by destruct (decide (u2 = u)). Qed.
Lemma append_getless : Forall (fun F => fgetless (fn_body F)) Φ.
Proof. constructor; [|constructor]. intros u'. destruct (decide (u' = u)); [|done]. intros u2. by destruct (decide (u2 = u)). Qed.

Context (st nb : bool) (HC : good_env C st nb).
Lemma append_runs N (E : env) (K : kenv) s x y k w d m : 32 <= N -> x <> y ->
  (forall z, is_Some (E !! z) \/ is_Some (K !! z) -> z < N) -> rreached C st nb eqf ltf E K s -> all_but C nobody E s ->
  sees C E s x tys k -> sees C E s y tys w -> udepth k.2 < d ->
  exists s', rreached C st nb eqf ltf E K s' /\
    (forall z tys' k', z <> x -> sees C E s z tys' k' -> sees C E s' z tys' k') /\
    (forall z u' v', sees_obj C E s z u' v' -> sees_obj C E s' z u' v') /\
    ((proceeds C eqf ltf (unroll Φ N d (FCall 0 [x; y])) m E K s (PRet E K s') /\ all_but C nobody E s' /\
      sees C E s' x tys (append_image w k.1 k.2)) \/
     exists e, ~ (calm_from s /\ tidy C E K s) /\ proceeds C eqf ltf (unroll Φ N d (FCall 0 [x; y])) m E K s (PExn e E K s')).
Proof.
  intros HN Hxy HNE Hr Hb Hx Hy Hd. pose proof Hx as Hx0. pose proof Hy as Hy0.
  destruct Hx as (a&Hx&Hk). destruct Hy as (b&Hy&Hw).
  assert (HΓ : (bnd_ty <$> E : ctx) !! x = Some (TVar tys)). { unfold env, ctx in *. by rewrite lookup_fmap Hx. }
  assert (HΓ' : (bnd_ty <$> E : ctx) !! y = Some (TVar tys)). { unfold env, ctx in *. by rewrite lookup_fmap Hy. }
  assert (Hc : fcompiles C st nb [[TVar tys; TVar tys]] (bnd_ty <$> E) (dom K) (FCall 0 [x; y])).
  { exists [TVar tys; TVar tys]. split; [done|]. split; [|by repeat constructor]. apply NoDup_cons; split; [|apply NoDup_singleton]. by rewrite elem_of_list_singleton. }
  assert (Hall : forall z, is_Some (E !! z) \/ is_Some (K !! z) \/ z ∈ [x; y] -> z < N).
  { intros z [Hz|[Hz|Hz]]; [auto..|]. apply of_two in Hz as [->| ->]; apply HNE; left; by eexists. }
  pose proof (append_types st nb N HN) as HΦ.
  destruct (looks C st nb eqf ltf HC _ _ _ Hr) as (σ&κ&Hs&Hκ&_).
  assert (Ht : ftryless (FCall 0 [x; y])) by done.
  destruct (tryless_functions C st nb eqf ltf HC Φ _ N HΦ append_tryless (FCall 0 [x; y]) E K s d m σ κ Hall Ht Hc Hr Hb Hs Hκ) as (r&[n0 Hp]&Hfine).
  pose proof (Hp n0 (le_n _)) as Hp0.
  pose proof (tryless_bound C st nb eqf ltf HC Φ _ N HΦ append_structure append_tryless 0 x [y] E K s tys k d n0 m Hall Hc Hr Hb Hx0 Hd) as Hmore.
  rewrite Hp0 in Hmore.
  assert (Hσ : forall z a tys k, E !! z = Some (BVar tys a) -> var_holds C (mem s) tys a k -> σ !! z = Some (AVar tys k)).
  { intros z a' tys' k' Hz Hk'. specialize (Hs z). unfold env, astate in *. rewrite Hz in Hs. destruct (σ !! z) as [[]|]; try done. destruct Hs as [-> Hk2]. do 2 f_equal. by eapply var_holds_unique. }
  pose proof (Hσ _ _ _ _ Hx Hk) as Hσx. pose proof (Hσ _ _ _ _ Hy Hw) as Hσy. clear Hσ.
  assert (Hsh : shapedv C false true tys k). { eapply seen_shaped; [exact Hk|]. apply (Hb σ Hs x _ Hσx). by intros []. }
  assert (Hkeep : forall s' σ' r, shows C (mem s') E σ' -> fmeans (FCall 0 [x; y]) σ r σ' ->
    (forall z tys' k', z <> x -> sees C E s z tys' k' -> sees C E s' z tys' k') /\
    (forall z u' v', sees_obj C E s z u' v' -> sees_obj C E s' z u' v') /\ (r = None -> sees C E s' x tys (append_image w k.1 k.2))).
  { intros s' σ' r' Hs' Hm. destruct k as [bi v]. destruct (appended v bi x y σ r' σ' w Hxy Hσx Hσy Hsh Hm) as [Hoth Him]. split; [|split].
    - intros z tys' k' Hz (c&Hc'&Hzk). exists c. split; [done|]. pose proof (Hoth z Hz) as Ho'.
      specialize (Hs z). specialize (Hs' z). unfold env, astate in *. rewrite Ho' in Hs'. rewrite Hc' in Hs, Hs'.
      destruct (σ !! z) as [[]|]; try done. destruct Hs as [-> Hs], Hs' as [_ Hs']. by rewrite (var_holds_unique _ _ _ _ _ _ Hzk Hs).
    - intros z u' v' (c&Hc'&Hzv). exists c. split; [done|]. assert (Hz : z <> x). { intros ->. unfold env in *. by rewrite Hx in Hc'. }
      pose proof (Hoth z Hz) as Ho'. specialize (Hs z). specialize (Hs' z). unfold env, astate in *. rewrite Ho' in Hs'. rewrite Hc' in Hs, Hs'.
      destruct (σ !! z) as [[]|]; try done. destruct Hs as [-> Hs], Hs' as [_ Hs']. by rewrite (obj_holds_unique _ _ _ _ _ _ Hzv Hs).
    - intros Hr'. exists a. split; [done|]. specialize (Him Hr'). specialize (Hs' x). unfold env, astate in *. rewrite Hx Him in Hs'. by destruct Hs'. }
  destruct r as [E' K' s'|e E' K' s'|msg|]; try done.
  - destruct Hfine as (->&->&Hr'&Hb'&σ'&Hs'&_&Hm). exists s'. destruct (Hkeep _ _ _ Hs' Hm) as (Hk1&Hk2&Hk3). do 3 (split; [done|]).
    left. split; [by exists n0|]. split; [done|]. by apply Hk3.
  - destruct Hfine as (->&->&Hr'&σ'&Hs'&_&Hm). exists s'. destruct (Hkeep _ _ _ Hs' Hm) as (Hk1&Hk2&_). do 3 (split; [done|]).
    right. exists e. split; [|by exists n0]. intros [Hq Hti].
    destruct (program_tidy C st nb eqf ltf HC n0 m (unroll Φ N d (FCall 0 [x; y])) E K s) as [Hst _]; [by apply (tidy_compiles C st nb Φ _ N HΦ)|done..|].
    rewrite Hp0 in Hst. destruct Hst as (_&_&_&_&_&_&Hng). apply Hng. by apply unroll_getless; [exact append_getless|].
Qed.
End append.
