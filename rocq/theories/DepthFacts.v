(** The number of nested calls that commands need (proofs). *)
From Coq.ssr Require Import ssreflect.
From Coq Require Import ZArith Lia.
From stdpp Require Import gmap.
From iris.proofmode Require Import tactics.
From iris.bi Require Import big_op.
From Verif Require Import Base Types Dispatch DispatchFacts Variant Sem Values ValuesFacts Client Observe ObserveFacts Spec Trace History Owned OwnedFacts.
From Verif Require Import Heap Wp Rep SpecInt SpecVar SpecSem Link World ClientProof Levels HistoryProof Reach CostSpec.
From Verif Require Import ReachFacts CoreFacts CostFacts PlaceFacts AnswerFacts AlikeFacts DepthProof DepthSpec.

Section depth.
Context (C : cfg) (st nb : bool) (eqf ltf : uid -> uval -> uval -> bool).
Context (HC : good_env C st nb).
Notation W := (WPar st nb).
Notation reached := (reached C st nb eqf ltf).
Notation admissible := (admissible C st nb).
Notation does := (does C st nb eqf ltf).
Let Hwf : wf_env C W := good_env_wf C st nb HC.

(** ** Enough *)
Definition less {A} (L : list name) (m : gmap name A) : gmap name A := foldr delete m L.
Lemma less_lookup {A} L (m : gmap name A) x : less L m !! x = if decide (x ∈ L) then None else m !! x.
Proof.
  induction L as [|y L IH].
  { case_decide as H; [by apply not_elem_of_nil in H|done]. }
  cbn [less foldr]. fold (less L m). destruct (decide (x = y)) as [->|Hne].
  - rewrite lookup_delete. destruct (decide (y ∈ y :: L)) as [|H]; [done|]. destruct H. by left.
  - rewrite lookup_delete_ne // IH. clear IH. destruct (decide (x ∈ L)) as [H|H], (decide (x ∈ y :: L)) as [H'|H']; try done.
    + destruct H'. by right.
    + apply elem_of_cons in H' as [?|?]; done.
Qed.
Lemma world_less L E σ : world C W E σ ⊢ world C W (less L E) (less L σ) ∗ True.
Proof.
  induction L as [|z L IH]; simpl; [by iIntros "$"|]. rewrite IH. iIntros "[H _]".
  destruct (less L σ !! z) as [α|] eqn:Ez.
  - iDestruct (world_delete with "H") as (b) "(_ & _ & $)"; done.
  - iDestruct (world_none with "H") as %Hn; [done|]. rewrite !delete_notin //. by iFrame.
Qed.
Lemma op_less n L E c s : (forall x, x ∈ L -> x ∉ names c) ->
  (exists f, op C n eqf ltf E c s = Fault f) -> exists f, op C n eqf ltf (less L E) c s = Fault f.
Proof.
  intros HL Hf. induction L as [|z L IH]; simpl; [done|].
  destruct IH as [f IH]; [intros; apply HL; by right|].
  pose proof (op_other C eqf ltf n (less L E) z c (HL z ltac:(by left)) s) as Ho. rewrite IH in Ho. by exists f.
Qed.
Lemma typed_level D n σ c : typed C st nb D σ c -> shallow_default C n c -> typed C st nb (S n) σ c.
Proof.
  unfold typed. destruct c; try done. simpl. intros (Hx&Hg&t&r&v&->&Hv&Hd) Hs.
  destruct (idefval C (S n) t) as [v'|] eqn:Hv'; [|done]. split; [done|]. split; [done|]. exists t, r, v'.
  split; [done|]. split; [done|].
  pose proof (idefval_mono C D (D `max` S n) _ _ ltac:(lia) Hv) as H1.
  pose proof (idefval_mono C (S n) (D `max` S n) _ _ ltac:(lia) Hv') as H2. rewrite H1 in H2. by injection H2 as <-.
Qed.

Lemma enough n c E s : reached E s -> admissible E s c -> shallow C n (names c) E s -> shallow_default C n c ->
  exists E' o s', exec C n eqf ltf c E s = Done E' o s' /\ does c E s E' o s'.
Proof.
  intros Hr Hadm Hs Hsd. destruct (reached_inv _ _ _ _ _ HC _ _ Hr) as (B&σ&Hi).
  pose proof (inv_shows _ _ _ _ _ _ _ Hi) as Hsh. destruct Hi as [Hw Ha Hg].
  destruct Hadm as (D&σ0&Hsh0&Ht&Hu). rewrite (shows_unique _ _ _ _ _ Hsh0 Hsh) in Ht Hu.
  set (L := filter (fun x => x ∉ names c) ((map_to_list σ).*1)).
  assert (HL : forall x, x ∈ L -> x ∉ names c) by (intros x Hx; by apply elem_of_list_filter in Hx as [??]).
  assert (Hag : agree (names c) σ (less L σ)).
  { intros x Hx. rewrite less_lookup decide_False //. intros H. by apply (HL x H). }
  assert (Ha' : aok C W (S n) (less L σ)).
  { intros x α Hx. rewrite less_lookup in Hx. case_decide as Hin; [done|].
    assert (Hxc : x ∈ names c).
    { destruct (decide (x ∈ names c)) as [|Hn]; [done|]. destruct Hin. apply elem_of_list_filter. split; [done|].
      apply elem_of_list_fmap. exists (x, α). split; [done|]. by apply elem_of_map_to_list. }
    pose proof (Ha x α Hx) as H1. apply (stands_shows C E s σ) in Hx; [|done]. specialize (Hs x α Hxc Hx).
    destruct α as [tys k|u v]; simpl in *; [|done]. split; [apply H1|done]. }
  apply (hprop_in_entails _ _ (world_less L E σ)) in Hw. destruct Hw as (h1&h2&Hm&Hd&Hw&_).
  pose proof (op_ok C st nb Hwf eqf ltf n (S n) (S n) ltac:(lia) ltac:(lia) (less L E) (less L σ) Ha' c
    (typed_agree _ _ _ _ _ _ _ Hag (typed_level _ _ _ _ Ht Hsd)) (unparked_agree _ _ _ _ Hag Hu)) as Hop.
  apply (hprop_in_entails _ _ Hop) in Hw. apply wp_unfold in Hw. specialize (Hw s h2 Hm Hd Hg).
  assert (Hnf : forall f, op C n eqf ltf E c s <> Fault f).
  { intros f Hf. destruct (op_less n L E c s HL (ex_intro _ f Hf)) as [f' Hf']. by rewrite Hf' in Hw. }
  assert (exists E' o s', exec C n eqf ltf c E s = Done E' o s') as (E'&o&s'&He).
  { unfold exec. destruct (op C n eqf ltf E c s) as [[E1 o1] s1|e s1|f]; [by do 3 eexists..|by destruct (Hnf f)]. }
  exists E', o, s'. split; [done|]. split; [exists D, σ0; rewrite (shows_unique _ _ _ _ _ Hsh0 Hsh); done|].
  exists n. intros n' Hn'. rewrite (exec_mono C n n') //. by rewrite He.
Qed.

(** ** Needed *)
Lemma pwp_run {A} (m : M A) Q E s σ a s' : world C W E σ (mem s) -> ginv W s ->
  (world C W E σ ⊢ pwp W m (fun a => ⌞Q a⌟ ∗ True)%I) -> m s = Ok a s' -> Q a.
Proof.
  intros Hw Hg H Hm. apply (hprop_in_entails _ _ H) in Hw. specialize (Hw s ∅).
  rewrite right_id_L in Hw. specialize (Hw eq_refl ltac:(apply map_disjoint_empty_r) Hg). rewrite Hm in Hw.
  destruct Hw as (h'&_&_&_&h1&h2&_&_&HQ&_). by destruct (apure_inv _ _ HQ).
Qed.

Definition touched (c : cmd) : option name :=
  match c with CDrop x | CRead x => Some x | CCopy _ y | CMove _ y => Some y | _ => None end.
Lemma needed n c x E s α E' o s' : reached E s -> touched c = Some x -> stands C E s x α ->
  exec C n eqf ltf c E s = Done E' o s' -> (forall e, o <> OThrew e) -> nesting α <= S n.
Proof.
  intros Hr Hc Hx He Ho. destruct (reached_inv _ _ _ _ _ HC _ _ Hr) as (B&σ&Hi).
  pose proof (inv_shows _ _ _ _ _ _ _ Hi) as Hsh. destruct Hi as [Hw _ Hg].
  apply (stands_shows C E s σ) in Hx; [|done].
  unfold exec in He. destruct (op C n eqf ltf E c s) as [[E1 o1] s1|e s1|f] eqn:Eop; [|by injection He as _ <- _; destruct (Ho e)|done].
  clear He. pose proof (sem_at C W Hwf n) as Hat.
  refine (pwp_run (op C n eqf ltf E c) (fun _ => nesting α <= S n) E s σ _ _ Hw Hg _ Eop). clear Eop.
  iIntros "H". iDestruct (world_lookup C W _ _ _ _ Hx with "H") as (b) "(%Eb & Hb & Hk)".
  destruct c; try done; simpl in Hc; injection Hc as ->; cbn [op].
  - rewrite Eb. destruct b as [tys a|u a], α as [tys' k|u' v]; simpl; try iDestruct "Hb" as "[]".
    + iDestruct "Hb" as "[-> Hb]". iApply pwp_bind. iApply (pwp_wand with "[Hb]"); [by iApply (at_var_destroy C W Hwf _ _ Hat)|].
      iIntros ([]) "(%Hd & %w & Hl)". iApply pwp_wp. iApply wp_bind. iApply (wp_drop_cell _ _ KVar); [done|]. iFrame "Hl".
      iApply wp_ret. iSplitR; [done|]. by iClear "Hk".
    + iDestruct "Hb" as "[-> Hb]". iApply pwp_bind. iApply (pwp_wand with "[Hb]"); [by iApply (at_destroy C W _ _ Hat)|].
      iIntros ([]) "(%Hd & Hl)". iApply pwp_wp. iApply wp_bind. iApply (wp_drop_cell _ _ KStk); [done|]. iFrame "Hl".
      iApply wp_ret. iSplitR; [done|]. by iClear "Hk".
  - unfold need_var. rewrite Eb. destruct b as [tys a|u a]; [|iApply pwp_bind; iStopProof; apply pwp_faulty]. destruct α as [tys' k|u' v]; simpl; [|iDestruct "Hb" as "[]"].
    iDestruct "Hb" as "[-> Hb]". iApply pwp_bind. iApply pwp_ret. unfold new_var, need_fresh. iApply pwp_bind.
    destruct (E !! x0); [iStopProof; apply pwp_faulty|]. iApply pwp_ret. iApply pwp_bind.
    iApply (pwp_wand _ _ (fun _ => ⌞depth k.2 <= S n⌟ ∗ True)%I with "[Hb]").
    + iApply pwp_local_variant. iIntros (q) "Hq". iApply (pwp_wand with "[Hq Hb]"); [iApply (at_var_copy C W Hwf _ _ Hat); iFrame|].
      iIntros ([]) "[$ H]".
    + iIntros (q) "[%Hd H]". iApply pwp_ret. by iFrame "H".
  - unfold need_var. rewrite Eb. destruct b as [tys a|u a]; [|iApply pwp_bind; iStopProof; apply pwp_faulty]. destruct α as [tys' k|u' v]; simpl; [|iDestruct "Hb" as "[]"].
    iDestruct "Hb" as "[-> Hb]". iApply pwp_bind. iApply pwp_ret. unfold new_var, need_fresh. iApply pwp_bind.
    destruct (E !! x0); [iStopProof; apply pwp_faulty|]. iApply pwp_ret. iApply pwp_bind.
    iApply (pwp_wand _ _ (fun _ => ⌞depth k.2 <= S n⌟ ∗ True)%I with "[Hb]").
    + iApply pwp_local_variant. iIntros (q) "Hq". iApply (pwp_wand with "[Hq Hb]"); [iApply (at_var_move C W Hwf _ _ Hat); iFrame|].
      iIntros ([]) "[$ H]".
    + iIntros (q) "[%Hd H]". iApply pwp_ret. by iFrame "H".
  - unfold need_var. rewrite Eb. destruct b as [tys a|u a]; [|iApply pwp_bind; iStopProof; apply pwp_faulty]. destruct α as [tys' k|u' v]; simpl; [|iDestruct "Hb" as "[]"].
    iDestruct "Hb" as "[-> Hb]". iApply pwp_bind. iApply pwp_ret. iApply pwp_bind.
    iApply (pwp_wand with "[Hb]"); [by iApply (at_var_read C W Hwf _ _ Hat)|]. iIntros (r) "[%Hd Hb]". simpl.
    iApply pwp_ret. iSplitR; [done|]. by iClear "Hb Hk".
Qed.

(** ** Exactly as many, for destruction, reading and construction by copying and moving *)
Lemma too_deep_needed n c x E s α E' o s' : reached E s -> does c E s E' o s' -> (forall e, o <> OThrew e) ->
  touched c = Some x -> stands C E s x α -> S n < nesting α -> too_deep C n eqf ltf c E s.
Proof.
  intros Hr [Ha [n0 Hy]] Ho Hc Hx Hn. unfold too_deep.
  destruct (exec C n eqf ltf c E s) as [E1 o1 s1|[]] eqn:He; try done; exfalso;
    (assert (Hm : exec C n eqf ltf c E s <> Faulted FFuel) by (by rewrite He));
    pose proof (exec_mono C n (n `max` n0) eqf ltf c E s ltac:(lia) Hm) as Hmm; rewrite Hy in Hmm; try lia; rewrite He in Hmm; try done.
  injection Hmm as -> -> ->. pose proof (needed n c x E s α _ _ _ Hr Hc Hx He Ho). lia.
Qed.
Lemma not_too_deep n c E s : reached E s -> admissible E s c -> shallow C n (names c) E s -> shallow_default C n c ->
  ~ too_deep C n eqf ltf c E s.
Proof. intros H1 H2 H3 H4 H. destruct (enough n c E s H1 H2 H3 H4) as (E'&o&s'&He&_). unfold too_deep in H. by rewrite H in He. Qed.

Lemma exact_depth n x (rd : bool) E s α : reached E s -> admissible E s (if rd then CRead x else CDrop x) -> stands C E s x α ->
  too_deep C n eqf ltf (if rd then CRead x else CDrop x) E s <-> S n < nesting α.
Proof.
  intros Hr Ha Hx. set (c := if rd then CRead x else CDrop x) in *. split.
  - intros Ht. destruct (decide (S n < nesting α)) as [|Hn]; [done|]. exfalso.
    assert (Hs : shallow C n (names c) E s).
    { intros y β Hy Hb. assert (y = x) as ->. { subst c. destruct rd; simpl in Hy; set_solver. }
      destruct (reached_inv _ _ _ _ _ HC _ _ Hr) as (B&σ&Hi). pose proof (inv_shows _ _ _ _ _ _ _ Hi) as Hsh.
      apply (stands_shows C E s σ) in Hx, Hb; [|done..]. rewrite Hx in Hb. injection Hb as <-. lia. }
    refine (not_too_deep n c E s Hr Ha Hs _ Ht). subst c. by destruct rd.
  - intros Hn. destruct Hr as (orc&h&Hh). destruct (history_next C st nb eqf ltf HC orc h E s c Hh Ha) as (E'&o&s'&σ&σ'&Hy&_&_&_&Hs&_).
    apply (too_deep_needed n c x E s α E' o s'); [by exists orc, h|done| |by destruct rd|done|done].
    intros e ->. subst c. destruct rd; inversion Hs.
Qed.

(** ** Independent of the depth *)
Lemma wrapped_level x y n E s tys k1 k2 u : sees C E s x tys k1 -> sees C E s y tys k2 ->
  k1.1 = k2.1 -> tys !! k1.1.2 = Some (IWrap u) -> exec C n eqf ltf (CMoveAssign x y) E s = exec C 0 eqf ltf (CMoveAssign x y) E s.
Proof.
  intros (a&Ea&Ha) (b&Eb&Hb) Hk Ht. unfold exec. cbn [op]. unfold need_var, bind. rewrite Ea Eb /=.
  enough (Hm : var_massign C (sem C n) tys a b s = var_massign C (sem C 0) tys a b s) by (by rewrite Hm).
  destruct (holds_which C s _ _ _ Ha) as (wa&ta&Ra&Hta&Wa&Ewa), (holds_which C s _ _ _ Hb) as (wb&tb&Rb&Htb&Wb&Ewb).
  rewrite Ht in Hta. injection Hta as <-. assert (wb = wa) as -> by (rewrite Ewb Ewa Hk; done).
  assert (Hv : variant_massign C (sem C n) tys a b s = variant_massign C (sem C 0) tys a b s).
  { unfold variant_massign, bind. rewrite Ra Rb !decide_True //. unfold visit, bind. rewrite Ra Wa.
    rewrite !(visitation_lookup _ _ k1.1.2 (IWrap u)) //; try apply (ge_lim _ _ _ HC).
  }
  unfold var_massign, noexcept_if, noexcept. destruct (_ && _); by rewrite Hv.
Qed.
Lemma wrapped_done x y E s tys k1 k2 u : reached E s -> admissible E s (CMoveAssign x y) ->
  sees C E s x tys k1 -> sees C E s y tys k2 -> k1.1 = k2.1 -> tys !! k1.1.2 = Some (IWrap u) ->
  exists E' o s', forall n, exec C n eqf ltf (CMoveAssign x y) E s = Done E' o s'.
Proof.
  intros (orc&h&Hh) Ha Hx Hy Hk Ht.
  destruct (history_next C st nb eqf ltf HC orc h E s _ Hh Ha) as (E'&o&s'&_&_&[n0 Hy0]&_). exists E', o, s'. intros n.
  rewrite (wrapped_level x y n E s tys k1 k2 u) // -(wrapped_level x y n0 E s tys k1 k2 u) //. by apply Hy0.
Qed.
Lemma exact_construction n x y (mv : bool) E s tys k E' s' : reached E s ->
  does (if mv then CMove x y else CCopy x y) E s E' ODone s' -> sees C E s y tys k ->
  too_deep C n eqf ltf (if mv then CMove x y else CCopy x y) E s <-> S n < depth k.2.
Proof.
  intros Hr Hd Hy. set (c := if mv then CMove x y else CCopy x y) in *. split.
  - intros Ht. destruct (decide (S n < depth k.2)) as [|Hn]; [done|]. exfalso.
    assert (Hs : shallow C n (names c) E s).
    { intros z β Hz Hb. destruct (reached_inv _ _ _ _ _ HC _ _ Hr) as (B&σ&Hi). pose proof (inv_shows _ _ _ _ _ _ _ Hi) as Hsh.
      apply (stands_shows C E s σ) in Hb; [|done]. apply (stands_shows C E s σ y (AVar tys k) Hsh) in Hy.
      assert (Hx : σ !! x = None).
      { destruct Hd as [(D&σ0&Hsh0&Ht0&_) _]. rewrite (shows_unique _ _ _ _ _ Hsh0 Hsh) in Ht0. subst c. by destruct mv, Ht0. }
      assert (z = x \/ z = y) as [-> | ->]. { subst c. destruct mv; simpl in Hz; set_solver. }
      - by rewrite Hx in Hb.
      - rewrite Hy in Hb. injection Hb as <-. simpl. lia. }
    refine (not_too_deep n c E s Hr (proj1 Hd) Hs _ Ht). subst c. by destruct mv.
  - intros Hn. apply (too_deep_needed n c y E s (AVar tys k) E' ODone s'); try done. by destruct mv.
Qed.
Lemma shallow_by n N E s : reached E s -> Forall (fun x => exists α, stands C E s x α /\ nesting α <= S n) N -> shallow C n N E s.
Proof.
  intros Hr Hf x β Hx Hb. destruct (reached_inv _ _ _ _ _ HC _ _ Hr) as (B&σ&Hi). pose proof (inv_shows _ _ _ _ _ _ _ Hi) as Hsh.
  rewrite Forall_forall in Hf. destruct (Hf x Hx) as (α&Ha&Hn). apply (stands_shows C E s σ) in Ha, Hb; [|done..].
  rewrite Ha in Hb. by injection Hb as <-.
Qed.
End depth.

(** ** A tower of any height *)
From Verif Require Import Raises Check Samples Scenes.
Notation calm_history := (history C0 true false eq0 lt0 calm).
Definition stage (h : list cmd) (E : env) (s : state) (σ : astate) : Prop :=
  calm_history h E s /\ orc s = calm /\ shows C0 (mem s) E σ.
Lemma stage_next h E s σ c : stage h E s σ -> typed C0 true false 1 σ c -> unparked C0 σ c -> uses_get c = false ->
  exists E' o s' σ', stage (h ++ [c]) E' s' σ' /\ Spec.astep C0 eq0 lt0 σ c o σ' /\ forall e, o <> OThrew e.
Proof.
  intros (Hh&Ho&Hs) Ht Hu Hg. assert (Ha : admissible C0 true false E s c) by (by exists 1, σ).
  destruct (history_next C0 true false eq0 lt0 C0_good calm h E s c Hh Ha) as (E'&o&s'&σ1&σ'&Hy&Hh'&Hs1&Hs'&Hst&_).
  rewrite (shows_unique _ _ _ _ _ Hs1 Hs) in Hst. assert (Hstep : step C0 true false eq0 lt0 c E s E' o s').
  { split; [by exists calm, h|]. by split. }
  exists E', o, s', σ'. split; [|split; [done|]].
  - split; [done|]. split; [|done]. destruct (step_answered _ _ _ _ _ _ _ _ _ _ _ Hstep) as (->&_). done.
  - intros e ->. destruct (step_calm C0 true false eq0 lt0 C0_good _ _ _ _ _ _ Hstep) with e as [_ Hgg]; [|done|by rewrite Hg in Hgg].
    intros i _. by rewrite Ho.
Qed.

Lemma match_VL u i : u = 2 \/ u = 4 -> best_match C0 VL u i -> exists t, VL !! i = Some t /\ ity_uid t = u.
Proof.
  intros Hu (t&r&Ht&Hr&Hl&Hb). exists t. split; [done|].
  destruct (decide (ity_uid t = u)) as [|Hn]; [done|]. exfalso. specialize (Hb (if decide (u = 2) then 0 else 1)).
  destruct Hu as [-> | ->]; simpl in Hb; specialize (Hb _ 0 eq_refl (not_eq_sym Hn) eq_refl); lia.
Qed.
Lemma VL_good : good_tys C0 true false VL.
Proof. apply good_tysb_ok. by vm_compute. Qed.

Lemma tower_pack h E s u v : u = 2 \/ u = 4 -> stage h E s {[2 := AObj u v]} ->
  exists h E s k, stage h E s {[1 := AVar VL k]} /\ k.1.1 = false /\ depth k.2 = depth v.
Proof.
  intros Hu Hst.
  assert (Hm : best_match C0 VL u (if decide (u = 2) then 0 else 1)).
  { destruct Hu as [-> | ->]; simpl.
    - exists (IPlain 2), 0. do 2 (split; [done|]). split.
      + intros [|[|]] t Hj; try done; [lia|]. by intros [= <-].
      + intros [|[|]] t r; try done; by intros [= <-].
    - exists (IWrap 4), 0. do 2 (split; [done|]). split.
      + intros [|[|]] t Hj; try done; lia.
      + intros [|[|]] t r; try done; by intros [= <-]. }
  destruct (stage_next _ _ _ _ (CFrom 1 VL 2 true) Hst) as (E1&o1&s1&σ1&Hst1&Hs1&Hn1); [|done|done|].
  { split; [done|]. split; [apply VL_good|]. exists u, v, (if decide (u = 2) then 0 else 1). split; [|done].
    unfold is_obj. by rewrite lookup_singleton. }
  inversion Hs1; subst; [|by match goal with H : forall e, _ <> _ |- _ => destruct (H _ eq_refl) end].
  match goal with H : is_obj _ 2 ?u' ?v' |- _ => unfold is_obj in H; rewrite lookup_singleton in H; injection H as <- <- end.
  match goal with H : best_match C0 VL u ?j, H' : VL !! ?j = Some ?t' |- _ =>
    destruct (match_VL u j Hu H) as (t1&Ht1&Htu); rewrite H' in Ht1; injection Ht1 as <-; set (i0 := j) in *; set (t0 := t') in * end.
  destruct (stage_next _ _ _ _ (CDrop 2) Hst1) as (E2&o2&s2&σ2&Hst2&Hs2&_); [|done|done|].
  { simpl. by rewrite lookup_insert_ne // lookup_insert. }
  inversion Hs2; subst. eexists _, E2, s2, (false, i0, converted C0 (ity_uid t0) (ity_uid t0) v). split; [|split; [done|]].
  - refine (eq_ind _ (fun m => stage _ E2 s2 m) Hst2 _ _). rewrite insert_singleton delete_insert_ne // delete_singleton //.
  - simpl. unfold converted. rewrite decide_True // depth_erase //.
Qed.

Lemma tower d : exists h E s k, stage h E s {[1 := AVar VL k]} /\ k.1.1 = false /\ depth k.2 = S d.
Proof.
  induction d as [|d (h&E&s&k&Hst&Hk&Hd)].
  - assert (H0 : stage [] ∅ (init calm) ∅).
    { split; [constructor|]. split; [done|]. intros x. done. }
    destruct (stage_next _ _ _ _ (CMake 2 2 7 []) H0) as (E1&o1&s1&σ1&Hst1&Hs1&Hn1); [|done|done|].
    { split; [done|]. apply Forall2_nil_2. }
    inversion Hs1; subst; [|by match goal with H : forall e, _ <> _ |- _ => destruct (H _ eq_refl) end].
    match goal with H : Forall2 _ [] _ |- _ => inversion H; subst end.
    destruct (tower_pack _ _ _ 2 (UV (Some 7%Z) []) (or_introl eq_refl) Hst1) as (h2&E2&s2&k2&?&?&?).
    by exists h2, E2, s2, k2.
  - destruct (stage_next _ _ _ _ (CMake 2 4 9 [1]) Hst) as (E1&o1&s1&σ1&Hst1&Hs1&Hn1); [|done|done|].
    { split; [done|]. constructor; [|constructor]. exists k. unfold is_var. by rewrite lookup_singleton. }
    inversion Hs1; subst; [|by match goal with H : forall e, _ <> _ |- _ => destruct (H _ eq_refl) end].
    match goal with H : Forall2 _ [1] ?ks |- _ => inversion H as [|? k1 ? ks' (tys1&Hv1) Hn]; subst; inversion Hn; subst end.
    unfold is_var in Hv1. rewrite lookup_singleton in Hv1. injection Hv1 as <- <-.
    destruct (stage_next _ _ _ _ (CDrop 1) Hst1) as (E2&o2&s2&σ2&Hst2&Hs2&_); [|done|done|].
    { simpl. by rewrite lookup_insert_ne // lookup_insert. }
    inversion Hs2; subst.
    destruct (tower_pack (h ++ [CMake 2 4 9 [1]] ++ [CDrop 1]) E2 s2 4 (UV (Some 9%Z) [erasev k]) (or_intror eq_refl)) as (h3&E3&s3&k3&?&?&H3).
    { rewrite app_assoc. refine (eq_ind _ (fun m => stage _ E2 s2 m) Hst2 _ _).
      rewrite delete_insert_ne // delete_singleton insert_empty //. }
    exists h3, E3, s3, k3. split; [done|]. split; [done|]. rewrite H3. cbn [depth map list_max fold_right].
    replace (depth (erasev k).2) with (depth k.2); [lia|]. destruct k as [[??]?]. simpl. by rewrite depth_erase.
Qed.

Lemma unbounded n : exists E s k, reached C0 true false eq0 lt0 E s /\ sees C0 E s 1 VL k /\ depth k.2 = S (S n) /\
  admissible C0 true false E s (CDrop 1) /\ too_deep C0 n eq0 lt0 (CDrop 1) E s.
Proof.
  destruct (tower (S n)) as (h&E&s&k&(Hh&_&Hs)&Hk&Hd). exists E, s, k.
  assert (Hr : reached C0 true false eq0 lt0 E s) by (by exists calm, h).
  assert (Hx : stands C0 E s 1 (AVar VL k)). { apply (stands_shows C0 E s _ 1 (AVar VL k) Hs). apply lookup_singleton. }
  assert (Ha : admissible C0 true false E s (CDrop 1)).
  { exists 1, {[1 := AVar VL k]}. split; [done|]. split; [|done]. simpl. rewrite lookup_singleton. by eexists. }
  split; [done|]. split; [done|]. split; [done|]. split; [done|].
  apply (exact_depth C0 true false eq0 lt0 C0_good n 1 false E s (AVar VL k) Hr Ha Hx). simpl. lia.
Qed.
Lemma no_bound : exists C eqf ltf, good_env C true false /\ forall n, exists E s tys k,
  Reach.reached C true false eqf ltf E s /\ sees C E s 1 tys k /\ depth k.2 = S (S n) /\
  History.admissible C true false E s (CDrop 1) /\ too_deep C n eqf ltf (CDrop 1) E s.
Proof.
  exists C0, eq0, lt0. split; [apply C0_good|]. intros n. destruct (unbounded n) as (E&s&k&H). exists E, s, VL, k. exact H.
Qed.
