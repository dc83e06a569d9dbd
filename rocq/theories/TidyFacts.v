(** Without failures there are no backups (proofs). *)
From Coq.ssr Require Import ssreflect.
From Coq Require Import ZArith Lia.
From stdpp Require Import gmap.
From iris.prelude Require Import prelude.
From Verif Require Import Base Types Variant Sem Values ValuesFacts Client Observe ObserveFacts Spec History Reach ReachFacts.
From Verif Require Import SpecSem HistoryProof Places PlacesSpec PlacesProof PlacesFacts Programs ProgramsSpec ProgramsFacts PlacesAlikeSpec MeaningSpec MeaningFacts.
From Verif Require Import Calls CallsSpec CallsMeaningSpec CallsFacts CallsMeaningFacts BlameSpec Blame BlameFacts TidySpec.

(** ** Values *)
Lemma converted_clean C u u' v : clean (converted C u u' v) = true.
Proof. unfold converted. case_decide; [apply clean_erase|]. by destruct v. Qed.
Lemma erasev_neat k : cleanv (erasev k) = true.
Proof. unfold cleanv. simpl. apply clean_erase. Qed.
Lemma cleanv_with k v : cleanv k = true -> clean v = true -> cleanv (k.1, v) = true.
Proof. unfold cleanv. simpl. intros H1 H2. apply andb_true_iff in H1 as [H1 _]. by rewrite H1 H2. Qed.
Lemma cleanv_in k : cleanv k = true -> clean k.2 = true.
Proof. unfold cleanv. by intros [_ ?]%andb_true_iff. Qed.
Lemma moved_clean v v' : moved_from v v' -> clean v = true -> clean v' = true.
Proof. intros H Hv. by rewrite (skel_clean _ _ H). Qed.
Lemma operand_after_clean mv v v' : operand_after mv v v' -> clean v = true -> clean v' = true.
Proof. destruct mv; simpl; [apply moved_clean|by intros ->]. Qed.
Lemma clean_all z ks : clean (UV z ks) = true <-> Forall (fun k => cleanv k = true) ks.
Proof.
  rewrite clean_UV. induction ks as [|k ks IH]; [done|]. cbn [forallb]. rewrite andb_true_iff Forall_cons IH. done.
Qed.
Lemma defval_clean C : forall n raw u v, defval C n raw u = Some v -> clean v = true.
Proof.
  induction n as [|n IH]; intros raw u v; [done|]. cbn [defval].
  match goal with |- context [mapM ?f ?l] => destruct (mapM f l) as [ks|] eqn:Hks; [|done] end. intros [= <-].
  apply clean_all. apply mapM_Some_1 in Hks. induction Hks as [|tys k l ks Hk _ IHl]; constructor; [|done].
  destruct tys as [|[u'|u'] tys]; [done|..].
  - destruct (defval C n false u') as [v|] eqn:Hv; [|done]. injection Hk as <-. unfold cleanv. simpl. by eapply IH.
  - destruct (defval C n true u') as [v|] eqn:Hv; [|done]. injection Hk as <-. unfold cleanv. simpl. by eapply IH.
Qed.
Lemma idefval_clean C n t v : idefval C n t = Some v -> clean v = true.
Proof. destruct t; apply defval_clean. Qed.

(** ** Steps of the specification *)
Definition neats (σ : astate) : Prop := forall x α, σ !! x = Some α -> neat α.
Definition kneats (κ : kstate) : Prop := forall x α rs, κ !! x = Some (α, rs) -> neat α.
Lemma neats_insert σ x α : neat α -> neats σ -> neats (<[x:=α]> σ).
Proof. intros Ha Hs y β. destruct (decide (y = x)) as [->|]; [rewrite lookup_insert; by intros [= <-]|rewrite lookup_insert_ne //; apply Hs]. Qed.
Lemma neats_delete σ x : neats σ -> neats (delete x σ).
Proof. intros Hs y β H. apply lookup_delete_Some in H as [_ H]. by eapply Hs. Qed.
Lemma neats_deletes σ xs : neats σ -> neats (foldr delete σ xs).
Proof. intros Hs. induction xs as [|x xs IH]; [done|]. by apply neats_delete. Qed.
Lemma neats_union σ1 σ2 : neats σ1 -> neats σ2 -> neats (σ1 ∪ σ2).
Proof. intros H1 H2 x α Hx. apply lookup_union_Some_raw in Hx as [Hx|[_ Hx]]; [by eapply H1|by eapply H2]. Qed.

Section steps.
Context (C : cfg) (eqf ltf : uid -> uval -> uval -> bool).
Lemma refs_neat rs u z ks : clean (UV z ks) = true ->
  neats (list_to_map (zip rs (zip_with AVar (ut_members (te C u)) ks)) : astate).
Proof.
  intros Hc x α Hx. apply elem_of_list_to_map_2 in Hx. apply elem_of_zip_r in Hx.
  apply elem_of_lookup_zip_with in Hx as (i&tys&k&->&_&Hk). apply clean_all in Hc. exact (Forall_lookup_1 _ _ _ _ Hc Hk).
Qed.
Lemma astep_neat σ c o σ' : astep C eqf ltf σ c o σ' -> (forall e, o <> OThrew e) -> neats σ -> neats σ'.
Proof.
  intros Hst Ho Hσ.
  assert (Hv : forall x tys k, is_var σ x tys k -> cleanv k = true) by (intros x tys k H; exact (Hσ _ _ H)).
  assert (Hb : forall x u v, is_obj σ x u v -> clean v = true) by (intros x u v H; exact (Hσ _ _ H)).
  inversion Hst; subst; try done; try (by match goal with |- context [OThrew ?e] => destruct (Ho e) | H : context [OThrew ?e] |- _ => destruct (Ho e) end).
  all: repeat first [apply neats_insert | apply neats_delete]; try done; simpl.
  all: try match goal with H : is_var _ ?x ?t ?k |- _ => pose proof (Hv _ _ _ H) end.
  all: try match goal with H : is_obj _ ?x ?t ?k |- _ => pose proof (Hb _ _ _ H) end.
  all: try apply erasev_neat; try apply clean_erase; try apply converted_clean; try done.
  all: try (apply cleanv_with; [by eauto|]).
  all: try (eapply moved_clean; [eassumption|apply cleanv_in; by eauto]).
  all: try (eapply operand_after_clean; [eassumption|first [by eauto|apply cleanv_in; by eauto]]).
  all: try (match goal with H : foreign _ _ _ _ _ |- _ => destruct H as (?&?&?&_&_&_&->); apply converted_clean end).
  all: try (match goal with H : idefval _ _ _ = _ |- _ => unfold cleanv; simpl; by eapply idefval_clean end).
  { change (clean (UV None (map erasev ks)) = true). apply clean_all, Forall_fmap, Forall_true. intros k. apply erasev_neat. }
  all: try done.
  - match goal with H : move_source _ _ _ |- _ => destruct H as (Hk&Hc&_) end.
    match goal with H0 : is_var _ x _ k1, H1 : cleanv k2 = true |- _ => apply Hv, cleanv_in, Hc in H0; rename H0 into Hc2; rename H1 into Hc1 end.
    unfold cleanv in *. rewrite Hk Hc2 andb_true_r. by apply andb_true_iff in Hc1 as [? _].
  - match goal with H : assigned_from _ _ _ _ _ _ |- _ => destruct H as (t1&_&Hin&Hout) end.
    destruct (decide (ity_uid t1 = u)) as [Hu|Hu].
    + rewrite (Hin Hu). by apply cleanv_with.
    + destruct (Hout Hu) as (i&t&_&_&->). apply converted_clean.
  - match goal with H : from_source _ _ _ _ |- _ => destruct mv; simpl in H end; [|by subst].
    match goal with H : clean _ = true -> clean _ = true |- _ => apply H end. by apply cleanv_in.
  - match goal with H : swapped _ _ _ _ |- _ => destruct H as [Hin Hout] end. destruct (decide (k1.1.2 = k2.1.2)) as [Hi|Hi].
    + destruct (Hin Hi) as [-> _]. apply cleanv_with; [by eauto|]. by apply cleanv_in.
    + destruct (Hout Hi) as [-> _]. apply erasev_neat.
  - match goal with H : swapped _ _ _ _ |- _ => destruct H as [Hin Hout] end. destruct (decide (k1.1.2 = k2.1.2)) as [Hi|Hi].
    + destruct (Hin Hi) as [_ ->]. apply cleanv_with; [by eauto|]. apply clean_erase.
    + destruct (Hout Hi) as [_ ->]. by eauto.
  - match goal with H : self_swap _ _ |- _ => destruct H as [_ Hs] end. rewrite Hs; by apply cleanv_in.
  - apply clean_all, Forall_insert; [|done]. apply (clean_all d).
    match goal with H : k.2 = UV d ks |- _ => rewrite -H end. apply cleanv_in. by eauto.
Qed.
Lemma rstep_neat σ κ c o σ' κ' : rstep C eqf ltf σ κ c o σ' κ' -> (forall e, o <> OThrew e) -> neats σ -> kneats κ -> neats σ' /\ kneats κ'.
Proof.
  intros Hst Ho Hσ Hκ. destruct Hst; try by (exfalso; by eapply Ho).
  - split; [by eapply astep_neat|done].
  - pose proof (Hσ _ _ H) as Hc. simpl in Hc. split.
    + apply neats_union; [|by apply neats_delete]. eapply refs_neat. exact (cleanv_in _ Hc).
    + intros y α ss. destruct (decide (y = x)) as [->|Hne]; unfold kstate in *.
      * rewrite lookup_insert. intros [= <- <-]. by apply (cleanv_with _ (UV z []) Hc).
      * rewrite lookup_insert_ne //. apply Hκ.
  - pose proof (Hσ _ _ H) as Hc. simpl in Hc. split.
    + apply neats_union; [|by apply neats_delete]. exact (refs_neat rs u z ks Hc).
    + intros y α ss. destruct (decide (y = x)) as [->|Hne]; unfold kstate in *.
      * rewrite lookup_insert. by intros [= <- <-].
      * rewrite lookup_insert_ne //. apply Hκ.
  - pose proof (Hκ _ _ _ H) as Hc. assert (Hks : Forall (fun k => cleanv k = true) ks).
    { clear -H0 Hσ. induction H0 as [|r k rs ks (tys&Hr) _ IH]; constructor; [exact (Hσ _ _ Hr)|done]. }
    split.
    + apply neats_insert; [|by apply neats_deletes]. destruct α as [tys [bi [z ks0]]|u [z ks0]]; simpl in *.
      * apply (cleanv_with (bi, UV z ks0)); [done|]. by apply clean_all.
      * exact (proj2 (clean_all z ks) Hks).
    + intros y β ss Hy. unfold kstate in *. apply lookup_delete_Some in Hy as [_ Hy]. by eapply Hκ.
  - pose proof (Hσ _ _ H) as Hc. simpl in Hc. split; [|done].
    assert (Hn : neats σ1). { eapply astep_neat; [eassumption|done|]. exact (neats_insert _ o (AObj u k2.2) (cleanv_in _ Hc) Hσ). }
    apply neats_insert; [|by apply neats_delete]. apply cleanv_with; [done|].
    match goal with H : is_obj σ1 _ _ _ |- _ => exact (Hn _ _ H) end.
  - pose proof (Hσ _ _ H) as Hc. simpl in Hc. split; [|done].
    assert (Hn : neats σ1). { eapply astep_neat; [eassumption|done|]. exact (neats_insert _ o (AObj u k2.2) (cleanv_in _ Hc) Hσ). }
    apply neats_insert; [|by apply neats_delete]. apply cleanv_with; [done|].
    match goal with H : is_obj σ1 _ _ _ |- _ => exact (Hn _ _ H) end.
  - pose proof (Hσ _ _ H) as Hc. simpl in Hc. split; [|done].
    apply neats_delete. eapply astep_neat; [eassumption|done|]. exact (neats_insert _ o (AObj u k2.2) (cleanv_in _ Hc) Hσ).
Qed.
End steps.

(** ** Runs *)
Section prog.
Context (C : cfg) (st nb : bool) (eqf ltf : uid -> uval -> uval -> bool) (HC : good_env C st nb).
Notation rreached := (rreached C st nb eqf ltf).
Notation radmissible := (radmissible C st nb).
Notation rx n := (rexec C n eqf ltf).
Notation types := (fmap bnd_ty).
Notation tidy := (tidy C).

Lemma get_ref_is E K s x tys a u : rreached E K s -> E !! x = Some (BVar tys a) ->
  (exists l, var_get_ref C tys a u s = Ok l s) \/ exists s', var_get_ref C tys a u s = Exn XBadGet s' /\ mem s' = mem s.
Proof.
  intros Hr Hx. destruct (visit_type C st nb eqf ltf HC E K s x tys a Hr Hx) as (k&t&l&kd&w&z&ls&_&_&_&_&_&Hv).
  unfold var_get_ref, var_get, bind. rewrite Hv. unfold ret at 1. case_decide; [left; by exists l|right]. by eexists.
Qed.
Lemma no_exn {A} (m : M A) s e s' : calm_from s -> follows false m -> m s = Exn e s' -> False.
Proof. intros Hc Hf Hm. specialize (Hf s). rewrite Hm in Hf. destruct Hf as [_ Hf]. by destruct (calm_blamed _ _ _ _ Hc Hf). Qed.
(** [m] changes nothing; [m] changes nothing if it throws. *)
Definition reads {A} (m : M A) (s : state) : Prop := match m s with Ok _ s' => s' = s | Exn _ s' => mem s' = mem s | Fault _ => True end.
Definition quiet {A} (m : M A) (s : state) : Prop := match m s with Exn _ s' => mem s' = mem s | _ => True end.
Lemma quiet_bind {A B} (m : M A) (f : A -> M B) s : reads m s -> (forall a, m s = Ok a s -> quiet (f a) s) -> quiet (bind m f) s.
Proof.
  unfold reads, quiet, bind. intros Hm Hf. destruct (m s) as [a s'|e s'|x]; [|done..]. subst s'. by apply Hf.
Qed.
Lemma quiet_calm {A} (m : M A) s : calm_from s -> follows false m -> quiet m s.
Proof. intros Hc Hf. unfold quiet. destruct (m s) as [|e s'|] eqn:Hm; try done. by destruct (no_exn m s e s' Hc Hf Hm). Qed.
Lemma quiet_seq {A B} (m : M A) (f : A -> B) s : quiet m s -> quiet (bind m (fun a => ret (f a))) s.
Proof. unfold quiet, bind, ret. by destruct (m s). Qed.
Lemma reads_var E x s : reads (need_var E x) s. Proof. unfold reads, need_var. by destruct (E !! x) as [[]|]. Qed.
Lemma reads_obj E x s : reads (need_obj E x) s. Proof. unfold reads, need_obj. by destruct (E !! x) as [[]|]. Qed.
Lemma reads_fresh E x s : reads (need_fresh E x) s. Proof. unfold reads, need_fresh. by destruct (E !! x) as [[]|]. Qed.
Lemma reads_need b s : reads (need b) s. Proof. unfold reads, need. by destruct b. Qed.
Lemma need_var_is E x s p : need_var E x s = Ok p s -> E !! x = Some (BVar p.1 p.2).
Proof. unfold need_var. destruct (E !! x) as [[]|]; try done. by intros [= <-]. Qed.
Lemma reads_get E K s x p u : rreached E K s -> need_var E x s = Ok p s -> reads (var_get_ref C p.1 p.2 u) s.
Proof.
  intros Hr Hp. apply need_var_is in Hp. unfold reads. destruct (get_ref_is E K s x _ _ u Hr Hp) as [[l ->]|(s'&->&?)]; done.
Qed.
Lemma quiet_op n E K c s : rreached E K s -> calm_from s -> gets c = true -> quiet (op C n eqf ltf E c) s.
Proof.
  intros Hr Hq Hg.
  assert (Hm : forall u l j, follows false (member C u l j)).
  { intros. unfold member. apply raises_bind; [apply raises_expect|]. intros. repeat case_match; first [apply raises_ret|apply raises_faulty]. }
  destruct c; try done; simpl.
  - apply quiet_bind; [apply reads_var|]. intros p Hp. apply quiet_bind; [apply reads_obj|]. intros q _.
    unfold var_poke. apply quiet_seq. apply quiet_bind; [by eapply reads_get|].
    intros l _. apply quiet_calm; [done|]. apply r_sem.
  - apply quiet_bind; [apply reads_fresh|]. intros _ _. apply quiet_bind; [apply reads_var|]. intros p Hp.
    apply quiet_bind; [by eapply reads_get|]. intros l _. apply quiet_calm; [done|].
    apply raises_bind; [|intros; apply raises_ret]. apply raises_stack_obj. intros. apply r_sem.
  - apply quiet_bind; [apply reads_var|]. intros p Hp.
    apply quiet_bind; [by eapply reads_get|]. intros l _. apply quiet_calm; [done|]. apply raises_bind; [apply Hm|]. intros q.
    apply raises_bind; [unfold need_fresh; case_match; first [apply raises_ret|apply raises_faulty]|]. intros _.
    apply raises_bind; [|intros; apply raises_ret]. apply raises_local_variant. intros. apply r_var_copy. apply r_sem.
  - apply quiet_bind; [apply reads_var|]. intros p Hp. apply quiet_bind; [apply reads_var|]. intros q _.
    apply quiet_bind; [by eapply reads_get|]. intros l _. apply quiet_calm; [done|]. apply raises_bind; [apply Hm|]. intros r.
    apply raises_bind; [|intros; apply raises_ret]. apply r_var_assign. apply r_sem.
  - apply quiet_bind; [apply reads_var|]. intros p Hp.
    apply quiet_bind; [by eapply reads_get|]. intros l _. apply quiet_calm; [done|]. apply raises_bind; [apply r_sem|].
    intros; apply raises_ret.
Qed.
Lemma quiet_rop n E K c s : rreached E K s -> calm_from s -> rgets c = true -> quiet (rop C n eqf ltf E K c) s.
Proof.
  intros Hr Hq Hg. destruct c as [c|x u rs|x|x tys y u mv|x y u mv|x u y]; try done; simpl.
  - apply quiet_bind; [apply reads_need|]. intros _ _. apply quiet_seq. by eapply quiet_op.
  - destruct (E !! x) as [b|] eqn:Hx; [|done]. apply quiet_bind.
    { destruct b as [tys a|u' a]; simpl; [|by unfold reads; case_decide]. apply (reads_get E K s x (tys, a)); [done|].
      unfold need_var. by rewrite Hx. }
    intros l _. apply quiet_calm; [done|]. apply raises_bind; [apply raises_expect|]. intros r.
    apply raises_bind; [unfold need; case_match; first [apply raises_ret|apply raises_faulty]|]. intros _. apply raises_ret.
  - apply quiet_bind; [apply reads_need|]. intros _ _. apply quiet_bind; [apply reads_var|]. intros q Hp.
    apply quiet_bind; [by eapply reads_get|]. intros l _. apply quiet_calm; [done|]. apply raises_bind; [|intros; apply raises_ret].
    apply raises_bind; [unfold need_fresh; case_match; first [apply raises_ret|apply raises_faulty]|]. intros _.
    apply raises_bind; [|intros; apply raises_ret]. apply raises_local_variant. intros. apply r_var_from. apply r_sem.
  - apply quiet_bind; [apply reads_var|]. intros p _. apply quiet_bind; [apply reads_var|]. intros q Hp.
    apply quiet_bind; [by eapply reads_get|]. intros l _. apply quiet_calm; [done|]. apply raises_bind; [|intros; apply raises_ret].
    apply r_var_assign_from. apply r_sem.
  - apply quiet_bind; [apply reads_var|]. intros p Hp. apply quiet_bind; [apply reads_var|]. intros q Hp'.
    apply quiet_bind; [by eapply reads_get|]. intros l _. apply quiet_seq.
    unfold var_poke. apply quiet_bind; [by eapply reads_get|]. intros l' _. apply quiet_calm; [done|]. apply r_sem.
Qed.
(** Without failures, only get throws, and then it is all that has happened. *)
Lemma calm_threw n c E K s E' K' e s' : rreached E K s -> calm_from s -> rx n c E K s = RDone E' K' (OThrew e) s' ->
  e = XBadGet /\ rgets c = true /\ mem s' = mem s /\ E' = E /\ K' = K.
Proof.
  intros Hr Hq Hx. pose proof (rx_follows C eqf ltf n true c E K s) as Hf. rewrite Hx in Hf. specialize (Hf ltac:(done)).
  destruct Hf as [_ Hf]. destruct (calm_blamed _ _ _ _ Hq Hf) as [-> _]. split; [done|].
  destruct (rgets c) eqn:Hg.
  2:{ pose proof (rx_follows C eqf ltf n false c E K s) as Hf'. rewrite Hx Hg in Hf'. destruct (Hf' ltac:(done)) as [_ Hf2].
      by destruct (calm_blamed _ _ _ _ Hq Hf2). }
  split; [done|]. unfold rexec in Hx.
  destruct (rop C n eqf ltf E K c s) as [[[E1 K1] o] s1|e1 s1|f] eqn:Hop; [|injection Hx as <- <- -> <-|done].
  { injection Hx as <- <- -> <-. by destruct (rop_returns C eqf ltf n _ _ _ _ _ _ _ _ Hop XBadGet). }
  split; [|done]. pose proof (quiet_rop n E K c s Hr Hq Hg) as H. unfold quiet in H. by rewrite Hop in H.
Qed.

(** One command. *)
Lemma tidy_unparked E K s c : rreached E K s -> tidy E K s -> sources_unparked C E s c.
Proof.
  intros Hr Ht σ Hs. destruct (looks C st nb eqf ltf HC _ _ _ Hr) as (_&κ&_&Hk&_). destruct (Ht σ κ Hs Hk) as [Hσ _].
  assert (Hcv : forall x tys k, is_var σ x tys k -> cleanv k = true) by (intros x tys k H; exact (Hσ _ _ H)).
  assert (Hco : forall x u v, is_obj σ x u v -> clean v = true) by (intros x u v H; exact (Hσ _ _ H)).
  assert (Hc2 : forall x tys k, is_var σ x tys k -> clean k.2 = true) by (intros x tys k H; apply cleanv_in; by eapply Hcv).
  assert (Hc1 : forall x tys k, is_var σ x tys k -> k.1.1 = true -> False).
  { intros x tys k Hx. apply Hcv in Hx. unfold cleanv in Hx. apply andb_true_iff in Hx as [Hx _]. by destruct k.1.1. }
  destruct c as [c| | | | |]; try done.
  - destruct c; try done; simpl in *.
    + intros Hne tys k1 k2 Hx Hy. split; [by eapply Hc2|]. intros Hb. by destruct (Hc1 _ _ _ Hy).
    + intros Hne tys k1 k2 Hx Hy. split; [by eapply Hc2|]. intros Hb. by destruct (Hc1 _ _ _ Hy).
    + intros u v. apply Hco.
    + intros Hne tys k1 k2 Hx Hy. split; [|intros _; by eapply Hcv]. intros _. split; [by eapply Hc2|]. intros. by eapply Hc2.
    + intros u' v. apply Hco.
    + intros tys k. apply Hcv.
  - intros tys k. apply Hc2.
  - intros tys k. apply Hc2.
Qed.
Lemma tidy_step n c E K s E' K' o s' : rreached E K s -> radmissible E K s c -> calm_from s -> tidy E K s ->
  rx n c E K s = RDone E' K' o s' ->
  rreached E' K' s' /\ calm_from s' /\ tidy E' K' s' /\ forall e, o = OThrew e -> e = XBadGet /\ rgets c = true.
Proof.
  intros Hr Ha Hq Ht Hx. destruct (rx_steps C st nb eqf ltf HC n c E K s E' K' o s' Hr Ha Hx) as [Hr' Hst].
  assert (Hq' : calm_from s').
  { pose proof (rx_follows C eqf ltf n true c E K s ltac:(done)) as Hf. rewrite Hx in Hf.
    assert (Hsp : span true s s') by (destruct o; simpl in Hf; tauto). by destruct (calm_span _ _ _ Hq Hsp). }
  split; [done|]. split; [done|].
  assert (Ho : (exists e, o = OThrew e) \/ forall e, o <> OThrew e) by (destruct o; first [by left; eexists|by right]).
  destruct Ho as [[e ->]|Ho].
  - destruct (calm_threw n c E K s E' K' e s' Hr Hq Hx) as (->&Hg&Hm&->&->). split; [|by intros e [= <-]].
    intros σ κ Hs Hk. rewrite Hm in Hs Hk. by apply Ht.
  - split; [|by intros e He; destruct (Ho e)]. intros σ' κ' Hs' Hk'.
    destruct (looks C st nb eqf ltf HC _ _ _ Hr) as (σ&κ&Hs&Hk&_). destruct (Hst σ κ Hs Hk) as (σ1&κ1&Hs1&Hk1&H).
    assert (σ1 = σ') as -> by by eapply shows_unique. assert (κ1 = κ') as -> by by eapply kshows_unique.
    destruct (Ht σ κ Hs Hk) as [Hσ Hκ]. by destruct (rstep_neat C eqf ltf σ κ c o σ' κ' H Ho Hσ Hκ).
Qed.

(** Programs. *)
Definition stays (E : env) (K : kenv) (g : Prop) (r : presult) : Prop :=
  match r with
  | PRet E' K' s' => E' = E /\ K' = K /\ rreached E K s' /\ calm_from s' /\ tidy E K s'
  | PExn e E' K' s' => E' = E /\ K' = K /\ rreached E K s' /\ calm_from s' /\ tidy E K s' /\ e = XBadGet /\ ~ g
  | _ => True
  end.
Lemma stays_weaken E K (g g' : Prop) r : (g' -> g) -> stays E K g r -> stays E K g' r.
Proof. destruct r; simpl; tauto. Qed.
Lemma stays_exit n E1 K1 E K g r c : stays E1 K1 g r ->
  (forall s1, rreached E1 K1 s1 -> calm_from s1 -> tidy E1 K1 s1 -> radmissible E1 K1 s1 c /\
     forall E2 K2 o s2, rx n c E1 K1 s1 = RDone E2 K2 o s2 -> E2 = E /\ K2 = K /\ o = ODone) ->
  stays E K g (at_exit C n eqf ltf r c).
Proof.
  intros Hf Hc.
  assert (Hx : forall s1, rreached E1 K1 s1 -> calm_from s1 -> tidy E1 K1 s1 ->
    match rx n c E1 K1 s1 with RDone E2 K2 o s2 => E2 = E /\ K2 = K /\ o = ODone /\ rreached E K s2 /\ calm_from s2 /\ tidy E K s2 | _ => True end).
  { intros s1 Hr Hq Ht. destruct (Hc s1 Hr Hq Ht) as [Ha Hd]. destruct (rx n c E1 K1 s1) as [E2 K2 o s2|f] eqn:Hx; [|done].
    destruct (Hd _ _ _ _ eq_refl) as (->&->&->). destruct (tidy_step n c E1 K1 s1 E K ODone s2 Hr Ha Hq Ht Hx) as (?&?&?&_). done. }
  destruct r as [E' K' s1|e E' K' s1|f|]; simpl in Hf |- *; try done.
  - destruct Hf as (->&->&Hr&Hq&Ht). specialize (Hx s1 Hr Hq Ht). destruct (rx n c E1 K1 s1) as [E2 K2 o s2|f]; [|done].
    by destruct Hx as (->&->&->&?).
  - destruct Hf as (->&->&Hr&Hq&Ht&He&Hg). specialize (Hx s1 Hr Hq Ht). destruct (rx n c E1 K1 s1) as [E2 K2 o s2|f]; [|done].
    destruct Hx as (->&->&->&?&?&?). simpl. done.
Qed.
Lemma stays_cmd n c E K s : checks C (types E) c -> rreached E K s -> calm_from s -> tidy E K s ->
  stays E K (rgets c = false) (presult_of (rx n c E K s)).
Proof.
  intros Hc Hr Hq Ht. assert (Ha : radmissible E K s c) by (apply (checks_admissible C st nb eqf ltf HC); [done..|by eapply tidy_unparked]).
  destruct (rx n c E K s) as [E' K' o s'|f] eqn:Hx; [|done].
  destruct (checks_frame C eqf ltf n _ _ E K s E' K' o s' Hc Hx) as [-> ->].
  destruct (tidy_step n c E K s E K o s' Hr Ha Hq Ht Hx) as (?&?&?&He). destruct o; try done.
  destruct (He _ eq_refl) as [-> Hg]. simpl. do 6 (split; [done|]). congruence.
Qed.
Lemma decl_not_ref E K s x : rreached E K s -> E !! x = None -> K !! x = None -> ~ is_ref K x.
Proof.
  intros Hr HxE HxK (y&[b' refs]&Hy&Hin). simpl in Hin. apply elem_of_list_fmap in Hin as ([r b2]&->&Hin). simpl in *.
  destruct (r_names C st nb eqf ltf HC E K s y b' refs Hr Hy) as (_&_&Hrf).
  destruct (Hrf _ _ Hin) as [H|[? H]]; unfold env, kenv in *; congruence.
Qed.
Lemma program_tidy n m : forall p (E : env) (K : kenv) s,
  compiles C st nb (types E) (dom K) p -> rreached E K s -> calm_from s -> tidy E K s ->
  stays E K (getless p) (prun C n m eqf ltf p E K s) /\
  forall c E' K' s', issues C n m eqf ltf p E K s c E' K' s' -> rreached E' K' s' -> sources_unparked C E' s' c.
Proof.
  induction p as [|c|c p IH|p IHp q IHq|p IHp q IHq|x rs ps IH|x ps IH|x y p IH|]; intros E K s Hc Hr Hq Ht; simpl in Hc.
  - split; [done|]. by inversion 1.
  - split; [by apply stays_cmd|]. intros c' E' K' s' Hi. inversion Hi; subst. intros _. by eapply tidy_unparked.
  - destruct Hc as (x&t&Hd&Hx&HxT&Hp).
    assert (HxE : E !! x = None). { unfold env, ctx in *. rewrite lookup_fmap in Hx. by destruct (E !! x). }
    assert (HxK : K !! x = None) by (by apply not_elem_of_dom).
    assert (Ha : radmissible E K s c) by by eapply (decl_admissible C st nb eqf ltf HC).
    assert (Hrun : forall E1 K1 s1, presult_of (rx n c E K s) = PRet E1 K1 s1 -> exists b, E1 = <[x:=b]> E /\ K1 = K /\ bnd_ty b = t /\
       rreached E1 K1 s1 /\ calm_from s1 /\ tidy E1 K1 s1).
    { intros E1 K1 s1 H1. destruct (rx n c E K s) as [E2 K2 o s2|f] eqn:Hrx; [|done].
      destruct (decl_frame C st nb eqf ltf n c x t E K s E2 K2 o s2 Hd Hrx) as [-> [(e&->&->)|[Ho (b&Hb&->)]]]; [done|].
      assert (He : E1 = <[x:=b]> E /\ K1 = K /\ s1 = s2) by (destruct o; simpl in H1; by inversion H1). destruct He as (->&->&->).
      exists b. destruct (tidy_step _ _ _ _ _ _ _ _ _ Hr Ha Hq Ht Hrx) as (?&?&?&_). done. }
    assert (Hin : forall b, bnd_ty b = t -> compiles C st nb (types (<[x:=b]> E : env)) (dom K) p).
    { intros b Hb. unfold env, ctx in *. rewrite fmap_insert Hb. done. }
    split.
    + simpl. rewrite (decl_declares C st nb _ _ _ _ Hd).
      destruct (presult_of (rx n c E K s)) as [E1 K1 s1|e E1 K1 s1|f|] eqn:Hpr; simpl; try done.
      * destruct (Hrun _ _ _ eq_refl) as (b&->&->&Hb&Hr1&Hq1&Ht1).
        destruct (IH (<[x:=b]> E) K s1 (Hin b Hb) Hr1 Hq1 Ht1) as [Hst _].
        eapply stays_exit; [eapply stays_weaken; [|exact Hst]; by intros [_ ?]|].
        intros s2 Hr2 Hq2 Ht2. pose proof (decl_not_ref E K s x Hr HxE HxK) as Hnr.
        assert (Hl : (<[x:=b]> E : env) !! x = Some b) by (unfold env; by rewrite lookup_insert).
        split; [by eapply (drop_adm C st nb eqf ltf HC)|]. intros E3 K3 o s3 Hrx.
        destruct (drop_ok C st nb eqf ltf HC n x (<[x:=b]> E) K s2 b Hr2 Hl Hnr) as [Hf|(s4&Hf&_)]; rewrite Hf in Hrx; [done|].
        injection Hrx as <- <- <- <-. unfold env in *. by rewrite delete_insert.
      * destruct (rx n c E K s) as [E2 K2 o s2|f] eqn:Hrx; [|done]. destruct o as [|e'| | | | |]; try done. injection Hpr as -> -> -> ->.
        destruct (tidy_step _ _ _ _ _ _ _ _ _ Hr Ha Hq Ht Hrx) as (?&?&?&He). destruct (He _ eq_refl) as [-> Hg].
        destruct (calm_threw n c E K s E1 K1 XBadGet s1 Hr Hq Hrx) as (_&_&_&->&->). simpl. do 6 (split; [done|]). rewrite Hg. by intros [].
    + intros c' E' K' s' Hi. inversion Hi; subst.
      match goal with H : presult_of _ = PRet _ _ _ |- _ => destruct (Hrun _ _ _ H) as (b&->&->&Hb&Hr1&Hq1&Ht1) end.
      eapply (IH (<[x:=b]> E) K); [by apply Hin|done..].
  - destruct Hc as [Hcp Hcq]. destruct (IHp E K s Hcp Hr Hq Ht) as [Hst Hup]. split.
    + simpl. destruct (prun C n m eqf ltf p E K s) as [E1 K1 s1|e E1 K1 s1|f|]; simpl in Hst |- *; try done.
      * destruct Hst as (->&->&Hr1&Hq1&Ht1). destruct (IHq E K s1 Hcq Hr1 Hq1 Ht1) as [Hst _]. eapply stays_weaken; [|exact Hst]. tauto.
      * tauto.
    + intros c' E' K' s' Hi. inversion Hi; subst; [by eapply Hup|].
      match goal with H : prun _ _ _ _ _ _ _ _ _ = PRet _ _ _ |- _ => rewrite H in Hst; destruct Hst as (->&->&Hr1&Hq1&Ht1) end.
      by eapply (IHq E K).
  - destruct Hc as [Hcp Hcq]. destruct (IHp E K s Hcp Hr Hq Ht) as [Hst Hup]. split.
    + simpl. destruct (prun C n m eqf ltf p E K s) as [E1 K1 s1|e E1 K1 s1|f|]; simpl in Hst |- *; try done.
      destruct Hst as (->&->&Hr1&Hq1&Ht1&_&Hg). destruct (IHq E K s1 Hcq Hr1 Hq1 Ht1) as [Hst _]. eapply stays_weaken; [|exact Hst]. tauto.
    + intros c' E' K' s' Hi. inversion Hi; subst; [by eapply Hup|].
      match goal with H : prun _ _ _ _ _ _ _ _ _ = PExn _ _ _ _ |- _ => rewrite H in Hst; destruct Hst as (->&->&Hr1&Hq1&Ht1&_) end.
      by eapply (IHq E K).
  - destruct Hc as (tys&Hx&Hps). unfold ctx, env in *. rewrite lookup_fmap in Hx.
    destruct (E !! x) as [[tys' a|]|] eqn:HxE; simpl in Hx; try done. injection Hx as ->.
    destruct (visit_type C st nb eqf ltf HC E K s x tys a Hr HxE) as (k&t&l&kd&w&z&ls&_&Htt&_&Hl&Hlen&Hv).
    destruct (Hps t) as (Hnd&Hln&Hfr&Hp); [by eapply elem_of_list_lookup_2|].
    assert (Hun' : forall r, r ∈ rs (ity_uid t) -> E !! r = None /\ K !! r = None).
    { intros r Hin. destruct (Hfr r Hin) as [H1 H2]. rewrite lookup_fmap in H1. apply fmap_None in H1. split; [done|by apply not_elem_of_dom]. }
    destruct (open_ok C st nb eqf ltf HC x (rs (ity_uid t)) E K s tys a t l kd w z ls Hr HxE Hl Hv Hnd Hln Hun') as [Hop Hr1].
    set (refs := zip (rs (ity_uid t)) (zip_with BVar (ut_members (te C (ity_uid t))) ls)) in *.
    set (E1 := list_to_map refs ∪ delete x E) in *. set (K1 := <[x:=(BVar tys a, refs)]> K) in *.
    assert (Ha : radmissible E K s (ROpen x (ity_uid t) (rs (ity_uid t)))).
    { destruct (looks C st nb eqf ltf HC _ _ _ Hr) as (σ&κ&Hs&Hk&HK&Hvar&_&Hnone&_).
      exists 0, σ, κ. split; [done|]. split; [done|]. split; [|split; [done|split; [done|]]].
      - left. exists tys. apply Hvar. unfold env, ctx in *. by rewrite lookup_fmap HxE.
      - intros r Hin. destruct (Hun' r Hin) as [H1 H2]. split; [by apply Hnone|]. specialize (HK r). unfold kenv, kstate in *.
        destruct (κ !! r); [|done]. destruct HK as [_ HK]. destruct HK; [done|]. congruence. }
    destruct (tidy_step n _ _ _ _ _ _ _ _ Hr Ha Hq Ht (Hop n)) as (_&_&Ht1&_).
    destruct (IH (ity_uid t) E1 K1 s) as [Hst Hup]; [|done..|].
    { unfold E1, K1, refs. pose proof (types_refs E x (rs (ity_uid t)) (ut_members (te C (ity_uid t))) ls Hln Hlen) as HT. unfold env, ctx in HT.
      rewrite HT. unfold kenv. by rewrite dom_insert_L. }
    split.
    + simpl. unfold dispatch. rewrite HxE Hv. simpl. rewrite Hop. simpl.
      eapply stays_exit; [eapply stays_weaken; [|exact Hst]; intros H; apply H|].
      intros s2 Hr2 Hq2 Ht2.
      assert (HKx : K !! x = None).
      { destruct (K !! x) as [[? ?]|] eqn:Hkx; [|done]. destruct (r_names C st nb eqf ltf HC _ _ _ _ _ _ Hr Hkx) as [Hn _]. unfold env in *. congruence. }
      assert (HK1 : K1 !! x = Some (BVar tys a, refs)) by (unfold K1, kenv; by rewrite lookup_insert).
      assert (Hbs : forall p, p ∈ refs -> E1 !! p.1 = Some p.2).
      { intros [r1 b1] Hin. simpl. unfold E1. apply lookup_union_Some_l. apply elem_of_list_to_map_1; [by apply zip_fst_nodup|done]. }
      destruct (close_ok C st nb eqf ltf HC x (BVar tys a) refs E1 K1 s2 E Hr2 HK1 Hbs) as [Hcl _].
      { apply close_open; [done|]. intros r1 Hin. apply Hun'. by eapply zip_fst_in. }
      split.
      * destruct (looks C st nb eqf ltf HC _ _ _ Hr2) as (σ&κ&Hs&Hk&_). exists 0, σ, κ. split; [done|]. split; [done|].
        pose proof (Hk x) as Hkx. unfold kenv, kstate in *. rewrite HK1 in Hkx. destruct (κ !! x) as [[α rs']|] eqn:Hκ; [|done].
        destruct Hkx as [-> _]. exists α, refs.*1. split; [done|]. intros r Hin. apply elem_of_list_fmap in Hin as ([r' b']&->&Hin).
        specialize (Hbs _ Hin). simpl in *. specialize (Hs r'). unfold env in *. rewrite Hbs in Hs. destruct (σ !! r'); [by eexists|by destruct b'].
      * intros E3 K3 o s3 Hrx. rewrite Hcl in Hrx. injection Hrx as <- <- <- <-. split; [done|]. split; [|done]. unfold K1, kenv in *. by rewrite delete_insert.
    + intros c' E' K' s' Hi. inversion Hi; subst.
      match goal with H : _ !! x = Some _, H' : visit_user _ _ _ _ _ = Ok _ _ |- _ => unfold env in *; rewrite HxE in H; injection H as <- <-; rewrite Hv in H'; injection H' as <- <- end.
      match goal with H : presult_of _ = PRet _ _ _ |- _ => rewrite Hop in H; injection H as <- <- <- end.
      by eapply Hup.
  - destruct Hc as (tys&Hx&Hps). unfold ctx, env in *. rewrite lookup_fmap in Hx.
    destruct (E !! x) as [[tys' a|]|] eqn:HxE; simpl in Hx; try done. injection Hx as ->.
    destruct (visit_type C st nb eqf ltf HC E K s x tys a Hr HxE) as (k&t&l&kd&w&z&ls&_&Htt&_&Hl&Hlen&Hv).
    destruct (IH (ity_uid t) E K s) as [Hst Hup]; [by eapply Hps, elem_of_list_lookup_2|done..|]. split.
    + simpl. unfold dispatch. rewrite HxE Hv. simpl. eapply stays_weaken; [|exact Hst]. intros H; apply H.
    + intros c' E' K' s' Hi. inversion Hi; subst.
      match goal with H : _ !! x = Some _, H' : visit_user _ _ _ _ _ = Ok _ _ |- _ => unfold env in *; rewrite HxE in H; injection H as <- <-; rewrite Hv in H'; injection H' as <- <- end.
      by eapply Hup.
  - destruct Hc as [Hxy Hp].
    assert (Heq : forall s E1 K1 o s1, rreached E K s -> calm_from s -> tidy E K s -> rx n (RMain (CEq x y)) E K s = RDone E1 K1 o s1 ->
      E1 = E /\ K1 = K /\ rreached E K s1 /\ calm_from s1 /\ tidy E K s1 /\ forall e, o <> OThrew e).
    { intros s0 E1 K1 o s1 Hr0 Hq0 Ht0 Hx.
      assert (Ha : radmissible E K s0 (RMain (CEq x y))) by (apply (checks_admissible C st nb eqf ltf HC); [done..|by eapply tidy_unparked]).
      destruct (checks_frame C eqf ltf n (RMain (CEq x y)) (types E) E K s0 E1 K1 o s1 Hxy Hx) as [-> ->].
      destruct (tidy_step _ _ _ _ _ _ _ _ _ Hr0 Ha Hq0 Ht0 Hx) as (?&?&?&He). do 5 (split; [done|]). intros e ->. by destruct (He e eq_refl). }
    split.
    + simpl. generalize m at 2. intros j. revert s Hr Hq Ht. induction j as [|j IHj]; intros s Hr Hq Ht; [done|]. simpl.
      destruct (rx n (RMain (CEq x y)) E K s) as [E1 K1 o s1|f] eqn:Hx; [|done].
      destruct (Heq _ _ _ _ _ Hr Hq Ht Hx) as (->&->&Hr1&Hq1&Ht1&Ho).
      assert (Hb : o = OBool true \/ o <> OBool true) by (destruct o as [|e| | | | |[]]; first [by left|by right]).
      destruct Hb as [->|Hb]; [|by destruct o as [|e| | | | |[]]; try done; destruct (Ho e)].
      destruct (IH E K s1 Hp Hr1 Hq1 Ht1) as [Hst _]. destruct (prun C n m eqf ltf p E K s1) as [E2 K2 s2|e E2 K2 s2|f|]; simpl in Hst |- *; try done.
      destruct Hst as (->&->&Hr2&Hq2&Ht2). by apply IHj.
    + intros c' E' K' s' Hi. remember (PWhile x y p) as w eqn:Hw. revert Hw. induction Hi; intros Hw; try done; injection Hw as -> -> ->.
      * match goal with H : rexec _ _ _ _ _ _ _ _ = _ |- _ => destruct (Heq _ _ _ _ _ Hr Hq Ht H) as (->&->&Hr1&Hq1&Ht1&Ho) end.
        by eapply (IH E K).
      * match goal with H : rexec _ _ _ _ _ _ _ _ = _ |- _ => destruct (Heq _ _ _ _ _ Hr Hq Ht H) as (->&->&Hr1&Hq1&Ht1&Ho) end.
        destruct (IH _ _ _ Hp Hr1 Hq1 Ht1) as [Hst _].
        match goal with H : prun _ _ _ _ _ _ _ _ _ = PRet _ _ _ |- _ => rewrite H in Hst; destruct Hst as (->&->&Hr2&Hq2&Ht2) end.
        by apply IHHi.
  - split; [done|]. by inversion 1.
Qed.
End prog.

(** ** Theorems *)
Section ends.
Context (C : cfg) (st nb : bool) (eqf ltf : uid -> uval -> uval -> bool) (HC : good_env C st nb).
Notation rreached := (rreached C st nb eqf ltf).
Notation types := (fmap bnd_ty).
Notation tidy := (tidy C).

Lemma tidy_sound p (E : env) (K : kenv) s m :
  compiles C st nb (types E) (dom K) p -> rreached E K s -> calm_from s -> tidy E K s ->
  exists r, proceeds C eqf ltf p m E K s r /\
    match r with
    | PRet E' K' s' => E' = E /\ K' = K /\ rreached E K s' /\ calm_from s' /\ tidy E K s'
    | PExn e E' K' s' => E' = E /\ K' = K /\ rreached E K s' /\ calm_from s' /\ tidy E K s' /\ e = XBadGet /\ ~ getless p
    | PMore => ~ loop_free p
    | PWrong _ => False
    end.
Proof.
  intros Hc Hr Hq Ht. destruct (only_parked C st nb eqf ltf HC p E K s m Hc Hr) as (r&[n0 Hn]&Hf).
  { intros n. apply (program_tidy C st nb eqf ltf HC n m p E K s Hc Hr Hq Ht). }
  exists r. split; [by exists n0|].
  destruct (program_tidy C st nb eqf ltf HC n0 m p E K s Hc Hr Hq Ht) as [Hst _]. rewrite Hn in Hst; [|done]. by destruct r.
Qed.
Lemma tidy_meaning p (E : env) (K : kenv) s n m σ κ :
  compiles C st nb (types E) (dom K) p -> rreached E K s -> calm_from s -> tidy E K s ->
  shows C (mem s) E σ -> kshows (mem s) K κ ->
  match prun C n m eqf ltf p E K s with
  | PRet E' K' s' => E' = E /\ K' = K /\
      exists σ', shows C (mem s') E σ' /\ kshows (mem s') K κ /\ means C eqf ltf p σ None σ'
  | PExn e E' K' s' => E' = E /\ K' = K /\
      exists σ', shows C (mem s') E σ' /\ kshows (mem s') K κ /\ means C eqf ltf p σ (Some e) σ'
  | _ => True
  end.
Proof.
  intros Hc Hr Hq Ht Hs Hk. apply (runs_parked C st nb eqf ltf HC); try done.
  apply (program_tidy C st nb eqf ltf HC n m p E K s Hc Hr Hq Ht).
Qed.
Lemma tidy_start orc : tidy ∅ ∅ (init orc).
Proof.
  intros σ κ Hs Hk. split.
  - intros x α Hx. specialize (Hs x). unfold env, astate in *. rewrite lookup_empty Hx in Hs. by destruct α.
  - intros x α rs Hx. specialize (Hk x). unfold kenv, kstate in *. by rewrite lookup_empty Hx in Hk.
Qed.
Lemma tidy_whole p orc m : compiles C st nb ∅ ∅ p -> (forall i, orc i = 0%Z) ->
  exists r, proceeds C eqf ltf p m ∅ ∅ (init orc) r /\
    match r with
    | PRet _ _ s' => mem s' = ∅
    | PExn e _ _ s' => mem s' = ∅ /\ e = XBadGet /\ ~ getless p
    | PMore => ~ loop_free p
    | PWrong _ => False
    end.
Proof.
  intros Hc Ho. assert (Hr : rreached ∅ ∅ (init orc)) by (exists orc, []; constructor).
  destruct (tidy_sound p ∅ ∅ (init orc) m) as (r&Hp&Hf).
  { unfold env, ctx, kenv in *. by rewrite fmap_empty dom_empty_L. } { done. } { by intros i _. } { apply tidy_start. }
  exists r. split; [done|]. destruct r as [E' K' s'|e E' K' s'|f|]; try done.
  - destruct Hf as (_&_&Hr'&_). exact (r_nothing_left C st nb eqf ltf HC s' Hr').
  - destruct Hf as (_&_&Hr'&_&_&He). split; [|done]. exact (r_nothing_left C st nb eqf ltf HC s' Hr').
Qed.

(** Functions. *)
Context (Φ : list func) (sigs : list (list vty)) (N : nat) (HΦ : funcs_compile C st nb sigs N Φ).
Lemma tidy_compiles d p (E : env) (K : kenv) : (forall x, is_Some (E !! x) \/ is_Some (K !! x) \/ fmentions p x -> x < N) ->
  fcompiles C st nb sigs (types E) (dom K) p -> compiles C st nb (types E) (dom K) (unroll Φ N d p).
Proof.
  intros HN Hc. apply (unroll_compiles C st nb Φ sigs N HΦ); [|done]. intros x [Hx|[Hx|Hx]]; apply HN.
  - left. unfold env, ctx in *. rewrite lookup_fmap fmap_is_Some in Hx. done.
  - right. left. by apply elem_of_dom.
  - auto.
Qed.
Lemma tidy_unrolled d p (E : env) (K : kenv) m m' σ r σ' :
  (forall x, is_Some (E !! x) \/ is_Some (K !! x) \/ fmentions p x -> x < N) ->
  fcompiles C st nb sigs (types E) (dom K) p -> shows C m E σ -> shows C m' E σ' ->
  means C eqf ltf (unroll Φ N d p) σ r σ' -> fmeans C eqf ltf Φ p σ r σ'.
Proof.
  intros HN Hc Hs Hs' Hm.
  assert (Hv : forall m σ, shows C m E σ -> view (fun x => x < N) id σ σ).
  { intros m0 σ2 H. split; [done| |done]. intros x Hx. apply HN. left. by eapply shows_dom. }
  destruct (means_calls C st nb eqf ltf HC Φ sigs N HΦ d p 0 id (types E) (dom K) (types E) (dom K) σ σ r σ') as (σ0&Hf&Hw).
  - apply sim_start. intros x [Hx|Hx]; apply HN; [left|right; left; by apply elem_of_dom].
    unfold env, ctx in *. by rewrite lookup_fmap fmap_is_Some in Hx.
  - auto.
  - done.
  - by eapply shows_fits.
  - by eapply Hv.
  - done.
  - unfold astate in *. replace σ' with σ0; [done|]. apply map_eq. intros x. destruct (decide (x < N)) as [Hx|Hx]; [by rewrite (v_at _ _ _ _ Hw x Hx)|].
    assert (E0 : σ0 !! x = None). { apply eq_None_not_Some. intros Hx'. by apply Hx, (v_dom _ _ _ _ Hw). }
    rewrite E0. destruct (σ' !! x) eqn:E1; [|done]. destruct Hx. apply HN. left. eapply shows_dom; [exact Hs'|]. by eexists.
Qed.
Lemma tidy_functions p (E : env) (K : kenv) s d m σ κ :
  (forall x, is_Some (E !! x) \/ is_Some (K !! x) \/ fmentions p x -> x < N) ->
  fcompiles C st nb sigs (types E) (dom K) p -> rreached E K s -> calm_from s -> tidy E K s ->
  shows C (mem s) E σ -> kshows (mem s) K κ ->
  exists r, proceeds C eqf ltf (unroll Φ N d p) m E K s r /\
    match r with
    | PRet E' K' s' => E' = E /\ K' = K /\ rreached E K s' /\ calm_from s' /\ tidy E K s' /\
        exists σ', shows C (mem s') E σ' /\ kshows (mem s') K κ /\ fmeans C eqf ltf Φ p σ None σ'
    | PExn e E' K' s' => E' = E /\ K' = K /\ rreached E K s' /\ calm_from s' /\ tidy E K s' /\ e = XBadGet /\
        exists σ', shows C (mem s') E σ' /\ kshows (mem s') K κ /\ fmeans C eqf ltf Φ p σ (Some e) σ'
    | PMore => True
    | PWrong _ => False
    end.
Proof.
  intros HN Hc Hr Hq Ht Hs Hk. pose proof (tidy_compiles d p E K HN Hc) as Hcu.
  destruct (tidy_sound (unroll Φ N d p) E K s m Hcu Hr Hq Ht) as (r&[n0 Hn]&Hf). exists r. split; [by exists n0|].
  pose proof (tidy_meaning (unroll Φ N d p) E K s n0 m σ κ Hcu Hr Hq Ht Hs Hk) as Hm. rewrite Hn in Hm; [|done].
  destruct r as [E' K' s'|e E' K' s'|f|]; try done.
  - destruct Hf as (->&->&?&?&?). do 5 (split; [done|]). destruct Hm as (_&_&σ'&Hs'&Hk'&Hm). exists σ'. split; [done|]. split; [done|]. by eapply tidy_unrolled.
  - destruct Hf as (->&->&?&?&?&?&_). do 6 (split; [done|]). destruct Hm as (_&_&σ'&Hs'&Hk'&Hm). exists σ'. split; [done|]. split; [done|]. by eapply tidy_unrolled.
Qed.
End ends.
