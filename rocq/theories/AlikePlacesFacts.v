(** Programs with blocks, handlers, loops and visitors in the same situation do the same (proofs). *)
From Coq.ssr Require Import ssreflect.
From Coq Require Import ZArith Lia.
From stdpp Require Import gmap.
From iris.proofmode Require Import tactics.
From iris.bi Require Import big_op.
From Verif Require Import Base Types Dispatch Variant Sem Values ValuesFacts Client Observe ObserveFacts Spec Trace History Owned OwnedFacts.
From Verif Require Import Heap Wp Rep Link World ClientProof Levels HistoryProof Reach CostSpec.
From Verif Require Import ReachFacts CoreFacts Samples Asks Alike AlikeSpec AlikeFacts.
From Verif Require Import Places PlacesSpec PlacesProof PlacesFacts Programs ProgramsSpec ProgramsFacts PlacesAlikeSpec AlikePlaces.

(** ** The oracle *)
Section later.
Context (C : cfg) (n m : nat) (eqf ltf : uid -> uval -> uval -> bool).
Lemma asks_rop E K c : asks (rop C n eqf ltf E K c).
Proof.
  pose proof (r_sem C n) as HS.
  assert (Hn : forall b, asks (need b)) by (intros []; [apply asks_ret|apply asks_faulty]).
  assert (Hv : forall x, asks (need_var E x)).
  { intros x. unfold need_var. repeat case_match; first [apply asks_ret|apply asks_faulty]. }
  assert (Hr : forall tys a u, asks (var_get_ref C tys a u)).
  { intros tys a u. unfold var_get_ref. apply asks_bind; [by apply r_var_get|]. intros [l|]; [apply asks_ret|apply asks_throw]. }
  assert (Hnew : forall x tys k, (forall a, asks (k a)) -> asks (new_var E x tys k)).
  { intros x tys k Hk. unfold new_var. apply asks_bind.
    { unfold need_fresh. case_match; first [apply asks_ret|apply asks_faulty]. }
    intros _. apply asks_bind; [by apply asks_local_variant|]. intros. apply asks_ret. }
  destruct c as [c|x u rs|x|x tys y u mv|x y u mv|x u y]; simpl.
  - apply asks_bind; [done|]. intros _. apply asks_bind; [apply r_op|]. intros. apply asks_ret.
  - destruct (E !! x) as [b|]; [|apply asks_faulty]. apply asks_bind.
    { unfold opened. destruct b; [apply Hr|]. case_decide; first [apply asks_ret|apply asks_faulty]. }
    intros l. apply asks_bind; [apply asks_expect|]. intros r. apply asks_bind; [done|]. intros. apply asks_ret.
  - destruct (K !! x) as [[b refs]|]; [|apply asks_faulty]. apply asks_bind; [done|]. intros. apply asks_ret.
  - apply asks_bind; [done|]. intros _. apply asks_bind; [done|]. intros q. apply asks_bind; [done|]. intros l.
    apply asks_bind; [|intros; apply asks_ret]. apply Hnew. intros. by apply r_var_from.
  - apply asks_bind; [done|]. intros p. apply asks_bind; [done|]. intros q. apply asks_bind; [done|]. intros l.
    apply asks_bind; [|intros; apply asks_ret]. by apply r_var_assign_from.
  - apply asks_bind; [done|]. intros p. apply asks_bind; [done|]. intros q. apply asks_bind; [done|]. intros l.
    apply asks_bind; [|intros; apply asks_ret]. unfold var_poke. apply asks_bind; [done|]. intros. apply HS.
Qed.
Definition pafter (s : state) (r : presult) : Prop :=
  match r with PRet _ _ s' | PExn _ _ _ s' => later s s' | _ => True end.
Lemma pafter_rexec c E K s : pafter s (presult_of (rexec C n eqf ltf c E K s)).
Proof.
  pose proof (asks_rop E K c s) as H. unfold rexec. destruct (rop C n eqf ltf E K c s) as [[[E' K'] o] s'|e s'|f]; simpl; [|by destruct H|done].
  by destruct o.
Qed.
Lemma pafter_trans s s' r : later s s' -> pafter s' r -> pafter s r.
Proof. intros H. destruct r; simpl; try done; by apply later_trans. Qed.
Lemma pafter_and_then s r k : pafter s r -> (forall E K s, pafter s (k E K s)) -> pafter s (and_then r k).
Proof. intros Hr Hk. destruct r; simpl in *; try done. eapply pafter_trans; [done|]. apply Hk. Qed.
Lemma pafter_at_exit s r c : pafter s r -> pafter s (at_exit C n eqf ltf r c).
Proof.
  intros Hr. destruct r as [E K s'|e E K s'|f|]; simpl in *; try done.
  - eapply pafter_trans; [done|]. apply pafter_rexec.
  - pose proof (pafter_rexec c E K s') as H. destruct (presult_of _); simpl in *; try done. by eapply later_trans.
Qed.
Lemma pafter_dispatch x E K s k : (forall u s, pafter s (k u s)) -> pafter s (dispatch C x E K s k).
Proof.
  intros Hk. unfold dispatch. destruct (E !! x) as [[tys a|u a]|]; [|done..].
  assert (H : asks (visit_user C tys a (fun u _ => ret u))) by (apply r_visit_user; intros; apply asks_ret).
  specialize (H s). destruct (visit_user C tys a _ s) as [u s'|e s'|f]; [|simpl; by destruct H|done].
  eapply pafter_trans; [done|]. apply Hk.
Qed.
Lemma pafter_prun p E K s : pafter s (prun C n m eqf ltf p E K s).
Proof.
  revert E K s. induction p as [|c|c p IHp|p IHp q IHq|p IHp q IHq|x rs ps IH|x ps IH|x y p IHp|]; intros E K s; cbn [prun].
  - apply later_refl.
  - apply pafter_rexec.
  - destruct (rdeclares c); [|done]. apply pafter_and_then; [apply pafter_rexec|]. intros. apply pafter_at_exit, IHp.
  - apply pafter_and_then; [apply IHp|apply IHq].
  - specialize (IHp E K s). destruct (prun C n m eqf ltf p E K s); try done. eapply pafter_trans; [exact IHp|apply IHq].
  - apply pafter_dispatch. intros. apply pafter_and_then; [apply pafter_rexec|]. intros. apply pafter_at_exit, IH.
  - apply pafter_dispatch. intros. apply IH.
  - revert IHp. generalize (prun C n m eqf ltf p) as b. intros b IHp. generalize m as k. intros k. revert E K s. induction k as [|k IHk]; intros E K s; [done|].
    cbn [loop]. pose proof (pafter_rexec (RMain (CEq x y)) E K s) as H.
    destruct (rexec C n eqf ltf (RMain (CEq x y)) E K s) as [E' K' o s'|f]; [|done].
    destruct o as [| | | | | |[]]; try done. simpl in H. eapply pafter_trans; [done|]. apply pafter_and_then; [apply IHp|apply IHk].
  - done.
Qed.
End later.

(** ** Two runs *)
Section runs.
Context (C : cfg) (st nb : bool) (eqf ltf : uid -> uval -> uval -> bool).
Context (HC : good_env C st nb).
Notation W := (WPar st nb).
Notation rreached := (rreached C st nb eqf ltf).

Lemma rreached_world E s : rreached E ∅ s -> exists σ, world C W E σ (mem s) /\ ginv W s.
Proof.
  intros Hr. destruct (rreached_inv C st nb eqf ltf HC _ _ _ Hr) as (B&σ&κ&Hi).
  destruct (rinv_doms C st nb _ _ _ _ _ _ Hi) as [_ Hk]. destruct Hi as [(h1&h2&Hm&Hd&H1&H2) _ _ _ Hg].
  exists σ. split; [|done].
  assert (κ = ∅) as ->.
  { apply map_empty. intros x. apply eq_None_not_Some. intros Hx%Hk. unfold kenv in Hx. rewrite lookup_empty in Hx. by destruct Hx. }
  apply (hprop_in_entails _ _ (bi.equiv_entails_1_1 _ _ (kworld_empty C W))) in H2.
  assert (h2 = ∅) as -> by exact H2. by rewrite Hm right_id_L.
Qed.
Lemma rreached_stands E s y b : rreached E ∅ s -> E !! y = Some b -> exists α, stands C E s y α.
Proof.
  intros Hr Hb. destruct (rreached_world _ _ Hr) as (σ&Hw&_).
  assert (Hs : shows C (mem s) E σ) by by eapply world_shows.
  pose proof (hprop_in_entails _ _ (big_sepM2_lookup_iff (fun _ => own C W) E σ) (mem s) Hw) as Hi.
  assert (Hi' : forall x, is_Some (E !! x) <-> is_Some (σ !! x)) by exact Hi.
  destruct (proj1 (Hi' y)) as [α Hα]; [by eexists|]. exists α. by apply (stands_shows C E s σ).
Qed.

Lemma psides N E1 s1 E2 s2 : rreached E1 ∅ s1 -> rreached E2 ∅ s2 -> same_values C N E1 s1 E2 s2 -> same_luck s1 s2 ->
  exists β, sides s1 s2 β N β E1 E2 E1 E2 ∅ ∅ s1 s2 /\ envrel β N E1 E2.
Proof.
  intros H1 H2 Hv Hl. destruct (rreached_world _ _ H1) as (σ1&Hw1&Hg1), (rreached_world _ _ H2) as (σ2&Hw2&Hg2).
  destruct (start_inv C st nb N E1 s1 σ1 E2 s2 σ2 Hw1 Hg1 Hw2 Hg2 Hv Hl) as (β&Hs&He&_). exists β. split; [|done].
  split; [done|]. split; [done|]. split; [intros x; unfold kenv; rewrite !lookup_empty; constructor|].
  split; [intros x f; unfold kenv; by rewrite lookup_empty|]. done.
Qed.

Lemma ends_of N β E1 s1 E2 s2 r1 r2 : envrel β N E1 E2 -> presrel s1 s2 β N E1 E2 r1 r2 -> ends_alike C N E1 s1 E2 s2 r1 r2.
Proof.
  intros He. destruct r1 as [E1' K1 s1'|e1 E1' K1 s1'|f1|], r2 as [E2' K2 s2'|e2 E2' K2 s2'|f2|]; simpl; try done.
  - intros (β'&Hs&He'&HK&_). split; [by eapply krel_open|]. by eapply alike_of.
  - intros (Hx&β'&Hs&He'&HK&_). split; [by apply (orelo_told s1 s2 (OThrew e1) (OThrew e2))|].
    split; [by eapply krel_open|]. by eapply alike_of.
Qed.
Lemma programs_alike n m N p E1 s1 E2 s2 :
  rreached E1 ∅ s1 -> rreached E2 ∅ s2 -> same_values C N E1 s1 E2 s2 -> same_luck s1 s2 ->
  (forall x, mentions p x -> x ∈ N) ->
  ends_alike C N E1 s1 E2 s2 (prun C n m eqf ltf p E1 ∅ s1) (prun C n m eqf ltf p E2 ∅ s2).
Proof.
  intros H1 H2 Hv Hl Hn. destruct (psides N E1 s1 E2 s2 H1 H2 Hv Hl) as (β&Hsd&He).
  eapply ends_of; [done|]. by eapply al_prun.
Qed.
Lemma proceeds_alike m N p E1 s1 E2 s2 r1 :
  rreached E1 ∅ s1 -> rreached E2 ∅ s2 -> same_values C N E1 s1 E2 s2 -> same_luck s1 s2 ->
  (forall x, mentions p x -> x ∈ N) -> r1 <> PWrong FFuel ->
  proceeds C eqf ltf p m E1 ∅ s1 r1 -> exists r2, proceeds C eqf ltf p m E2 ∅ s2 r2 /\ ends_alike C N E1 s1 E2 s2 r1 r2.
Proof.
  intros H1 H2 Hv Hl Hn Hf [n0 Hr]. pose proof (programs_alike n0 m N p E1 s1 E2 s2 H1 H2 Hv Hl Hn) as H.
  rewrite (Hr n0 (le_n n0)) in H. exists (prun C n0 m eqf ltf p E2 ∅ s2). split; [|done].
  exists n0. intros n Hle. apply prun_mono; [done|]. intros Hx. rewrite Hx in H. destruct r1; simpl in H; try done. by subst.
Qed.
Lemma issues_alike n m N p E1 s1 E2 s2 c E1' K1' s1' :
  rreached E1 ∅ s1 -> rreached E2 ∅ s2 -> same_values C N E1 s1 E2 s2 -> same_luck s1 s2 ->
  (forall x, mentions p x -> x ∈ N) -> issues C n m eqf ltf p E1 ∅ s1 c E1' K1' s1' ->
  exists E2' K2' s2', issues C n m eqf ltf p E2 ∅ s2 c E2' K2' s2' /\ same_open K1' K2' /\
    alike C N E1 s1 E1' s1' E2 s2 E2' s2' /\
    told_alike C N E1 s1 E2 s2 (rexec C n eqf ltf c E1' K1' s1') (rexec C n eqf ltf c E2' K2' s2').
Proof.
  intros H1 H2 Hv Hl Hn Hi. destruct (psides N E1 s1 E2 s2 H1 H2 Hv Hl) as (β&Hsd&He).
  destruct (al_issues s1 s2 β C n m eqf ltf N E1 E2 _ _ _ _ _ _ _ _ Hi Hn _ _ _ _ Hsd) as (β'&E2'&K2'&s2'&Hi2&Hs'&Hc).
  exists E2', K2', s2'. split; [done|]. pose proof Hs' as (Hs1&He1&HK1&_). split; [by eapply krel_open|]. split; [by eapply alike_of|].
  pose proof (al_rexec s1 s2 β C n eqf ltf N E1 E2 _ _ _ _ _ c _ _ Hs' Hc) as Hr.
  destruct (rexec C n eqf ltf c E1' K1' s1') as [F1 L1 o1 t1|f1], (rexec C n eqf ltf c E2' K2' s2') as [F2 L2 o2 t2|f2]; simpl in *; try done.
  destruct Hr as [Ho [β2 (Hs2&He2&_)]]. split; [by apply orelo_told|]. by eapply alike_of.
Qed.
Lemma prun_keeps n m (N : list name) p E s E' s' y : rreached E ∅ s -> (forall x, mentions p x -> x ∈ N) ->
  ended (prun C n m eqf ltf p E ∅ s) E' s' -> y ∉ N -> kept C E s E' s' y.
Proof.
  intros Hr Hn Hd Hy. destruct (rreached_world _ _ Hr) as (σ&Hw&Hg).
  destruct (start_inv C st nb N E s σ E s σ Hw Hg Hw Hg) as (β&Hs&He&Hother); [done|done|].
  assert (Hsd : sides s s β N β E E E E ∅ ∅ s s).
  { split; [done|]. split; [done|]. split; [intros x; unfold kenv; rewrite !lookup_empty; constructor|].
    split; [intros x f; unfold kenv; by rewrite lookup_empty|]. done. }
  pose proof (al_prun s s β C n m eqf ltf N E E p Hn _ _ _ _ _ _ _ Hsd) as H.
  assert (Hx : exists β', srel s s β β' s' s' /\ E' !! y = E !! y).
  { destruct Hd as [K [Hd|[e Hd]]]; rewrite Hd in H; simpl in H.
    - destruct H as (β'&Hs'&_&_&_&Ho). exists β'. split; [done|]. by destruct (Ho y Hy).
    - destruct H as (_&β'&Hs'&_&_&_&Ho). exists β'. split; [done|]. by destruct (Ho y Hy). }
  destruct Hx as (β'&Hs'&HE). split; [done|]. intros α Ha. eapply Hother; [done..|]. intros l Hl Hlt.
  apply (sr_out1 _ _ _ _ _ _ Hs'). intros l' Hll.
  destruct (sr_new _ _ _ _ _ _ Hs' _ _ Hll) as [H0|[H0 _]]; [by destruct (Hl l')|lia].
Qed.
End runs.

(** ** Programs that have nothing to do with each other *)
Section commute.
Context (C : cfg) (st : bool) (eqf ltf : uid -> uval -> uval -> bool).
Context (HC : good_env C st true).
Notation rreached := (rreached C st true eqf ltf).
Notation proceeds := (proceeds C eqf ltf).

Lemma proceeds_keeps (N : list name) p m E s E' K' s' y : rreached E ∅ s -> (forall x, mentions p x -> x ∈ N) ->
  proceeds p m E ∅ s (PRet E' K' s') -> y ∉ N -> kept C E s E' s' y.
Proof.
  intros Hr Hn [n0 Hp] Hy. eapply (prun_keeps C st true eqf ltf HC n0 m N p); [done..| |done].
  exists K'. left. by apply Hp.
Qed.
Lemma kept_iff E s s' y α : rreached E ∅ s -> kept C E s E s' y -> stands C E s y α <-> stands C E s' y α.
Proof.
  intros Hr [_ Hk]. split; [apply Hk|]. intros Ha.
  assert (exists b, E !! y = Some b) as [b Hb].
  { destruct α; destruct Ha as (a&Ha&_); by eexists. }
  destruct (rreached_stands C st true eqf ltf HC E s y b Hr Hb) as [α' Ha'].
  by rewrite (stands_is C E s' y α' α (Hk _ Ha')) in Ha |- *; subst.
Qed.
Lemma proceeds_later p m E K s E' K' s' : proceeds p m E K s (PRet E' K' s') -> orc s' = orc s /\ opos s <= opos s'.
Proof.
  intros [n0 Hp]. pose proof (pafter_prun C n0 m eqf ltf p E K s) as H. rewrite (Hp n0 (le_n n0)) in H. exact H.
Qed.
Lemma steady_luck s s' : steady s -> orc s' = orc s -> same_luck s s'.
Proof. intros H Ho k. rewrite Ho. apply H. Qed.

Lemma commute (N1 N2 : list name) p q m E s E1 K1 s1 E2 K2 s2 :
  rreached E ∅ s -> compiles C st true (bnd_ty <$> E) ∅ p -> compiles C st true (bnd_ty <$> E) ∅ q ->
  (forall x, mentions p x -> x ∈ N1) -> (forall x, mentions q x -> x ∈ N2) -> (forall x, x ∈ N1 -> x ∉ N2) ->
  steady s -> proceeds p m E ∅ s (PRet E1 K1 s1) -> proceeds q m E1 K1 s1 (PRet E2 K2 s2) ->
  exists t1 t2, proceeds q m E ∅ s (PRet E ∅ t1) /\ proceeds p m E ∅ t1 (PRet E ∅ t2) /\
    E1 = E /\ E2 = E /\ K1 = ∅ /\ K2 = ∅ /\ opos t2 = opos s2 /\ forall y α, stands C E s2 y α <-> stands C E t2 y α.
Proof.
  intros Hr Hcp Hcq Hp Hq Hd Hst P1 P2.
  assert (Hfin : forall p s E' K' s', compiles C st true (bnd_ty <$> E) ∅ p -> rreached E ∅ s -> proceeds p m E ∅ s (PRet E' K' s') ->
    E' = E /\ K' = ∅ /\ rreached E ∅ s').
  { intros p0 s0 E' K' s' Hc0 Hr0 [n0 H0]. pose proof (ProgramsFacts.always C st true eqf ltf HC eq_refl p0 E ∅ s0 n0 m) as H.
    rewrite dom_empty_L in H. specialize (H Hc0 Hr0). by rewrite (H0 n0 (le_n n0)) in H. }
  destruct (Hfin _ _ _ _ _ Hcp Hr P1) as (->&->&Hr1). destruct (Hfin _ _ _ _ _ Hcq Hr1 P2) as (->&->&Hr2).
  assert (Kp : forall y α, y ∉ N1 -> stands C E s y α <-> stands C E s1 y α).
  { intros y α Hy. apply kept_iff; [done|]. by apply (proceeds_keeps N1 p m E s E ∅ s1). }
  assert (Kq : forall y α, y ∉ N2 -> stands C E s1 y α <-> stands C E s2 y α).
  { intros y α Hy. apply kept_iff; [done|]. by apply (proceeds_keeps N2 q m E s1 E ∅ s2). }
  assert (Hd' : forall x, x ∈ N2 -> x ∉ N1) by (intros x H2 H1; by apply (Hd x)).
  destruct (proceeds_later _ _ _ _ _ _ _ _ P1) as [Ho1 _].
  destruct (proceeds_alike C st true eqf ltf HC m N2 q E s1 E s (PRet E ∅ s2) Hr1 Hr) as (r2&P2'&A2); [..|done|].
  { intros x α Hx. symmetry. apply Kp. by apply Hd'. }
  { intros k. rewrite Ho1. apply Hst. } { done. } { done. }
  destruct r2 as [E' K' t1| | |]; simpl in A2; try done. destruct A2 as [_ A2].
  destruct (Hfin _ _ _ _ _ Hcq Hr P2') as (->&->&Hr1').
  destruct (proceeds_later _ _ _ _ _ _ _ _ P2') as [Ho2 _].
  assert (Kq' : forall y α, y ∉ N2 -> stands C E s y α <-> stands C E t1 y α).
  { intros y α Hy. apply kept_iff; [done|]. by apply (proceeds_keeps N2 q m E s E ∅ t1). }
  destruct (proceeds_alike C st true eqf ltf HC m N1 p E s E t1 (PRet E ∅ s1) Hr Hr1') as (r3&P1'&A1); [..|done|].
  { intros x α Hx. apply Kq'. by apply Hd. }
  { by apply steady_luck. } { done. } { done. }
  destruct r3 as [E' K' t2| | |]; simpl in A1; try done. destruct A1 as [_ A1].
  destruct (Hfin _ _ _ _ _ Hcp Hr1' P1') as (->&->&Hr2').
  assert (Kp' : forall y α, y ∉ N1 -> stands C E t1 y α <-> stands C E t2 y α).
  { intros y α Hy. apply kept_iff; [done|]. by apply (proceeds_keeps N1 p m E t1 E ∅ t2). }
  exists t1, t2. split; [done|]. split; [done|]. do 4 (split; [done|]). split.
  { destruct (alike_asked _ _ _ _ _ _ _ _ _ _ A1) as (j1&?&?), (alike_asked _ _ _ _ _ _ _ _ _ _ A2) as (j2&?&?). lia. }
  intros y α. destruct (decide (y ∈ N1)) as [H1|H1]; [|destruct (decide (y ∈ N2)) as [H2|H2]].
  - rewrite -Kq; [|by apply Hd]. by apply (alike_values _ _ _ _ _ _ _ _ _ _ A1).
  - rewrite -Kp' //. by apply (alike_values _ _ _ _ _ _ _ _ _ _ A2).
  - rewrite -Kq // -Kp // -Kp' // -Kq' //.
Qed.
End commute.

Section commute_seq.
Context (C : cfg) (st : bool) (eqf ltf : uid -> uval -> uval -> bool).
Context (HC : good_env C st true).
Notation rreached := (rreached C st true eqf ltf).
Notation proceeds := (proceeds C eqf ltf).

Lemma proceeds_seq p q m E K s E' K' s' : proceeds (PSeq p q) m E K s (PRet E' K' s') <->
  exists E1 K1 s1, proceeds p m E K s (PRet E1 K1 s1) /\ proceeds q m E1 K1 s1 (PRet E' K' s').
Proof.
  split.
  - intros [n0 H]. pose proof (H n0 (le_n n0)) as H0. simpl in H0.
    destruct (prun C n0 m eqf ltf p E K s) as [E1 K1 s1| | |] eqn:E0; simpl in H0; try done.
    exists E1, K1, s1. split; exists n0; intros n Hn.
    + rewrite (prun_mono C eqf ltf n0 n) //. by rewrite E0.
    + rewrite (prun_mono C eqf ltf n0 n) //. by rewrite H0.
  - intros (E1&K1&s1&[n1 H1]&[n2 H2]). exists (n1 `max` n2). intros n Hn. simpl. rewrite H1; [|lia]. simpl. apply H2. lia.
Qed.
Lemma commute_seq (N1 N2 : list name) p q m E s E' K' s' :
  rreached E ∅ s -> compiles C st true (bnd_ty <$> E) ∅ p -> compiles C st true (bnd_ty <$> E) ∅ q ->
  (forall x, mentions p x -> x ∈ N1) -> (forall x, mentions q x -> x ∈ N2) -> (forall x, x ∈ N1 -> x ∉ N2) ->
  steady s -> proceeds (PSeq p q) m E ∅ s (PRet E' K' s') ->
  exists t', proceeds (PSeq q p) m E ∅ s (PRet E' K' t') /\
    E' = E /\ K' = ∅ /\ opos t' = opos s' /\ forall y α, stands C E s' y α <-> stands C E t' y α.
Proof.
  intros Hr Hcp Hcq Hp Hq Hd Hst (E1&K1&s1&P1&P2)%proceeds_seq.
  destruct (commute C st eqf ltf HC N1 N2 p q m E s E1 K1 s1 E' K' s' Hr Hcp Hcq Hp Hq Hd Hst P1 P2)
    as (t1&t2&Q1&Q2&->&->&->&->&Ho&Hv).
  exists t2. split; [|done]. apply proceeds_seq. by exists E, ∅, t1.
Qed.
End commute_seq.
