(** Facts about reachable states (proofs behind the properties). *)
From stdpp Require Import gmap.
From iris.proofmode Require Import tactics.
From Verif Require Import Base Types TypesFacts Dispatch Variant Sem Values ValuesFacts Client Observe ObserveFacts Spec Trace TraceFacts History Owned OwnedFacts.
From Verif Require Import Heap Wp Rep Link SpecInt SpecVar SpecAssign SpecSem SpecQuery World ClientProof Levels HistoryProof Reach ReachFacts Raises.

(** What the proofs know of every value: a variant's index is valid, data is determinate
    under [st], and what parked content implies. *)
Section shaped.
Context (C : cfg) (st nb : bool).

Definition shapedv1 (P : uid -> Prop) (tys : list ity) (k : vval) : Prop :=
  exists t, tys !! k.1.2 = Some t /\ P (ity_uid t) /\
    (k.1.1 = true -> nb = false /\ no_fallback C tys /\ doubly_throwing C t).

Fixpoint shaped (v : uval) (u : uid) : Prop :=
  match v with
  | UV z ks =>
      (st = true -> z <> None) /\
      (fix go (ks : list vval) (mems : list (list ity)) : Prop :=
         match ks, mems with
         | [], [] => True
         | k :: ks', tys :: mems' => shapedv1 (shaped k.2) tys k /\ go ks' mems'
         | _, _ => False
         end) ks (ut_members (te C u))
  end.
Definition shapedv (tys : list ity) (k : vval) : Prop := shapedv1 (shaped k.2) tys k.

Lemma shaped_unfold z ks u :
  shaped (UV z ks) u <-> (st = true -> z <> None) /\ Forall2 shapedv (ut_members (te C u)) ks.
Proof.
  simpl. apply and_iff_compat_l. generalize (ut_members (te C u)). induction ks as [|k ks IH]; intros [|tys mems].
  - split; constructor.
  - split; [done|]. intros H. inversion H.
  - split; [done|]. intros H. inversion H.
  - rewrite Forall2_cons IH. done.
Qed.

Lemma within_shaped u v tys k : within C u v tys k -> shaped v u -> shapedv tys k.
Proof.
  induction 1 as [u z ks j tys k Hm Hk|u v tys k t tys' k' H1 IH1 Ht H2 IH2].
  - rewrite shaped_unfold. intros [_ Hf]. exact (Forall2_lookup_lr _ _ _ _ _ _ Hf Hm Hk).
  - intros Hs. destruct (IH1 Hs) as (t'&Ht'&Hs'&_). rewrite Ht in Ht'. injection Ht' as <-. by apply IH2.
Qed.

Notation W := (WPar st nb).

Section level.
Context (n : nat).
Context (IH : forall v u o h, R C W v u o h -> depth v <= n -> shaped v u).

Lemma Rvar_shaped tys a k h : Rvar C W tys a k h -> depth k.2 <= n -> shapedv tys k.
Proof.
  intros H Hd. destruct k as [[bk i] v].
  destruct H as (t&o&h0&h1&->&Hdj&Ht&H). destruct (apure_inv (tys !! i = Some t) _ Ht) as [-> Ht'].
  destruct H as (h2&h3&->&Hd23&HRI&H). simpl in *. exists t. simpl. split; [done|]. split.
  - destruct t as [u|u]; simpl in *; [by eapply IH|].
    destruct HRI as (p&o'&h4&h5&->&_&Ho&h6&h7&->&Hd67&Hp&HR). by eapply IH.
  - intros ->. destruct H as (p&h4&h5&->&Hd45&Hb&_).
    destruct (apure_inv (bkok C W tys t) _ Hb) as [_ [Hbk Hnb]]. split; [exact Hnb|].
    unfold never_uses_backup in Hbk. apply orb_false_iff in Hbk as [[Hf Hm]%orb_false_iff Hc].
    split; [by apply no_fallback_it|]. split; [by apply not_nothrow_copy|by apply not_nothrow_move].
Qed.
Lemma Rmems_shaped mems ls ks h : Rmems C W mems ls ks h -> Forall (fun k => depth k.2 <= n) ks ->
  Forall2 shapedv mems ks.
Proof.
  revert mems ls h. induction ks as [|k ks IHk]; intros mems ls h H Hd.
  - destruct mems, ls; simpl in *; by try destruct H.
  - destruct mems as [|tys mems], ls as [|l ls]; simpl in *; try by destruct H.
    destruct H as (h1&h2&->&Hdj&H1&H2). apply Forall_cons in Hd as [Hd1 Hd].
    constructor; [by eapply Rvar_shaped|by eapply IHk].
Qed.
End level.

Lemma R_shaped n : forall v u o h, R C W v u o h -> depth v <= n -> shaped v u.
Proof.
  induction n as [|n IH]; intros v u o h H Hd; [destruct v; simpl in Hd; lia|].
  destruct v as [z ks]. pose proof (R_unfold C W z ks u o) as [Hu]. apply Hu in H.
  destruct H as (ls&h0&h1&->&_&Ho&h2&h3&->&_&Hz&H).
  destruct (apure_inv (strict W = true -> z <> None) _ Hz) as [-> Hz']. apply depth_UV in Hd.
  apply shaped_unfold. split; [done|]. by eapply Rmems_shaped.
Qed.

Lemma world_shaped E σ m x α : world C W E σ m -> σ !! x = Some α ->
  match α with AVar tys k => shapedv tys k | AObj u v => shaped v u end.
Proof.
  intros Hw Hx. pose proof (world_shows C W E σ m m Hw ltac:(done) x) as Hs. rewrite Hx in Hs.
  destruct (E !! x) as [b|] eqn:He; [|done].
  destruct (own_part C W E σ x b α m Hw He Hx) as (h'&_&Ho).
  destruct b as [tys a|u a], α as [tys' k|u' v]; simpl in Ho; try done.
  - destruct Ho as (h1&h2&->&_&Ht&HR). destruct (apure_inv (tys' = tys) _ Ht) as [_ ->].
    eapply Rvar_shaped; [apply R_shaped|done|done].
  - destruct Ho as (h1&h2&->&_&Ht&HR). destruct (apure_inv (u' = u) _ Ht) as [_ ->].
    destruct HR as (o&h3&h4&->&_&_&HR). by eapply R_shaped.
Qed.
End shaped.

Section core.
Context (C : cfg) (st nb : bool) (eqf ltf : uid -> uval -> uval -> bool).
Context (HC : good_env C st nb).
Notation reached := (reached C st nb eqf ltf).
Notation step := (step C st nb eqf ltf).
Notation yields := (yields C eqf ltf).
Notation W := (WPar st nb).

Lemma reached_inv E s : reached E s -> exists B σ, inv C st nb B E s σ.
Proof. intros (orc&h&Hh). by eapply history_inv. Qed.

Lemma present_shaped E s tys k : reached E s -> present C E s tys k -> shapedv C st nb tys k.
Proof.
  intros Hr Hp. destruct (reached_inv _ _ Hr) as (B&σ&Hi). pose proof (inv_shows _ _ _ _ _ _ _ Hi) as Hs.
  destruct Hi as [Hw _ _]. destruct Hp as [x tys k Hx|x tys k t tys' k' Hx Ht Hw'|x u v tys' k' Hx Hw'].
  - apply (sees_is_var _ _ _ _ _ _ _ Hs) in Hx. by apply (world_shaped _ _ _ _ _ _ _ _ Hw Hx).
  - apply (sees_is_var _ _ _ _ _ _ _ Hs) in Hx. destruct (world_shaped _ _ _ _ _ _ _ _ Hw Hx) as (t'&Ht'&Hsh&_).
    rewrite Ht in Ht'. injection Ht' as <-. by eapply within_shaped.
  - apply (sees_obj_is_obj _ _ _ _ _ _ _ Hs) in Hx. pose proof (world_shaped _ _ _ _ _ _ _ _ Hw Hx) as Hsh.
    by eapply within_shaped.
Qed.

Lemma present_ok E s tys k : reached E s -> present C E s tys k ->
  exists t, tys !! k.1.2 = Some t /\
    (exists z ks, k.2 = UV z ks /\ length ks = length (ut_members (te C (ity_uid t))) /\ (st = true -> z <> None)) /\
    (k.1.1 = true -> nb = false /\ no_fallback C tys /\ doubly_throwing C t).
Proof.
  intros Hr Hp. destruct (present_shaped _ _ _ _ Hr Hp) as (t&Ht&Hsh&Hbk). exists t. split; [done|]. split; [|done].
  destruct k as [bi [z ks]]. exists z, ks. split; [done|]. apply shaped_unfold in Hsh as [Hz Hf].
  split; [|done]. symmetry. by eapply Forall2_length.
Qed.

(** Values without parked content. *)
Lemma shaped_clean v : forall u, shaped C st true v u -> clean v = true.
Proof.
  induction v as [z ks IH] using uval_ind'. intros u. rewrite shaped_unfold. intros [_ Hf]. simpl.
  apply forallb_forall. intros k Hk. apply elem_of_list_In in Hk.
  destruct (elem_of_list_lookup_1 _ _ Hk) as [j Hj].
  destruct (Forall2_lookup_r _ _ _ _ _ Hf Hj) as (tys&_&t&_&Hsh&Hbk).
  apply andb_true_iff. split.
  - destruct k.1.1; [|done]. by destruct (Hbk eq_refl).
  - rewrite Forall_forall in IH. by eapply IH.
Qed.
Lemma shapedv_clean tys k : shapedv C st true tys k -> cleanv k = true.
Proof.
  intros (t&_&Hsh&Hbk). unfold cleanv. apply andb_true_iff. split; [|by eapply shaped_clean].
  destruct k.1.1; [|done]. by destruct (Hbk eq_refl).
Qed.
Lemma shaped_determinate v : forall u, shaped C true nb v u -> determinate v = true.
Proof.
  induction v as [z ks IH] using uval_ind'. intros u. rewrite shaped_unfold. intros [Hz Hf]. simpl.
  apply andb_true_iff. split; [destruct z; [done|by destruct Hz]|].
  apply forallb_forall. intros k Hk. apply elem_of_list_In in Hk.
  destruct (elem_of_list_lookup_1 _ _ Hk) as [j Hj].
  destruct (Forall2_lookup_r _ _ _ _ _ Hf Hj) as (tys&_&t&_&Hsh&_).
  rewrite Forall_forall in IH. by eapply IH.
Qed.

(** Visitation. *)
Lemma reached_locates E s x tys a : reached E s -> E !! x = Some (BVar tys a) ->
  exists k t l, sees C E s x tys k /\ tys !! k.1.2 = Some t /\ value_at C s l (ity_uid t) k.2 /\ stored_at (mem s) a l /\
    (forall A (f : uid -> loc -> M A), visit_user C tys a f s = f (ity_uid t) l s) /\
    which a s = Ok (Z.of_nat k.1.2) s.
Proof.
  intros Hr Hx. destruct (reached_inv _ _ Hr) as (B&σ&Hi). pose proof (inv_shows _ _ _ _ _ _ _ Hi) as Hs.
  destruct Hi as [Hw _ _]. pose proof (Hs x) as Hsx. rewrite Hx in Hsx.
  destruct (σ !! x) as [[tys' k|u v]|] eqn:Hσ; [|done..]. destruct Hsx as [-> Hk].
  destruct (own_part C W E σ x _ _ _ Hw Hx Hσ) as (h'&Hsub&Ho). simpl in Ho.
  destruct Ho as (h1&h2&->&_&Ht&HR). destruct (apure_inv (tys = tys) _ Ht) as [-> _]. rewrite left_id_L in Hsub.
  pose proof (Rvar_open_stored C W (ge_lim _ _ _ HC) tys a k) as Hop. apply (hprop_in_entails _ _ Hop) in HR as Ho.
  destruct Ho as (t&l&kd&w&h3&h4&->&_&Htt&Hl&Hst&HT). destruct (apure_inv (tys !! k.1.2 = Some t) _ Htt) as [-> Htt'].
  rewrite left_id_L in Hsub. exists k, t, l. split; [by exists a|]. split; [done|]. split.
  - destruct HT as (h5&h6&->&_&(o&h7&h8&->&Hd78&Hp&HR')&_).
    exists (Cell kd (Some o) w), o, (depth k.2). split; [|split; [done|]].
    + by eapply pt_see, sub_l, sub_l.
    + eapply R_see; [done| |done]. eapply sub_r; [done|]. by eapply sub_l.
  - split; [by apply Hst|]. split; [intros A f; by apply Hl|].
    pose proof (Rvar_which C W tys a k) as Hwh. rewrite left_id_L in HR. 
    destruct (hprop_in_entails _ _ Hwh _ HR s Hsub) as (s'&Hw'&_).
    revert Hw'. unfold which, read_which, get_cell, bind. destruct (mem s !! a) as [[? ? [?|]]|]; simpl; [|done..].
    by intros [= -> _].
Qed.
End core.
