(** Variants with bounded reference types: proofs. *)
From Coq Require Import ZArith ssreflect.
From stdpp Require Import gmap.
From iris.proofmode Require Import tactics.
From Verif Require Import Base Types Dispatch Variant Sem Values Client Observe Spec History Reach References ReferencesSpec.
From Verif Require Import DispatchFacts Link TypesFacts ObserveFacts Heap Wp Rep World SpecVar HistoryProof CoreFacts ClientProof Levels.

(** ** Overloads *)
Lemma way_param_uid q u : param_uid (way_param q u) = u.
Proof. by destruct q. Qed.
Lemma param_way p : exists q, p = way_param q (param_uid p).
Proof. destruct p; [by exists ByRef|by exists ByCRef|by exists ByRRef]. Qed.
Lemma way_param_inj q q' u u' : way_param q u = way_param q' u' -> q = q' /\ u = u'.
Proof. by destruct q, q'; intros [= ->]. Qed.
Lemma node_offers t q u : way_param q u ∈ node t <-> offers q u t.
Proof.
  destruct t as [t|[] u'], q; simpl; rewrite ?elem_of_cons ?elem_of_nil; naive_solver.
Qed.

Lemma overloads_spec tys i n t p :
  (n, t, p) ∈ overloads i tys <->
  exists j, n = i + j /\ tys !! j = Some t /\ p ∈ node t /\
    forall j' t', j < j' -> tys !! j' = Some t' -> p ∉ node t'.
Proof.
  revert i. induction tys as [|t0 tys IH]; intros i; simpl.
  { rewrite elem_of_nil. split; [done|]. intros (j&_&Hj&_). by rewrite lookup_nil in Hj. }
  rewrite elem_of_app IH elem_of_list_fmap. split.
  - intros [(p'&[= -> -> ->]&Hp)|(j&->&Hj&Hp&Hl)].
    + apply elem_of_list_filter in Hp as [Hl Hp]. exists 0. split; [lia|]. split; [done|]. split; [done|].
      intros [|j'] t' Hlt Hj'; [lia|]. rewrite list.Forall_forall in Hl. apply Hl. by eapply elem_of_list_lookup_2.
    + exists (S j). split; [lia|]. split; [done|]. split; [done|].
      intros [|j'] t' Hlt Hj'; [lia|]. eapply (Hl j'); [lia|done].
  - intros ([|j]&->&Hj&Hp&Hl).
    + left. injection Hj as ->. exists p. split; [by rewrite Nat.add_0_r|]. apply elem_of_list_filter. split; [|done].
      apply list.Forall_forall. intros t' [j' Hj']%elem_of_list_lookup. apply (Hl (S j')); [lia|done].
    + right. exists j. split; [lia|]. split; [done|]. split; [done|].
      intros j' t' Hlt Hj'. apply (Hl (S j')); [lia|done].
Qed.
Lemma overloads_last tys n t q u :
  (n, t, way_param q u) ∈ overloads 0 tys <-> tys !! n = Some t /\ last_offer tys u q n.
Proof.
  rewrite overloads_spec. split.
  - intros (j&->&Hj&Hp&Hl). simpl. split; [done|]. split.
    + exists t. by rewrite -node_offers.
    + intros j' t' Hlt Hj'. rewrite -node_offers. by eapply Hl.
  - intros [Ht [(t'&Ht'&Ho) Hl]]. assert (t' = t) as -> by congruence. exists n. split; [done|]. split; [done|].
    split; [by rewrite node_offers|]. intros j' t' Hlt Hj'. rewrite node_offers. by eapply Hl.
Qed.
Lemma last_offer_unique tys u q i j : last_offer tys u q i -> last_offer tys u q j -> i = j.
Proof.
  intros [(t&Ht&Ho) Hl] [(t'&Ht'&Ho') Hl'].
  destruct (lt_eq_lt_dec i j) as [[Hlt|]|Hlt]; [|done|]; exfalso; [by eapply Hl|by eapply Hl'].
Qed.
Local Instance offers_dec q u t : Decision (offers q u t).
Proof. destruct q, t as [t|[] u']; simpl; apply _. Qed.
(** If any alternative offers a way, there is a last one. *)
Lemma last_offer_exists tys u q t : t ∈ tys -> offers q u t -> exists i, last_offer tys u q i.
Proof.
  intros Hin Ho. induction tys as [|t0 tys IH] using rev_ind; [by apply elem_of_nil in Hin|].
  destruct (offers_dec q u t0) as [H0|H0].
  - exists (length tys). split.
    + exists t0. split; [|done]. by apply list_lookup_middle.
    + intros j t' Hlt Hj. apply lookup_lt_Some in Hj. rewrite app_length /= in Hj. lia.
  - apply elem_of_app in Hin as [Hin|Hin]; last first.
    { apply elem_of_list_singleton in Hin as ->. done. }
    destruct (IH Hin) as (i&(t'&Ht'&Ho')&Hl). exists i. split.
    + exists t'. split; [|done]. by apply lookup_app_l_Some.
    + intros j t'' Hlt Hj. apply lookup_app_Some in Hj as [Hj|[Hge Hj]]; [by eapply Hl|].
      apply list_lookup_singleton_Some in Hj as [_ <-]. done.
Qed.

Section resolution.
Context (C : cfg).

Lemma fits_way u k q u' : fits C u k (way_param q u') =
  match rank C u u' with
  | None => None
  | Some r => match converted_cat u u' k, q with
              | LV false, ByRef => Some (r, 0) | LV false, ByCRef => Some (r, 1)
              | LV true, ByCRef => Some (r, 0) | RV true, ByCRef => Some (r, 1)
              | RV false, ByRRef => Some (r, 0) | RV false, ByCRef => Some (r, 1)
              | _, _ => None
              end
  end.
Proof.
  unfold fits, converted_cat. rewrite way_param_uid. destruct (rank C u u') as [r|]; [|done].
  destruct q; simpl; destruct (if decide _ then _ else _) as [[]|[]]; done.
Qed.

Lemma viable_spec tys u k o : o ∈ viable C tys u k <->
  exists q u' r b, o = Ov (o_index o) (o_type o) (way_param q u') r b /\
    tys !! o_index o = Some (o_type o) /\ last_offer tys u' q (o_index o) /\
    fits C u k (way_param q u') = Some (r, b).
Proof.
  unfold viable. rewrite elem_of_list_omap. split.
  - intros ([[n t] p]&Hin&Ho). simpl in Ho. destruct (fits C u k p) as [[r b]|] eqn:Ef; [|done]. injection Ho as <-. simpl.
    destruct (param_way p) as [q Hq]. rewrite Hq in Hin Ef |- *. apply overloads_last in Hin as [Ht Hl].
    exists q, (param_uid p), r, b. done.
  - intros (q&u'&r&b&Ho&Ht&Hl&Hf). exists (o_index o, o_type o, way_param q u'). split; [by apply overloads_last|].
    simpl. rewrite Hf. by rewrite Ho.
Qed.

Lemma chosen_spec tys u k o : chosen C tys u k = Some o <->
  o ∈ viable C tys u k /\ forall o', o' ∈ viable C tys u k -> o' = o \/ better o o'.
Proof.
  unfold chosen. split.
  - destruct (filter _ _) as [|x l] eqn:E; [done|]. intros [= ->].
    assert (Hin : o ∈ o :: l) by left. rewrite -E in Hin. apply elem_of_list_filter in Hin as [Hall Hin].
    split; [done|]. by apply list.Forall_forall.
  - intros [Hin Hb]. destruct (filter _ _) as [|x l] eqn:E.
    + exfalso. eapply (elem_of_nil o). rewrite -E. apply elem_of_list_filter. split; [|done]. by apply list.Forall_forall.
    + assert (Hx : x ∈ x :: l) by left. rewrite -E in Hx. apply elem_of_list_filter in Hx as [Hall Hx].
      rewrite list.Forall_forall in Hall. destruct (Hb x Hx) as [->|Hox]; [done|].
      destruct (Hall o Hin) as [->|Hxo]; [done|]. unfold better in *. exfalso. lia.
Qed.

(** Every way that fits is in the preferences, and conversely, in order. *)
Lemma fits_pref u k q u' r : rank C u u' = Some r ->
  q ∈ preference (converted_cat u u' k) <-> exists b, fits C u k (way_param q u') = Some (r, b).
Proof.
  intros Hr. rewrite fits_way Hr. unfold preference. destruct (converted_cat u u' k) as [[]|[]], q; rewrite ?elem_of_cons ?elem_of_nil; naive_solver.
Qed.
Lemma pref_order u k q q' u' r b b' A B :
  preference (converted_cat u u' k) = A ++ q :: B ->
  fits C u k (way_param q u') = Some (r, b) -> fits C u k (way_param q' u') = Some (r, b') ->
  (q' ∈ A /\ b' < b) \/ q' = q \/ (q' ∈ B /\ b < b').
Proof.
  rewrite !fits_way. destruct (rank C u u') as [r0|]; [|done]. unfold preference. intros HP.
  destruct (converted_cat u u' k) as [[]|[]]; destruct A as [|x A]; simplify_eq/=;
    try (destruct A as [|x1 A]; simplify_eq/=); try (by destruct A); destruct q'; intros; simplify_eq/=;
    rewrite ?elem_of_cons ?elem_of_nil; naive_solver lia.
Qed.

Lemma goes_to_best tys u k q i u' r : rank C u u' = Some r ->
  goes_to tys u' (converted_cat u u' k) q i <->
  exists b t, fits C u k (way_param q u') = Some (r, b) /\ tys !! i = Some t /\ last_offer tys u' q i /\
    forall o, o ∈ viable C tys u k -> param_uid (o_param o) = u' ->
      o = Ov i t (way_param q u') r b \/ b < o_bind o.
Proof.
  intros Hr. split.
  - intros (A&B&HP&HA&Hl). destruct Hl as [(t&Ht&Ho) Hlast].
    assert (q ∈ preference (converted_cat u u' k)) as Hq by (rewrite HP; set_solver).
    rewrite (fits_pref _ _ _ _ r Hr) in Hq. destruct Hq as [b Hb]. exists b, t.
    split; [done|]. split; [done|]. split; [split; [by exists t|done]|].
    intros o Hv Hu. apply viable_spec in Hv as (q'&u1&r'&b'&Eo&Ht'&Hl'&Hf'). rewrite Eo /= way_param_uid in Hu. subst u1.
    assert (r' = r) as ->. { rewrite fits_way Hr in Hf'. destruct (converted_cat u u' k) as [[]|[]], q'; by simplify_eq. }
    destruct (pref_order _ _ _ _ _ _ _ _ _ _ HP Hb Hf') as [[Hin _]|[->|[_ Hlt]]].
    + destruct Hl' as [(t'&Ht1&Ho1) _]. exfalso. eapply HA; [done| |done]. by eapply elem_of_list_lookup_2.
    + left. assert (o_index o = i) as Ei by (eapply last_offer_unique; [done|split; [by exists t|done]]).
      rewrite Hb in Hf'. injection Hf' as <-. rewrite Ei in Eo Ht'. rewrite Ht in Ht'. injection Ht' as Et. rewrite -Et in Eo. done.
    + right. rewrite Eo. done.
  - intros (b&t&Hf&Ht&Hl&Hall).
    assert (q ∈ preference (converted_cat u u' k)) as Hq by (rewrite (fits_pref _ _ _ _ r Hr); by exists b).
    apply elem_of_list_split in Hq as (A&B&HP). exists A, B. split; [done|]. split; [|done].
    intros q' t' Hin Hin' Ho'. destruct (last_offer_exists _ _ _ _ Hin' Ho') as [j Hj].
    assert (q' ∈ preference (converted_cat u u' k)) as Hq' by (rewrite HP; set_solver).
    rewrite (fits_pref _ _ _ _ r Hr) in Hq'. destruct Hq' as [b' Hb'].
    pose proof Hj as [(t1&Ht1&Ho1) _].
    destruct (Hall (Ov j t1 (way_param q' u') r b')) as [[= -> -> Hw ->]|Hlt]; simpl.
    + apply viable_spec. exists q', u', r, b'. done.
    + apply way_param_uid.
    + apply way_param_inj in Hw as [-> _].
      unfold preference in HP. destruct (converted_cat u u' k) as [[]|[]]; destruct A as [|x1 [|x2 [|x3 A]]]; simplify_eq/=; set_solver.
    + simpl in Hlt. destruct (pref_order _ _ _ _ _ _ _ _ _ _ HP Hf Hb') as [[_ ?]|[->|[Hin2 _]]]; [lia| |].
      * unfold preference in HP. destruct (converted_cat u u' k) as [[]|[]]; destruct A as [|x1 [|x2 [|x3 A]]]; simplify_eq/=; set_solver.
      * unfold preference in HP. destruct (converted_cat u u' k) as [[]|[]]; destruct A as [|x1 [|x2 [|x3 A]]]; simplify_eq/=; set_solver.
Qed.

Lemma chosen_picks tys u k u' q i :
  (exists o, chosen C tys u k = Some o /\ o_param o = way_param q u' /\ o_index o = i) <-> picks C tys u k u' q i.
Proof.
  split.
  - intros (o&Hc&Hp&Hi). apply chosen_spec in Hc as [Hv Hb]. pose proof Hv as Hv0.
    apply viable_spec in Hv0 as (q0&u0&r&b&Eo&Ht&Hl&Hf). rewrite Eo /= in Hp. apply way_param_inj in Hp as [-> ->]. subst i.
    assert (Hr : rank C u u' = Some r).
    { rewrite fits_way in Hf. destruct (rank C u u') as [r0|]; [|done]. destruct (converted_cat u u' k) as [[]|[]], q; by simplify_eq. }
    exists r. split; [done|]. split.
    + apply (goes_to_best _ _ _ _ _ _ r Hr). exists b, (o_type o). split; [done|]. split; [done|]. split; [done|].
      intros o' Hv' Hu'. destruct (Hb o' Hv') as [->|Hbet]; [by left|]. right. unfold better in Hbet.
      rewrite Eo /= in Hbet. rewrite way_param_uid in Hbet.
      assert (o_rank o' = r).
      { apply viable_spec in Hv' as (q1&u1&r1&b1&Eo1&_&_&Hf1). rewrite Eo1 /= way_param_uid in Hu'. subst u1.
        rewrite Eo1 /=. rewrite fits_way Hr in Hf1. destruct (converted_cat u u' k) as [[]|[]], q1; by simplify_eq. }
      lia.
    + intros u'' q' j r' Hne Hg Hr'. apply (goes_to_best _ _ _ _ _ _ r' Hr') in Hg as (b'&t'&Hf'&Ht'&Hl'&_).
      destruct (Hb (Ov j t' (way_param q' u'') r' b')) as [E|Hbet].
      { apply viable_spec. exists q', u'', r', b'. done. }
      { rewrite Eo in E. injection E as _ _ Hw _ _. apply way_param_inj in Hw as [_ ->]. done. }
      unfold better in Hbet. rewrite Eo /= !way_param_uid in Hbet. naive_solver.
  - intros (r&Hr&Hg&Hother). apply (goes_to_best _ _ _ _ _ _ r Hr) in Hg as (b&t&Hf&Ht&Hl&Hall).
    exists (Ov i t (way_param q u') r b). split; [|done]. apply chosen_spec. split.
    { apply viable_spec. exists q, u', r, b. done. }
    intros o Hv. destruct (decide (param_uid (o_param o) = u')) as [Hu|Hu].
    + destruct (Hall o Hv Hu) as [->|Hlt]; [by left|]. right. right. simpl. rewrite way_param_uid. split; [|done].
      apply viable_spec in Hv as (q1&u1&r1&b1&Eo1&_&_&Hf1). rewrite Eo1 /= way_param_uid in Hu. subst u1.
      rewrite Eo1 /=. rewrite fits_way Hr in Hf1. destruct (converted_cat u u' k) as [[]|[]], q1; by simplify_eq.
    + right. left. simpl.
      (* the best way for that type *)
      pose proof Hv as Hv0. apply viable_spec in Hv0 as (q1&u1&r1&b1&Eo1&Ht1&Hl1&Hf1). rewrite Eo1 /= way_param_uid in Hu. rewrite Eo1 /=.
      assert (Hr1 : rank C u u1 = Some r1).
      { rewrite fits_way in Hf1. destruct (rank C u u1) as [r0|]; [|done]. destruct (converted_cat u u1 k) as [[]|[]], q1; by simplify_eq. }
      assert (exists q2 j, goes_to tys u1 (converted_cat u u1 k) q2 j) as (q2&j&Hg2); [|by eapply Hother].
      assert (Hq1 : q1 ∈ preference (converted_cat u u1 k)) by (apply (fits_pref _ _ _ _ _ Hr1); by exists b1).
      clear -Hq1 Hl1. revert Hq1. unfold goes_to. generalize (preference (converted_cat u u1 k)) as P.
      intros P. induction P as [|q0 P IH]; intros Hin; [by apply elem_of_nil in Hin|].
      destruct (decide (Exists (fun t => offers q0 u1 t) tys)) as [Hex|Hex].
      * apply list.Exists_exists in Hex as (t&Hin'&Ho). destruct (last_offer_exists _ _ _ _ Hin' Ho) as [j Hj].
        exists q0, j, [], P. split; [done|]. split; [|done]. intros ?? He. by apply elem_of_nil in He.
      * apply elem_of_cons in Hin as [->|Hin].
        { exfalso. apply Hex. destruct Hl1 as [(t&Ht&Ho) _]. apply list.Exists_exists. exists t. split; [by eapply elem_of_list_lookup_2|done]. }
        destruct (IH Hin) as (q2&j&A&B&->&HA&Hj). exists q2, j, (q0 :: A), B. split; [done|]. split; [|done].
        intros q' t' [->|Hq']%elem_of_cons Ht' Ho'; [|by eapply HA]. apply Hex. apply list.Exists_exists. by exists t'.
Qed.
Lemma chosen_type tys u k o : chosen C tys u k = Some o -> tys !! o_index o = Some (o_type o).
Proof. intros Hc. apply chosen_spec in Hc as [Hv _]. by apply viable_spec in Hv as (?&?&?&?&_&Ht&_). Qed.

End resolution.

(** ** Single operations *)
Lemma which_of_nat i : which_of (Z.of_nat i) = Z.of_nat i.
Proof. unfold which_of. rewrite decide_False //. lia. Qed.

Section ops.
Context (C : cfg) (S : usem).

Lemma picks_chosen tys u k u' q i : picks C tys u k u' q i ->
  exists t r b, chosen C tys u k = Some (Ov i t (way_param q u') r b) /\ tys !! i = Some t.
Proof.
  intros H. apply chosen_picks in H as ([i' t p r b]&Hc&Hp&Hi). simpl in *. subst. exists t, r, b. split; [done|].
  by apply chosen_type in Hc.
Qed.

Lemma rvar_from_ref tys a u l c i c' s : binds C tys u c i c' -> raw (mem s) a ->
  exists s', rvar_from C S tys a u l (LV c) s = Ok tt s' /\
    only_at s a (Cell KVar (Some (ORef u l)) (Some (Z.of_nat i))) (EvC (TRef u) a) s' /\
    refers_to (mem s') tys a i c' u l.
Proof.
  intros [[q Hp] Ht] Ha. apply picks_chosen in Hp as (t&r&b&Hc&Ht'). rewrite Ht in Ht'. injection Ht' as <-.
  unfold rvar_from, r_initialize, ctor, bind. rewrite Hc /= way_param_uid decide_True //= /construct Ha /=.
  unfold indicate_which, write_which, bind, get_cell. rewrite /= lookup_insert /= /put_cell /= lookup_insert.
  eexists. split; [done|]. split.
  - split; [|done]. simpl. by rewrite insert_insert.
  - split; [done|]. simpl. by rewrite insert_insert lookup_insert.
Qed.

Context (HL : 0 < lim C).

Lemma r_visit_ref {A} tys a i c u l (k : rty -> loc -> M A) s : refers_to (mem s) tys a i c u l ->
  r_visit C tys a k s = k (RRef c u) a s.
Proof.
  intros [Ht Ha]. unfold r_visit, read_which, bind, get_cell. rewrite Ha /= which_of_nat.
  by rewrite (visitation_lookup _ _ _ (RRef c u)).
Qed.
Lemma ref_ptr_ref tys a i c u l s : refers_to (mem s) tys a i c u l -> ref_ptr u a s = Ok l s.
Proof. intros [Ht Ha]. unfold ref_ptr, get_obj, bind, get_cell. rewrite Ha /= decide_True //. Qed.

Lemma r_apply_ref {A} cvar tys a i c u l (f : bool -> uid -> loc -> M A) s : refers_to (mem s) tys a i c u l ->
  r_apply C cvar tys a f s = f c u l s.
Proof.
  intros H. unfold r_apply. rewrite (r_visit_ref _ _ _ _ _ _ _ _ H) /=. unfold bind. by rewrite (ref_ptr_ref _ _ _ _ _ _ _ H).
Qed.

Lemma rvar_copy_ref tys a b i c u l s : refers_to (mem s) tys b i c u l -> raw (mem s) a ->
  exists s', rvar_copy C S tys a b s = Ok tt s' /\ rvar_move C S tys a b s = Ok tt s' /\
    only_at s a (Cell KVar (Some (ORef u l)) (Some (Z.of_nat i))) (EvC (TRef u) a) s' /\
    refers_to (mem s') tys a i c u l /\ refers_to (mem s') tys b i c u l.
Proof.
  intros H Ha. pose proof H as [Ht Hb]. assert (a <> b) as Hne. { intros ->. unfold raw in Ha. congruence. }
  unfold rvar_copy, rvar_move, bind. rewrite !(r_visit_ref _ _ _ _ _ _ _ _ H) /=. unfold bind.
  rewrite (ref_ptr_ref _ _ _ _ _ _ _ H) /= /construct Ha /=.
  unfold which, indicate_which, write_which, read_which, bind, get_cell.
  rewrite /= lookup_insert_ne // Hb /= lookup_insert /= /put_cell /= lookup_insert which_of_nat.
  eexists. split; [done|]. split; [done|]. split; [|split].
  - split; [|done]. simpl. by rewrite insert_insert.
  - split; [done|]. simpl. by rewrite insert_insert lookup_insert.
  - split; [done|]. simpl. by rewrite insert_insert lookup_insert_ne.
Qed.

Lemma r_apply_value {A} cvar tys a i u l (f : bool -> uid -> loc -> M A) s : contains (mem s) tys a i u l ->
  r_apply C cvar tys a f s = f cvar u l s.
Proof.
  intros (o&Ha&H). unfold r_apply, r_visit, read_which, bind, get_cell. rewrite Ha /= which_of_nat.
  destruct H as [[Ht ->]|[Ht ->]]; rewrite (visitation_lookup _ _ _ _ HL Ht) //=.
  unfold wrap_ptr, get_obj, bind, get_cell. by rewrite Ha /= decide_True.
Qed.
Lemma rvar_convert_value tys a tys' b i u l k s : contains (mem s) tys' b i u l ->
  rvar_convert C S tys a tys' b k s = rvar_from C S tys a u l k s.
Proof.
  intros H. unfold rvar_convert, rvar_from, bind. destruct (ctor k) as [c|c]; by rewrite (r_apply_value _ _ _ _ _ _ _ _ H).
Qed.
Lemma rvar_destroy_ref tys a i c u l s : refers_to (mem s) tys a i c u l ->
  exists s', rvar_destroy C S tys a s = Ok tt s' /\
    only_at s a (Cell KVar None (Some (Z.of_nat i))) (EvD (TRef u) a) s'.
Proof.
  intros H. pose proof H as [Ht Ha]. unfold rvar_destroy, noexcept. rewrite (r_visit_ref _ _ _ _ _ _ _ _ H) /=. unfold bind.
  rewrite (ref_ptr_ref _ _ _ _ _ _ _ H) /= /destruct_obj Ha /=. eexists. split; [done|]. done.
Qed.

Lemma rvar_convert_lv tys a tys' b cvar i c u l s : refers_to (mem s) tys' b i c u l ->
  rvar_convert C S tys a tys' b (LV cvar) s = rvar_from C S tys a u l (LV c) s.
Proof.
  intros H. unfold rvar_convert, rvar_from. unfold bind. simpl. by rewrite (r_apply_ref _ _ _ _ _ _ _ _ _ H).
Qed.
Lemma rvar_convert_rv tys a tys' b i u l s : refers_to (mem s) tys' b i false u l ->
  rvar_convert C S tys a tys' b (RV false) s = rvar_from C S tys a u l (RV false) s.
Proof.
  intros H. unfold rvar_convert, rvar_from. unfold bind. simpl. by rewrite (r_apply_ref _ _ _ _ _ _ _ _ _ H).
Qed.
(** A variant of references to const is no danger to its objects. *)
Lemma picks_const tys u u' q i : picks C tys u (RV true) u' q i <-> picks C tys u (LV true) u' q i.
Proof.
  assert (H : forall u' q i, goes_to tys u' (converted_cat u u' (RV true)) q i <-> goes_to tys u' (converted_cat u u' (LV true)) q i).
  { intros u0 q0 i0. unfold goes_to, converted_cat. by case_decide. }
  unfold picks. split; intros (r&Hr&Hg&Ho); exists r; (split; [done|]); (split; [by apply H|]);
    intros u'' q' j r' Hne Hg'; apply (Ho u'' q' j r' Hne), H, Hg'.
Qed.
Lemma initialize_const tys a u l s : r_initialize C S tys a u l (RV true) s = r_initialize C S tys a u l (LV true) s.
Proof.
  unfold r_initialize. destruct (chosen C tys u (RV true)) as [o|] eqn:E, (chosen C tys u (LV true)) as [o'|] eqn:E'; [..|done].
  - destruct (param_way (o_param o)) as [q Hq].
    assert (Hp : picks C tys u (RV true) (param_uid (o_param o)) q (o_index o)) by (apply chosen_picks; by exists o).
    apply picks_const, chosen_picks in Hp as (o1&Ho1&Hp1&Hi1). rewrite E' in Ho1. injection Ho1 as <-.
    apply chosen_type in E. apply chosen_type in E'. rewrite Hi1 E in E'. injection E' as Et. rewrite Hp1 -Hq Hi1 Et. done.
  - destruct (param_way (o_param o)) as [q Hq].
    assert (Hp : picks C tys u (RV true) (param_uid (o_param o)) q (o_index o)) by (apply chosen_picks; by exists o).
    apply picks_const, chosen_picks in Hp as (o1&Ho1&_). congruence.
  - destruct (param_way (o_param o')) as [q Hq].
    assert (Hp : picks C tys u (LV true) (param_uid (o_param o')) q (o_index o')) by (apply chosen_picks; by exists o').
    apply picks_const, chosen_picks in Hp as (o1&Ho1&_). congruence.
Qed.
Lemma rvar_convert_const tys a tys' b i u l s : refers_to (mem s) tys' b i true u l ->
  rvar_convert C S tys a tys' b (RV false) s = rvar_from C S tys a u l (LV true) s.
Proof.
  intros H. unfold rvar_convert, rvar_from. unfold bind. simpl. rewrite (r_apply_ref _ _ _ _ _ _ _ _ _ H).
  by rewrite initialize_const.
Qed.
End ops.

(** References to non-const are made from non-const lvalues of the very type. *)
Lemma ref_exact C tys u k u' q i u0 : picks C tys u k u' q i -> tys !! i = Some (RRef false u0) -> u0 = u /\ u' = u /\ k = LV false.
Proof.
  intros (r&_&(A&B&HP&_&[(t&Ht&Ho) _])&_) Hi. rewrite Hi in Ht. injection Ht as <-.
  assert (q = ByRef) as -> by (by destruct q). simpl in Ho. subst u0.
  assert (Hin : ByRef ∈ preference (converted_cat u u' k)) by (rewrite HP; set_solver).
  unfold converted_cat in Hin. case_decide; subst; simpl in Hin; [|set_solver].
  split; [done|]. split; [done|]. destruct k as [[]|[]]; simpl in Hin; try done; set_solver.
Qed.

(** ** Without references: as before *)
Section agree.
Context (C : cfg).

Lemma offers_value tys u q t : t ∈ map RInt tys -> offers q u t -> q = ByCRef \/ q = ByRRef.
Proof. intros Hin%elem_of_list_fmap. destruct Hin as (t'&->&_). destruct q; simpl; auto; done. Qed.
Lemma last_offer_value tys u q i : q <> ByRef ->
  last_offer (map RInt tys) u q i <->
  (exists t, tys !! i = Some t /\ ity_uid t = u) /\ forall j t, i < j -> tys !! j = Some t -> ity_uid t <> u.
Proof.
  intros Hq. unfold last_offer. split.
  - intros [(t&Ht&Ho) Hl]. rewrite list_lookup_fmap_Some in Ht. destruct Ht as (t'&Ht&->). split.
    + exists t'. split; [done|]. destruct q; [done|exact Ho|exact Ho].
    + intros j t Hlt Hj E. eapply (Hl j (RInt t)); [done|by rewrite list_lookup_fmap Hj|by destruct q].
  - intros [(t&Ht&Ho) Hl]. split.
    + exists (RInt t). split; [by rewrite list_lookup_fmap Ht|by destruct q].
    + intros j t' Hlt Hj Ho'. rewrite list_lookup_fmap_Some in Hj. destruct Hj as (t1&Hj&->). eapply Hl; [done|done|by destruct q].
Qed.
Definition way_of (u u' : uid) (k : cat) : way :=
  match converted_cat u u' k with RV false => ByRRef | _ => ByCRef end.
Lemma goes_to_value tys u u' k q i : goes_to (map RInt tys) u' (converted_cat u u' k) q i <->
  q = way_of u u' k /\
  (exists t, tys !! i = Some t /\ ity_uid t = u') /\ forall j t, i < j -> tys !! j = Some t -> ity_uid t <> u'.
Proof.
  unfold goes_to, way_of. split.
  - intros (A&B&HP&HA&Hl). pose proof Hl as [(t&Ht&Ho) _].
    assert (Hq : q ∈ preference (converted_cat u u' k)) by (rewrite HP; set_solver).
    pose proof (elem_of_list_lookup_2 _ _ _ Ht) as Hin.
    destruct (offers_value tys u' q t Hin Ho) as [->| ->].
    + split; [|by apply last_offer_value in Hl]. destruct (converted_cat u u' k) as [[]|[]]; try done.
      exfalso. apply (HA ByRRef t); [|done|].
      * simpl in HP. destruct A as [|? A]; simplify_eq/=. left.
      * apply elem_of_list_fmap in Hin as (t'&->&_). done.
    + split; [|by apply last_offer_value in Hl]. destruct (converted_cat u u' k) as [[]|[]]; simpl in Hq; try done; set_solver.
  - intros (->&Hv). assert (Hl : forall q, q <> ByRef -> last_offer (map RInt tys) u' q i) by (intros q Hq; by apply last_offer_value).
    destruct (converted_cat u u' k) as [[]|[]]; simpl.
    + exists [], []. split; [done|]. split; [set_solver|by apply Hl].
    + exists [ByRef], []. split; [done|]. split; [|by apply Hl]. intros q' t ->%elem_of_list_singleton Hin Ho.
      by destruct (offers_value _ _ _ _ Hin Ho).
    + exists [], []. split; [done|]. split; [set_solver|by apply Hl].
    + exists [], [ByCRef]. split; [done|]. split; [set_solver|by apply Hl].
Qed.

Lemma picks_value tys u k i : (exists u' q, picks C (map RInt tys) u k u' q i) <-> best_match C tys u i.
Proof.
  split.
  - intros (u'&q&r&Hr&Hg&Ho). apply goes_to_value in Hg as (->&(t&Ht&<-)&Hl). exists t, r. split; [done|]. split; [done|].
    split; [done|]. intros j t' r' Hj Hne Hr'.
    destruct (last_offer_exists (map RInt tys) (ity_uid t') ByCRef (RInt t')) as [j' Hj'].
    { apply elem_of_list_fmap. exists t'. split; [done|]. by eapply elem_of_list_lookup_2. }
    { done. }
    eapply (Ho (ity_uid t')); [done| |done]. apply goes_to_value. split; [done|]. by apply last_offer_value in Hj'.
  - intros (t&r&Ht&Hr&Hl&Ho). exists (ity_uid t), (way_of u (ity_uid t) k), r. split; [done|]. split.
    + apply goes_to_value. split; [done|]. split; [by exists t|]. done.
    + intros u'' q' j r' Hne Hg Hr'. apply goes_to_value in Hg as (_&(t'&Ht'&<-)&_). by eapply Ho.
Qed.
Lemma picks_value_way tys u k u' q i : picks C (map RInt tys) u k u' q i -> q = way_of u u' k.
Proof. intros (r&_&Hg&_). by apply goes_to_value in Hg as [-> _]. Qed.

Lemma chosen_value tys u k : 
  match chosen C (map RInt tys) u k with
  | Some o => exists t, resolve C tys u = Some (o_index o) /\ tys !! o_index o = Some t /\ o_type o = RInt t /\
                o_param o = way_param (way_of u (ity_uid t) k) (ity_uid t)
  | None => resolve C tys u = None
  end.
Proof.
  destruct (chosen C (map RInt tys) u k) as [o|] eqn:E.
  - pose proof (chosen_type _ _ _ _ _ E) as Ht. rewrite list_lookup_fmap_Some in Ht. destruct Ht as (t&Ht&Et).
    destruct (param_way (o_param o)) as [q Hq].
    assert (Hp : picks C (map RInt tys) u k (param_uid (o_param o)) q (o_index o)) by (apply chosen_picks; by exists o).
    exists t. split; [apply best_match_resolve, (picks_value _ _ k); by eexists _, _|]. split; [done|]. split; [done|].
    assert (ity_uid t = param_uid (o_param o)) as ->.
    { destruct Hp as (r&_&Hg&_). apply goes_to_value in Hg as (_&(t'&Ht'&<-)&_). congruence. }
    rewrite {1}Hq. by rewrite (picks_value_way _ _ _ _ _ _ Hp).
  - destruct (resolve C tys u) as [i|] eqn:Er; [|done]. apply best_match_resolve in Er.
    rewrite -(picks_value _ _ k) in Er. destruct Er as (u'&q&Hp). apply chosen_picks in Hp as (o&Ho&_). congruence.
Qed.

Lemma initialize_value S tys a u s k st : k <> RV true ->
  r_initialize C S (map RInt tys) a u s k st =
  initialize C S tys a u s (match k with RV false => true | _ => false end) st.
Proof.
  intros Hk. pose proof (chosen_value tys u k) as H. unfold r_initialize, initialize.
  destruct (chosen C (map RInt tys) u k) as [o|]; [|by rewrite H].
  destruct H as (t&->&->&->&->). rewrite way_param_uid. unfold way_of, converted_cat.
  case_decide; subst; simpl.
  - destruct k as [[]|[]]; done.
  - done.
Qed.
Lemma rvar_from_value S tys a u s k st : 
  rvar_from C S (map RInt tys) a u s k st =
  var_from C S tys a u s (match k with RV false => true | _ => false end) st.
Proof.
  unfold rvar_from, var_from, bind. rewrite initialize_value; [|by destruct k as [[]|[]]]. by destruct k as [[]|[]].
Qed.
End agree.

(** ** Reference cells are not looked at *)
Definition no_ref (x : cell) : Prop := forall u p, cc x <> Some (ORef u p).
Definition agree (m m' : gmap loc cell) : Prop := forall l x, m !! l = Some x -> no_ref x -> m' !! l = Some x.

Section agree_see.
Context (C : cfg) (m m' : gmap loc cell) (Hag : agree m m').

Lemma heap_obj_agree p o : heap_obj m p = Some o -> no_ref (Cell KHeap (Some o) None) -> heap_obj m' p = Some o.
Proof.
  unfold heap_obj. destruct (m !! p) as [[[] [o'|] [w|]]|] eqn:E; try done. intros [= ->] Hn. by rewrite (Hag _ _ E Hn).
Qed.
Lemma see_var_agree f g tys a k : (forall u o v, f u o = Some v -> g u o = Some v) -> (forall u u' p, f u (ORef u' p) = None) ->
  see_var m f tys a = Some k -> see_var m' g tys a = Some k.
Proof.
  intros Hfg Hf. unfold see_var. destruct (m !! a) as [[[] [o|] [w|]]|] eqn:E; try done.
  destruct (tys !! _) as [t|] eqn:Et; [|done].
  match goal with |- match ?x with Some _ => _ | None => _ end = _ -> _ => destruct x as [o1|] eqn:E1; [|done] end.
  destruct (content m t o1) as [o2|] eqn:E2; [|done]. destruct (f _ o2) as [v|] eqn:Ev; [|done]. intros [= <-].
  assert (Ho2 : forall k w, no_ref (Cell k (Some o2) w)).
  { intros k w0 u p [= ->]. by rewrite Hf in Ev. }
  assert (Ho1 : forall k w, no_ref (Cell k (Some o1) w)).
  { intros k w0 u p [= ->]. destruct t; simpl in E2; [|done]. injection E2 as <-. by rewrite Hf in Ev. }
  assert (Ho : forall k w, no_ref (Cell k (Some o) w)).
  { intros k w0 u p [= ->]. case_bool_decide; [done|]. injection E1 as <-. exact (Ho1 KVar None u p eq_refl). }
  rewrite (Hag _ _ E (Ho _ _)). cbv beta iota zeta. rewrite Et.
  assert ((if bool_decide (w < 0)%Z then match o with OBackup t' (Some p) => if decide (t' = t) then heap_obj m' p else None | _ => None end else Some o) = Some o1) as ->.
  { case_bool_decide; [|done]. destruct o as [| |t' [p|]| |]; try done. case_decide; [|done]. by apply heap_obj_agree. }
  assert (content m' t o1 = Some o2) as ->.
  { destruct t, o1; simpl in *; try done. case_decide; [|done]. by apply heap_obj_agree. }
  by rewrite (Hfg _ _ _ Ev).
Qed.
Lemma see_obj_agree n u o v : see_obj C m n u o = Some v -> see_obj C m' n u o = Some v.
Proof.
  revert u o v. induction n as [|n IH]; intros u o v; [done|]. simpl. destruct o as [u' z ls| | | |]; try done.
  case_decide; [|done]. destruct (see_all _ _ ls) as [ks|] eqn:E; [|done].
  erewrite see_all_mono; [done| |exact E]. intros tys l k. apply see_var_agree; [done|]. by destruct n.
Qed.
Lemma var_holds_agree tys a k : var_holds C m tys a k -> var_holds C m' tys a k.
Proof. intros [n H]. exists n. apply (see_var_agree (see_obj C m n)); [|by destruct n|exact H]. intros u o v. apply see_obj_agree. Qed.
Lemma obj_holds_agree u a v : obj_holds C m u a v -> obj_holds C m' u a v.
Proof.
  intros (o&n&Ha&H). exists o, n. split; [|by apply see_obj_agree]. apply Hag; [done|]. intros u' p [= ->]. by destruct n.
Qed.
Lemma shows_agree E σ : shows C m E σ -> shows C m' E σ.
Proof.
  intros H x. specialize (H x). destruct (E !! x) as [[]|], (σ !! x) as [[]|]; try done.
  - destruct H as [-> H]. split; [done|]. by apply var_holds_agree.
  - destruct H as [-> H]. split; [done|]. by apply obj_holds_agree.
Qed.
End agree_see.
Lemma value_at_agree C s s' l u v : agree (mem s) (mem s') -> value_at C s l u v -> value_at C s' l u v.
Proof.
  intros Hag (x&o&n&Hl&Ho&Hs). exists x, o, n. split; [|split; [done|by eapply see_obj_agree]].
  apply Hag; [done|]. intros u' p E. rewrite E in Ho. injection Ho as <-. by destruct n.
Qed.

(** ** Histories *)
Section mixed.
Context (C : cfg) (S : usem) (st nb : bool) (HC : good_env C st nb) (eqf ltf : uid -> uval -> uval -> bool).
Notation W := (WPar st nb).
Let Hwf : wf_env C W := good_env_wf C st nb HC.
Notation mixed := (mixed C S st nb eqf ltf).
Notation yields := (yields C eqf ltf).
Notation admissible := (admissible C st nb).

Definition refs_ok (R : renv) (hf : gmap loc cell) : Prop :=
  (forall x tys a, R !! x = Some (tys, a) -> exists i c u l, refers_to hf tys a i c u l) /\
  (forall x y tys tys' a, R !! x = Some (tys, a) -> R !! y = Some (tys', a) -> x = y).

Record minv (B : nat) (E : env) (R : renv) (s : state) (σ : astate) (h hf : gmap loc cell) : Prop := MInv {
  mi_mem : mem s = h ∪ hf;
  mi_disj : h ##ₘ hf;
  mi_world : world C W E σ h;
  mi_aok : aok C W B σ;
  mi_ginv : ginv W s;
  mi_refs : refs_ok R hf
}.

Lemma minv_shows B E R s σ h hf : minv B E R s σ h hf -> shows C (mem s) E σ.
Proof. intros H. eapply world_shows; [apply (mi_world _ _ _ _ _ _ _ H)|]. rewrite (mi_mem _ _ _ _ _ _ _ H). apply map_union_subseteq_l. Qed.

(** Histories without references. *)
Lemma history_mixed orc hs E s : History.history C st nb eqf ltf orc hs E s -> mixed orc (map inl hs) E ∅ s.
Proof.
  induction 1 as [|hs E s c E' o s' Hh IH Ha Hy]; [constructor|]. rewrite map_app. by eapply mixed_cmd.
Qed.

Lemma minv_init orc : minv 0 ∅ ∅ (init orc) ∅ ∅ ∅.
Proof.
  destruct (inv_init C st nb orc) as [Hw Ha Hg]. split; simpl.
  - by rewrite left_id_L.
  - apply map_disjoint_empty_r.
  - exact Hw.
  - exact Ha.
  - exact Hg.
  - split; intros x; [intros tys a|intros y tys tys' a]; by rewrite lookup_empty.
Qed.

Lemma minv_exec n D B E R s σ h hf c : D <= B -> B <= Datatypes.S n -> minv B E R s σ h hf -> typed C st nb D σ c -> unparked C σ c ->
  exists E' o s' σ' h', exec C n eqf ltf c E s = Done E' o s' /\ Spec.astep C eqf ltf σ c o σ' /\
    minv (Datatypes.S B) E' R s' σ' h' hf /\ tells o s s'.
Proof.
  intros HD HB [Hm Hdj Hw Ha Hg Hrf] Ht Hu.
  pose proof (op_ok C st nb Hwf eqf ltf n D B HB HD E σ Ha c Ht Hu) as Hop.
  apply (hprop_in_entails _ _ Hop) in Hw. apply wp_unfold in Hw.
  specialize (Hw s hf Hm Hdj Hg).
  unfold Client.exec. pose proof (op_returns C eqf ltf n E c s) as Hr.
  destruct (op C n eqf ltf E c s) as [[E' o] s'|e s'|f]; [..|done].
  - destruct Hw as (h'&Hm'&Hd'&Hg'&Hth&Hp).
    destruct Hp as (σ'&h0&h1&->&Hd&Hp&Hw'). destruct (apure_inv (_ /\ _) _ Hp) as [-> [Hs Ha']]. rewrite left_id_L in Hm' Hd'.
    exists E', o, s', σ', h1. split; [done|]. split; [done|]. split; [by split|].
    specialize (Hr _ _ eq_refl). simpl in Hr. unfold tells. destruct o; try done. by destruct (Hr e).
  - destruct Hw as (h'&Hm'&Hd'&Hg'&Hth&Hp).
    destruct Hp as (σ'&h0&h1&->&Hd&Hp&Hw'). destruct (apure_inv (_ /\ _) _ Hp) as [-> [Hs Ha']]. rewrite left_id_L in Hm' Hd'.
    exists E, (OThrew e), s', σ', h1. split; [done|]. split; [done|]. split; [by split|]. done.
Qed.

Lemma minv_mono B B' E R s σ h hf : B <= B' -> minv B E R s σ h hf -> minv B' E R s σ h hf.
Proof. intros HB [? ? ? ? ? ?]. split; try done. by eapply aok_mono. Qed.

Lemma minv_step B E R s σ h hf c : minv B E R s σ h hf -> admissible E s c ->
  exists E' o s' σ' h', yields c E s (Done E' o s') /\ Spec.astep C eqf ltf σ c o σ' /\
    (exists B', minv B' E' R s' σ' h' hf) /\ tells o s s'.
Proof.
  intros Hi (D&σ0&Hsh&Ht&Hu).
  assert (σ0 = σ) as -> by (eapply shows_unique; [done|by eapply minv_shows]).
  destruct (minv_exec (B `max` D) D (B `max` D) E R s σ h hf c) as (E'&o&s'&σ'&h'&Hex&Hs&Hi'&Ht'); [lia|lia| |done..|].
  { eapply minv_mono; [|done]. lia. }
  exists E', o, s', σ', h'. split; [|split; [done|split; [by eexists|done]]].
  exists (B `max` D). intros n Hn. rewrite (exec_mono C (B `max` D) n) //. by rewrite Hex.
Qed.

(** Commands on references. *)
Notation refcell u l i := (Cell KVar (Some (ORef u l)) (Some (Z.of_nat i))).
Lemma wp_new_ref tys u l c i c' : binds C tys u c i c' ->
  emp ⊢ wp W (local_variant (fun a => rvar_from C S tys a u l (LV c))) (fun a => a ↦ refcell u l i) (fun _ => False%I).
Proof.
  intros [[q Hp] Ht]. apply picks_chosen in Hp as (t&r&b&Hc&Ht'). rewrite Ht in Ht'. injection Ht' as <-.
  iIntros "_". unfold local_variant. iApply wp_bind. iApply wp_new_cell; [done|]. iIntros (a) "Ha".
  iApply wp_bind. iApply wp_on_exn. unfold rvar_from, r_initialize, ctor. rewrite Hc /= way_param_uid decide_True //=.
  iApply wp_bind. iApply wp_bind. iApply wp_construct. iFrame "Ha". iIntros "Ha". iApply wp_ret.
  unfold indicate_which. iApply wp_write_which. iFrame "Ha". iIntros "Ha". by iApply wp_ret.
Qed.
Lemma wp_visit_ref {A} tys a i c u l (k : rty -> loc -> M A) Q X : tys !! i = Some (RRef c u) ->
  a ↦ refcell u l i ∗ (a ↦ refcell u l i -∗ wp W (k (RRef c u) a) Q X) ⊢ wp W (r_visit C tys a k) Q X.
Proof.
  iIntros (Ht) "[Ha H]". unfold r_visit. iApply wp_bind. iApply wp_read_which. iFrame "Ha". iIntros "Ha".
  rewrite which_of_nat (visitation_lookup _ _ i (RRef c u) (ge_lim _ _ _ HC) Ht). by iApply "H".
Qed.
Lemma wp_ref_ptr a i u l Q X : a ↦ refcell u l i ∗ (a ↦ refcell u l i -∗ Q l) ⊢ wp W (ref_ptr u a) Q X.
Proof.
  iIntros "[Ha H]". unfold ref_ptr. iApply wp_bind. iApply wp_get_obj. iFrame "Ha". iIntros "Ha". simpl. rewrite decide_True //.
  iApply wp_ret. by iApply "H".
Qed.
Lemma wp_copy_ref tys b i c u l mv : tys !! i = Some (RRef c u) ->
  b ↦ refcell u l i ⊢ wp W (local_variant (fun a => if mv : bool then rvar_move C S tys a b else rvar_copy C S tys a b))
                       (fun a => a ↦ refcell u l i ∗ b ↦ refcell u l i) (fun _ => False%I).
Proof.
  iIntros (Ht) "Hb". unfold local_variant. iApply wp_bind. iApply wp_new_cell; [done|]. iIntros (a) "Ha".
  iApply wp_bind. iApply wp_on_exn.
  unfold rvar_copy, rvar_move. destruct mv.
  all: iApply wp_bind; iApply (wp_visit_ref _ _ _ _ _ _ _ _ _ Ht); iFrame "Hb"; iIntros "Hb"; simpl.
  all: iApply wp_bind; iApply wp_ref_ptr; iFrame "Hb"; iIntros "Hb"; iApply wp_construct; iFrame "Ha"; iIntros "Ha".
  all: unfold which; do 2 iApply wp_bind; iApply wp_read_which; iFrame "Hb"; iIntros "Hb"; iApply wp_ret.
  all: rewrite which_of_nat; unfold indicate_which; iApply wp_write_which; iFrame "Ha"; iIntros "Ha"; iApply wp_ret; iFrame.
Qed.
Lemma wp_drop_ref tys a i c u l : tys !! i = Some (RRef c u) ->
  a ↦ refcell u l i ⊢ wp W (do! rvar_destroy C S tys a in drop_cell a) (fun _ => emp) (fun _ => False%I).
Proof.
  iIntros (Ht) "Ha". iApply wp_bind. unfold rvar_destroy. iApply wp_noexcept.
  iApply (wp_visit_ref _ _ _ _ _ _ _ _ _ Ht). iFrame "Ha". iIntros "Ha". iApply wp_noexcept. simpl.
  iApply wp_bind. iApply wp_ref_ptr. iFrame "Ha". iIntros "Ha". iApply wp_destruct_obj. iFrame "Ha". iIntros "Ha".
  iApply (wp_drop_cell _ _ KVar); [done|]. iFrame "Ha".
Qed.

(** From wp to executions. *)
Lemma wp_runs {A} (m : M A) Q s h hf : wp W m Q (fun _ => False%I) h -> mem s = h ∪ hf -> h ##ₘ hf -> ginv W s ->
  exists a s' h', m s = Ok a s' /\ mem s' = h' ∪ hf /\ h' ##ₘ hf /\ ginv W s' /\ thrown s' = thrown s /\ Q a h'.
Proof.
  intros Hw Hm Hd Hg. apply wp_unfold in Hw. specialize (Hw s hf Hm Hd Hg).
  destruct (m s) as [a s'|e s'|f]; [|by destruct Hw as (?&_&_&_&_&[])|done].
  destruct Hw as (h'&?&?&?&?&?). by exists a, s', h'.
Qed.

Lemma refs_insert R hf x tys a i c u l : refs_ok R hf -> hf !! a = None -> tys !! i = Some (RRef c u) ->
  refs_ok (<[x := (tys, a)]> R) (<[a := refcell u l i]> hf).
Proof.
  intros [H1 H2] Ha Ht.
  assert (Hne : forall y tys' , R !! y <> Some (tys', a)).
  { intros y tys' Hy. destruct (H1 _ _ _ Hy) as (?&?&?&?&_&Hc). congruence. }
  split.
  - intros y tys' b. rewrite lookup_insert_Some. intros [[-> [= -> ->]]|[Hxy Hy]].
    + exists i, c, u, l. split; [done|]. by rewrite lookup_insert.
    + destruct (H1 _ _ _ Hy) as (i'&c'&u'&l'&Ht'&Hc). exists i', c', u', l'. split; [done|].
      rewrite lookup_insert_ne //. intros ->. congruence.
  - intros y z tys1 tys2 b. rewrite !lookup_insert_Some. intros [[-> [= -> ->]]|[Hxy Hy]] [[-> E]|[Hxz Hz]].
    + done.
    + by apply Hne in Hz.
    + injection E as -> ->. by apply Hne in Hy.
    + by eapply H2.
Qed.
Lemma refs_delete R hf x tys a : refs_ok R hf -> R !! x = Some (tys, a) -> refs_ok (delete x R) (delete a hf).
Proof.
  intros [H1 H2] Hx. split.
  - intros y tys' b [Hne Hy]%lookup_delete_Some. destruct (H1 _ _ _ Hy) as (i'&c'&u'&l'&Ht'&Hc). exists i', c', u', l'. split; [done|].
    rewrite lookup_delete_ne //. intros ->. by apply Hne, (H2 _ _ _ _ _ Hx Hy).
  - intros y z tys1 tys2 b [_ Hy]%lookup_delete_Some [_ Hz]%lookup_delete_Some. by eapply H2.
Qed.

(** The commands. *)
Lemma agree_add m a u l w : m !! a = None ->
  agree m (<[a := Cell KVar (Some (ORef u l)) w]> m) /\ agree (<[a := Cell KVar (Some (ORef u l)) w]> m) m.
Proof.
  intros Ha. split; intros b x Hb Hn.
  - rewrite lookup_insert_ne //. intros ->. congruence.
  - apply lookup_insert_Some in Hb as [[-> <-]|[_ Hb]]; [by destruct (Hn u l)|done].
Qed.
Lemma agree_del m a u l w : m !! a = Some (Cell KVar (Some (ORef u l)) w) -> agree m (delete a m) /\ agree (delete a m) m.
Proof.
  intros Ha. split; intros b x Hb Hn.
  - rewrite lookup_delete_ne //. intros <-. rewrite Ha in Hb. injection Hb as <-. by destruct (Hn u l).
  - by apply lookup_delete_Some in Hb as [_ Hb].
Qed.

Lemma minv_new B E R s σ h hf x tys u l c i c' : minv B E R s σ h hf -> R !! x = None -> binds C tys u c i c' ->
  exists a s', rexec C S (RNew x tys u l c) R s = Ok (<[x := (tys, a)]> R) s' /\ thrown s' = thrown s /\
    mem s !! a = None /\ mem s' = <[a := refcell u l i]> (mem s) /\
    minv B E (<[x := (tys, a)]> R) s' σ h (<[a := refcell u l i]> hf).
Proof.
  intros [Hm Hd Hw Ha Hg Hr] Hx Hb. pose proof (wp_new_ref tys u l c i c' Hb) as Hwp.
  destruct (wp_runs _ _ s ∅ (mem s) (hprop_in_entails _ _ Hwp ∅ eq_refl)) as (a&s'&h'&Hrun&Hm'&Hd'&Hg'&Hth&Hq); [by rewrite left_id_L|apply map_disjoint_empty_l|done|].
  assert (h' = {[ a := refcell u l i ]}) as -> by exact Hq. apply map_disjoint_singleton_l in Hd' as Hfr. rewrite -insert_union_singleton_l in Hm'.
  exists a, s'. simpl. rewrite Hx. unfold bind. rewrite Hrun. split; [done|]. split; [done|]. split; [done|]. split; [done|].
  rewrite Hm in Hfr. apply lookup_union_None in Hfr as [Hfh Hff].
  split; [|by apply map_disjoint_insert_r_2|done|done|done|].
  - rewrite Hm' Hm. by rewrite insert_union_r.
  - destruct Hb as [_ Ht]. by eapply refs_insert.
Qed.
Lemma minv_copy B E R s σ h hf x y mv tys b : minv B E R s σ h hf -> R !! x = None -> R !! y = Some (tys, b) ->
  exists i c u l a s', refers_to hf tys b i c u l /\ rexec C S (RCopy x y mv) R s = Ok (<[x := (tys, a)]> R) s' /\ thrown s' = thrown s /\
    mem s !! a = None /\ mem s' = <[a := refcell u l i]> (mem s) /\
    minv B E (<[x := (tys, a)]> R) s' σ h (<[a := refcell u l i]> hf).
Proof.
  intros [Hm Hd Hw Ha Hg Hr] Hx Hy. destruct (proj1 Hr _ _ _ Hy) as (i&c&u&l&Href). pose proof Href as [Ht Hc].
  assert (Hmb : mem s !! b = Some (refcell u l i)). { rewrite Hm. by rewrite lookup_union_r // (map_disjoint_Some_r _ _ _ _ Hd Hc). }
  pose proof (wp_copy_ref tys b i c u l mv Ht) as Hwp.
  destruct (wp_runs _ _ s {[ b := refcell u l i ]} (delete b (mem s)) (hprop_in_entails _ _ Hwp _ eq_refl)) as (a&s'&h'&Hrun&Hm'&Hd'&Hg'&Hth&Hq).
  { by rewrite -insert_union_singleton_l insert_delete. }
  { apply map_disjoint_singleton_l. by rewrite lookup_delete. }
  { done. }
  destruct Hq as (h1&h2&->&Hdd&Hq1&Hq2). 
  assert (h1 = {[ a := refcell u l i ]}) as -> by exact Hq1. assert (h2 = {[ b := refcell u l i ]}) as -> by exact Hq2.
  apply map_disjoint_singleton_l in Hdd as Hab. apply lookup_singleton_None in Hab.
  apply map_disjoint_union_l in Hd' as [Hd1 _]. apply map_disjoint_singleton_l in Hd1. rewrite lookup_delete_ne // in Hd1.
  rewrite -munion_assoc -insert_union_singleton_l -insert_union_singleton_l insert_delete // in Hm'.
  exists i, c, u, l, a, s'. split; [done|]. simpl. rewrite Hx Hy. unfold bind. rewrite Hrun.
  split; [done|]. split; [done|]. split; [done|]. split; [done|].
  pose proof Hd1 as Hfr. rewrite Hm in Hfr. apply lookup_union_None in Hfr as [Hfh Hff].
  split; [|by apply map_disjoint_insert_r_2|done|done|done|].
  - rewrite Hm' Hm. by rewrite insert_union_r.
  - by eapply refs_insert.
Qed.
Lemma minv_drop B E R s σ h hf x tys a : minv B E R s σ h hf -> R !! x = Some (tys, a) ->
  exists s', rexec C S (RDrop x) R s = Ok (delete x R) s' /\ thrown s' = thrown s /\
    mem s' = delete a (mem s) /\ minv B E (delete x R) s' σ h (delete a hf).
Proof.
  intros [Hm Hd Hw Ha Hg Hr] Hx. destruct (proj1 Hr _ _ _ Hx) as (i&c&u&l&Ht&Hc).
  assert (Hfa : h !! a = None) by (by eapply map_disjoint_Some_r).
  assert (Hma : mem s !! a = Some (refcell u l i)). { rewrite Hm. by rewrite lookup_union_r. }
  pose proof (wp_drop_ref tys a i c u l Ht) as Hwp.
  destruct (wp_runs _ _ s {[ a := refcell u l i ]} (delete a (mem s)) (hprop_in_entails _ _ Hwp _ eq_refl)) as ([]&s'&h'&Hrun&Hm'&Hd'&Hg'&Hth&Hq).
  { by rewrite -insert_union_singleton_l insert_delete. }
  { apply map_disjoint_singleton_l. by rewrite lookup_delete. }
  { done. }
  assert (h' = ∅) as -> by exact Hq. rewrite left_id_L in Hm'.
  exists s'. split.
  { simpl. rewrite Hx. unfold bind in Hrun |- *. destruct (rvar_destroy C S tys a s) as [[] s1| |]; try done. by rewrite Hrun. }
  split; [done|]. split; [done|]. split; [|by apply map_disjoint_delete_r|done|done|done|by eapply refs_delete].
  rewrite Hm' Hm. by rewrite delete_union delete_notin.
Qed.

Lemma mixed_minv orc hs E R s : mixed orc hs E R s -> exists B σ h hf, minv B E R s σ h hf.
Proof.
  induction 1 as [|hs E R s c E' o s' Hh IH Hadm Hy|hs E R s c R' s' Hh IH Hp Hx].
  - exists 0, ∅, ∅, ∅. apply minv_init.
  - destruct IH as (B&σ&h&hf&Hi).
    destruct (minv_step B E R s σ h hf c) as (E1&o1&s1&σ1&h1&Hy1&_&[B' Hi1]&_); [done..|].
    pose proof (yields_det _ _ _ _ _ _ _ _ Hy Hy1) as [= -> -> ->]. by exists B', σ1, h1, hf.
  - destruct IH as (B&σ&h&hf&Hi). destruct c as [x tys u l c|x y mv|x].
    + destruct Hp as (Hn&(i&c'&Hb)&_). destruct (minv_new _ _ _ _ _ _ _ _ _ _ l _ _ _ Hi Hn Hb) as (a&s1&Hr&_&_&_&Hi').
      rewrite Hr in Hx. injection Hx as <- <-. by eexists _, _, _, _.
    + destruct Hp as [Hn [[tys b] Hb]]. destruct (minv_copy _ _ _ _ _ _ _ _ _ mv _ _ Hi Hn Hb) as (i&c&u&l&a&s1&_&Hr&_&_&_&Hi').
      rewrite Hr in Hx. injection Hx as <- <-. by eexists _, _, _, _.
    + destruct Hp as [[tys a] Hb]. destruct (minv_drop _ _ _ _ _ _ _ _ _ _ Hi Hb) as (s1&Hr&_&_&Hi').
      rewrite Hr in Hx. injection Hx as <- <-. by eexists _, _, _, _.
Qed.

(** What a variable refers to. *)
Lemma minv_points B E R s σ h hf x c u l : minv B E R s σ h hf ->
  points R s x c u l <-> exists tys a i, R !! x = Some (tys, a) /\ refers_to hf tys a i c u l.
Proof.
  intros [Hm Hd _ _ _ [Hr _]]. split; intros (tys&a&i&Hx&Ht&Ha); exists tys, a, i; (split; [done|]); (split; [done|]).
  - destruct (Hr _ _ _ Hx) as (i'&c'&u'&l'&Ht'&Ha'). assert (mem s !! a = hf !! a) as E1; [|by rewrite -E1].
    rewrite Hm lookup_union_r //. by eapply map_disjoint_Some_r.
  - rewrite Hm lookup_union_r //. by eapply map_disjoint_Some_r.
Qed.

Lemma mixed_points orc hs E R s x : mixed orc hs E R s -> is_Some (R !! x) -> exists c u l, points R s x c u l.
Proof.
  intros Hh [[tys a] Hx]. destruct (mixed_minv _ _ _ _ _ Hh) as (B&σ&h&hf&Hi).
  pose proof (mi_refs _ _ _ _ _ _ _ Hi) as [Hr _]. destruct (Hr _ _ _ Hx) as (i&c&u&l&H). exists c, u, l.
  apply (minv_points _ _ _ _ _ _ _ _ _ _ _ Hi). by exists tys, a, i.
Qed.

Lemma mixed_cmd_ok orc hs E R s c : mixed orc hs E R s -> admissible E s c ->
  exists E' o s' σ σ', yields c E s (Done E' o s') /\
    shows C (mem s) E σ /\ shows C (mem s') E' σ' /\ Spec.astep C eqf ltf σ c o σ' /\
    forall x c' u l, points R s x c' u l <-> points R s' x c' u l.
Proof.
  intros Hh Hadm. destruct (mixed_minv _ _ _ _ _ Hh) as (B&σ&h&hf&Hi).
  destruct (minv_step B E R s σ h hf c) as (E1&o1&s1&σ1&h1&Hy1&Hst&[B' Hi1]&_); [done..|].
  exists E1, o1, s1, σ, σ1. split; [done|]. split; [by eapply minv_shows|]. split; [by eapply minv_shows|]. split; [done|].
  intros x c' u l. by rewrite (minv_points _ _ _ _ _ _ _ _ _ _ _ Hi) (minv_points _ _ _ _ _ _ _ _ _ _ _ Hi1).
Qed.

Lemma agree_undisturbed E s s' : thrown s' = thrown s -> agree (mem s) (mem s') /\ agree (mem s') (mem s) -> undisturbed C E s s'.
Proof.
  intros Ht [H1 H2]. split; [done|]. split.
  - intros σ. split; by apply shows_agree.
  - intros l u v. split; by apply value_at_agree.
Qed.
Lemma mixed_ref_ok orc hs E R s c : mixed orc hs E R s -> permitted C R s c ->
  exists R' s', rexec C S c R s = Ok R' s' /\ undisturbed C E s s'.
Proof.
  intros Hh Hp. destruct (mixed_minv _ _ _ _ _ Hh) as (B&σ&h&hf&Hi). destruct c as [x tys u l c|x y mv|x].
  - destruct Hp as (Hn&(i&c'&Hb)&_). destruct (minv_new _ _ _ _ _ _ _ _ _ _ l _ _ _ Hi Hn Hb) as (a&s1&Hr&Ht&Ha&Hm&Hi').
    eexists _, _. split; [done|]. apply agree_undisturbed; [done|]. rewrite Hm. by apply agree_add.
  - destruct Hp as [Hn [[tys b] Hb]]. destruct (minv_copy _ _ _ _ _ _ _ _ _ mv _ _ Hi Hn Hb) as (i&c&u&l&a&s1&_&Hr&Ht&Ha&Hm&Hi').
    eexists _, _. split; [done|]. apply agree_undisturbed; [done|]. rewrite Hm. by apply agree_add.
  - destruct Hp as [[tys a] Hb]. destruct (minv_drop _ _ _ _ _ _ _ _ _ _ Hi Hb) as (s1&Hr&Ht&Hm&Hi').
    eexists _, _. split; [done|]. apply agree_undisturbed; [done|]. rewrite Hm.
    destruct Hi as [Hm0 Hd _ _ _ [Hrf _]]. destruct (Hrf _ _ _ Hb) as (i&c&u&l&_&Ha).
    eapply agree_del. rewrite Hm0 lookup_union_r //. by eapply map_disjoint_Some_r.
Qed.

Lemma points_insert B E R s σ h hf B' R' s' h' hf' x tys a u l i c z c0 u0 l0 :
  minv B E R s σ h hf -> minv B' E R' s' σ h' hf' -> R' = <[x := (tys, a)]> R -> hf' = <[a := refcell u l i]> hf ->
  hf !! a = None -> z <> x -> tys !! i = Some (RRef c u) ->
  points R' s' x c u l /\ (points R s z c0 u0 l0 <-> points R' s' z c0 u0 l0).
Proof.
  intros Hi Hi' -> -> Ha Hne Ht.
  rewrite !(minv_points _ _ _ _ _ _ _ _ _ _ _ Hi) !(minv_points _ _ _ _ _ _ _ _ _ _ _ Hi'). split.
  { exists tys, a, i. split; [by rewrite lookup_insert|]. split; [done|]. by rewrite lookup_insert. }
  split; intros (tys0&a0&i0&Hz&Ht0&Ha0); exists tys0, a0, i0.
  - split; [by rewrite lookup_insert_ne|]. split; [done|]. rewrite lookup_insert_ne //. intros ->. congruence.
  - rewrite lookup_insert_ne // in Hz. split; [done|]. split; [done|].
    pose proof (mi_refs _ _ _ _ _ _ _ Hi) as [Hr _]. destruct (Hr _ _ _ Hz) as (?&?&?&?&_&Hc).
    rewrite lookup_insert_ne // in Ha0. intros ->. congruence.
Qed.

Lemma mixed_new orc hs E R s x tys u l c R' s' i c' : mixed orc hs E R s -> R !! x = None -> binds C tys u c i c' ->
  rexec C S (RNew x tys u l c) R s = Ok R' s' ->
  points R' s' x c' u l /\ forall z c0 u0 l0, z <> x -> points R s z c0 u0 l0 <-> points R' s' z c0 u0 l0.
Proof.
  intros Hh Hn Hb Hx. destruct (mixed_minv _ _ _ _ _ Hh) as (B&σ&h&hf&Hi).
  destruct (minv_new _ _ _ _ _ _ _ _ _ _ l _ _ _ Hi Hn Hb) as (a&s1&Hr&_&Ha&_&Hi'). rewrite Hr in Hx. injection Hx as <- <-.
  rewrite (mi_mem _ _ _ _ _ _ _ Hi) in Ha. apply lookup_union_None in Ha as [_ Ha]. destruct Hb as [_ Ht].
  split.
  - apply (points_insert _ _ _ _ _ _ _ _ _ _ _ _ x tys a u l i c' (x + 1) c' u l Hi Hi'); try done. lia.
  - intros z c0 u0 l0 Hne. by apply (points_insert _ _ _ _ _ _ _ _ _ _ _ _ x tys a u l i c' z c0 u0 l0 Hi Hi').
Qed.
Lemma mixed_copy orc hs E R s x y mv R' s' c u l : mixed orc hs E R s -> R !! x = None -> points R s y c u l ->
  rexec C S (RCopy x y mv) R s = Ok R' s' ->
  points R' s' x c u l /\ forall z c0 u0 l0, z <> x -> points R s z c0 u0 l0 <-> points R' s' z c0 u0 l0.
Proof.
  intros Hh Hn Hy Hx. destruct (mixed_minv _ _ _ _ _ Hh) as (B&σ&h&hf&Hi).
  apply (minv_points _ _ _ _ _ _ _ _ _ _ _ Hi) in Hy as (tys&b&i0&Hy&Ht0&Hb0).
  destruct (minv_copy _ _ _ _ _ _ _ _ _ mv _ _ Hi Hn Hy) as (i&c1&u1&l1&a&s1&[Ht Hb]&Hr&_&Ha&_&Hi').
  rewrite Hr in Hx. injection Hx as <- <-. rewrite Hb0 in Hb. injection Hb as -> -> Hz. apply Nat2Z.inj in Hz as ->.
  rewrite Ht0 in Ht. injection Ht as ->.
  rewrite (mi_mem _ _ _ _ _ _ _ Hi) in Ha. apply lookup_union_None in Ha as [_ Ha].
  split.
  - apply (points_insert _ _ _ _ _ _ _ _ _ _ _ _ x tys a u1 l1 i c1 (x + 1) c1 u1 l1 Hi Hi'); try done. lia.
  - intros z c0 u0 l0 Hne. by apply (points_insert _ _ _ _ _ _ _ _ _ _ _ _ x tys a u1 l1 i c1 z c0 u0 l0 Hi Hi').
Qed.
Lemma mixed_drop orc hs E R s x R' s' : mixed orc hs E R s -> is_Some (R !! x) ->
  rexec C S (RDrop x) R s = Ok R' s' ->
  R' !! x = None /\ forall z c0 u0 l0, z <> x -> points R s z c0 u0 l0 <-> points R' s' z c0 u0 l0.
Proof.
  intros Hh [[tys a] Hy] Hx. destruct (mixed_minv _ _ _ _ _ Hh) as (B&σ&h&hf&Hi).
  destruct (minv_drop _ _ _ _ _ _ _ _ _ _ Hi Hy) as (s1&Hr&_&_&Hi'). rewrite Hr in Hx. injection Hx as <- <-.
  split; [by rewrite lookup_delete|]. intros z c0 u0 l0 Hne.
  rewrite (minv_points _ _ _ _ _ _ _ _ _ _ _ Hi) (minv_points _ _ _ _ _ _ _ _ _ _ _ Hi').
  pose proof (mi_refs _ _ _ _ _ _ _ Hi) as [_ Hinj].
  split; intros (tys0&a0&i0&Hz&Ht0&Ha0); exists tys0, a0, i0.
  - split; [by rewrite lookup_delete_ne|]. split; [done|]. rewrite lookup_delete_ne //. intros ->. by apply Hne, (Hinj _ _ _ _ _ Hz Hy).
  - rewrite lookup_delete_ne // in Hz. split; [done|]. split; [done|]. by apply lookup_delete_Some in Ha0 as [_ Ha0].
Qed.
End mixed.
