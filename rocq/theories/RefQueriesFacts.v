(** Proofs for PropsRefQueries.v. *)
From Coq.ssr Require Import ssreflect.
From Coq Require Import ZArith Lia.
From iris.prelude Require Import prelude.
From stdpp Require Import base gmap list numbers.
From Verif Require Import Base Types Dispatch Variant Values Client References ReferencesSpec RefQueries RefQueriesSpec.
From Verif Require Import Sem Observe Spec History Reach Levels Ask Wp World SpecQuery HistoryProof ObserveFacts ReachFacts Heap Rep Link QueryFacts.
From Verif Require ReferencesFacts.

Section facts.
Context (C : cfg) (S : usem) (HL : 0 < lim C).

Lemma gives_apply {A} cvar tys a i c u l (f : bool -> uid -> loc -> M A) s : gives (mem s) cvar tys a i c u l ->
  r_apply C cvar tys a f s = f c u l s.
Proof.
  intros [H|[H ->]]; [by eapply ReferencesFacts.r_apply_ref|by eapply ReferencesFacts.r_apply_value].
Qed.
Lemma gives_cell m cvar tys a i c u l : gives m cvar tys a i c u l -> exists o, m !! a = Some (Cell KVar (Some o) (Some (Z.of_nat i))).
Proof. intros [[_ H]|[(o&H&_) _]]; eauto. Qed.
Lemma gives_same m cvar tys a b i c c' u u' l l' : gives m cvar tys a i c u l -> gives m cvar tys b i c' u' l' -> c = c' /\ u = u'.
Proof.
  intros [[H _]|[(o&_&H) ->]] [[H' _]|[(o'&_&H') ->]].
  - rewrite H in H'. by injection H' as -> ->.
  - destruct H' as [[H' _]|[H' _]]; congruence.
  - destruct H as [[H _]|[H _]]; congruence.
  - split; [done|]. destruct H as [[H _]|[H _]], H' as [[H' _]|[H' _]]; congruence.
Qed.
Lemma gives_which cvar tys a i c u l s : gives (mem s) cvar tys a i c u l -> which a s = Ok (Z.of_nat i) s.
Proof.
  intros H. destruct (gives_cell _ _ _ _ _ _ _ _ H) as [o Ho]. unfold which, read_which, bind, get_cell. rewrite Ho /=.
  by rewrite ReferencesFacts.which_of_nat.
Qed.

Lemma get_gives cvar tys a i c u l cu u' s : gives (mem s) cvar tys a i c u l ->
  exists p, r_get C cvar tys a cu u' s = Ok p s /\
    forall l', p = Some l' <-> l' = l /\ u' = u /\ (c = true -> cu = true \/ cvar = true).
Proof.
  intros H. eexists. split; [unfold r_get; by rewrite (gives_apply _ _ _ _ _ _ _ _ _ H)|]. intros l'.
  destruct (decide (u = u')) as [->|Hne]; [|split; [done|by intros (_&->&_)]].
  assert (Hb : cu || cvar || negb c = true <-> (c = true -> cu = true \/ cvar = true)) by (destruct cu, cvar, c; simpl; intuition congruence).
  destruct (cu || cvar || negb c); split.
  - intros [= <-]. split; [done|]. split; [done|]. by apply Hb.
  - by intros (->&_).
  - done.
  - intros (_&_&Hc). by apply Hb in Hc.
Qed.
Lemma get_ref_gives cvar tys a i c u l cu u' s : gives (mem s) cvar tys a i c u l ->
  (u' = u /\ (c = true -> cu = true \/ cvar = true) -> r_get_ref C cvar tys a cu u' s = Ok l s) /\
  (~ (u' = u /\ (c = true -> cu = true \/ cvar = true)) -> r_get_ref C cvar tys a cu u' s = throw XBadGet s).
Proof.
  intros H. destruct (get_gives _ _ _ _ _ _ _ cu u' _ H) as (p&Hp&Hl). unfold r_get_ref, bind. rewrite Hp. split.
  - intros Hu. assert (p = Some l) as -> by by apply Hl. done.
  - intros Hu. destruct p as [l'|]; [|done]. by destruct Hu; apply (Hl l').
Qed.
Lemma type_gives tys a i c u l s : gives (mem s) true tys a i c u l -> r_type C tys a s = Ok u s.
Proof. intros H. unfold r_type. by rewrite (gives_apply _ _ _ _ _ _ _ _ _ H). Qed.

Lemma comparer_gives tys cmp a b i c u l c' u' l' s : gives (mem s) true tys a i c u l -> gives (mem s) true tys b i c' u' l' ->
  r_apply C true tys b (r_comparer C S tys cmp a) s = compared S cmp u l l' s.
Proof.
  intros Ha Hb. destruct (gives_same _ _ _ _ _ _ _ _ _ _ _ _ Ha Hb) as [<- <-].
  rewrite (gives_apply _ _ _ _ _ _ _ _ _ Hb). unfold r_comparer, r_known_get, compared, bind.
  by rewrite (gives_apply _ _ _ _ _ _ _ _ _ Ha) decide_True.
Qed.
Lemma eq_gives tys cmp a i c u l b j c' u' l' s : gives (mem s) true tys a i c u l -> gives (mem s) true tys b j c' u' l' ->
  (i <> j -> r_eq C S tys cmp a b s = Ok false s) /\ (i = j -> r_eq C S tys cmp a b s = compared S cmp u l l' s).
Proof.
  intros Ha Hb. unfold r_eq, bind. rewrite (gives_which _ _ _ _ _ _ _ _ Ha) (gives_which _ _ _ _ _ _ _ _ Hb). split.
  - intros Hne. rewrite decide_False //. lia.
  - intros ->. rewrite decide_True //. by eapply comparer_gives.
Qed.
Lemma lt_gives tys cmp a i c u l b j c' u' l' s : gives (mem s) true tys a i c u l -> gives (mem s) true tys b j c' u' l' ->
  (i < j -> r_lt C S tys cmp a b s = Ok true s) /\ (j < i -> r_lt C S tys cmp a b s = Ok false s) /\
  (i = j -> r_lt C S tys cmp a b s = compared S cmp u l l' s).
Proof.
  intros Ha Hb. unfold r_lt, bind. rewrite (gives_which _ _ _ _ _ _ _ _ Ha) (gives_which _ _ _ _ _ _ _ _ Hb). repeat split.
  - intros Hne. rewrite decide_False; [|lia]. rewrite bool_decide_true //. lia.
  - intros Hne. rewrite decide_False; [|lia]. rewrite bool_decide_false //. lia.
  - intros ->. rewrite decide_True //. by eapply comparer_gives.
Qed.
End facts.

(** ** Programs *)
Section programs.
Context (C : cfg) (st nb : bool) (HC : good_env C st nb) (S : usem) (eqf ltf : uid -> uval -> uval -> bool).
Notation W := (WPar st nb).
Lemma read_named orc h E R s z u l v : mixed C S st nb eqf ltf orc h E R s -> E !! z = Some (BObj u l) -> sees_obj C E s z u v ->
  forall s', mem s' = mem s -> exists s'', unchanged s' s'' /\ forall n, depth v <= n -> us_read (sem C n) u l s' = Ok v s''.
Proof.
  intros Hh Hz Hv s' Hm. destruct (ReferencesFacts.mixed_minv C S st nb HC eqf ltf _ _ _ _ _ Hh) as (B&σ&h0&hf&Hi).
  pose proof (ReferencesFacts.minv_shows _ _ _ _ _ _ _ _ _ _ Hi z) as Hs. rewrite Hz in Hs.
  destruct (σ !! z) as [[|u' v']|] eqn:Hσ; [done| |done]. destruct Hs as [-> Hv'].
  assert (v' = v) as ->. { destruct Hv as (a&Ha&Hv). rewrite Hz in Ha. injection Ha as <-. by eapply obj_holds_unique. }
  destruct (own_part C W E σ z _ _ _ (ReferencesFacts.mi_world _ _ _ _ _ _ _ _ _ _ Hi) Hz Hσ) as (h'&Hsub&Ho).
  destruct Ho as (h1&h2&->&_&Ht&HT). destruct (apure_inv (u = u) _ Ht) as [-> _]. rewrite left_id_L in Hsub.
  assert (Hsub' : h2 ⊆ mem s').
  { rewrite Hm (ReferencesFacts.mi_mem _ _ _ _ _ _ _ _ _ _ Hi). etrans; [exact Hsub|]. apply map_union_subseteq_l. }
  destruct (hprop_in_entails _ _ (rd_us_read C W (ge_lim _ _ _ HC) (depth v) u l KStk None v ltac:(lia)) _ HT s' Hsub')
    as (s''&Hrd&Hsm&Hn&Htr&_&Hoo&Hop'&_).
  exists s''. split; [done|]. intros n Hn'.
  destruct (le_read _ _ (mono_sem C (depth v) n Hn') u l s') as [Hf|Hf]; congruence.
Qed.
Lemma unchanged_trans s1 s2 s3 : unchanged s1 s2 -> unchanged s2 s3 -> unchanged s1 s3.
Proof. unfold unchanged. intuition congruence. Qed.
Lemma compared_named orc h E R s z w u l l' v v' cmp : mixed C S st nb eqf ltf orc h E R s ->
  E !! z = Some (BObj u l) -> sees_obj C E s z u v -> E !! w = Some (BObj u l') -> sees_obj C E s w u v' ->
  says (fun n => compared (sem C n) cmp u l l') s (cmp u v v').
Proof.
  intros Hh Hz Hv Hw Hv'. destruct (read_named _ _ _ _ _ _ _ _ _ Hh Hz Hv s eq_refl) as (s1&Hu1&H1).
  destruct (read_named _ _ _ _ _ _ _ _ _ Hh Hw Hv' s1 (proj1 Hu1)) as (s2&Hu2&H2).
  exists s2. split; [|by eapply unchanged_trans]. exists (depth v + depth v'). intros n Hn. unfold compared, bind.
  rewrite H1; [|lia]. rewrite H2; [|lia]. done.
Qed.
Lemma programs orc h E R s tys a b i j c c' u u' l l' z w v v' cmp : mixed C S st nb eqf ltf orc h E R s ->
  refers_to (mem s) tys a i c u l -> refers_to (mem s) tys b j c' u' l' ->
  E !! z = Some (BObj u l) -> sees_obj C E s z u v -> E !! w = Some (BObj u' l') -> sees_obj C E s w u' v' ->
  exists e t, says (fun n => r_eq C (sem C n) tys cmp a b) s e /\ says (fun n => r_lt C (sem C n) tys cmp a b) s t /\
    (e = true <-> i = j /\ cmp u v v' = true) /\ (t = true <-> i < j \/ i = j /\ cmp u v v' = true).
Proof.
  intros Hh Ha Hb Hz Hv Hw Hv'. pose proof (ge_lim _ _ _ HC) as HL.
  assert (Hga : gives (mem s) true tys a i c u l) by by left. assert (Hgb : gives (mem s) true tys b j c' u' l') by by left.
  assert (Hsame : forall A (m m' : nat -> M A) r, (forall n, m n s = m' n s) -> says m' s r -> says m s r).
  { intros A m m' r Hm (s'&[n0 Hn]&Hu). exists s'. split; [|done]. exists n0. intros n Hn'. rewrite Hm. by apply Hn. }
  assert (Hret : forall A (m : nat -> M A) r, (forall n, m n s = Ok r s) -> says m s r).
  { intros A m r Hm. exists s. split; [by exists 0|done]. }
  destruct (lt_eq_lt_dec i j) as [[Hij| ->]|Hij].
  - exists false, true. split; [apply Hret; intros n; apply (eq_gives C (sem C n) HL tys cmp a i c u l b j c' u' l' s Hga Hgb); lia|].
    split; [apply Hret; intros n; apply (lt_gives C (sem C n) HL tys cmp a i c u l b j c' u' l' s Hga Hgb); lia|].
    split; [split; [done|intros [? _]; lia]|]. split; [by left|done].
  - destruct (gives_same _ _ _ _ _ _ _ _ _ _ _ _ Hga Hgb) as [<- <-].
    pose proof (compared_named _ _ _ _ _ _ _ _ _ _ _ _ cmp Hh Hz Hv Hw Hv') as Hc. exists (cmp u v v'), (cmp u v v').
    split; [eapply Hsame; [|exact Hc]; intros n; by apply (eq_gives C (sem C n) HL tys cmp a j c u l b j c u l' s Hga Hgb)|].
    split; [eapply Hsame; [|exact Hc]; intros n; by apply (lt_gives C (sem C n) HL tys cmp a j c u l b j c u l' s Hga Hgb)|].
    split; [tauto|]. split; [by right|]. intros [?|[_ ?]]; [lia|done].
  - exists false, false. split; [apply Hret; intros n; apply (eq_gives C (sem C n) HL tys cmp a i c u l b j c' u' l' s Hga Hgb); lia|].
    split; [apply Hret; intros n; apply (lt_gives C (sem C n) HL tys cmp a i c u l b j c' u' l' s Hga Hgb); lia|].
    split; [split; [done|intros [? _]; lia]|]. split; [done|intros [?|[? _]]; lia].
Qed.
End programs.
