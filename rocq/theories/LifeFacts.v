(** Proofs behind the properties of whole histories. *)
From stdpp Require Import gmap.
From iris.proofmode Require Import tactics.
From Verif Require Import Base Types TypesFacts Dispatch Variant Sem Values ValuesFacts Client Observe ObserveFacts Spec Trace TraceFacts History Owned OwnedFacts.
From Verif Require Import Heap Wp Rep Link SpecInt SpecVar SpecAssign SpecSem SpecQuery World ClientProof Levels HistoryProof Reach ReachFacts Raises ReadOnly CoreFacts.

Section life.
Context (C : cfg) (st nb : bool) (eqf ltf : uid -> uval -> uval -> bool).
Context (HC : good_env C st nb).
Notation reached := (reached C st nb eqf ltf).
Notation step := (step C st nb eqf ltf).
Notation yields := (yields C eqf ltf).
Notation admissible := (admissible C st nb).

Lemma yields_throw c E s E' e s' : yields c E s (Done E' (OThrew e) s') -> E' = E.
Proof.
  intros [n Hn]. specialize (Hn n ltac:(done)). unfold exec in Hn.
  pose proof (op_returns C eqf ltf n E c s) as Ho.
  destruct (op C n eqf ltf E c s) as [[E1 o1] s1|e1 s1|f]; [|by injection Hn as <- _ _|done].
  injection Hn as -> -> ->. by destruct (Ho _ _ eq_refl e).
Qed.

Lemma yields_quiet c E s E' o s' : query c = true -> yields c E s (Done E' o s') -> E' = E /\ quiet s s'.
Proof.
  intros Hq [n Hn]. specialize (Hn n ltac:(done)). unfold exec in Hn.
  pose proof (ro_op C n eqf ltf E c Hq s) as Ho.
  destruct (op C n eqf ltf E c s) as [[E1 o1] s1|e1 s1|f] eqn:Hop; [| |done].
  - injection Hn as -> -> ->. split; [|done].
    assert (outs (fun r => r.1 = E) (op C n eqf ltf E c)) as H; [|by apply (H _ _ _ Hop)].
    clear -Hq. destruct c; try done; unfold op; repeat first
      [ apply outs_ret; done
      | apply outs_faulty
      | apply outs_bind; intros
      | match goal with |- outs _ (match ?x with _ => _ end) => destruct x end ].
  - by injection Hn as <- <- <-.
Qed.

Lemma yields_foreign c E s E' e s' : yields c E s (Done E' (OThrew e) s') ->
  foreign_exn e \/ e = XBadGet /\ uses_get c = true.
Proof.
  intros [n Hn]. specialize (Hn n ltac:(done)). unfold exec in Hn.
  pose proof (op_returns C eqf ltf n E c s) as Ho.
  assert (Hr : raises (fun e => foreign_exn e \/ e = XBadGet /\ uses_get c = true) (op C n eqf ltf E c)).
  { apply r_op; [by left|by right]. }
  specialize (Hr s). destruct (op C n eqf ltf E c s) as [[E1 o1] s1|e1 s1|f]; [| |done].
  - injection Hn as -> -> ->. by destruct (Ho _ _ eq_refl e).
  - injection Hn as _ -> _. done.
Qed.

(** ** Never empty *)
Lemma adm_read E s x tys k : reached E s -> sees C E s x tys k -> admissible E s (CRead x).
Proof.
  intros Hr Hx. destruct (reached_shows _ _ _ _ _ HC _ _ Hr) as [σ Hs].
  exists 0, σ. split; [done|]. split; [|done]. simpl. exists tys, k. by eapply sees_is_var.
Qed.

Lemma which_yields E s x tys a z : E !! x = Some (BVar tys a) -> which a s = Ok z s ->
  yields (CWhich x) E s (Done E (OWhich z) s).
Proof.
  intros Hx Hw. exists 0. intros n _. unfold exec, op, need_var, bind. rewrite Hx. simpl. by rewrite Hw.
Qed.

Lemma never_empty E s x tys a : reached E s -> E !! x = Some (BVar tys a) ->
  exists k t, sees C E s x tys k /\ tys !! k.1.2 = Some t /\
    yields (CWhich x) E s (Done E (OWhich (Z.of_nat k.1.2)) s) /\
    exists s', yields (CRead x) E s (Done E (OVal (ity_uid t) (erase k.2)) s') /\ quiet s s'.
Proof.
  intros Hr Hx. destruct (reached_locates _ _ _ _ _ HC _ _ _ _ _ Hr Hx) as (k&t&l&Hk&Ht&_&_&_&Hw).
  exists k, t. split; [done|]. split; [done|]. split; [by eapply which_yields|].
  destruct (progress _ _ _ _ _ HC E s (CRead x) Hr ltac:(by eapply adm_read)) as (E'&o&s'&Hy).
  destruct (yields_quiet (CRead x) _ _ _ _ _ eq_refl Hy) as [-> Hq].
  exists s'. split; [|done].
  destruct (step_spec _ _ _ eqf ltf HC (CRead x) E s E o s') as (σ&σ'&Hs&Hs'&Ha&_); [by split; [done|split; [by eapply adm_read|]]|].
  apply (sees_is_var _ _ _ _ _ _ _ Hs) in Hk. unfold is_var in *. inversion Ha; subst. unfold is_var in *.
  simplify_map_eq. done.
Qed.

Lemma no_undefined E s c : reached E s -> admissible E s c ->
  exists E' o s', yields c E s (Done E' o s') /\ reached E' s'.
Proof.
  intros Hr Ha. destruct (progress _ _ _ _ _ HC E s c Hr Ha) as (E'&o&s'&Hy). exists E', o, s'. split; [done|].
  destruct Hr as (orc&h&Hh). exists orc, (h ++ [c]). by eapply history_step.
Qed.

(** ** Lifetimes and heap blocks *)
Lemma reached_ginv E s : reached E s -> ginv (WPar st nb) s.
Proof. intros Hr. by destruct (reached_inv _ _ _ _ _ HC _ _ Hr) as (B&σ&[_ _ ?]). Qed.

Lemma lifetimes E s l : reached E s ->
  occupant l (tr s) = Some (tag_at (mem s) l) /\
  forall k, cnt (EvC k l) (tr s) = cnt (EvD k l) (tr s) + if decide (tag_at (mem s) l = Some k) then 1 else 0.
Proof.
  intros Hr. pose proof (gi_life _ _ (reached_ginv _ _ Hr) l) as Hl. split; [done|]. intros k. by apply occupant_count.
Qed.

Lemma blocks E s l : reached E s ->
  exists b, block l (tr s) = Some b /\ (b = BLive <-> is_block (mem s) l).
Proof. intros Hr. apply (gi_block _ _ (reached_ginv _ _ Hr) l). Qed.

Lemma ownership E s : reached E s -> forest C (mem s) E.
Proof. intros Hr. destruct (reached_inv _ _ _ _ _ HC _ _ Hr) as (B&σ&[Hw Ha _]). by eapply world_forest. Qed.

Lemma nothing_left s : reached ∅ s -> mem s = ∅.
Proof.
  intros Hr. destruct (ownership _ _ Hr) as (n&lss&Hm&_&Hl). rewrite map_to_list_empty in Hm. simpl in Hm. injection Hm as <-.
  apply map_eq. intros l. rewrite lookup_empty. destruct (mem s !! l) as [c|] eqn:Hc; [|done].
  assert (is_Some (mem s !! l)) as Hi by (by rewrite Hc). apply Hl in Hi. by apply elem_of_nil in Hi.
Qed.

Lemma all_destroyed s l k : reached ∅ s -> cnt (EvC k l) (tr s) = cnt (EvD k l) (tr s).
Proof.
  intros Hr. destruct (lifetimes _ _ l Hr) as [_ ->]. unfold tag_at. rewrite (nothing_left _ Hr) lookup_empty /=. lia.
Qed.

(** ** No backups *)
Lemma no_backup_news E s l : nb = true -> reached E s -> EvNew APBackup l ∉ tr s.
Proof. intros Hn Hr. by apply (gi_nobk _ _ (reached_ginv _ _ Hr)). Qed.
Lemma no_parked E s tys k : nb = true -> reached E s -> present C E s tys k -> cleanv k = true.
Proof.
  intros -> Hr Hp. eapply shapedv_clean. by eapply present_shaped.
Qed.
Lemma never_parked_admissible E s σ D c : nb = true -> reached E s -> shows C (mem s) E σ -> typed C st nb D σ c -> admissible E s c.
Proof.
  intros Hn Hr Hs Ht. exists D, σ. split; [done|]. split; [done|].
  assert (Hv : forall x tys k, is_var σ x tys k -> cleanv k = true).
  { intros x tys k Hx. eapply no_parked; [done|done|]. eapply present_var. by eapply is_var_sees. }
  assert (Ho : forall x u v, is_obj σ x u v -> clean v = true).
  { intros x u v Hx. subst nb. destruct (reached_inv _ _ _ _ _ HC _ _ Hr) as (B&σ1&Hi).
    assert (σ1 = σ) as -> by (eapply shows_unique; [by eapply inv_shows|done]). destruct Hi as [Hw _ _].
    eapply shaped_clean. exact (world_shaped _ _ _ _ _ _ _ _ Hw Hx). }
  assert (Hsp : forall x tys k, is_var σ x tys k -> clean k.2 = true /\ k.1.1 = false).
  { intros x tys k Hx. specialize (Hv _ _ _ Hx). unfold cleanv in Hv. apply andb_true_iff in Hv as [Hp ?].
    by apply negb_true_iff in Hp. }
  destruct c; simpl; intros; eauto.
  - destruct (Hsp _ _ _ H1) as [? Hp]. split; [done|]. by rewrite Hp.
  - destruct (Hsp _ _ _ H1) as [? Hp]. split; [done|]. by rewrite Hp.
  - split; intros; [split; intros; by eapply Hsp|by eapply Hv].
Qed.

(** ** Determinate values *)
Lemma no_indeterminate E s : st = true -> reached E s -> ind s = false.
Proof. intros Hn Hr. by apply (gi_strict _ _ (reached_ginv _ _ Hr)). Qed.
Lemma values_determinate E s tys k : st = true -> reached E s -> present C E s tys k -> determinate k.2 = true.
Proof.
  intros -> Hr Hp. destruct (present_shaped _ _ _ _ _ HC _ _ _ _ Hr Hp) as (t&_&Hsh&_). by eapply shaped_determinate.
Qed.

(** ** Exceptions *)
Lemma exceptions c E s E' o s' : step c E s E' o s' ->
  match o with
  | OThrew e => thrown s' = e :: thrown s /\ E' = E /\ (foreign_exn e \/ e = XBadGet /\ uses_get c = true)
  | _ => thrown s' = thrown s
  end.
Proof.
  intros H. destruct (step_spec _ _ _ _ _ HC _ _ _ _ _ _ H) as (σ&σ'&_&_&_&Ht&_). destruct H as (_&_&Hy).
  unfold tells in Ht. destruct o; try done. split; [done|]. split; [by eapply yields_throw|by eapply yields_foreign].
Qed.

Lemma others c E s E' o s' z : step c E s E' o s' -> z ∉ names c -> same_at C E s E' s' z.
Proof.
  intros H Hz. destruct (step_spec _ _ _ _ _ HC _ _ _ _ _ _ H) as (σ&σ'&Hs&Hs'&Ha&_). destruct H as (_&_&Hy).
  eapply shows_same; [done|done|by eapply yields_env|by eapply astep_other].
Qed.

Lemma queries c E s E' o s' : query c = true -> step c E s E' o s' ->
  E' = E /\ quiet s s' /\ forall z, same_at C E s E' s' z.
Proof.
  intros Hq (Hr&Ha&Hy). destruct (yields_quiet _ _ _ _ _ _ Hq Hy) as [-> Hqs]. split; [done|]. split; [done|].
  destruct Hqs as (Hm&_). intros z. split; [done|]. unfold sees, sees_obj. rewrite Hm. done.
Qed.
End life.

(** ** Pointers *)
Section pointers.
Context (C : cfg) (m : gmap loc cell).
Definition ptrs (l : loc) : list loc := match m !! l with Some c => pointers (cc c) | None => [] end.
Notation all ls := (concat (map ptrs ls)).

Lemma all_app ls ls' : all (ls ++ ls') = all ls ++ all ls'.
Proof. by rewrite map_app concat_app. Qed.
Lemma all_cons l ls : all (l :: ls) = ptrs l ++ all ls.
Proof. done. Qed.

Section level.
Context (f : uid -> obj -> option (list loc)).
Context (Hf : forall u o ls, f u o = Some ls -> ls ≡ₚ pointers (Some o) ++ all ls).

Lemma ptrs_heap p o : heap_obj m p = Some o -> ptrs p = pointers (Some o).
Proof. unfold heap_obj, ptrs. destruct (m !! p) as [[[] [o'|] [?|]]|]; try done. by intros [= ->]. Qed.

Lemma owned_by_ptrs t o ls : owned_by m f t o = Some ls -> ls ≡ₚ pointers (Some o) ++ all ls.
Proof.
  destruct t as [u|u]; simpl; [apply Hf|].
  destruct o as [|u' p| | |]; try done. destruct (heap_obj m p) as [o'|] eqn:Hp; [|done].
  destruct (f u o') as [ls'|] eqn:Hf'; [|done]. intros [= <-]. rewrite all_cons (ptrs_heap _ _ Hp). simpl.
  apply Permutation_skip. by apply (Hf u).
Qed.

Lemma owned_var_ptrs tys a ls : owned_var m f tys a = Some ls -> ls ≡ₚ a :: all ls.
Proof.
  unfold owned_var. destruct (m !! a) as [[? [o|] [w|]]|] eqn:Ha; try done.
  assert (ptrs a = pointers (Some o)) as Hpa by (unfold ptrs; by rewrite Ha). case_bool_decide.
  - destruct (tys !! _) as [t|]; [|done]. destruct o as [| |t' [p|]| |]; try done.
    destruct (heap_obj m p) as [o'|] eqn:Hp; [|done]. destruct (owned_by m f t o') as [ls'|] eqn:Ho; [|done].
    intros [= <-]. rewrite !all_cons Hpa (ptrs_heap _ _ Hp). simpl. do 2 apply Permutation_skip. by apply (owned_by_ptrs t).
  - destruct (tys !! _) as [t|]; [|done]. destruct (owned_by m f t o) as [ls'|] eqn:Ho; [|done].
    intros [= <-]. rewrite all_cons Hpa. apply Permutation_skip. by apply (owned_by_ptrs t).
Qed.

Lemma owned_all_ptrs mems ls rs : owned_all (owned_var m f) mems ls = Some rs -> rs ≡ₚ ls ++ all rs.
Proof.
  revert ls rs. induction mems as [|tys mems IH]; intros [|l ls] rs; simpl; try done; [by intros [= <-]|].
  destruct (owned_var m f tys l) as [r|] eqn:Hr; [|done].
  destruct (owned_all _ mems ls) as [rs'|] eqn:Hrs; [|done]. intros [= <-].
  apply IH in Hrs. apply owned_var_ptrs in Hr. rewrite all_app {1}Hr {1}Hrs. simpl. apply Permutation_skip.
  rewrite !app_assoc. apply Permutation_app_tail. apply Permutation_app_comm.
Qed.
End level.

Lemma owned_obj_ptrs n u o ls : owned_obj C m n u o = Some ls -> ls ≡ₚ pointers (Some o) ++ all ls.
Proof.
  revert u o ls. induction n as [|n IH]; intros u o ls; simpl; [done|].
  destruct o as [u' z rs| | | |]; try done. by apply owned_all_ptrs.
Qed.

Lemma owned_bnd_ptrs n b ls : owned_bnd C m n b = Some ls -> ls ≡ₚ root b :: all ls.
Proof.
  destruct b as [tys a|u a]; simpl; [apply owned_var_ptrs; apply owned_obj_ptrs|].
  destruct (m !! a) as [[? [o|] ?]|] eqn:Ha; try done.
  destruct (owned_obj C m n u o) as [ls'|] eqn:Ho; [|done]. intros [= <-].
  apply owned_obj_ptrs in Ho. rewrite all_cons. unfold ptrs at 1. rewrite Ha /=. by apply Permutation_skip.
Qed.

Lemma forest_linked E : forest C m E -> linked E m.
Proof.
  intros (n&lss&Hm&Hnd&Hin). unfold linked.
  assert (Hp : (map_to_list m).*1 ≡ₚ concat lss).
  { apply NoDup_Permutation; [apply NoDup_fst_map_to_list|done|]. intros l. rewrite -Hin elem_of_list_fmap. split.
    - intros ([l' c]&->&Hl). apply elem_of_map_to_list in Hl. by exists c.
    - intros [c Hc]. exists (l, c). split; [done|]. by apply elem_of_map_to_list. }
  assert (Hc : concat lss ≡ₚ map (fun p => root p.2) (map_to_list E) ++ all (concat lss)).
  { clear Hin Hp Hnd. revert lss Hm. induction (map_to_list E) as [|[x b] l IH]; intros lss Hm; simpl in Hm.
    - by injection Hm as <-.
    - simpl in Hm. destruct (owned_bnd C m n b) as [ls|] eqn:Hb; [|done].
      destruct (mapM _ l) as [lss'|] eqn:Hl; [|done]. simpl in Hm. injection Hm as <-. specialize (IH _ eq_refl).
      apply owned_bnd_ptrs in Hb. simpl. rewrite all_app {1}Hb {1}IH. simpl. apply Permutation_skip.
      rewrite !app_assoc. apply Permutation_app_tail. apply Permutation_app_comm. }
  rewrite {1}Hp Hc. apply Permutation_app_head.
  assert (all (concat lss) ≡ₚ all ((map_to_list m).*1)) as ->.
  { rewrite -!flat_map_concat_map. by apply Permutation_flat_map. }
  apply reflexive_eq. f_equal. rewrite map_map. apply map_ext_in. intros [l c] Hl. simpl.
  apply elem_of_list_In, elem_of_map_to_list in Hl. unfold ptrs. by rewrite Hl.
Qed.
End pointers.

Lemma reached_linked C st nb eqf ltf (HC : good_env C st nb) E s :
  reached C st nb eqf ltf E s -> linked E (mem s).
Proof. intros Hr. eapply forest_linked. by eapply ownership. Qed.

(** ** Every cell is in order *)
Section cells.
Context (C : cfg) (W : wpar) (m : heap).
Notation ok h := (forall l c, h !! l = Some c -> cell_ok C m c).
Notation R := (R C W).
Notation Rvar := (Rvar C W).
Notation Rmems := (Rmems C W).

Lemma ok_union (h1 h2 : heap) : ok h1 -> ok h2 -> ok (h1 ∪ h2).
Proof. intros H1 H2 l c [Hl|[_ Hl]]%lookup_union_Some_raw; [by eapply H1|by eapply H2]. Qed.
Lemma ok_single l c (h : heap) : (l ↦ c : hprop)%I h -> cell_ok C m c -> ok h.
Proof. unfold pt, hholds. intros -> Hc l' c' Hl. apply lookup_singleton_Some in Hl as [_ <-]. done. Qed.

Definition obj_ok (o : obj) : Prop := forall k w, cell_ok C m (Cell k (Some o) w).

Section at_level.
Context (n : nat).
Context (Hf : forall v u o h, R v u o h -> h ⊆ m -> depth v <= n -> ok h /\ obj_ok o /\ tag_of o = TUser u).

Lemma Rvar_ok tys a k h : Rvar tys a k h -> h ⊆ m -> depth k.2 <= n ->
  ok h /\ exists o w, m !! a = Some (Cell KVar (Some o) (Some w)).
Proof.
  intros H Hs Hd. destruct k as [[bk i] v].
  destruct H as (t&o&h0&h1&->&Hdj&Ht&H). destruct (apure_inv (tys !! i = Some t) _ Ht) as [-> Ht']. rewrite left_id_L in Hs |- *.
  destruct H as (h2&h3&->&Hd23&HRI&H). simpl in *.
  assert (Hcont : ok h2 /\ obj_ok o /\ tag_of o = tag_is t).
  { destruct t as [u|u]; simpl in *.
    - eapply Hf; [done|by eapply sub_l|done].
    - destruct HRI as (p&o'&h4&h5&->&_&Ho&h6&h7&->&Hd67&Hp&HR). destruct (apure_inv (o = OWrap u p) _ Ho) as [-> ->].
      rewrite left_id_L in Hs Hd23 |- *. apply sub_l in Hs as Hs'.
      destruct (Hf v u o' h7) as (Hok&Ho'&Htag); [done|by eapply sub_r|done|]. split; [|split; [|done]].
      + apply ok_union; [|done]. by eapply ok_single.
      + intros k w. exists o'. split; [|done]. by eapply pt_see, sub_l. }
  destruct Hcont as (Hok&Ho&Htag). apply sub_r in Hs as Hs3; [|done]. destruct bk.
  - destruct H as (p&h4&h5&->&Hd45&Hb&h6&h7&->&Hd67&Ha&Hp). destruct (apure_inv (bkok C W tys t) _ Hb) as [-> _].
    rewrite left_id_L in Hs3 Hd23 |- *. split.
    + apply ok_union; [done|]. apply ok_union; [|by eapply ok_single].
      eapply ok_single; [done|]. exists o. split; [|done]. by eapply pt_see, sub_r.
    + do 2 eexists. by eapply pt_see, sub_l.
  - split.
    + apply ok_union; [done|]. by eapply ok_single.
    + do 2 eexists. by eapply pt_see.
Qed.

Lemma Rmems_ok mems ls ks h : Rmems mems ls ks h -> h ⊆ m -> Forall (fun k => depth k.2 <= n) ks ->
  ok h /\ length ls = length mems /\ forall l, l ∈ ls -> exists o w, m !! l = Some (Cell KVar (Some o) (Some w)).
Proof.
  revert mems ls h. induction ks as [|k ks IH]; intros mems ls h H Hs Hd.
  - destruct mems, ls; simpl in *; try by destruct H.
    change (h = ∅) in H. subst. split; [intros l c; by rewrite lookup_empty|]. split; [done|]. intros l Hl. by apply elem_of_nil in Hl.
  - destruct mems as [|tys mems], ls as [|l ls]; simpl in *; try by destruct H.
    destruct H as (h1&h2&->&Hdj&H1&H2). apply Forall_cons in Hd as [Hd1 Hd].
    destruct (Rvar_ok tys l k h1 H1) as [Hok1 Hl1]; [by eapply sub_l|done|].
    destruct (IH mems ls h2 H2) as (Hok2&Hlen&Hl2); [by eapply sub_r|done|].
    split; [by apply ok_union|]. split; [by rewrite Hlen|]. intros l' [->|Hl']%elem_of_cons; auto.
Qed.
End at_level.

Lemma R_ok n : forall v u o h, R v u o h -> h ⊆ m -> depth v <= n -> ok h /\ obj_ok o /\ tag_of o = TUser u.
Proof.
  induction n as [|n IH]; intros v u o h H Hs Hd; [destruct v; simpl in Hd; lia|].
  destruct v as [z ks]. pose proof (R_unfold C W z ks u o) as [Hu]. apply Hu in H.
  destruct H as (ls&h0&h1&->&_&Ho&h2&h3&->&_&Hz&H). destruct (apure_inv (o = OUser u z ls) _ Ho) as [-> ->].
  destruct (apure_inv (strict W = true -> z <> None) _ Hz) as [-> _]. rewrite !left_id_L in Hs |- *. apply depth_UV in Hd.
  destruct (Rmems_ok n IH _ _ _ _ H Hs Hd) as (Hok&Hlen&Hl). split; [done|]. split; [|done]. by intros k w.
Qed.

Lemma own_ok b α h : own C W b α h -> h ⊆ m -> ok h.
Proof.
  intros Ho Hs. destruct b as [tys a|u a], α as [tys' k|u' v]; simpl in Ho; try by destruct Ho.
  - destruct Ho as (h0&h1&->&Hd&Ht&Ho). destruct (apure_inv (tys' = tys) _ Ht) as [-> ->].
    rewrite left_id_L in Hs |- *. by eapply (Rvar_ok (depth k.2)); [apply R_ok|..].
  - destruct Ho as (h0&h1&->&Hd&Ht&Ho). destruct (apure_inv (u' = u) _ Ht) as [-> ->].
    rewrite left_id_L in Hs |- *. destruct Ho as (o&h2&h3&->&Hd'&Hl&HR).
    destruct (R_ok _ _ _ _ _ HR ltac:(by eapply sub_r) (le_n _)) as (Hok&Ho&_). apply ok_union; [|done]. by eapply ok_single.
Qed.

Lemma world_ok E σ B : world C W E σ m -> aok C W B σ -> ok m.
Proof.
  intros Hw Ha l c Hl.
  destruct (world_covers_list C W m B B (map_to_list E)) with (σ := σ) (h := m) as (lss&E1&_&Hcov).
  { apply NoDup_fst_map_to_list. } { by rewrite list_to_map_to_list. } { done. } { done. } { done. }
  assert (l ∈ concat lss) as Hin by (apply Hcov; by exists c).
  apply elem_of_list_In, in_concat in Hin as (ls&Hls&Hin). apply elem_of_list_In in Hls, Hin.
  apply mapM_Some in E1. apply elem_of_list_lookup in Hls as [j Hj].
  destruct (Forall2_lookup_r _ _ _ _ _ E1 Hj) as ([x b]&Hx&Hb). simpl in Hb.
  apply elem_of_list_lookup_2, elem_of_map_to_list in Hx.
  pose proof (world_shows C W E σ m m Hw ltac:(done) x) as Hs. rewrite Hx in Hs.
  assert (exists α, σ !! x = Some α) as [α Hα] by (destruct b, (σ !! x) as [[]|] eqn:?; eauto; done).
  destruct (own_part C W E σ x b α m Hw Hx Hα) as (h'&Hsub&Ho).
  destruct (own_owned C W m B b α h' B Ho Hsub) as (ls'&Hls'&_&Hcov'); [by eapply Ha|done|].
  rewrite Hb in Hls'. injection Hls' as <-. apply Hcov' in Hin as [c' Hc'].
  pose proof (lookup_weaken _ _ _ _ Hc' Hsub) as Hl'. rewrite Hl in Hl'. injection Hl' as <-.
  by eapply (own_ok b α h').
Qed.
End cells.

Lemma reached_cells C st nb eqf ltf (HC : good_env C st nb) E s l c :
  reached C st nb eqf ltf E s -> mem s !! l = Some c -> cell_ok C (mem s) c.
Proof. intros Hr. destruct (reached_inv _ _ _ _ _ HC _ _ Hr) as (B&σ&[Hw Ha _]). by eapply world_ok. Qed.
