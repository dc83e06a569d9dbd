(** What operations cost (proofs). *)
From stdpp Require Import gmap.
From iris.proofmode Require Import tactics.
From Verif Require Import Base Types Dispatch DispatchFacts Variant Sem Values ValuesFacts Client Observe ObserveFacts Spec Trace TraceFacts History.
From Verif Require Import Heap Wp Rep Link World ClientProof Levels HistoryProof Reach ReachFacts CoreFacts LifeFacts OwnedFacts SpecSem CostSpec Cost.

(** ** Sums over maps *)
Section gsum.
Context {K A : Type} `{Countable K} (f : A -> nat).
Definition gsum (m : gmap K A) : nat := map_fold (fun _ c n => f c + n) 0 m.
Lemma gsum_empty : gsum ∅ = 0. Proof. apply map_fold_empty. Qed.
Lemma gsum_insert m i x : m !! i = None -> gsum (<[i := x]> m) = f x + gsum m.
Proof. intros Hi. unfold gsum. rewrite map_fold_insert_L; [done| |done]. intros. lia. Qed.
Lemma gsum_delete m i x : m !! i = Some x -> gsum m = f x + gsum (delete i m).
Proof. intros Hi. rewrite -{1}(insert_delete m i x Hi) gsum_insert; [done|apply lookup_delete]. Qed.
Lemma gsum_update m i x y : m !! i = Some x -> gsum (<[i := y]> m) + f x = gsum m + f y.
Proof.
  intros Hi. rewrite (gsum_delete m i x) // (gsum_delete _ i y); [|apply lookup_insert]. rewrite delete_insert_delete. lia.
Qed.
Lemma gsum_single i x : gsum {[i := x]} = f x.
Proof. rewrite -insert_empty gsum_insert; [|apply lookup_empty]. rewrite gsum_empty. lia. Qed.
Lemma gsum_union m1 m2 : m1 ##ₘ m2 -> gsum (m1 ∪ m2) = gsum m1 + gsum m2.
Proof.
  induction m1 as [|i x m1 Hi IH] using map_ind; intros Hd; [by rewrite left_id_L gsum_empty|].
  apply map_disjoint_insert_l in Hd as [Hi2 Hd]. rewrite -insert_union_l !gsum_insert //; [rewrite IH //; lia|].
  by apply lookup_union_None.
Qed.
End gsum.

(** ** What is in memory *)
Section memory.
Context (C : cfg) (W : wpar) (w : ckind -> otag -> nat).
Notation R := (R C W).
Notation Rvar := (Rvar C W).
Notation Rmems := (Rmems C W).
Definition in_cell (c : cell) : nat := match cc c with Some o => w (ck c) (tag_of o) | None => 0 end.
Notation msum := (gsum in_cell).
Lemma in_cell_some k o wh : in_cell {| ck := k; cc := Some o; cw := wh |} = w k (tag_of o).
Proof. done. Qed.
Lemma msum_pt l c (h : heap) : (l ↦ c : hprop)%I h -> msum h = in_cell c.
Proof. unfold pt, hholds. intros ->. apply gsum_single. Qed.

Fixpoint mems_parts (ks : list vval) (mems : list (list ity)) : nat :=
  match ks, mems with
  | k :: ks', tys :: mems' => variant_parts w (object_parts C w k.2) tys k.1.1 k.1.2 + mems_parts ks' mems'
  | _, _ => 0
  end.
Lemma object_parts_unfold z ks place u :
  object_parts C w (UV z ks) place u = w place (TUser u) + mems_parts ks (ut_members (te C u)).
Proof. done. Qed.

Section at_level.
Context (n : nat).
Context (Hf : forall v u o h, R v u o h -> depth v <= n ->
  tag_of o = TUser u /\ forall place, w place (TUser u) + msum h = object_parts C w v place u).
Lemma Rvar_sum tys a k h : Rvar tys a k h -> depth k.2 <= n -> msum h = parts C w (AVar tys k).
Proof.
  intros H Hd. destruct k as [[bk i] v]. simpl in Hd.
  destruct H as (t&o&h0&h1&->&Hdj&Ht&H). destruct (apure_inv (tys !! i = Some t) _ Ht) as [-> Ht']. rewrite left_id_L.
  destruct H as (h2&h3&->&Hd23&HRI&H). simpl in *. unfold variant_parts. rewrite Ht'. rewrite gsum_union //.
  assert (Hcont : forall place, w place (tag_of o) + msum h2 = content_parts w (object_parts C w v) t place).
  { intros place. destruct t as [u|u]; simpl in *.
    - destruct (Hf v u o h2 HRI Hd) as [-> Hs]. apply Hs.
    - destruct HRI as (p&o'&h4&h5&->&_&Ho&h6&h7&->&Hd67&Hp&HR). destruct (apure_inv (o = OWrap u p) _ Ho) as [-> ->].
      rewrite left_id_L gsum_union // (msum_pt _ _ _ Hp). destruct (Hf v u o' h7 HR Hd) as [Hto Hs].
      rewrite !in_cell_some /=. rewrite Hto Hs. done. }
  destruct bk.
  - destruct H as (p&h4&h5&->&Hd45&Hb&h6&h7&->&Hd67&Ha&Hp). destruct (apure_inv (bkok C W tys t) _ Hb) as [-> _].
    rewrite left_id_L gsum_union // (msum_pt _ _ _ Ha) (msum_pt _ _ _ Hp). rewrite !in_cell_some /=.
    rewrite -Hcont. lia.
  - rewrite (msum_pt _ _ _ H). rewrite !in_cell_some /=. rewrite -Hcont. lia.
Qed.
Lemma Rmems_sum mems ls ks h : Rmems mems ls ks h -> Forall (fun k => depth k.2 <= n) ks -> msum h = mems_parts ks mems.
Proof.
  revert mems ls h. induction ks as [|k ks IH]; intros mems ls h H Hd.
  - destruct mems, ls; simpl in *; try by destruct H. change (h = ∅) in H. subst. apply gsum_empty.
  - destruct mems as [|tys mems], ls as [|l ls]; simpl in *; try by destruct H.
    destruct H as (h1&h2&->&Hdj&H1&H2). apply Forall_cons in Hd as [Hd1 Hd].
    rewrite gsum_union //. rewrite (Rvar_sum _ _ _ _ H1 Hd1) (IH _ _ _ H2 Hd). done.
Qed.
End at_level.
Lemma R_sum n : forall v u o h, R v u o h -> depth v <= n ->
  tag_of o = TUser u /\ forall place, w place (TUser u) + msum h = object_parts C w v place u.
Proof.
  induction n as [|n IH]; intros v u o h H Hd; [destruct v; simpl in Hd; lia|].
  destruct v as [z ks]. pose proof (R_unfold C W z ks u o) as [Hu]. apply Hu in H.
  destruct H as (ls&h0&h1&->&_&Ho&h2&h3&->&_&Hz&H). destruct (apure_inv (o = OUser u z ls) _ Ho) as [-> ->].
  destruct (apure_inv (strict W = true -> z <> None) _ Hz) as [-> _]. rewrite !left_id_L. apply depth_UV in Hd.
  split; [done|]. intros place. by rewrite (Rmems_sum n IH _ _ _ _ H Hd) object_parts_unfold.
Qed.
Lemma own_sum b α h : own C W b α h -> msum h = parts C w α.
Proof.
  intros Ho. destruct b as [tys a|u a], α as [tys' k|u' v]; simpl in Ho; try by destruct Ho.
  - destruct Ho as (h0&h1&->&Hd&Ht&Ho). destruct (apure_inv (tys' = tys) _ Ht) as [-> ->]. rewrite left_id_L.
    eapply Rvar_sum; [apply R_sum|done..].
  - destruct Ho as (h0&h1&->&Hd&Ht&Ho). destruct (apure_inv (u' = u) _ Ht) as [-> ->]. rewrite left_id_L.
    destruct Ho as (o&h2&h3&->&Hd'&Hp&HR). rewrite gsum_union // (msum_pt _ _ _ Hp).
    destruct (R_sum _ _ _ _ _ HR (Nat.le_refl _)) as [Ht' Hs]. rewrite !in_cell_some /=. by rewrite Ht' Hs.
Qed.
Lemma world_sum E σ h : world C W E σ h -> msum h = all_parts C w σ.
Proof.
  revert E h. induction σ as [|x α σ Hx IH] using map_ind; intros E h H.
  - unfold all_parts. rewrite map_fold_empty. unfold world in H.
    assert (HE : E = ∅).
    { apply map_eq. intros x. rewrite lookup_empty.
      pose proof (hprop_in_entails _ _ (big_sepM2_lookup_iff (fun _ => own C W) E ∅) h H) as Hi.
      specialize (Hi x). destruct (E !! x) eqn:Ex; rewrite ?Ex; [|done]. exfalso.
      assert (is_Some ((∅ : astate) !! x)) as [? He] by (apply Hi; eauto). by rewrite lookup_empty in He. }
    subst E. apply (hprop_in_entails _ _ (bi.equiv_entails_1_1 _ _ (big_sepM2_empty (fun _ => own C W)))) in H.
    change (h = ∅) in H. subst h. apply gsum_empty.
  - apply (hprop_in_entails _ _ (world_delete C W _ _ x α (lookup_insert _ _ _))) in H.
    destruct H as (b'&h0&h1&->&Hd&Hb'&h2&h3&->&Hd'&Ho&H). destruct (apure_inv (_ = Some b') _ Hb') as [-> Hb''].
    rewrite left_id_L gsum_union //. rewrite delete_insert // in H.
    rewrite (own_sum _ _ _ Ho) (IH _ _ H). unfold all_parts.
    rewrite (map_fold_insert_L _ _ x α σ) //. intros. lia.
Qed.
End memory.

(** ** Steps and sums *)
Section astates.
Context (C : cfg) (w : ckind -> otag -> nat).
Lemma all_parts_insert σ x α : σ !! x = None -> all_parts C w (<[x := α]> σ) = parts C w α + all_parts C w σ.
Proof. apply (gsum_insert (parts C w)). Qed.
Lemma all_parts_delete σ x α : σ !! x = Some α -> all_parts C w σ = parts C w α + all_parts C w (delete x σ).
Proof. apply (gsum_delete (parts C w)). Qed.
Lemma all_parts_update σ x α β : σ !! x = Some α -> all_parts C w (<[x := β]> σ) + parts C w α = all_parts C w σ + parts C w β.
Proof. apply (gsum_update (parts C w)). Qed.

(** Only the shape of a value counts. *)
Lemma object_parts_skel n : forall v v' place u, depth v <= n -> skel v' = skel v -> object_parts C w v' place u = object_parts C w v place u.
Proof.
  induction n as [|n IH]; intros v v' place u Hd Hs; [destruct v; simpl in Hd; lia|].
  destruct v as [z ks], v' as [z' ks']. rewrite !object_parts_unfold. f_equal. simpl in Hs. injection Hs as Hs.
  apply depth_UV in Hd. generalize (ut_members (te C u)) as mems. revert ks' Hs Hd.
  induction ks as [|k ks IHks]; intros ks' Hs Hd mems; destruct ks' as [|k' ks']; try done.
  destruct mems as [|tys mems]; [done|]. simpl in *. apply Forall_cons in Hd as [Hd1 Hd].
  injection Hs as H1 H2 H3 H4. rewrite (IHks ks') // H1 H2. f_equal.
  unfold variant_parts. destruct (tys !! _) as [t|]; [|done].
  unfold content_parts. destruct t; by rewrite !(IH k.2 k'.2).
Qed.
Lemma parts_moved tys k v' : moved_from k.2 v' -> parts C w (AVar tys (k.1, v')) = parts C w (AVar tys k).
Proof.
  intros Hm. simpl. unfold variant_parts. destruct (tys !! _) as [t|]; [|done].
  unfold content_parts. destruct t; by rewrite !(object_parts_skel (depth k.2) k.2 v').
Qed.
End astates.

(** ** What is in the trace *)
Definition occ (l : loc) (ls : list loc) : nat := length (filter (fun l' => l' = l) ls).
Lemma occ_cons l l' ls : occ l (l' :: ls) = (if decide (l' = l) then 1 else 0) + occ l ls.
Proof. unfold occ. rewrite filter_cons. by destruct (decide _). Qed.
Lemma occ_perm l ls ls' : ls ≡ₚ ls' -> occ l ls = occ l ls'.
Proof. intros H. unfold occ. by rewrite H. Qed.
Lemma occ_in l ls : occ l ls <> 0 -> l ∈ ls.
Proof.
  induction ls as [|a ls IH]; [done|]. rewrite occ_cons. destruct (decide _) as [->|]; intros H; [left|right; auto].
Qed.
Lemma occ_length ls ls' : (forall l, occ l ls = occ l ls') -> length ls = length ls'.
Proof.
  revert ls'. induction ls as [|a ls IH]; intros ls' H.
  - destruct ls' as [|b ls']; [done|]. specialize (H b). rewrite occ_cons decide_True // in H.
  - assert (a ∈ ls') as Ha. { apply occ_in. rewrite -H occ_cons decide_True //. }
    apply elem_of_Permutation in Ha as [ls2 Hp]. rewrite Hp /=. f_equal. apply IH. intros l.
    specialize (H l). rewrite (occ_perm _ _ _ Hp) !occ_cons in H. lia.
Qed.
Lemma balance_sum (f : cell -> nat) (m : gmap loc cell) : (forall c, f c <= 1) -> forall ls ls',
  (forall l, occ l ls = occ l ls' + match m !! l with Some c => f c | None => 0 end) ->
  length ls = length ls' + gsum f m.
Proof.
  intros Hf. induction m as [|i x m Hi IH] using map_ind; intros ls ls' H.
  - rewrite gsum_empty. rewrite (occ_length ls ls'); [lia|]. intros l. rewrite H lookup_empty. lia.
  - rewrite gsum_insert //. pose proof (Hf x). destruct (f x) as [|[|]] eqn:Ex; [| |lia].
    + apply IH. intros l. rewrite H. destruct (decide (i = l)) as [->|].
      * by rewrite lookup_insert Hi Ex.
      * by rewrite lookup_insert_ne.
    + rewrite (IH ls (i :: ls')); [simpl; lia|]. intros l. rewrite H occ_cons. destruct (decide (i = l)) as [->|].
      * rewrite lookup_insert Hi Ex. lia.
      * by rewrite lookup_insert_ne.
Qed.

Definition places (p : event -> bool) (t : list event) : list loc := ev_loc <$> filter (fun e => p e = true) t.
Lemma places_length p t : length (places p t) = count p t.
Proof. unfold places, count. by rewrite fmap_length. Qed.
Lemma places_cons p e t : places p (e :: t) = if p e then ev_loc e :: places p t else places p t.
Proof. unfold places. rewrite filter_cons. by destruct (p e). Qed.

Lemma occ_made k l t :
  occ l (places (fun e => match e with EvC k' _ => bool_decide (k' = k) | _ => false end) t) = cnt (EvC k l) t.
Proof.
  induction t as [|e t IH]; [done|]. rewrite places_cons /=. destruct e as [k' l'|k' l'|a l'|l'];
    try (destruct (decide _) as [Hne|]; [discriminate Hne|exact IH]).
  destruct (bool_decide_reflect (k' = k)) as [->|].
  - rewrite occ_cons IH /=. destruct (decide (l' = l)) as [->|]; [by rewrite decide_True|]. rewrite decide_False //. congruence.
  - rewrite decide_False //. congruence.
Qed.
Lemma occ_gone k l t :
  occ l (places (fun e => match e with EvD k' _ => bool_decide (k' = k) | _ => false end) t) = cnt (EvD k l) t.
Proof.
  induction t as [|e t IH]; [done|]. rewrite places_cons /=. destruct e as [k' l'|k' l'|a l'|l'];
    try (destruct (decide _) as [Hne|]; [discriminate Hne|exact IH]).
  destruct (bool_decide_reflect (k' = k)) as [->|].
  - rewrite occ_cons IH /=. destruct (decide (l' = l)) as [->|]; [by rewrite decide_True|]. rewrite decide_False //. congruence.
  - rewrite decide_False //. congruence.
Qed.
Lemma occ_blocks l t b : block l t = Some b ->
  occ l (places (fun e => match e with EvNew _ _ => true | _ => false end) t) =
  occ l (places (fun e => match e with EvDel _ => true | _ => false end) t) + (match b with BLive => 1 | _ => 0 end).
Proof.
  revert b. induction t as [|e t IH]; intros b H; [simpl in H; injection H as <-; done|].
  rewrite !places_cons. destruct e as [k' l'|k' l'|a l'|l']; simpl in *; try by apply IH.
  - rewrite occ_cons. destruct (decide (l' = l)); [|by rewrite (IH b)].
    destruct (block l t) as [[]|]; try done. injection H as <-. rewrite (IH BNever eq_refl). lia.
  - rewrite occ_cons. destruct (decide (l' = l)); [|by rewrite (IH b)].
    destruct (block l t) as [[]|]; try done. destruct (occupant l t) as [[]|]; try done.
    injection H as <-. rewrite (IH BLive eq_refl). lia.
Qed.

Section history.
Context (C : cfg) (st nb : bool) (eqf ltf : uid -> uval -> uval -> bool) (HC : good_env C st nb).
Notation reached := (reached C st nb eqf ltf).
Notation step := (step C st nb eqf ltf).

Lemma reached_sum w E s σ : reached E s -> shows C (mem s) E σ -> gsum (in_cell w) (mem s) = all_parts C w σ.
Proof.
  intros Hr Hs. destruct (reached_inv _ _ _ _ _ HC _ _ Hr) as (B&σ0&Hi).
  rewrite (shows_unique C _ _ _ _ Hs (inv_shows _ _ _ _ _ _ _ Hi)). destruct Hi. by eapply world_sum.
Qed.
Lemma balance E s σ : reached E s -> shows C (mem s) E σ ->
  (forall k, made k (tr s) = gone k (tr s) + all_parts C (of_type k) σ) /\
  news (tr s) = dels (tr s) + all_parts C in_block σ.
Proof.
  intros Hr Hs. split; [intros k|].
  - rewrite -(reached_sum _ _ _ _ Hr Hs). unfold made, gone. rewrite -!places_length. apply balance_sum.
    + intros c. unfold in_cell, of_type. destruct (cc c); [|lia]. destruct (decide _); lia.
    + intros l. rewrite occ_made occ_gone. destruct (lifetimes _ _ _ _ _ HC _ _ l Hr) as [_ ->]. f_equal.
      unfold tag_at, in_cell, of_type. destruct (mem s !! l) as [c|]; [|done]. destruct (cc c) as [o|]; [|done].
      destruct (decide (tag_of o = k)) as [->|]; [by rewrite decide_True|]. rewrite decide_False //. congruence.
  - rewrite -(reached_sum _ _ _ _ Hr Hs). unfold news, dels. rewrite -!places_length. apply balance_sum.
    + intros c. unfold in_cell, in_block. destruct (cc c); [|lia]. destruct (decide _); lia.
    + intros l. destruct (LifeFacts.blocks _ _ _ _ _ HC _ _ l Hr) as (b&Hb&Hl). rewrite (occ_blocks _ _ _ Hb). f_equal.
      unfold is_block in Hl. destruct (mem s !! l) as [c|] eqn:Ec.
      * pose proof (reached_cells _ _ _ _ _ HC _ _ _ _ Hr Ec) as Hok. unfold cell_ok, in_cell, in_block in *.
        destruct (cc c) as [o|]; [|done]. destruct (decide (ck c = KHeap)).
        -- assert (b = BLive) as -> by (apply Hl; eauto). done.
        -- destruct b; try done. destruct (proj1 Hl eq_refl) as (?&[= ->]&?). done.
      * destruct b; try done. destruct (proj1 Hl eq_refl) as (?&?&?). done.
Qed.

(** What grows and what does not. *)
Lemma count_app p es t : Forall (fun e => p e = false) es -> count p (es ++ t) = count p t.
Proof.
  intros H. unfold count. induction H as [|e es He _ IH]; [done|]. simpl. rewrite filter_cons He. exact IH.
Qed.
Lemma count_up es t : Forall up es ->
  (forall k, gone k (es ++ t) = gone k t) /\ dels (es ++ t) = dels t.
Proof.
  intros H. split; [intros k|]; apply count_app; (eapply Forall_impl; [exact H|]); by intros [].
Qed.
Lemma count_down es t : Forall down es ->
  (forall k, made k (es ++ t) = made k t) /\ news (es ++ t) = news t.
Proof.
  intros H. split; [intros k|]; apply count_app; (eapply Forall_impl; [exact H|]); by intros [].
Qed.

Lemma stands_is E s σ x α : shows C (mem s) E σ -> stands C E s x α -> σ !! x = Some α.
Proof. intros Hs H. destruct α; simpl in H; [by eapply sees_is_var|by eapply sees_obj_is_obj]. Qed.

(** A new variable. *)
Lemma maker_fresh c x D σ : maker c = Some x -> typed C st nb D σ c -> σ !! x = None.
Proof. intros Hm Ht. destruct c; try done; simpl in Hm; injection Hm as ->; unfold typed in Ht; simpl in Ht; tauto. Qed.
Lemma maker_sum w σ c x o σ' : maker c = Some x -> Spec.astep C eqf ltf σ c o σ' -> σ !! x = None ->
  match o with
  | ODone => exists α, σ' !! x = Some α /\ all_parts C w σ' = all_parts C w σ + parts C w α
  | _ => all_parts C w σ' = all_parts C w σ
  end.
Proof.
  intros Hm Ha Hx. destruct Ha; try done; simpl in Hm; injection Hm as ->; try done;
    try (eexists; split; [by rewrite lookup_insert|]; rewrite all_parts_insert //; lia).
  - unfold is_var in *. assert (x <> y) by (intros ->; congruence).
    eexists. split; [by rewrite lookup_insert|]. rewrite all_parts_insert; [|by rewrite lookup_insert_ne].
    pose proof (all_parts_update C w σ y _ (AVar tys (k.1, v')) H). rewrite parts_moved // in H2. lia.
  - unfold is_var in *. pose proof (all_parts_update C w σ y _ (AVar tys (k.1, v')) H). rewrite parts_moved // in H3. lia.
Qed.
Lemma step_trace (P : event -> Prop) c E s E' o s' : step c E s E' o s' -> (forall e, o <> OThrew e) ->
  (forall n, adds P (op C n eqf ltf E c)) -> exists es, tr s' = es ++ tr s /\ Forall P es.
Proof.
  intros (_&_&n&Hy) Ho Hn. specialize (Hy n ltac:(lia)). unfold exec in Hy.
  destruct (op C n eqf ltf E c s) as [[E1 o1] s1|e s1|f] eqn:Eo; [|by injection Hy as _ <- _; destruct (Ho e)|done].
  injection Hy as -> -> ->. by eapply Hn.
Qed.
Lemma is_stands E s σ x α : shows C (mem s) E σ -> σ !! x = Some α -> stands C E s x α.
Proof. intros Hs H. destruct α; simpl; [by eapply is_var_sees|by eapply is_obj_sees]. Qed.
Lemma step_fresh c x E s E' o s' σ : maker c = Some x -> step c E s E' o s' -> shows C (mem s) E σ -> σ !! x = None.
Proof.
  intros Hm (_&(D&σ0&Hs0&Ht&_)&_) Hs. rewrite (shows_unique C _ _ _ _ Hs Hs0). by eapply maker_fresh.
Qed.
Lemma build c x E s E' s' : maker c = Some x -> step c E s E' ODone s' ->
  exists α, stands C E' s' x α /\ builds C s s' α.
Proof.
  intros Hm H. destruct (step_spec _ _ _ _ _ HC _ _ _ _ _ _ H) as (σ&σ'&Hs&Hs'&Ha&_&Hr').
  pose proof (step_fresh _ _ _ _ _ _ _ _ Hm H Hs) as Hx.
  pose proof (fun w => maker_sum w _ _ _ _ _ Hm Ha Hx) as Hsum. simpl in Hsum.
  destruct (Hsum in_block) as (α&Hα&Hb). exists α. split; [by eapply is_stands|].
  destruct (step_trace up c E s E' ODone s' H ltac:(done) ltac:(intros; by eapply up_op)) as (es&Htr&Hes).
  destruct (count_up es (tr s) Hes) as [Hg Hd]. rewrite -Htr in Hg Hd.
  destruct (balance _ _ _ (proj1 H) Hs) as [B1 B2], (balance _ _ _ Hr' Hs') as [B1' B2']. split; [intros k|].
  - destruct (Hsum (of_type k)) as (α'&Hα'&Hk). rewrite Hα in Hα'. injection Hα' as <-.
    split; [|done]. rewrite B1' B1 Hk Hg. unfold objects. lia.
  - split; [|done]. rewrite B2' B2 Hb Hd. unfold CostSpec.blocks. lia.
Qed.
Lemma build_failed c x E s E' e s' : maker c = Some x -> step c E s E' (OThrew e) s' ->
  (forall k, made k (tr s') + gone k (tr s) = gone k (tr s') + made k (tr s)) /\
  news (tr s') + dels (tr s) = dels (tr s') + news (tr s).
Proof.
  intros Hm H. destruct (step_spec _ _ _ _ _ HC _ _ _ _ _ _ H) as (σ&σ'&Hs&Hs'&Ha&_&Hr').
  pose proof (step_fresh _ _ _ _ _ _ _ _ Hm H Hs) as Hx.
  pose proof (fun w => maker_sum w _ _ _ _ _ Hm Ha Hx) as Hsum. simpl in Hsum.
  destruct (balance _ _ _ (proj1 H) Hs) as [B1 B2], (balance _ _ _ Hr' Hs') as [B1' B2']. split; [intros k|].
  - rewrite B1' B1 Hsum. lia.
  - rewrite B2' B2 Hsum. lia.
Qed.
Lemma drop_cost x E s E' o s' α : step (CDrop x) E s E' o s' -> stands C E s x α -> ruins C s s' α.
Proof.
  intros H Hα. destruct (step_spec _ _ _ _ _ HC _ _ _ _ _ _ H) as (σ&σ'&Hs&Hs'&Ha&_&Hr').
  apply (stands_is _ _ _ _ _ Hs) in Hα. inversion Ha; subst.
  destruct (step_trace down (CDrop x) E s E' ODone s' H ltac:(done) ltac:(intros; apply down_op)) as (es&Htr&Hes).
  destruct (count_down es (tr s) Hes) as [Hg Hd]. rewrite -Htr in Hg Hd.
  destruct (balance _ _ _ (proj1 H) Hs) as [B1 B2], (balance _ _ _ Hr' Hs') as [B1' B2'].
  split; [intros k|].
  - split; [done|]. specialize (B1 k). specialize (B1' k). rewrite (all_parts_delete _ _ _ _ _ Hα) in B1. rewrite Hg in B1'.
    unfold objects. lia.
  - split; [done|]. rewrite (all_parts_delete _ _ _ _ _ Hα) in B2. rewrite Hd in B2'. unfold CostSpec.blocks. lia.
Qed.
Lemma step_value x c E s E' s' α : step c E s E' ODone s' -> maker c = Some x ->
  (forall σ σ', shows C (mem s) E σ -> Spec.astep C eqf ltf σ c ODone σ' -> σ' !! x = Some α) -> builds C s s' α.
Proof.
  intros H Hm Hv. destruct (build _ _ _ _ _ _ Hm H) as (α'&Hα'&Hb).
  destruct (step_spec _ _ _ _ _ HC _ _ _ _ _ _ H) as (σ&σ'&Hs&Hs'&Ha&_&Hr').
  specialize (Hv _ _ Hs Ha). rewrite (stands_is _ _ _ _ _ Hs' Hα') in Hv. by injection Hv as <-.
Qed.

Lemma copy_cost x y E s E' s' tys k : step (CCopy x y) E s E' ODone s' -> sees C E s y tys k ->
  builds C s s' (AVar tys (erasev k)).
Proof.
  intros H Hk. eapply step_value; [exact H|done|]. intros σ σ' Hs Ha. apply (sees_is_var _ _ _ _ _ _ _ Hs) in Hk.
  unfold is_var in *. inversion Ha; subst. unfold is_var in *. rewrite lookup_insert. congruence.
Qed.
Lemma move_cost x y E s E' s' tys k : step (CMove x y) E s E' ODone s' -> sees C E s y tys k ->
  builds C s s' (AVar tys (erasev k)).
Proof.
  intros H Hk. eapply step_value; [exact H|done|]. intros σ σ' Hs Ha. apply (sees_is_var _ _ _ _ _ _ _ Hs) in Hk.
  unfold is_var in *. inversion Ha; subst. unfold is_var in *. rewrite lookup_insert. congruence.
Qed.

Lemma up_from n E x tys y mv u a i t : E !! y = Some (BObj u a) -> best_match C tys u i -> tys !! i = Some t ->
  ity_uid t = u -> adds up (op C n eqf ltf E (CFrom x tys y mv)).
Proof.
  intros Hy Hb%best_match_resolve Ht Hu. pose proof (usteady_sem C n) as HS. simpl. unfold need_obj. rewrite Hy.
  apply (adds_new_var up E x tys). intros l. unfold var_from, initialize, indicate_which. rewrite Hb Ht decide_True //.
  apply adds_bind; [|intros; ad]. apply adds_bind; [|intros; ad].
  destruct mv; [by apply up_i_move_from|by apply up_i_copy_from].
Qed.
Lemma from_cost x tys y mv E s E' s' u v i t : step (CFrom x tys y mv) E s E' ODone s' -> sees_obj C E s y u v ->
  best_match C tys u i -> tys !! i = Some t -> ity_uid t = u -> builds C s s' (AVar tys (false, i, erase v)).
Proof.
  intros H Hy Hb Ht Hu. destruct (step_spec _ _ _ _ _ HC _ _ _ _ _ _ H) as (σ&σ'&Hs&Hs'&Ha&_&Hr').
  assert (Hx : σ !! x = None).
  { destruct H as (_&(D&σ0&Hs0&Hty&_)&_). rewrite (shows_unique C _ _ _ _ Hs Hs0). unfold typed in Hty. simpl in Hty. tauto. }
  destruct (step_trace up _ E s E' ODone s' H ltac:(done)) as (es&Htr&Hes).
  { intros n. destruct Hy as (a&Hy&_). by eapply up_from. }
  destruct (count_up es (tr s) Hes) as [Hg Hd]. rewrite -Htr in Hg Hd.
  pose proof (sees_obj_is_obj _ _ _ _ _ _ _ Hs Hy) as Hy'. unfold is_obj in *.
  assert (Hsum : forall w, all_parts C w σ' = all_parts C w σ + parts C w (AVar tys (false, i, erase v))).
  { intros w. inversion Ha; subst.
    match goal with Hyy : is_obj σ y _ _, Hbb : best_match C tys _ ?j, Hoo : operand_after _ _ ?w' |- _ =>
      rename Hyy into Hy0, Hbb into Hb0, Hoo into Hop, w' into v', j into i0 end.
    match goal with Htt : tys !! i0 = Some _ |- _ => rename Htt into Ht0 end.
    unfold is_obj in Hy0. rewrite Hy' in Hy0. injection Hy0 as <- <-.
    pose proof (best_match_unique _ _ _ _ _ Hb Hb0) as <-. rewrite Ht in Ht0. injection Ht0 as <-.
    unfold converted. rewrite decide_True //. assert (x <> y) by (intros ->; congruence).
    rewrite all_parts_insert; [|by rewrite lookup_insert_ne].
    pose proof (all_parts_update C w σ y _ (AObj (ity_uid t) v') Hy') as Hup.
    assert (Hsk : skel v' = skel v) by (destruct mv; simpl in Hop; [done|by subst]).
    simpl in Hup. rewrite (object_parts_skel C w (depth v) v v') // in Hup. lia. }
  destruct (balance _ _ _ (proj1 H) Hs) as [B1 B2], (balance _ _ _ Hr' Hs') as [B1' B2']. split; [intros k|].
  - split; [|done]. rewrite B1' B1 Hsum Hg. unfold objects. lia.
  - split; [|done]. rewrite B2' B2 Hsum Hd. unfold CostSpec.blocks. lia.
Qed.

(** In place. *)
Lemma visit_which {A} tys a w i t (f : sty -> loc -> M A) s : read_which a s = Ok w s -> which_of w = Z.of_nat i ->
  tys !! i = Some t -> visit C tys a f s = f (SInt t) a s \/ visit C tys a f s = f (SBk t) a s.
Proof.
  intros Hw Hi Ht. unfold visit, bind. rewrite Hw Hi (visitation_lookup _ _ i t) //; [|apply (ge_lim _ _ _ HC)].
  destruct (never_uses_backup C tys t); [by left|]. destruct (decide _); auto.
Qed.
Lemma holds_which s tys a k : var_holds C (mem s) tys a k ->
  exists w t, read_which a s = Ok w s /\ tys !! k.1.2 = Some t /\ which_of w = Z.of_nat k.1.2 /\
    w = if k.1.1 then (- Z.of_nat k.1.2 - 1)%Z else Z.of_nat k.1.2.
Proof.
  intros [n H]. unfold see_var in H. destruct (mem s !! a) as [[[] [o|] [w|]]|] eqn:Ea; try done.
  destruct (tys !! _) as [t|] eqn:Ht; [|done].
  destruct (if bool_decide _ then _ else Some o) as [o1|]; [|done]. destruct (content (mem s) t o1) as [o2|]; [|done].
  destruct (see_obj C (mem s) n (ity_uid t) o2) as [v|]; [|done]. injection H as <-. simpl.
  exists w, t. split; [unfold read_which, get_cell, bind; by rewrite Ea|]. split; [done|].
  unfold which_of. case_bool_decide; [rewrite decide_True //|rewrite decide_False //]; split; lia.
Qed.
Lemma quiet_massign S tys a b k1 k2 t s r s' : var_holds C (mem s) tys a k1 -> var_holds C (mem s) tys b k2 ->
  k1.1 = k2.1 -> tys !! k1.1.2 = Some t -> (forall l r, adds no_event (i_massign S t l r)) ->
  var_massign C S tys a b s = Ok r s' -> tr s' = tr s.
Proof.
  intros Ha Hb Hk Ht Hq H.
  destruct (holds_which _ _ _ _ Ha) as (wa&ta&Ra&Hta&Wa&Ea), (holds_which _ _ _ _ Hb) as (wb&tb&Rb&Htb&Wb&Eb).
  rewrite Ht in Hta. injection Hta as <-. assert (wb = wa) as -> by (rewrite Eb Ea Hk; done).
  assert (H' : variant_massign C S tys a b s = Ok r s').
  { unfold var_massign, noexcept_if, noexcept in H. destruct (_ && _); [|done]. by destruct (variant_massign C S tys a b s). }
  unfold variant_massign, bind in H'. rewrite Ra Rb decide_True // in H'.
  assert (exists es, tr s' = es ++ tr s /\ Forall no_event es) as ([|e es]&->&He); [|done|by inversion He].
  destruct (visit_which tys a wa _ _ (move_storage S b) s Ra Wa Ht) as [E|E]; rewrite E /= in H'.
  - by eapply Hq.
  - revert H'. apply (adds_bind no_event); [apply adds_bk_get|]. intros p. apply adds_bind; [apply adds_bk_get|]. done.
Qed.
Lemma quiet_assign S tys a b k1 k2 t s r s' : var_holds C (mem s) tys a k1 -> var_holds C (mem s) tys b k2 ->
  k1.1 = k2.1 -> tys !! k1.1.2 = Some t -> (forall l r, adds no_event (i_cassign S t l r)) ->
  var_assign C S tys a b s = Ok r s' -> tr s' = tr s.
Proof.
  intros Ha Hb Hk Ht Hq H'.
  destruct (holds_which _ _ _ _ Ha) as (wa&ta&Ra&Hta&Wa&Ea), (holds_which _ _ _ _ Hb) as (wb&tb&Rb&Htb&Wb&Eb).
  rewrite Ht in Hta. injection Hta as <-. assert (wb = wa) as -> by (rewrite Eb Ea Hk; done).
  unfold var_assign, bind in H'. rewrite Ra Rb decide_True // in H'.
  assert (exists es, tr s' = es ++ tr s /\ Forall no_event es) as ([|e es]&->&He); [|done|by inversion He].
  destruct (visit_which tys a wa _ _ (assign_storage S b) s Ra Wa Ht) as [E|E]; rewrite E /= in H'.
  - by eapply Hq.
  - revert H'. apply (adds_bind no_event); [apply adds_bk_get|]. intros p. apply adds_bind; [apply adds_bk_get|]. done.
Qed.
(** Types without member variants. *)
Lemma quiet_user n u l r : ut_members (te C u) = [] ->
  adds no_event (us_cassign (sem C n) u l r) /\ adds no_event (us_massign (sem C n) u l r).
Proof.
  intros Hu. assert (Hm : forall f ls rs, adds no_event (assign_members f [] ls rs)).
  { intros f [|? ?] [|? ?]; simpl; ad. }
  split; (destruct n as [|n]; simpl; unfold u_cassign, u_massign; rewrite Hu; ad).
Qed.
Lemma op_done c E s E' s' : step c E s E' ODone s' -> exists n, op C n eqf ltf E c s = Ok (E', ODone) s'.
Proof.
  intros (_&_&n0&Hy). exists n0. specialize (Hy n0 ltac:(lia)). unfold exec in Hy.
  destruct (op C n0 eqf ltf E c s) as [[E1 o1] s1|e s1|f]; [|done..]. by injection Hy as -> -> ->.
Qed.
Lemma wrapped_move x y E s E' s' tys k1 k2 u : step (CMoveAssign x y) E s E' ODone s' ->
  sees C E s x tys k1 -> sees C E s y tys k2 -> k1.1 = k2.1 -> tys !! k1.1.2 = Some (IWrap u) -> tr s' = tr s.
Proof.
  intros H (a&Ea&Ha) (b&Eb&Hb) Hk Ht. destruct (op_done _ _ _ _ _ H) as [n Ho].
  simpl in Ho. unfold need_var, bind in Ho. rewrite Ea Eb /= in Ho.
  destruct (var_massign C (sem C n) tys a b s) as [r s1|e s1|f] eqn:Em; [|done..]. injection Ho as _ <-.
  eapply quiet_massign; [exact Ha|exact Hb|done|done| |exact Em]. intros l r'. simpl. ad.
Qed.
Lemma simple_assign x y (mv : bool) E s E' s' tys k1 k2 t : step (if mv then CMoveAssign x y else CAssign x y) E s E' ODone s' ->
  sees C E s x tys k1 -> sees C E s y tys k2 -> k1.1 = k2.1 -> tys !! k1.1.2 = Some t ->
  ut_members (te C (ity_uid t)) = [] -> tr s' = tr s.
Proof.
  intros H (a&Ea&Ha) (b&Eb&Hb) Hk Ht Hu. destruct mv.
  - destruct (op_done _ _ _ _ _ H) as [n Ho]. simpl in Ho. unfold need_var, bind in Ho. rewrite Ea Eb /= in Ho.
    destruct (var_massign C (sem C n) tys a b s) as [r s1|e s1|f] eqn:Em; [|done..]. injection Ho as _ <-.
    eapply quiet_massign; [exact Ha|exact Hb|done|done| |exact Em]. intros l r'. destruct t as [u|u]; simpl in *; ad.
    apply (quiet_user n u); done.
  - destruct (op_done _ _ _ _ _ H) as [n Ho]. simpl in Ho. unfold need_var, bind in Ho. rewrite Ea Eb /= in Ho.
    destruct (var_assign C (sem C n) tys a b s) as [r s1|e s1|f] eqn:Em; [|done..]. injection Ho as _ <-.
    eapply quiet_assign; [exact Ha|exact Hb|done|done| |exact Em]. intros l r'. destruct t as [u|u]; simpl in *; ad;
    apply (quiet_user n u); done.
Qed.
End history.
