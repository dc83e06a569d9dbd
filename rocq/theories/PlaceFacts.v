(** Where contents are (proofs). *)
From stdpp Require Import gmap.
From iris.proofmode Require Import tactics.
From Verif Require Import Base Types TypesFacts Dispatch Variant Sem Values ValuesFacts Client Observe ObserveFacts Spec Trace History Owned OwnedFacts.
From Verif Require Import Heap Wp Rep SpecQuery Link World ClientProof Levels HistoryProof Reach ReachFacts CoreFacts LifeFacts PlaceSpec SpecInt SpecVar SpecAssign SpecSwap SpecConv SpecSem PlaceProof.

(** ** What a name owns does not depend on the depth looked at *)
Section owned_mono.
Context (C : cfg) (m : gmap loc cell).
Definition ole (f g : uid -> obj -> option (list loc)) : Prop := forall u o ls, f u o = Some ls -> g u o = Some ls.
Lemma owned_by_mono f g t o ls : ole f g -> owned_by m f t o = Some ls -> owned_by m g t o = Some ls.
Proof.
  intros H. destruct t; simpl; [apply H|]. destruct o; try done. destruct (heap_obj m p) as [o'|]; [|done].
  destruct (f u o') as [r|] eqn:E; [|done]. by rewrite (H _ _ _ E).
Qed.
Lemma owned_var_mono f g tys a ls : ole f g -> owned_var m f tys a = Some ls -> owned_var m g tys a = Some ls.
Proof.
  intros H. unfold owned_var. destruct (m !! a) as [[? [o|] [w|]]|]; try done. case_bool_decide.
  - destruct (tys !! _) as [t|]; [|done]. destruct o as [| |? [p|]| |]; try done. destruct (heap_obj m p) as [o'|]; [|done].
    destruct (owned_by m f t o') as [r|] eqn:E; [|done]. by rewrite (owned_by_mono _ _ _ _ _ H E).
  - destruct (tys !! _) as [t|]; [|done].
    destruct (owned_by m f t o) as [r|] eqn:E; [|done]. by rewrite (owned_by_mono _ _ _ _ _ H E).
Qed.
Lemma owned_all_mono f g mems : ole f g -> forall ls r,
  owned_all (owned_var m f) mems ls = Some r -> owned_all (owned_var m g) mems ls = Some r.
Proof.
  intros H. induction mems as [|tys mems IH]; intros [|l ls] r; simpl; try done.
  destruct (owned_var m f tys l) as [r1|] eqn:E1; [|done]. rewrite (owned_var_mono _ _ _ _ _ H E1).
  destruct (owned_all (owned_var m f) mems ls) as [r2|] eqn:E2; [|done]. by rewrite (IH _ _ E2).
Qed.
Lemma owned_obj_mono n n' : n <= n' -> ole (owned_obj C m n) (owned_obj C m n').
Proof.
  revert n'. induction n as [|n IH]; intros n' Hn u o ls; [done|]. destruct n' as [|n']; [lia|]. simpl.
  destruct o; try done. apply owned_all_mono, IH. lia.
Qed.
Lemma owned_bnd_mono n n' b ls : n <= n' -> owned_bnd C m n b = Some ls -> owned_bnd C m n' b = Some ls.
Proof.
  intros Hn. destruct b as [tys a|u a]; simpl.
  - by apply owned_var_mono, owned_obj_mono.
  - destruct (m !! a) as [[? [o|] ?]|]; try done.
    destruct (owned_obj C m n u o) as [r|] eqn:E; [|done]. by rewrite (owned_obj_mono _ _ Hn _ _ _ E).
Qed.
End owned_mono.

(** ** A command that does not mention a name *)
Section frame.
Context (C : cfg) (st nb : bool) (eqf ltf : uid -> uval -> uval -> bool).
Context (HC : good_env C st nb).
Notation W := (WPar st nb).
Notation reached := (reached C st nb eqf ltf).
Notation step := (step C st nb eqf ltf).
Let Hwf : wf_env C W := good_env_wf C st nb HC.


(** What is needed of the variables depends on those mentioned. *)
Definition agree {A} (l : list name) (m m' : gmap name A) : Prop := forall x, x ∈ l -> m' !! x = m !! x.
Lemma agree_cons {A} x l (m m' : gmap name A) : agree (x :: l) m m' -> m' !! x = m !! x /\ agree l m m'.
Proof. intros H. split; [apply H; by left|]. intros y Hy. apply H. by right. Qed.
Lemma agree_delete {A} l z (m : gmap name A) : z ∉ l -> agree l m (delete z m).
Proof. intros Hz x Hx. apply lookup_delete_ne. by intros ->. Qed.
Ltac agrees H := repeat (apply agree_cons in H as [? H]).

Lemma typed_agree D σ σ' c : agree (names c) σ σ' -> typed C st nb D σ c -> typed C st nb D σ' c.
Proof.
  intros H. unfold typed. destruct c; simpl in *; unfold is_var, is_obj; try (agrees H;
    repeat match goal with H : σ' !! _ = σ !! _ |- _ => setoid_rewrite H; clear H end; done).
  apply agree_cons in H as [Hx H]. intros [Hn Hf]. split; [by etrans; [exact Hx|]|].
  revert H. induction Hf as [|y tys l l' Hy Hf IH]; intros H; constructor.
  - apply agree_cons in H as [Hy' _]. destruct Hy as [k Hk]. exists k. by etrans; [exact Hy'|].
  - apply IH. by apply agree_cons in H as [_ H].
Qed.
Lemma unparked_agree σ σ' c : agree (names c) σ σ' -> unparked C σ c -> unparked C σ' c.
Proof.
  intros H. destruct c; simpl in *; unfold is_var, is_obj; try done; agrees H;
    repeat match goal with H : σ' !! _ = σ !! _ |- _ => setoid_rewrite H; clear H end; done.
Qed.

(** A computation of variables and an outcome, and the same after removing [z]. *)
Definition drops (z : name) (m m' : M (env * out)) : Prop :=
  forall s, m' s = match m s with Ok (E, o) s' => Ok (delete z E, o) s' | Exn e s' => Exn e s' | Fault f => Fault f end.
Lemma drops_bind {A} z (m : M A) f f' : (forall a, drops z (f a) (f' a)) -> drops z (bind m f) (bind m f').
Proof. intros H s. unfold bind. destruct (m s); [apply H|done..]. Qed.
Lemma drops_ret z E o : drops z (ret (E, o)) (ret (delete z E, o)).
Proof. done. Qed.
Lemma drops_new z E x b o : x <> z -> drops z (ret (<[x := b]> E, o)) (ret (<[x := b]> (delete z E), o)).
Proof. intros Hx s. simpl. by rewrite delete_insert_ne. Qed.
Lemma drops_del z E x o : drops z (ret (delete x E, o)) (ret (delete x (delete z E), o)).
Proof. intros s. simpl. by rewrite delete_commute. Qed.
Lemma drops_faulty z f : drops z (faulty f) (faulty f).
Proof. done. Qed.
Lemma need_var_other E z x : x <> z -> need_var (delete z E) x = need_var E x.
Proof. intros Hx. unfold need_var. by rewrite lookup_delete_ne. Qed.
Lemma need_obj_other E z x : x <> z -> need_obj (delete z E) x = need_obj E x.
Proof. intros Hx. unfold need_obj. by rewrite lookup_delete_ne. Qed.
Lemma need_fresh_other E z x : x <> z -> need_fresh (delete z E) x = need_fresh E x.
Proof. intros Hx. unfold need_fresh. by rewrite lookup_delete_ne. Qed.
Lemma need_vars_other E z xs : z ∉ xs -> need_vars (delete z E) xs = need_vars E xs.
Proof.
  induction xs as [|x xs IH]; intros Hz; [done|]. apply not_elem_of_cons in Hz as [Hx Hz]. simpl.
  rewrite need_var_other; [|done]. by rewrite IH.
Qed.
Lemma op_other n E z c : z ∉ names c -> drops z (op C n eqf ltf E c) (op C n eqf ltf (delete z E) c).
Proof.
  intros Hz. destruct c; simpl in Hz;
    repeat match goal with H : _ ∉ _ :: _ |- _ => apply not_elem_of_cons in H as [? H] end;
    unfold op, new_var; rewrite ?need_fresh_other ?need_var_other ?need_obj_other ?need_vars_other; try done;
    repeat first
    [ apply drops_ret | apply drops_del | apply drops_faulty | apply drops_new; done
    | apply drops_bind; intros
    | match goal with |- drops _ (match ?x with _ => _ end) (match ?x with _ => _ end) => destruct x end ].
  assert (Hl : (delete z E : env) !! x = E !! x) by (by apply lookup_delete_ne). rewrite Hl.
  destruct (E !! x) as [[tys a|u a]|]; repeat first [apply drops_del | apply drops_faulty | apply drops_bind; intros].
Qed.

Lemma step_frame c E s E' o s' z b : step c E s E' o s' -> z ∉ names c -> E !! z = Some b ->
  exists α h B, own C W b α h /\ aok1 C W B α /\ h ⊆ mem s /\ h ⊆ mem s'.
Proof.
  intros (Hr&(D&σ0&Hsh&Ht&Hu)&n0&Hy) Hz Hb.
  destruct (reached_inv _ _ _ _ _ HC _ _ Hr) as (B&σ&Hi). pose proof (inv_shows _ _ _ _ _ _ _ Hi) as Hs.
  rewrite (shows_unique _ _ _ _ _ Hsh Hs) in Ht Hu. destruct Hi as [Hw Ha Hg]. clear Hsh σ0.
  assert (exists α, σ !! z = Some α) as [α Hα].
  { pose proof (hprop_in_entails _ _ (big_sepM2_lookup_iff (fun _ => own C W) E σ) _ Hw) as Hi.
    specialize (Hi z). rewrite Hb in Hi. apply Hi. eauto. }
  apply (hprop_in_entails _ _ (world_delete C W _ σ z α Hα)) in Hw.
  destruct Hw as (b'&h0&h1&Hm&_&Hb'&h2&h3&->&Hd'&Ho&Hw). destruct (apure_inv (_ = Some b') _ Hb') as [-> Hb''].
  rewrite Hb in Hb''. injection Hb'' as <-. rewrite left_id_L in Hm.
  set (n := n0 `max` B `max` D). exists α, h2, B. split; [done|]. split; [by eapply Ha|].
  split; [rewrite Hm; apply map_union_subseteq_l|].
  pose proof (op_ok C st nb Hwf eqf ltf n D (B `max` D)) as Hop.
  specialize (Hop ltac:(unfold n; lia) ltac:(lia) (delete z E) (delete z σ)).
  assert (Ha' : aok C W (B `max` D) (delete z σ)). { apply aok_delete. eapply aok_mono; [|done]. lia. }
  specialize (Hop Ha' c (typed_agree _ _ _ _ (agree_delete _ _ _ Hz) Ht) (unparked_agree _ _ _ (agree_delete _ _ _ Hz) Hu)).
  apply (hprop_in_entails _ _ Hop) in Hw. apply wp_unfold in Hw.
  rewrite map_union_comm // in Hm. specialize (Hw s h2 Hm ltac:(done) Hg).
  specialize (Hy n ltac:(unfold n; lia)). unfold exec in Hy. pose proof (op_other n E z c Hz s) as Hoth.
  rewrite Hoth in Hw. clear Hoth.
  assert (Hgoal : forall h', mem s' = h' ∪ h2 -> h' ##ₘ h2 -> h2 ⊆ mem s').
  { intros h' -> Hd. by apply map_union_subseteq_r. }
  destruct (op C n eqf ltf E c s) as [[E1 o1] s1|e s1|f]; [| |done].
  - injection Hy as -> -> ->. destruct Hw as (h'&Hm'&Hdd&_). by eapply Hgoal.
  - injection Hy as -> <- ->. destruct Hw as (h'&Hm'&Hdd&_). by eapply Hgoal.
Qed.

Lemma own_owns b α h B m l : own C W b α h -> aok1 C W B α -> h ⊆ m -> (owns C m b l <-> is_Some (h !! l)).
Proof.
  intros Ho Ha Hs. split.
  - intros (n&ls&Hls&Hl). destruct (own_owned C W m (n `max` B) b α h B) as (ls'&E1&_&H1); [done..|lia|].
    rewrite (owned_bnd_mono C _ n _ b ls) in E1; [|lia|done]. injection E1 as <-. by apply H1.
  - intros Hl. destruct (own_owned C W m B b α h B) as (ls'&E1&_&H1); [done..|].
    exists B, ls'. split; [done|]. by apply H1.
Qed.

Lemma others_owned c E s E' o s' z b : step c E s E' o s' -> z ∉ names c -> E !! z = Some b ->
  E' !! z = Some b /\ forall l, (owns C (mem s') b l <-> owns C (mem s) b l) /\
    (owns C (mem s) b l -> mem s' !! l = mem s !! l).
Proof.
  intros H Hz Hb. destruct (step_frame _ _ _ _ _ _ _ _ H Hz Hb) as (α&h&B&Ho&Ha&Hs&Hs').
  split; [destruct (others _ _ _ _ _ HC _ _ _ _ _ _ _ H Hz) as [-> _]; done|].
  intros l. pose proof (own_owns _ _ _ _ _ l Ho Ha Hs) as H1. pose proof (own_owns _ _ _ _ _ l Ho Ha Hs') as H2.
  split; [by rewrite H1 H2|]. rewrite H1. intros [c0 Hc]. 
  rewrite (lookup_weaken _ _ _ _ Hc Hs). by apply (lookup_weaken _ _ _ _ Hc).
Qed.

(** The content's address. *)
Lemma stored_fun m a l l' : stored_at m a l -> stored_at m a l' -> l' = l.
Proof.
  intros (o&w&Ha&Hl) (o'&w'&Ha'&Hl'). rewrite Ha in Ha'. injection Ha' as <- <-.
  assert (Hc : forall ob q, content_in ob q l -> content_in ob q l' -> l' = l).
  { intros ob q. destruct ob; simpl; try done; congruence. }
  destruct o as [| |t [p|]| |]; try by eapply Hc.
  destruct Hl as (o&Hp&Hl), Hl' as (o'&Hp'&Hl'). rewrite Hp in Hp'. injection Hp' as <-. by eapply Hc.
Qed.
Lemma Rvar_stored tys a k h m : Rvar C W tys a k h -> h ⊆ m -> exists l, stored_at m a l /\
  forall m', h ⊆ m' -> stored_at m' a l.
Proof.
  intros HR Hs. apply (hprop_in_entails _ _ (Rvar_open_stored C W (ge_lim _ _ _ HC) tys a k)) in HR.
  destruct HR as (t&l&kd&w&h3&h4&->&_&Htt&_&Hst&_). destruct (apure_inv (tys !! k.1.2 = Some t) _ Htt) as [-> _].
  rewrite left_id_L in Hs. exists l. split; [by apply Hst|]. intros m'. rewrite left_id_L. apply Hst.
Qed.
Lemma others_content c E s E' o s' z l : step c E s E' o s' -> z ∉ names c ->
  content_at E s z l -> content_at E' s' z l.
Proof.
  intros H Hz (tys&a&Hb&Hl). destruct (step_frame _ _ _ _ _ _ _ _ H Hz Hb) as (α&h&B&Ho&Ha&Hs&Hs').
  exists tys, a. split; [destruct (others _ _ _ _ _ HC _ _ _ _ _ _ _ H Hz) as [-> _]; done|].
  destruct α as [tys' k|]; [|done]. destruct Ho as (h1&h2&->&_&Ht&HR).
  destruct (apure_inv (tys' = tys) _ Ht) as [-> ->]. rewrite left_id_L in Hs, Hs'.
  destruct (Rvar_stored _ _ _ _ _ HR Hs) as (l'&Hst&Hst'). 
  rewrite (stored_fun _ _ _ _ Hst Hl). by apply Hst'.
Qed.

Lemma without_owned z E s E' s' b : without C st nb eqf ltf z E s E' s' -> E !! z = Some b ->
  E' !! z = Some b /\ forall l, (owns C (mem s') b l <-> owns C (mem s) b l) /\
    (owns C (mem s) b l -> mem s' !! l = mem s !! l).
Proof.
  induction 1 as [E s|c E s E1 o s1 E2 s2 H Hz _ IH]; [done|]. intros Hb.
  destruct (others_owned _ _ _ _ _ _ _ _ H Hz Hb) as [Hb1 H1]. destruct (IH Hb1) as [Hb2 H2].
  split; [done|]. intros l. destruct (H1 l) as [E1' F1], (H2 l) as [E2' F2]. split; [by rewrite E2'|].
  intros Hl. rewrite F2; [by apply F1|by apply E1'].
Qed.
Lemma without_content z E s E' s' l : without C st nb eqf ltf z E s E' s' ->
  content_at E s z l -> content_at E' s' z l.
Proof.
  induction 1 as [E s|c E s E1 o s1 E2 s2 H Hz _ IH]; [done|]. intros Hl. apply IH. by eapply others_content.
Qed.

(** ** Commands that keep the content of what they mention in place *)
Definition env_kept (c : cmd) : bool :=
  match c with
  | CAssign _ _ | CMoveAssign _ _ | CAssignFrom _ _ _ | CAssignConvert _ _ _ | CSwap _ _ | CPoke _ _ _
  | CSetChild _ _ _ _ => true
  | _ => false
  end.
Lemma op_env n E c : env_kept c = true -> outs (fun r => r.1 = E) (op C n eqf ltf E c).
Proof.
  intros Hc. destruct c; try done; unfold op; repeat first [apply outs_ret; done|apply outs_bind; intros].
Qed.

Lemma by_wp {A} c E s E' o s' (I J : A -> hprop) : step c E s E' o s' -> env_kept c = true ->
  (forall n B D σ, B <= S n -> D <= B -> aok C W B σ -> typed C st nb D σ c -> unparked C σ c ->
     shows C (mem s) E σ ->
     world C W E σ ⊢ ∃ z, I z ∧ wp W (op C n eqf ltf E c) (λ _, J z) (λ _, J z)) ->
  E' = E /\ exists z h h', I z h /\ h ⊆ mem s /\ J z h' /\ h' ⊆ mem s'.
Proof.
  intros (Hr&(D&σ0&Hsh&Ht&Hu)&n0&Hy) Hc Hw0.
  destruct (reached_inv _ _ _ _ _ HC _ _ Hr) as (B&σ&Hi). pose proof (inv_shows _ _ _ _ _ _ _ Hi) as Hs.
  rewrite (shows_unique _ _ _ _ _ Hsh Hs) in Ht Hu. destruct Hi as [Hw Ha Hg]. clear Hsh σ0.
  set (n := n0 `max` B `max` D).
  specialize (Hw0 n (B `max` D) D σ ltac:(unfold n; lia) ltac:(lia)).
  specialize (Hw0 ltac:(eapply aok_mono; [|done]; lia) Ht Hu Hs).
  apply (hprop_in_entails _ _ Hw0) in Hw. destruct Hw as (z&HI&Hw). apply wp_unfold in Hw.
  specialize (Hw s ∅). rewrite right_id_L in Hw. specialize (Hw eq_refl (map_disjoint_empty_r _) Hg).
  specialize (Hy n ltac:(unfold n; lia)). unfold exec in Hy.
  destruct (op C n eqf ltf E c s) as [[E1 o1] s1|e s1|f] eqn:Hop; [| |done].
  - injection Hy as -> -> ->. pose proof (op_env n E c Hc _ _ _ Hop) as He. simpl in He. split; [done|].
    destruct Hw as (h'&Hm'&_&_&_&HJ). exists z, (mem s), h'. rewrite right_id_L in Hm'. rewrite Hm'. done.
  - injection Hy as -> <- ->. split; [done|].
    destruct Hw as (h'&Hm'&_&_&_&HJ). exists z, (mem s), h'. rewrite right_id_L in Hm'. rewrite Hm'. done.
Qed.

Lemma stored_have a l l' h m : stored a l h -> h ⊆ m -> stored_at m a l' -> l' = l.
Proof. intros H Hs. apply stored_fun. by apply H. Qed.

#[local] Instance stay_absorbing a l b r : Absorbing (stay a l b r).
Proof. unfold stay. apply _. Qed.
#[local] Instance moved_absorbing t a l b r : Absorbing (moved_to t a l b r).
Proof. unfold moved_to. destruct (wraps t); apply _. Qed.

Lemma sem_okk n B : B <= S n -> usem_ok C W B (sem C n).
Proof. apply sem_ok. apply Hwf. Qed.


(** Commands with two variants. *)
Lemma place_two c (f : nat -> list ity -> loc -> loc -> M unit) (sw : bool) x y E s E' o s' tys k1 k2 :
  step c E s E' o s' -> env_kept c = true ->
  (forall n E, op C n eqf ltf E c = bind (need_var E x) (fun p => bind (need_var E y) (fun q =>
     bind (f n p.1 p.2 q.2) (fun _ => ret (E, ODone))))) ->
  sees C E s x tys k1 -> sees C E s y tys k2 ->
  (forall n B a, B <= S n -> depth k1.2 <= B -> x = y ->
     Rvar C W tys a k1 ⊢ ∃ l, stored a l ∧ wp W (f n tys a a) (λ _, stored a l) (λ _, stored a l)) ->
  (forall n B σ a b, B <= S n -> depth k1.2 <= B -> depth k2.2 <= B -> x <> y -> unparked C σ c ->
     is_var σ x tys k1 -> is_var σ y tys k2 ->
     Rvar C W tys a k1 ∗ Rvar C W tys b k2 ⊢ ∃ l r, stay a l b r ∧
       wp W (f n tys a b) (λ _, if sw then stay a r b l else stay a l b r) (λ _, if sw then stay a r b l else stay a l b r)) ->
  E' = E /\ forall l r, content_at E s x l -> content_at E s y r ->
    content_at E' s' x (if sw then r else l) /\ content_at E' s' y (if sw then l else r).
Proof.
  intros H Hc Hop Hx Hy Hself Hboth. destruct Hx as (a&Ha&Hva), Hy as (b&Hb&Hvb).
  destruct (by_wp (A:=loc*loc) _ _ _ _ _ _ (fun z => stay a z.1 b z.2)
    (fun z => if sw then stay a z.2 b z.1 else stay a z.1 b z.2) H) as (->&z&h&h'&HI&Hs&HJ&Hs'); [done| |].
  - intros n B D σ HB HD Hσ Hty Hu Hsh. rewrite Hop.
    assert (Hx : is_var σ x tys k1) by (eapply sees_is_var; [done|by exists a]).
    assert (Hy : is_var σ y tys k2) by (eapply sees_is_var; [done|by exists b]).
    destruct (Hσ _ _ Hx) as [_ Hd1]. destruct (Hσ _ _ Hy) as [_ Hd2].
    iIntros "H". simpl. destruct (decide (x = y)) as [Hxy|Hxy].
    + subst y. iDestruct (world_var with "H") as (a') "(%Ha' & Hk & H)"; [exact Hx|].
      assert (a' = a) as -> by congruence. assert (b = a) as -> by congruence.
      iDestruct (Hself n B a with "Hk") as (l) "Hz"; [done..|]. iExists (l, l). iSplit.
      * iDestruct "Hz" as "[Hz _]". simpl. iSplit; iApply "Hz".
      * iDestruct "Hz" as "[_ Hz]". wpb. iApply wp_need_var; [done|]. wpb. iApply wp_need_var; [done|]. simpl. wpb.
        iApply (wp_wand with "Hz"). iSplit.
        -- iIntros ([]) "Hz". iApply wp_ret. simpl. destruct sw; (iSplit; iApply "Hz").
        -- iIntros (e) "Hz". destruct sw; (iSplit; iApply "Hz").
    + iDestruct (world_var2 with "H") as (a' b') "([%Ha' %Hb'] & Hk1 & Hk2 & H)"; [exact Hxy|exact Hx|exact Hy|].
      assert (a' = a) as -> by congruence. assert (b' = b) as -> by congruence.
      iDestruct (Hboth n B σ a b with "[$Hk1 $Hk2]") as (l r) "Hz"; [done..|].
      iExists (l, r). iSplit; [iDestruct "Hz" as "[Hz _]"; iApply "Hz"|].
      iDestruct "Hz" as "[_ Hz]". wpb. iApply wp_need_var; [done|]. wpb. iApply wp_need_var; [done|]. simpl. wpb.
      iApply (wp_wand with "Hz"). iSplit.
      * iIntros ([]) "Hz". iApply wp_ret. destruct sw; iApply "Hz".
      * iIntros (e) "Hz". destruct sw; iApply "Hz".
  - split; [done|]. destruct HI as [HI1 HI2]. intros l r (tys1&a1&Ha1&Hl) (tys2&b1&Hb1&Hr).
    rewrite Ha in Ha1. injection Ha1 as <- <-. rewrite Hb in Hb1. injection Hb1 as <- <-.
    rewrite (stored_have _ _ _ _ _ HI1 Hs Hl) (stored_have _ _ _ _ _ HI2 Hs Hr).
    destruct sw; destruct HJ as [HJ1 HJ2]; (split; [exists tys, a|exists tys, b]); (split; [done|]); [by apply HJ1|by apply HJ2|by apply HJ1|by apply HJ2].
Qed.

Lemma place_assign x y E s E' o s' tys k1 k2 : step (CAssign x y) E s E' o s' ->
  sees C E s x tys k1 -> sees C E s y tys k2 -> k1.1 = k2.1 ->
  E' = E /\ forall l r, content_at E s x l -> content_at E s y r -> content_at E' s' x l /\ content_at E' s' y r.
Proof.
  intros H Hx Hy Hk. eapply (place_two _ (fun n => var_assign C (sem C n)) false); [exact H|done|done|exact Hx|exact Hy|..].
  - intros n B a HB Hd _. eapply (var_assign_self_place _ _ Hwf _ _ (sem_okk n B HB)). done.
  - intros n B σ a b HB Hd1 Hd2 Hxy Hu Hvx Hvy.
    apply (var_assign_place _ _ Hwf _ _ (sem_okk n B HB)); [done|done|by eapply Hu|done].
Qed.
Lemma place_move x y E s E' o s' tys k1 k2 t : step (CMoveAssign x y) E s E' o s' ->
  sees C E s x tys k1 -> sees C E s y tys k2 -> k1.1 = k2.1 -> tys !! k1.1.2 = Some t ->
  E' = E /\ forall l r, content_at E s x l -> content_at E s y r ->
    content_at E' s' x (if wraps t then r else l) /\ content_at E' s' y (if wraps t then l else r).
Proof.
  intros H Hx Hy Hk Ht. eapply (place_two _ (fun n => var_massign C (sem C n)) (wraps t)); [exact H|done|done|exact Hx|exact Hy|..].
  - intros n B a HB Hd _. eapply (var_massign_self_place _ _ Hwf _ _ (sem_okk n B HB)). done.
  - intros n B σ a b HB Hd1 Hd2 Hxy Hu Hvx Hvy.
    apply (var_massign_place _ _ Hwf _ _ (sem_okk n B HB)); [done|done|by eapply Hu|done|done].
Qed.
Lemma place_swap x y E s E' o s' tys k1 k2 : step (CSwap x y) E s E' o s' ->
  sees C E s x tys k1 -> sees C E s y tys k2 -> k1.1.2 = k2.1.2 ->
  E' = E /\ forall l r, content_at E s x l -> content_at E s y r -> content_at E' s' x l /\ content_at E' s' y r.
Proof.
  intros H Hx Hy Hk. eapply (place_two _ (fun n => var_swap C (sem C n)) false); [exact H|done|done|exact Hx|exact Hy|..].
  - intros n B a HB Hd _. eapply (var_swap_self_place _ _ Hwf _ _ (sem_okk n B HB)). done.
  - intros n B σ a b HB Hd1 Hd2 Hxy Hu Hvx Hvy. destruct (Hu Hxy _ _ _ Hvx Hvy) as [Hu1 Hu2].
    apply (var_swap_place _ _ Hwf _ _ (sem_okk n B HB)); [done|done|done|]. unfold swap_pre. rewrite decide_True //. by apply Hu1.
Qed.

(** Commands with a variant and an object. *)
Lemma place_one c (f : nat -> list ity -> loc -> uid -> loc -> M unit) x y E s E' o s' tys k u v :
  step c E s E' o s' -> env_kept c = true ->
  (forall n E, op C n eqf ltf E c = bind (need_var E x) (fun p => bind (need_obj E y) (fun q =>
     bind (f n p.1 p.2 q.1 q.2) (fun _ => ret (E, ODone))))) ->
  sees C E s x tys k -> sees_obj C E s y u v ->
  (forall n B σ a b, B <= S n -> depth k.2 <= B -> depth v <= B -> unparked C σ c -> is_obj σ y u v ->
     Rvar C W tys a k ∗ tobj C W b KStk None u v ⊢ ∃ l, stored a l ∧
       wp W (f n tys a u b) (λ _, stored a l) (λ _, stored a l)) ->
  E' = E /\ forall l, content_at E s x l -> content_at E' s' x l.
Proof.
  intros H Hc Hop Hx Hy Hboth. destruct Hx as (a&Ha&Hva), Hy as (b&Hb&Hvb).
  destruct (by_wp (A:=loc) _ _ _ _ _ _ (fun z => stored a z) (fun z => stored a z) H) as (->&z&h&h'&HI&Hs&HJ&Hs'); [done| |].
  - intros n B D σ HB HD Hσ Hty Hu Hsh. rewrite Hop.
    assert (Hx : is_var σ x tys k) by (eapply sees_is_var; [done|by exists a]).
    assert (Hy : is_obj σ y u v) by (eapply sees_obj_is_obj; [done|by exists b]).
    destruct (Hσ _ _ Hx) as [_ Hd1]. pose proof (Hσ _ _ Hy) as Hd2. simpl in Hd2.
    iIntros "H". simpl.
    iDestruct (world_var_obj with "H") as (a' b') "([%Ha' %Hb'] & Hk1 & Hk2 & H)"; [exact Hx|exact Hy|].
    assert (a' = a) as -> by congruence. assert (b' = b) as -> by congruence.
    iDestruct (Hboth n B σ a b with "[$Hk1 $Hk2]") as (l) "Hz"; [done..|].
    iExists l. iSplit; [iDestruct "Hz" as "[Hz _]"; iApply "Hz"|].
    iDestruct "Hz" as "[_ Hz]". wpb. iApply wp_need_var; [done|]. wpb. iApply wp_need_obj; [done|]. simpl. wpb.
    iApply (wp_wand with "Hz"). iSplit.
    + iIntros ([]) "Hz". iApply wp_ret. iApply "Hz".
    + iIntros (e) "Hz". iApply "Hz".
  - split; [done|]. intros l (tys1&a1&Ha1&Hl).
    rewrite Ha in Ha1. injection Ha1 as <- <-. rewrite (stored_have _ _ _ _ _ HI Hs Hl).
    exists tys, a. split; [done|]. by apply HJ.
Qed.
Lemma place_assign_from x y mv E s E' o s' tys k t v : step (CAssignFrom x y mv) E s E' o s' ->
  sees C E s x tys k -> tys !! k.1.2 = Some t -> sees_obj C E s y (ity_uid t) v ->
  E' = E /\ forall l, content_at E s x l -> content_at E' s' x l.
Proof.
  intros H Hx Ht Hy.
  eapply (place_one _ (fun n tys a u b => var_assign_from C (sem C n) tys a u b mv)); [exact H|done|done|exact Hx|exact Hy|].
  intros n B σ a b HB Hd1 Hd2 Hu Ho.
  apply (var_assign_from_place _ _ Hwf _ _ (sem_okk n B HB)); [done|done|by eapply Hu|done].
Qed.
Lemma place_poke x u y E s E' o s' tys k v : step (CPoke x u y) E s E' o s' ->
  sees C E s x tys k -> sees_obj C E s y u v ->
  E' = E /\ forall l, content_at E s x l -> content_at E' s' x l.
Proof.
  intros H Hx Hy.
  eapply (place_one _ (fun n tys a u' b => var_poke C (sem C n) tys a u b)); [exact H|done|done|exact Hx|exact Hy|].
  intros n B σ a b HB Hd1 Hd2 Hu Ho.
  apply (var_poke_place _ _ Hwf _ _ (sem_okk n B HB)); [done|done|by eapply Hu].
Qed.
Lemma place_set_child x u j y E s E' o s' tys k : step (CSetChild x u j y) E s E' o s' ->
  sees C E s x tys k -> E' = E /\ forall l, content_at E s x l -> content_at E' s' x l.
Proof.
  intros H Hx. destruct Hx as (a&Ha&Hva).
  destruct (by_wp (A:=loc) _ _ _ _ _ _ (fun z => stored a z) (fun z => stored a z) H) as (->&z&h&h'&HI&Hs&HJ&Hs'); [done| |].
  - intros n B D σ HB HD Hσ Hty Hu Hsh. destruct Hty as (Hxy&tys0&k0&tys'&ky&Hx0&Hj&Hy).
    assert (Hx : is_var σ x tys k) by (eapply sees_is_var; [done|by exists a]).
    assert (tys0 = tys /\ k0 = k) as [-> ->] by (unfold Spec.is_var in *; split; congruence).
    destruct (Hσ _ _ Hx) as [_ Hd1]. destruct (Hσ _ _ Hy) as [Hty' Hd2]. pose proof (sem_okk n B HB) as Hok.
    iIntros "H". simpl.
    iDestruct (world_var2 with "H") as (a' b) "([%Ha' %Hb'] & Hk1 & Hk2 & H)"; [exact Hxy|exact Hx|exact Hy|].
    assert (a' = a) as -> by congruence.
    iDestruct (Rvar_split with "Hk1") as (t l kl wl) "(%Ht & Ha & Hl)". iExists l.
    iSplit; [iApply (spine_stored with "[$Ha $Hl]")|].
    wpb. iApply wp_need_var; [done|]. wpb. iApply wp_need_var; [done|]. simpl.
    wpb. unfold var_get_ref, var_get. wpb. iApply (visit_user_spine _ _ Hwf with "Ha Hl"); [done|]. iIntros "Ha Hl". iApply wp_ret.
    case_decide as Htu; last first.
    { iApply wp_throw. iApply (spine_stored with "[$Ha $Hl]"). }
    iApply wp_ret. subst u.
    iDestruct (tobj_member C W _ _ _ _ _ j with "Hl") as (d ks c k') "([%Hk %Hk'] & Hl)"; [done|].
    iApply (wp_rd_bind _ _ _ (tys', c)). iSplit; [iDestruct "Hl" as "[Hl _]"; iApply "Hl"|].
    iDestruct "Hl" as "[_ [Hc Hl]]". simpl.
    assert (Hd : depth k'.2 < depth (UV d ks)) by by eapply depth_child. rewrite -Hk in Hd. wpb.
    iApply (var_assign_spec _ _ Hwf _ _ Hok with "[$Hc $Hk2]"); [done|lia|done|by apply source_clean; eapply Hu|]. iSplit.
    + iIntros ([]) "[Hc Hk2]". iDestruct ("Hl" with "Hc") as "Hl". iApply wp_ret. iApply (spine_stored with "[$Ha $Hl]").
    + iIntros (e) "[(%k'' & %Hf & Hc) Hk2]". iDestruct ("Hl" with "Hc") as "Hl". iApply (spine_stored with "[$Ha $Hl]").
  - split; [done|]. intros l (tys1&a1&Ha1&Hl).
    rewrite Ha in Ha1. injection Ha1 as <- <-. rewrite (stored_have _ _ _ _ _ HI Hs Hl).
    exists tys, a. split; [done|]. by apply HJ.
Qed.
End frame.
