(** Proofs about Layout.v. *)
From stdpp Require Import base list numbers.
From Coq Require Import ZArith Znumtheory Lia.
From Verif Require Import Base Types Heap Trace Dispatch Variant Sem Client Values Observe Spec History Reach Layout LayoutSpec.
From Verif Require LifeFacts.
Local Open Scope Z_scope.

(** ** Discriminator *)

Lemma convert_id b z : 0 < b -> - 2 ^ (b - 1) <= z < 2 ^ (b - 1) -> convert b z = z.
Proof.
  intros Hb Hz. unfold convert.
  assert (2 ^ b = 2 * 2 ^ (b - 1)) as Hp.
  { rewrite <-Z.pow_succ_r by lia. f_equal. lia. }
  rewrite Z.mod_small; lia.
Qed.


Lemma int_arith_ok P z : - int_max P - 1 <= z <= int_max P -> int_arith P z = Some z.
Proof. intros H. unfold int_arith, int_max in *. rewrite decide_True by lia. done. Qed.

Lemma which_type_fits P minimize n o1 :
  sane P -> 0 < n <= int_max P -> o1 = n \/ o1 = -1 ->
  0 < bits P (which_type P minimize o1) /\ n <= 2 ^ (bits P (which_type P minimize o1) - 1).
Proof.
  intros [Hc Hi] Hn Ho. unfold which_type, int_max in *.
  destruct minimize; [|simpl; lia].
  destruct (decide (o1 = -1)); [simpl; lia|].
  destruct Ho as [->|?]; [|done].
  destruct (decide (n < schar_max P)) as [H|H]; [|simpl; lia].
  unfold schar_max in H. simpl. lia.
Qed.

Lemma store_ok P (minimize : bool) (n o1 : Z) (bk : bool) (i : Z) :
  sane P -> 0 < n <= int_max P -> o1 = n \/ o1 = -1 -> 0 <= i < n ->
  let w := which_type P minimize o1 in
  let r := if bk then - i - 1 else i in
  store P w bk i = Some r /\ - n <= r < n /\
  fits (bits P w) r /\
  load_backup r = bk /\ load_which P r = Some i.
Proof.
  intros HP Hn Ho Hi. cbn zeta. unfold fits.
  destruct (which_type_fits P minimize n o1 HP Hn Ho) as [Hb Hw].
  set (w := which_type P minimize o1) in *.
  destruct bk; simpl.
  - unfold store_backup_which, int_add, int_neg.
    rewrite (int_arith_ok P (i + 1)) by lia. simpl.
    rewrite (int_arith_ok P (- (i + 1))) by lia. simpl.
    rewrite convert_id by lia. split; [f_equal; lia|]. split; [lia|]. split; [lia|].
    assert (load_backup (- i - 1) = true) as E by (apply bool_decide_eq_true; lia).
    split; [done|]. unfold load_which. rewrite E. unfold int_add, int_neg.
    rewrite (int_arith_ok P (- i - 1 + 1)) by lia. simpl.
    rewrite int_arith_ok by lia. f_equal; lia.
  - unfold store_which. rewrite convert_id by lia. split; [done|]. split; [lia|]. split; [lia|].
    assert (load_backup i = false) as E by (apply bool_decide_eq_false; lia).
    split; [done|]. unfold load_which. by rewrite E.
Qed.

Lemma store_injective P (minimize : bool) (n o1 : Z) (bk : bool) (i : Z) (bk' : bool) (i' : Z) :
  sane P -> 0 < n <= int_max P -> o1 = n \/ o1 = -1 -> 0 <= i < n -> 0 <= i' < n ->
  store P (which_type P minimize o1) bk i = store P (which_type P minimize o1) bk' i' ->
  bk = bk' /\ i = i'.
Proof.
  intros HP Hn Ho Hi Hi' He.
  destruct (store_ok P minimize n o1 bk i HP Hn Ho Hi) as (E1 & _ & _ & B1 & W1).
  destruct (store_ok P minimize n o1 bk' i' HP Hn Ho Hi') as (E2 & _ & _ & B2 & W2).
  rewrite E1, E2 in He. injection He as He. rewrite He in B1, W1. split; congruence.
Qed.

(** What a variant of the state machine stores is what the code stores in [which_], and the
    state machine reads it as the code does. *)
Lemma cell_which C m tys a bk i v :
  var_holds C m tys a (bk, i, v) ->
  exists o, m !! a = Some (Cell KVar (Some o) (Some (if bk then - Z.of_nat i - 1 else Z.of_nat i)))
  /\ (i < length tys)%nat.
Proof.
  intros [n H]. unfold see_var in H.
  destruct (m !! a) as [[[] [o|] [w|]]|] eqn:Ha; try done.
  destruct (tys !! Z.to_nat (if bool_decide (w < 0) then - w - 1 else w)) eqn:Ht; [|done].
  assert (i = Z.to_nat (if bool_decide (w < 0) then - w - 1 else w) /\ bk = bool_decide (w < 0)) as [-> ->].
  { repeat case_match; simplify_eq; done. }
  apply lookup_lt_Some in Ht. exists o. split; [|done]. do 3 f_equal.
  case_bool_decide; rewrite Z2Nat.id; lia.
Qed.

Lemma load_which_of P r n :
  0 < n <= int_max P -> - n <= r < n -> load_which P r = Some (which_of r).
Proof.
  intros Hn Hr. unfold load_which, load_backup, which_of, int_add, int_neg.
  case_bool_decide; case_decide; try lia; [|done].
  rewrite (int_arith_ok P (r + 1)) by lia. simpl. rewrite int_arith_ok by lia. f_equal; lia.
Qed.

(** ** Storage *)

Lemma max_element_spec l b :
  b <= max_element b l /\ (forall x, x ∈ l -> x <= max_element b l) /\
  (max_element b l = b \/ max_element b l ∈ l).
Proof.
  revert b. induction l as [|x l IH]; intros b; simpl.
  - split; [lia|]. split; [intros x Hx; by apply elem_of_nil in Hx|by left].
  - destruct (IH (if decide (b < x) then x else b)) as (H1 & H2 & H3).
    split; [case_decide; lia|]. split.
    + intros y [->|Hy]%elem_of_cons; [case_decide; lia|by apply H2].
    + destruct H3 as [H3|H3]; [|right; by right]. rewrite H3. case_decide; [right; left|by left].
Qed.

Lemma lcm_fold (l : list (Z * Z)) (st : Z) :
  0 < st -> Forall (fun x => 0 < snd x) l ->
  let r := fold_left (fun st it => Z.lcm st (snd it)) l st in
  0 < r /\ (st | r) /\ (forall x, x ∈ l -> (snd x | r)) /\
  (forall m : Z, (st | m) -> (forall x, x ∈ l -> (snd x | m)) -> (r | m)).
Proof.
  revert st. induction l as [|x l IH]; intros st Hst Hl; cbn zeta; simpl.
  - split; [lia|]. split; [reflexivity|]. split; [intros y Hy; by apply elem_of_nil in Hy|auto].
  - inversion_clear Hl as [|?? Hx Hl'].
    assert (0 < Z.lcm st (snd x)) as Hpos.
    { pose proof (Z.lcm_nonneg st (snd x)). assert (Z.lcm st (snd x) <> 0); [|lia].
      rewrite Z.lcm_eq_0. lia. }
    destruct (IH (Z.lcm st (snd x)) Hpos Hl') as (H1 & H2 & H3 & H4).
    split; [done|]. split; [etransitivity; [apply Z.divide_lcm_l|exact H2]|]. split.
    + intros y [->|Hy]%elem_of_cons; [etransitivity; [apply Z.divide_lcm_r|exact H2]|by apply H3].
    + intros m Hm1 Hm2. apply H4; [apply Z.lcm_least; [done|apply Hm2; left]|].
      intros y Hy. apply Hm2. by right.
Qed.

Lemma aligned_storage_spec sz al : 0 < al ->
  sz <= (aligned_storage sz al).1 < sz + al /\ (al | (aligned_storage sz al).1).
Proof.
  intros Hal. simpl. pose proof (Z.div_mod (sz + al - 1) al ltac:(lia)) as E.
  pose proof (Z.mod_pos_bound (sz + al - 1) al Hal). split; [|by exists ((sz + al - 1) / al)]. lia.
Qed.

Lemma make_storage_ok P never (l : list (Z * Z)) :
  l <> [] -> Forall (fun x => 0 < snd x) l -> 0 < snd (ptr_layout P) ->
  exists st, make_storage P never l = Some st /\
  (forall t, t ∈ l -> holds st t) /\
  (never = false -> holds st (ptr_layout P)) /\
  (snd st | fst st) /\ 0 < snd st.
Proof.
  intros Hne Hl Hp. unfold make_storage.
  set (types := if never then l else ptr_layout P :: l).
  assert (types <> []) as Ht by (by destruct never; unfold types).
  assert (Forall (fun x => 0 < snd x) types) as Htl.
  { unfold types. destruct never; [done|]. by constructor. }
  destruct (max_value fst types) as [mx|] eqn:Hmx.
  2: { unfold max_value in Hmx. by destruct types. }
  assert (forall x, x ∈ types -> fst x <= mx) as Hmax.
  { unfold max_value in Hmx. intros x Hx.
    apply (elem_of_list_fmap_1 fst) in Hx. change (x.1 ∈ map fst types) in Hx.
    destruct (map fst types) as [|y q]; [done|]. injection Hmx as <-.
    destruct (max_element_spec q y) as (H1 & H2 & _).
    apply elem_of_cons in Hx as [->|Hx]; [done|by apply H2]. }
  destruct (lcm_fold types 1 ltac:(lia) Htl) as (A1 & _ & A3 & _).
  fold (max_alignment types) in A1, A3.
  destruct (aligned_storage_spec mx (max_alignment types) A1) as [S1 S2].
  exists (aligned_storage mx (max_alignment types)).
  assert (forall t, t ∈ types -> fst t <= (aligned_storage mx (max_alignment types)).1 /\
            forall a : Z, (max_alignment types | a) -> (snd t | a)) as Hall.
  { intros t Hin. split; [specialize (Hmax t Hin); lia|].
    intros a Ha. etransitivity; [by apply A3|done]. }
  split; [done|]. split; [|split; [|split; done]].
  - intros t Hin. apply Hall. unfold types. destruct never; [done|by right].
  - intros ->. apply Hall. left.
Qed.

(** The storage is no larger than needed, and its alignment no stricter. *)
Lemma make_storage_least P never (l : list (Z * Z)) st :
  Forall (fun x => 0 < snd x) l -> 0 < snd (ptr_layout P) -> make_storage P never l = Some st ->
  let types := if never then l else ptr_layout P :: l in
  (exists t, t ∈ types /\ fst st < fst t + snd st) /\
  (forall m : Z, (forall t, t ∈ types -> (snd t | m)) -> (snd st | m)).
Proof.
  intros Hl Hp. unfold make_storage.
  set (types := if never then l else ptr_layout P :: l). cbn zeta.
  assert (Forall (fun x => 0 < snd x) types) as Htl.
  { unfold types. destruct never; [done|]. by constructor. }
  destruct (max_value fst types) as [mx|] eqn:Hmx; [|done].
  intros [= <-].
  destruct (lcm_fold types 1 ltac:(lia) Htl) as (A1 & _ & A3 & A4).
  fold (max_alignment types) in A1, A3, A4.
  destruct (aligned_storage_spec mx (max_alignment types) A1) as [S1 S2].
  split.
  - assert (mx ∈ map fst types) as Hin.
    { unfold max_value in Hmx. destruct (map fst types) as [|y q]; [done|]. injection Hmx as <-.
      destruct (max_element_spec q y) as (_ & _ & [H|H]); [rewrite H; left|by right]. }
    apply elem_of_list_fmap in Hin as (t & -> & Hin). exists t. split; [done|].
    change (snd (aligned_storage (fst t) (max_alignment types))) with (max_alignment types). lia.
  - intros m Hm. apply A4; [apply Z.divide_1_l|done].
Qed.

(** Alignments that are powers of two: so is the result, and it is the largest of them. *)
Lemma lcm_pow2 i j : 0 <= i -> 0 <= j -> Z.lcm (2 ^ i) (2 ^ j) = 2 ^ (Z.max i j).
Proof.
  intros Hi Hj. destruct (Z.le_ge_cases i j) as [H|H].
  - rewrite Z.max_r by done.
    assert ((2 ^ i | 2 ^ j)) as D.
    { exists (2 ^ (j - i)). rewrite <-Z.pow_add_r by lia. f_equal; lia. }
    apply Z.divide_lcm_eq_r in D; [done|]. pose proof (Z.pow_pos_nonneg 2 j). lia.
  - rewrite Z.max_l by done. rewrite Z.lcm_comm.
    assert ((2 ^ j | 2 ^ i)) as D.
    { exists (2 ^ (i - j)). rewrite <-Z.pow_add_r by lia. f_equal; lia. }
    apply Z.divide_lcm_eq_r in D; [done|]. pose proof (Z.pow_pos_nonneg 2 i). lia.
Qed.


Lemma pow2_fold (l : list (Z * Z)) (st : Z) :
  pow2 st -> Forall (fun x => pow2 (snd x)) l ->
  let r := fold_left (fun st it => Z.lcm st (snd it)) l st in
  pow2 r /\ (r = st \/ exists t, t ∈ l /\ r = snd t).
Proof.
  revert st. induction l as [|x l IH]; intros st Hst Hl; cbn zeta; simpl; [auto|].
  inversion_clear Hl as [|?? Hx Hl']. destruct Hst as (i & Hi & ->). destruct Hx as (j & Hj & Ex).
  rewrite Ex, lcm_pow2 by done.
  destruct (IH (2 ^ Z.max i j) ltac:(exists (Z.max i j); split; [lia|done]) Hl') as [H1 H2].
  split; [done|]. destruct H2 as [H2|(t & Ht & H2)].
  - destruct (Z.max_spec i j) as [[? E]|[? E]].
    + right. exists x. split; [left|]. rewrite H2, E, Ex. done.
    + left. rewrite H2, E. done.
  - right. exists t. split; [by right|done].
Qed.

Lemma make_storage_pow2 P never (l : list (Z * Z)) st :
  Forall (fun x => pow2 (snd x)) l -> pow2 (snd (ptr_layout P)) -> make_storage P never l = Some st ->
  let types := if never then l else ptr_layout P :: l in
  pow2 (snd st) /\ (exists t, t ∈ types /\ snd st = snd t).
Proof.
  intros Hl Hp. unfold make_storage.
  set (types := if never then l else ptr_layout P :: l). cbn zeta.
  assert (Forall (fun x => pow2 (snd x)) types) as Htl.
  { unfold types. destruct never; [done|]. by constructor. }
  destruct (max_value fst types) as [mx|] eqn:Hmx; [|done].
  intros [= <-]. change (snd (aligned_storage mx (max_alignment types))) with (max_alignment types).
  destruct (pow2_fold types 1 ltac:(exists 0; done) Htl) as [H1 H2].
  fold (max_alignment types) in H1, H2. split; [done|].
  destruct H2 as [H2|H2]; [|done].
  destruct types as [|t q] eqn:Et; [done|].
  exists t. split; [left|]. rewrite H2.
  assert (Forall (fun x => 0 < snd x) (t :: q)) as Hpos.
  { eapply Forall_impl; [|exact Htl].
    intros x (k & Hk & ->). apply Z.pow_pos_nonneg; lia. }
  destruct (lcm_fold (t :: q) 1 ltac:(lia) Hpos) as (_ & _ & A3 & _).
  fold (max_alignment (t :: q)) in A3. specialize (A3 t ltac:(left)). rewrite H2 in A3.
  inversion_clear Hpos.
  apply Z.divide_1_r_nonneg in A3; lia.
Qed.

(** In the state machine. *)
Section reached.
Context (C : cfg) (st nb : bool) (eqf ltf : uid -> uval -> uval -> bool) (HC : good_env C st nb).

Lemma reached_which P minimize o1 E s x tys a :
  sane P -> Z.of_nat (length tys) <= int_max P -> o1 = Z.of_nat (length tys) \/ o1 = -1 ->
  reached C st nb eqf ltf E s -> E !! x = Some (BVar tys a) ->
  exists k o r, sees C E s x tys k /\ mem s !! a = Some (Cell KVar (Some o) (Some r)) /\
    store P (which_type P minimize o1) (fst (fst k)) (Z.of_nat (snd (fst k))) = Some r /\
    load_backup r = fst (fst k) /\ load_which P r = Some (Z.of_nat (snd (fst k))).
Proof.
  intros HP Hn Ho Hr Hx.
  destruct (LifeFacts.never_empty C st nb eqf ltf HC E s x tys a Hr Hx) as ([[bk i] v] & t & Hs & Ht & _).
  simpl in Ht. pose proof Hs as (a' & Ha & Hv). rewrite Hx in Ha. injection Ha as <-.
  destruct (cell_which _ _ _ _ _ _ _ Hv) as (o & Hm & Hi).
  destruct (store_ok P minimize (Z.of_nat (length tys)) o1 bk (Z.of_nat i) HP ltac:(lia) Ho ltac:(lia))
    as (H1 & _ & _ & H2 & H3).
  exists (bk, i, v), o, (if bk then - Z.of_nat i - 1 else Z.of_nat i). simpl.
  split; [done|]. split; [done|]. split; [exact H1|]. split; [exact H2|exact H3].
Qed.
End reached.

Lemma storage_ok P C tys :
  tys <> [] -> 0 < snd (ptr_layout P) -> (forall u, 0 < snd (user_layout P u)) ->
  exists st, storage_of P C tys = Some st /\
  (forall t, t ∈ tys -> holds st (internal_layout P t)) /\
  (has_fallback C tys = false -> holds st (ptr_layout P)) /\
  (snd st | fst st).
Proof.
  intros Hne Hp Hu. unfold storage_of.
  destruct (make_storage_ok P (has_fallback C tys) (map (internal_layout P) tys)) as (st & E & H1 & H2 & H3 & _).
  - by destruct tys.
  - apply List.Forall_map. apply List.Forall_forall. intros [u|u] _; simpl; [apply Hu|done].
  - done.
  - exists st. split; [done|]. split; [|split; done].
    intros t Ht. apply H1. by apply elem_of_list_fmap_1.
Qed.
