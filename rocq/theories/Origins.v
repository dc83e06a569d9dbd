(** Which operations of which user types computations throw from (proofs). *)
From Coq.ssr Require Import ssreflect.
From Coq Require Import ZArith Lia.
From iris.prelude Require Import prelude.
From stdpp Require Import gmap list numbers.
From Verif Require Import Base Types TypesFacts Dispatch DispatchFacts Values Client Observe Spec Raises Link OriginSpec Variant Sem.

Lemma raises_weaken {A} (P Q : exn -> Prop) (m : M A) : (forall e, P e -> Q e) -> raises P m -> raises Q m.
Proof. intros H Hm s. specialize (Hm s). destruct (m s); auto. Qed.
(** With what is known of the intermediate result. *)
Lemma raises_bind_ok {A B} (P : exn -> Prop) (m : M A) (f : A -> M B) : raises P m ->
  (forall s a s', m s = Ok a s' -> raises P (f a)) -> raises P (bind m f).
Proof. intros Hm Hf s. unfold bind. specialize (Hm s). destruct (m s) as [a s'|e s'|x] eqn:E; [by eapply Hf|done..]. Qed.

Section origins.
Context (C : cfg) (st nb : bool) (HC : good_env C st nb).
(** A set of types closed under members. *)
Context (U : uid -> Prop) (HU : forall u tys t, U u -> tys ∈ ut_members (te C u) -> t ∈ tys -> U (ity_uid t)).

(** Thrown by an operation of [K] of a type of [U], or by operator new. *)
Definition org (K : list uop) (e : exn) : Prop :=
  match e with
  | XUser k u _ => k ∈ K /\ throwing C k u /\ U u
  | XAlloc _ => True
  | XBadGet | XBadVisit => False
  end.

Lemma o_maybe K k u b : k ∈ K -> (b = false -> throwing C k u) -> U u -> raises (org K) (maybe_throw k u b).
Proof. intros Hk Hb Hu s. unfold maybe_throw. destruct b; [done|]. simpl. case_decide; [done|]. simpl. auto. Qed.
Lemma o_maybe_nt P k u : raises P (maybe_throw k u true). Proof. by intros s. Qed.
Lemma o_alloc K p : raises (org K) (alloc p).
Proof. intros s. unfold alloc. simpl. case_decide; [done|]. by simpl. Qed.
Lemma o_new_obj K p k : (forall q, raises (org K) (k q)) -> raises (org K) (new_obj p k).
Proof.
  intros. unfold new_obj. apply raises_bind; [apply o_alloc|]. intros; apply raises_bind; [|intros; apply raises_ret].
  apply raises_on_exn; [done|apply raises_free].
Qed.

Create HintDb org.
#[local] Hint Constants Opaque : org.
#[local] Hint Resolve raises_noexcept raises_ret raises_faulty raises_get_cell raises_put_cell raises_construct
  raises_destruct_obj raises_modify_obj raises_new_cell raises_drop_cell raises_free raises_choose raises_note
  raises_get_obj raises_read_which raises_write_which raises_which raises_indicate raises_indicate_bk raises_wrap_ptr
  raises_bk_ptr raises_expect raises_bk_get raises_bk_swap o_maybe o_maybe_nt o_alloc : org.

Lemma o_scramble P u l : raises P (scramble u l).
Proof. unfold scramble. repeat (apply raises_bind; [eauto 1 with org nocore|intros; try case_match]). eauto with org nocore. Qed.
#[local] Hint Resolve o_scramble : org.

(** The kinds of operations that what user types do may throw from. *)
Record graded (S : usem) : Prop := Graded {
  g_value K u l : U u -> OpDefault ∈ K -> raises (org K) (us_value S u l);
  g_definit K u l : U u -> OpDefault ∈ K -> raises (org K) (us_definit S u l);
  g_copy K u d s : U u -> OpCopy ∈ K -> raises (org K) (us_copy S u d s);
  g_move K u d s : U u -> OpMove ∈ K -> raises (org K) (us_move S u d s);
  g_move_nt P u d s : nt_move (te C u) = true -> raises P (us_move S u d s);
  g_cassign K u d s : U u -> OpCopyAssign ∈ K -> OpCopy ∈ K -> raises (org K) (us_cassign S u d s);
  g_massign K u d s : U u -> OpMoveAssign ∈ K -> OpMove ∈ K -> OpCopy ∈ K -> raises (org K) (us_massign S u d s);
  g_swap K u l r : U u -> OpSwap ∈ K -> OpMoveAssign ∈ K -> OpMove ∈ K -> OpCopy ∈ K -> raises (org K) (us_swap S u l r);
  g_destroy P u l : raises P (us_destroy S u l);
  g_read P u l : raises P (us_read S u l)
}.

Section usem.
Context (S : usem) (HS : graded S).
Definition hvalue := g_value S HS.
Definition hdefinit := g_definit S HS.
Definition hcopy := g_copy S HS.
Definition hmove := g_move S HS.
Definition hmove_nt := g_move_nt S HS.
Definition hcassign := g_cassign S HS.
Definition hmassign := g_massign S HS.
Definition hswap := g_swap S HS.
Definition hdestroy := g_destroy S HS.
Definition hread := g_read S HS.
#[local] Hint Resolve hvalue hdefinit hcopy hmove hmove_nt hcassign hmassign hswap hdestroy hread : org.

Ltac os := repeat first
  [ done
  | assumption
  | solve [eauto 2 with org nocore]
  | match goal with
    | H : context [raises _ _] |- raises _ _ => solve [simple apply H]
    | |- raises _ (bind _ _) => apply raises_bind; [|intros]
    | |- raises _ (on_exn _ _) => apply raises_on_exn
    | |- raises _ (finally _ _) => apply raises_finally
    | |- raises _ (noexcept_if _ _) => apply raises_noexcept_if
    | |- raises _ (new_obj _ _) => apply o_new_obj; intros
    | |- raises _ (stack_obj _) => apply raises_stack_obj; intros
    | |- raises _ (local_variant _) => apply raises_local_variant; intros
    | |- raises _ (scoped _ _ _) => apply raises_scoped; [|intros|intros]
    | |- raises _ (match ?x with _ => _ end) => destruct x eqn:?
    | |- raises _ ((match ?x with _ => _ end) _) => destruct x eqn:?
    end ].

Notation UT t := (U (ity_uid t)).
Lemma o_i_copy K t d s : UT t -> OpCopy ∈ K -> raises (org K) (i_copy S t d s).
Proof. intros. unfold i_copy. destruct t; simpl in *; os. Qed.
Lemma o_i_move K t d s : UT t -> OpMove ∈ K -> raises (org K) (i_move S t d s).
Proof. intros. unfold i_move. destruct t; simpl in *; os. Qed.
Lemma o_i_move_nt P t d s : it_move C t = true -> raises P (i_move S t d s).
Proof. intros. unfold i_move. destruct t; simpl in *; os. Qed.
Lemma o_i_copy_from K t d s : UT t -> OpCopy ∈ K -> raises (org K) (i_copy_from S t d s).
Proof. intros. unfold i_copy_from. destruct t; simpl in *; os. Qed.
Lemma o_i_move_from K t d s : UT t -> OpMove ∈ K -> raises (org K) (i_move_from S t d s).
Proof. intros. unfold i_move_from. destruct t; simpl in *; os. Qed.
Lemma o_i_value K t d : UT t -> OpDefault ∈ K -> raises (org K) (i_value S t d).
Proof. intros. unfold i_value. destruct t; simpl in *; os. Qed.
Lemma o_i_cassign K t l r : UT t -> OpCopyAssign ∈ K -> OpCopy ∈ K -> raises (org K) (i_cassign S t l r).
Proof. intros. unfold i_cassign. destruct t; simpl in *; os. Qed.
Lemma o_i_massign K t l r : UT t -> OpMoveAssign ∈ K -> OpMove ∈ K -> OpCopy ∈ K -> raises (org K) (i_massign S t l r).
Proof. intros. unfold i_massign. destruct t; simpl in *; os. Qed.
Lemma o_i_destroy P t l : raises P (i_destroy S t l).
Proof. unfold i_destroy. destruct t; simpl in *; os. Qed.
#[local] Hint Resolve o_i_copy o_i_move o_i_move_nt o_i_copy_from o_i_move_from o_i_value o_i_cassign o_i_massign o_i_destroy : org.
Lemma o_bk_destroy P t l : raises P (bk_destroy S t l). Proof. unfold bk_destroy. os. Qed.
#[local] Hint Resolve o_bk_destroy : org.

Definition sty_ity (x : sty) : ity := match x with SInt t | SBk t => t end.
Notation US x := (UT (sty_ity x)).
Lemma o_s_copy K x d s : US x -> OpCopy ∈ K -> raises (org K) (s_copy C S x d s).
Proof. intros. unfold s_copy. destruct x; simpl in *; os. Qed.
Lemma o_s_move K x d s : US x -> OpMove ∈ K -> raises (org K) (s_move C S x d s).
Proof. intros. unfold s_move. destruct x; simpl in *; os. Qed.
Lemma o_s_move_nt P x d s : s_nt_move C x = true -> raises P (s_move C S x d s).
Proof. intros. unfold s_move. destruct x; simpl in *; os. Qed.
Lemma o_s_destroy P x l : raises P (s_destroy S x l). Proof. unfold s_destroy. os. Qed.
#[local] Hint Resolve o_s_copy o_s_move o_s_move_nt o_s_destroy : org.

Lemma visitation_in (tys : list ity) w t : visitation (lim C) tys w = DCase t -> t ∈ tys.
Proof.
  intros H. destruct (decide (w < 0 \/ Z.of_nat (length tys) <= w)%Z) as [Hw|Hw].
  { rewrite (visitation_out (lim C) tys w (ge_lim _ _ _ HC) Hw) in H. done. }
  destruct (lookup_lt_is_Some_2 tys (Z.to_nat w) ltac:(lia)) as [t' Ht].
  pose proof (visitation_lookup _ _ _ _ (ge_lim _ _ _ HC) Ht) as Hv. rewrite (Z2Nat.id w ltac:(lia)) in Hv.
  rewrite Hv in H. injection H as ->. by eapply elem_of_list_lookup_2.
Qed.
Lemma o_visit {A} P tys a (k : sty -> loc -> M A) : (forall x l, sty_ity x ∈ tys -> raises P (k x l)) -> raises P (visit C tys a k).
Proof.
  intros H. unfold visit. apply raises_bind; [apply raises_read_which|]. intros w.
  destruct (visitation (lim C) tys (which_of w)) as [t| |] eqn:E; [|apply raises_faulty..].
  apply visitation_in in E. repeat case_match; apply H; done.
Qed.
Lemma o_visit_user {A} P tys a (k : uid -> loc -> M A) : (forall t l, t ∈ tys -> raises P (k (ity_uid t) l)) -> raises P (visit_user C tys a k).
Proof.
  intros H. apply o_visit. intros x l Hx. unfold unwrap, unwrap_int.
  destruct x as [[u|u]|[u|u]]; simpl in Hx.
  - by apply (H (IPlain u)).
  - apply raises_bind; [apply raises_wrap_ptr|]. intros; by apply (H (IWrap u)).
  - apply raises_bind; [apply raises_bk_get|]. intros; by apply (H (IPlain u)).
  - apply raises_bind; [apply raises_bk_get|]. intros; apply raises_bind; [apply raises_wrap_ptr|]. intros; by apply (H (IWrap u)).
Qed.

Ltac os2 := repeat first
  [ progress os
  | match goal with
    | |- raises _ (visit _ _ _ _) => apply o_visit; intros
    | |- raises _ (visit_user _ _ _ _) => apply o_visit_user; intros
    end ].

Notation UL tys := (forall t, t ∈ tys -> UT t).
Lemma o_destroy_content P tys a : raises P (destroy_content C S tys a). Proof. unfold destroy_content. os2. Qed.
Lemma o_var_destroy P tys a : raises P (var_destroy C S tys a). Proof. unfold var_destroy. os2. Qed.
#[local] Hint Resolve o_destroy_content o_var_destroy : org.
Lemma o_var_default K tys a : (forall t, head tys = Some t -> UT t) -> OpDefault ∈ K -> raises (org K) (var_default C S tys a).
Proof. intros H ?. unfold var_default. destruct tys as [|t r]; [os2|]. specialize (H t eq_refl). os2. Qed.
Lemma o_copy_into K d x l : US x -> OpCopy ∈ K -> raises (org K) (copy_into S d x l).
Proof. intros. unfold copy_into. destruct x; simpl in *; os2. Qed.
Lemma o_move_into K d x l : US x -> OpMove ∈ K -> raises (org K) (move_into C S d x l).
Proof. intros. unfold move_into. destruct x; simpl in *; os2. Qed.
#[local] Hint Resolve o_copy_into o_move_into : org.
Lemma o_var_copy K tys d s : UL tys -> OpCopy ∈ K -> raises (org K) (var_copy C S tys d s).
Proof. intros. unfold var_copy. os2; apply o_copy_into; auto. Qed.
Lemma o_var_move K tys d s : UL tys -> OpMove ∈ K -> raises (org K) (var_move C S tys d s).
Proof. intros. unfold var_move. os2; apply o_move_into; auto. Qed.
Lemma o_var_move_nt P tys d s : (forall t, t ∈ tys -> it_move C t = true) -> raises P (var_move C S tys d s).
Proof.
  intros H. unfold var_move. os2. unfold move_into. destruct x as [t|t]; simpl in *; specialize (H t ltac:(done)); os2.
Qed.
#[local] Hint Resolve o_var_default o_var_copy o_var_move : org.
Lemma o_convert_obj K u u' d s : U u' -> OpConvert ∈ K -> raises (org K) (convert_obj C u u' d s).
Proof. intros. unfold convert_obj. os2; by apply o_maybe. Qed.
Lemma o_initialize K tys a u s (mv : bool) : UL tys -> OpConvert ∈ K -> OpMove ∈ K -> (mv = false -> OpCopy ∈ K) ->
  raises (org K) (initialize C S tys a u s mv).
Proof.
  intros H ?? Hm. unfold initialize. destruct (resolve C tys u) as [i|]; [|os]. destruct (tys !! i) as [t|] eqn:Hi; [|os].
  apply elem_of_list_lookup_2, H in Hi. apply raises_bind; [|os]. case_decide.
  - destruct mv; [by apply o_i_move_from|]. specialize (Hm eq_refl). by apply o_i_copy_from.
  - os; by apply o_convert_obj.
Qed.
#[local] Hint Resolve o_initialize : org.
Lemma o_var_from K tys a u s (mv : bool) : UL tys -> OpConvert ∈ K -> OpMove ∈ K -> (mv = false -> OpCopy ∈ K) ->
  raises (org K) (var_from C S tys a u s mv).
Proof. intros. unfold var_from. os2; by apply o_initialize. Qed.
Lemma o_var_convert K tys a tys' b (mv : bool) : UL tys -> OpConvert ∈ K -> OpMove ∈ K -> (mv = false -> OpCopy ∈ K) ->
  raises (org K) (var_convert C S tys a tys' b mv).
Proof. intros. unfold var_convert. os2; by apply o_initialize. Qed.
Lemma o_construct_fallback P tys a : raises P (construct_fallback C S tys a). Proof. unfold construct_fallback. os2. Qed.
#[local] Hint Resolve o_construct_fallback : org.
(** [x]: the type of what is assigned; [y]: of what is there. *)
Lemma o_backup_assigner K a rw x src y l : US x ->
  match y with SInt t => it_move C t = false -> UT t | SBk _ => True end -> OpCopy ∈ K ->
  raises (org K) (backup_assigner C S a rw x src y l).
Proof.
  intros Hx Hy Hk. unfold backup_assigner, backup_assign_1, backup_assign_2, backup_assign_3.
  destruct y as [t|t]; simpl in *; [|os2]. destruct (it_move C t) eqn:Ht; [os2|]. specialize (Hy eq_refl). os2.
Qed.
Lemma o_assign_4 K tys a rw x src : UL tys -> US x -> OpCopy ∈ K -> raises (org K) (assign_4 C S tys a rw x src).
Proof. intros. unfold assign_4. os2; apply o_backup_assigner; [done| |done]. destruct x0 as [t|]; [|done]. intros _. by apply H. Qed.
#[local] Hint Resolve o_assign_4 : org.
Lemma o_assigner K tys a rw x src : UL tys -> US x -> OpCopy ∈ K -> raises (org K) (assigner C S tys a rw x src).
Proof.
  intros. unfold assigner, assign_1, assign_2, assign_3. destruct (s_nt_copy C x); [os2|].
  destruct (s_nt_move C x) eqn:?; os2.
Qed.
Lemma o_move_assigner K tys a rw x src : UL tys -> US x -> OpMove ∈ K -> OpCopy ∈ K ->
  raises (org K) (move_assigner C S tys a rw x src).
Proof. intros. unfold move_assigner, massign_move, massign_fallback. os2. Qed.
Lemma o_assign_storage K r x l : US x -> OpCopyAssign ∈ K -> OpCopy ∈ K -> raises (org K) (assign_storage S r x l).
Proof. intros. unfold assign_storage. destruct x; simpl in *; os2. Qed.
Lemma o_move_storage K r x l : US x -> OpMoveAssign ∈ K -> OpMove ∈ K -> OpCopy ∈ K -> raises (org K) (move_storage S r x l).
Proof. intros. unfold move_storage. destruct x; simpl in *; os2. Qed.
Lemma o_var_assign K tys a b : UL tys -> OpCopyAssign ∈ K -> OpCopy ∈ K -> raises (org K) (var_assign C S tys a b).
Proof. intros. unfold var_assign. os2; [apply o_assign_storage|apply o_assigner]; auto. Qed.
Lemma o_variant_massign K tys a b : UL tys -> OpMoveAssign ∈ K -> OpMove ∈ K -> OpCopy ∈ K ->
  raises (org K) (variant_massign C S tys a b).
Proof. intros. unfold variant_massign. os2; [apply o_move_storage|apply o_move_assigner]; auto. Qed.
Lemma o_var_massign K tys a b : UL tys -> OpMoveAssign ∈ K -> OpMove ∈ K -> OpCopy ∈ K ->
  raises (org K) (var_massign C S tys a b).
Proof. intros. unfold var_massign. os2; by apply o_variant_massign. Qed.
#[local] Hint Resolve o_var_assign o_variant_massign o_var_massign : org.
Lemma o_direct_assign K u s (mv : bool) u' l : U u' -> OpCopy ∈ K ->
  (if mv then OpMoveAssign ∈ K /\ OpMove ∈ K else OpCopyAssign ∈ K) -> raises (org K) (direct_assign S u s mv u' l).
Proof. intros ?? Hm. unfold direct_assign. case_decide; [subst u'|os2]. destruct mv; [destruct Hm|]; os2. Qed.
Lemma o_var_assign_from K tys a u s (mv : bool) : UL tys -> OpConvert ∈ K -> OpMoveAssign ∈ K -> OpMove ∈ K -> OpCopy ∈ K ->
  (mv = false -> OpCopyAssign ∈ K) -> raises (org K) (var_assign_from C S tys a u s mv).
Proof.
  intros ????? Hm. unfold var_assign_from. os2; [|by apply o_var_from].
  apply o_direct_assign; auto. destruct mv; auto.
Qed.
Lemma o_var_assign_convert K tys a tys' b (mv : bool) : UL tys -> OpConvert ∈ K -> OpMoveAssign ∈ K -> OpMove ∈ K ->
  OpCopy ∈ K -> raises (org K) (var_assign_convert C S tys a tys' b mv).
Proof. intros. unfold var_assign_convert. os2; by apply o_var_convert. Qed.
Lemma o_known_get P tys b u : raises P (known_get C tys b u). Proof. unfold known_get. os2. Qed.
#[local] Hint Resolve o_known_get : org.
Lemma o_var_swap K tys a b : UL tys -> OpSwap ∈ K -> OpMoveAssign ∈ K -> OpMove ∈ K -> OpCopy ∈ K ->
  raises (org K) (var_swap C S tys a b).
Proof. intros. unfold var_swap. os2; apply hswap; auto. Qed.
Lemma o_var_read P tys a : raises P (var_read C S tys a). Proof. unfold var_read. os2. Qed.
Lemma o_var_get P tys a u : raises P (var_get C tys a u). Proof. unfold var_get. os2. Qed.
Lemma o_var_type P tys a : raises P (var_type C tys a). Proof. unfold var_type. os2. Qed.
Lemma o_var_eq P tys f a b : raises P (var_eq C S tys f a b). Proof. unfold var_eq, comparer. os2. Qed.
Lemma o_var_lt P tys f a b : raises P (var_lt C S tys f a b). Proof. unfold var_lt, comparer. os2. Qed.
#[local] Hint Resolve o_var_read : org.
(** [get] finds only types of the variant. *)
Lemma var_get_in tys a u s l s' : var_get C tys a u s = Ok (Some l) s' -> exists t, t ∈ tys /\ ity_uid t = u.
Proof.
  unfold var_get, visit_user, visit, bind. destruct (read_which a s) as [w s1|e s1|f]; [|done..].
  destruct (visitation (lim C) tys (which_of w)) as [t| |] eqn:E; [|done..]. apply visitation_in in E. intros H.
  exists t. split; [done|]. destruct (decide (ity_uid t = u)) as [|Hn]; [done|exfalso]. revert H.
  unfold unwrap, unwrap_int, bind, ret. destruct t as [v|v]; simpl in Hn; repeat case_match; try done; rewrite ?decide_False //; try done;
    intros [= H _]; done.
Qed.
Lemma o_get_ref K tys a u {B} (f : loc -> M B) : (forall t l, t ∈ tys -> ity_uid t = u -> raises (org K) (f l)) ->
  raises (fun e => e = XBadGet \/ org K e) (bind (var_get_ref C tys a u) f).
Proof.
  intros Hf s. unfold bind at 1. unfold var_get_ref, bind. pose proof (o_var_get (fun _ => False) tys a u s) as Hg.
  destruct (var_get C tys a u s) as [[l|] s1|e s1|g] eqn:E; [|by left|done|done].
  simpl. apply var_get_in in E as (t&Ht&Hu). specialize (Hf t l Ht Hu s1). destruct (f l s1); auto.
Qed.

Lemma o_make_members P {B} mk mems (bs : list B) : (forall tys b l, tys ∈ mems -> raises P (mk tys b l)) -> raises P (make_members C S mk mems bs).
Proof.
  revert bs. induction mems as [|tys mems IH]; intros [|b bs] Hmk; simpl; try apply raises_faulty; try apply raises_ret.
  apply raises_bind; [|intros; apply raises_bind; [|intros; apply raises_ret]].
  - apply raises_local_variant. intros; apply Hmk. by left.
  - apply raises_on_exn; [|os]. apply IH. intros; apply Hmk. by right.
Qed.
Lemma o_destroy_members P mems ks : raises P (destroy_members C S mems ks).
Proof. revert ks. induction mems as [|tys mems IH]; intros [|b bs]; simpl; os2. Qed.
Lemma o_assign_members P f mems ls rs : (forall tys a b, tys ∈ mems -> raises P (f tys a b)) -> raises P (assign_members f mems ls rs).
Proof.
  revert ls rs. induction mems as [|tys mems IH]; intros [|b bs] [|c cs] Hf; simpl; os2.
  - apply Hf. by left.
  - apply IH. intros; apply Hf. by right.
Qed.
Lemma o_read_members P mems ks : raises P (read_members C S mems ks).
Proof. revert ks. induction mems as [|tys mems IH]; intros [|b bs]; simpl; os2. Qed.
#[local] Hint Resolve o_destroy_members o_read_members : org.

Lemma members_U u tys : U u -> tys ∈ ut_members (te C u) -> UL tys.
Proof. intros Hu Ht t Hin. by eapply HU. Qed.

Ltac os3 := repeat first
  [ progress os2
  | match goal with
    | |- raises _ (make_members _ _ _ _ _) => apply o_make_members; intros
    | |- raises _ (assign_members _ _ _ _) => apply o_assign_members; intros
    | H : U ?u, H' : ?tys ∈ ut_members (te C ?u) |- raises _ (_ ?tys _ _) => pose proof (members_U _ _ H H'); clear H'
    | H : U ?u, H' : ?tys ∈ ut_members (te C ?u) |- raises _ (_ ?tys _) => pose proof (members_U _ _ H H'); clear H'
    end ].
Lemma o_u_value K u d : U u -> OpDefault ∈ K -> raises (org K) (u_value C S u d).
Proof.
  intros Hu Hk. unfold u_value. apply raises_bind; [by apply o_maybe|]. intros. apply raises_bind; [|intros; apply raises_construct].
  apply o_make_members. intros tys _ l Ht. apply o_var_default; [|done]. intros t Hh. eapply (members_U _ _ Hu Ht).
  destruct tys; [done|]. injection Hh as ->. by left.
Qed.
#[local] Hint Resolve o_u_value : org.
Lemma o_u_copy K u d s : U u -> OpCopy ∈ K -> raises (org K) (u_copy C S u d s).
Proof. intros. unfold u_copy. os3. Qed.
Lemma o_u_move K u d s : U u -> OpMove ∈ K -> raises (org K) (u_move C S u d s).
Proof. intros. unfold u_move. os3. Qed.
Lemma o_u_move_nt P u d s : nt_move (te C u) = true -> raises P (u_move C S u d s).
Proof.
  intros Hn. unfold u_move. rewrite Hn. os3; apply o_var_move_nt. intros t Ht. apply nothrow_move_it. by eapply (ge_move _ _ _ HC).
Qed.
Lemma o_u_cassign K u d s : U u -> OpCopyAssign ∈ K -> OpCopy ∈ K -> raises (org K) (u_cassign C S u d s).
Proof. intros. unfold u_cassign. os3. Qed.
Lemma o_u_massign K u d s : U u -> OpMoveAssign ∈ K -> OpMove ∈ K -> OpCopy ∈ K -> raises (org K) (u_massign C S u d s).
Proof. intros. unfold u_massign. os3. Qed.
Lemma o_u_destroy P u l : raises P (u_destroy C S u l). Proof. unfold u_destroy. os3. Qed.
Lemma o_u_swap K u l r : U u -> OpSwap ∈ K -> OpMoveAssign ∈ K -> OpMove ∈ K -> OpCopy ∈ K -> raises (org K) (u_swap C S u l r).
Proof.
  intros. unfold u_swap, own_swap, std_swap. destruct (ut_swap (te C u)) as [[|]|] eqn:Hs; os3;
    first [by apply o_var_swap|by apply o_maybe|by apply o_u_move|apply o_u_destroy|by apply o_u_massign].
Qed.
End usem.

Lemma o_step S : graded S -> graded (sem_step C S).
Proof.
  intros HS. split; simpl; intros.
  - by apply o_u_value.
  - unfold u_definit. destruct (ut_init _); first [by apply o_u_value|apply raises_construct].
  - by apply o_u_copy.
  - by apply o_u_move.
  - by apply o_u_move_nt.
  - by apply o_u_cassign.
  - by apply o_u_massign.
  - by apply o_u_swap.
  - by apply o_u_destroy.
  - unfold u_read. apply raises_bind; [apply raises_expect|]. intros [z ks]. apply raises_bind; [apply raises_note|]. intros.
    apply raises_bind; [by apply o_read_members|]. intros. apply raises_ret.
Qed.
Lemma o_sem n : graded (sem C n).
Proof. induction n as [|n IH]; apply o_step; [|done]. split; intros; apply raises_faulty. Qed.

(** Types without member variants. *)
Lemma o_cassign_flat n K u l r : U u -> ut_members (te C u) = [] -> OpCopyAssign ∈ K -> raises (org K) (us_cassign (sem C n) u l r).
Proof.
  intros Hu Hm Hk. assert (H : raises (org K) (u_cassign C (match n with 0 => usem_stuck | S n' => sem C n' end) u l r)); [|by destruct n].
  unfold u_cassign. rewrite Hm. apply raises_bind; [apply raises_expect|]. intros [? ls]. apply raises_bind; [apply raises_expect|].
  intros [z rs]. apply raises_bind; [apply raises_on_exn; [by apply o_maybe|apply o_scramble]|]. intros.
  apply raises_bind; [apply raises_note|]. intros. apply raises_bind; [apply raises_modify_obj|]. intros.
  destruct ls, rs; simpl; first [apply raises_ret|apply raises_faulty].
Qed.
Lemma o_massign_flat n K u l r : U u -> ut_members (te C u) = [] -> OpMoveAssign ∈ K -> raises (org K) (us_massign (sem C n) u l r).
Proof.
  intros Hu Hm Hk. assert (H : raises (org K) (u_massign C (match n with 0 => usem_stuck | S n' => sem C n' end) u l r)); [|by destruct n].
  unfold u_massign. rewrite Hm. apply raises_bind; [apply raises_expect|]. intros [? ls]. apply raises_bind; [apply raises_expect|].
  intros [z rs]. apply raises_bind.
  { apply raises_on_exn; [by apply o_maybe|]. apply raises_bind; [apply o_scramble|]. intros. apply o_scramble. }
  intros. apply raises_bind; [apply raises_note|]. intros. apply raises_bind; [apply raises_modify_obj|]. intros.
  apply raises_bind; [apply o_scramble|]. intros. destruct ls, rs; simpl; first [apply raises_ret|apply raises_faulty].
Qed.

End origins.
