(** Computations throw only from operations that are instantiated (proofs). *)
From Coq.ssr Require Import ssreflect.
From Coq Require Import ZArith Lia.
From iris.prelude Require Import prelude.
From stdpp Require Import gmap list numbers.
From Verif Require Import Base Types TypesFacts Dispatch DispatchFacts Values Client Observe Spec Raises Link OriginSpec Variant Sem.
From Verif Require Import Requires RequiresSpec RequiresFacts.
From Verif Require Origins.

Section needed.
Context (C : cfg) (st nb : bool) (HC : good_env C st nb).
(** A set of operations closed under what classes need for their members. *)
Context (R : uop -> uid -> Prop).
Context (HR : forall k u tys o k' u', R k u -> tys ∈ ut_members (te C u) -> member_op k = Some o -> (k', u') ∈ inst C o tys -> R k' u').
(** All of a list. *)
Definition all (rs : list (uop * uid)) : Prop := forall k u, (k, u) ∈ rs -> R k u.
(** Thrown by an operation of the set, or by operator new. *)
Definition rg (e : exn) : Prop :=
  match e with XUser k u _ => R k u | XAlloc _ => True | XBadGet | XBadVisit => False end.

Lemma n_maybe k u b : R k u -> raises rg (maybe_throw k u b).
Proof. intros Hk s. unfold maybe_throw. destruct b; [done|]. simpl. case_decide; [done|]. by simpl. Qed.
Lemma n_alloc p : raises rg (alloc p).
Proof. intros s. unfold alloc. simpl. case_decide; [done|]. by simpl. Qed.
Lemma n_new_obj p k : (forall q, raises rg (k q)) -> raises rg (new_obj p k).
Proof.
  intros. unfold new_obj. apply raises_bind; [apply n_alloc|]. intros; apply raises_bind; [|intros; apply raises_ret].
  apply raises_on_exn; [done|apply raises_free].
Qed.

Create HintDb nds.
#[local] Hint Constants Opaque : nds.
#[local] Hint Resolve raises_noexcept raises_ret raises_faulty raises_get_cell raises_put_cell raises_construct
  raises_destruct_obj raises_modify_obj raises_new_cell raises_drop_cell raises_free raises_choose raises_note
  raises_get_obj raises_read_which raises_write_which raises_which raises_indicate raises_indicate_bk raises_wrap_ptr
  raises_bk_ptr raises_expect raises_bk_get raises_bk_swap n_maybe Origins.o_maybe_nt n_alloc : nds.

#[local] Hint Resolve Origins.o_scramble : nds.

(** What swap of contents needs. *)
Definition sw (u : uid) : Prop :=
  match ut_swap (te C u) with Some _ => R OpSwap u | None => R OpMove u /\ R OpMoveAssign u end.

Record kept (S : usem) : Prop := Kept {
  k_value u l : R OpDefault u -> raises rg (us_value S u l);
  k_definit u l : R OpDefault u -> raises rg (us_definit S u l);
  k_copy u d s : R OpCopy u -> raises rg (us_copy S u d s);
  k_move u d s : R OpMove u -> raises rg (us_move S u d s);
  k_move_nt P u d s : nt_move (te C u) = true -> raises P (us_move S u d s);
  k_cassign u d s : R OpCopyAssign u -> raises rg (us_cassign S u d s);
  k_massign u d s : R OpMoveAssign u -> raises rg (us_massign S u d s);
  k_swap u l r : sw u -> raises rg (us_swap S u l r);
  k_destroy P u l : raises P (us_destroy S u l);
  k_read P u l : raises P (us_read S u l)
}.

Section usem.
Context (S : usem) (HS : kept S).
Definition hvalue := k_value S HS.
Definition hdefinit := k_definit S HS.
Definition hcopy := k_copy S HS.
Definition hmove := k_move S HS.
Definition hmove_nt := k_move_nt S HS.
Definition hcassign := k_cassign S HS.
Definition hmassign := k_massign S HS.
Definition hswap := k_swap S HS.
Definition hdestroy := k_destroy S HS.
Definition hread := k_read S HS.
#[local] Hint Resolve hvalue hdefinit hcopy hmove hmove_nt hcassign hmassign hswap hdestroy hread : nds.

Ltac os := repeat first
  [ done
  | assumption
  | solve [eauto 2 with nds nocore]
  | match goal with
    | H : context [raises _ _] |- raises _ _ => solve [simple apply H]
    | |- raises _ (bind _ _) => apply raises_bind; [|intros]
    | |- raises _ (on_exn _ _) => apply raises_on_exn
    | |- raises _ (finally _ _) => apply raises_finally
    | |- raises _ (noexcept_if _ _) => apply raises_noexcept_if
    | |- raises _ (new_obj _ _) => apply n_new_obj; intros
    | |- raises _ (stack_obj _) => apply raises_stack_obj; intros
    | |- raises _ (local_variant _) => apply raises_local_variant; intros
    | |- raises _ (scoped _ _ _) => apply raises_scoped; [|intros|intros]
    | |- raises _ (match ?x with _ => _ end) => destruct x eqn:?
    | |- raises _ ((match ?x with _ => _ end) _) => destruct x eqn:?
    end ].


Lemma n_i_copy t d s : all (r_copy t) -> raises rg (i_copy S t d s).
Proof. intros H. pose proof (H _ _ ltac:(by left)). unfold i_copy. destruct t; simpl in *; os. Qed.
Lemma n_i_move t d s : all (r_move t) -> raises rg (i_move S t d s).
Proof. intros H. pose proof (H _ _ ltac:(by left)). unfold i_move. destruct t; simpl in *; os. Qed.
Lemma n_i_move_nt P t d s : it_move C t = true -> raises P (i_move S t d s).
Proof. intros. unfold i_move. destruct t; simpl in *; os. Qed.
Lemma n_i_copy_from t d s : all (r_copy t) -> raises rg (i_copy_from S t d s).
Proof. intros H. pose proof (H _ _ ltac:(by left)). unfold i_copy_from. destruct t; simpl in *; os. Qed.
Lemma n_i_move_from t d s : all (r_move t) -> raises rg (i_move_from S t d s).
Proof. intros H. pose proof (H _ _ ltac:(by left)). unfold i_move_from. destruct t; simpl in *; os. Qed.
Lemma n_i_value t d : all (r_default t) -> raises rg (i_value S t d).
Proof. intros H. pose proof (H _ _ ltac:(by left)). unfold i_value. destruct t; simpl in *; os. Qed.
Lemma n_i_cassign t l r : all (r_cassign t) -> raises rg (i_cassign S t l r).
Proof. intros H. pose proof (H _ _ ltac:(by left)). unfold i_cassign. destruct t; simpl in *; os. Qed.
Lemma n_i_massign t l r : all (r_massign t) -> raises rg (i_massign S t l r).
Proof. intros H. unfold i_massign. destruct t; simpl in *; [pose proof (H _ _ ltac:(by left))|]; os. Qed.
Lemma n_i_destroy P t l : raises P (i_destroy S t l).
Proof. unfold i_destroy. destruct t; simpl in *; os. Qed.
#[local] Hint Resolve n_i_copy n_i_move n_i_move_nt n_i_copy_from n_i_move_from n_i_value n_i_cassign n_i_massign n_i_destroy : nds.
Lemma n_bk_destroy P t l : raises P (bk_destroy S t l). Proof. unfold bk_destroy. os. Qed.
#[local] Hint Resolve n_bk_destroy : nds.

Lemma n_s_copy x d s : all (r_rhs_copy x) -> raises rg (s_copy C S x d s).
Proof. intros. unfold s_copy. destruct x; simpl in *; os. Qed.
Lemma n_s_move x d s : all (r_rhs_move x) -> raises rg (s_move C S x d s).
Proof. intros. unfold s_move. destruct x; simpl in *; os. Qed.
Lemma n_s_move_nt P x d s : s_nt_move C x = true -> raises P (s_move C S x d s).
Proof. intros. unfold s_move. destruct x; simpl in *; os. Qed.
Lemma n_s_destroy P x l : raises P (s_destroy S x l). Proof. unfold s_destroy. os. Qed.
#[local] Hint Resolve n_s_copy n_s_move n_s_move_nt n_s_destroy : nds.

Lemma n_visit {A} P tys a (k : sty -> loc -> M A) : (forall x l, x ∈ visits C tys -> raises P (k x l)) -> raises P (visit C tys a k).
Proof.
  intros H. unfold visit. apply raises_bind; [apply raises_read_which|]. intros w.
  destruct (visitation (lim C) tys (which_of w)) as [t| |] eqn:E; [|apply raises_faulty..].
  apply (Origins.visitation_in C st nb HC) in E. destruct (never_uses_backup C tys t) eqn:En; [|case_decide]; apply H, visits_in; done.
Qed.
Lemma n_visit_user {A} P tys a (k : uid -> loc -> M A) :
  (forall x l, x ∈ visits C tys -> raises P (k (ity_uid (Origins.sty_ity x)) l)) -> raises P (visit_user C tys a k).
Proof.
  intros H. apply n_visit. intros x l Hx. unfold unwrap, unwrap_int.
  destruct x as [[u|u]|[u|u]].
  - by apply (H (SInt (IPlain u))).
  - apply raises_bind; [apply raises_wrap_ptr|]. intros; by apply (H (SInt (IWrap u))).
  - apply raises_bind; [apply raises_bk_get|]. intros; by apply (H (SBk (IPlain u))).
  - apply raises_bind; [apply raises_bk_get|]. intros; apply raises_bind; [apply raises_wrap_ptr|]. intros; by apply (H (SBk (IWrap u))).
Qed.
Lemma all_app r1 r2 : all (r1 ++ r2) -> all r1 /\ all r2.
Proof. intros H. split; intros k u Hi; apply H, elem_of_app; auto. Qed.
Lemma all_visits tys f x : all (visits C tys ≫= f) -> x ∈ visits C tys -> all (f x).
Proof. intros H Hx k u Hi. apply H, elem_of_list_bind. eauto. Qed.

Ltac os2 := repeat first
  [ progress os
  | match goal with
    | |- raises _ (visit _ _ _ _) => apply n_visit; intros
    | |- raises _ (visit_user _ _ _ _) => apply n_visit_user; intros
    end ].

Lemma n_destroy_content P tys a : raises P (destroy_content C S tys a). Proof. unfold destroy_content. os2. Qed.
Lemma n_var_destroy P tys a : raises P (var_destroy C S tys a). Proof. unfold var_destroy. os2. Qed.
#[local] Hint Resolve n_destroy_content n_var_destroy : nds.
Lemma n_var_default tys a : all (inst C VDefault tys) -> raises rg (var_default C S tys a).
Proof. intros H. unfold var_default. destruct tys as [|t r]; os2. Qed.
Lemma n_copy_into d x l : all (r_copy_into x) -> raises rg (copy_into S d x l).
Proof. intros. unfold copy_into. destruct x; simpl in *; os2. Qed.
Lemma n_move_into d x l : all (r_move_into x) -> raises rg (move_into C S d x l).
Proof. intros. unfold move_into. destruct x; simpl in *; os2. Qed.
Lemma n_var_copy tys d s : all (inst C VCopy tys) -> raises rg (var_copy C S tys d s).
Proof. intros H. unfold var_copy. os2. apply n_copy_into. by eapply all_visits. Qed.
Lemma n_var_move tys d s : all (visits C tys ≫= r_move_into) -> raises rg (var_move C S tys d s).
Proof. intros H. unfold var_move. os2. apply n_move_into. by eapply all_visits. Qed.
Lemma n_var_move_nt P tys d s : (forall t, t ∈ tys -> it_move C t = true) -> raises P (var_move C S tys d s).
Proof.
  intros H. unfold var_move. os2. apply visits_in in H0. unfold move_into. destruct x as [t|t]; simpl in *.
  - specialize (H t H0). os2.
  - destruct H0 as [H0 _]. specialize (H t H0). os2.
Qed.
#[local] Hint Resolve n_var_default n_var_copy n_var_move : nds.
Lemma n_convert_obj u u' d s : R OpConvert u' -> raises rg (convert_obj C u u' d s).
Proof. intros. unfold convert_obj. os2; by apply n_maybe. Qed.
Lemma n_initialize tys a u s (mv : bool) : all (r_initialize C tys u mv) -> raises rg (initialize C S tys a u s mv).
Proof.
  intros H. unfold initialize. unfold r_initialize in H. destruct (resolve C tys u) as [i|]; [|os]. simpl in H.
  destruct (tys !! i) as [t|] eqn:Hi; [|os].
  apply raises_bind; [|os]. destruct (decide (ity_uid t = u)).
  - destruct mv; [by apply n_i_move_from|by apply n_i_copy_from].
  - apply (all_app [_] (r_move t)) in H as [H1 H2]. pose proof (H1 _ _ ltac:(by left)). os; by apply n_convert_obj.
Qed.
Lemma n_var_from tys a u s (mv : bool) : all (r_initialize C tys u mv) -> raises rg (var_from C S tys a u s mv).
Proof. intros. unfold var_from. os2; by apply n_initialize. Qed.
Lemma n_var_convert tys a tys' b (mv : bool) : all (inst C (VConvert tys' mv) tys) -> raises rg (var_convert C S tys a tys' b mv).
Proof.
  intros H. unfold var_convert. os2; apply n_initialize. intros k u Hi. apply H. cbn [inst]. apply elem_of_list_bind.
  apply visits_in in H0. exists (Origins.sty_ity x). destruct x; simpl in *; [done|]. by destruct H0.
Qed.
Lemma n_construct_fallback P tys a : raises P (construct_fallback C S tys a). Proof. unfold construct_fallback. os2. Qed.
#[local] Hint Resolve n_construct_fallback : nds.
Lemma n_backup_assigner a rw x src y l : all (r_rhs_copy x) -> all (r_backup_assigner C y) -> raises rg (backup_assigner C S a rw x src y l).
Proof.
  intros Hx Hy. unfold backup_assigner, backup_assign_1, backup_assign_2, backup_assign_3.
  destruct y as [t|t]; simpl in *; [|os2]. destruct (it_move C t) eqn:Ht; os2.
Qed.
Lemma n_assign_4 tys a rw x src : all (r_assign_4 C tys x) -> raises rg (assign_4 C S tys a rw x src).
Proof. intros [H1 H2]%all_app. unfold assign_4. os2. apply n_backup_assigner; [done|]. by eapply all_visits. Qed.
#[local] Hint Resolve n_assign_4 : nds.
Lemma n_assigner tys a rw x src : all (r_assigner C tys x) -> raises rg (assigner C S tys a rw x src).
Proof.
  intros H. unfold assigner, assign_1, assign_2, assign_3. unfold r_assigner in H.
  destruct (s_nt_copy C x); [os2|]. destruct (s_nt_move C x) eqn:?; [apply all_app in H as [? ?]; os2|].
  destruct (has_fallback C tys); [apply all_app in H as [? ?]|]; os2.
Qed.
Lemma n_move_assigner tys a rw x src : all (r_move_assigner C tys x) -> raises rg (move_assigner C S tys a rw x src).
Proof.
  intros H. unfold move_assigner, massign_move, massign_fallback. unfold r_move_assigner in H.
  destruct (s_nt_move C x) eqn:?; [os2|]. destruct (s_nt_copy C x); [os2|].
  destruct (has_fallback C tys); [apply all_app in H as [? ?]|]; os2.
Qed.
Lemma n_assign_storage r x l : all (r_assign_storage x) -> raises rg (assign_storage S r x l).
Proof. intros. unfold assign_storage. destruct x; simpl in *; os2. Qed.
Lemma n_move_storage r x l : all (r_move_storage x) -> raises rg (move_storage S r x l).
Proof. intros. unfold move_storage. destruct x; simpl in *; os2. Qed.
Lemma n_var_assign tys a b : all (r_var_assign C tys) -> raises rg (var_assign C S tys a b).
Proof. intros [H1 H2]%all_app. unfold var_assign. os2; [apply n_assign_storage|apply n_assigner]; by eapply all_visits. Qed.
Lemma n_variant_massign tys a b : all (r_var_massign C tys) -> raises rg (variant_massign C S tys a b).
Proof. intros [H1 H2]%all_app. unfold variant_massign. os2; [apply n_move_storage|apply n_move_assigner]; by eapply all_visits. Qed.
Lemma n_var_massign tys a b : all (r_var_massign C tys) -> raises rg (var_massign C S tys a b).
Proof. intros. unfold var_massign. os2; by apply n_variant_massign. Qed.
#[local] Hint Resolve n_var_assign n_variant_massign n_var_massign : nds.
Lemma n_var_assign_from tys a u s (mv : bool) : all (inst C (VAssignFrom u mv) tys) -> raises rg (var_assign_from C S tys a u s mv).
Proof.
  intros [H1 [H2 H3]%all_app]%all_app. unfold var_assign_from. os2; [|by apply n_var_from].
  unfold direct_assign. case_decide as Hu; [|os2].
  assert (Hr : R (if mv then OpMoveAssign else OpCopyAssign) u).
  { apply H1. unfold r_direct. destruct (existsb _ tys) eqn:E; [by left|]. exfalso. apply not_true_iff_false in E.
    apply E, existsb_exists. exists (Origins.sty_ity x). split; [|by apply bool_decide_eq_true].
    apply elem_of_list_In. apply visits_in in H. destruct x; [done|by destruct H]. }
  destruct mv; os2.
Qed.
Lemma n_var_assign_convert tys a tys' b (mv : bool) : all (inst C (VAssignConvert tys' mv) tys) -> raises rg (var_assign_convert C S tys a tys' b mv).
Proof. intros [H1 H2]%all_app. unfold var_assign_convert. os2; by apply n_var_convert. Qed.
Lemma n_known_get P tys b u : raises P (known_get C tys b u). Proof. unfold known_get. os2. Qed.
#[local] Hint Resolve n_known_get : nds.
Lemma n_var_swap tys a b : all (inst C VSwap tys) -> raises rg (var_swap C S tys a b).
Proof.
  intros [H1 [H2 H3]%all_app]%all_app. unfold var_swap. os2. apply hswap. pose proof (all_visits _ _ _ H1 H) as Hx.
  unfold r_swap_with in Hx. unfold sw. destruct x as [t|t]; simpl in *; destruct (ut_swap _); [apply Hx; by left| |apply Hx; by left|];
    (split; apply Hx; [by left|right; by left]).
Qed.
Lemma n_var_read P tys a : raises P (var_read C S tys a). Proof. unfold var_read. os2. Qed.
Lemma n_var_get P tys a u : raises P (var_get C tys a u). Proof. unfold var_get. os2. Qed.
Lemma n_var_type P tys a : raises P (var_type C tys a). Proof. unfold var_type. os2. Qed.
Lemma n_var_eq P tys f a b : raises P (var_eq C S tys f a b). Proof. unfold var_eq, comparer. os2. Qed.
Lemma n_var_lt P tys f a b : raises P (var_lt C S tys f a b). Proof. unfold var_lt, comparer. os2. Qed.
#[local] Hint Resolve n_var_read : nds.
Lemma n_get_ref tys a u {B} (f : loc -> M B) : (forall l, raises rg (f l)) ->
  raises (fun e => e = XBadGet \/ rg e) (bind (var_get_ref C tys a u) f).
Proof.
  intros Hf s. unfold bind at 1. unfold var_get_ref, bind. pose proof (n_var_get (fun _ => False) tys a u s) as Hg.
  destruct (var_get C tys a u s) as [[l|] s1|e s1|g] eqn:E; [|by left|done|done].
  simpl. specialize (Hf l s1). destruct (f l s1); auto.
Qed.

Lemma n_make_members P {B} mk mems (bs : list B) : (forall tys b l, tys ∈ mems -> raises P (mk tys b l)) -> raises P (make_members C S mk mems bs).
Proof.
  revert bs. induction mems as [|tys mems IH]; intros [|b bs] Hmk; simpl; try apply raises_faulty; try apply raises_ret.
  apply raises_bind; [|intros; apply raises_bind; [|intros; apply raises_ret]].
  - apply raises_local_variant. intros; apply Hmk. by left.
  - apply raises_on_exn; [|os]. apply IH. intros; apply Hmk. by right.
Qed.
Lemma n_destroy_members P mems ks : raises P (destroy_members C S mems ks).
Proof. revert ks. induction mems as [|tys mems IH]; intros [|b bs]; simpl; os2. Qed.
Lemma n_read_members P mems ks : raises P (read_members C S mems ks).
Proof. revert ks. induction mems as [|tys mems IH]; intros [|b bs]; simpl; os2. Qed.
#[local] Hint Resolve n_destroy_members n_read_members : nds.

Lemma members_all k u tys o : R k u -> tys ∈ ut_members (te C u) -> member_op k = Some o -> all (inst C o tys).
Proof. intros Hu Ht Ho k' u' Hi. by eapply HR. Qed.

Ltac os3 := repeat first
  [ progress os2
  | match goal with
    | |- raises _ (make_members _ _ _ _ _) => apply n_make_members; intros
    | |- raises _ (assign_members _ _ _ _) => apply Origins.o_assign_members; intros
    end ].
Ltac mem k := match goal with H : R k ?u, H' : ?tys ∈ ut_members (te C ?u) |- _ => pose proof (members_all k u tys _ H H' eq_refl); clear H' end.
Lemma n_u_value u d : R OpDefault u -> raises rg (u_value C S u d).
Proof. intros. unfold u_value. os3; mem OpDefault; os3. Qed.
#[local] Hint Resolve n_u_value : nds.
Lemma n_u_copy u d s : R OpCopy u -> raises rg (u_copy C S u d s).
Proof. intros. unfold u_copy. os3; mem OpCopy; os3. Qed.
Lemma n_u_move u d s : R OpMove u -> raises rg (u_move C S u d s).
Proof. intros. unfold u_move. os3; mem OpMove; os3. Qed.
Lemma n_u_move_nt P u d s : nt_move (te C u) = true -> raises P (u_move C S u d s).
Proof.
  intros Hn. unfold u_move. rewrite Hn. os3; apply n_var_move_nt. intros t Ht. apply nothrow_move_it. by eapply (ge_move _ _ _ HC).
Qed.
Lemma n_u_cassign u d s : R OpCopyAssign u -> raises rg (u_cassign C S u d s).
Proof. intros. unfold u_cassign. os3; mem OpCopyAssign; os3. Qed.
Lemma n_u_massign u d s : R OpMoveAssign u -> raises rg (u_massign C S u d s).
Proof. intros. unfold u_massign. os3; mem OpMoveAssign; os3. Qed.
Lemma n_u_destroy P u l : raises P (u_destroy C S u l). Proof. unfold u_destroy. os3. Qed.
Lemma n_u_swap u l r : sw u -> raises rg (u_swap C S u l r).
Proof.
  intros Hs. unfold sw in Hs. unfold u_swap, own_swap, std_swap. destruct (ut_swap (te C u)) as [b|] eqn:E.
  - os3; mem OpSwap; by apply n_var_swap.
  - destruct Hs as [H1 H2]. os3; first [by apply n_u_move|apply n_u_destroy|by apply n_u_massign].
Qed.
End usem.

Lemma n_step S : kept S -> kept (sem_step C S).
Proof.
  intros HS. split; simpl; intros.
  - by apply n_u_value.
  - unfold u_definit. destruct (ut_init _); first [by apply n_u_value|apply raises_construct].
  - by apply n_u_copy.
  - by apply n_u_move.
  - by apply n_u_move_nt.
  - by apply n_u_cassign.
  - by apply n_u_massign.
  - by apply n_u_swap.
  - by apply n_u_destroy.
  - unfold u_read. apply raises_bind; [apply raises_expect|]. intros [z ks]. apply raises_bind; [apply raises_note|]. intros.
    apply raises_bind; [by apply n_read_members|]. intros. apply raises_ret.
Qed.
Lemma n_sem n : kept (sem C n).
Proof. induction n as [|n IH]; apply n_step; [|done]. split; intros; apply raises_faulty. Qed.
End needed.
