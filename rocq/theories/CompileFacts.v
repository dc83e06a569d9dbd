(** Proofs for PropsCompile.v. *)
From stdpp Require Import base list numbers.
From Coq Require Import Lia.
From Verif Require Import Base Types TypesFacts Spec Compile CompileSpec Link.

(** ** apply_visitor *)

Lemma call_result_type cxx14 c n : 1 <= n -> call_compiles cxx14 (Visitor true c) n = true.
Proof. destruct n as [|[|[|[|n]]]]; [lia|..]; intros _; by destruct cxx14, c. Qed.

Lemma call_generic c n : call_compiles true (Visitor false c) n = true <-> 1 <= n <= 3.
Proof.
  destruct n as [|[|[|[|n]]]]; destruct c; vm_compute; split; intros H; try done; try lia.
Qed.

Lemma call_generic_old c n : call_compiles false (Visitor false c) n = false.
Proof. destruct n as [|[|[|[|n]]]]; by destruct c. Qed.

Lemma call_const cxx14 b c n o : selected cxx14 (Visitor b c) n = Some o ->
  seen_const c o <-> c = CLVal \/ (c = RVal /\ (b = true \/ 2 <= n)).
Proof.
  intros H. destruct n as [|[|[|[|n]]]]; destruct cxx14, b, c; vm_compute in H; try done; injection H as <-;
    unfold seen_const; cbn; (split; [intros [Hv|Hv]; try discriminate Hv|intros [Hv|[Hv [Hw|Hw]]]; try discriminate Hv; try discriminate Hw]);
    try lia; auto 6 with lia.
Qed.

(** ** The result type *)
Section Deduce.
Context (K : classes).

Lemma deduce_cons r r1 rs : deduce K (r :: r1 :: rs) =
  match deduce K (r1 :: rs) with Some r' => option_map decltype (cond K (called r) (declval r')) | None => None end.
Proof. done. Qed.

Lemma cond_same r : plain r -> option_map decltype (cond K (called r) (declval r)) = Some r.
Proof.
  intros Hp. destruct r as [|c t|c t|c t]; cbn; [done|..].
  - assert (c && is_class t = c) as ->.
    { destruct t as [n|x]; cbn; [|by rewrite andb_true_r]. destruct c; [|done]. by destruct (Hp n). }
    unfold adjusted. cbn [etype]. rewrite bool_decide_eq_true_2; [|done]. cbn.
    rewrite bool_decide_eq_false_2; [|done]. cbn. destruct t as [n|x]; cbn.
    + rewrite bool_decide_eq_true_2; [|done]. cbn. destruct c; [by destruct (Hp n)|done].
    + by rewrite bool_decide_eq_true_2.
  - unfold adjusted. cbn [etype]. rewrite bool_decide_eq_true_2; [|done]. cbn.
    by rewrite bool_decide_eq_true_2.
  - unfold adjusted. cbn [etype]. rewrite bool_decide_eq_true_2; [|done]. cbn.
    by rewrite bool_decide_eq_true_2.
Qed.

Lemma deduce_same r rs : plain r -> rs <> [] -> (forall r', r' ∈ rs -> r' = r) -> deduce K rs = Some r.
Proof.
  intros Hp Hne Hall. induction rs as [|r0 rs IH]; [done|].
  assert (r0 = r) as -> by (apply Hall; left). destruct rs as [|r1 rs].
  - cbn. destruct r as [|c t|c t|c t]; try done. cbn. destruct t as [n|x]; cbn; [|by rewrite andb_true_r].
    destruct c; [by destruct (Hp n)|done].
  - rewrite deduce_cons, IH; [by apply cond_same|done|]. intros r' Hr'. apply Hall. by right.
Qed.

Lemma compatible_is_a c t c' t' : compatible K c t c' t' = true -> is_a K t t' /\ (c = true -> c' = true).
Proof.
  unfold compatible. intros H. apply andb_prop in H as [H1 H2]. split; [|by destruct c, c'].
  apply orb_prop in H1 as [H1|H1].
  - apply bool_decide_eq_true in H1 as ->. constructor.
  - destruct t, t'; try done. by constructor.
Qed.

Lemma is_a_trans t1 t2 t3 : transitive K -> is_a K t1 t2 -> is_a K t2 t3 -> is_a K t1 t3.
Proof.
  intros Ht H1 H2. destruct H1 as [t|d b Hb]; [done|]. inversion H2; subst; [by constructor|].
  constructor. by eapply Ht.
Qed.

Lemma outlives_trans r1 r2 r3 : transitive K -> outlives K r1 r2 -> outlives K r2 r3 -> outlives K r1 r3.
Proof.
  intros Ht H1 H2. destruct H2; try by constructor.
  - inversion H1; subst. constructor; [by eapply is_a_trans|auto].
  - inversion H1; subst. constructor; [by eapply is_a_trans|auto].
Qed.

Lemma outlives_refl e : outlives K (decltype e) (decltype e).
Proof. destruct e; constructor; auto; constructor. Qed.

Section NoTemp.
Hypothesis Htemp : temp_direct K = false.

Lemma by_temporary_false t t' : by_temporary K t t' = false.
Proof. unfold by_temporary. rewrite Htemp. by destruct t, t'. Qed.

Lemma binds_to_glvalue e e' r : binds_to K e e' = Some r -> r = e' /\ outlives K (decltype e) (decltype r).
Proof.
  destruct e as [|c t|c t|c t], e' as [|c' t'|c' t'|c' t']; cbn; try done;
    rewrite ?by_temporary_false, ?Htemp, ?orb_false_r; cbn; try done;
    destruct (compatible K c t c' t') eqn:Hc; intros [= <-]; apply compatible_is_a in Hc as [H1 H2];
    (split; [done|by constructor]).
Qed.

Lemma match_to_outlives e e' r : match_to K e e' = Some r ->
  outlives K (decltype e) (decltype r) /\ (r = e' \/ exists c t, r = EPr c t).
Proof.
  unfold match_to. destruct (binds_to K e e') as [r0|] eqn:Hb.
  - intros [= <-]. apply binds_to_glvalue in Hb as [-> Hb]. auto.
  - destruct (etype e) as [[c t]|]; [|done]. destruct (etype e') as [[c' t']|]; [|done].
    destruct (negb _); [done|]. destruct (_ || _ || _).
    + destruct (compatible K c t c' t'); [|done]. intros [= <-]. split; [constructor|eauto].
    + destruct (converts K t t'); [|done]. intros [= <-]. split; [constructor|eauto].
Qed.

Lemma adjusted_outlives e e' e1 e1' : adjusted K e e' = Some (e1, e1') ->
  outlives K (decltype e) (decltype e1) /\ outlives K (decltype e') (decltype e1').
Proof.
  unfold adjusted. assert (Some (e, e') = Some (e1, e1') ->
    outlives K (decltype e) (decltype e1) /\ outlives K (decltype e') (decltype e1')) as Hsame.
  { intros [= <- <-]. split; apply outlives_refl. }
  destruct (etype e) as [[c t]|]; [|exact Hsame]. destruct (etype e') as [[c' t']|]; [|exact Hsame].
  destruct (_ && _); [|exact Hsame].
  destruct (match_to K e e') as [x|] eqn:H1, (match_to K e' e) as [y|] eqn:H2; try done.
  - intros [= <- <-]. split; [by apply match_to_outlives in H1 as [? _]|apply outlives_refl].
  - intros [= <- <-]. split; [apply outlives_refl|by apply match_to_outlives in H2 as [? _]].
Qed.

Lemma cond_outlives e e' r : cond K e e' = Some r ->
  outlives K (decltype e) (decltype r) /\ outlives K (decltype e') (decltype r).
Proof.
  unfold cond. destruct (adjusted K e e') as [[e1 e2]|] eqn:Ha;
    [|destruct e, e'; try done; intros [= <-]; split; constructor].
  apply adjusted_outlives in Ha as [H1 H2].
  assert ((if bool_decide (e1 = e2) then Some e1
          else match etype e1, etype e2 with
               | Some (c1, t1), Some (c2, t2) =>
                   match t1, t2 with
                   | TArith m, TArith n => Some (EPr false (TArith (if bool_decide (m = n) then m else arith K m n)))
                   | TClass x, TClass y => if bool_decide (x = y /\ c1 = c2) then Some (EPr c1 t1) else None
                   | _, _ => None
                   end
               | _, _ => None
               end) = Some r ->
    outlives K (decltype e) (decltype r) /\ outlives K (decltype e') (decltype r)) as Hmain.
  { destruct (bool_decide (e1 = e2)) eqn:Hb.
    - apply bool_decide_eq_true in Hb as <-. intros [= <-]. done.
    - destruct (etype e1) as [[c1 t1]|]; [|done]. destruct (etype e2) as [[c2 t2]|]; [|done].
      destruct t1, t2; try done.
      + intros [= <-]. split; constructor.
      + destruct (bool_decide (_ /\ _)); [|intros [=]]. intros [= <-]. split; constructor. }
  destruct e, e'; try done; try exact Hmain; intros [= <-]; split; constructor.
Qed.

(** An xvalue comes of two xvalues. *)
Lemma cond_xvalue e e' c t : cond K e e' = Some (EX c t) -> exists c1 t1, e = EX c1 t1.
Proof.
  intros H. apply cond_outlives in H as [H _]. cbn in H. inversion H as [| | |c1 t1 c' t' _ _ Hr]; subst.
  destruct e; cbn in *; try done. eauto.
Qed.

Lemma deduce_outlives rs R : transitive K -> (forall c t, RRref c t ∉ rs) ->
  deduce K rs = Some R -> forall r, r ∈ rs -> outlives K r R.
Proof.
  intros Ht. revert R. induction rs as [|r0 rs IH]; intros R Hx; [done|]. destruct rs as [|r1 rs].
  - cbn. intros [= <-] r Hr. apply elem_of_list_singleton in Hr as ->.
    destruct r0; cbn; constructor; auto; constructor.
  - rewrite deduce_cons. destruct (deduce K (r1 :: rs)) as [R'|] eqn:Hd; [|done].
    destruct (cond K (called r0) (declval R')) as [e|] eqn:Hc; [|done]. cbn. intros [= <-] r Hr.
    pose proof (cond_outlives _ _ _ Hc) as [H1 H2].
    assert (forall c t, e <> EX c t) as Hne.
    { intros c t ->. apply cond_xvalue in Hc as (c1&t1&Hc). destruct r0; try done. cbn in Hc.
      eapply (Hx c0 t0). left. }
    apply elem_of_cons in Hr as [->|Hr].
    + destruct r0; cbn in *; try done. destruct e as [|c0 t0|c0 t0|c0 t0]; try by constructor.
      * inversion H1.
      * by destruct (Hne c0 t0).
    + assert (outlives K r R') as HR'.
      { apply (IH R'); [|done|done]. intros c t Hin. eapply (Hx c t). by right. }
      destruct e as [|c t|c t|c t]; [constructor|constructor| |by destruct (Hne c t)].
      eapply outlives_trans; [done|exact HR'|]. destruct R'; cbn in *; inversion H2; subst. by constructor.
Qed.
End NoTemp.

(** Whatever counts as direct: an lvalue reference refers to an lvalue. *)
Lemma match_to_l e e' c t : match_to K e e' = Some (EL c t) -> outlives K (decltype e) (RLref c t).
Proof.
  unfold match_to. destruct (binds_to K e e') as [r0|] eqn:Hb.
  - intros [= ->]. destruct e as [|c1 t1|c1 t1|c1 t1], e' as [|c' t'|c' t'|c' t']; cbn in Hb; try done.
    + by destruct (_ || _).
    + destruct (compatible K c1 t1 c' t') eqn:Hc; [|done]. injection Hb as -> ->.
      apply compatible_is_a in Hc as [H1 H2]. by constructor.
    + by destruct (by_temporary _ _ _).
    + by destruct (_ || _).
  - destruct (etype e) as [[c1 t1]|]; [|done]. destruct (etype e') as [[c' t']|]; [|done].
    destruct (negb _); [done|]. destruct (_ || _ || _); [by destruct (compatible _ _ _ _ _)|by destruct (converts _ _ _)].
Qed.

Lemma cond_l e e' c t : cond K e e' = Some (EL c t) ->
  outlives K (decltype e) (RLref c t) /\ outlives K (decltype e') (RLref c t).
Proof.
  assert (forall e1 e2, adjusted K e e' = Some (e1, e2) ->
     (if bool_decide (e1 = e2) then Some e1
          else match etype e1, etype e2 with
               | Some (c1, t1), Some (c2, t2) =>
                   match t1, t2 with
                   | TArith m, TArith n => Some (EPr false (TArith (if bool_decide (m = n) then m else arith K m n)))
                   | TClass x, TClass y => if bool_decide (x = y /\ c1 = c2) then Some (EPr c1 t1) else None
                   | _, _ => None
                   end
               | _, _ => None
               end) = Some (EL c t) ->
     outlives K (decltype e) (RLref c t) /\ outlives K (decltype e') (RLref c t)) as Hmain.
  { intros e1 e2 Ha Hr. assert (e1 = EL c t /\ e2 = EL c t) as [-> ->].
    { destruct (bool_decide (e1 = e2)) eqn:Hb.
      - apply bool_decide_eq_true in Hb as <-. injection Hr as ->. done.
      - destruct (etype e1) as [[c1 t1]|]; [|done]. destruct (etype e2) as [[c2 t2]|]; [|done].
        destruct t1, t2; try done. by destruct (bool_decide (_ /\ _)). }
    clear Hr. unfold adjusted in Ha. revert Ha.
    assert (Some (e, e') = Some (EL c t, EL c t) ->
      outlives K (decltype e) (RLref c t) /\ outlives K (decltype e') (RLref c t)) as Hsame.
    { intros [= -> ->]. split; apply (outlives_refl (EL c t)). }
    destruct (etype e) as [[c1 t1]|]; [|exact Hsame]. destruct (etype e') as [[c2 t2]|]; [|exact Hsame].
    destruct (_ && _); [|exact Hsame].
    destruct (match_to K e e') as [x|] eqn:H1, (match_to K e' e) as [y|] eqn:H2; try done.
    - intros [= -> ->]. split; [by apply match_to_l in H1|apply (outlives_refl (EL c t))].
    - intros [= -> ->]. split; [apply (outlives_refl (EL c t))|by apply match_to_l in H2]. }
  unfold cond. destruct (adjusted K e e') as [[e1 e2]|] eqn:Ha.
  - specialize (Hmain e1 e2 eq_refl). destruct e, e'; try done.
  - destruct e, e'; try done.
Qed.

Lemma deduce_l rs c t : transitive K -> deduce K rs = Some (RLref c t) ->
  forall r, r ∈ rs -> outlives K r (RLref c t).
Proof.
  intros Ht. revert c t. induction rs as [|r0 rs IH]; intros c t; [done|]. destruct rs as [|r1 rs].
  - cbn. intros [= H] r Hr. apply elem_of_list_singleton in Hr as ->.
    destruct r0; cbn in H; try done. injection H as -> ->. apply (outlives_refl (EL c t)).
  - rewrite deduce_cons. destruct (deduce K (r1 :: rs)) as [R'|] eqn:Hd; [|done].
    destruct (cond K (called r0) (declval R')) as [e|] eqn:Hc; [|done]. cbn. intros [= He] r Hr.
    destruct e; try done. cbn in He. injection He as -> ->. apply cond_l in Hc as [H1 H2].
    apply elem_of_cons in Hr as [->|Hr].
    + destruct r0; cbn in H1; inversion H1; subst. by constructor.
    + destruct R' as [|c' t'|c' t'|c' t']; cbn in H2; inversion H2; subst.
      eapply outlives_trans; [done|by apply (IH c' t')|]. by constructor.
Qed.

Ltac decide_all := repeat match goal with
  | |- context [@bool_decide ?P ?d] =>
      first [rewrite (@bool_decide_eq_true_2 P d) by done | rewrite (@bool_decide_eq_false_2 P d) by (try done; intros [? ?]; done)]
  end.
Lemma cond_const_l x : cond K (EPr false (TClass x)) (EL true (TClass x)) = Some (EPr true (TClass x)).
Proof.
  unfold cond, adjusted, match_to, compatible. cbn. unfold compatible. decide_all. cbn. decide_all. cbn. decide_all. done.
Qed.
Lemma cond_const_x x : temp_direct K = true ->
  cond K (EPr false (TClass x)) (EX true (TClass x)) = Some (EX true (TClass x)).
Proof.
  intros Ht. unfold cond, adjusted, match_to. cbn. unfold compatible. rewrite Ht. decide_all. cbn. decide_all. done.
Qed.
Lemma deduce_const x : temp_direct K = true ->
  deduce K [RValue false (TClass x); RValue false (TClass x); RLref true (TClass x)] = Some (RRref true (TClass x)).
Proof. intros Ht. cbn -[cond]. rewrite cond_const_l. cbn -[cond]. by rewrite cond_const_x. Qed.

(** Lvalue references to one type. *)
Lemma cond_lvalues c c' t : cond K (EL c t) (EL c' t) = Some (EL (c || c') t).
Proof.
  unfold cond, adjusted, match_to, compatible. destruct c, c', t as [x|x]; cbn; unfold compatible; decide_all; cbn; decide_all; cbn; decide_all; cbn;
    rewrite ?andb_false_r, ?andb_true_r, ?orb_true_r; done.
Qed.
Lemma deduce_lvalues rs t : rs <> [] -> (forall r, r ∈ rs -> exists c, r = RLref c t) ->
  exists c, deduce K rs = Some (RLref c t) /\ (c = true <-> RLref true t ∈ rs).
Proof.
  intros Hne Hall. induction rs as [|r rs IH]; [done|]. destruct (Hall r) as [c Hr]; [by left|]. subst r.
  destruct rs as [|r' rs].
  - exists c. split; [done|]. rewrite elem_of_list_singleton. split; congruence.
  - destruct IH as (c'&Hd&Hc); [done|intros; apply Hall; by right|]. exists (c || c'). split.
    + change (deduce K (RLref c t :: r' :: rs)) with
        (match deduce K (r' :: rs) with Some R => option_map decltype (cond K (called (RLref c t)) (declval R)) | None => None end).
      rewrite Hd. cbn -[cond]. by rewrite cond_lvalues.
    + rewrite elem_of_cons, <- Hc. destruct c, c'; simpl; intuition congruence.
Qed.
(** Rvalue references to one type. *)
Lemma cond_xvalues c c' t : (forall x, by_function K x x = false) -> cond K (EX c t) (EX c' t) = Some (EX (c || c') t).
Proof.
  intros Hf. unfold cond, adjusted, match_to, compatible. destruct c, c', t as [x|x]; cbn; unfold compatible; decide_all; cbn; decide_all; cbn; decide_all; cbn;
    rewrite ?andb_false_r, ?andb_true_r, ?orb_true_r, ?Hf, ?andb_false_r; cbn; decide_all; done.
Qed.
Lemma deduce_xvalues rs t : (forall x, by_function K x x = false) -> rs <> [] -> (forall r, r ∈ rs -> exists c, r = RRref c t) ->
  exists c, deduce K rs = Some (RRref c t) /\ (c = true <-> RRref true t ∈ rs).
Proof.
  intros Hf Hne Hall. induction rs as [|r rs IH]; [done|]. destruct (Hall r) as [c Hr]; [by left|]. subst r.
  destruct rs as [|r' rs].
  - exists c. split; [done|]. rewrite elem_of_list_singleton. split; congruence.
  - destruct IH as (c'&Hd&Hc); [done|intros; apply Hall; by right|]. exists (c || c'). split.
    + change (deduce K (RRref c t :: r' :: rs)) with
        (match deduce K (r' :: rs) with Some R => option_map decltype (cond K (called (RRref c t)) (declval R)) | None => None end).
      rewrite Hd. cbn -[cond]. by rewrite cond_xvalues.
    + rewrite elem_of_cons, <- Hc. destruct c, c'; simpl; intuition congruence.
Qed.
(** Arithmetic types. *)
Definition arith_value (R : rty) (a : nat) := about R = Some (TArith a) /\ forall t, R <> RValue true t.
Lemma arith_value_inv R a : arith_value R a ->
  R = RValue false (TArith a) \/ (exists c, R = RLref c (TArith a)) \/ exists c, R = RRref c (TArith a).
Proof.
  intros [Ha Hc]. destruct R as [|[] t|c t|c t]; cbn in Ha; [done|by destruct (Hc t)| | |]; inversion Ha; subst; eauto.
Qed.
Lemma called_arith r a : about r = Some (TArith a) -> exists R, arith_value R a /\ called r = called R /\ decltype (called r) = R.
Proof.
  intros Ha. destruct r as [|c t|c t|c t]; cbn in Ha; [done| | |]; inversion Ha; subst.
  - exists (RValue false (TArith a)). cbn. rewrite andb_false_r. done.
  - exists (RLref c (TArith a)). done.
  - exists (RRref c (TArith a)). done.
Qed.
Lemma cond_arith R R' a b : arith_value R a -> arith_value R' b ->
  exists e, cond K (called R) (declval R') = Some e /\ arith_value (decltype e) (if decide (a = b) then a else arith K a b).
Proof.
  intros H H'. apply arith_value_inv in H. apply arith_value_inv in H'.
  destruct (decide (a = b)) as [He|Hn].
  - subst b. destruct H as [H|[[c H]|[c H]]], H' as [H'|[[c' H']|[c' H']]]; subst; try destruct c; try destruct c';
      unfold cond, adjusted, match_to, compatible; cbn; unfold compatible; decide_all; cbn; decide_all; cbn; decide_all; cbn;
      eexists; (split; [reflexivity|]); done.
  - assert (Hb : bool_decide (a = b) = false) by (by apply bool_decide_eq_false_2).
    assert (Ht : bool_decide (TArith a = TArith b) = false) by (apply bool_decide_eq_false_2; congruence).
    destruct H as [H|[[c H]|[c H]]], H' as [H'|[[c' H']|[c' H']]]; subst; unfold cond, adjusted; cbn;
      rewrite ?Ht, ?andb_false_r; cbn; rewrite ?andb_false_r;
      (rewrite bool_decide_eq_false_2 by congruence); rewrite Hb; eexists; (split; [reflexivity|]); done.
Qed.
Lemma deduce_arith rs ms m : about <$> rs = (fun a => Some (TArith a)) <$> (ms ++ [m]) ->
  exists R, deduce K rs = Some R /\ about R = Some (TArith (foldr (fun a b => if decide (a = b) then a else arith K a b) m ms)) /\
    forall t, R <> RValue true t.
Proof.
  revert rs. induction ms as [|a ms IH]; intros [|r rs] Hrs; try discriminate Hrs.
  - cbn in Hrs. inversion Hrs as [[Hr Hn]]. destruct rs; [|discriminate Hn].
    destruct (called_arith r m Hr) as (R&[Ha Hc]&_&Hd). exists R. cbn. rewrite Hd. done.
  - cbn in Hrs. inversion Hrs as [[Hr Hn]]. destruct (IH rs Hn) as (R'&Hd'&Ha').
    destruct (called_arith r a Hr) as (R&Ha&Hcall&_). destruct (cond_arith R R' a _ Ha Ha') as (e&He&Hv).
    destruct rs as [|r' rs]; [discriminate Hd'|]. exists (decltype e). split; [|exact Hv].
    change (deduce K (r :: r' :: rs)) with
      (match deduce K (r' :: rs) with Some R => option_map decltype (cond K (called r) (declval R)) | None => None end).
    rewrite Hd', Hcall, He. done.
Qed.
End Deduce.

(** ** Conversions of results *)
Section Becomes.
Context (K : classes).

Lemma becomes_trans t t' t'' : becomes K t t' -> becomes K t' t'' -> becomes K t t''.
Proof.
  intros H1 H2. induction H2; eauto using becomes.
Qed.
Lemma derived_becomes t t' : derived K t t' = true -> becomes K t t'.
Proof. destruct t, t'; try done. cbn. intros H. eapply becomes_base; [constructor|done]. Qed.
Lemma compatible_becomes c t c' t' : compatible K c t c' t' = true -> becomes K t t'.
Proof.
  unfold compatible. intros H. apply andb_prop in H as [H _]. apply orb_prop in H as [H|H]; [|by apply derived_becomes].
  apply bool_decide_eq_true in H as ->. constructor.
Qed.
Lemma temporary_becomes t t' : by_temporary K t t' = true -> becomes K t t'.
Proof. destruct t, t'; try done. cbn. intros H. apply andb_prop in H as [_ H]. eapply becomes_function; [constructor|done]. Qed.
Lemma converts_becomes t t' : converts K t t' = true -> becomes K t t'.
Proof.
  unfold converts. intros H. apply orb_prop in H as [H|H]; [eapply becomes_other; [constructor|done]|].
  destruct t, t'; try done. eapply becomes_function; [constructor|done].
Qed.
Definition typ (e : expr) : option cty := snd <$> etype e.
Lemma binds_to_becomes e e' x : binds_to K e e' = Some x -> x = e' /\ forall t t', typ e = Some t -> typ e' = Some t' -> becomes K t t'.
Proof.
  intros H. destruct e as [|c t|c t|c t], e' as [|c' t'|c' t'|c' t']; cbn in H; try done;
    match type of H with (if ?b then _ else _) = _ => destruct b eqn:Hb; [|done] end; injection H as <-;
    (split; [done|]); intros ? ? [= <-] [= <-].
  - apply orb_prop in Hb as [Hb|Hb]; [apply andb_prop in Hb as [_ Hb]; by eapply compatible_becomes|by apply temporary_becomes].
  - by eapply compatible_becomes.
  - by apply temporary_becomes.
  - apply orb_prop in Hb as [Hb|Hb]; [by eapply compatible_becomes|by apply temporary_becomes].
Qed.
Lemma match_to_becomes e e' x : match_to K e e' = Some x ->
  typ x = typ e' /\ forall t t', typ e = Some t -> typ e' = Some t' -> becomes K t t'.
Proof.
  unfold match_to. destruct (binds_to K e e') as [y|] eqn:Hb.
  - intros [= <-]. by apply binds_to_becomes in Hb as [-> Hb].
  - unfold typ. destruct (etype e) as [[c t]|]; [|done]. destruct (etype e') as [[c' t']|]; [|done].
    destruct (negb _); [done|]. destruct (_ || _ || _).
    + destruct (compatible K c t c' t') eqn:Hc; [|done]. intros [= <-]. split; [done|].
      intros ? ? [= <-] [= <-]. by eapply compatible_becomes.
    + destruct (converts K t t') eqn:Hc; [|done]. intros [= <-]. split; [done|].
      intros ? ? [= <-] [= <-]. by apply converts_becomes.
Qed.
(** Nothing, or a type that the given one becomes. *)
Definition obecomes (o o' : option cty) : Prop :=
  match o, o' with None, None => True | Some t, Some t' => becomes K t t' | _, _ => False end.
Lemma obecomes_refl o : obecomes o o.
Proof. destruct o; [apply becomes_same|done]. Qed.
Lemma obecomes_trans o o' o'' : obecomes o o' -> obecomes o' o'' -> obecomes o o''.
Proof. destruct o, o', o''; try done. apply becomes_trans. Qed.
Lemma match_to_obecomes e e' x : match_to K e e' = Some x -> obecomes (typ e) (typ x).
Proof.
  intros H. pose proof (match_to_becomes _ _ _ H) as [-> Hb]. destruct (typ e) as [t|] eqn:H1, (typ e') as [t'|] eqn:H2; cbn; auto.
  - exfalso. destruct e' as [| | |]; try done. unfold match_to in H. cbn in H. destruct e; done.
  - exfalso. destruct e as [| | |]; try done.
Qed.
Lemma adjusted_becomes e e' e1 e1' : adjusted K e e' = Some (e1, e1') -> obecomes (typ e) (typ e1) /\ obecomes (typ e') (typ e1').
Proof.
  unfold adjusted. assert (Some (e, e') = Some (e1, e1') -> obecomes (typ e) (typ e1) /\ obecomes (typ e') (typ e1')) as Hsame.
  { intros [= <- <-]. split; apply obecomes_refl. }
  destruct (etype e) as [[c t]|]; [|exact Hsame]. destruct (etype e') as [[c' t']|]; [|exact Hsame].
  destruct (_ && _); [|exact Hsame].
  destruct (match_to K e e') as [x|] eqn:H1, (match_to K e' e) as [y|] eqn:H2; try done.
  - intros [= <- <-]. split; [by eapply match_to_obecomes|apply obecomes_refl].
  - intros [= <- <-]. split; [apply obecomes_refl|by eapply match_to_obecomes].
Qed.
Lemma cond_becomes e e' r : cond K e e' = Some r -> obecomes (typ e) (typ r) /\ obecomes (typ e') (typ r).
Proof.
  unfold cond. destruct (adjusted K e e') as [[e1 e2]|] eqn:Ha; [|destruct e, e'; try done; intros [= <-]; done].
  apply adjusted_becomes in Ha as [H1 H2].
  assert ((if bool_decide (e1 = e2) then Some e1
          else match etype e1, etype e2 with
               | Some (c1, t1), Some (c2, t2) =>
                   match t1, t2 with
                   | TArith m, TArith n => Some (EPr false (TArith (if bool_decide (m = n) then m else arith K m n)))
                   | TClass x, TClass y => if bool_decide (x = y /\ c1 = c2) then Some (EPr c1 t1) else None
                   | _, _ => None
                   end
               | _, _ => None
               end) = Some r -> obecomes (typ e) (typ r) /\ obecomes (typ e') (typ r)) as Hmain.
  { destruct (bool_decide (e1 = e2)) eqn:Hb.
    - apply bool_decide_eq_true in Hb as <-. intros [= <-]. done.
    - unfold typ in H1, H2. destruct (etype e1) as [[c1 t1]|] eqn:Ht1; [|done]. destruct (etype e2) as [[c2 t2]|] eqn:Ht2; [|done].
      cbn in H1, H2. destruct t1 as [m|x], t2 as [n|y]; try done.
      + intros [= <-]. unfold typ in *. cbn. clear Hb. destruct (decide (m = n)) as [->|Hmn]; [by rewrite bool_decide_eq_true_2|rewrite bool_decide_eq_false_2 by done].
        split; (eapply obecomes_trans; [eassumption|]); cbn; [apply becomes_left|apply becomes_right]; constructor.
      + destruct (bool_decide (_ /\ _)) eqn:Hxy; [|done]. apply bool_decide_eq_true in Hxy as [-> ->]. intros [= <-]. done. }
  destruct e, e'; try done; try exact Hmain; intros [= <-]; split; constructor.
Qed.
Lemma typ_called r : typ (called r) = about r.
Proof. by destruct r. Qed.
Lemma typ_declval r : typ (declval r) = about r.
Proof. by destruct r. Qed.
Lemma about_decltype e : about (decltype e) = typ e.
Proof. by destruct e. Qed.
Lemma deduce_obecomes rs R : deduce K rs = Some R -> forall r, r ∈ rs -> obecomes (about r) (about R).
Proof.
  revert R. induction rs as [|r0 rs IH]; intros R; [done|]. destruct rs as [|r1 rs].
  - cbn. intros [= <-] r Hr. apply elem_of_list_singleton in Hr as ->. rewrite about_decltype, typ_called. apply obecomes_refl.
  - rewrite deduce_cons. destruct (deduce K (r1 :: rs)) as [R'|] eqn:Hd; [|done].
    destruct (cond K (called r0) (declval R')) as [e|] eqn:Hc; [|done]. cbn. intros [= <-] r Hr.
    apply cond_becomes in Hc as [H1 H2]. rewrite typ_called in H1. rewrite typ_declval in H2. rewrite about_decltype.
    apply elem_of_cons in Hr as [->|Hr]; [done|]. eapply obecomes_trans; [by apply (IH R')|done].
Qed.
Lemma deduce_becomes rs R : deduce K rs = Some R -> forall r, r ∈ rs ->
  match about r, about R with None, None => True | Some t, Some t' => becomes K t t' | _, _ => False end.
Proof. exact (deduce_obecomes rs R). Qed.

Lemma derived_is_a t t' : bool_decide (t = t') || derived K t t' = true <-> is_a K t t'.
Proof.
  split.
  - intros H. apply orb_prop in H as [H|H]; [apply bool_decide_eq_true in H as ->; constructor|]. destruct t, t'; try done. by constructor.
  - intros H. apply orb_true_iff. destruct H; [left; by apply bool_decide_eq_true|by right].
Qed.
(** Does a value of [t] match an xvalue or a value of [t']? *)
Definition goes (t t' : cty) : bool :=
  if bool_decide (t = t') || derived K t t' || derived K t' t then bool_decide (t = t') || derived K t t' else converts K t t'.
Lemma goes_turns t t' : t <> t' -> goes t t' = true <-> turns K t t'.
Proof.
  intros Hne. unfold goes. rewrite (bool_decide_eq_false_2 _ Hne). cbn.
  assert (Hu : derived K t t' || derived K t' t = false <-> unrelated K t t').
  { unfold unrelated. rewrite <-!derived_is_a, (bool_decide_eq_false_2 _ Hne), (bool_decide_eq_false_2 (t' = t)) by done. cbn.
    destruct (derived K t t'), (derived K t' t); cbn; split; try done; intros [? ?]; exfalso; eauto. }
  destruct (derived K t t' || derived K t' t) eqn:Hd.
  - split.
    + intros H. destruct t, t'; try done. by apply turns_base.
    + intros H. destruct H as [d b H|c c' H _|t t' H _]; [done| |]; by apply Hu in H.
  - pose proof (proj1 Hu eq_refl) as Hun. split.
    + unfold converts. intros H. apply orb_prop in H as [H|H]; [by apply turns_other|]. destruct t, t'; try done. by apply turns_function.
    + intros H. unfold converts. apply orb_true_iff. destruct H as [d b H|c c' _ H|t t' _ H]; [|by right|by left].
      cbn in Hd. by rewrite H in Hd.
Qed.
Lemma deduce_two t t' : temp_direct K = false -> t <> t' -> (exists x, t = TClass x \/ t' = TClass x) -> forall R,
  deduce K [RValue false t; RValue false t'] = Some R <->
  (R = RValue false t' /\ turns K t t' /\ ~ turns K t' t) \/ (R = RValue false t /\ turns K t' t /\ ~ turns K t t').
Proof.
  intros Hd Hne Hx R. assert (Hcl : is_class t || is_class t' = true).
  { destruct Hx as (x&[Hx|Hx]); subst; [done|]. cbn. by rewrite orb_true_r. }
  assert (Hm : forall e e', (exists t1 t1', t1 <> t1' /\ is_class t1 || is_class t1' = true /\ (e = EPr false t1 /\ e' = EX false t1' \/ e = EX false t1 /\ e' = EPr false t1')) ->
    forall t1 t1', typ e = Some t1 -> typ e' = Some t1' -> match_to K e e' = if goes t1 t1' then Some (EPr false t1') else None).
  { intros e e' (a&b&Hab&Hc&He) t1 t1' H1 H2.
    assert (Hbt : by_temporary K a b = false) by (unfold by_temporary; rewrite Hd; by destruct a, b).
    destruct He as [[-> ->]|[-> ->]]; injection H1 as <-; injection H2 as <-; unfold match_to; cbn; rewrite ?Hd, ?Hbt; cbn; rewrite Hc; cbn;
      unfold goes, compatible; rewrite (bool_decide_eq_false_2 (a = b)) by done; cbn; rewrite ?andb_true_r;
      destruct (derived K a b), (derived K b a); cbn; try done; by destruct (converts K a b). }
  pose proof (goes_turns t t' Hne) as G1. pose proof (goes_turns t' t (not_eq_sym Hne)) as G2.
  assert (Hr : deduce K [RValue false t; RValue false t'] =
    match goes t t', goes t' t with true, false => Some (RValue false t') | false, true => Some (RValue false t) | _, _ => None end).
  { cbn -[cond]. unfold cond, adjusted. cbn -[match_to].
    rewrite (bool_decide_eq_false_2 (false = false /\ t = t')) by (by intros [_ ?]). rewrite Hcl. cbn -[match_to].
    rewrite (Hm (EPr false t) (EX false t') ltac:(exists t, t'; auto) t t' eq_refl eq_refl).
    rewrite (Hm (EX false t') (EPr false t) ltac:(exists t', t; rewrite orb_comm; auto) t' t eq_refl eq_refl).
    destruct (goes t t') eqn:E1, (goes t' t) eqn:E2.
    - done.
    - rewrite (bool_decide_eq_false_2 (EPr false t' = EX false t')) by done. cbn. destruct t' as [n|y].
      + by rewrite (bool_decide_eq_true_2 (n = n)) by done.
      + by rewrite (bool_decide_eq_true_2 (y = y /\ false = false)) by done.
    - by rewrite (bool_decide_eq_true_2 (EPr false t = EPr false t)) by done.
    - rewrite (bool_decide_eq_false_2 (EPr false t = EX false t')) by done. cbn. destruct t as [m|x], t' as [n|y]; try done.
      by rewrite (bool_decide_eq_false_2 (x = y /\ false = false)) by (intros [-> _]; done). }
  rewrite Hr, <-G1, <-G2. destruct (goes t t'), (goes t' t); split; try done.
  all: try (intros [(_&?&H)|(_&?&H)]; done).
  all: try (by intros [(->&_&H)|(->&_&H)]; [try done|try done]).
  all: try (intros [= <-]; by left). all: try (intros [= <-]; by right).
  all: try (intros [(->&_&H)|(->&_&H)]; exfalso; by apply H).
Qed.
End Becomes.

(** ** Constructors *)
Section Constructors.
Context (C : cfg) (explicit : uid -> uid -> bool).

Lemma value_complete tys u : is_Some (resolve C tys u) -> constructible_from C explicit tys (IPlain u) = true.
Proof.
  intros [i Hi]. apply resolve_Some in Hi as (t&r&Ht&Hr&_). apply existsb_exists. exists t.
  split; [by eapply elem_of_list_In, elem_of_list_lookup_2|]. destruct t; cbn in *; by rewrite Hr.
Qed.

Lemma best_value tys u i : best_match C tys u i -> constructible_from C explicit tys (IPlain u) = true.
Proof. intros H. apply value_complete. exists i. by apply best_match_resolve. Qed.

Lemma body_value_iff tys u : body_value C tys u = true <-> exists i, best_match C tys u i.
Proof.
  unfold body_value. destruct (resolve C tys u) as [i|] eqn:E; split; try done.
  - intros _. exists i. by apply best_match_resolve.
  - intros [i Hi]. apply best_match_resolve in Hi. congruence.
Qed.

Lemma body_variant_iff tys src : body_variant C tys src = true <-> all_convert C tys src.
Proof.
  unfold body_variant, all_convert. rewrite forallb_forall. split.
  - intros H t Ht. apply body_value_iff, H. by apply elem_of_list_In.
  - intros H t Ht. apply body_value_iff, H. by apply elem_of_list_In.
Qed.

Lemma variant_iff tys src : all_convert C tys src ->
  constructible_from_variant C explicit tys src = true <-> (forall u, IWrap u ∈ src -> IWrap u ∈ tys).
Proof.
  intros Hall. unfold constructible_from_variant. rewrite forallb_forall. split.
  - intros H u Hu. specialize (H (IWrap u) (proj1 (elem_of_list_In _ _) Hu)).
    apply existsb_exists in H as (t&Hin&Ht). destruct t as [t|t]; [done|]. cbn in Ht.
    apply bool_decide_eq_true in Ht as ->. by apply elem_of_list_In.
  - intros H t Ht. apply elem_of_list_In in Ht. destruct t as [u|u].
    + destruct (Hall _ Ht) as [i Hi]. by eapply best_value.
    + apply existsb_exists. exists (IWrap u). split; [by apply elem_of_list_In, H|]. cbn. by apply bool_decide_eq_true.
Qed.
End Constructors.

(** ** Arguments *)
Lemma deduced_right cvar rvalue e : should_get cvar rvalue e (deduced_for cvar rvalue e).
Proof.
  destruct e as [[c v u]|[c v u]|t]; cbn; [..|constructor].
  - replace (if cvar then _ else _) with (GetTypes.OTy (c || cvar) v u); [by constructor; left|].
    destruct cvar; cbn; by rewrite ?orb_true_r, ?orb_false_r.
  - replace (if cvar then _ else _) with (GetTypes.OTy (c || cvar) v u); [by constructor; right|].
    destruct cvar; cbn; by rewrite ?orb_true_r, ?orb_false_r.
Qed.

Lemma should_get_fun cvar rvalue e g g' : should_get cvar rvalue e g -> should_get cvar rvalue e g' -> g = g'.
Proof.
  intros H1 H2. destruct H1 as [c v u e He|t].
  - inversion H2 as [c' v' u' e' He'|t]; subst; [|by destruct He]. by destruct He as [->| ->], He' as [?|?]; simplify_eq.
  - inversion H2 as [c' v' u' e' He'|t']; subst; [by destruct He'|done].
Qed.

Lemma passed_iff cvar rvalue e : should_get cvar rvalue e (passed cvar rvalue e) <->
  (rvalue = true -> forall t, e <> GetTypes.BRef t).
Proof.
  pose proof (deduced_right cvar rvalue e) as Hd. split.
  - intros H -> t ->. pose proof (should_get_fun _ _ _ _ _ H Hd) as Heq. by cbn in Heq.
  - intros H. replace (passed cvar rvalue e) with (deduced_for cvar rvalue e); [done|].
    destruct e as [t|t|t]; [done..|]. destruct rvalue; [by destruct (H eq_refl t)|done].
Qed.
