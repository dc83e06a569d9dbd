(** Build settings do not matter to histories (proofs). *)
From Coq.ssr Require Import ssreflect.
From Coq Require Import ZArith Lia.
From iris.prelude Require Import prelude.
From stdpp Require Import gmap list numbers.
From Verif Require Import Base Types Variant Sem Values Client Queries Observe Spec History Reach BuildSpec BuildFacts.
From Verif Require LifeFacts.

Section build.
Context (st nb : bool) (eqf ltf : uid -> uval -> uval -> bool).

Lemma with_build_back C L nd : with_build (with_build C L nd) (lim C) (ndebug C) = C.
Proof. by destruct C. Qed.
Lemma good_build C L nd : good_env C st nb -> 0 < L -> good_env (with_build C L nd) st nb.
Proof. intros [] HL. by split. Qed.
Lemma defval_build C L nd k raw u : defval (with_build C L nd) k raw u = defval C k raw u.
Proof.
  revert raw u. induction k as [|k IH]; intros raw u; [done|]. cbn [defval].
  rewrite (_ : forall l, mapM (fun tys => match tys with
              | [] => None
              | IPlain u' :: _ => match defval (with_build C L nd) k false u' with Some v => Some (false, 0, v) | None => None end
              | IWrap u' :: _ => match defval (with_build C L nd) k true u' with Some v => Some (false, 0, v) | None => None end
              end) l = mapM (fun tys => match tys with
              | [] => None
              | IPlain u' :: _ => match defval C k false u' with Some v => Some (false, 0, v) | None => None end
              | IWrap u' :: _ => match defval C k true u' with Some v => Some (false, 0, v) | None => None end
              end) l) //.
  intros l. induction l as [|tys l IHl]; [done|]. simpl. rewrite IHl. by destruct tys as [|[|] tys]; rewrite ?IH.
Qed.
Lemma idefval_build C L nd k t : idefval (with_build C L nd) k t = idefval C k t.
Proof. destruct t; simpl; apply defval_build. Qed.
Lemma typed_build C L nd D σ c : typed C st nb D σ c -> typed (with_build C L nd) st nb D σ c.
Proof.
  destruct c; try exact (fun H => H). intros (H1&H2&t&r&v&H3&H4&H5). split; [exact H1|]. split; [exact H2|].
  exists t, r, v. by rewrite idefval_build.
Qed.
Lemma admissible_build C L nd E s c : admissible C st nb E s c -> admissible (with_build C L nd) st nb E s c.
Proof. intros (D&σ&H1&H2&H3). exists D, σ. split; [exact H1|]. split; [by apply typed_build|exact H3]. Qed.

Lemma yields_up C L nd c E s E' o s' : 0 < lim C -> 0 < L -> (ndebug C = true -> nd = true) ->
  yields C eqf ltf c E s (Done E' o s') -> yields (with_build C L nd) eqf ltf c E s (Done E' o s').
Proof.
  intros H1 H2 H3 [n0 Hy]. exists n0. intros n Hn. specialize (Hy n Hn). revert Hy. unfold exec.
  destruct (bd_op C L nd n eqf ltf E c H1 H2 H3 s) as [[f ->]|<-]; done.
Qed.
Lemma yields_det C c E s r r' : yields C eqf ltf c E s r -> yields C eqf ltf c E s r' -> r = r'.
Proof. intros [n1 H1] [n2 H2]. rewrite -(H1 (n1 `max` n2)); [|lia]. apply H2. lia. Qed.

Lemma yields_build C L nd c E s E' o s' : good_env C st nb -> 0 < L ->
  reached (with_build C L nd) st nb eqf ltf E s -> admissible C st nb E s c ->
  yields C eqf ltf c E s (Done E' o s') -> yields (with_build C L nd) eqf ltf c E s (Done E' o s').
Proof.
  intros HC HL Hr Ha Hy. pose proof (ge_lim _ _ _ HC) as H1. destruct nd; [by apply yields_up|].
  destruct (LifeFacts.no_undefined _ st nb eqf ltf (good_build C L false HC HL) E s c Hr (admissible_build C L false E s c Ha))
    as (E2&o2&s2&Hy2&_).
  pose proof (yields_up (with_build C L false) (lim C) (ndebug C) _ _ _ _ _ _ HL H1 ltac:(done) Hy2) as Hy3. rewrite with_build_back in Hy3.
  by rewrite (yields_det _ _ _ _ _ _ Hy Hy3).
Qed.

Lemma history_build C L nd orc h E s : good_env C st nb -> 0 < L ->
  history C st nb eqf ltf orc h E s -> history (with_build C L nd) st nb eqf ltf orc h E s.
Proof.
  intros HC HL. induction 1 as [|h E s c E' o s' Hh IH Ha Hy]; [constructor|]. econstructor; [exact IH|by apply admissible_build|].
  apply yields_build; [done|done|by eexists _, _|done|done].
Qed.
Lemma history_same C L nd orc h E s : good_env C st nb -> 0 < L ->
  history (with_build C L nd) st nb eqf ltf orc h E s <-> history C st nb eqf ltf orc h E s.
Proof.
  intros HC HL. split; [|by apply history_build]. intros Hh. rewrite -(with_build_back C L nd).
  apply history_build; [by apply good_build|exact (ge_lim _ _ _ HC)|done].
Qed.

Lemma step_build C L nd c E s E' o s' : good_env C st nb -> 0 < L ->
  step C st nb eqf ltf c E s E' o s' -> step (with_build C L nd) st nb eqf ltf c E s E' o s'.
Proof.
  intros HC HL ((orc&h&Hh)&Ha&Hy). assert (reached (with_build C L nd) st nb eqf ltf E s) as Hr.
  { exists orc, h. by apply history_build. }
  split; [done|]. split; [by apply admissible_build|]. by apply yields_build.
Qed.
Lemma step_same C L nd c E s E' o s' : good_env C st nb -> 0 < L ->
  step (with_build C L nd) st nb eqf ltf c E s E' o s' <-> step C st nb eqf ltf c E s E' o s'.
Proof.
  intros HC HL. split; [|by apply step_build]. intros Hh. rewrite -(with_build_back C L nd).
  apply step_build; [by apply good_build|exact (ge_lim _ _ _ HC)|done].
Qed.

(** Visitation, of any variants in any state, with any visitor: where it does not fault. *)
Lemma visit_same C L nd n A (f : list arg -> M A) vs s : 0 < lim C -> 0 < L -> (ndebug C = true -> nd = true) ->
  (forall x, visit_many C (sem C n) f vs s <> Fault x) ->
  visit_many (with_build C L nd) (sem (with_build C L nd) n) f vs s = visit_many C (sem C n) f vs s.
Proof. intros HL HL' Hnd Hx. by destruct (bd_visit_many C L nd HL HL' Hnd n f vs s) as [[x H]|H]; [destruct (Hx x)|]. Qed.
Lemma hash_same C L nd n tys hashf combine a s : 0 < lim C -> 0 < L -> (ndebug C = true -> nd = true) ->
  (forall x, var_hash C (sem C n) tys hashf combine a s <> Fault x) ->
  var_hash (with_build C L nd) (sem (with_build C L nd) n) tys hashf combine a s = var_hash C (sem C n) tys hashf combine a s.
Proof. intros HL HL' Hnd Hx. by destruct (bd_hash C L nd HL HL' Hnd n tys hashf combine a s) as [[x H]|H]; [destruct (Hx x)|]. Qed.
Lemma print_same C L nd n tys pr o a s : 0 < lim C -> 0 < L -> (ndebug C = true -> nd = true) ->
  (forall x, var_print C (sem C n) tys pr o a s <> Fault x) ->
  var_print (with_build C L nd) (sem (with_build C L nd) n) tys pr o a s = var_print C (sem C n) tys pr o a s.
Proof. intros HL HL' Hnd Hx. by destruct (bd_print C L nd HL HL' Hnd n tys pr o a s) as [[x H]|H]; [destruct (Hx x)|]. Qed.

End build.
