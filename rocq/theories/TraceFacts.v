(** Traces that make sense balance (proofs). *)
From Coq.ssr Require Import ssreflect.
From Coq Require Import ZArith Lia.
From iris.prelude Require Import prelude.
From stdpp Require Import base gmap list numbers.
From Verif Require Import Base Trace.

Lemma occupant_count l t r k : occupant l t = Some r ->
  cnt (EvC k l) t = cnt (EvD k l) t + (if decide (r = Some k) then 1 else 0).
Proof.
  revert r. induction t as [|e t IH]; simpl.
  - intros r [= <-]. done.
  - intros r. destruct e as [k' l'|k' l'|p l'|l']; simpl.
    + destruct (decide (l' = l)) as [->|Hl].
      * destruct (occupant l t) as [[k''|]|] eqn:E; try done. intros [= <-].
        specialize (IH None eq_refl). simpl in IH. repeat case_decide; simplify_eq; lia.
      * intros Hr. specialize (IH _ Hr). repeat case_decide; simplify_eq; lia.
    + destruct (decide (l' = l)) as [->|Hl].
      * destruct (occupant l t) as [[k''|]|] eqn:E; try done. case_decide; [|done]. intros [= <-]. subst.
        specialize (IH _ eq_refl). repeat case_decide; simplify_eq; lia.
      * intros Hr. specialize (IH _ Hr). repeat case_decide; simplify_eq; lia.
    + intros Hr. specialize (IH _ Hr). repeat case_decide; simplify_eq; lia.
    + intros Hr. specialize (IH _ Hr). repeat case_decide; simplify_eq; lia.
Qed.

Lemma block_count l t b : block l t = Some b ->
  cnt (EvNew APWrap l) t + cnt (EvNew APBackup l) t = match b with BNever => 0 | _ => 1 end /\
  cnt (EvDel l) t = match b with BFreed => 1 | _ => 0 end.
Proof.
  revert b. induction t as [|e t IH]; simpl.
  - intros b [= <-]. done.
  - intros b. destruct e as [k' l'|k' l'|p l'|l']; simpl.
    + intros Hb. destruct (IH _ Hb) as [IH1 IH2]; clear IH. destruct b; repeat case_decide; simplify_eq; lia.
    + intros Hb. destruct (IH _ Hb) as [IH1 IH2]; clear IH. destruct b; repeat case_decide; simplify_eq; lia.
    + destruct (decide (l' = l)) as [->|Hl].
      * destruct (block l t) as [[]|] eqn:E; try done. intros [= <-]. destruct (IH _ eq_refl) as [IH1 IH2]; clear IH.
        destruct p; repeat case_decide; simplify_eq; lia.
      * intros Hb. destruct (IH _ Hb) as [IH1 IH2]; clear IH. destruct b; repeat case_decide; simplify_eq; lia.
    + destruct (decide (l' = l)) as [->|Hl].
      * destruct (block l t) as [[]|] eqn:E; try done. destruct (occupant l t) as [[]|]; try done.
        intros [= <-]. destruct (IH _ eq_refl) as [IH1 IH2]; clear IH. repeat case_decide; simplify_eq; lia.
      * intros Hb. destruct (IH _ Hb) as [IH1 IH2]; clear IH. destruct b; repeat case_decide; simplify_eq; lia.
Qed.
