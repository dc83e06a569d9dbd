(** Visitation's switch finds the type at the index (proofs). *)
From Coq Require Import ssreflect ZArith Lia.
From stdpp Require Import base list numbers.
From Verif Require Import Dispatch.

Section dispatch.
Context {T : Type}.
Implicit Types (rest tys : list T).

Lemma switch_cases_hit n w rest lw :
  (w <= lw < w + Z.of_nat n)%Z ->
  switch_cases n w rest lw = Some (rest !! Z.to_nat (lw - w)).
Proof.
  revert w rest. induction n as [|n IH]; intros w rest H; simpl; [lia|].
  case_decide as Hd.
  - subst. rewrite Z.sub_diag. destruct rest; done.
  - rewrite IH; [lia|]. f_equal.
    replace (Z.to_nat (lw - w)) with (S (Z.to_nat (lw - (w + 1)))) by lia.
    destruct rest; done.
Qed.

Lemma switch_cases_miss n w rest lw :
  (lw < w \/ w + Z.of_nat n <= lw)%Z -> switch_cases n w rest lw = None.
Proof.
  revert w rest. induction n as [|n IH]; intros w rest H; simpl; [done|].
  rewrite decide_False; [lia|]. apply IH. lia.
Qed.

Lemma visitation_impl_in fuel L w rest lw t :
  (0 < L)%nat -> (length rest < fuel)%nat -> (w <= lw)%Z ->
  rest !! Z.to_nat (lw - w) = Some t ->
  visitation_impl fuel L w rest lw = DCase t.
Proof.
  intros HL. revert w rest. induction fuel as [|f IH]; intros w rest Hf Hw Hl; [lia|].
  simpl. destruct (decide (lw < w + Z.of_nat L)%Z) as [Hlt|Hge].
  - rewrite switch_cases_hit; [lia|]. rewrite Hl. done.
  - rewrite switch_cases_miss; [lia|].
    assert (Hd : drop L rest !! Z.to_nat (lw - (w + Z.of_nat L)) = Some t).
    { rewrite lookup_drop -Hl. f_equal. lia. }
    destruct (drop L rest) as [|x r] eqn:E; [done|].
    apply IH; [|lia|done].
    assert (length (drop L rest) = length (x :: r)) by by rewrite E.
    rewrite drop_length in H. simpl in *. lia.
Qed.

Lemma visitation_impl_out fuel L w rest lw :
  (0 < L)%nat -> (length rest < fuel)%nat ->
  (lw < w \/ w + Z.of_nat (length rest) <= lw)%Z ->
  visitation_impl fuel L w rest lw = DForced.
Proof.
  intros HL. revert w rest. induction fuel as [|f IH]; intros w rest Hf Hl; [lia|].
  simpl. destruct (decide (w <= lw < w + Z.of_nat L)%Z) as [Hlt|Hge].
  - rewrite switch_cases_hit; [lia|].
    rewrite lookup_ge_None_2; [lia|done].
  - rewrite switch_cases_miss; [lia|].
    destruct (drop L rest) as [|x r] eqn:E; [done|].
    assert (length (drop L rest) = length (x :: r)) as Hlen by by rewrite E.
    rewrite drop_length in Hlen. simpl in Hlen.
    apply IH; [simpl; lia|simpl]. lia.
Qed.

(** For every unrolling limit of at least one, every list and every index. *)
Lemma visitation_lookup L tys (i : nat) t :
  (0 < L)%nat -> tys !! i = Some t -> visitation L tys (Z.of_nat i) = DCase t.
Proof.
  intros HL Hi. apply visitation_impl_in; [done|lia|lia|].
  rewrite Z.sub_0_r Nat2Z.id. done.
Qed.
Lemma visitation_out L tys lw :
  (0 < L)%nat -> (lw < 0 \/ Z.of_nat (length tys) <= lw)%Z -> visitation L tys lw = DForced.
Proof. intros HL H. apply visitation_impl_out; [done|lia|lia]. Qed.

End dispatch.
