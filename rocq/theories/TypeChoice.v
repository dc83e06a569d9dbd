(** The choice of the fallback type (proofs). *)
From Coq.ssr Require Import ssreflect.
From Coq Require Import ZArith Lia.
From iris.prelude Require Import prelude.
From stdpp Require Import gmap list numbers.
From Verif Require Import Base Types TypesFacts Variant Values Client Observe Spec Link.

Lemma find_fallback_spec C tys :
  match find_fallback C tys with
  | Some (j, _) => exists u, fallback C tys j u
  | None => no_fallback C tys
  end.
Proof.
  destruct (find_fallback C tys) as [[j m]|] eqn:F.
  - pose proof F as F'. apply find_fallback_Some in F' as (->&(t&Ht&Hd)&_).
    destruct t as [u|u]; [|done]. exists u. by apply fallback_it.
  - apply no_fallback_it. by rewrite /has_fallback F.
Qed.
