(** Ownership predicates for user objects and variants, and the conditions under which the
    library is proved correct. *)
From stdpp Require Import gmap.
From iris.proofmode Require Import tactics.
From Verif Require Import Base Types Dispatch Variant Sem Heap Wp Values ValuesFacts.

(** Neither copying nor moving is known not to throw. *)
Definition dthrow (C : cfg) (t : ity) : bool := negb (it_copy C t) && negb (it_move C t).

(** Conditions on a list of bounded types. Each excludes one defect of the library, or says
    what a parameter of the proof means:
    - [wt_conf]: without a fallback type, a list with a type that throws on both copy and
      move has no type with nothrow copy but throwing move;
    - [wt_fb]: with a fallback type and a type that throws on both, the fallback type is
      trivial (or the library is as intended) and has no member variants; under [strict] it
      is not left indeterminate;
    - [wt_nobk]: under [nobk], no backup is needed. *)
Record wf_tys (C : cfg) (W : wpar) (tys : list ity) : Prop := WfTys {
  wt_conf : has_fallback C tys = false -> existsb (dthrow C) tys = true ->
            forall t, t ∈ tys -> it_copy C t = true -> it_move C t = true;
  wt_fb : existsb (dthrow C) tys = true ->
          forall j m t, find_fallback C tys = Some (j, m) -> mpl_deref tys m = Some t ->
          exists u, t = IPlain u /\ (fb_deref C = true \/ ut_init (te C u) <> DIUser) /\
                    ut_members (te C u) = [] /\
                    (strict W = true -> ut_init (te C u) <> DITriv);
  wt_nobk : nobk W = true -> has_fallback C tys = true \/ existsb (dthrow C) tys = false
}.

(** Swapping two objects of a user type may throw. *)
Definition swap_may_throw (C : cfg) (u : uid) : Prop :=
  match ut_swap (te C u) with
  | Some b => b = false
  | None => nt_move (te C u) = false \/ nt_massign (te C u) = false
  end.

(** Conditions on the environment of user types: the traits of a class with member variants
    tell the truth about its memberwise operations. *)
Record wf_env (C : cfg) (W : wpar) : Prop := WfEnv {
  we_lim : 0 < lim C;
  we_mems : forall u tys, tys ∈ ut_members (te C u) -> wf_tys C W tys;
  we_copy : forall u, nt_copy (te C u) = true -> ut_members (te C u) = [];
  we_cassign : forall u, nt_cassign (te C u) = true -> ut_members (te C u) = [];
  we_move : forall u tys, nt_move (te C u) = true -> tys ∈ ut_members (te C u) ->
            forallb (it_move C) tys = true;
  we_massign : forall u tys, nt_massign (te C u) = true -> tys ∈ ut_members (te C u) ->
            forallb (it_move C) tys = true /\ forallb (it_massign C) tys = true;
  we_swap : forall u tys t, ut_swap (te C u) = Some true -> tys ∈ ut_members (te C u) -> t ∈ tys ->
            it_move C t = true /\ it_massign C t = true /\ ~ swap_may_throw C (ity_uid t);
  we_default : forall u tys t, nt_default (te C u) = true -> tys ∈ ut_members (te C u) ->
            head tys = Some t -> it_default C t = true;
  we_triv : forall u, ut_init (te C u) <> DIUser -> ut_members (te C u) = [];
  we_conv : forall u u', is_Some (rank C u u') -> u <> u' -> ut_members (te C u') = []
}.

Section rep.
Context (C : cfg) (W : wpar).

(** When a variant may have its content in a backup. *)
Definition bkok (tys : list ity) (t : ity) : Prop :=
  never_uses_backup C tys t = false /\ nobk W = false.

(** A bounded type's object, given its user type's. *)
Definition RIb (P : uid -> obj -> hprop) (t : ity) (o : obj) : hprop :=
  match t with
  | IPlain u => P u o
  | IWrap u => ∃ p o', ⌞o = OWrap u p⌟ ∗ p ↦ Cell KHeap (Some o') None ∗ P u o'
  end.

Definition Rvarb (P : uid -> obj -> hprop) (tys : list ity) (a : loc) (bk : bool) (i : nat) : hprop :=
  ∃ t o, ⌞tys !! i = Some t⌟ ∗ RIb P t o ∗
    if bk then ∃ p, ⌞bkok tys t⌟ ∗
                    a ↦ Cell KVar (Some (OBackup t (Some p))) (Some (- (Z.of_nat i + 1))%Z) ∗
                    p ↦ Cell KHeap (Some o) None
    else a ↦ Cell KVar (Some o) (Some (Z.of_nat i)).

(** A user object of type [u] with value [v]: the object itself lives elsewhere, this is what
    it owns. *)
Fixpoint R (v : uval) (u : uid) (o : obj) {struct v} : hprop :=
  match v with
  | UV z ks =>
      ∃ ls, ⌞o = OUser u z ls⌟ ∗ ⌞strict W = true -> z <> None⌟ ∗
        (fix go (ks : list (bool * nat * uval)) (mems : list (list ity)) (ls : list loc) {struct ks} : hprop :=
           match ks, mems, ls with
           | [], [], [] => emp
           | k :: ks', tys :: mems', l :: ls' =>
               Rvarb (R k.2) tys l k.1.1 k.1.2 ∗ go ks' mems' ls'
           | _, _, _ => False
           end) ks (ut_members (te C u)) ls
  end.

Definition RI (t : ity) (o : obj) (v : uval) : hprop := RIb (R v) t o.

(** A variant object with its content. *)
Definition Rvar (tys : list ity) (a : loc) (k : vval) : hprop := Rvarb (R k.2) tys a k.1.1 k.1.2.

Fixpoint Rmems (mems : list (list ity)) (ls : list loc) (ks : list vval) {struct ks} : hprop :=
  match ks, mems, ls with
  | [], [], [] => emp
  | k :: ks', tys :: mems', l :: ls' => Rvar tys l k ∗ Rmems mems' ls' ks'
  | _, _, _ => False
  end.

Lemma R_unfold z ks u o :
  R (UV z ks) u o ⊣⊢
  ∃ ls, ⌞o = OUser u z ls⌟ ∗ ⌞strict W = true -> z <> None⌟ ∗ Rmems (ut_members (te C u)) ls ks.
Proof.
  simpl. do 3 f_equiv. f_equiv.
  generalize (ut_members (te C u)) as mems. rename a into ls. revert ls.
  induction ks as [|k ks IH]; intros ls mems; [by destruct mems, ls|].
  destruct mems, ls; simpl; [done..|]. by rewrite IH.
Qed.

(** Raw storage and storage with an object. *)
Definition traw (l : loc) (k : ckind) (w : option Z) : hprop := l ↦ Cell k None w.
Definition tobj (l : loc) (k : ckind) (w : option Z) (u : uid) (v : uval) : hprop :=
  ∃ o, l ↦ Cell k (Some o) w ∗ R v u o.
Definition tint (l : loc) (k : ckind) (w : option Z) (t : ity) (v : uval) : hprop :=
  ∃ o, l ↦ Cell k (Some o) w ∗ RI t o v.

End rep.

(** Specifications of computations. *)
Notation "'{{' P '}}' m '{{' Q '|' X '}}' @ W" :=
  (∀ Q' X', P -∗ ((∀ r, Q r -∗ Q' r) ∧ (∀ e, X e -∗ X' e)) -∗ wp W m Q' X')%I
  (at level 20, m at level 200, format "'{{' P '}}'  m  '{{'  Q  '|'  X  '}}'  @  W").

(** An object after it was swapped with itself. *)
Definition self_swapped (v v' : uval) : Prop := erase v' = erase v /\ (clean v = true -> v' = v).

Section usem_ok.
Context (C : cfg) (W : wpar).
Notation R := (R C W).
Notation tobj := (tobj C W).

(** The operations of user types on values at most [k] deep. *)
Record usem_ok (k : nat) (S : usem) : Prop := {
  ok_copy u d kd wd s ks ws v : depth v <= k ->
    ⊢ {{ traw d kd wd ∗ tobj s ks ws u v }} us_copy S u d s
      {{ λ _, tobj d kd wd u (erase v) ∗ tobj s ks ws u v
       | λ _, ⌞nt_copy (te C u) = false⌟ ∗ traw d kd wd ∗ tobj s ks ws u v }} @ W;
  ok_move u d kd wd s ks ws v : depth v <= k ->
    ⊢ {{ traw d kd wd ∗ tobj s ks ws u v }} us_move S u d s
      {{ λ _, tobj d kd wd u (erase v) ∗ ∃ v', ⌞skel v' = skel v⌟ ∗ tobj s ks ws u v'
       | λ _, ⌞nt_move (te C u) = false⌟ ∗ traw d kd wd ∗ ∃ v', ⌞skel v' = skel v⌟ ∗ tobj s ks ws u v' }} @ W;
  ok_cassign u l kl wl r kr wr v1 v2 : depth v1 <= k -> depth v2 <= k -> clean v2 = true ->
    ⊢ {{ tobj l kl wl u v1 ∗ tobj r kr wr u v2 }} us_cassign S u l r
      {{ λ _, tobj l kl wl u v2 ∗ tobj r kr wr u v2
       | λ _, ⌞nt_cassign (te C u) = false⌟ ∗ (∃ v', ⌞depth v' <= k⌟ ∗ tobj l kl wl u v') ∗ tobj r kr wr u v2 }} @ W;
  ok_massign u l kl wl r kr wr v1 v2 : depth v1 <= k -> depth v2 <= k -> clean v2 = true ->
    ⊢ {{ tobj l kl wl u v1 ∗ tobj r kr wr u v2 }} us_massign S u l r
      {{ λ _, tobj l kl wl u v2 ∗ ∃ v', ⌞depth v' <= k /\ (clean v1 = true -> clean v' = true)⌟ ∗ tobj r kr wr u v'
       | λ _, ⌞nt_massign (te C u) = false⌟ ∗ (∃ v', ⌞depth v' <= k⌟ ∗ tobj l kl wl u v') ∗
              ∃ v', ⌞depth v' <= k /\ (clean v1 = true -> clean v' = true)⌟ ∗ tobj r kr wr u v' }} @ W;
  ok_cassign_self u l kl wl v : depth v <= k ->
    ⊢ {{ tobj l kl wl u v }} us_cassign S u l l
      {{ λ _, tobj l kl wl u v
       | λ _, ⌞nt_cassign (te C u) = false⌟ ∗ ∃ v', ⌞skel v' = skel v⌟ ∗ tobj l kl wl u v' }} @ W;
  ok_massign_self u l kl wl v : depth v <= k ->
    ⊢ {{ tobj l kl wl u v }} us_massign S u l l
      {{ λ _, ∃ v', ⌞skel v' = skel v⌟ ∗ tobj l kl wl u v'
       | λ _, ⌞nt_massign (te C u) = false⌟ ∗ ∃ v', ⌞skel v' = skel v⌟ ∗ tobj l kl wl u v' }} @ W;
  ok_swap u l kl wl r kr wr v1 v2 : depth v1 <= k -> depth v2 <= k -> clean v2 = true ->
    (is_Some (ut_swap (te C u)) -> clean v1 = true) ->
    ⊢ {{ tobj l kl wl u v1 ∗ tobj r kr wr u v2 }} us_swap S u l r
      {{ λ _, tobj l kl wl u v2 ∗ tobj r kr wr u (erase v1)
       | λ _, ⌞swap_may_throw C u⌟ ∗ (∃ v', ⌞depth v' <= k⌟ ∗ tobj l kl wl u v') ∗
              (∃ v', ⌞depth v' <= k⌟ ∗ tobj r kr wr u v') }} @ W;
  ok_swap_self u l kl wl v : depth v <= k ->
    ⊢ {{ tobj l kl wl u v }} us_swap S u l l
      {{ λ _, ∃ v', ⌞self_swapped v v'⌟ ∗ tobj l kl wl u v'
       | λ _, ⌞swap_may_throw C u⌟ ∗ ∃ v', ⌞depth v' <= k⌟ ∗ tobj l kl wl u v' }} @ W;
  ok_destroy u l kl wl v : depth v <= k ->
    ⊢ {{ tobj l kl wl u v }} us_destroy S u l {{ λ _, traw l kl wl | λ _, False }} @ W;
  ok_read u l kl wl v : depth v <= k ->
    ⊢ {{ tobj l kl wl u v }} us_read S u l {{ λ v', ⌞v' = v⌟ ∗ tobj l kl wl u v | λ _, False }} @ W;
  ok_value u d kd wd v : defval C k false u = Some v -> (strict W = true -> determinate v = true) ->
    ⊢ {{ traw d kd wd }} us_value S u d
      {{ λ _, tobj d kd wd u v | λ _, ⌞nt_default (te C u) = false⌟ ∗ traw d kd wd }} @ W;
  ok_definit u d kd wd v : defval C k true u = Some v -> (strict W = true -> determinate v = true) ->
    ⊢ {{ traw d kd wd }} us_definit S u d
      {{ λ _, tobj d kd wd u v | λ _, ⌞nt_default (te C u) = false⌟ ∗ traw d kd wd }} @ W
}.

End usem_ok.
