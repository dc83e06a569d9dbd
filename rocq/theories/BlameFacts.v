(** Facts about BlameSpec.v. *)
From Coq Require Import ssreflect.
From stdpp Require Import base gmap list numbers.
From Coq Require Import ZArith Lia.
From Verif Require Import Base Types Variant Sem Values Client Observe Spec History Reach Places PlacesSpec Programs ProgramsSpec PlacesAlikeSpec MeaningSpec Calls CallsSpec CallsMeaningSpec BlameSpec.
From Verif Require Import HistoryProof ObserveFacts ReachFacts PlacesFacts ProgramsFacts MeaningFacts CallsFacts CallsMeaningFacts Blame.

Lemma gets_uses c : Raises.uses_get c = gets c. Proof. by destruct c. Qed.

Section rop.
Context (C : cfg) (n : nat) (eqf ltf : uid -> uval -> uval -> bool).
Lemma follows_rop g E K c : (rgets c = true -> g = true) -> follows g (rop C n eqf ltf E K c).
Proof.
  intros Hg.
  assert (Hneed : forall b, follows g (need b)) by (intros []; [apply raises_ret|apply raises_faulty]).
  assert (Hnv : forall x, follows g (need_var E x)).
  { intros x. unfold need_var. destruct (E !! x) as [[]|]; first [apply raises_ret|apply raises_faulty]. }
  assert (Hget : g = true -> forall tys a u, follows g (var_get_ref C tys a u)).
  { intros Ht tys a u. unfold var_get_ref. apply raises_bind; [by apply r_var_get|]. intros [l|]; [apply raises_ret|by apply raises_throw]. }
  destruct c as [c|x u rs|x|x tys y u mv|x y u mv|x u y]; simpl in *.
  - apply raises_bind; [done|]. intros _. apply raises_bind; [|intros; apply raises_ret]. apply r_op. by rewrite gets_uses.
  - destruct (E !! x) as [b|]; [|apply raises_faulty]. apply raises_bind.
    { unfold opened. destruct b as [tys a|u' a]; [auto|]. case_decide; [apply raises_ret|apply raises_faulty]. }
    intros l. apply raises_bind; [apply raises_expect|]. intros r. apply raises_bind; [done|]. intros _. apply raises_ret.
  - destruct (K !! x) as [[b refs]|]; [|apply raises_faulty]. apply raises_bind; [done|]. intros _. apply raises_ret.
  - apply raises_bind; [done|]. intros _. apply raises_bind; [done|]. intros q. apply raises_bind; [auto|]. intros l.
    apply raises_bind; [|intros; apply raises_ret]. unfold new_var. apply raises_bind.
    { unfold need_fresh. repeat case_match; first [apply raises_ret|apply raises_faulty|done]. }
    intros _. apply raises_bind; [|intros; apply raises_ret]. apply raises_local_variant. intros. apply r_var_from. apply r_sem.
  - apply raises_bind; [done|]. intros p. apply raises_bind; [done|]. intros q. apply raises_bind; [auto|]. intros l.
    apply raises_bind; [|intros; apply raises_ret]. apply r_var_assign_from. apply r_sem.
  - apply raises_bind; [done|]. intros p. apply raises_bind; [done|]. intros q. apply raises_bind; [auto|]. intros l.
    apply raises_bind; [|intros; apply raises_ret]. unfold var_poke. apply raises_bind; [auto|]. intros. apply r_sem.
Qed.

(** Results of commands and programs. *)
Definition rfollows (g : bool) (s : state) (r : rresult) : Prop :=
  match r with
  | RDone _ _ (OThrew e) s' => span g s s' /\ blamed g (orc s) (opos s) (opos s') e
  | RDone _ _ _ s' => span g s s'
  | RFaulted _ => True
  end.
Definition pfollows (g : bool) (s : state) (r : presult) : Prop :=
  match r with
  | PRet _ _ s' => span g s s'
  | PExn e _ _ s' => span g s s' /\ blamed g (orc s) (opos s) (opos s') e
  | _ => True
  end.
Lemma pfollows_of g s r : rfollows g s r -> pfollows g s (presult_of r).
Proof. destruct r as [E K [] s'|f]; done. Qed.
Lemma pfollows_after g s s1 r : span g s s1 -> pfollows g s1 r -> pfollows g s r.
Proof.
  intros Hs. destruct r as [E K s'|e E K s'|f|]; simpl; try done; [by apply span_trans|]. intros [H He]. split; [by eapply span_trans|].
  destruct Hs as (Ho&Hp&_). rewrite Ho in He. by eapply blamed_weaken.
Qed.
Lemma pfollows_then g s r k : pfollows g s r -> (forall E K s', r = PRet E K s' -> pfollows g s' (k E K s')) -> pfollows g s (and_then r k).
Proof. intros Hr Hk. destruct r as [E K s'|e E K s'|f|]; simpl in *; try done. eapply pfollows_after; [exact Hr|auto]. Qed.
End rop.

Section prog.
Context (C : cfg) (st : bool) (eqf ltf : uid -> uval -> uval -> bool) (HC : good_env C st true).
Notation rreached := (rreached C st true eqf ltf).
Notation types := (fmap bnd_ty).

Lemma rop_returns n c E K s E' K' o s' : rop C n eqf ltf E K c s = Ok (E', K', o) s' -> forall e, o <> OThrew e.
Proof.
  intros H. assert (Ho : outs (fun r => forall e, r.2 <> OThrew e) (rop C n eqf ltf E K c)); [|by apply (Ho _ _ _ H)].
  clear H. destruct c as [c| | | | |]; unfold rop.
  - apply outs_bind. intros _. intros s0 r s1 H0. unfold bind in H0. destruct (op C n eqf ltf E c s0) as [r0 s2| |] eqn:Ho; try done.
    injection H0 as <- <-. simpl. by eapply op_returns.
  - repeat first [apply outs_bind; intros | apply outs_ret; done | apply outs_faulty | case_match].
  - repeat first [apply outs_bind; intros | apply outs_ret; done | apply outs_faulty | case_match].
  - do 3 (apply outs_bind; intros). intros s0 r s1 H0. unfold bind in H0.
    match type of H0 with match ?X with _ => _ end = _ => destruct X as [r0 s2| |] eqn:Ho; try done end.
    injection H0 as <- <-. simpl. revert Ho. unfold new_var, bind. repeat case_match; try done; intros [= <- <-]; done.
  - repeat first [apply outs_bind; intros | apply outs_ret; done | apply outs_faulty | case_match].
  - repeat first [apply outs_bind; intros | apply outs_ret; done | apply outs_faulty | case_match].
Qed.
Lemma rx_follows n g c E K s : (rgets c = true -> g = true) -> rfollows g s (rexec C n eqf ltf c E K s).
Proof.
  intros Hg. pose proof (follows_rop C n eqf ltf g E K c Hg s) as H. unfold rexec.
  destruct (rop C n eqf ltf E K c s) as [[[E' K'] o] s'|e s'|f] eqn:Hr; [|done..].
  pose proof (rop_returns _ _ _ _ _ _ _ _ _ Hr) as Ho. by destruct o as [|e| | | | |]; try done; destruct (Ho e).
Qed.

Lemma at_exit_follows n g s r c : rgets c = false -> pfollows g s r -> pfollows g s (at_exit C n eqf ltf r c).
Proof.
  intros Hc Hr. assert (Hx : forall E K s', pfollows g s' (presult_of (rexec C n eqf ltf c E K s'))).
  { intros E K s'. apply pfollows_of, rx_follows. by rewrite Hc. }
  destruct r as [E K s'|e E K s'|f|]; simpl in *; try done.
  - by eapply pfollows_after.
  - destruct Hr as [Hs He]. specialize (Hx E K s'). destruct (presult_of _) as [E1 K1 s1|e1 E1 K1 s1|f|]; simpl in *; try done. by eapply after_exn.
Qed.
Lemma after_rx n c E K s E1 K1 s1 : rreached E K s -> radmissible C st true E K s c -> presult_of (rexec C n eqf ltf c E K s) = PRet E1 K1 s1 -> rreached E1 K1 s1.
Proof.
  intros Hr Ha H. destruct (rx_ok C st true eqf ltf HC n c E K s Hr Ha) as [Hf|(E'&K'&o&s'&Hf&Ht)]; rewrite Hf in H; [done|].
  apply rtakes_reached in Ht. destruct o; simpl in H; try done; by injection H as <- <- <-.
Qed.

Lemma program_follows n m g : forall p (E : env) (K : kenv) s, (g = false -> getless p) ->
  compiles C st true (types E) (dom K) p -> rreached E K s -> pfollows g s (prun C n m eqf ltf p E K s).
Proof.
  induction p as [|c|c p IH|p IHp q IHq|p IHp q IHq|x rs ps IH|x ps IH|x y p IH|]; intros E K s Hg Hc Hr; pose proof Hc as Hc0; simpl in Hc.
  all: assert (Hgets : forall c, (g = false -> rgets c = false) -> rgets c = true -> g = true) by (intros c0 H1 H2; destruct g; [done|]; rewrite H1 // in H2).
  - apply span_refl.
  - simpl. apply pfollows_of, rx_follows. by apply Hgets.
  - destruct Hc as (x&t&Hd&Hx&HxT&Hp).
    assert (HxE : E !! x = None). { unfold env, ctx in *. rewrite lookup_fmap in Hx. by destruct (E !! x). }
    assert (HxK : K !! x = None) by (by apply not_elem_of_dom).
    simpl. rewrite (decl_declares C st true _ _ _ _ Hd). apply pfollows_then.
    + apply pfollows_of, rx_follows. apply Hgets. intros H. by apply Hg.
    + intros E1 K1 s1 Hrx. apply at_exit_follows; [done|].
      assert (Hr1 : rreached E1 K1 s1) by (eapply after_rx; [exact Hr| |exact Hrx]; by eapply decl_admissible).
      destruct (rexec C n eqf ltf c E K s) as [E2 K2 o s2|f] eqn:Hrx2; [|done].
      destruct (decl_frame C st true eqf ltf n c x t E K s E2 K2 o s2 Hd Hrx2) as [-> [(e&->&->)|[Ho (b&Hb&->)]]]; [done|].
      assert (He : E1 = <[x:=b]> E /\ K1 = K /\ s1 = s2) by (destruct o; simpl in Hrx; by inversion Hrx). destruct He as (->&->&->).
      apply IH; [intros H; by apply Hg| |done]. unfold env, ctx in *. rewrite fmap_insert Hb. done.
  - destruct Hc as [Hcp Hcq]. simpl. apply pfollows_then; [apply IHp; [intros H; by apply Hg|done..]|].
    intros E1 K1 s1 H. pose proof (always C st true eqf ltf HC eq_refl p E K s n m Hcp Hr) as Ha. rewrite H in Ha. destruct Ha as (->&->&Hr1).
    apply IHq; [intros H1; by apply Hg|done..].
  - destruct Hc as [Hcp Hcq]. simpl. pose proof (IHp E K s ltac:(intros H; by apply Hg) Hcp Hr) as Hp.
    pose proof (always C st true eqf ltf HC eq_refl p E K s n m Hcp Hr) as Ha.
    destruct (prun C n m eqf ltf p E K s) as [E1 K1 s1|e E1 K1 s1|f|]; try done. destruct Ha as (->&->&Hr1). destruct Hp as [Hp _].
    eapply pfollows_after; [exact Hp|]. apply IHq; [intros H1; by apply Hg|done..].
  - destruct Hc as (tys&Hx&Hps). unfold ctx, env in *. rewrite lookup_fmap in Hx.
    destruct (E !! x) as [[tys' a|]|] eqn:HxE; simpl in Hx; try done. injection Hx as ->.
    destruct (visit_type C st true eqf ltf HC E K s x tys a Hr HxE) as (k&t&l&kd&w&z&ls&_&Ht&_&Hl&Hlen&Hv).
    simpl. unfold dispatch. rewrite HxE Hv. simpl. destruct (Hps t) as (Hnd&Hln&Hfr&Hp); [by eapply elem_of_list_lookup_2|].
    destruct (open_ok C st true eqf ltf HC x (rs (ity_uid t)) E K s tys a t l kd w z ls Hr HxE Hl Hv Hnd Hln) as [Hop Hr1].
    { intros r Hin. destruct (Hfr r Hin) as [H1 H2]. rewrite lookup_fmap in H1. apply fmap_None in H1. split; [done|by apply not_elem_of_dom]. }
    rewrite Hop. simpl. apply at_exit_follows; [done|]. apply IH; [intros H; by apply Hg| |done].
    rewrite types_refs // dom_insert_L. done.
  - destruct Hc as (tys&Hx&Hps). unfold ctx, env in *. rewrite lookup_fmap in Hx.
    destruct (E !! x) as [[tys' a|]|] eqn:HxE; simpl in Hx; try done. injection Hx as ->.
    destruct (visit_type C st true eqf ltf HC E K s x tys a Hr HxE) as (k&t&l&kd&w&z&ls&_&Ht&_&Hl&Hlen&Hv).
    simpl. unfold dispatch. rewrite HxE Hv. simpl. apply IH; [intros H; by apply Hg|by apply Hps; eapply elem_of_list_lookup_2|done].
  - destruct Hc as [(tys&Hx&Hy) Hp]. simpl. generalize m at 2. intros j. revert s Hr. induction j as [|j IHj]; intros s Hr; [done|]. simpl.
    assert (Hck : checks C (types E) (RMain (CEq x y))) by (by exists tys).
    pose proof (rx_follows n g (RMain (CEq x y)) E K s ltac:(done)) as Hrx.
    destruct (rexec C n eqf ltf (RMain (CEq x y)) E K s) as [E1 K1 o s1|f] eqn:Heq; [|done].
    destruct (checks_frame C eqf ltf n _ _ E K s E1 K1 o s1 Hck Heq) as [-> ->].
    assert (Hb : o = OBool true \/ o <> OBool true) by (destruct o as [|e| | | | |[]]; first [by left|by right]).
    destruct Hb as [->|Hb]; [|by destruct o as [|e| | | | |[]]; try done; apply (pfollows_of _ _ (RDone E K _ s1))].
    simpl in Hrx. assert (Hr1 : rreached E K s1).
    { eapply (after_rx n (RMain (CEq x y))); [exact Hr| |by rewrite Heq]. apply (checks_admissible C st true eqf ltf HC); [done..|]. by eapply (never_parked C st true eqf ltf HC). }
    eapply pfollows_after; [exact Hrx|]. apply pfollows_then; [by apply IH|].
    intros E1 K1 s2 H. pose proof (always C st true eqf ltf HC eq_refl p E K s1 n m Hp Hr1) as Ha. rewrite H in Ha. destruct Ha as (->&->&Hr2).
    by apply IHj.
  - done.
Qed.

Lemma calm_span g s s' : calm_from s -> span g s s' -> calm_from s' /\ exists l, thrown s' = l ++ thrown s /\ Forall (fun e => e = XBadGet /\ g = true) l.
Proof.
  intros Hc (Ho&Hp&l&Hl&Hf). split.
  - intros i Hi. rewrite Ho. apply Hc. lia.
  - exists l. split; [done|]. eapply Forall_impl; [|exact Hf]. intros [k u i|i| |]; simpl; try done.
    + intros [Hi Hn]. destruct Hn. apply Hc. lia.
    + intros [Hi Hn]. destruct Hn. apply Hc. lia.
Qed.
Lemma calm_blamed g s j e : calm_from s -> blamed g (orc s) (opos s) j e -> e = XBadGet /\ g = true.
Proof. intros Hc. destruct e as [k u i|i| |]; simpl; try done; intros [Hi Hn]; destruct Hn; apply Hc; lia. Qed.

Lemma program_blamed p (E : env) (K : kenv) s n m : compiles C st true (types E) (dom K) p -> rreached E K s ->
  match prun C n m eqf ltf p E K s with
  | PRet _ _ s' => span true s s'
  | PExn e _ _ s' => span true s s' /\ blamed true (orc s) (opos s) (opos s') e
  | _ => True
  end.
Proof. intros Hc Hr. by apply (program_follows n m true). Qed.
Lemma program_getless p (E : env) (K : kenv) s n m : getless p -> compiles C st true (types E) (dom K) p -> rreached E K s ->
  match prun C n m eqf ltf p E K s with
  | PRet _ _ s' => span false s s'
  | PExn e _ _ s' => span false s s' /\ blamed false (orc s) (opos s) (opos s') e
  | _ => True
  end.
Proof. intros Hg Hc Hr. by apply (program_follows n m false). Qed.
Lemma program_calm p (E : env) (K : kenv) s n m : getless p -> compiles C st true (types E) (dom K) p -> rreached E K s -> calm_from s ->
  match prun C n m eqf ltf p E K s with
  | PRet _ _ s' => calm_from s' /\ thrown s' = thrown s
  | PExn _ _ _ _ => False
  | _ => True
  end.
Proof.
  intros Hg Hc Hr Hq. pose proof (program_getless p E K s n m Hg Hc Hr) as H.
  destruct (prun C n m eqf ltf p E K s) as [E' K' s'|e E' K' s'|f|]; try done.
  - destruct (calm_span _ _ _ Hq H) as [Hq' ([|e l]&Hl&Hf)]; [done|]. apply Forall_cons_1 in Hf as [[_ Hf] _]. done.
  - destruct H as [_ H]. by destruct (calm_blamed _ _ _ _ Hq H).
Qed.
End prog.

(** Functions. *)
Section funcs.
Context (C : cfg) (st : bool) (eqf ltf : uid -> uval -> uval -> bool) (HC : good_env C st true).
Context (Φ : list func) (sigs : list (list vty)) (N : nat) (HΦ : funcs_compile C st true sigs N Φ).
Context (HG : Forall (fun F => fgetless (fn_body F)) Φ).
Notation rreached := (rreached C st true eqf ltf).
Notation types := (fmap bnd_ty).

Lemma rgets_ren ρ c : rgets (ren ρ c) = rgets c. Proof. by destruct c as [[]| | | | |]. Qed.
Lemma expand_getless call ρ p : (forall f xs, getless (call f xs)) -> fgetless p -> getless (expand call ρ p).
Proof.
  intros Hc. induction p as [|c|c p IH|p IHp q IHq|p IHp q IHq|x rs ps IH|x ps IH|x y p IH|f xs]; simpl; try done.
  - by rewrite rgets_ren.
  - rewrite rgets_ren. intros [? ?]. auto.
  - intros [? ?]. auto.
  - intros [? ?]. auto.
  - intros H u. auto.
  - intros H u. auto.
Qed.
Lemma call_getless d : forall lev f xs, getless (call Φ N d lev f xs).
Proof.
  induction d as [|d IH]; intros lev f xs; simpl; [done|]. destruct (Φ !! f) as [F|] eqn:HF; [|done].
  apply expand_getless; [apply IH|]. pose proof HG as HG2. rewrite Forall_lookup in HG2. by eapply HG2.
Qed.
Lemma unroll_getless d p : fgetless p -> getless (unroll Φ N d p).
Proof. apply expand_getless, call_getless. Qed.
Lemma functions_calm p (E : env) (K : kenv) s d n m :
  (forall x, is_Some (E !! x) \/ is_Some (K !! x) \/ fmentions p x -> x < N) -> fgetless p ->
  fcompiles C st true sigs (types E) (dom K) p -> rreached E K s -> calm_from s ->
  match prun C n m eqf ltf (unroll Φ N d p) E K s with
  | PRet _ _ s' => calm_from s' /\ thrown s' = thrown s
  | PExn _ _ _ _ => False
  | _ => True
  end.
Proof.
  intros HN Hg Hc Hr Hq. apply (program_calm C st eqf ltf HC); [by apply unroll_getless| |done..]. by apply (program_compiles C st Φ sigs N HΦ).
Qed.
End funcs.

(** Without failures, structural recursion returns, and mirroring mirrors. *)
Lemma mirror_calm C eqf ltf u tys : ut_members (te C u) = [tys; tys] ->
  (forall t, t ∈ tys -> ity_uid t <> u -> ut_members (te C (ity_uid t)) = []) -> forall st, good_env C st true ->
  forall N (E : env) (K : kenv) s x k d m, 32 <= N ->
  (forall y, is_Some (E !! y) \/ is_Some (K !! y) -> y < N) -> rreached C st true eqf ltf E K s -> calm_from s ->
  sees C E s x tys k -> udepth k.2 < d ->
  exists s', proceeds C eqf ltf (unroll [mirror_func u] N d (FCall 0 [x])) m E K s (PRet E K s') /\
    sees C E s' x tys (k.1, mirror_image k.2) /\ calm_from s' /\
    (forall y tys' k', y <> x -> sees C E s y tys' k' -> sees C E s' y tys' k') /\
    (forall y u' v', sees_obj C E s y u' v' -> sees_obj C E s' y u' v').
Proof.
  intros Hu Ho st HC N E K s x k d m HN HNE Hr Hq Hx Hd.
  destruct (mirror_runs C eqf ltf u tys Hu Ho st HC N E K s x k d m HN HNE Hr Hx Hd) as (s'&Hr'&H1&H2&H3).
  assert (HG : Forall (fun F => fgetless (fn_body F)) [mirror_func u]).
  { constructor; [|constructor]. intros u'. by destruct (decide (u' = u)). }
  assert (Hall : forall z, is_Some (E !! z) \/ is_Some (K !! z) \/ fmentions (FCall 0 [x]) z -> z < N).
  { intros z [Hz|[Hz|Hz]]; [auto..|]. apply elem_of_list_singleton in Hz as ->. destruct Hx as (a&Hx&_). apply HNE. left. by eexists. }
  assert (Hc : fcompiles C st true [[TVar tys]] (bnd_ty <$> E) (dom K) (FCall 0 [x])).
  { destruct Hx as (a&Hx&_). exists [TVar tys]. split; [done|]. split; [apply NoDup_singleton|]. constructor; [|done]. unfold env, ctx in *. by rewrite lookup_fmap Hx. }
  assert (Hcalm : forall n, match prun C n m eqf ltf (unroll [mirror_func u] N d (FCall 0 [x])) E K s with
    | PRet _ _ s' => calm_from s' /\ thrown s' = thrown s | PExn _ _ _ _ => False | _ => True end).
  { intros n. by apply (functions_calm C st eqf ltf HC _ [[TVar tys]] N (mirror_types C eqf ltf u tys Hu Ho st N HN) HG). }
  destruct H3 as [[H3 H4]|[e [n0 H3]]].
  - exists s'. split; [done|]. split; [done|]. split; [|done]. destruct H3 as [n0 H3]. specialize (Hcalm n0). rewrite H3 in Hcalm; [|done]. by destruct Hcalm.
  - specialize (Hcalm n0). by rewrite H3 in Hcalm.
Qed.
