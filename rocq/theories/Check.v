(** Decision procedures for the guards, so that concrete histories can be checked by
    computation. Used only in Examples and refutations. *)
From Coq.ssr Require Import ssreflect.
From Coq Require Import ZArith Lia.
From iris.prelude Require Import prelude.
From stdpp Require Import gmap list numbers.
From Verif Require Import Base Types TypesFacts Variant Values Client Observe Spec History Levels.

Section check.
Context (C : cfg).

(** ** Reading memory *)
Definition decode1 (k : nat) (m : gmap loc cell) (b : bnd) : option aval :=
  match b with
  | BVar tys a => match see_var m (see_obj C m k) tys a with
                  | Some v => Some (AVar tys v) | None => None end
  | BObj u a => match m !! a with
                | Some (Cell KStk (Some o) None) =>
                    match see_obj C m k u o with Some v => Some (AObj u v) | None => None end
                | _ => None
                end
  end.
Definition decode (k : nat) (m : gmap loc cell) (E : env) : astate := omap (decode1 k m) E.
Definition decodable (k : nat) (m : gmap loc cell) (E : env) : bool :=
  forallb (fun p => match decode1 k m p.2 with Some _ => true | None => false end) (map_to_list E).

Lemma decode_shows k m E : decodable k m E = true -> shows C m E (decode k m E).
Proof.
  intros H x. unfold decode. rewrite lookup_omap.
  destruct (E !! x) as [b|] eqn:Hx; [|by rewrite Hx]. rewrite Hx /=.
  unfold decodable in H. rewrite forallb_forall in H.
  assert (Hin : (x, b) ∈ map_to_list E) by by apply elem_of_map_to_list.
  apply elem_of_list_In, H in Hin. simpl in Hin. clear Hx.
  destruct (decode1 k m b) as [α|] eqn:Hd; [|done].
  destruct b as [tys a|u a]; simpl in Hd.
  - destruct (see_var _ _ tys a) as [v|] eqn:Hs; [|done]. injection Hd as <-. split; [done|]. by exists k.
  - destruct (m !! a) as [[[| |] [o|] [w|]]|] eqn:Hm; try done.
    destruct (see_obj C m k u o) as [v|] eqn:Hs; [|done]. injection Hd as <-. split; [done|]. by exists o, k.
Qed.

(** ** Type conditions *)
Lemma it_default_true t : it_default C t = true <-> nothrow_default C t.
Proof. destruct t as [u|u]; simpl; split; [intros H; by exists u|by intros (?&[= <-]&?)|done|by intros (?&?&?)]. Qed.
Lemma it_copy_true t : it_copy C t = true <-> nothrow_copy C t.
Proof. destruct t as [u|u]; simpl; split; [intros H; by exists u|by intros (?&[= <-]&?)|done|by intros (?&?&?)]. Qed.
Lemma it_move_true t : it_move C t = true <-> nothrow_move C t.
Proof. destruct t as [u|u]; simpl; split; [intros H; by exists u|by intros (?&[= <-]&?)|done|by intros (?&?&?)]. Qed.

Definition dbl (t : ity) : bool := negb (it_copy C t) && negb (it_move C t).
Lemma dbl_true t : dbl t = true <-> doubly_throwing C t.
Proof.
  rewrite /dbl /doubly_throwing -it_copy_true -it_move_true.
  destruct (it_copy C t), (it_move C t); simpl; split; intros; try done; try tauto.
  all: destruct H; exfalso; auto.
Qed.
Definition some_dbl (tys : list ity) : bool := existsb dbl tys.
Lemma some_dbl_true tys : some_dbl tys = true <-> exists t, t ∈ tys /\ doubly_throwing C t.
Proof.
  rewrite /some_dbl existsb_exists. split; intros (t&H1&H2); exists t.
  - by rewrite -dbl_true elem_of_list_In.
  - by rewrite dbl_true -elem_of_list_In.
Qed.
Definition some_default (tys : list ity) : bool := existsb (it_default C) tys.
Lemma some_default_true tys : some_default tys = true <-> exists t, t ∈ tys /\ nothrow_default C t.
Proof.
  rewrite /some_default existsb_exists. split; intros (t&H1&H2); exists t.
  - by rewrite -it_default_true elem_of_list_In.
  - by rewrite it_default_true -elem_of_list_In.
Qed.

(** The fallback type. *)
Fixpoint fb_uid (tys : list ity) : option uid :=
  match tys with
  | [] => None
  | IPlain u :: r => if nt_default (te C u) then Some u else fb_uid r
  | IWrap _ :: r => fb_uid r
  end.
Lemma fallback_fb_uid tys j u : fallback C tys j u -> fb_uid tys = Some u.
Proof.
  revert j. induction tys as [|t tys IH]; intros j (Hj&Hd&Hmin); [done|].
  destruct j as [|j]; simpl in Hj.
  - injection Hj as ->. by rewrite /= Hd.
  - assert (Hfb : fallback C tys j u).
    { split; [done|]. split; [done|]. intros i t' Hi Ht'. apply (Hmin (S i) t'); [lia|done]. }
    apply IH in Hfb. destruct t as [u'|u']; simpl; [|done].
    destruct (nt_default (te C u')) eqn:E; [|done].
    exfalso. apply (Hmin 0 (IPlain u')); [lia|done|by exists u'].
Qed.

Definition sound_tysb (tys : list ity) : bool :=
  negb (some_dbl tys) ||
  (if some_default tys then
     match fb_uid tys with
     | Some u => (fb_deref C || negb (bool_decide (ut_init (te C u) = DIUser))) &&
                 match ut_members (te C u) with [] => true | _ => false end
     | None => true
     end
   else forallb (fun t => negb (it_copy C t) || it_move C t) tys).
Lemma sound_tysb_ok tys : sound_tysb tys = true -> sound_tys C tys.
Proof.
  unfold sound_tysb. intros H.
  destruct (some_dbl tys) eqn:Hd; simpl in H; last first.
  { split; [intros _ Hex|intros Hex]; apply some_dbl_true in Hex; congruence. }
  destruct (some_default tys) eqn:Hf.
  - apply some_default_true in Hf as (t&Ht&Hnd). split.
    + intros Hno. by apply Hno in Ht.
    + intros _ j u Hfb. rewrite (fallback_fb_uid _ _ _ Hfb) in H.
      apply andb_true_iff in H as [H1 H2]. split.
      * apply orb_true_iff in H1 as [H1|H1]; [by left|right].
        by apply negb_true_iff, bool_decide_eq_false in H1.
      * by destruct (ut_members (te C u)).
  - split.
    + intros _ _ t Ht Hc. rewrite forallb_forall in H. apply elem_of_list_In, H, orb_true_iff in Ht as [Ht|Ht].
      * apply it_copy_true in Hc. by rewrite Hc in Ht.
      * by apply it_move_true.
    + intros _ j u (Hj&Hdf&_). exfalso.
      assert (some_default tys = true); [|congruence].
      apply some_default_true. exists (IPlain u). split; [by eapply elem_of_list_lookup_2|by exists u].
Qed.

Definition good_tysb (st nb : bool) (tys : list ity) : bool :=
  sound_tysb tys &&
  (negb st || negb (some_dbl tys) ||
   match fb_uid tys with Some u => negb (bool_decide (ut_init (te C u) = DITriv)) | None => true end) &&
  (negb nb || some_default tys || negb (some_dbl tys)).
Lemma good_tysb_ok st nb tys : good_tysb st nb tys = true -> good_tys C st nb tys.
Proof.
  unfold good_tysb. intros [[H1 H2]%andb_true_iff H3]%andb_true_iff. split; [by apply sound_tysb_ok|]. split.
  - intros -> Hex j u Hfb. apply some_dbl_true in Hex. rewrite Hex (fallback_fb_uid _ _ _ Hfb) /= in H2.
    by apply negb_true_iff, bool_decide_eq_false in H2.
  - intros ->. destruct (some_default tys) eqn:Hs; [left; by apply some_default_true|].
    right. simpl in H3. intros t Ht Hd. apply negb_true_iff in H3.
    assert (some_dbl tys = true); [|congruence]. apply some_dbl_true. by exists t.
Qed.

Definition matches (tys : list ity) (u : uid) : bool :=
  match resolve C tys u with Some _ => true | None => false end.
Lemma matches_ok tys u : matches tys u = true -> exists i, best_match C tys u i.
Proof.
  unfold matches. destruct (resolve C tys u) as [i|] eqn:E; [|done]. intros _. exists i.
  by apply resolve_Some.
Qed.

(** ** Guards *)
Definition is_varb (σ : astate) (x : name) : option (list ity * vval) :=
  match σ !! x with Some (AVar tys k) => Some (tys, k) | _ => None end.
Definition is_objb (σ : astate) (x : name) : option (uid * uval) :=
  match σ !! x with Some (AObj u v) => Some (u, v) | _ => None end.
Lemma is_varb_ok σ x tys k : is_varb σ x = Some (tys, k) <-> is_var σ x tys k.
Proof.
  unfold is_varb, is_var. destruct (σ !! x) as [[]|]; split; intros [=]; by subst.
Qed.
Lemma is_objb_ok σ x u v : is_objb σ x = Some (u, v) <-> is_obj σ x u v.
Proof.
  unfold is_objb, is_obj. destruct (σ !! x) as [[]|]; split; intros [=]; by subst.
Qed.

Fixpoint var_listb (σ : astate) (ms : list name) (mems : list (list ity)) : bool :=
  match ms, mems with
  | [], [] => true
  | y :: ms', tys :: mems' =>
      match is_varb σ y with Some (tys', _) => bool_decide (tys' = tys) && var_listb σ ms' mems' | None => false end
  | _, _ => false
  end.
Lemma var_listb_ok σ ms mems : var_listb σ ms mems = true ->
  Forall2 (fun y tys => exists k, is_var σ y tys k) ms mems.
Proof.
  revert mems. induction ms as [|y ms IH]; intros [|tys mems] H; simpl in H; try done.
  destruct (is_varb σ y) as [[tys' k]|] eqn:E; [|done].
  apply andb_true_iff in H as [H1 H2]. apply bool_decide_eq_true in H1. subst tys'.
  constructor; [|by apply IH]. exists k. by apply is_varb_ok.
Qed.

Definition freshb (σ : astate) (x : name) : bool := match σ !! x with None => true | _ => false end.
Lemma freshb_ok σ x : freshb σ x = true -> σ !! x = None.
Proof. unfold freshb. by destruct (σ !! x). Qed.
Definition same_tysb (σ : astate) (x y : name) : bool :=
  match is_varb σ x, is_varb σ y with
  | Some (tys, _), Some (tys', _) => bool_decide (tys' = tys) | _, _ => false end.
Lemma same_tysb_ok σ x y : same_tysb σ x y = true ->
  exists tys k1 k2, is_var σ x tys k1 /\ is_var σ y tys k2.
Proof.
  unfold same_tysb. destruct (is_varb σ x) as [[tys k]|] eqn:E1; [|done].
  destruct (is_varb σ y) as [[tys' k']|] eqn:E2; [|done]. intros ->%bool_decide_eq_true.
  exists tys, k, k'. by rewrite -!is_varb_ok.
Qed.
Definition a_varb (σ : astate) (x : name) : bool :=
  match is_varb σ x with Some _ => true | None => false end.
Lemma a_varb_ok σ x : a_varb σ x = true -> exists tys k, is_var σ x tys k.
Proof.
  unfold a_varb. destruct (is_varb σ x) as [[tys k]|] eqn:E; [|done]. intros _. exists tys, k. by apply is_varb_ok.
Qed.
Definition convertsb (tys tys2 : list ity) : bool := forallb (fun t => matches tys (ity_uid t)) tys2.
Lemma convertsb_ok tys tys2 : convertsb tys tys2 = true ->
  forall t, t ∈ tys2 -> exists i, best_match C tys (ity_uid t) i.
Proof. rewrite /convertsb forallb_forall. intros H t Ht. by apply matches_ok, H, elem_of_list_In. Qed.

Section guards.
Context (st nb : bool) (D : nat) (σ : astate).

Definition typedb_with (gb : list ity -> bool) (c : cmd) : bool :=
  match c with
  | CMake x u z ms => freshb σ x && var_listb σ ms (ut_members (te C u))
  | CDrop x => negb (freshb σ x)
  | CDefault x tys => freshb σ x && gb tys &&
      match tys with
      | t :: _ => match idefval C D t with Some v => negb st || determinate v | None => false end
      | [] => false
      end
  | CFrom x tys y mv => freshb σ x && gb tys &&
      match is_objb σ y with Some (u, _) => matches tys u | None => false end
  | CCopy x y | CMove x y => freshb σ x && a_varb σ y
  | CConvert x tys y mv => freshb σ x && gb tys &&
      match is_varb σ y with Some (tys2, _) => convertsb tys tys2 | None => false end
  | CAssign x y | CMoveAssign x y | CSwap x y | CEq x y | CLt x y => same_tysb σ x y
  | CAssignFrom x y mv =>
      match is_varb σ x, is_objb σ y with
      | Some (tys, _), Some (u, _) => matches tys u | _, _ => false end
  | CAssignConvert x y mv => negb (bool_decide (x = y)) &&
      match is_varb σ x, is_varb σ y with
      | Some (tys, _), Some (tys2, _) => convertsb tys tys2 | _, _ => false end
  | CPoke x u y => a_varb σ x && match is_objb σ y with Some (u', _) => bool_decide (u' = u) | None => false end
  | CTake z x u => freshb σ z && a_varb σ x
  | CChild z x u j => freshb σ z && bool_decide (j < length (ut_members (te C u))) && a_varb σ x
  | CSetChild x u j y => negb (bool_decide (x = y)) && a_varb σ x &&
      match ut_members (te C u) !! j, is_varb σ y with
      | Some tys, Some (tys', _) => bool_decide (tys' = tys) | _, _ => false end
  | CWhich x | CRead x | CType x | CGet x _ | CGetRef x _ => a_varb σ x
  end.

Lemma typedb_with_ok (G : list ity -> Prop) gb c : (forall tys, gb tys = true -> G tys) ->
  typedb_with gb c = true -> typed_with C st D σ G c.
Proof.
  intros HG. destruct c; simpl; intros H; repeat match goal with
    | H : (_ && _) = true |- _ => apply andb_true_iff in H as [? ?]
    | H : freshb _ _ = true |- _ => apply freshb_ok in H
    | H : gb _ = true |- _ => apply HG in H
    | H : a_varb _ _ = true |- _ => apply a_varb_ok in H
    | H : var_listb _ _ _ = true |- _ => apply var_listb_ok in H
    | H : same_tysb _ _ _ = true |- _ => apply same_tysb_ok in H
    end; try done.
  - unfold freshb in H. by destruct (σ !! x).
  - split; [done|]. split; [done|]. destruct tys as [|t r]; [done|].
    destruct (idefval C D t) as [v|] eqn:E; [|done]. exists t, r, v. split; [done|]. split; [done|].
    intros ->. done.
  - split; [done|]. split; [done|]. destruct (is_objb σ y) as [[u v]|] eqn:E; [|done].
    apply is_objb_ok in E. destruct (matches_ok _ _ H0) as [i Hi]. by exists u, v, i.
  - split; [done|]. split; [done|]. destruct (is_varb σ y) as [[tys2 k]|] eqn:E; [|done].
    apply is_varb_ok in E. exists tys2, k. split; [done|]. by apply convertsb_ok.
  - destruct (is_varb σ x) as [[tys k]|] eqn:E1; [|done]. destruct (is_objb σ y) as [[u v]|] eqn:E2; [|done].
    apply is_varb_ok in E1. apply is_objb_ok in E2. destruct (matches_ok _ _ H) as [i Hi]. by exists tys, k, u, v, i.
  - destruct (is_varb σ x) as [[tys k]|] eqn:E1; [|done]. destruct (is_varb σ y) as [[u v]|] eqn:E2; [|done].
    apply is_varb_ok in E1. apply is_varb_ok in E2. split; [by apply negb_true_iff, bool_decide_eq_false in H|].
    exists tys, k, u, v. split; [done|]. split; [done|]. by apply convertsb_ok.
  - destruct H as (tys&k&Hx). destruct (is_objb σ y) as [[u' v]|] eqn:E2; [|done].
    apply bool_decide_eq_true in H0. subst u'. apply is_objb_ok in E2. by exists tys, k, v.
  - split; [done|]. by apply bool_decide_eq_true in H1.
  - split; [by apply negb_true_iff, bool_decide_eq_false in H|]. destruct H1 as (tys&k&Hx).
    destruct (ut_members (te C u) !! j) as [tys'|]; [|done]. destruct (is_varb σ y) as [[u' v]|] eqn:E2; [|done].
    apply bool_decide_eq_true in H0. subst u'. apply is_varb_ok in E2. by exists tys, k, tys', v.
Qed.
Definition typedb : cmd -> bool := typedb_with (good_tysb st nb).
Lemma typedb_ok c : typedb c = true -> typed C st nb D σ c.
Proof. apply typedb_with_ok, good_tysb_ok. Qed.

Definition unparkedb (c : cmd) : bool :=
  match c with
  | CAssign x y | CMoveAssign x y => bool_decide (x = y) ||
      match is_varb σ x, is_varb σ y with
      | Some (_, k1), Some (_, k2) => clean k2.2 && (negb k2.1.1 || bool_decide (k1.1 = k2.1))
      | _, _ => true end
  | CAssignFrom _ y _ | CPoke _ _ y => match is_objb σ y with Some (_, v) => clean v | None => true end
  | CSetChild x u j y => match is_varb σ y with Some (_, k) => cleanv k | None => true end
  | CSwap x y => bool_decide (x = y) ||
      match is_varb σ x, is_varb σ y with
      | Some (tys, k1), Some (_, k2) =>
          if bool_decide (k1.1.2 = k2.1.2)
          then clean k2.2 &&
               match tys !! k1.1.2 with
               | Some t => match ut_swap (te C (ity_uid t)) with Some _ => clean k1.2 | None => true end
               | None => true
               end
          else cleanv k1
      | _, _ => true end
  | _ => true
  end.

Lemma unparkedb_ok c : unparkedb c = true -> unparked C σ c.
Proof.
  destruct c; simpl; intros H; try done.
  - intros Hne tys k1 k2 Hx Hy. apply is_varb_ok in Hx. apply is_varb_ok in Hy.
    rewrite bool_decide_eq_false_2 // Hx Hy /= in H. apply andb_true_iff in H as [? H]. split; [done|].
    intros Hp. rewrite Hp /= in H. by apply bool_decide_eq_true in H.
  - intros Hne tys k1 k2 Hx Hy. apply is_varb_ok in Hx. apply is_varb_ok in Hy.
    rewrite bool_decide_eq_false_2 // Hx Hy /= in H. apply andb_true_iff in H as [? H]. split; [done|].
    intros Hp. rewrite Hp /= in H. by apply bool_decide_eq_true in H.
  - intros u v Hy. apply is_objb_ok in Hy. by rewrite Hy /= in H.
  - intros Hne tys k1 k2 Hx Hy. apply is_varb_ok in Hx. apply is_varb_ok in Hy.
    rewrite bool_decide_eq_false_2 // Hx Hy /= in H. case_bool_decide; [|done]. split; [|done]. intros _.
    apply andb_true_iff in H as [H1 H2]. split; [done|]. intros t Ht [b Hb]. by rewrite Ht Hb in H2.
  - intros u' v Hy. apply is_objb_ok in Hy. by rewrite Hy /= in H.
  - intros tys k Hy. apply is_varb_ok in Hy. by rewrite Hy /= in H.
Qed.

End guards.

(** ** Checked runs *)
Section run.
Context (st nb : bool) (D n : nat) (eqf ltf : uid -> uval -> uval -> bool).

Fixpoint checked (h : list cmd) (E : env) (s : state) : option (env * state * list out) :=
  match h with
  | [] => Some (E, s, [])
  | c :: h' =>
      let σ := decode n (mem s) E in
      if decodable n (mem s) E && typedb st nb D σ c && unparkedb σ c then
        match exec C n eqf ltf c E s with
        | Done E' o s' => match checked h' E' s' with
                          | Some (E'', s'', os) => Some (E'', s'', o :: os)
                          | None => None
                          end
        | Faulted _ => None
        end
      else None
  end.

Lemma exec_yields c E s E' o s' : exec C n eqf ltf c E s = Done E' o s' -> yields C eqf ltf c E s (Done E' o s').
Proof. intros Hx. exists n. intros n' Hn. rewrite -Hx. apply exec_mono; [done|]. by rewrite Hx. Qed.

Lemma checked_history orc h0 h E s E' s' os :
  history C st nb eqf ltf orc h0 E s -> checked h E s = Some (E', s', os) ->
  history C st nb eqf ltf orc (h0 ++ h) E' s'.
Proof.
  revert h0 E s os. induction h as [|c h IH]; intros h0 E s os Hh Hc; simpl in Hc.
  { injection Hc as -> -> _. by rewrite right_id_L. }
  destruct (decodable n (mem s) E) eqn:Hd; [|done].
  destruct (typedb _ _ _ _ _) eqn:Ht; [|done].
  destruct (unparkedb _ _) eqn:Hu; [|done]. simpl in Hc.
  destruct (exec C n eqf ltf c E s) as [E1 o s1|f] eqn:Hx; [|done].
  destruct (checked h E1 s1) as [[[E2 s2] os']|] eqn:Hr; [|done]. injection Hc as -> -> _.
  rewrite cons_middle assoc_L. eapply IH; [|done]. eapply history_step; [done| |].
  - exists D, (decode n (mem s) E). split; [by apply decode_shows|]. split; [by apply typedb_ok|by apply unparkedb_ok].
  - apply exec_yields. exact Hx.
Qed.

Lemma checked_start orc h E' s' os :
  checked h ∅ (init orc) = Some (E', s', os) -> history C st nb eqf ltf orc h E' s'.
Proof. apply (checked_history orc []). constructor. Qed.

(** A command that may follow. *)
Definition nextb (E : env) (s : state) (c : cmd) : bool :=
  let σ := decode n (mem s) E in decodable n (mem s) E && typedb st nb D σ c && unparkedb σ c.
Lemma nextb_ok E s c : nextb E s c = true -> admissible C st nb E s c.
Proof.
  unfold nextb. intros [[Hd Ht]%andb_true_iff Hu]%andb_true_iff.
  exists D, (decode n (mem s) E). split; [by apply decode_shows|]. split; [by apply typedb_ok|by apply unparkedb_ok].
Qed.
End run.
End check.
