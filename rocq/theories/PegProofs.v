(** The parser of the model implements [reads]: soundness and completeness. *)
From Coq Require Import List NArith Bool Arith Lia.
From Verif Require Import Base Ext Types ParseModel PegSpec PrimProofs.
Import ListNotations.

(** ** Errors *)

(** What the parser remembers of a trace. *)
Definition best (tr : list perr) : option perr :=
  fold_left (fun o e => err_update (Some e) o) tr None.

Lemma err_update_none_r e : err_update e None = e.
Proof. reflexivity. Qed.

Lemma err_update_none_l o : err_update None o = o.
Proof. destruct o; reflexivity. Qed.

Lemma err_update_assoc a b c :
  err_update c (err_update b a) = err_update (err_update c b) a.
Proof.
  destruct a as [a|], b as [b|], c as [c|]; simpl; try reflexivity;
    repeat match goal with
           | |- context [Nat.leb ?x ?y] => destruct (Nat.leb_spec x y); simpl
           end; try reflexivity; try lia.
Qed.

Lemma fold_best tr o :
  fold_left (fun o e => err_update (Some e) o) tr o = err_update (best tr) o.
Proof.
  unfold best. revert o. induction tr as [|e tr IH]; intros o; simpl.
  - symmetry. apply err_update_none_l.
  - rewrite IH, (IH (Some e)). rewrite err_update_assoc. reflexivity.
Qed.

Lemma best_app a b : best (a ++ b) = err_update (best b) (best a).
Proof. unfold best at 1. rewrite fold_left_app. apply fold_best. Qed.

Lemma best_one e : best [e] = Some e.
Proof. reflexivity. Qed.

Lemma ret_err_update e o : Some (ret_err e o) = err_update (Some e) o.
Proof.
  destruct o as [o|]; simpl; [|reflexivity].
  destruct (Nat.ltb_spec (next_offset (fst e)) (next_offset (fst o)));
    destruct (Nat.leb_spec (next_offset (fst o)) (next_offset (fst e))); try reflexivity; lia.
Qed.

(** [best] is the newest of the deepest. *)
Lemma best_spec tr e : best tr = Some e <-> newest_deepest tr e.
Proof.
  unfold newest_deepest. split.
  - revert e. induction tr as [|x tr IH] using rev_ind; intros e; [discriminate|].
    rewrite best_app. simpl. destruct (best tr) as [o|] eqn:Ho; simpl.
    + destruct (IH o eq_refl) as (l1 & l2 & -> & H1 & H2).
      destruct (Nat.leb_spec (next_offset (fst o)) (next_offset (fst x))) as [Hle|Hlt];
        intros [= <-].
      * exists (l1 ++ o :: l2), []. split; [reflexivity|]. split; [|constructor].
        unfold depth in *. apply Forall_app. split.
        -- eapply Forall_impl; [|exact H1]. simpl. lia.
        -- constructor; [exact Hle|]. eapply Forall_impl; [|exact H2]. simpl. lia.
      * exists l1, (l2 ++ [x]). rewrite <- app_assoc. split; [reflexivity|]. split; [exact H1|].
        apply Forall_app. split; [exact H2|]. constructor; [exact Hlt|constructor].
    + intros [= <-]. destruct tr as [|y tr].
      * exists [], []. auto.
      * exfalso. simpl in Ho. unfold best in Ho. simpl in Ho. rewrite fold_best in Ho.
        destruct (best tr) as [z|]; simpl in Ho; [|discriminate].
        destruct (_ <=? _); discriminate.
  - intros (l1 & l2 & -> & H1 & H2). rewrite best_app. unfold best at 1. simpl.
    rewrite fold_best.
    assert (E1 : err_update (best l2) (Some e) = Some e).
    { induction l2 as [|x l2 IH] using rev_ind; [reflexivity|].
      apply Forall_app in H2 as [H2 Hx]. rewrite best_app, best_one.
      rewrite <- err_update_assoc, IH by exact H2. simpl. inversion Hx; subst.
      unfold depth in *. destruct (Nat.leb_spec (next_offset (fst e)) (next_offset (fst x)));
        [lia|reflexivity]. }
    rewrite E1. destruct (best l1) as [o|] eqn:Ho; simpl; [|reflexivity].
    assert (Hd : next_offset (fst o) <= next_offset (fst e)).
    { clear E1 H2. revert o Ho. induction l1 as [|x l1 IH] using rev_ind; [discriminate|].
      apply Forall_app in H1 as [H1 Hx]. inversion Hx; subst. intros o. rewrite best_app.
      simpl. destruct (best l1) as [o'|]; simpl.
      - specialize (IH H1 o' eq_refl). destruct (_ <=? _); intros [= <-]; assumption.
      - intros [= <-]. assumption. }
    destruct (Nat.leb_spec (next_offset (fst o)) (next_offset (fst e))); [reflexivity|lia].
Qed.

Lemma newest_deepest_unique tr e e' :
  newest_deepest tr e -> newest_deepest tr e' -> e = e'.
Proof. rewrite <- !best_spec. congruence. Qed.

(** ** Token vectors *)

(** The result of the parser says the same as the verdict; [base] are the tokens
    committed before. *)
Definition agree (p : nat) (base : list tok) (v : verdict) (tr : list perr)
  (res : pres) (toks' : list tok) : Prop :=
  match v with
  | Yes n out =>
    exists junk, res = POk (Rng p n) (length (base ++ out)) (best tr) /\
                 toks' = (base ++ out) ++ junk
  | No => exists e junk, best tr = Some e /\ res = PErr e /\ toks' = base ++ junk
  end.

Arguments agree : simpl never.

Lemma emit_spec property mk rg base junk :
  exists junk', emit property mk rg (base ++ junk) (length base) =
    ((base ++ token property rg mk) ++ junk', length (base ++ token property rg mk)).
Proof.
  destruct property as [name|]; simpl.
  - exists []. unfold read_data.
    assert (H : (if length base <? length (base ++ junk)
                 then firstn (length base) (base ++ junk) else base ++ junk) = base).
    { rewrite app_length. destruct (Nat.ltb_spec (length base) (length base + length junk)).
      - rewrite firstn_app, Nat.sub_diag, firstn_all. simpl. apply app_nil_r.
      - destruct junk; [apply app_nil_r|simpl in *; lia]. }
    rewrite H, app_nil_r. reflexivity.
  - exists junk. rewrite app_nil_r. reflexivity.
Qed.

Lemma agree_yes p base n out tr res toks' junk :
  res = POk (Rng p n) (length (base ++ out)) (best tr) ->
  toks' = (base ++ out) ++ junk -> agree p base (Yes n out) tr res toks'.
Proof. intros -> ->. exists junk. auto. Qed.

Lemma agree_no p base tr e res toks' junk :
  best tr = Some e -> res = PErr e -> toks' = base ++ junk -> agree p base No tr res toks'.
Proof. intros H -> ->. exists e, junk. auto. Qed.

(** Shifting the committed tokens. *)
Lemma agree_push p base m out v tr res toks' :
  agree p (base ++ out) (after m [] v) tr res toks' ->
  agree p base (after m out v) tr res toks'.
Proof.
  destruct v as [n out'|]; unfold agree; simpl.
  - rewrite <- app_assoc. auto.
  - intros (e & junk & H1 & H2 & ->). exists e, (out ++ junk). rewrite app_assoc. auto.
Qed.

Lemma after_0 v : after 0 [] v = v.
Proof. destruct v; reflexivity. Qed.

Lemma after_after n out m out' v :
  after n out (after m out' v) = after (n + m) (out ++ out') v.
Proof. destruct v; simpl; [|reflexivity]. rewrite Nat.add_assoc, app_assoc. reflexivity. Qed.

Lemma skipn_add {A} n m (l : list A) : skipn m (skipn n l) = skipn (n + m) l.
Proof.
  revert l. induction n as [|n IH]; intros l; simpl; [reflexivity|].
  destruct l; [apply skipn_nil|]. apply IH.
Qed.

Lemma rt_eq s p n : rt_consume (RT s p) n = RT (skipn n s) (p + n).
Proof. reflexivity. Qed.

Lemma rt_consume_0 s p : rt_consume (RT s p) 0 = RT s p.
Proof. rewrite rt_eq, Nat.add_0_r. reflexivity. Qed.

(** ** Soundness *)

Section Sound.
  Variable E : ext.
  Variable refs : list rule.

  (** The parser [P] implements [r]. *)
  Definition sound_for (r : rule) (P : parser) : Prop :=
    forall base junk s p ind res toks' ind',
      P (base ++ junk) (length base) (RT s p) ind = Done (res, toks', ind') ->
      exists v tr, reads E refs r ind p s v ind' tr /\ agree p base v tr res toks'.

  Ltac break :=
    repeat match goal with
           | H : context [obind ?e _] |- _ =>
             let He := fresh "He" in
             destruct e as [[[? ?] ?]| |] eqn:He; simpl in H; [|discriminate|discriminate]
           end.

  Lemma seq_loop_sound P args :
    (forall r, In r args -> sound_for r (P r)) ->
    forall base junk s p0 n0 s0 ind tr0 res toks' ind',
      seq_loop P args (RT s0 p0) (base ++ junk) (length base) (RT s (p0 + n0)) ind (best tr0)
        = Done (res, toks', ind') ->
      exists v tr, reads_seq E refs args ind (p0 + n0) s v ind' tr /\
                   agree p0 base (after n0 [] v) (tr0 ++ tr) res toks'.
  Proof.
    induction args as [|r rest IH]; intros HP base junk s p0 n0 s0 ind tr0 res toks' ind' H;
      simpl in H.
    - injection H as <- <- <-. exists (Yes 0 []), []. split; [constructor|]. cbn [after].
      eapply agree_yes with (junk := junk).
      + rewrite !app_nil_r. unfold rt_subtract. simpl. do 2 f_equal. lia.
      + rewrite app_nil_r. reflexivity.
    - destruct (P r _ _ _ _) as [[[res1 toks1] ind1]| |] eqn:He; simpl in H; try discriminate.
      apply (HP r) in He as (v1 & tr1 & Hr & Ha); [|left; reflexivity].
      destruct v1 as [n out|]; simpl in Ha.
      + destruct Ha as (junk1 & -> & ->).
        rewrite rt_eq in H; cbn [r_len] in H. replace (p0 + n0 + n) with (p0 + (n0 + n)) in H by lia.
        rewrite <- best_app in H. apply IH in H as (v & tr & Hs & Ha).
        2:{ intros r' Hr'. apply HP. right. exact Hr'. }
        exists (after n out v), (tr1 ++ tr). split.
        * eapply reads_seq_cons; [exact Hr|]. rewrite <- Nat.add_assoc. exact Hs.
        * rewrite after_after. simpl. apply agree_push. rewrite app_assoc. exact Ha.
      + destruct Ha as (e & junk1 & Hb & -> & ->). injection H as <- <- <-.
        exists No, tr1. split; [constructor; exact Hr|]. cbn [after].
        eapply agree_no; [|reflexivity|reflexivity].
        rewrite best_app, Hb, ret_err_update. reflexivity.
  Qed.

  Lemma select_loop_sound P id args :
    (forall r, In r args -> sound_for r (P r)) ->
    forall base junk s p ind tr0 res toks' ind',
      (args = [] -> tr0 <> []) ->
      select_loop P args id (base ++ junk) (length base) (RT s p) ind (best tr0)
        = Done (res, toks', ind') ->
      exists v tr, reads_first E refs args ind p s v ind' tr /\
                   agree p base v (tr0 ++ tr) res toks'.
  Proof.
    induction args as [|r rest IH]; intros HP base junk s p ind tr0 res toks' ind' Hne H;
      simpl in H.
    - exists No, []. rewrite app_nil_r. destruct (best tr0) as [e|] eqn:Hb.
      + injection H as <- <- <-. split; [constructor|]. eapply agree_no; eauto.
      + exfalso. specialize (Hne eq_refl). destruct tr0 as [|x tr0 _] using rev_ind; [congruence|].
        rewrite best_app in Hb. simpl in Hb. destruct (best tr0); simpl in Hb; [|discriminate].
        destruct (_ <=? _); discriminate.
    - destruct (P r _ _ _ _) as [[[res1 toks1] ind1]| |] eqn:He; simpl in H; try discriminate.
      apply (HP r) in He as (v1 & tr1 & Hr & Ha); [|left; reflexivity].
      destruct v1 as [n out|]; simpl in Ha.
      + destruct Ha as (junk1 & -> & ->). injection H as <- <- <-.
        exists (Yes n out), tr1. split; [constructor; exact Hr|].
        eapply agree_yes; [|reflexivity]. rewrite best_app. reflexivity.
      + destruct Ha as (e & junk1 & Hb & -> & ->). rewrite <- Hb, <- best_app in H.
        apply IH in H as (v & tr & Hs & Ha).
        * exists v, (tr1 ++ tr). split; [eapply reads_first_next; eassumption|].
          rewrite app_assoc. exact Ha.
        * intros r' Hr'. apply HP. right. exact Hr'.
        * intros _ H0. apply app_eq_nil in H0 as [_ ->]. discriminate.
  Qed.

  Lemma repeat_loop_sound r P :
    sound_for r P ->
    forall fuel optional first base junk s p0 n0 s0 ind tr0 res toks' ind',
      repeat_loop fuel P optional (RT s0 p0) first (base ++ junk) (length base)
        (RT s (p0 + n0)) ind (best tr0) = Done (res, toks', ind') ->
      exists k n out tr, reads_many E refs r ind (p0 + n0) s k n out ind' tr /\
        ((k = 0 /\ first = true /\ optional = false /\ agree p0 base No (tr0 ++ tr) res toks') \/
         ((0 < k \/ first = false \/ optional = true) /\
          agree p0 base (Yes (n0 + n) out) (tr0 ++ tr) res toks')).
  Proof.
    intros HP fuel. induction fuel as [|fuel IH];
      intros optional first base junk s p0 n0 s0 ind tr0 res toks' ind' H; simpl in H;
      [discriminate|].
    destruct (P _ _ _ _) as [[[res1 toks1] ind1]| |] eqn:He; simpl in H; try discriminate.
    apply HP in He as (v1 & tr1 & Hr & Ha).
    destruct v1 as [n out|]; simpl in Ha.
    - destruct Ha as (junk1 & -> & ->). rewrite rt_eq in H; cbn [r_len] in H.
      replace (p0 + n0 + n) with (p0 + (n0 + n)) in H by lia.
      rewrite <- best_app in H. apply IH in H as (k & m & out' & tr & Hm & Hc).
      exists (S k), (n + m), (out ++ out'), (tr1 ++ tr). split.
      + eapply reads_many_step; [exact Hr|]. rewrite <- Nat.add_assoc. exact Hm.
      + right. split; [left; lia|]. destruct Hc as [(_ & Hf & _)|(_ & Ha)]; [discriminate|].
        unfold agree in *. rewrite Nat.add_assoc, app_assoc, app_assoc. exact Ha.
    - destruct Ha as (e & junk1 & Hb & -> & ->).
      assert (ind' = ind1) by (destruct (first && negb optional); congruence). subst ind'.
      exists 0, 0, [], tr1. split; [constructor; exact Hr|].
      destruct (first && negb optional) eqn:Hfo.
      + left. apply andb_true_iff in Hfo as [-> Ho]. apply negb_true_iff in Ho. subst.
        injection H as <- <-. repeat split; auto.
        eapply agree_no; [|reflexivity|reflexivity].
        rewrite best_app, Hb, ret_err_update. reflexivity.
      + right. injection H as <- <-. split.
        * apply andb_false_iff in Hfo as [H|H]; [auto|]. apply negb_false_iff in H. auto.
        * eapply agree_yes with (junk := junk1).
          -- rewrite best_app, Hb, app_nil_r. unfold rt_subtract. simpl. do 2 f_equal. lia.
          -- rewrite app_nil_r. reflexivity.
  Qed.

  Lemma sep_loop_sound r by_ P Q :
    sound_for r P -> sound_for by_ Q ->
    forall fuel optional trail first base junk s p0 n0 s0 ind tr0 res toks' ind',
      sep_loop fuel P Q optional trail (RT s0 p0) first (base ++ junk) (length base)
        (RT s (p0 + n0)) ind (best tr0) = Done (res, toks', ind') ->
      exists v1 ind1 tr1, reads E refs r ind (p0 + n0) s v1 ind1 tr1 /\
        match v1 with
        | No =>
          ind' = ind1 /\
          agree p0 base
            (if (if first then optional else trail) then Yes n0 [] else No)
            (tr0 ++ tr1) res toks'
        | Yes n out =>
          exists v tr2,
            reads_more E refs r by_ trail ind1 (p0 + n0 + n) (skipn n s) v ind' tr2 /\
            agree p0 base (after (n0 + n) out v) (tr0 ++ tr1 ++ tr2) res toks'
        end.
  Proof.
    intros HP HQ fuel. induction fuel as [|fuel IH];
      intros optional trail first base junk s p0 n0 s0 ind tr0 res toks' ind' H; simpl in H;
      [discriminate|].
    destruct (P _ _ _ _) as [[[res1 toks1] ind1]| |] eqn:He; simpl in H; try discriminate.
    apply HP in He as (v1 & tr1 & Hr & Ha).
    exists v1, ind1, tr1. split; [exact Hr|].
    destruct v1 as [n out|]; simpl in Ha.
    - destruct Ha as (junk1 & -> & ->). rewrite rt_eq, <- best_app in H; cbn [r_len] in H.
      destruct (Q _ _ _ _) as [[[res2 toks2] ind2]| |] eqn:He2; simpl in H; try discriminate.
      apply HQ in He2 as (v2 & tr2 & Hr2 & Ha2).
      destruct v2 as [m out2|]; simpl in Ha2.
      + destruct Ha2 as (junk2 & -> & ->). rewrite <- best_app in H.
        rewrite rt_eq in H; cbn [r_len] in H. replace (p0 + n0 + n + m) with (p0 + (n0 + n + m)) in H by lia.
        apply IH in H as (v3 & ind3 & tr3 & Hr3 & Hc).
        replace (p0 + (n0 + n + m)) with (p0 + n0 + n + m) in * by lia.
        destruct v3 as [l out3|].
        * destruct Hc as (v & tr4 & Hm & Ha).
          exists (after m out2 (after l out3 v)), (tr2 ++ tr3 ++ tr4). split.
          -- eapply reads_more_item; eassumption.
          -- rewrite !after_after.
             replace (n0 + n + m + l) with (n0 + n + (m + l)) in Ha by lia.
             replace (tr0 ++ tr1 ++ tr2 ++ tr3 ++ tr4)
               with (((tr0 ++ tr1) ++ tr2) ++ tr3 ++ tr4) by (rewrite <- !app_assoc; reflexivity).
             destruct v as [q out4|]; simpl in *.
             ++ unfold agree in *. rewrite <- !app_assoc in *. rewrite Nat.add_assoc in *. exact Ha.
             ++ destruct Ha as (e & junk3 & Hb & -> & ->).
                eapply agree_no; [exact Hb|reflexivity|]. rewrite <- !app_assoc. reflexivity.
        * destruct Hc as [-> Ha].
          exists (if trail then Yes m out2 else No), (tr2 ++ tr3). split.
          -- eapply reads_more_trail; eassumption.
          -- replace (tr0 ++ tr1 ++ tr2 ++ tr3)
               with (((tr0 ++ tr1) ++ tr2) ++ tr3) by (rewrite <- !app_assoc; reflexivity).
             destruct trail; simpl in *.
             ++ unfold agree in *. rewrite !app_nil_r in *. rewrite <- !app_assoc in *. exact Ha.
             ++ destruct Ha as (e & junk3 & Hb & -> & ->).
                eapply agree_no; [exact Hb|reflexivity|]. rewrite <- !app_assoc. reflexivity.
      + destruct Ha2 as (e & junk2 & Hb & -> & ->). injection H as <- <- <-.
        exists (Yes 0 []), tr2. split; [constructor; exact Hr2|]. cbn [after].
        eapply agree_yes with (junk := junk2).
        * rewrite (app_assoc tr0), (best_app (tr0 ++ tr1)), Hb, app_nil_r, Nat.add_0_r. unfold rt_subtract. simpl.
          do 2 f_equal. lia.
        * rewrite app_nil_r. reflexivity.
    - destruct Ha as (e & junk1 & Hb & -> & ->).
      assert (Hneg : (if first then negb optional else negb trail) =
                     negb (if first then optional else trail)) by (destruct first; reflexivity).
      rewrite Hneg in H. clear Hneg.
      destruct (if first then optional else trail); simpl in H; injection H as <- <- <-;
        (split; [reflexivity|]).
      + eapply agree_yes with (junk := junk1).
        * rewrite best_app, Hb, app_nil_r. unfold rt_subtract. simpl. do 2 f_equal. lia.
        * rewrite app_nil_r. reflexivity.
      + eapply agree_no; [|reflexivity|reflexivity].
        rewrite best_app, Hb, ret_err_update. reflexivity.
  Qed.

  (** The state captured by the closures of lines. *)
  Definition ls_rep (base : list tok) (tr : list perr) (fresh : bool) (ind : indent)
    (ls : lines_state) : Prop :=
    exists junk, ls = LS (base ++ junk) (length base) (best tr) fresh ind.

  Definition closure (indented : bool) (P : parser) :=
    if indented then lines_closure_indent P else lines_closure_plain P.

  Lemma closure_sound r P indented :
    sound_for r P ->
    forall base tr0 fresh ind ls s p ores ls',
      ls_rep base tr0 fresh ind ls ->
      closure indented P (RT s p) ls = Done (ores, ls') ->
      exists v fresh' ind' tr,
        reads_line E refs r indented fresh ind p s v fresh' ind' tr /\
        match v with
        | Yes n out => ores = Some (Rng p n) /\ ls_rep (base ++ out) (tr0 ++ tr) fresh' ind' ls'
        | No => ores = None /\ ls_rep base (tr0 ++ tr) fresh' ind' ls'
        end.
  Proof.
    intros HP base tr0 fresh ind ls s p ores ls' (junk & ->) H.
    destruct indented; cbn [closure] in H.
    - unfold lines_closure_indent in H. cbn [ls_ind ls_first] in H.
      destruct (skip_indent (src (RT s p)) (i_indent ind) (i_tab_spaces ind)) as [k|] eqn:Hk;
        cbn [src] in Hk.
      2:{ injection H as <- <-. exists No, fresh, ind, []. split.
          - apply reads_line_short. apply skip_indent_none. exact Hk.
          - split; [reflexivity|]. exists junk. rewrite app_nil_r. reflexivity. }
      apply skip_indent_spec in Hk. rewrite rt_eq in H; cbn [r_len] in H. cbn [src off] in H.
      destruct (fresh && i_align_first ind) eqn:Hfa.
      + apply andb_true_iff in Hfa as [-> Hal].
        destruct (align_indent_cases (i_tab_spaces ind) (skipn k s) (i_indent ind))
          as [Hd|[Hd _]]; rewrite Hd in H; [|discriminate].
        set (b := span_len blankb (skipn k s)) in *.
        set (w := (i_indent ind + width (i_tab_spaces ind) (firstn b (skipn k s)))%N) in *.
        cbn [obind] in H. unfold lines_item_indent in H.
        cbn [i_indent set_indent ls_toks ls_state ls_err] in H.
        unfold add_u32 in H. destruct (N.leb_spec (w + 1) u32_max) as [Hw|]; [|discriminate].
        cbn [obind] in H. rewrite rt_eq in H; cbn [r_len] in H.
        destruct (P _ _ _ _) as [[[res1 toks1] ind1]| |] eqn:He; cbn [obind] in H;
          try discriminate.
        apply HP in He as (v & tr & Hr & Ha).
        exists (after (k + b) [] v), false, (set_indent ind1 w), tr. split.
        * eapply reads_line_align; try eassumption; [|reflexivity].
          apply longest_span. apply blank_spec.
        * destruct v as [n out|]; simpl in *.
          -- destruct Ha as (junk1 & -> & ->). injection H as <- <-. split.
             ++ f_equal. f_equal. unfold next_offset. simpl. lia.
             ++ exists junk1. rewrite best_app. reflexivity.
          -- destruct Ha as (e & junk1 & Hb & -> & ->). injection H as <- <-.
             split; [reflexivity|]. exists junk1. rewrite best_app, Hb. reflexivity.
      + unfold rt_tag in H. cbn [src] in H.
        destruct (is_prefix [space] (skipn k s)) eqn:Hp.
        * apply is_prefix_spec in Hp. injection H as <- <-.
          exists No, fresh, ind, []. split.
          -- eapply reads_line_deep; eassumption.
          -- split; [reflexivity|]. exists junk. rewrite app_nil_r. reflexivity.
        * apply is_prefix_false in Hp. unfold lines_item_indent in H.
          cbn [ls_toks ls_state ls_err] in H. unfold add_u32 in H.
          destruct (N.leb_spec (i_indent ind + 1) u32_max) as [Hw|]; [|discriminate].
          cbn [obind] in H.
          destruct (P _ _ _ _) as [[[res1 toks1] ind1]| |] eqn:He; cbn [obind] in H;
            try discriminate.
          apply HP in He as (v & tr & Hr & Ha).
          exists (after k [] v), fresh, (set_indent ind1 (i_indent ind)), tr. split.
          -- eapply reads_line_exact; eassumption.
          -- destruct v as [n out|]; simpl in *.
             ++ destruct Ha as (junk1 & -> & ->). injection H as <- <-. split.
                ** f_equal. f_equal. unfold next_offset. simpl. lia.
                ** exists junk1. rewrite best_app. reflexivity.
             ++ destruct Ha as (e & junk1 & Hb & -> & ->). injection H as <- <-.
                split; [reflexivity|]. exists junk1. rewrite best_app, Hb. reflexivity.
    - unfold lines_closure_plain in H. cbn [ls_toks ls_state ls_ind ls_err ls_first] in H.
      destruct (P _ _ _ _) as [[[res1 toks1] ind1]| |] eqn:He; cbn [obind] in H;
        try discriminate.
      apply HP in He as (v & tr & Hr & Ha).
      exists v, fresh, ind1, tr. split; [constructor; exact Hr|].
      destruct v as [n out|]; simpl in *.
      + destruct Ha as (junk1 & -> & ->). injection H as <- <-. split; [reflexivity|].
        exists junk1. rewrite best_app. reflexivity.
      + destruct Ha as (e & junk1 & Hb & -> & ->). injection H as <- <-.
        split; [reflexivity|]. exists junk1. rewrite best_app, Hb. reflexivity.
  Qed.

  Lemma lines_loop_sound r P indented id :
    sound_for r P ->
    forall fuel base tr0 fresh nl ind ls s p res ls',
      ls_rep base tr0 fresh ind ls ->
      lines_loop E (closure indented P) fuel nl (RT s p) ls = Done (res, ls') ->
      exists v fresh' ind' tr,
        reads_lines E refs r indented id fresh nl ind p s v ind' tr /\
        match v with
        | Yes n out =>
          res = inl (RT (skipn n s) (p + n)) /\ ls_rep (base ++ out) (tr0 ++ tr) fresh' ind' ls'
        | No =>
          exists rg tr1 junk, res = inr rg /\ tr = tr1 ++ [(rg, ExpectedNewLine id)] /\
            ls_toks ls' = base ++ junk /\ ls_err ls' = best (tr0 ++ tr1) /\ ls_ind ls' = ind'
        end.
  Proof.
    intros HP fuel. induction fuel as [|fuel IH];
      intros base tr0 fresh nl ind ls s p res ls' Hls H; [discriminate|].
    cbn [lines_loop] in H. cbn [src] in H.
    destruct (Nat.eqb_spec (span_len is_ws s) (length s)) as [Hw|Hw].
    - injection H as <- <-. exists (Yes (length s) []), fresh, ind, [].
      split; [constructor; apply all_white; exact Hw|].
      rewrite !app_nil_r, Hw. split; [reflexivity|exact Hls].
    - assert (Hnw : ~ Forall white s) by (intros H0; apply Hw; apply all_white; exact H0).
      (* the line *)
      assert (Hgo : forall k,
        line_start nl s k ->
        (do (ores, ls1) <- closure indented P (rt_consume (RT s p) k) ls;
         match ores with
         | None => Done (inl (rt_consume (RT s p) k), ls1)
         | Some rg =>
           lines_loop E (closure indented P) fuel
             (ends_with_newline (rt_raw_string (rt_consume (RT s p) k) (r_len rg)))
             (rt_consume (rt_consume (RT s p) k) (r_len rg)) ls1
         end) = Done (res, ls') ->
        exists v fresh' ind' tr,
        reads_lines E refs r indented id fresh nl ind p s v ind' tr /\
        match v with
        | Yes n out =>
          res = inl (RT (skipn n s) (p + n)) /\ ls_rep (base ++ out) (tr0 ++ tr) fresh' ind' ls'
        | No =>
          exists rg tr1 junk, res = inr rg /\ tr = tr1 ++ [(rg, ExpectedNewLine id)] /\
            ls_toks ls' = base ++ junk /\ ls_err ls' = best (tr0 ++ tr1) /\ ls_ind ls' = ind'
        end).
      { clear H. intros k Hk H. rewrite rt_eq in H; cbn [r_len] in H.
        destruct (closure _ _ _ _) as [[ores ls1]| |] eqn:Hc; cbn [obind] in H; try discriminate.
        eapply closure_sound in Hc as (v & fresh' & ind' & tr & Hl & Hc); [|exact HP|exact Hls].
        destruct v as [n out|].
        - destruct Hc as [-> Hls1]. cbn [r_len] in H. rewrite rt_eq in H; cbn [r_len] in H.
          unfold rt_raw_string in H. cbn [src] in H.
          eapply IH in H as (v & fresh2 & ind2 & tr2 & Hls2 & Hc); [|exact Hls1].
          exists (after (k + n) out v), fresh2, ind2, (tr ++ tr2). split.
          + eapply reads_lines_item; try eassumption.
            rewrite <- ends_with_newline_spec. reflexivity.
          + destruct v as [m out2|]; simpl.
            * destruct Hc as [-> Hrep]. rewrite !skipn_add. rewrite !app_assoc.
              split; [|exact Hrep]. f_equal. f_equal; try (f_equal; lia); lia.
            * destruct Hc as (rg & tr1 & junk & -> & -> & Ht & He & Hi).
              exists rg, (tr ++ tr1), (out ++ junk). rewrite !app_assoc in *. auto.
        - destruct Hc as [-> Hls1]. injection H as <- <-.
          exists (Yes k []), fresh', ind', tr. split.
          + eapply reads_lines_stop; eassumption.
          + rewrite app_nil_r. auto. }
      pose proof (line_start_model nl s) as Hm.
      destruct (after_last_newline _) as [k|].
      + apply (Hgo k); assumption.
      + destruct nl.
        * apply (Hgo 0); [constructor; [reflexivity|exact Hm]|].
          rewrite rt_consume_0. exact H.
        * injection H as <- <-.
          exists No, fresh, ind, [(Rng (p + r_off (x_lines_err E s)) (r_len (x_lines_err E s)),
                            ExpectedNewLine id)].
          split; [constructor; assumption|]. destruct Hls as (junk & ->).
          exists (Rng (p + r_off (x_lines_err E s)) (r_len (x_lines_err E s))), [], junk.
          rewrite app_nil_r. auto.
  Qed.

  Lemma until_sound any_r P property id optional base junk s p ind res toks' ind' r :
    (forall n, longest P s n -> optional = true \/ 0 < n ->
       reads E refs r ind p s
         (Yes n (token property (Rng p n) (fun name => MString name (firstn n s)))) ind []) ->
    (longest P s 0 -> optional = false ->
       reads E refs r ind p s No ind [(Rng p 0, ExpectedSomething id)]) ->
    longest P s (r_len any_r) -> r_off any_r = p ->
    parse_until any_r optional property id (base ++ junk) (length base) (RT s p) ind
      = Done (res, toks', ind') ->
    exists v tr, reads E refs r ind p s v ind' tr /\ agree p base v tr res toks'.
  Proof.
    intros Hyes Hno Hl Hp H. destruct any_r as [o n]. simpl in Hp, Hl. subst o.
    unfold parse_until in H. cbn [r_len] in H.
    destruct (Nat.eqb n 0 && negb optional) eqn:Hc.
    - apply andb_true_iff in Hc as [Hn Ho]. apply Nat.eqb_eq in Hn. apply negb_true_iff in Ho.
      subst n. injection H as <- <- <-. exists No, [(Rng p 0, ExpectedSomething id)].
      split; [auto|]. eapply agree_no; reflexivity.
    - assert (Hok : optional = true \/ 0 < n).
      { destruct optional; [auto|]. rewrite andb_true_r in Hc. apply Nat.eqb_neq in Hc. lia. }
      edestruct (emit_spec property) as (junk' & He). rewrite He in H. clear He.
      injection H as <- <- <-. eexists (Yes n _), []. split; [apply Hyes; assumption|].
      eapply agree_yes; reflexivity.
  Qed.

  Theorem parse_rule_sound fuel : forall r, sound_for r (parse_rule E fuel refs r).
  Proof.
    induction fuel as [|fuel IH]; intros r base junk s p ind res toks' ind' H; [discriminate|].
    destruct r; cbn [parse_rule] in H.
    - (* white space *)
      unfold parse_whitespace, rt_whitespace in H. cbn [src off r_len] in H.
      assert (Hl : longest white s (span_len is_ws s))
        by (apply longest_span; apply white_spec).
      destruct (Nat.eqb (span_len is_ws s) 0 && negb optional) eqn:Hc.
      + apply andb_true_iff in Hc as [Hn Ho]. apply Nat.eqb_eq in Hn.
        apply negb_true_iff in Ho. rewrite Hn in *. subst optional. injection H as <- <- <-.
        exists No, [(Rng p 0, ExpectedWhitespace id)]. split; [constructor; exact Hl|].
        eapply agree_no; reflexivity.
      + injection H as <- <- <-. exists (Yes (span_len is_ws s) []), []. split.
        * constructor; [exact Hl|]. destruct optional; [auto|]. rewrite andb_true_r in Hc.
          apply Nat.eqb_neq in Hc. lia.
        * eapply agree_yes with (junk := junk); rewrite app_nil_r; reflexivity.
    - (* tag *)
      unfold parse_tag, rt_tag in H. cbn [src off] in H.
      destruct (is_prefix text s) eqn:Hp.
      + apply is_prefix_spec in Hp. destruct not.
        * injection H as <- <- <-. exists No, [(Rng p (length text), DidNotExpectTag text id)].
          split; [constructor; exact Hp|]. eapply agree_no; reflexivity.
        * edestruct (emit_spec property) as (junk' & He). rewrite He in H. clear He.
          injection H as <- <- <-. eexists (Yes _ _), [].
          split; [constructor; exact Hp|]. eapply agree_yes; reflexivity.
      + apply is_prefix_false in Hp. destruct not.
        * edestruct (emit_spec property) as (junk' & He). rewrite He in H. clear He.
          injection H as <- <- <-. eexists (Yes 0 _), [].
          split; [constructor; exact Hp|]. eapply agree_yes; reflexivity.
        * injection H as <- <- <-. exists No, [(Rng p 0, ExpectedTag text id)].
          split; [constructor; exact Hp|]. eapply agree_no; reflexivity.
    - (* until any *)
      eapply (until_sound _ (fun c => ~ In c any)); [| | | |exact H].
      + intros. constructor; assumption.
      + intros Hl ->. constructor. exact Hl.
      + apply longest_span. apply until_spec.
      + reflexivity.
    - eapply (until_sound _ (fun c => ~ white c /\ ~ In c any)); [| | | |exact H].
      + intros. constructor; assumption.
      + intros Hl ->. constructor. exact Hl.
      + apply longest_span. apply until_ws_spec.
      + reflexivity.
    - (* text *)
      unfold parse_text, rt_raw_string, rt_peek, rt_start in H. cbn [src off] in H.
      destruct (x_string E s) as [n|] eqn:Hs.
      + destruct (negb allow_empty && Nat.eqb n 2) eqn:Hc.
        * apply andb_true_iff in Hc as [Ho Hn]. apply Nat.eqb_eq in Hn.
          apply negb_true_iff in Ho. subst. injection H as <- <- <-.
          exists No, [(Rng p 2, EmptyTextNotAllowed id)]. split; [constructor; exact Hs|].
          eapply agree_no; reflexivity.
        * assert (Hok : allow_empty = true \/ n <> 2).
          { destruct allow_empty; [auto|]. simpl in Hc. apply Nat.eqb_neq in Hc. auto. }
          destruct (x_parse_string E (firstn n s)) as [val|[re e]] eqn:Hv.
          -- edestruct (emit_spec property) as (junk' & He). rewrite He in H. clear He.
             injection H as <- <- <-. eexists (Yes n _), [].
             split; [econstructor; eassumption|]. eapply agree_yes; reflexivity.
          -- injection H as <- <- <-.
             exists No, [(Rng (p + r_off re) (r_len re), ParseStringError e id)].
             split; [eapply reads_text_bad; eassumption|]. eapply agree_no; reflexivity.
      + injection H as <- <- <-. exists No, [(Rng p 0, ExpectedText id)].
        split; [constructor; exact Hs|]. eapply agree_no; reflexivity.
    - (* number *)
      unfold parse_number, rt_raw_string, rt_peek, rt_start in H. cbn [src off] in H.
      destruct (x_number E underscore s) as [n|] eqn:Hs.
      + destruct (x_parse_number E underscore (firstn n s)) as [val|] eqn:Hv.
        * edestruct (emit_spec property) as (junk' & He). rewrite He in H. clear He.
          injection H as <- <- <-. eexists (Yes n _), [].
          split; [econstructor; eassumption|]. eapply agree_yes; reflexivity.
        * injection H as <- <- <-. exists No, [(Rng p n, ParseNumberError id)].
          split; [eapply reads_number_bad; eassumption|]. eapply agree_no; reflexivity.
      + injection H as <- <- <-. exists No, [(Rng p 0, ExpectedNumber id)].
        split; [constructor; exact Hs|]. eapply agree_no; reflexivity.
    - (* select *)
      unfold parse_select in H. destruct args as [|r rest].
      + injection H as <- <- <-. exists No, [(Rng p 0, InvalidRule SelectEmpty id)].
        split; [apply reads_select_empty|]. eapply agree_no; reflexivity.
      + change None with (best []) in H.
        apply select_loop_sound in H as (v & tr & Hr & Ha); [| |discriminate].
        * exists v, tr. split; [constructor; [discriminate|exact Hr]|exact Ha].
        * intros. apply IH.
    - (* fast select *)
      unfold parse_fast_select in H. cbn [src] in H. destruct s as [|c s].
      + injection H as <- <- <-. exists No, [(Rng p 0, ExpectedSomething id)].
        split; [constructor|]. eapply agree_no; reflexivity.
      + destruct (nth_error table _) as [i|] eqn:Hi; [|discriminate].
        assert (Htail : forall r args' junk1 ind1 tr1 oe,
          args = args' ++ [r] -> oe = best tr1 ->
          fast_tail (parse_rule E fuel refs) args oe (base ++ junk1) (length base)
            (RT (c :: s) p) ind1 = Done (res, toks', ind') ->
          exists v tr, reads E refs r ind1 p (c :: s) v ind' tr /\
                       agree p base v (tr1 ++ tr) res toks').
        { clear H. intros r args' junk1 ind1 tr1 oe -> -> H. unfold fast_tail in H.
          assert (Hn : nth_error (args' ++ [r]) (length (args' ++ [r]) - 1) = Some r).
          { rewrite app_length. simpl. rewrite Nat.add_sub, nth_error_app2 by lia.
            rewrite Nat.sub_diag. reflexivity. }
          destruct (args' ++ [r]) eqn:Ha; [discriminate|]. rewrite <- Ha in *. rewrite Hn in H.
          destruct (parse_rule _ _ _ _ _ _ _ _) as [[[res1 toks1] ind2]| |] eqn:He;
            cbn [obind] in H; try discriminate.
          apply IH in He as (v & tr & Hr & Hag). exists v, tr.
          destruct v as [n out|].
          - destruct Hag as (junk2 & -> & ->). injection H as <- <- <-.
            split; [exact Hr|]. eapply agree_yes; [|reflexivity].
            rewrite best_app. reflexivity.
          - destruct Hag as (e & junk2 & Hb & -> & ->). injection H as <- <- <-.
            split; [exact Hr|]. eapply agree_no; [|reflexivity|reflexivity].
            rewrite best_app, Hb, ret_err_update. reflexivity. }
        destruct (Nat.eqb_spec i 255) as [->|Hne].
        * destruct tail.
          -- destruct args as [|r args' _] using rev_ind; [discriminate|].
             eapply Htail with (tr1 := []) in H as (v & tr & Hr & Ha); try reflexivity.
             exists v, tr. split; [eapply reads_fast_tail; eassumption|exact Ha].
          -- injection H as <- <- <-. exists No, [(Rng p 0, ExpectedSomething id)].
             split; [constructor; exact Hi|]. eapply agree_no; reflexivity.
        * destruct (nth_error args i) as [r|] eqn:Hr; [|discriminate].
          destruct (parse_rule _ _ _ _ _ _ _ _) as [[[res1 toks1] ind1]| |] eqn:He;
            cbn [obind] in H; try discriminate.
          apply IH in He as (v1 & tr1 & Hr1 & Ha1). destruct v1 as [n out|].
          -- destruct Ha1 as (junk1 & -> & ->). injection H as <- <- <-.
             exists (Yes n out), tr1. split; [eapply reads_fast; eassumption|].
             eapply agree_yes; reflexivity.
          -- destruct Ha1 as (e & junk1 & Hb & -> & ->). destruct tail.
             ++ destruct args as [|r' args' _] using rev_ind; [discriminate|].
                eapply Htail with (tr1 := tr1) in H as (v & tr & Hr2 & Ha);
                  [|reflexivity|symmetry; exact Hb].
                exists v, (tr1 ++ tr). split; [eapply reads_fast_then_tail; eassumption|].
                exact Ha.
             ++ injection H as <- <- <-. exists No, tr1.
                split; [eapply reads_fast_no; eassumption|]. eapply agree_no; eauto.
    - (* sequence *)
      unfold parse_sequence in H. change None with (best []) in H.
      rewrite <- (Nat.add_0_r p) in H at 2.
      apply seq_loop_sound in H as (v & tr & Hr & Ha); [|intros; apply IH].
      rewrite Nat.add_0_r in Hr. rewrite after_0 in Ha. exists v, tr.
      split; [constructor; exact Hr|exact Ha].
    - (* separate by *)
      unfold parse_separate_by in H. change None with (best []) in H.
      rewrite <- (Nat.add_0_r p) in H at 2.
      eapply sep_loop_sound in H as (v1 & ind1 & tr1 & Hr & Hc); [|apply IH|apply IH].
      rewrite Nat.add_0_r in *. destruct v1 as [n out|].
      + destruct Hc as (v & tr2 & Hm & Ha). simpl in Ha.
        exists (after n out v), (tr1 ++ tr2). split; [econstructor; eassumption|exact Ha].
      + destruct Hc as [-> Ha]. exists (if optional then Yes 0 [] else No), tr1.
        split; [constructor; exact Hr|exact Ha].
    - (* repeat *)
      unfold parse_repeat in H. change None with (best []) in H.
      rewrite <- (Nat.add_0_r p) in H at 2.
      eapply repeat_loop_sound in H as (k & n & out & tr & Hm & Hc); [|apply IH].
      rewrite Nat.add_0_r in *. destruct Hc as [(-> & _ & -> & Ha)|(Hk & Ha)].
      + exists No, tr. split; [|exact Ha]. inversion Hm; subst. constructor. assumption.
      + exists (Yes n out), tr. split; [|exact Ha]. econstructor; [exact Hm|].
        destruct Hk as [Hk|[Hk|Hk]]; [auto|discriminate|auto].
    - (* lines *)
      unfold parse_lines, rt_lines in H. fold (closure indent (parse_rule E fuel refs r)) in H.
      destruct (lines_loop _ _ _ _ _ _) as [[lres ls]| |] eqn:Hl; cbn [obind] in H;
        try discriminate.
      eapply lines_loop_sound with (id := id) (tr0 := []) in Hl
        as (v & fresh' & ind1 & tr & Hr & Hc);
        [|apply IH|exists junk; reflexivity].
      destruct v as [n out|].
      + destruct Hc as [-> (junk' & ->)]. cbn in H. injection H as <- <- <-.
        exists (Yes n out), tr. split; [constructor; exact Hr|].
        eapply agree_yes; [|reflexivity]. unfold rt_subtract. simpl. do 2 f_equal. lia.
      + destruct Hc as (rg & tr1 & junk' & -> & -> & Ht & He & Hi). cbn [obind] in H.
        injection H as <- <- <-. exists No, (tr1 ++ [(rg, ExpectedNewLine id)]).
        rewrite Hi. split; [constructor; exact Hr|].
        eapply agree_no; [|reflexivity|exact Ht]. rewrite best_app, best_one, ret_err_update, He.
        reflexivity.
    - (* node *)
      unfold parse_node in H. destruct index as [i|].
      + edestruct (emit_spec property StartNode (rt_start (RT s p)) base junk) as (junk1 & He).
        rewrite He in H. clear He. destruct (nth_error refs i) as [r|] eqn:Hi; [|discriminate].
        destruct (parse_rule _ _ _ _ _ _ _ _) as [[[res1 toks1] ind1]| |] eqn:He;
          cbn [obind] in H; try discriminate.
        apply IH in He as (v & tr & Hr & Ha). destruct v as [n out|].
        * destruct Ha as (junk2 & -> & ->). cbn [r_len] in H.
          edestruct (emit_spec property EndNode
            (rt_subtract (rt_consume (RT s p) n) (RT s p))) as (junk3 & He).
          rewrite He in H. clear He.
          assert (Hn : rt_subtract (rt_consume (RT s p) n) (RT s p) = Rng p n)
            by (unfold rt_subtract; simpl; f_equal; lia).
          rewrite Hn in H. injection H as <- <- <-. eexists (Yes n _), tr.
          split; [eapply reads_node; eassumption|].
          eapply agree_yes with (junk := junk3); rewrite <- !app_assoc; reflexivity.
        * destruct Ha as (e & junk2 & Hb & -> & ->). injection H as <- <- <-.
          exists No, tr. split; [eapply reads_node_no; eassumption|].
          eapply agree_no; [exact Hb|reflexivity|]. rewrite <- app_assoc. reflexivity.
      + injection H as <- <- <-. exists No, [(Rng p 0, InvalidRule NodeNotUpdated id)].
        split; [constructor|]. eapply agree_no; reflexivity.
    - (* optional *)
      unfold parse_optional in H.
      destruct (parse_rule _ _ _ _ _ _ _ _) as [[[res1 toks1] ind1]| |] eqn:He;
        cbn [obind] in H; try discriminate.
      apply IH in He as (v & tr & Hr & Ha). destruct v as [n out|].
      + destruct Ha as (junk2 & -> & ->). cbn [r_len] in H. injection H as <- <- <-.
        exists (Yes n out), tr. split; [constructor; exact Hr|].
        eapply agree_yes; [|reflexivity]. unfold rt_subtract. simpl. do 2 f_equal. lia.
      + destruct Ha as (e & junk2 & Hb & -> & ->). injection H as <- <- <-.
        exists (Yes 0 []), tr. split; [econstructor; exact Hr|].
        eapply agree_yes with (junk := junk2); rewrite app_nil_r; [|reflexivity].
        rewrite Hb. reflexivity.
    - (* not *)
      unfold parse_not in H.
      destruct (parse_rule _ _ _ _ _ _ _ _) as [[[res1 toks1] ind1]| |] eqn:He;
        cbn [obind] in H; try discriminate.
      apply IH in He as (v & tr & Hr & Ha). destruct v as [n out|].
      + destruct Ha as (junk2 & -> & ->). cbn [r_len] in H. injection H as <- <- <-.
        eexists No, _. split; [econstructor; exact Hr|].
        eapply agree_no; [reflexivity|reflexivity|]. rewrite <- app_assoc. reflexivity.
      + destruct Ha as (e & junk2 & Hb & -> & ->). injection H as <- <- <-.
        exists (Yes 0 []), []. split; [econstructor; exact Hr|].
        eapply agree_yes with (junk := junk2); rewrite app_nil_r; reflexivity.
  Qed.
End Sound.
