(** Optimisation does not change what is parsed: C22, C32. *)
From Coq Require Import List NArith Bool Arith Lia.
From Verif Require Import Base Ext Types ParseModel OptimizeModel PegSpec DataSpec PrimProofs
  PegProofs PegComplete PegFacts ApiSpec ParseProofs ParsePublic RuleSpec RuleProofs OptSpec
  SimProofs FuelProofs OptProofs OptProofs2.
Import ListNotations.

(** The greatest depth of the failures. *)
Definition md (tr : list perr) : nat := fold_right (fun e m => max (depth e) m) 0 tr.

Lemma md_app a b : md (a ++ b) = max (md a) (md b).
Proof. induction a as [|e a IH]; simpl; [reflexivity|]. rewrite IH. lia. Qed.

Lemma md_at_start p tr : at_start p tr -> md tr = p.
Proof.
  intros [Hne H]. revert Hne. induction H as [|e tr He H IH]; intros Hne; [destruct (Hne eq_refl)|].
  change (md (e :: tr)) with (max (depth e) (md tr)).
  unfold depth, next_offset. rewrite He. cbn [r_off r_len].
  destruct tr as [|e' tr]; [simpl; lia|]. rewrite IH by discriminate. lia.
Qed.

(** Failures reach equally far, apart from what the reading itself passes. *)
Definition reach (p : nat) (v : verdict) (tr tr' : list perr) : Prop :=
  match v with
  | Yes n _ => max (p + n) (md tr) = max (p + n) (md tr')
  | No => md tr = md tr'
  end.

Lemma reach_refl p v tr : reach p v tr tr.
Proof. destruct v; reflexivity. Qed.

Lemma reach_trans p v a b c : reach p v a b -> reach p v b c -> reach p v a c.
Proof. destruct v; simpl; lia. Qed.

Lemma reach_after p n out v tr1 tr1' tr2 tr2' :
  reach p (Yes n out) tr1 tr1' -> reach (p + n) v tr2 tr2' ->
  (v = No -> p + n <= md tr2) -> (v = No -> p + n <= md tr2') ->
  reach p (after n out v) (tr1 ++ tr2) (tr1' ++ tr2').
Proof.
  intros H1 H2 H3 H4. destruct v as [m out'|]; simpl in *; rewrite !md_app.
  - lia.
  - specialize (H3 eq_refl). specialize (H4 eq_refl). lia.
Qed.

Lemma reach_app p v tr1 tr1' tr2 tr2' :
  md tr1 = md tr1' -> reach p v tr2 tr2' -> reach p v (tr1 ++ tr2) (tr1' ++ tr2').
Proof. destruct v; simpl; rewrite !md_app; lia. Qed.

(** Failing rules fail at or behind their start. *)
Section Low.
  Variable E : ext.
  Variable refs : list rule.

  Definition low (p : nat) (v : verdict) (tr : list perr) : Prop := v = No -> p <= md tr.

  Lemma low_after p n out v tr1 tr2 : low (p + n) v tr2 -> low p (after n out v) (tr1 ++ tr2).
  Proof.
    intros H. destruct v as [m out'|]; simpl; [intros [=]|].
    intros _. rewrite md_app. specialize (H eq_refl). lia.
  Qed.

  Lemma reads_low_all :
    (forall r ind p s v ind' tr, reads E refs r ind p s v ind' tr -> low p v tr) /\
    (forall args ind p s v ind' tr, reads_seq E refs args ind p s v ind' tr -> low p v tr) /\
    (forall args ind p s v ind' tr,
      reads_first E refs args ind p s v ind' tr -> args <> [] -> low p v tr) /\
    (forall r ind p s k n out ind' tr,
      reads_many E refs r ind p s k n out ind' tr -> True) /\
    (forall r by_ trail ind p s v ind' tr,
      reads_more E refs r by_ trail ind p s v ind' tr -> low p v tr) /\
    (forall r indented id fresh nl ind p s v ind' tr,
      reads_lines E refs r indented id fresh nl ind p s v ind' tr -> low p v tr) /\
    (forall r indented fresh ind p s v fresh' ind' tr,
      reads_line E refs r indented fresh ind p s v fresh' ind' tr -> True).
  Proof.
    apply reads_mutind; intros; try exact I;
      try (intros [=]; fail);
      try (intros _; cbn [md fold_right]; unfold depth, next_offset; simpl; lia).
    all: try assumption; try (apply low_after; assumption);
      try (intros _; rewrite md_app; match goal with H : low _ No _ |- _ => specialize (H eq_refl) end; lia).
    all: auto.
    - destruct optional; [intros [=]|assumption].
    - contradiction.
    - apply low_after, low_after. assumption.
    - apply low_after. rewrite Nat.add_assoc. assumption.
  Qed.

  Lemma reads_low r ind p s v ind' tr : reads E refs r ind p s v ind' tr -> v = No -> p <= md tr.
  Proof. intros H. exact (proj1 reads_low_all _ _ _ _ _ _ _ H). Qed.
  Lemma seq_low r ind p s v ind' tr : reads_seq E refs r ind p s v ind' tr -> v = No -> p <= md tr.
  Proof. intros H. exact (proj1 (proj2 reads_low_all) _ _ _ _ _ _ _ H). Qed.
  Lemma first_low r ind p s v ind' tr : reads_first E refs r ind p s v ind' tr -> r <> [] ->
    v = No -> p <= md tr.
  Proof. intros H. exact (proj1 (proj2 (proj2 reads_low_all)) _ _ _ _ _ _ _ H). Qed.
  Lemma more_low r b t ind p s v ind' tr : reads_more E refs r b t ind p s v ind' tr ->
    v = No -> p <= md tr.
  Proof. intros H. exact (proj1 (proj2 (proj2 (proj2 (proj2 reads_low_all)))) _ _ _ _ _ _ _ _ _ H). Qed.
  Lemma lines_low r i id f nl ind p s v ind' tr :
    reads_lines E refs r i id f nl ind p s v ind' tr -> v = No -> p <= md tr.
  Proof. intros H. exact (proj1 (proj2 (proj2 (proj2 (proj2 (proj2 reads_low_all))))) _ _ _ _ _ _ _ _ _ _ _ H). Qed.
End Low.

Lemma Forall_skipn {A} (P : A -> Prop) n l : Forall P l -> Forall P (skipn n l).
Proof.
  intros H. rewrite <- (firstn_skipn n l) in H. apply Forall_app in H as [_ H]. exact H.
Qed.

(** ** Replacing rules *)

Section Replace.
  Variable E : ext.
  Variables refs1 refs2 : list rule.

  Definition leaf_rule (r : rule) : Prop :=
    match r with
    | RWhitespace _ _ | RTag _ _ _ _ _ | RUntilAny _ _ _ _ | RUntilAnyOrWs _ _ _ _
    | RText _ _ _ | RNumber _ _ _ | RNode _ _ _ _ => True
    | _ => False
    end.

  (** [r2], read in [refs2], may stand for [r0] where [r1] is read in [refs1]. *)
  Definition stands (r1 r0 r2 : rule) : Prop :=
    forall ind p s v ind' tr tr0, Forall real_char s ->
    reads E refs1 r1 ind p s v ind' tr -> reads E refs2 r0 ind p s v ind' tr0 ->
    exists tr', reads E refs2 r2 ind p s v ind' tr' /\ reach p v tr0 tr'.

  Inductive orel : rule -> rule -> Prop :=
  | o_leaf : forall r, leaf_rule r -> orel r r
  | o_select : forall a b id r2,
      Forall2 orel a b -> stands (RSelect a id) (RSelect b id) r2 -> orel (RSelect a id) r2
  | o_fast : forall t a b l id r2,
      Forall2 orel a b ->
      stands (RFastSelect t a l id) (RFastSelect t b l id) r2 -> orel (RFastSelect t a l id) r2
  | o_sequence : forall a b id, Forall2 orel a b -> orel (RSequence a id) (RSequence b id)
  | o_separate : forall a b a' b' o t id, orel a b -> orel a' b' ->
      orel (RSeparateBy a a' o t id) (RSeparateBy b b' o t id)
  | o_repeat : forall a b o id, orel a b -> orel (RRepeat a o id) (RRepeat b o id)
  | o_lines : forall a b i id, orel a b -> orel (RLines a i id) (RLines b i id)
  | o_optional : forall a b id, orel a b -> orel (ROptional a id) (ROptional b id)
  | o_not : forall a b id, orel a b -> orel (RNot a id) (RNot b id).

  Hypothesis Hrefs : Forall2 orel refs1 refs2.

  Ltac inv_o := match goal with
    | H : orel _ _ |- _ => inversion H; subst; try contradiction; clear H
    end.
  Ltac leaf_case := intros; inv_o; eexists; (split; [|apply reach_refl]);
    solve [ eapply reads_whitespace; eassumption | eapply reads_whitespace_no; eassumption
          | eapply reads_tag; eassumption | eapply reads_tag_no; eassumption
          | eapply reads_not_tag; eassumption | eapply reads_not_tag_no; eassumption
          | eapply reads_until; eassumption | eapply reads_until_no; eassumption
          | eapply reads_until_ws; eassumption | eapply reads_until_ws_no; eassumption
          | eapply reads_text; eassumption | eapply reads_text_none; eassumption
          | eapply reads_text_empty; eassumption | eapply reads_text_bad; eassumption
          | eapply reads_number; eassumption | eapply reads_number_none; eassumption
          | eapply reads_number_bad; eassumption | eapply reads_node_unresolved ].
  Ltac fast := match goal with
    | H : orel _ _ |- _ => inversion H as [| |? ? ? ? ? ? ? Hs| | | | | |]; subst;
        [contradiction|]; clear H
    end.
  Ltac fast_with Hs := edestruct Hs as (tr2z & Hr2z & Hreach2z);
    [eassumption| | |].
  Ltac fast_done := eexists; (split; [eassumption|]);
    first [eassumption | eapply reach_trans; eassumption].
  Ltac sk := repeat apply Forall_skipn; assumption.

  Lemma orel_nth i r : nth_error refs1 i = Some r -> exists r', nth_error refs2 i = Some r' /\ orel r r'.
  Proof.
    intros H. pose proof (Forall2_nth _ _ _ i Hrefs) as Hi. rewrite H in Hi.
    destruct (nth_error refs2 i); [eauto|contradiction].
  Qed.

  Lemma args_nth a b i r : Forall2 orel a b -> nth_error a i = Some r ->
    exists r', nth_error b i = Some r' /\ orel r r'.
  Proof.
    intros HF H. pose proof (Forall2_nth _ _ _ i HF) as Hi. rewrite H in Hi.
    destruct (nth_error b i); [eauto|contradiction].
  Qed.

  Lemma args_last a r b : Forall2 orel (a ++ [r]) b -> exists b' r', b = b' ++ [r'] /\ orel r r'.
  Proof.
    intros H. apply Forall2_app_inv_l in H as (b1 & b2 & _ & H & ->).
    inversion H as [|x y l l' Hx Hl]; subst. inversion Hl; subst. eauto.
  Qed.

  Theorem replace_all :
    (forall r ind p s v ind' tr, reads E refs1 r ind p s v ind' tr ->
      forall r2, orel r r2 -> Forall real_char s ->
      exists tr', reads E refs2 r2 ind p s v ind' tr' /\ reach p v tr tr') /\
    (forall args ind p s v ind' tr, reads_seq E refs1 args ind p s v ind' tr ->
      forall b, Forall2 orel args b -> Forall real_char s ->
      exists tr', reads_seq E refs2 b ind p s v ind' tr' /\ reach p v tr tr') /\
    (forall args ind p s v ind' tr, reads_first E refs1 args ind p s v ind' tr ->
      forall b, Forall2 orel args b -> Forall real_char s ->
      exists tr', reads_first E refs2 b ind p s v ind' tr' /\ reach p v tr tr') /\
    (forall r ind p s k n out ind' tr, reads_many E refs1 r ind p s k n out ind' tr ->
      forall r2, orel r r2 -> Forall real_char s ->
      exists tr', reads_many E refs2 r2 ind p s k n out ind' tr' /\ reach p (Yes n out) tr tr') /\
    (forall r by_ trail ind p s v ind' tr, reads_more E refs1 r by_ trail ind p s v ind' tr ->
      forall r2 by2, orel r r2 -> orel by_ by2 -> Forall real_char s ->
      exists tr', reads_more E refs2 r2 by2 trail ind p s v ind' tr' /\ reach p v tr tr') /\
    (forall r indented id fresh nl ind p s v ind' tr,
      reads_lines E refs1 r indented id fresh nl ind p s v ind' tr ->
      forall r2, orel r r2 -> Forall real_char s ->
      exists tr', reads_lines E refs2 r2 indented id fresh nl ind p s v ind' tr' /\ reach p v tr tr') /\
    (forall r indented fresh ind p s v fresh' ind' tr,
      reads_line E refs1 r indented fresh ind p s v fresh' ind' tr ->
      forall r2, orel r r2 -> Forall real_char s ->
      exists tr', reads_line E refs2 r2 indented fresh ind p s v fresh' ind' tr' /\ reach p v tr tr').
  Proof.
    apply reads_mutind; try (leaf_case; fail); intros.
    (* Sequence *)
    - inv_o. destruct (H0 b) as (tr' & Hr & Hreach); auto.
      exists tr'. split; [apply reads_sequence; exact Hr|exact Hreach].
    (* Select *)
    - inversion H2; subst; [contradiction|].
      destruct (H1 b) as (tr' & Hr & Hreach); auto.
      match goal with Hs : stands _ _ _ |- _ =>
        destruct (Hs ind p s v ind' tr tr') as (tr2 & Hr2 & Hreach2); auto end.
      + apply reads_select; assumption.
      + apply reads_select; [|assumption].
        intros ->. match goal with HF : Forall2 _ _ [] |- _ => inversion HF; subst end. contradiction.
      + exists tr2. split; [exact Hr2|]. eapply reach_trans; eassumption.
    - inversion H; subst; [contradiction|].
      match goal with HF : Forall2 _ [] _ |- _ => inversion HF; subst end.
      match goal with Hs : stands _ _ _ |- _ =>
        destruct (Hs ind p s No ind [(Rng p 0, InvalidRule SelectEmpty id)]
          [(Rng p 0, InvalidRule SelectEmpty id)]) as (tr2 & Hr2 & Hreach2);
          auto using reads_select_empty end.
      exists tr2. split; assumption.
    (* Fast select *)
    - fast. fast_with Hs. + apply reads_fast_end. + apply reads_fast_end. + fast_done.
    - fast. fast_with Hs. + apply reads_fast_none; assumption. + apply reads_fast_none; assumption.
      + fast_done.
    - fast.
      match goal with HF : Forall2 _ _ _ |- _ =>
        destruct (args_last _ _ _ HF) as (b' & r' & -> & Ho) end.
      destruct (H1 _ Ho) as (tr' & Hr & Hreach); auto.
      fast_with Hs.
      + apply reads_fast_tail; eassumption.
      + apply reads_fast_tail; eassumption.
      + fast_done.
    - fast.
      match goal with HF : Forall2 _ _ _ |- _ =>
        destruct (args_nth _ _ _ _ HF H1) as (r' & Hn & Ho) end.
      destruct (H3 _ Ho) as (tr' & Hr & Hreach); auto.
      fast_with Hs.
      + eapply reads_fast; eassumption.
      + eapply reads_fast; eassumption.
      + fast_done.
    - fast.
      match goal with HF : Forall2 _ _ _ |- _ =>
        destruct (args_nth _ _ _ _ HF H1) as (r' & Hn & Ho) end.
      destruct (H3 _ Ho) as (tr' & Hr & Hreach); auto.
      fast_with Hs.
      + eapply reads_fast_no; eassumption.
      + eapply reads_fast_no; eassumption.
      + fast_done.
    - fast.
      match goal with HF : Forall2 _ _ _ |- _ =>
        destruct (args_nth _ _ _ _ HF H1) as (r0 & Hn & Ho);
        destruct (args_last _ _ _ HF) as (b' & r1 & -> & Ho') end.
      destruct (H3 _ Ho) as (tr1' & Hr1 & Hreach1); auto.
      destruct (H5 _ Ho') as (tr2' & Hr2 & Hreach2); auto.
      fast_with Hs.
      + eapply reads_fast_then_tail; eassumption.
      + eapply reads_fast_then_tail; eassumption.
      + eexists. split; [eassumption|]. eapply reach_trans; [|eassumption].
        apply reach_app; assumption.
    (* Repeat *)
    - inv_o. destruct (H0 b) as (tr' & Hr & Hreach); auto.
      exists tr'. split; [eapply reads_repeat; eassumption|exact Hreach].
    - inv_o. destruct (H0 b) as (tr' & Hr & Hreach); auto.
      exists tr'. split; [eapply reads_repeat_no; eassumption|exact Hreach].
    (* Separate by *)
    - inv_o. destruct (H0 b) as (tr' & Hr & Hreach); auto.
      destruct (H2 b b') as (tr2' & Hr2 & Hreach2); auto; [sk|].
      eexists. split; [eapply reads_separate; eassumption|].
      apply reach_after; auto; intros; eapply more_low; eassumption.
    - inv_o. destruct (H0 b) as (tr' & Hr & Hreach); auto.
      exists tr'. split; [eapply reads_separate_none; eassumption|].
      destruct optional; simpl in *; lia.
    (* Lines *)
    - inv_o. destruct (H0 b) as (tr' & Hr & Hreach); auto.
      exists tr'. split; [eapply reads_lines_rule; eassumption|exact Hreach].
    (* Node *)
    - inversion H2; subst. destruct (orel_nth _ _ H) as (r' & Hn & Ho).
      destruct (H1 r') as (tr' & Hr & Hreach); auto.
      exists tr'. split; [eapply reads_node; eassumption|exact Hreach].
    - inversion H2; subst. destruct (orel_nth _ _ H) as (r' & Hn & Ho).
      destruct (H1 r') as (tr' & Hr & Hreach); auto.
      exists tr'. split; [eapply reads_node_no; eassumption|exact Hreach].
    (* Optional *)
    - inv_o. destruct (H0 b) as (tr' & Hr & Hreach); auto.
      exists tr'. split; [eapply reads_optional; eassumption|exact Hreach].
    - inv_o. destruct (H0 b) as (tr' & Hr & Hreach); auto.
      exists tr'. split; [eapply reads_optional_none; eassumption|simpl in *; lia].
    (* Not *)
    - inv_o. destruct (H0 b) as (tr' & Hr & Hreach); auto.
      eexists. split; [eapply reads_not; eassumption|apply reach_refl].
    - inv_o. destruct (H0 b) as (tr' & Hr & Hreach); auto.
      eexists. split; [eapply reads_not_no; eassumption|apply reach_refl].
    (* sequences *)
    - inversion H; subst. eexists. split; [apply reads_seq_nil|apply reach_refl].
    - inversion H1; subst. destruct (H0 y) as (tr' & Hr & Hreach); auto.
      eexists. split; [eapply reads_seq_no; eassumption|exact Hreach].
    - inversion H3; subst. destruct (H0 y) as (tr' & Hr & Hreach); auto.
      destruct (H2 l') as (tr2' & Hr2 & Hreach2); auto; [sk|].
      eexists. split; [eapply reads_seq_cons; eassumption|].
      apply reach_after; auto; intros; eapply seq_low; eassumption.
    (* first *)
    - inversion H; subst. eexists. split; [apply reads_first_none|apply reach_refl].
    - inversion H1; subst. destruct (H0 y) as (tr' & Hr & Hreach); auto.
      eexists. split; [eapply reads_first_yes; eassumption|exact Hreach].
    - inversion H3; subst. destruct (H0 y) as (tr' & Hr & Hreach); auto.
      destruct (H2 l') as (tr2' & Hr2 & Hreach2); auto.
      eexists. split; [eapply reads_first_next; eassumption|].
      apply reach_app; assumption.
    (* many *)
    - destruct (H0 r2) as (tr' & Hr & Hreach); auto.
      eexists. split; [eapply reads_many_stop; eassumption|simpl in *; lia].
    - destruct (H0 r2) as (tr' & Hr & Hreach); auto.
      destruct (H2 r2) as (tr2' & Hr2 & Hreach2); auto; [sk|].
      eexists. split; [eapply reads_many_step; eassumption|].
      apply (reach_after p n out (Yes m out')); auto; discriminate.
    (* more *)
    - destruct (H0 by2) as (tr' & Hr & Hreach); auto.
      eexists. split; [eapply reads_more_stop; eassumption|simpl in *; lia].
    - destruct (H0 by2) as (tr' & Hr & Hreach); auto.
      destruct (H2 r2) as (tr2' & Hr2 & Hreach2); auto; [sk|].
      eexists. split; [eapply reads_more_trail; eassumption|].
      pose proof (reads_low _ _ _ _ _ _ _ _ _ H1 eq_refl).
      pose proof (reads_low _ _ _ _ _ _ _ _ _ Hr2 eq_refl).
      destruct trail; simpl in *; rewrite !md_app; lia.
    - destruct (H0 by2) as (tr' & Hr & Hreach); auto.
      destruct (H2 r2) as (tr2' & Hr2 & Hreach2); auto; [sk|].
      destruct (H4 r2 by2) as (tr3' & Hr3 & Hreach3); auto; [sk|].
      eexists. split; [eapply reads_more_item; eassumption|].
      assert (Hl : v = No -> p + n + m <= md tr3) by (intros; eapply more_low; eassumption).
      assert (Hl' : v = No -> p + n + m <= md tr3') by (intros; eapply more_low; eassumption).
      apply reach_after; auto.
      + apply reach_after; auto.
      + destruct v; simpl; [discriminate|]. intros _. rewrite md_app. specialize (Hl eq_refl). lia.
      + destruct v; simpl; [discriminate|]. intros _. rewrite md_app. specialize (Hl' eq_refl). lia.
    (* lines *)
    - eexists. split; [apply reads_lines_end; assumption|apply reach_refl].
    - eexists. split; [apply reads_lines_missing; assumption|apply reach_refl].
    - destruct (H2 r2) as (tr' & Hr & Hreach); auto; [sk|].
      eexists. split; [eapply reads_lines_stop; eassumption|simpl in *; lia].
    - destruct (H2 r2) as (tr' & Hr & Hreach); auto; [sk|].
      destruct (H5 r2) as (tr2' & Hr2 & Hreach2); auto; [sk|].
      eexists. split; [eapply reads_lines_item; eassumption|].
      assert (Hl : v = No -> p + k + n <= md tr2) by (intros; eapply lines_low; eassumption).
      assert (Hl' : v = No -> p + k + n <= md tr2') by (intros; eapply lines_low; eassumption).
      apply reach_after; rewrite ?Nat.add_assoc; auto.
      simpl in *. rewrite ?Nat.add_assoc. assumption.
    (* line *)
    - destruct (H0 r2) as (tr' & Hr & Hreach); auto.
      eexists. split; [eapply reads_line_plain; eassumption|exact Hreach].
    - eexists. split; [apply reads_line_short; assumption|apply reach_refl].
    - eexists. split; [eapply reads_line_deep; eassumption|apply reach_refl].
    - destruct (H4 r2) as (tr' & Hr & Hreach); auto; [sk|].
      eexists. split; [eapply reads_line_exact; eassumption|].
      destruct v; simpl in *; rewrite ?Nat.add_assoc; assumption.
    - destruct (H5 r2) as (tr' & Hr & Hreach); auto; [sk|].
      eexists. split; [eapply reads_line_align; eassumption|].
      destruct v; simpl in *; rewrite ?Nat.add_assoc in *; assumption.
  Qed.
End Replace.
