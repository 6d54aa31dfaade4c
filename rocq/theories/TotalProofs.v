(** Well-formed valid syntaxes have a verdict on every text. *)
From Coq Require Import List NArith Bool Arith Lia.
From Verif Require Import Base Ext Types ParseModel PegSpec PrimProofs DataSpec PegFacts TotalSpec
  OptProofs SafeProofs ApiSpec ParseProofs.
Import ListNotations.

Section Total.
  Variable E : ext.
  Hypothesis HE : ext_ok E.
  Variable syn : syntax.
  Hypothesis Hvalid : valid syn.
  Hypothesis Hwf : well_formed syn.

  Definition trefs := s_rules syn.

  Lemma reads_tabs_all :
    (forall r ind p s v ind' tr,
      reads E trefs r ind p s v ind' tr -> i_tab_spaces ind' = i_tab_spaces ind) /\
    (forall args ind p s v ind' tr,
      reads_seq E trefs args ind p s v ind' tr -> i_tab_spaces ind' = i_tab_spaces ind) /\
    (forall args ind p s v ind' tr,
      reads_first E trefs args ind p s v ind' tr -> i_tab_spaces ind' = i_tab_spaces ind) /\
    (forall r ind p s k n out ind' tr,
      reads_many E trefs r ind p s k n out ind' tr -> i_tab_spaces ind' = i_tab_spaces ind) /\
    (forall r by_ trail ind p s v ind' tr,
      reads_more E trefs r by_ trail ind p s v ind' tr -> i_tab_spaces ind' = i_tab_spaces ind) /\
    (forall r indented id fresh nl ind p s v ind' tr,
      reads_lines E trefs r indented id fresh nl ind p s v ind' tr ->
      i_tab_spaces ind' = i_tab_spaces ind) /\
    (forall r indented fresh ind p s v fresh' ind' tr,
      reads_line E trefs r indented fresh ind p s v fresh' ind' tr ->
      i_tab_spaces ind' = i_tab_spaces ind).
  Proof.
    apply reads_mutind; intros; unfold set_indent in *; simpl in *;
      first [reflexivity | assumption | congruence].
  Qed.

  Lemma reads_empty_all :
    (forall r ind p s v ind' tr, reads E trefs r ind p s v ind' tr ->
      forall out, v = Yes 0 out -> may_be_empty trefs r) /\
    (forall args ind p s v ind' tr, reads_seq E trefs args ind p s v ind' tr ->
      forall out, v = Yes 0 out -> Forall (may_be_empty trefs) args) /\
    (forall args ind p s v ind' tr, reads_first E trefs args ind p s v ind' tr ->
      forall out, v = Yes 0 out -> exists r, In r args /\ may_be_empty trefs r) /\
    (forall r ind p s k n out ind' tr, reads_many E trefs r ind p s k n out ind' tr ->
      n = 0 -> k = 0 \/ may_be_empty trefs r) /\
    (forall r by_ trail ind p s v ind' tr,
      reads_more E trefs r by_ trail ind p s v ind' tr -> True) /\
    (forall r indented id fresh nl ind p s v ind' tr,
      reads_lines E trefs r indented id fresh nl ind p s v ind' tr -> True) /\
    (forall r indented fresh ind p s v fresh' ind' tr,
      reads_line E trefs r indented fresh ind p s v fresh' ind' tr -> True).
  Proof.
    assert (Hafter : forall n out v out', after n out v = Yes 0 out' ->
      n = 0 /\ exists o, v = Yes 0 o).
    { intros n out [m o|] out' H; [|discriminate]. injection H as Hn _.
      assert (n = 0) by lia. assert (m = 0) by lia. subst. eauto. }
    apply reads_mutind; intros; try exact I; try discriminate;
      try (match goal with H : after _ _ _ = Yes 0 _ |- _ => apply Hafter in H as (-> & o & ->) end);
      try (match goal with H : Yes _ _ = Yes 0 _ |- _ => injection H as Hz Ho end).
    - (* whitespace *)
      subst. destruct optional; [constructor|]. destruct H0 as [?|?]; [discriminate|lia].
    - destruct text; [apply empty_tag|discriminate].
    - apply empty_not_tag.
    - subst. destruct optional; [apply empty_until|]. destruct H0 as [?|?]; [discriminate|lia].
    - subst. destruct optional; [apply empty_until_ws|]. destruct H0 as [?|?]; [discriminate|lia].
    - subst. apply (x_string_bounds _ HE) in H. lia.
    - subst. apply (x_number_bounds _ HE) in H. lia.
    - apply empty_sequence. eauto.
    - destruct (H1 _ H2) as (r & Hin & Hr). eapply empty_select; eassumption.
    - eapply empty_fast; [apply in_or_app; right; left; reflexivity|]. eauto.
    - subst. eapply empty_fast; [eapply nth_error_In; eassumption|]. eauto.
    - eapply empty_fast; [apply in_or_app; right; left; reflexivity|]. eauto.
    - subst. destruct optional; [apply empty_repeat_optional|].
      destruct (H0 eq_refl) as [->|Hr]; [destruct H1 as [?|?]; [discriminate|lia]|].
      apply empty_repeat. exact Hr.
    - apply empty_separate. eauto.
    - destruct optional; [apply empty_separate_optional|discriminate].
    - apply empty_lines.
    - subst. eapply empty_node; eauto.
    - apply empty_optional.
    - apply empty_optional.
    - apply empty_not.
    - constructor.
    - constructor; [eauto|]. eauto.
    - subst. exists r. split; [left; reflexivity|]. eauto.
    - destruct (H2 _ H3) as (r' & Hin & Hr'). exists r'. split; [right; exact Hin|exact Hr'].
    - left. reflexivity.
    - right. assert (n = 0) by lia. subst. eauto.
  Qed.

  Lemma reads_empty r ind p s out ind' tr :
    reads E trefs r ind p s (Yes 0 out) ind' tr -> may_be_empty trefs r.
  Proof. intros H. exact (proj1 reads_empty_all _ _ _ _ _ _ _ H out eq_refl). Qed.

  Lemma reads_fit r ind p s v ind' tr n :
    reads E trefs r ind p s v ind' tr -> columns_fit ind s -> columns_fit ind' (skipn n s).
  Proof.
    intros H Hf. eapply columns_fit_tabs; [|apply columns_fit_skip; exact Hf].
    exact (proj1 reads_tabs_all _ _ _ _ _ _ _ H).
  Qed.

  (** The rule has a verdict in front of every text of length [n]. *)
  Definition decided (n : nat) (r : rule) : Prop :=
    forall ind p s, length s = n -> columns_fit ind s ->
      exists v ind' tr, reads E trefs r ind p s v ind' tr.

  Section Step.
    Variable n : nat.
    (** On shorter texts everything is decided. *)
    Hypothesis Hshort : forall m r, m < n -> occurs syn r -> decided m r.

    (** Decided on texts of length [m <= n] when decided at length [n]. *)
    Lemma upto r m : occurs syn r -> m <= n -> (m = n -> decided n r) -> decided m r.
    Proof.
      intros Ho Hm H. destruct (Nat.eq_dec m n) as [->|Hne]; [auto|]. apply Hshort; [lia|exact Ho].
    Qed.

    Lemma seq_decided args done :
      Forall (occurs syn) args ->
      (forall before r behind, args = before ++ r :: behind ->
         Forall (may_be_empty trefs) (done ++ before) -> decided n r) ->
      forall ind p s, length s <= n -> columns_fit ind s ->
        (length s = n -> Forall (may_be_empty trefs) done) ->
        exists v ind' tr, reads_seq E trefs args ind p s v ind' tr.
    Proof.
      intros Ho. revert done. induction Ho as [|r rest Hr Hrest IH]; intros done Hd ind p s Hl Hf He.
      - do 3 eexists. apply reads_seq_nil.
      - destruct (upto r (length s) Hr Hl) with (ind := ind) (p := p) (s := s)
          as (v & ind1 & tr1 & H1); [|reflexivity|exact Hf|].
        { intros Hn. apply (Hd [] r rest eq_refl). rewrite app_nil_r. auto. }
        destruct v as [k out|]; [|do 3 eexists; apply reads_seq_no; exact H1].
        pose proof (reads_le E HE _ _ _ _ _ _ _ _ _ H1) as Hk.
        destruct (IH (done ++ [r])) with (ind := ind1) (p := p + k) (s := skipn k s)
          as (v & ind2 & tr2 & H2).
        + intros before r' behind -> Hb. apply (Hd (r :: before) r' behind eq_refl).
          rewrite <- app_assoc in Hb. exact Hb.
        + rewrite skipn_length. lia.
        + eapply reads_fit; eassumption.
        + rewrite skipn_length. intros Hn. assert (k = 0) by lia. subst k.
          apply Forall_app. split; [apply He; lia|]. constructor; [|constructor].
          eapply reads_empty. exact H1.
        + do 3 eexists. eapply reads_seq_cons; eassumption.
    Qed.

    Lemma first_decided args : Forall (decided n) args ->
      forall ind p s, length s = n -> columns_fit ind s ->
        exists v ind' tr, reads_first E trefs args ind p s v ind' tr.
    Proof.
      induction 1 as [|r rest Hr Hrest IH]; intros ind p s Hl Hf.
      - do 3 eexists. apply reads_first_none.
      - destruct (Hr ind p s Hl Hf) as (v & ind1 & tr1 & H1).
        destruct v as [k out|]; [do 3 eexists; apply reads_first_yes; exact H1|].
        destruct (IH ind1 p s Hl) as (v & ind2 & tr2 & H2).
        { change s with (skipn 0 s). eapply reads_fit; eassumption. }
        do 3 eexists. eapply reads_first_next; eassumption.
    Qed.

    Lemma many_decided r : occurs syn r -> decided n r -> ~ may_be_empty trefs r ->
      forall m ind p s, length s = m -> m <= n -> columns_fit ind s ->
        exists k l out ind' tr, reads_many E trefs r ind p s k l out ind' tr.
    Proof.
      intros Ho Hd Hne m. induction m as [m IH] using lt_wf_ind. intros ind p s Hl Hm Hf.
      destruct (upto r m Ho Hm (fun _ => Hd)) with (ind := ind) (p := p) (s := s)
        as (v & ind1 & tr1 & H1); [exact Hl|exact Hf|].
      destruct v as [k out|]; [|do 5 eexists; apply reads_many_stop; exact H1].
      pose proof (reads_le E HE _ _ _ _ _ _ _ _ _ H1) as Hk.
      assert (k <> 0) by (intros ->; apply Hne; eapply reads_empty; exact H1).
      destruct (IH (length (skipn k s))) with (ind := ind1) (p := p + k) (s := skipn k s)
        as (k2 & l & out2 & ind2 & tr2 & H2).
      - rewrite skipn_length. lia.
      - reflexivity.
      - rewrite skipn_length. lia.
      - eapply reads_fit; eassumption.
      - do 5 eexists. eapply reads_many_step; eassumption.
    Qed.

    Lemma more_decided r by_ trail : occurs syn r -> occurs syn by_ ->
      decided n r -> (may_be_empty trefs r -> decided n by_) ->
      ~ (may_be_empty trefs r /\ may_be_empty trefs by_) ->
      forall m ind p s, length s = m -> m <= n -> columns_fit ind s ->
        (m = n -> may_be_empty trefs r) ->
        exists v ind' tr, reads_more E trefs r by_ trail ind p s v ind' tr.
    Proof.
      intros Hor Hob Hdr Hdb Hne m. induction m as [m IH] using lt_wf_ind.
      intros ind p s Hl Hm Hf He.
      destruct (upto by_ m Hob Hm (fun H => Hdb (He H))) with (ind := ind) (p := p) (s := s)
        as (v & ind1 & tr1 & H1); [exact Hl|exact Hf|].
      destruct v as [k out|]; [|do 3 eexists; apply reads_more_stop; exact H1].
      pose proof (reads_le E HE _ _ _ _ _ _ _ _ _ H1) as Hk.
      assert (Hf1 : columns_fit ind1 (skipn k s)) by (eapply reads_fit; eassumption).
      destruct (upto r (length (skipn k s)) Hor) with (ind := ind1) (p := p + k) (s := skipn k s)
        as (v & ind2 & tr2 & H2); [rewrite skipn_length; lia|auto|reflexivity|exact Hf1|].
      destruct v as [l out2|]; [|do 3 eexists; eapply reads_more_trail; eassumption].
      pose proof (reads_le E HE _ _ _ _ _ _ _ _ _ H2) as Hk2. rewrite skipn_length in Hk2.
      assert (k <> 0 \/ l <> 0).
      { destruct k; [|left; lia]. destruct l; [|right; lia]. exfalso. apply Hne.
        split; eapply reads_empty; eassumption. }
      destruct (IH (length (skipn l (skipn k s)))) with
        (ind := ind2) (p := p + k + l) (s := skipn l (skipn k s)) as (v & ind3 & tr3 & H3).
      - rewrite !skipn_length. lia.
      - reflexivity.
      - rewrite !skipn_length. lia.
      - eapply reads_fit; eassumption.
      - rewrite !skipn_length. lia.
      - do 3 eexists. eapply reads_more_item; eassumption.
    Qed.

    Lemma line_decided r indented fresh : occurs syn r -> decided n r ->
      forall ind p s, length s <= n -> columns_fit ind s ->
        exists v fresh' ind' tr, reads_line E trefs r indented fresh ind p s v fresh' ind' tr.
    Proof.
      intros Ho Hd ind p s Hl Hf. destruct indented.
      - destruct (skip_indent s (i_indent ind) (i_tab_spaces ind)) as [k|] eqn:Hk.
        2: { do 4 eexists. apply reads_line_short. apply skip_indent_none. exact Hk. }
        apply skip_indent_spec in Hk.
        assert (Hw : forall b, b <= length (skipn k s) ->
          (i_indent ind + width (i_tab_spaces ind) (firstn b (skipn k s)) + 1 <= u32_max)%N).
        { intros b Hb. eapply line_width; [exact Hk|exact Hb|apply Hf]. }
        assert (Hgo : forall w j q, j <= length s ->
          exists v ind' tr, reads E trefs r (set_indent ind w) q (skipn j s) v ind' tr).
        { intros w j q Hj. eapply (upto r (length (skipn j s))); [exact Ho| |auto|reflexivity|].
          - rewrite skipn_length. lia.
          - eapply columns_fit_tabs; [|apply columns_fit_skip; exact Hf]. reflexivity. }
        pose proof (indentation_width _ _ _ _ Hk) as [_ Hkl].
        destruct (fresh && i_align_first ind) eqn:Hfr.
        + apply andb_true_iff in Hfr as [-> Ha].
          pose proof (longest_span blank blankb (skipn k s) blank_spec) as Hb.
          pose proof (longest_le _ _ _ Hb) as Hbl. specialize (Hw _ Hbl).
          set (b := span_len blankb (skipn k s)) in *.
          rewrite skipn_length in Hbl.
          destruct (Hgo (i_indent ind + width (i_tab_spaces ind) (firstn b (skipn k s)) + 1)%N
                      (k + b) (p + k + b)) as (v & ind' & tr & H); [lia|].
          rewrite <- skipn_skipn_add in H.
          do 4 eexists. eapply reads_line_align; try eassumption. reflexivity.
        + destruct (is_prefix [space] (skipn k s)) eqn:Hp.
          * do 4 eexists. eapply reads_line_deep; try eassumption. apply is_prefix_spec. exact Hp.
          * apply is_prefix_false in Hp.
            specialize (Hw 0 ltac:(lia)). simpl in Hw. rewrite N.add_0_r in Hw.
            destruct (Hgo (i_indent ind + 1)%N k (p + k) Hkl) as (v & ind' & tr & H).
            do 4 eexists. eapply reads_line_exact; eassumption.
      - destruct (upto r (length s) Ho Hl (fun _ => Hd)) with (ind := ind) (p := p) (s := s)
          as (v & ind' & tr & H); [reflexivity|exact Hf|].
        do 4 eexists. apply reads_line_plain. exact H.
    Qed.

    Lemma lines_decided r indented id : occurs syn r -> decided n r ->
      forall m nl fresh ind p s, length s + (if nl : bool then 1 else 0) = m -> length s <= n ->
        columns_fit ind s ->
        exists v ind' tr, reads_lines E trefs r indented id fresh nl ind p s v ind' tr.
    Proof.
      intros Ho Hd m. induction m as [m IH] using lt_wf_ind. intros nl fresh ind p s Hm Hl Hf.
      destruct (forall_white_dec s) as [Hws|Hws].
      { do 3 eexists. apply reads_lines_end. exact Hws. }
      assert (Hgo : forall k, line_start nl s k -> k <> 0 \/ nl = true ->
        exists v ind' tr, reads_lines E trefs r indented id fresh nl ind p s v ind' tr).
      { intros k Hk Hp. pose proof (line_start_le _ _ _ Hk) as Hkl.
        destruct (line_decided r indented fresh Ho Hd ind (p + k) (skipn k s))
          as (v & fresh' & ind1 & tr1 & H1).
        - rewrite skipn_length. lia.
        - apply columns_fit_skip. exact Hf.
        - destruct v as [j out|].
          2: { do 3 eexists. eapply reads_lines_stop; eassumption. }
          set (nl' := ends_with_newline (firstn j (skipn k s))).
          assert (Hj : j <= length (skipn k s)).
          { destruct (reads_fits_all E HE trefs) as (_ & _ & _ & _ & _ & _ & Hall).
            apply Hall in H1 as [[H1 _] _]. exact H1. }
          rewrite skipn_length in Hj.
          destruct (IH (length (skipn j (skipn k s)) + (if nl' then 1 else 0))) with
            (nl := nl') (fresh := fresh') (ind := ind1) (p := p + k + j) (s := skipn j (skipn k s))
            as (v & ind2 & tr2 & H2).
          + rewrite !skipn_length. destruct (Nat.eq_dec j 0) as [->|Hj0].
            * unfold nl'. change (firstn 0 (skipn k s)) with (@nil char).
              change (ends_with_newline []) with false. cbv iota.
              destruct Hp as [Hk0| ->]; [|lia]. lia.
            * destruct nl', nl; lia.
          + reflexivity.
          + rewrite !skipn_length. lia.
          + eapply columns_fit_tabs; [|do 2 apply columns_fit_skip; exact Hf].
            destruct reads_tabs_all as (_ & _ & _ & _ & _ & _ & Hall).
            eapply Hall. exact H1.
          + do 3 eexists. eapply reads_lines_item; try eassumption.
            apply ends_with_newline_spec. }
      pose proof (line_start_model nl s) as Hls.
      destruct (after_last_newline _) as [k|] eqn:Hal.
      - apply (Hgo k Hls). left. intros ->.
        pose proof (after_last_newline_spec (firstn (span_len is_ws s) s)) as Hsp.
        rewrite Hal in Hsp. destruct Hsp as (a & b & _ & _ & Hz). lia.
      - destruct nl.
        + apply (Hgo 0); [apply line_start_here; [reflexivity|exact Hls]|right; reflexivity].
        + do 3 eexists. apply reads_lines_missing; assumption.
    Qed.

    (** Decided when all rules of lower rank are. *)
    Lemma rule_decided k (rank : nat -> nat) :
      (forall i r, nth_error trefs i = Some r -> rank i < k -> decided n r) ->
      forall r, occurs syn r -> (forall j, leads_to trefs r j -> rank j < k) -> decided n r.
    Proof.
      intros Hlow r. induction r as [r IH] using rule_ind'. intros Ho Hlead.
      assert (Hsub : forall c, In c (children r) -> tried_first trefs r c -> decided n c).
      { intros c Hc Ht. apply IH; [exact Hc|eapply occurs_child; eassumption|].
        intros j Hj. apply Hlead. eapply leads_below; eassumption. }
      destruct Hwf as (Hrep & Hsep & _).
      pose proof (Hvalid r Ho) as Hv.
      assert (Hoc : forall c, In c (children r) -> occurs syn c)
        by (intros; eapply occurs_child; eassumption).
      intros ind p s Hl Hf. destruct r; cbn [children] in *.
      - pose proof (longest_span white is_ws s white_spec) as Hw.
        destruct optional; [do 3 eexists; apply reads_whitespace; [exact Hw|auto]|].
        destruct (span_len is_ws s) as [|w] eqn:Hz.
        + do 3 eexists. apply reads_whitespace_no. exact Hw.
        + do 3 eexists. apply reads_whitespace; [exact Hw|]. right. lia.
      - destruct (is_prefix text s) eqn:Hp.
        + apply is_prefix_spec in Hp. destruct not; do 3 eexists;
            [apply reads_not_tag_no|apply reads_tag]; exact Hp.
        + apply is_prefix_false in Hp. destruct not; do 3 eexists;
            [apply reads_not_tag|apply reads_tag_no]; exact Hp.
      - pose proof (longest_span _ _ s (until_spec any)) as Hw.
        destruct optional; [do 3 eexists; apply reads_until; [exact Hw|auto]|].
        destruct (span_len _ s) as [|w] eqn:Hz.
        + do 3 eexists. apply reads_until_no. exact Hw.
        + do 3 eexists. apply reads_until; [exact Hw|]. right. lia.
      - pose proof (longest_span _ _ s (until_ws_spec any)) as Hw.
        destruct optional; [do 3 eexists; apply reads_until_ws; [exact Hw|auto]|].
        destruct (span_len _ s) as [|w] eqn:Hz.
        + do 3 eexists. apply reads_until_ws_no. exact Hw.
        + do 3 eexists. apply reads_until_ws; [exact Hw|]. right. lia.
      - destruct (x_string E s) as [m|] eqn:Hx.
        2: { do 3 eexists. apply reads_text_none. exact Hx. }
        destruct (Nat.eq_dec m 2) as [->|Hm].
        + destruct allow_empty; [|do 3 eexists; apply reads_text_empty; exact Hx].
          destruct (x_parse_string E (firstn 2 s)) as [val|[re e]] eqn:Hps; do 3 eexists.
          * eapply reads_text; [exact Hx|left; reflexivity|exact Hps].
          * eapply reads_text_bad; [exact Hx|left; reflexivity|exact Hps].
        + destruct (x_parse_string E (firstn m s)) as [val|[re e]] eqn:Hps; do 3 eexists.
          * eapply reads_text; [exact Hx|right; exact Hm|exact Hps].
          * eapply reads_text_bad; [exact Hx|right; exact Hm|exact Hps].
      - match goal with |- context [RNumber ?u _ _] => destruct (x_number E u s) as [m|] eqn:Hx end.
        2: { do 3 eexists. apply reads_number_none. exact Hx. }
        match goal with |- context [RNumber ?u _ _] =>
          destruct (x_parse_number E u (firstn m s)) as [val|] eqn:Hpn end; do 3 eexists.
        + eapply reads_number; eassumption.
        + eapply reads_number_bad; eassumption.
      - destruct args as [|a args]; [do 3 eexists; apply reads_select_empty|].
        destruct (first_decided (a :: args)) with (ind := ind) (p := p) (s := s)
          as (v & ind' & tr & H); [|exact Hl|exact Hf|].
        + apply Forall_forall. intros c Hc. apply Hsub; [exact Hc|]. apply first_select. exact Hc.
        + do 3 eexists. apply reads_select; [discriminate|exact H].
      - destruct s as [|c s]; [do 3 eexists; apply reads_fast_end|].
        destruct Hv as (Hlen & Hent & Htail).
        assert (Hd : forall c, In c args -> decided n c).
        { intros c' Hc. apply Hsub; [exact Hc|]. apply first_fast. exact Hc. }
        assert (Hb : N.to_nat (utf8_first c) < 256).
        { apply utf8_first_lt. destruct Hf as [Hr _]. inversion Hr. assumption. }
        destruct (nth_error table (N.to_nat (utf8_first c))) as [i|] eqn:Hi.
        2: { apply nth_error_None in Hi. lia. }
        pose proof (Hent i (nth_error_In _ _ Hi)) as Hin.
        assert (Hlast : tail = true -> exists init last, args = init ++ [last]).
        { intros Ht. destruct (exists_last (Htail Ht)) as (init & last & ->). eauto. }
        destruct (Nat.eq_dec i 255) as [->|Hi255].
        + destruct tail.
          * destruct (Hlast eq_refl) as (init & last & ->).
            destruct (Hd last (in_elt last init []) ind p (c :: s) Hl Hf)
              as (v & ind' & tr & H).
            do 3 eexists. apply reads_fast_tail; eassumption.
          * do 3 eexists. apply reads_fast_none. exact Hi.
        + destruct Hin as [Hin|Hin]; [contradiction|].
          destruct (nth_error args i) as [r|] eqn:Hr; [|apply nth_error_None in Hr; lia].
          destruct (Hd r (nth_error_In _ _ Hr) ind p (c :: s) Hl Hf) as (v & ind1 & tr1 & H1).
          destruct v as [k' out|]; [do 3 eexists; eapply reads_fast; eassumption|].
          destruct tail; [|do 3 eexists; eapply reads_fast_no; eassumption].
          destruct (Hlast eq_refl) as (init & last & ->).
          destruct (Hd last (in_elt last init []) ind1 p (c :: s) Hl)
            as (v & ind' & tr & H).
          { change (c :: s) with (skipn 0 (c :: s)). eapply reads_fit; eassumption. }
          do 3 eexists. eapply reads_fast_then_tail; eassumption.
      - destruct (seq_decided args []) with (ind := ind) (p := p) (s := s)
          as (v & ind' & tr & H); [| |lia|exact Hf|constructor|].
        + apply Forall_forall. exact Hoc.
        + intros before r behind -> Hb. apply Hsub; [apply in_or_app; right; left; reflexivity|].
          apply first_sequence. exact Hb.
        + do 3 eexists. apply reads_sequence. exact H.
      - assert (Hd1 : decided n r1) by (apply Hsub; [left; reflexivity|apply first_separate]).
        assert (Hd2 : may_be_empty trefs r1 -> decided n r2).
        { intros He. apply Hsub; [right; left; reflexivity|]. apply first_separator. exact He. }
        destruct (Hd1 ind p s Hl Hf) as (v & ind1 & tr1 & H1).
        destruct v as [k' out|]; [|do 3 eexists; eapply reads_separate_none; exact H1].
        pose proof (reads_le E HE _ _ _ _ _ _ _ _ _ H1) as Hk.
        destruct (more_decided r1 r2 allow_trail) with (m := length (skipn k' s))
          (ind := ind1) (p := p + k') (s := skipn k' s) as (v & ind2 & tr2 & H2).
        + apply Hoc. left. reflexivity.
        + apply Hoc. right. left. reflexivity.
        + exact Hd1.
        + exact Hd2.
        + eapply Hsep. exact Ho.
        + reflexivity.
        + rewrite skipn_length. lia.
        + eapply reads_fit; eassumption.
        + rewrite skipn_length. intros Hn. assert (k' = 0) by lia. subst k'.
          eapply reads_empty. exact H1.
        + do 3 eexists. eapply reads_separate; eassumption.
      - assert (Hd1 : decided n r) by (apply Hsub; [left; reflexivity|apply first_repeat]).
        destruct (many_decided r) with (m := n) (ind := ind) (p := p) (s := s)
          as (k' & l & out & ind' & tr & H); [apply Hoc; left; reflexivity|exact Hd1| |exact Hl|lia|exact Hf|].
        + eapply Hrep. exact Ho.
        + destruct optional; [do 3 eexists; eapply reads_repeat; [exact H|auto]|].
          destruct k' as [|k']; [|do 3 eexists; eapply reads_repeat; [exact H|right; lia]].
          inversion H; subst. do 3 eexists. apply reads_repeat_no. eassumption.
      - assert (Hd1 : decided n r) by (apply Hsub; [left; reflexivity|apply first_lines]).
        match goal with |- context [RLines r ?i ?d] =>
          destruct (lines_decided r i d (Hoc _ (or_introl eq_refl)) Hd1 (length s + 1) true true ind p s
                      eq_refl) as (v & ind' & tr & H); [lia|exact Hf|] end.
        do 3 eexists. apply reads_lines_rule. exact H.
      - destruct index as [i|]; [|do 3 eexists; apply reads_node_unresolved].
        destruct (nth_error trefs i) as [r|] eqn:Hr.
        2: { apply nth_error_None in Hr. simpl in Hv. unfold trefs in Hr. lia. }
        destruct (Hlow i r Hr) with (ind := ind) (p := p) (s := s) as (v & ind' & tr & H);
          [apply Hlead; apply leads_here|exact Hl|exact Hf|].
        destruct v as [k' out|]; do 3 eexists; [eapply reads_node|eapply reads_node_no]; eassumption.
      - destruct (Hsub r (or_introl eq_refl) (first_optional _ _ _) ind p s Hl Hf)
          as (v & ind' & tr & H).
        destruct v as [k' out|]; do 3 eexists; [eapply reads_optional|eapply reads_optional_none]; exact H.
      - destruct (Hsub r (or_introl eq_refl) (first_not _ _ _) ind p s Hl Hf)
          as (v & ind' & tr & H).
        destruct v as [k' out|]; do 3 eexists; [eapply reads_not_no|eapply reads_not]; exact H.
    Qed.
  End Step.

  Theorem all_decided n : forall r, occurs syn r -> decided n r.
  Proof.
    induction n as [n IHn] using lt_wf_ind. intros r Ho.
    assert (Hshort : forall m r, m < n -> occurs syn r -> decided m r) by auto.
    pose proof Hwf as (_ & _ & rank & Hrank).
    assert (Hk : forall k r, occurs syn r -> (forall j, leads_to trefs r j -> rank j < k) ->
      decided n r).
    { induction k as [k IHk] using lt_wf_ind. intros r' Ho' Hl'.
      eapply (rule_decided n Hshort k rank); [|exact Ho'|exact Hl'].
      intros i ri Hi Hlt. apply (IHk (rank i) Hlt).
      - apply occurs_top. eapply nth_error_In. exact Hi.
      - intros j Hj. eapply Hrank; eassumption. }
    assert (Hall : forall i ri, nth_error trefs i = Some ri -> decided n ri).
    { intros i ri Hi. apply (Hk (rank i)).
      - apply occurs_top. eapply nth_error_In. exact Hi.
      - intros j Hj. eapply Hrank; eassumption. }
    eapply (rule_decided n Hshort 1 (fun _ => 0)); [|exact Ho|intros; lia].
    intros i ri Hi _. eapply Hall. exact Hi.
  Qed.

  Theorem parse_decided text tokens ind : columns_fit ind text ->
    exists result tokens', parse_returns E syn text tokens ind result tokens'.
  Proof.
    intros Hf. destruct (s_rules syn) as [|r0 rules] eqn:Hs.
    - exists (Some (Rng 0 0, NoRules)), tokens, 0. unfold parse_with_indent. rewrite Hs. reflexivity.
    - assert (Hr : exists r, start_rule syn r).
      { destruct (exists_last (l := r0 :: rules)) as (init & r & He); [discriminate|].
        exists r, init. rewrite Hs. exact He. }
      destruct Hr as (r & Hr).
      destruct (all_decided (length text) r) with (ind := ind) (p := 0) (s := text)
        as (v & ind' & tr & H); [|reflexivity|exact Hf|].
      { destruct Hr as (init & Hr). apply occurs_top. rewrite Hr. apply in_or_app. right. left. reflexivity. }
      destruct (parse_done E syn text tokens ind r _ _ _ Hr H) as (fuel & res & tokens' & Hp).
      exists res, tokens', fuel. exact Hp.
  Qed.
End Total.
