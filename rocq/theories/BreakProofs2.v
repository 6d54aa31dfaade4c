(** Rules read texts alike that differ in their line breaks. *)
From Coq Require Import List NArith Bool Arith Lia.
From Verif Require Import Base Ext Types PegSpec PrimProofs PegFacts DataSpec BreakSpec BreakProofs.
Import ListNotations.

Section Breaks.
  Variable E : ext.
  Hypothesis HB : breaks_ok E.
  Variable syn : syntax.
  Hypothesis Hsafe : breaks_safe syn.
  Variable text : str.

  Definition vrel (s s' : str) (v v' : verdict) : Prop :=
    match v, v' with
    | Yes n out, Yes n' out' =>
      same_breaks (skipn n s) (skipn n' s') /\ Forall2 (same_token text) out out'
    | No, No => True
    | _, _ => False
    end.

  Lemma vrel_yes s s' n out v' : vrel s s' (Yes n out) v' ->
    exists n' out', v' = Yes n' out' /\ same_breaks (skipn n s) (skipn n' s') /\
      Forall2 (same_token text) out out'.
  Proof. destruct v' as [n' out'|]; [|intros []]. intros [H1 H2]. eauto. Qed.

  Lemma vrel_no s s' v' : vrel s s' No v' -> v' = No.
  Proof. destruct v'; [intros []|reflexivity]. Qed.

  Lemma vrel_after s s' n n' out out' v v' :
    Forall2 (same_token text) out out' -> vrel (skipn n s) (skipn n' s') v v' ->
    vrel s s' (after n out v) (after n' out' v').
  Proof.
    intros Ho Hv. destruct v as [m o|], v' as [m' o'|]; cbn in *; try tauto.
    destruct Hv as [H1 H2]. rewrite !skipn_skipn_add in H1. split; [exact H1|].
    apply Forall2_app; assumption.
  Qed.

  Lemma token_none property r r' mk mk' :
    (forall n, same_token text (r, mk n) (r', mk' n)) ->
    Forall2 (same_token text) (token property r mk) (token property r' mk').
  Proof. intros H. destruct property; cbn; constructor; auto. Qed.

  Lemma under_here p s n : s = skipn p text -> under text (Rng p n) = firstn n s.
  Proof. intros ->. reflexivity. Qed.

  Lemma until_rel (P : char -> Prop) s s' n : (P newline <-> P carriage) -> same_breaks s s' ->
    longest P s n -> forall p p' property, s = skipn p text ->
    exists n', longest P s' n' /\ (0 < n <-> 0 < n') /\
      vrel s s' (Yes n (token property (Rng p n) (fun name => MString name (firstn n s))))
        (Yes n' (token property (Rng p' n') (fun name => MString name (firstn n' s')))).
  Proof.
    intros HP H Hn p p' property Hs.
    destruct (longest_breaks P s s' HP H n Hn) as (n' & H1 & H2 & H3 & H4).
    exists n'. split; [exact H1|]. split; [exact H4|]. split; [exact H3|].
    apply token_none. intros name. constructor; [exact H2|].
    rewrite (under_here p s n Hs). apply sb_plain. exact H2.
  Qed.

  Definition sim (R : indent -> nat -> str -> verdict -> indent -> list perr -> Prop)
    (ind : indent) (p : nat) (s : str) (v : verdict) (ind' : indent) : Prop :=
    s = skipn p text -> forall p' s', same_breaks s s' ->
    exists v' tr', R ind p' s' v' ind' tr' /\ vrel s s' v v'.

  Lemma table_breaks table args tail id c s c' s' :
    break_safe (RFastSelect table args tail id) -> same_breaks (c :: s) (c' :: s') ->
    nth_error table (N.to_nat (utf8_first c')) = nth_error table (N.to_nat (utf8_first c)).
  Proof.
    cbn [break_safe]. intros Ht H. inversion H; subst; [reflexivity| |].
    - symmetry. exact Ht.
    - exact Ht.
  Qed.

  Lemma cons_breaks c s t : same_breaks (c :: s) t -> exists c' s', t = c' :: s'.
  Proof. inversion 1; eauto. Qed.

  Ltac use IH q :=
    let v := fresh "v'" in let t := fresh "tr'" in let R := fresh "R" in let V := fresh "V" in
    edestruct IH as (v & t & R & V);
    [..|first [apply vrel_yes in V as (?n' & ?out' & -> & ?Hsk & ?Hout)
              |apply vrel_no in V as ->|idtac]].

  Theorem reads_breaks :
    (forall r ind p s v ind' tr, reads E (s_rules syn) r ind p s v ind' tr ->
      occurs syn r -> sim (reads E (s_rules syn) r) ind p s v ind') /\
    (forall args ind p s v ind' tr, reads_seq E (s_rules syn) args ind p s v ind' tr ->
      Forall (occurs syn) args -> sim (reads_seq E (s_rules syn) args) ind p s v ind') /\
    (forall args ind p s v ind' tr, reads_first E (s_rules syn) args ind p s v ind' tr ->
      Forall (occurs syn) args -> sim (reads_first E (s_rules syn) args) ind p s v ind') /\
    (forall r ind p s k n out ind' tr, reads_many E (s_rules syn) r ind p s k n out ind' tr ->
      occurs syn r -> s = skipn p text -> forall p' s', same_breaks s s' ->
      exists n' out' tr', reads_many E (s_rules syn) r ind p' s' k n' out' ind' tr' /\
        vrel s s' (Yes n out) (Yes n' out')) /\
    (forall r by_ trail ind p s v ind' tr,
      reads_more E (s_rules syn) r by_ trail ind p s v ind' tr ->
      occurs syn r -> occurs syn by_ -> sim (reads_more E (s_rules syn) r by_ trail) ind p s v ind') /\
    (forall r indented id fresh nl ind p s v ind' tr,
      reads_lines E (s_rules syn) r indented id fresh nl ind p s v ind' tr ->
      occurs syn r -> sim (reads_lines E (s_rules syn) r indented id fresh nl) ind p s v ind') /\
    (forall r indented fresh ind p s v fresh' ind' tr,
      reads_line E (s_rules syn) r indented fresh ind p s v fresh' ind' tr ->
      occurs syn r ->
      sim (fun i q t w i' tr' => reads_line E (s_rules syn) r indented fresh i q t w fresh' i' tr')
        ind p s v ind').
  Proof.
    assert (Hsub : forall r args, occurs syn r -> children r = args -> Forall (occurs syn) args).
    { intros r args Ho <-. apply Forall_forall. intros c Hc. eapply occurs_child; eassumption. }
    assert (Hone : forall r c, occurs syn r -> In c (children r) -> occurs syn c).
    { intros r c Ho Hc. eapply occurs_child; eassumption. }
    assert (Hskip : forall p n, skipn n (skipn p text) = skipn (p + n) text).
    { intros. apply skipn_skipn_add. }
    apply reads_mutind.
    - (* white space *)
      intros optional id ind p s n Hl Hn _ Hs p' s' H.
      destruct (longest_breaks white s s' ltac:(split; intros; [exact white_carriage|exact white_newline])
        H n Hl) as (n' & H1 & _ & H3 & H4).
      exists (Yes n' []), []. split; [constructor; [exact H1|tauto]|]. split; [exact H3|constructor].
    - intros id ind p s Hl _ Hs p' s' H.
      destruct (longest_breaks white s s' ltac:(split; intros; [exact white_carriage|exact white_newline])
        H 0 Hl) as (n' & H1 & _ & H3 & H4).
      assert (n' = 0) by lia. subst n'. eexists No, _. split; [constructor; exact H1|exact I].
    - (* tag *)
      intros tg inverted property id ind p s Hst Ho Hs p' s' H. apply Hsafe in Ho as [Hnl Hcr].
      destruct (starts_breaks tg Hnl Hcr s s' H Hst) as [H1 H2].
      eexists (Yes _ _), []. split; [constructor; exact H1|]. split; [exact H2|].
      apply token_none. intros; constructor.
    - intros tg inverted property id ind p s Hst Ho Hs p' s' H. apply Hsafe in Ho as [Hnl Hcr].
      eexists No, _. split; [constructor|exact I]. intros H1. apply Hst.
      apply (starts_breaks tg Hnl Hcr s' s (sb_sym _ _ H) H1).
    - intros tg inverted property id ind p s Hst Ho Hs p' s' H. apply Hsafe in Ho as [Hnl Hcr].
      eexists (Yes 0 _), []. split; [constructor|].
      + intros H1. apply Hst. apply (starts_breaks tg Hnl Hcr s' s (sb_sym _ _ H) H1).
      + split; [exact H|]. apply token_none. intros; constructor.
    - intros tg inverted property id ind p s Hst Ho Hs p' s' H. apply Hsafe in Ho as [Hnl Hcr].
      eexists No, _. split; [constructor|exact I]. apply (starts_breaks tg Hnl Hcr s s' H Hst).
    - (* until *)
      intros any optional property id ind p s n Hl Hn Ho Hs p' s' H.
      apply Hsafe in Ho as [Hany|(Hnl & -> & ->)].
      + destruct (until_rel (fun c => ~ In c any) s s' n ltac:(tauto) H Hl p p' property Hs)
          as (n' & H1 & H2 & H3).
        eexists (Yes n' _), []. split; [constructor; [exact H1|tauto]|exact H3].
      + destruct (in_dec N.eq_dec carriage any) as [Hc|Hc].
        * destruct (until_rel (fun c => ~ In c any) s s' n ltac:(tauto) H Hl p p' None Hs)
            as (n' & H1 & H2 & H3).
          eexists (Yes n' _), []. split; [constructor; [exact H1|tauto]|exact H3].
        * destruct (longest_feed (fun c => ~ In c any) s s' ltac:(tauto) Hc H n Hl) as (n' & H1 & H2).
          eexists (Yes n' _), []. split; [constructor; [exact H1|auto]|]. split; [exact H2|constructor].
    - intros any property id ind p s Hl Ho Hs p' s' H.
      apply Hsafe in Ho as [Hany|(_ & Hopt & _)]; [|discriminate].
      destruct (until_rel (fun c => ~ In c any) s s' 0 ltac:(tauto) H Hl p p' property Hs)
        as (n' & H1 & H2 & H3).
      assert (n' = 0) by lia. subst n'. eexists No, _. split; [constructor; exact H1|exact I].
    - intros any optional property id ind p s n Hl Hn Ho Hs p' s' H.
      destruct (until_rel (fun c => ~ white c /\ ~ In c any) s s' n
        ltac:(pose proof white_newline; pose proof white_carriage; tauto) H Hl p p' property Hs)
        as (n' & H1 & H2 & H3).
      eexists (Yes n' _), []. split; [constructor; [exact H1|tauto]|exact H3].
    - intros any property id ind p s Hl Ho Hs p' s' H.
      destruct (until_rel (fun c => ~ white c /\ ~ In c any) s s' 0
        ltac:(pose proof white_newline; pose proof white_carriage; tauto) H Hl p p' property Hs)
        as (n' & H1 & H2 & H3).
      assert (n' = 0) by lia. subst n'. eexists No, _. split; [constructor; exact H1|exact I].
    - (* text *)
      intros allow_empty property id ind p s n val Hx Hn Hv Ho Hs p' s' H.
      destruct (breaks_string E HB s s' n H Hx) as (n' & H1 & H2 & H3 & H4 & H5).
      rewrite Hv in H5. destruct (x_parse_string E (firstn n' s')) as [v'|] eqn:Hv'; [|destruct H5].
      eexists (Yes n' _), []. split; [econstructor; [exact H1|tauto|exact Hv']|].
      split; [exact H4|]. apply token_none. intros name. constructor; [exact H5|].
      rewrite (under_here p s n Hs). intros Hnn. apply sb_plain in H3; [|exact Hnn].
      rewrite H3, Hv in Hv'. injection Hv' as ->. reflexivity.
    - intros allow_empty property id ind p s Hx Ho Hs p' s' H.
      eexists No, _. split; [constructor|exact I].
      destruct (x_string E s') as [n'|] eqn:Hx'; [|reflexivity].
      destruct (breaks_string E HB s' s n' (sb_sym _ _ H) Hx') as (n & H1 & _). congruence.
    - intros property id ind p s Hx Ho Hs p' s' H.
      destruct (breaks_string E HB s s' 2 H Hx) as (n' & H1 & H2 & _).
      assert (n' = 2) by tauto. subst n'. eexists No, _. split; [constructor; exact H1|exact I].
    - intros allow_empty property id ind p s n r e Hx Hn Hv Ho Hs p' s' H.
      destruct (breaks_string E HB s s' n H Hx) as (n' & H1 & H2 & H3 & H4 & H5).
      rewrite Hv in H5. destruct (x_parse_string E (firstn n' s')) as [v'|[r' e']] eqn:Hv'; [destruct H5|].
      eexists No, _. split; [eapply reads_text_bad; [exact H1|tauto|exact Hv']|exact I].
    - (* number *)
      intros underscore property id ind p s n val Hx Hv Ho Hs p' s' H.
      destruct (breaks_number E HB underscore s s' n H Hx) as (H1 & H2 & H3).
      eexists (Yes n _), []. split; [econstructor; [exact H1|rewrite H2; exact Hv]|].
      split; [exact H3|]. apply token_none. intros; constructor.
    - intros underscore property id ind p s Hx Ho Hs p' s' H.
      eexists No, _. split; [constructor|exact I].
      destruct (x_number E underscore s') as [n'|] eqn:Hx'; [|reflexivity].
      destruct (breaks_number E HB underscore s' s n' (sb_sym _ _ H) Hx') as (H1 & _). congruence.
    - intros underscore property id ind p s n Hx Hv Ho Hs p' s' H.
      destruct (breaks_number E HB underscore s s' n H Hx) as (H1 & H2 & H3).
      eexists No, _. split; [eapply reads_number_bad; [exact H1|rewrite H2; exact Hv]|exact I].
    - (* sequence *)
      intros args id ind p s v ind' tr _ IH Ho Hs p' s' H.
      destruct (IH (Hsub _ _ Ho eq_refl) Hs p' s' H) as (v' & tr' & R & V).
      exists v', tr'. split; [constructor; exact R|exact V].
    - intros args id ind p s v ind' tr Hne _ IH Ho Hs p' s' H.
      destruct (IH (Hsub _ _ Ho eq_refl) Hs p' s' H) as (v' & tr' & R & V).
      exists v', tr'. split; [constructor; assumption|exact V].
    - intros id ind p s Ho Hs p' s' H. eexists No, _. split; [apply reads_select_empty|exact I].
    - (* fast select *)
      intros table args tail id ind p Ho Hs p' s' H. inversion H; subst.
      eexists No, _. split; [constructor|exact I].
    - intros table args id ind p c s Ht Ho Hs p' s' H.
      destruct (cons_breaks _ _ _ H) as (c' & t' & ->).
      rewrite <- (table_breaks _ _ _ _ _ _ _ _ (Hsafe _ Ho) H) in Ht.
      eexists No, _. split; [constructor; exact Ht|exact I].
    - intros table args r id ind p c s v ind' tr Ht _ IH Ho Hs p' s' H.
      destruct (cons_breaks _ _ _ H) as (c' & t' & ->).
      rewrite <- (table_breaks _ _ _ _ _ _ _ _ (Hsafe _ Ho) H) in Ht.
      destruct (IH ltac:(eapply Hone; [exact Ho|cbn; apply in_or_app; right; left; reflexivity]) Hs p' _ H)
        as (v' & tr' & R & V).
      exists v', tr'. split; [eapply reads_fast_tail; eassumption|exact V].
    - intros table args tail id ind p c s i r n out ind' tr Ht Hi Hr _ IH Ho Hs p' s' H.
      destruct (cons_breaks _ _ _ H) as (c' & t' & ->).
      rewrite <- (table_breaks _ _ _ _ _ _ _ _ (Hsafe _ Ho) H) in Ht.
      destruct (IH ltac:(eapply Hone; [exact Ho|cbn; eapply nth_error_In; exact Hr]) Hs p' _ H)
        as (v' & tr' & R & V).
      pose proof V as V0. apply vrel_yes in V0 as (n' & out' & -> & _).
      eexists _, tr'. split; [eapply reads_fast; eassumption|exact V].
    - intros table args id ind p c s i r ind' tr Ht Hi Hr _ IH Ho Hs p' s' H.
      destruct (cons_breaks _ _ _ H) as (c' & t' & ->).
      rewrite <- (table_breaks _ _ _ _ _ _ _ _ (Hsafe _ Ho) H) in Ht.
      destruct (IH ltac:(eapply Hone; [exact Ho|cbn; eapply nth_error_In; exact Hr]) Hs p' _ H)
        as (v' & tr' & R & V).
      apply vrel_no in V as ->. eexists No, tr'. split; [eapply reads_fast_no; eassumption|exact I].
    - intros table args r' id ind p c s i r ind1 tr1 v ind2 tr2 Ht Hi Hr _ IH1 _ IH2 Ho Hs p' s' H.
      destruct (cons_breaks _ _ _ H) as (c' & t' & ->).
      rewrite <- (table_breaks _ _ _ _ _ _ _ _ (Hsafe _ Ho) H) in Ht.
      destruct (IH1 ltac:(eapply Hone; [exact Ho|cbn; eapply nth_error_In; exact Hr]) Hs p' _ H)
        as (v1 & tr1' & R1 & V1).
      apply vrel_no in V1 as ->.
      destruct (IH2 ltac:(eapply Hone; [exact Ho|cbn; apply in_or_app; right; left; reflexivity]) Hs p' _ H)
        as (v' & tr' & R & V).
      eexists v', _. split; [eapply reads_fast_then_tail; eassumption|exact V].
    - (* repeat *)
      intros r optional id ind p s k n out ind' tr _ IH Hk Ho Hs p' s' H.
      destruct (IH ltac:(eapply Hone; [exact Ho|cbn; auto]) Hs p' s' H) as (n' & out' & tr' & R & V).
      eexists (Yes n' out'), tr'. split; [econstructor; eassumption|exact V].
    - intros r id ind p s ind' tr _ IH Ho Hs p' s' H.
      destruct (IH ltac:(eapply Hone; [exact Ho|cbn; auto]) Hs p' s' H) as (v' & tr' & R & V).
      apply vrel_no in V as ->. eexists No, tr'. split; [constructor; exact R|exact I].
    - (* separate *)
      intros r by_ optional trail id ind p s n out ind1 tr1 v ind2 tr2 _ IH1 _ IH2 Ho Hs p' s' H.
      assert (Or : occurs syn r) by (eapply Hone; [exact Ho|cbn; auto]).
      assert (Ob : occurs syn by_) by (eapply Hone; [exact Ho|cbn; auto]).
      destruct (IH1 Or Hs p' s' H) as (v1 & tr1' & R1 & V1).
      apply vrel_yes in V1 as (n' & out' & -> & Hsk & Hout).
      destruct (IH2 Or Ob ltac:(subst s; apply Hskip) (p' + n') _ Hsk) as (v2 & tr2' & R2 & V2).
      eexists _, _. split; [eapply reads_separate; eassumption|]. apply vrel_after; assumption.
    - intros r by_ optional trail id ind p s ind' tr _ IH Ho Hs p' s' H.
      destruct (IH ltac:(eapply Hone; [exact Ho|cbn; auto]) Hs p' s' H) as (v' & tr' & R & V).
      apply vrel_no in V as ->. eexists _, tr'. split; [eapply reads_separate_none; exact R|].
      destruct optional; [split; [exact H|constructor]|exact I].
    - (* lines *)
      intros r indented id ind p s v ind' tr _ IH Ho Hs p' s' H.
      destruct (IH ltac:(eapply Hone; [exact Ho|cbn; auto]) Hs p' s' H) as (v' & tr' & R & V).
      exists v', tr'. split; [constructor; exact R|exact V].
    - (* node *)
      intros name property i id r ind p s n out ind' tr Hi _ IH Ho Hs p' s' H.
      destruct (IH ltac:(apply occurs_top; eapply nth_error_In; exact Hi) Hs p' s' H) as (v' & tr' & R & V).
      apply vrel_yes in V as (n' & out' & -> & Hsk & Hout).
      eexists (Yes n' _), tr'. split; [eapply reads_node; eassumption|]. split; [exact Hsk|].
      apply Forall2_app; [apply token_none; intros; constructor|].
      apply Forall2_app; [exact Hout|apply token_none; intros; constructor].
    - intros name property i id r ind p s ind' tr Hi _ IH Ho Hs p' s' H.
      destruct (IH ltac:(apply occurs_top; eapply nth_error_In; exact Hi) Hs p' s' H) as (v' & tr' & R & V).
      apply vrel_no in V as ->. eexists No, tr'. split; [eapply reads_node_no; eassumption|exact I].
    - intros name property id ind p s Ho Hs p' s' H. eexists No, _. split; [constructor|exact I].
    - (* optional *)
      intros r id ind p s n out ind' tr _ IH Ho Hs p' s' H.
      destruct (IH ltac:(eapply Hone; [exact Ho|cbn; auto]) Hs p' s' H) as (v' & tr' & R & V).
      pose proof V as V0. apply vrel_yes in V0 as (n' & out' & -> & _).
      eexists _, tr'. split; [constructor; exact R|exact V].
    - intros r id ind p s ind' tr _ IH Ho Hs p' s' H.
      destruct (IH ltac:(eapply Hone; [exact Ho|cbn; auto]) Hs p' s' H) as (v' & tr' & R & V).
      apply vrel_no in V as ->. eexists (Yes 0 []), tr'. split; [econstructor; exact R|].
      split; [exact H|constructor].
    - (* not *)
      intros r id ind p s ind' tr _ IH Ho Hs p' s' H.
      destruct (IH ltac:(eapply Hone; [exact Ho|cbn; auto]) Hs p' s' H) as (v' & tr' & R & V).
      apply vrel_no in V as ->. eexists (Yes 0 []), []. split; [econstructor; exact R|].
      split; [exact H|constructor].
    - intros r id ind p s n out ind' tr _ IH Ho Hs p' s' H.
      destruct (IH ltac:(eapply Hone; [exact Ho|cbn; auto]) Hs p' s' H) as (v' & tr' & R & V).
      apply vrel_yes in V as (n' & out' & -> & _). eexists No, _. split; [econstructor; exact R|exact I].
    - (* seq *)
      intros ind p s Ho Hs p' s' H. eexists (Yes 0 []), []. split; [constructor|].
      split; [exact H|constructor].
    - intros r rest ind p s ind' tr _ IH Ho Hs p' s' H. inversion Ho as [|x y O1 O2]; subst x y.
      destruct (IH O1 Hs p' s' H) as (v' & tr' & R & V). apply vrel_no in V as ->.
      eexists No, tr'. split; [constructor; exact R|exact I].
    - intros r rest ind p s n out ind1 tr1 v ind2 tr2 _ IH1 _ IH2 Ho Hs p' s' H.
      inversion Ho as [|x y O1 O2]; subst x y.
      destruct (IH1 O1 Hs p' s' H) as (v1 & tr1' & R1 & V1).
      apply vrel_yes in V1 as (n' & out' & -> & Hsk & Hout).
      destruct (IH2 O2 ltac:(subst s; apply Hskip) (p' + n') _ Hsk) as (v2 & tr2' & R2 & V2).
      eexists _, _. split; [eapply reads_seq_cons; eassumption|]. apply vrel_after; assumption.
    - (* first *)
      intros ind p s Ho Hs p' s' H. eexists No, []. split; [constructor|exact I].
    - intros r rest ind p s n out ind' tr _ IH Ho Hs p' s' H. inversion Ho as [|x y O1 O2]; subst x y.
      destruct (IH O1 Hs p' s' H) as (v' & tr' & R & V).
      pose proof V as V0. apply vrel_yes in V0 as (n' & out' & -> & _).
      eexists _, tr'. split; [constructor; exact R|exact V].
    - intros r rest ind p s ind1 tr1 v ind2 tr2 _ IH1 _ IH2 Ho Hs p' s' H.
      inversion Ho as [|x y O1 O2]; subst x y.
      destruct (IH1 O1 Hs p' s' H) as (v1 & tr1' & R1 & V1). apply vrel_no in V1 as ->.
      destruct (IH2 O2 Hs p' s' H) as (v2 & tr2' & R2 & V2).
      eexists v2, _. split; [eapply reads_first_next; eassumption|exact V2].
    - (* many *)
      intros r ind p s ind' tr _ IH Ho Hs p' s' H.
      destruct (IH Ho Hs p' s' H) as (v' & tr' & R & V). apply vrel_no in V as ->.
      eexists 0, [], tr'. split; [constructor; exact R|]. split; [exact H|constructor].
    - intros r ind p s n out ind1 tr1 k m out2 ind2 tr2 _ IH1 _ IH2 Ho Hs p' s' H.
      destruct (IH1 Ho Hs p' s' H) as (v1 & tr1' & R1 & V1).
      apply vrel_yes in V1 as (n' & out' & -> & Hsk & Hout).
      destruct (IH2 Ho ltac:(subst s; apply Hskip) (p' + n') _ Hsk) as (m' & out2' & tr2' & R2 & V2).
      eexists _, _, _. split; [eapply reads_many_step; eassumption|].
      exact (vrel_after s s' n n' out out' (Yes m out2) (Yes m' out2') Hout V2).
    - (* more *)
      intros r by_ trail ind p s ind' tr _ IH Or Ob Hs p' s' H.
      destruct (IH Ob Hs p' s' H) as (v' & tr' & R & V). apply vrel_no in V as ->.
      eexists (Yes 0 []), tr'. split; [constructor; exact R|]. split; [exact H|constructor].
    - intros r by_ trail ind p s n out ind1 tr1 ind2 tr2 _ IH1 _ IH2 Or Ob Hs p' s' H.
      destruct (IH1 Ob Hs p' s' H) as (v1 & tr1' & R1 & V1).
      apply vrel_yes in V1 as (n' & out' & -> & Hsk & Hout).
      destruct (IH2 Or ltac:(subst s; apply Hskip) (p' + n') _ Hsk) as (v2 & tr2' & R2 & V2).
      apply vrel_no in V2 as ->.
      eexists _, _. split; [eapply reads_more_trail; eassumption|].
      destruct trail; [split; assumption|exact I].
    - intros r by_ trail ind p s n out ind1 tr1 m out2 ind2 tr2 v ind3 tr3 _ IH1 _ IH2 _ IH3 Or Ob Hs p' s' H.
      destruct (IH1 Ob Hs p' s' H) as (v1 & tr1' & R1 & V1).
      apply vrel_yes in V1 as (n' & out' & -> & Hsk & Hout).
      destruct (IH2 Or ltac:(subst s; apply Hskip) (p' + n') _ Hsk) as (v2 & tr2' & R2 & V2).
      apply vrel_yes in V2 as (m' & out2' & -> & Hsk2 & Hout2).
      destruct (IH3 Or Ob ltac:(subst s; rewrite !Hskip; reflexivity) (p' + n' + m') _ Hsk2)
        as (v3 & tr3' & R3 & V3).
      eexists _, _. split; [eapply reads_more_item; eassumption|].
      apply vrel_after; [exact Hout|]. apply vrel_after; assumption.
    - (* lines *)
      intros r indented id fresh nl ind p s Hw Ho Hs p' s' H.
      eexists (Yes (length s') []), []. split; [constructor; eapply all_white_breaks; eassumption|].
      split; [rewrite !skipn_all; constructor|constructor].
    - intros r indented id fresh ind p s Hw Hl Ho Hs p' s' H.
      eexists No, _. split; [constructor|exact I].
      + intros Hw'. apply Hw. eapply all_white_breaks; [apply sb_sym; exact H|exact Hw'].
      + eapply same_line_breaks; eassumption.
    - intros r indented id fresh nl ind p s k fresh' ind' tr Hw Hl _ IH Ho Hs p' s' H.
      destruct (line_start_breaks nl s s' k H Hl) as (k' & Hl' & Hk).
      destruct (IH Ho ltac:(subst s; apply Hskip) (p' + k') _ Hk) as (v' & tr' & R & V).
      apply vrel_no in V as ->.
      eexists (Yes k' []), tr'. split; [eapply reads_lines_stop; [|exact Hl'|exact R]|].
      + intros Hw'. apply Hw. eapply all_white_breaks; [apply sb_sym; exact H|exact Hw'].
      + split; [exact Hk|constructor].
    - intros r indented id fresh nl ind p s k n out fresh' ind1 tr1 nl' v ind2 tr2 Hw Hl _ IH1 Hnl _ IH2 Ho Hs p' s' H.
      destruct (line_start_breaks nl s s' k H Hl) as (k' & Hl' & Hk).
      destruct (IH1 Ho ltac:(subst s; apply Hskip) (p' + k') _ Hk) as (v1 & tr1' & R1 & V1).
      apply vrel_yes in V1 as (n' & out' & -> & Hsk & Hout).
      destruct (IH2 Ho ltac:(subst s; rewrite !Hskip; reflexivity) (p' + k' + n') _ Hsk) as (v2 & tr2' & R2 & V2).
      eexists _, _. split; [eapply reads_lines_item; [|exact Hl'|exact R1| |exact R2]|].
      + intros Hw'. apply Hw. eapply all_white_breaks; [apply sb_sym; exact H|exact Hw'].
      + rewrite Hnl. apply ends_line_breaks; assumption.
      + apply vrel_after; [exact Hout|]. rewrite <- !skipn_skipn_add. exact V2.
    - (* line *)
      intros r fresh ind p s v ind' tr _ IH Ho Hs p' s' H.
      destruct (IH Ho Hs p' s' H) as (v' & tr' & R & V). exists v', tr'. split; [constructor; exact R|exact V].
    - intros r fresh ind p s Hi Ho Hs p' s' H.
      eexists No, []. split; [constructor|exact I]. intros k Hk.
      apply (Hi k). apply (indentation_breaks _ _ _ _ Hk s (sb_sym _ _ H)).
    - intros r fresh ind p s k Hi Hf Hst Ho Hs p' s' H.
      destruct (indentation_breaks _ _ _ _ Hi s' H) as [Hi' Hk].
      eexists No, []. split; [eapply reads_line_deep; [exact Hi'|exact Hf|]|exact I].
      apply (starts_breaks [space] ltac:(intros [Hx|[]]; discriminate) ltac:(intros [Hx|[]]; discriminate) _ _ Hk Hst).
    - intros r fresh ind p s k v ind' tr Hi Hf Hst Hm _ IH Ho Hs p' s' H.
      destruct (indentation_breaks _ _ _ _ Hi s' H) as [Hi' Hk].
      destruct (IH Ho ltac:(subst s; apply Hskip) (p' + k) _ Hk) as (v' & tr' & R & V).
      eexists _, _. split; [eapply reads_line_exact; [exact Hi'|exact Hf| |exact Hm|exact R]|].
      + intros Hst'. apply Hst.
        apply (starts_breaks [space] ltac:(intros [Hx|[]]; discriminate) ltac:(intros [Hx|[]]; discriminate)
          _ _ (sb_sym _ _ Hk) Hst').
      + apply vrel_after; [constructor|exact V].
    - intros r ind p s k b w v ind' tr Hi Hal Hb -> Hm _ IH Ho Hs p' s' H.
      destruct (indentation_breaks _ _ _ _ Hi s' H) as [Hi' Hk].
      destruct (longest_none blank _ _ (proj1 blank_breaks) (proj2 blank_breaks) Hk b Hb) as (Hb' & Hfb & Hsb).
      destruct (IH Ho ltac:(subst s; rewrite !Hskip; reflexivity) (p' + k + b) _ Hsb) as (v' & tr' & R & V).
      eexists _, _. split.
      + eapply reads_line_align; [exact Hi'|exact Hal|exact Hb'| |exact Hm|exact R]. rewrite Hfb. reflexivity.
      + apply vrel_after; [constructor|]. rewrite <- !skipn_skipn_add. exact V.
  Qed.
End Breaks.
