(** What optimisation changes. *)
From Coq Require Import List NArith Bool Arith Lia.
From Verif Require Import Base Ext Types ParseModel OptimizeModel PegSpec DataSpec PrimProofs
  PegProofs PegComplete PegFacts ApiSpec ParseProofs ParsePublic RuleSpec RuleProofs OptSpec
  SimProofs FuelProofs OptProofs OptProofs2 OccursProofs OptSim OptSim2 OptPublic StuckSpec StuckProofs GuardSpec.
Import ListNotations.

(** ** Alternatives that are told apart *)

Lemma each_of {A B} (P : A -> B -> Prop) l : (forall i x, nth_error l i = Some x -> exists y, P x y) -> exists m, Forall2 P l m.
Proof.
  induction l as [|x l IH]; intros H; [exists []; constructor|].
  destruct (H 0 x eq_refl) as (y & Hy). destruct IH as (m & Hm); [intros i z Hz; exact (H (S i) z Hz)|]. exists (y :: m). constructor; assumption.
Qed.

Lemma pairs_at {A B} (P : A -> B -> Prop) l m : Forall2 P l m -> forall i y, nth_error m i = Some y -> exists x, nth_error l i = Some x /\ P x y.
Proof.
  intros H. induction H as [|x y l m Hxy _ IH]; intros [|i] z Hz; try discriminate; cbn in Hz; [injection Hz as <-; exists x; auto|]. exact (IH i z Hz).
Qed.

Lemma at_firstn {A} k : forall (l : list A) i x, nth_error (firstn k l) i = Some x -> i < k /\ nth_error l i = Some x.
Proof.
  induction k as [|k IH]; intros [|y l] [|i] x H; try discriminate; cbn in *; [split; [lia|exact H]|]. destruct (IH l i x H). split; [lia|assumption].
Qed.

Lemma begins_has refs r b : begins refs r b -> has_unique_byte refs r b.
Proof.
  intros H. destruct (begins_byte refs r b H) as (k & Hk). exists (S k). rewrite Hk. destruct (Nat.leb_spec (S k) k); [lia|reflexivity].
Qed.

Lemma begins_one refs r b c : begins refs r b -> begins refs r c -> b = c.
Proof.
  intros Hb Hc. destruct (begins_has refs r b Hb) as (m & Hm). destruct (begins_has refs r c Hc) as (n & Hn).
  pose proof (unique_byte_unique _ _ _ _ _ _ Hm Hn) as H. injection H as H. exact H.
Qed.

Lemma table_apart s fuel args table up : unique_table_from_select fuel (s_rules s) args = Done (table, up) -> told_apart s args up.
Proof.
  intros Ht. destruct (table_public _ _ _ _ _ Ht) as (_ & H255 & Hle & _ & Hhas & Hdiff & Hend).
  assert (Hb : forall r b, has_unique_byte (s_rules s) r b -> begins (s_rules s) r b) by (intros r b (f & Hf); eapply byte_begins; exact Hf).
  pose proof (begins_has (s_rules s)) as Hu.
  split; [split; [exact H255|]|].
  - destruct (each_of (begins (s_rules s)) (firstn up args)) as (bytes & Hbs).
    { intros i x Hx. apply at_firstn in Hx as [Hi Hx]. destruct (Hhas i x Hi Hx) as (b & Hxb & _). exists b. auto. }
    exists bytes. split; [rewrite <- (Forall2_len _ _ _ Hbs), firstn_length_le by exact Hle; reflexivity|]. split; [|exact Hbs].
    apply NoDup_nth_error. intros i j Hi Hij. destruct (nth_error bytes i) as [b|] eqn:Hbi; [|apply nth_error_None in Hbi; lia].
    destruct (pairs_at _ _ _ Hbs i b Hbi) as (x & Hx & Hxb). destruct (pairs_at _ _ _ Hbs j b (eq_sym Hij)) as (y & Hy & Hyb).
    apply at_firstn in Hx as [Hi' Hx]. apply at_firstn in Hy as [Hj Hy]. eapply Hdiff; eauto.
  - intros k' (Hk' & bytes & Hlen & Hnd & Hbs). destruct (Nat.le_gt_cases k' up) as [|Hgt]; [assumption|exfalso].
    destruct (nth_error bytes up) as [b|] eqn:Hbu; [|apply nth_error_None in Hbu; lia].
    destruct (pairs_at _ _ _ Hbs up b Hbu) as (x & Hx & Hxb). apply at_firstn in Hx as [_ Hx].
    destruct (Hend x ltac:(lia) Hx) as [Hnone|(i & r' & b' & Hi & Hr' & Hxb' & Hrb')].
    + destruct (Hu _ _ Hxb) as (f & Hf). pose proof (unique_byte_unique _ _ _ _ _ _ Hf Hnone) as He. discriminate He.
    + apply Hb in Hxb'. apply Hb in Hrb'. pose proof (begins_one _ _ _ _ Hxb Hxb'). subst b'.
      destruct (nth_error bytes i) as [c|] eqn:Hci; [|apply nth_error_None in Hci; lia].
      destruct (pairs_at _ _ _ Hbs i c Hci) as (y & Hy & Hyc). apply at_firstn in Hy as [_ Hy]. assert (y = r') by congruence. subst y.
      pose proof (begins_one _ _ _ _ Hyc Hrb'). subst c. rewrite NoDup_nth_error in Hnd.
      specialize (Hnd i up ltac:(lia) ltac:(congruence)). lia.
Qed.

Lemma told_apart_unique s a k k' : told_apart s a k -> told_apart s a k' -> k = k'.
Proof. intros [H H1] [H' H1']. specialize (H1 _ H'). specialize (H1' _ H). lia. Qed.

Lemma told_apart_length s a k : told_apart s a k -> k <= length a.
Proof.
  intros [(_ & bytes & <- & _ & H) _]. apply Forall2_len in H. rewrite <- H. rewrite firstn_length. lia.
Qed.

(** ** Guarded alternatives *)

Section Guard.
  Variable E : ext.
  Hypothesis HE : ext_ok E.
  Variable refs : list rule.

  Lemma left_yes ind p c s : reads E refs some_left ind p (c :: s) (Yes 0 []) ind [].
  Proof.
    eapply reads_not. eapply reads_not_no. apply reads_until with (n := length (c :: s)); [|right; cbn; lia].
    split; [lia|]. split; [apply Forall_forall; intros x _ []|]. intros x Hx.
    assert (Hlt : length (c :: s) < length (c :: s)) by (apply nth_error_Some; congruence). lia.
  Qed.

  Lemma left_no ind p : exists tr, reads E refs some_left ind p [] No ind tr.
  Proof.
    eexists. eapply reads_not_no. eapply reads_not. apply reads_until_no.
    split; [cbn; lia|]. split; [constructor|discriminate].
  Qed.

  Lemma if_left_no r ind p : exists tr, reads E refs (if_left r) ind p [] No ind tr.
  Proof. destruct (left_no ind p) as (tr & H). exists tr. apply reads_sequence, reads_seq_no. exact H. Qed.

  Lemma if_left_yes r ind p c s v ind' tr : reads E refs r ind p (c :: s) v ind' tr -> reads E refs (if_left r) ind p (c :: s) v ind' tr.
  Proof.
    intros H. apply reads_sequence.
    assert (Hone : reads_seq E refs [r] ind (p + 0) (skipn 0 (c :: s)) v ind' tr).
    { cbn [skipn]. rewrite Nat.add_0_r. destruct v as [n out|]; [|apply reads_seq_no; exact H].
      replace (Yes n out) with (after n out (Yes 0 [])) by (cbn; rewrite Nat.add_0_r, app_nil_r; reflexivity).
      rewrite <- (app_nil_r tr). eapply reads_seq_cons; [exact H|apply reads_seq_nil]. }
    replace v with (after 0 [] v) by (destruct v; reflexivity). change tr with ([] ++ tr).
    eapply reads_seq_cons; [apply left_yes|exact Hone].
  Qed.

  Lemma if_left_back r ind p c s v ind' tr : reads E refs (if_left r) ind p (c :: s) v ind' tr -> reads E refs r ind p (c :: s) v ind' tr.
  Proof.
    intros H. assert (Hs : reads_seq E refs [some_left; r] ind p (c :: s) v ind' tr) by (unfold if_left in H; inversion H; subst; assumption).
    inversion Hs as [|? ? ? ? ? ? ? Ha|? ? ? ? ? n out ind1 tr1 v2 ind2 tr2 Ha Hb]; subst.
    - destruct (reads_deterministic _ _ _ _ _ _ _ _ _ _ _ _ Ha (left_yes ind p c s)) as (? & _). discriminate.
    - destruct (reads_deterministic _ _ _ _ _ _ _ _ _ _ _ _ Ha (left_yes ind p c s)) as (He & -> & Hbest). injection He as -> ->.
      assert (tr1 = []) as -> by (inversion Ha; subst; reflexivity).
      rewrite Nat.add_0_r in Hb. cbn [skipn app] in *. inversion Hb as [|? ? ? ? ? ? ? Hc|? ? ? ? ? m out' ind3 tr3 v3 ind4 tr4 Hc Hd]; subst.
      + exact Hc.
      + inversion Hd; subst. cbn. rewrite Nat.add_0_r, !app_nil_r. exact Hc.
  Qed.

  Lemma first_guard l : forall ind p c s v ind' tr, reads_first E refs l ind p (c :: s) v ind' tr -> reads_first E refs (map if_left l) ind p (c :: s) v ind' tr.
  Proof.
    induction l as [|r l IH]; intros ind p c s v ind' tr H; [exact H|]. cbn [map]. inversion H; subst.
    - apply reads_first_yes, if_left_yes. assumption.
    - eapply reads_first_next; [apply if_left_yes; eassumption|apply IH; assumption].
  Qed.

  Lemma first_unguard l : forall ind p c s v ind' tr, reads_first E refs (map if_left l) ind p (c :: s) v ind' tr -> reads_first E refs l ind p (c :: s) v ind' tr.
  Proof.
    induction l as [|r l IH]; intros ind p c s v ind' tr H; [exact H|]. cbn [map] in H. inversion H; subst.
    - apply reads_first_yes, if_left_back. assumption.
    - eapply reads_first_next; [apply if_left_back; eassumption|apply IH; assumption].
  Qed.

  Lemma first_map l m m' : forall ind p s v ind' tr, (forall ind v ind' tr, reads_first E refs m ind p s v ind' tr -> reads_first E refs m' ind p s v ind' tr) ->
    reads_first E refs (l ++ m) ind p s v ind' tr -> reads_first E refs (l ++ m') ind p s v ind' tr.
  Proof.
    induction l as [|r l IH]; intros ind p s v ind' tr Hm H; [apply Hm; exact H|]. cbn [app] in *. inversion H; subst.
    - apply reads_first_yes. assumption.
    - eapply reads_first_next; [eassumption|]. apply IH; assumption.
  Qed.

  Lemma first_end l : forall ind p, exists tr, reads_first E refs (map if_left l) ind p [] No ind tr.
  Proof.
    induction l as [|r l IH]; intros ind p; [eexists; apply reads_first_none|]. destruct (if_left_no r ind p) as (tr1 & H1).
    destruct (IH ind p) as (tr2 & H2). eexists. eapply reads_first_next; eassumption.
  Qed.

  Definition guard (up : nat) (args : list rule) : list rule := firstn up args ++ map if_left (skipn up args).

  Section Step.
    Variables (fuel : nat) (args : list rule) (table : list nat) (up : nat) (id : debug_id).
    Hypothesis Ht : unique_table_from_select fuel refs args = Done (table, up).
    Hypothesis Hup : 2 <= up.

    Lemma guard_ne : guard up args <> [].
    Proof.
      destruct (table_public _ _ _ _ _ Ht) as (_ & _ & H & _). unfold guard. destruct args; [cbn in H; lia|]. destruct up; [lia|discriminate].
    Qed.

    Lemma plain_ne : args <> [].
    Proof. intros ->. destruct (table_public _ _ _ _ _ Ht) as (_ & _ & H & _). cbn in H. lia. Qed.

    Lemma select_guard ind p c s v ind' tr : reads E refs (RSelect args id) ind p (c :: s) v ind' tr ->
      reads E refs (RSelect (guard up args) id) ind p (c :: s) v ind' tr.
    Proof.
      intros H. apply select_first in H; [|exact plain_ne]. apply reads_select; [exact guard_ne|].
      rewrite <- (firstn_skipn up args) in H. unfold guard. eapply first_map; [|exact H]. intros. apply first_guard. assumption.
    Qed.

    Lemma select_unguard ind p c s v ind' tr : reads E refs (RSelect (guard up args) id) ind p (c :: s) v ind' tr ->
      reads E refs (RSelect args id) ind p (c :: s) v ind' tr.
    Proof.
      intros H. apply select_first in H; [|exact guard_ne]. apply reads_select; [exact plain_ne|].
      rewrite <- (firstn_skipn up args). unfold guard in H. eapply first_map; [|exact H]. intros. apply first_unguard. assumption.
    Qed.

    Lemma guard_end ind p : exists tr, reads E refs (RSelect (guard up args) id) ind p [] No ind tr.
    Proof.
      destruct (first_skip E HE refs (firstn up args) ind p []) as (tr1 & H1 & _).
      { intros r Hr. apply In_nth_error in Hr as (j & Hj).
        apply (nth_taken refs fuel args table up Ht Hup) in Hj. destruct Hj as [Hlt Hj].
        destruct (table_public _ _ _ _ _ Ht) as (_ & _ & _ & _ & Hb & _).
        destruct (Hb _ _ Hlt Hj) as (b & Hb' & _). exists b. split; [exact Hb'|exact I]. }
      destruct (first_end (skipn up args) ind p) as (tr2 & H2).
      eexists. apply reads_select; [exact guard_ne|]. eapply first_app; eassumption.
    Qed.
  End Step.
End Guard.

(** ** The rules of a guarded syntax *)

Ltac inv_guards H := inversion H; subst; try discriminate.

Lemma leaf_guards s r b : leaf_rule r -> guards s r b -> b = r.
Proof. intros Hl H. destruct r; try contradiction; inversion H; reflexivity. Qed.

Section Both.
  Variable E : ext.
  Hypothesis HE : ext_ok E.
  Variables s s' g : syntax.
  Variable fuel : nat.
  Hypothesis Hopt : optimize fuel s = Done s'.
  Hypothesis Hg : guarded s g.

  Notation refs := (s_rules s).
  Notation refs' := (s_rules s').
  Notation refg := (s_rules g).
  Notation opt r r' := (optimize_rule fuel refs r = Done r').

  Lemma refs_guards : Forall2 (guards s) refs refg.
  Proof. exact (proj2 Hg). Qed.

  Lemma guards_len a b : Forall2 (guards s) a b -> length a = length b.
  Proof. apply Forall2_len. Qed.

  (** The first byte is the same. *)
  Lemma unique_byte_guards f : forall r b, guards s r b -> unique_byte f refg b = unique_byte f refs r.
  Proof.
    induction f as [|f IH]; intros r b H; [reflexivity|].
    inversion H as [r0 Hc|t a l id|a c id Hno Ha|a c id k Hk Htold Ha|a c id Ha|? ? ? ? ? ? ? H1 H2|? ? ? ? H1|? ? ? ? H1|? ? ? H1|? ? ? H1]; subst;
      try reflexivity.
    - destruct b; try reflexivity; try discriminate Hc.
      + destruct args; [reflexivity|discriminate Hc].
      + destruct args; [reflexivity|discriminate Hc].
      + cbn [unique_byte]. destruct index as [i|]; [|reflexivity].
        pose proof (Forall2_nth _ _ _ i refs_guards) as Hi.
        destruct (nth_error refs i), (nth_error refg i); try contradiction; [|reflexivity]. apply IH. exact Hi.
    - cbn [unique_byte]. destruct Ha as [|x y l l' Hxy Hl]; [reflexivity|]. destruct Hl; [apply IH; exact Hxy|reflexivity].
    - pose proof (told_apart_length _ _ _ Htold) as Hle.
      destruct Ha as [|x y l l' Hxy Hl]; [cbn in Hle; lia|]. destruct Hl as [|x2 y2 l l' Hxy2 Hl]; [cbn in Hle; lia|].
      destruct k as [|[|k]]; try lia. reflexivity.
    - cbn [unique_byte]. destruct Ha as [|x y l l' Hxy Hl]; [reflexivity|]. apply IH. exact Hxy.
    - cbn [unique_byte]. destruct o; [reflexivity|]. apply IH. assumption.
    - cbn [unique_byte]. destruct o; [reflexivity|]. apply IH. assumption.
    - cbn [unique_byte]. inversion H1 as [r0 Hc| | | | | | | | |? ? ? H2]; subst; try reflexivity.
      + destruct b0; try reflexivity; discriminate Hc.
      + apply IH. exact H2.
  Qed.

  Lemma unique_loop_guards args args' : Forall2 (guards s) args args' ->
    forall f i data up, unique_loop f refg args' i data up = unique_loop f refs args i data up.
  Proof.
    induction 1 as [|a a' l l' Ha _ IH]; intros f i data up; [reflexivity|].
    cbn [unique_loop]. destruct (255 <=? i); [reflexivity|].
    rewrite (unique_byte_guards f _ _ Ha). destruct (unique_byte f refs a) as [[b|]| |]; try reflexivity.
    cbn [obind]. destruct (nth_error data _); [|reflexivity]. destruct (Nat.eqb _ _); [|reflexivity]. apply IH.
  Qed.

  Lemma orel_guard refs1 refs2 k : forall a b, Forall2 (orel E refs1 refs2) a b -> Forall2 (orel E refs1 refs2) (guard k a) (guard k b).
  Proof.
    intros a b H. unfold guard. apply Forall2_app; [apply Forall2_firstn; exact H|]. apply (Forall2_skipn _ k) in H.
    induction H as [|x y l l' Hxy _ IH]; [constructor|]. cbn [map]. constructor; [|exact IH].
    apply o_sequence. constructor; [apply orel_refl|]. constructor; [exact Hxy|constructor].
  Qed.

  Lemma stands_fast' argsg args' id table up :
    unique_table_from_select fuel refs' args' = Done (table, up) -> 2 <= up ->
    stands E refg refs' (RSelect argsg id) (RSelect (guard up args') id) (fast table up args' id).
  Proof.
    intros Ht Hup ind p t v ind' tr tr0 Hreal H1 H0. destruct t as [|c t].
    - destruct (guard_end E HE refs' fuel args' table up id Ht Hup ind p) as (tr1 & Hs).
      destruct (reads_deterministic _ _ _ _ _ _ _ _ _ _ _ _ H0 Hs) as (-> & -> & _).
      exists [(Rng p 0, ExpectedSomething id)]. split.
      + unfold fast. destruct (up <? length args'); apply reads_fast_end.
      + simpl. rewrite (reads_end_md E refs' HE _ _ _ _ _ H0). unfold depth, next_offset. simpl. lia.
    - apply (select_unguard E refs' fuel args' table up id Ht Hup) in H0.
      eapply select_to_fast; [exact HE|eassumption|exact Hup| |exact H0]. inversion Hreal; assumption.
  Qed.

  Lemma stands_select' argsg a' id table up tl :
    unique_table_from_select fuel refg argsg = Done (table, up) -> 2 <= up ->
    stands E refs' refg (RFastSelect table a' tl id) (fast table up argsg id) (RSelect (guard up argsg) id).
  Proof.
    intros Ht Hup ind p t v ind' tr tr0 Hreal H1 H0. destruct t as [|c t].
    - destruct (guard_end E HE refg fuel argsg table up id Ht Hup ind p) as (tr1 & Hs).
      inversion H1; subst. exists tr1. split; [exact Hs|].
      simpl. rewrite (reads_end_md E refg HE _ _ _ _ _ H0), (reads_end_md E refg HE _ _ _ _ _ Hs). reflexivity.
    - destruct (fast_to_select E HE refg fuel argsg table up id Ht Hup ind p c t v ind' tr0) as (tr2 & Hs & Hr);
        [inversion Hreal; assumption|exact H0|].
      exists tr2. split; [|exact Hr]. apply (select_guard E refg fuel argsg table up id Ht Hup). exact Hs.
  Qed.

  Ltac binds H := repeat match type of H with
    | obind ?e _ = Done _ => let Hx := fresh "Hx" in destruct e eqn:Hx; try discriminate; cbn [obind] in H
    end.

  Lemma guards_orel r : forall rg r', guards s r rg -> opt r r' -> orel E refg refs' rg r' /\ orel E refs' refg r' rg.
  Proof.
    induction r as [r IH] using rule_ind'. intros rg r' Hgr Ho.
    assert (HF : forall l lg l', (forall c, In c l -> In c (children r)) -> Forall2 (guards s) l lg ->
      Forall2 (fun r r' => opt r r') l l' -> Forall2 (orel E refg refs') lg l' /\ Forall2 (orel E refs' refg) l' lg).
    { intros l lg l' Hin HG. revert l' Hin. induction HG as [|x y l lg Hxy _ IHl]; intros l' Hin HO; inversion HO; subst; [split; constructor|].
      destruct (IHl l'0) as [H1' H2']; [intros c Hc; apply Hin; right; exact Hc|assumption|].
      destruct (IH x (Hin x (or_introl eq_refl)) _ _ Hxy ltac:(eassumption)) as [Ha Hb]. split; constructor; assumption. }
    destruct r; try (injection Ho as <-; apply leaf_guards in Hgr; [|exact I]; subst rg; split; apply orel_refl).
    - apply opt_select_cases in Ho as (table & up & args' & Ht & Ha & ->).
      assert (Hcase : exists argsg, Forall2 (guards s) args argsg /\ rg = RSelect (if up <? 2 then argsg else guard up argsg) id).
      { inversion Hgr as [r0 Hc|? ? ? ?|a c i Hno Hac|a c i k Hk Htold Hac| | | | | |]; subst.
        - destruct args; [|discriminate Hc]. exists []. split; [constructor|].
          destruct (table_public _ _ _ _ _ Ht) as (_ & _ & Hle & _). cbn in Hle. assert (up = 0) by lia. subst up. reflexivity.
        - exists c. split; [exact Hac|]. destruct (Nat.ltb_spec up 2) as [_|Hge]; [reflexivity|]. destruct Hno. exists up. split; [exact Hge|eapply table_apart; exact Ht].
        - exists c. split; [exact Hac|]. pose proof (told_apart_unique _ _ _ _ Htold (table_apart _ _ _ _ _ Ht)). subst k. destruct (Nat.ltb_spec up 2); [lia|reflexivity]. }
      destruct Hcase as (argsg & Hag & ->). destruct (HF args argsg args' (fun c H => H) Hag Ha) as [H1 H2].
      destruct (Nat.ltb_spec up 2) as [Hup|Hup].
      + split; eapply o_select; eauto; apply stands_same.
      + assert (Htg : unique_table_from_select fuel refg argsg = Done (table, up)) by (unfold unique_table_from_select in *; rewrite (unique_loop_guards _ _ Hag); exact Ht).
        assert (Ht' : unique_table_from_select fuel refs' args' = Done (table, up)) by exact (opt_table s s' fuel Hopt _ _ _ _ Ha Ht).
        replace (length args) with (length args') by (symmetry; eapply Forall2_len; exact Ha).
        change (orel E refg refs' (RSelect (guard up argsg) id) (fast table up args' id) /\
                orel E refs' refg (fast table up args' id) (RSelect (guard up argsg) id)).
        split.
        * eapply o_select; [apply orel_guard; exact H1|]. apply stands_fast'; assumption.
        * unfold fast. pose proof (fun a' tl => stands_select' argsg a' id table up tl Htg Hup) as Hst.
          unfold fast in Hst. rewrite <- (Forall2_len _ _ _ H2) in Hst. revert Hst.
          destruct (up <? length args'); intros Hst.
          -- eapply o_fast; [|apply Hst].
             apply Forall2_app; [apply Forall2_firstn; exact H2|]. constructor; [|constructor].
             eapply o_select; [apply Forall2_skipn; exact H2|apply stands_same].
          -- eapply o_fast; [exact H2|apply Hst].
    - injection Ho as <-. assert (rg = RFastSelect table args tail id) as -> by (inversion Hgr; reflexivity). split; apply orel_refl.
    - cbn [optimize_rule] in Ho. binds Ho. injection Ho as <-. apply map_o_done in Hx.
      assert (exists ag, Forall2 (guards s) args ag /\ rg = RSequence ag id) as (ag & Hag & ->).
      { inversion Hgr as [r0 Hc| | | |? b ? Hab| | | | |]; subst; [|exists b; auto]. destruct args; [exists []; auto|discriminate Hc]. }
      destruct (HF _ _ _ (fun c H => H) Hag Hx). split; apply o_sequence; assumption.
    - cbn [optimize_rule] in Ho. binds Ho. injection Ho as <-. inversion Hgr; subst; try discriminate.
      edestruct (IH r1) as [? ?]; [simpl; auto|eassumption|eassumption|]. edestruct (IH r2) as [? ?]; [simpl; auto|eassumption|eassumption|].
      split; apply o_separate; assumption.
    - cbn [optimize_rule] in Ho. binds Ho. injection Ho as <-. inversion Hgr; subst; try discriminate.
      edestruct (IH r) as [? ?]; [simpl; auto|eassumption|eassumption|]. split; apply o_repeat; assumption.
    - cbn [optimize_rule] in Ho. binds Ho. injection Ho as <-. inversion Hgr; subst; try discriminate.
      edestruct (IH r) as [? ?]; [simpl; auto|eassumption|eassumption|]. split; apply o_lines; assumption.
    - cbn [optimize_rule] in Ho. binds Ho. injection Ho as <-. inversion Hgr; subst; try discriminate.
      edestruct (IH r) as [? ?]; [simpl; auto|eassumption|eassumption|]. split; apply o_optional; assumption.
    - cbn [optimize_rule] in Ho. binds Ho. injection Ho as <-. inversion Hgr; subst; try discriminate.
      edestruct (IH r) as [? ?]; [simpl; auto|eassumption|eassumption|]. split; apply o_not; assumption.
  Qed.

  Lemma guards_refs l lg : Forall2 (guards s) l lg -> forall l', Forall2 (fun r r' => opt r r') l l' ->
    Forall2 (orel E refg refs') lg l' /\ Forall2 (orel E refs' refg) l' lg.
  Proof.
    intros Hl. induction Hl as [|x y l lg Hxy _ IH]; intros l' Hl'; inversion Hl'; subst; [split; constructor|].
    destruct (guards_orel x y _ Hxy ltac:(eassumption)) as [Ha Hb]. destruct (IH _ ltac:(eassumption)) as [Hc Hd]. split; constructor; assumption.
  Qed.

  Lemma guard_refs : Forall2 (orel E refg refs') refg refs' /\ Forall2 (orel E refs' refg) refs' refg.
  Proof. exact (guards_refs _ _ refs_guards _ (opt_refs s s' fuel Hopt)). Qed.

  Lemma guard_start r : start_rule g r -> exists r', start_rule s' r' /\ orel E refg refs' r r'.
  Proof.
    intros (rules & Hr). destruct (Forall2_last _ _ _ (proj1 guard_refs) rules r Hr) as (l1 & y & He & Hxy).
    exists y. split; [exists l1; exact He|exact Hxy].
  Qed.

  Lemma guard_start' r : start_rule s' r -> exists r', start_rule g r' /\ orel E refs' refg r r'.
  Proof.
    intros (rules & Hr). destruct (Forall2_last _ _ _ (proj2 guard_refs) rules r Hr) as (l1 & y & He & Hxy).
    exists y. split; [exists l1; exact He|exact Hxy].
  Qed.

  Variable text : str.
  Hypothesis Hreal : Forall real_char text.
  Variable ind : indent.

  Lemma guard_accepts out : accepts E g ind text out <-> accepts E s' ind text out.
  Proof.
    destruct guard_refs as [Hf Hb]. split; intros [r o ind' tr Hr Hv].
    - destruct (guard_start r Hr) as (r' & Hr' & Ho).
      destruct (proj1 (replace_all E refg refs' Hf) _ _ _ _ _ _ _ Hv r' Ho Hreal) as (tr' & Hv' & _). econstructor; eassumption.
    - destruct (guard_start' r Hr) as (r' & Hr' & Ho).
      destruct (proj1 (replace_all E refs' refg Hb) _ _ _ _ _ _ _ Hv r' Ho Hreal) as (tr' & Hv' & _). econstructor; eassumption.
  Qed.

  Lemma guard_rejects tr : rejects E g ind text tr -> exists tr', rejects E s' ind text tr' /\ md tr = md tr'.
  Proof.
    destruct guard_refs as [Hf Hb]. intros [H0|r ind' tr0 Hr Hv|r n out ind' tr0 Hr Hv Hn].
    - eexists. split; [apply rejects_no_rules; exact (proj1 (Forall2_nil_iff _ _ _ Hf) H0)|reflexivity].
    - destruct (guard_start r Hr) as (r' & Hr' & Ho).
      destruct (proj1 (replace_all E refg refs' Hf) _ _ _ _ _ _ _ Hv r' Ho Hreal) as (tr' & Hv' & Hm).
      exists tr'. split; [eapply rejects_fail; eassumption|exact Hm].
    - destruct (guard_start r Hr) as (r' & Hr' & Ho).
      destruct (proj1 (replace_all E refg refs' Hf) _ _ _ _ _ _ _ Hv r' Ho Hreal) as (tr' & Hv' & Hm).
      eexists. split; [eapply rejects_early; eassumption|]. rewrite !md_app. simpl in *. unfold depth, next_offset. simpl. lia.
  Qed.

  Lemma guard_rejects' tr : rejects E s' ind text tr -> exists tr', rejects E g ind text tr' /\ md tr = md tr'.
  Proof.
    destruct guard_refs as [Hf Hb]. intros [H0|r ind' tr0 Hr Hv|r n out ind' tr0 Hr Hv Hn].
    - eexists. split; [apply rejects_no_rules; exact (proj1 (Forall2_nil_iff _ _ _ Hb) H0)|reflexivity].
    - destruct (guard_start' r Hr) as (r' & Hr' & Ho).
      destruct (proj1 (replace_all E refs' refg Hb) _ _ _ _ _ _ _ Hv r' Ho Hreal) as (tr' & Hv' & Hm).
      exists tr'. split; [eapply rejects_fail; eassumption|exact Hm].
    - destruct (guard_start' r Hr) as (r' & Hr' & Ho).
      destruct (proj1 (replace_all E refs' refg Hb) _ _ _ _ _ _ _ Hv r' Ho Hreal) as (tr' & Hv' & Hm).
      eexists. split; [eapply rejects_early; eassumption|]. rewrite !md_app. simpl in *. unfold depth, next_offset. simpl. lia.
  Qed.
End Both.

Section Public.
  Variable E : ext.
  Hypothesis HE : ext_ok E.
  Variables s s' g : syntax.
  Hypothesis Hopt : optimize_returns s s'.
  Hypothesis Hg : guarded s g.
  Variables (text : str) (tokens : list tok) (ind : indent).
  Hypothesis Hreal : Forall real_char text.

  Theorem guarded_accepts tokens' :
    parse_returns E g text tokens ind None tokens' <-> parse_returns E s' text tokens ind None tokens'.
  Proof.
    destruct Hopt as (fuel & Ho). rewrite !(parse_accepts E HE).
    split; intros (out & Ha & ->); exists out; (split; [|reflexivity]); eapply (guard_accepts E HE s s' g fuel Ho Hg); eassumption.
  Qed.

  Theorem guarded_rejects d :
    (exists e tokens', parse_returns E g text tokens ind (Some e) tokens' /\ next_offset (fst e) = d) <->
    (exists e tokens', parse_returns E s' text tokens ind (Some e) tokens' /\ next_offset (fst e) = d).
  Proof.
    destruct Hopt as (fuel & Ho). rewrite !(rejected_at E HE). split; intros (tr & Hr & <-).
    - destruct (guard_rejects E HE s s' g fuel Ho Hg text Hreal ind tr Hr) as (tr' & Hr' & Hm). eauto.
    - destruct (guard_rejects' E HE s s' g fuel Ho Hg text Hreal ind tr Hr) as (tr' & Hr' & Hm). eauto.
  Qed.
End Public.

(** ** There is exactly one guarded syntax *)

Section One.
  Variables s s' : syntax.
  Variable fuel : nat.
  Hypothesis Hopt : optimize fuel s = Done s'.
  Notation opt r r' := (optimize_rule fuel (s_rules s) r = Done r').

  Ltac binds H := repeat match type of H with
    | obind ?e _ = Done _ => let Hx := fresh "Hx" in destruct e eqn:Hx; try discriminate; cbn [obind] in H
    end.

  Lemma guards_exists r : forall r', opt r r' -> exists b, guards s r b.
  Proof.
    induction r as [r IH] using rule_ind'. intros r' Ho.
    assert (HF : forall l l', (forall c, In c l -> In c (children r)) -> Forall2 (fun r r' => opt r r') l l' -> exists b, Forall2 (guards s) l b).
    { intros l l' Hin HO. induction HO as [|x y l l' Hxy _ IHl]; [exists []; constructor|].
      destruct IHl as (b & Hb); [intros c Hc; apply Hin; right; exact Hc|].
      destruct (IH x (Hin x (or_introl eq_refl)) _ Hxy) as (y' & Hy). exists (y' :: b). constructor; assumption. }
    destruct r; try (eexists; apply g_leaf; reflexivity).
    - apply opt_select_cases in Ho as (table & up & args' & Ht & Ha & ->). destruct (HF args args' (fun c H => H) Ha) as (b & Hb).
      destruct (Nat.lt_ge_cases up 2) as [Hlt|Hge].
      + exists (RSelect b id). apply g_select; [|exact Hb]. intros (k & Hk & Htold).
        pose proof (told_apart_unique _ _ _ _ Htold (table_apart _ _ _ _ _ Ht)). lia.
      + eexists. eapply g_tail; [exact Hge|eapply table_apart; exact Ht|exact Hb].
    - eexists. apply g_fast.
    - cbn [optimize_rule] in Ho. binds Ho. apply map_o_done in Hx. destruct (HF _ _ (fun c H => H) Hx) as (b & Hb). eexists. apply g_sequence. exact Hb.
    - cbn [optimize_rule] in Ho. binds Ho. edestruct (IH r1) as [? ?]; [simpl; auto|eassumption|]. edestruct (IH r2) as [? ?]; [simpl; auto|eassumption|].
      eexists. apply g_separate; eassumption.
    - cbn [optimize_rule] in Ho. binds Ho. edestruct (IH r) as [? ?]; [simpl; auto|eassumption|]. eexists. apply g_repeat; eassumption.
    - cbn [optimize_rule] in Ho. binds Ho. edestruct (IH r) as [? ?]; [simpl; auto|eassumption|]. eexists. apply g_lines; eassumption.
    - cbn [optimize_rule] in Ho. binds Ho. edestruct (IH r) as [? ?]; [simpl; auto|eassumption|]. eexists. apply g_optional; eassumption.
    - cbn [optimize_rule] in Ho. binds Ho. edestruct (IH r) as [? ?]; [simpl; auto|eassumption|]. eexists. apply g_not; eassumption.
  Qed.
End One.

Theorem guarded_exists s s' : optimize_returns s s' -> exists g, guarded s g.
Proof.
  intros (fuel & Ho). pose proof (opt_refs s s' fuel Ho) as Hr.
  assert (Hb : exists b, Forall2 (guards s) (s_rules s) b).
  { induction Hr as [|x y l l' Hxy _ (b & IH)]; [exists []; constructor|].
    destruct (guards_exists s fuel x _ Hxy) as (b0 & Hb0). exists (b0 :: b). constructor; assumption. }
  destruct Hb as (b & Hb). exists (Syn b (s_names s)). split; [reflexivity|exact Hb].
Qed.

Lemma guards_unique s r : forall b c, guards s r b -> guards s r c -> b = c.
Proof.
  induction r as [r IH] using rule_ind'. intros b c Hb Hc.
  assert (HF : forall l lb lc, (forall c, In c l -> In c (children r)) -> Forall2 (guards s) l lb -> Forall2 (guards s) l lc -> lb = lc).
  { intros l lb lc Hin Hl. revert lc Hin. induction Hl as [|x y l lb Hxy _ IHl]; intros lc Hin Hlc; inversion Hlc; subst; [reflexivity|].
    f_equal; [eapply IH; [apply Hin; left; reflexivity|exact Hxy|assumption]|]. apply IHl; [intros d Hd; apply Hin; right; exact Hd|assumption]. }
  assert (Hnil : forall l, children r = [] -> Forall2 (guards s) (children r) l -> l = []).
  { intros l He Hl. rewrite He in Hl. inversion Hl. reflexivity. }
  destruct r.
  all: try (inversion Hb; subst; inversion Hc; subst; reflexivity).
  - inversion Hb; subst; inversion Hc; subst; cbn [children] in *; subst; try reflexivity;
      repeat match goal with
        | H : Forall2 _ [] _ |- _ => inversion H; subst; clear H
        | H1 : Forall2 (guards s) args ?x, H2 : Forall2 (guards s) args ?y |- _ => pose proof (HF _ _ _ (fun c H => H) H1 H2); subst y; clear H2
        | H1 : told_apart s args ?x, H2 : told_apart s args ?y |- _ => pose proof (told_apart_unique _ _ _ _ H1 H2); subst y; clear H2
        end; try reflexivity.
    all: try (rewrite skipn_nil, firstn_nil; reflexivity).
    all: try (exfalso; match goal with H : ~ _ |- _ => apply H; eauto end).
  - inversion Hb; subst; inversion Hc; subst; cbn [children] in *; subst; try reflexivity;
      repeat match goal with
        | H : Forall2 _ [] _ |- _ => inversion H; subst; clear H
        | H1 : Forall2 (guards s) args ?x, H2 : Forall2 (guards s) args ?y |- _ => pose proof (HF _ _ _ (fun c H => H) H1 H2); subst y; clear H2
        end; reflexivity.
  - inversion Hb; subst; try discriminate; inversion Hc; subst; try discriminate. f_equal; eapply IH; eauto; simpl; auto.
  - inversion Hb; subst; try discriminate; inversion Hc; subst; try discriminate. f_equal; eapply IH; eauto; simpl; auto.
  - inversion Hb; subst; try discriminate; inversion Hc; subst; try discriminate. f_equal; eapply IH; eauto; simpl; auto.
  - inversion Hb; subst; try discriminate; inversion Hc; subst; try discriminate. f_equal; eapply IH; eauto; simpl; auto.
  - inversion Hb; subst; try discriminate; inversion Hc; subst; try discriminate. f_equal; eapply IH; eauto; simpl; auto.
Qed.

Theorem guarded_unique s g g' : guarded s g -> guarded s g' -> g = g'.
Proof.
  intros [Hn Hr] [Hn' Hr']. destruct g as [rs ns], g' as [rs' ns']. cbn in *. f_equal; [|congruence]. clear Hn Hn'.
  revert rs' Hr'. induction Hr as [|x y l rs Hxy _ IH]; intros rs' Hl'; inversion Hl'; subst; [reflexivity|].
  f_equal; [eapply guards_unique; eassumption|]. apply IH. assumption.
Qed.
