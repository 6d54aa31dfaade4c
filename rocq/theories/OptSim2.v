(** A select and its fast select read the same: C22, C32. *)
From Coq Require Import List NArith Bool Arith Lia.
From Verif Require Import Base Ext Types ParseModel OptimizeModel PegSpec DataSpec PrimProofs
  PegProofs PegComplete PegFacts ApiSpec ParseProofs ParsePublic RuleSpec RuleProofs OptSpec
  SimProofs FuelProofs OptProofs OptProofs2 OptSim.
Import ListNotations.

Lemma md_le tr n : Forall (fun f => depth f <= n) tr -> md tr <= n.
Proof.
  induction 1 as [|e tr He _ IH]; [simpl; lia|].
  change (md (e :: tr)) with (max (depth e) (md tr)). lia.
Qed.

Lemma md_best tr : md tr = match best tr with Some e => depth e | None => 0 end.
Proof.
  destruct (best tr) as [e|] eqn:Hb.
  - apply best_spec in Hb as (l1 & l2 & -> & H1 & H2). rewrite md_app.
    change (md (e :: l2)) with (max (depth e) (md l2)).
    apply md_le in H1. assert (md l2 <= depth e); [|lia]. apply md_le.
    eapply Forall_impl; [|exact H2]. simpl. lia.
  - destruct tr as [|x tr _] using rev_ind; [reflexivity|].
    rewrite best_app in Hb. simpl in Hb. destruct (best tr); simpl in Hb; [|discriminate].
    destruct (_ <=? _) in Hb; discriminate.
Qed.

(** ** Reading at the end *)

Section End.
  Variable E : ext.
  Variable refs : list rule.

  Lemma skipn_end {A} n (s : list A) : s = [] -> skipn n s = [].
  Proof. intros ->. apply skipn_nil. Qed.

  Lemma reads_end_all :
    (forall r ind p s v ind' tr, reads E refs r ind p s v ind' tr -> s = [] -> ind' = ind) /\
    (forall args ind p s v ind' tr,
      reads_seq E refs args ind p s v ind' tr -> s = [] -> ind' = ind) /\
    (forall args ind p s v ind' tr,
      reads_first E refs args ind p s v ind' tr -> s = [] -> ind' = ind) /\
    (forall r ind p s k n out ind' tr,
      reads_many E refs r ind p s k n out ind' tr -> s = [] -> ind' = ind) /\
    (forall r by_ trail ind p s v ind' tr,
      reads_more E refs r by_ trail ind p s v ind' tr -> s = [] -> ind' = ind) /\
    (forall r indented id fresh nl ind p s v ind' tr,
      reads_lines E refs r indented id fresh nl ind p s v ind' tr -> s = [] -> ind' = ind) /\
    (forall r indented fresh ind p s v fresh' ind' tr,
      reads_line E refs r indented fresh ind p s v fresh' ind' tr -> True).
  Proof.
    apply reads_mutind; intros; try exact I; try discriminate; try reflexivity; auto.
    all: try (match goal with H : ~ Forall white ?s, He : ?s = [] |- _ =>
      destruct H; rewrite He; constructor end).
    all: subst; rewrite ?skipn_nil in *.
    all: repeat match goal with H : [] = [] -> _ |- _ => specialize (H eq_refl) end.
    all: congruence.
  Qed.

  Lemma reads_end_ind r ind p v ind' tr : reads E refs r ind p [] v ind' tr -> ind' = ind.
  Proof. intros H. exact (proj1 reads_end_all _ _ _ _ _ _ _ H eq_refl). Qed.

  Lemma reads_end_md (HE : ext_ok E) r ind p ind' tr :
    reads E refs r ind p [] No ind' tr -> md tr = p.
  Proof.
    intros H. pose proof (reads_low _ _ _ _ _ _ _ _ _ H eq_refl).
    pose proof (reads_fits _ HE _ _ _ _ _ _ _ _ H) as [_ Hw].
    assert (md tr <= p); [|lia]. apply md_le. eapply Forall_impl; [|exact Hw].
    intros e He. unfold within in He. simpl in He. unfold depth. lia.
  Qed.
End End.

(** ** Lists of alternatives *)

Section First.
  Variable E : ext.
  Hypothesis HE : ext_ok E.
  Variable refs : list rule.

  Lemma first_app l m ind p s ind1 tr1 v ind2 tr2 :
    reads_first E refs l ind p s No ind1 tr1 -> reads_first E refs m ind1 p s v ind2 tr2 ->
    reads_first E refs (l ++ m) ind p s v ind2 (tr1 ++ tr2).
  Proof.
    revert ind ind1 tr1. induction l as [|r l IH]; intros ind ind1 tr1 H1 H2;
      inversion H1; subst; [exact H2|].
    rewrite <- app_assoc. simpl. eapply reads_first_next; [eassumption|]. eapply IH; eassumption.
  Qed.

  (** Behind alternatives that fail. *)
  Lemma first_behind l m : forall ind p s ind1 tr1 v ind2 tr,
    reads_first E refs l ind p s No ind1 tr1 -> reads_first E refs (l ++ m) ind p s v ind2 tr ->
    exists tr2, reads_first E refs m ind1 p s v ind2 tr2 /\ md tr = max (md tr1) (md tr2).
  Proof.
    induction l as [|r l IH]; intros ind p s ind1 tr1 v ind2 tr H1 H2.
    - inversion H1; subst. exists tr. split; [exact H2|reflexivity].
    - inversion H1 as [| |? ? ? ? ? ia ta ? ? tb Ha Hb]; subst.
      simpl in H2.
      inversion H2 as [|? ? ? ? ? ? ? ? ? Ha'|? ? ? ? ? ia' ta' ? ? tb' Ha' Hb']; subst.
      + destruct (reads_deterministic _ _ _ _ _ _ _ _ _ _ _ _ Ha Ha') as (? & _). discriminate.
      + destruct (reads_deterministic _ _ _ _ _ _ _ _ _ _ _ _ Ha Ha') as (_ & <- & Hbest).
        destruct (IH _ _ _ _ _ _ _ _ Hb Hb') as (tr2 & Hr & Hm).
        exists tr2. split; [exact Hr|]. rewrite !md_app, Hm, !(md_best ta), !(md_best ta'), Hbest. lia.
  Qed.

  (** Alternatives ruled out by their unique bytes. *)
  Lemma first_skip l ind p s :
    (forall r, In r l -> exists b, has_unique_byte refs r b /\ not_ahead b s) ->
    exists tr, reads_first E refs l ind p s No ind tr /\ md tr <= p.
  Proof.
    induction l as [|r l IH]; intros H.
    - exists []. split; [apply reads_first_none|simpl; lia].
    - destruct (H r (or_introl eq_refl)) as (b & (fuel & Hb) & Hs).
      destruct (unique_byte_fails E HE refs fuel r b Hb ind p s Hs) as (tr1 & Hr & Ha).
      destruct IH as (tr2 & Hl & Hm); [intros r' Hr'; apply H; right; exact Hr'|].
      exists (tr1 ++ tr2). split; [eapply reads_first_next; eassumption|].
      rewrite md_app, (md_at_start _ _ Ha). lia.
  Qed.

  (** A single alternative. *)
  Lemma first_one r ind p s v ind' tr :
    reads E refs r ind p s v ind' tr -> reads_first E refs [r] ind p s v ind' tr.
  Proof.
    intros H. destruct v as [n out|].
    - apply reads_first_yes. exact H.
    - rewrite <- (app_nil_r tr). eapply reads_first_next; [exact H|apply reads_first_none].
  Qed.

  Lemma one_first r ind p s v ind' tr :
    reads_first E refs [r] ind p s v ind' tr -> reads E refs r ind p s v ind' tr.
  Proof.
    intros H. inversion H as [|? ? ? ? ? ? ? ? ? Ha|? ? ? ? ? ? ? ? ? ? Ha Hb]; subst; [exact Ha|].
    inversion Hb; subst. rewrite app_nil_r. exact Ha.
  Qed.

  (** The fast select made from a table. *)
  Definition fast (table : list nat) (up : nat) (args : list rule) (id : debug_id) : rule :=
    if up <? length args
    then RFastSelect table (firstn up args ++ [RSelect (skipn up args) id]) true id
    else RFastSelect table args false id.

  Section Step.
    Variables (fuel : nat) (args : list rule) (table : list nat) (up : nat) (id : debug_id).
    Hypothesis Ht : unique_table_from_select fuel refs args = Done (table, up).
    Hypothesis Hup : 2 <= up.

    Definition taken := firstn up args.
    Definition rest := skipn up args.

    Lemma args_split : args = taken ++ rest.
    Proof. symmetry. apply firstn_skipn. Qed.

    Lemma args_ne : args <> [].
    Proof.
      intros He. destruct (table_public _ _ _ _ _ Ht) as (_ & _ & H & _).
      rewrite He in H. simpl in H. lia.
    Qed.

    Lemma taken_length : length taken = up.
    Proof.
      destruct (table_public _ _ _ _ _ Ht) as (_ & _ & H & _).
      unfold taken. rewrite firstn_length. lia.
    Qed.

    Lemma nth_taken i r : nth_error taken i = Some r -> i < up /\ nth_error args i = Some r.
    Proof.
      intros H. assert (Hl : i < length taken) by (apply nth_error_Some; congruence).
      split; [rewrite <- taken_length; exact Hl|]. rewrite args_split, nth_error_app1; assumption.
    Qed.

    Lemma taken_nth i r : i < up -> nth_error args i = Some r -> nth_error taken i = Some r.
    Proof.
      intros Hi H. rewrite args_split, nth_error_app1 in H; [exact H|]. rewrite taken_length. exact Hi.
    Qed.

    Lemma first_byte c : real_char c -> N.to_nat (utf8_first c) < 256.
    Proof.
      unfold real_char, utf8_first. intros H.
      destruct (N.ltb_spec c 128); [lia|].
      destruct (N.ltb_spec c 2048); [|destruct (N.ltb_spec c 65536)].
      - assert (c / 64 < 32)%N by (apply N.div_lt_upper_bound; lia). lia.
      - assert (c / 4096 < 16)%N by (apply N.div_lt_upper_bound; lia). lia.
      - assert (c / 262144 < 5)%N by (apply N.div_lt_upper_bound; lia). lia.
    Qed.

    (** Every alternative taken by the table whose entry is not that of the first byte
        is ruled out. *)
    Lemma other_out c s i r : nth_error taken i = Some r ->
      nth_error table (N.to_nat (utf8_first c)) <> Some i ->
      exists b, has_unique_byte refs r b /\ not_ahead b (c :: s).
    Proof.
      intros Hi Hne. apply nth_taken in Hi as [Hlt Hi].
      destruct (table_public _ _ _ _ _ Ht) as (_ & _ & _ & _ & H & _).
      destruct (H i r Hlt Hi) as (b & Hb & Hn). exists b. split; [exact Hb|].
      simpl. intros <-. contradiction.
    Qed.

    (** What the table says. *)
    Lemma lookup c : real_char c ->
      nth_error table (N.to_nat (utf8_first c)) = Some 255 /\
        (forall s r, In r taken -> exists b, has_unique_byte refs r b /\ not_ahead b (c :: s)) \/
      exists i l1 r l2, i <> 255 /\ taken = l1 ++ r :: l2 /\ i = length l1 /\
        nth_error table (N.to_nat (utf8_first c)) = Some i /\
        (forall s r', In r' l1 -> exists b, has_unique_byte refs r' b /\ not_ahead b (c :: s)) /\
        (forall s r', In r' l2 -> exists b, has_unique_byte refs r' b /\ not_ahead b (c :: s)).
    Proof.
      intros Hc. destruct (table_public _ _ _ _ _ Ht) as (Hlen & Hup2 & _ & Hent & _).
      destruct (nth_error table (N.to_nat (utf8_first c))) as [i|] eqn:Hi.
      2:{ exfalso. apply nth_error_None in Hi. pose proof (first_byte c Hc). lia. }
      destruct (Nat.eq_dec i 255) as [->|Hne]; [left|right].
      - split; [reflexivity|]. intros s r Hr. apply In_nth_error in Hr as (j & Hj).
        apply (other_out c s j r Hj). rewrite Hi. intros [= <-].
        apply nth_taken in Hj. lia.
      - destruct (Hent _ _ Hi Hne) as (Hlt & r & Hr & _).
        apply taken_nth in Hr; [|exact Hlt]. destruct (nth_error_split _ _ Hr) as (l1 & l2 & He & Hl).
        exists i, l1, r, l2. split; [exact Hne|]. split; [exact He|]. split; [auto|].
        split; [reflexivity|]. split; intros s r' Hr'; apply In_nth_error in Hr' as (j & Hj).
        + assert (Hjl : j < length l1) by (apply nth_error_Some; congruence).
          apply (other_out c s j r').
          * rewrite He, nth_error_app1; assumption.
          * rewrite Hi. intros [= ->]. lia.
        + apply (other_out c s (length l1 + S j) r').
          * rewrite He, nth_error_app2 by lia.
            replace (length l1 + S j - length l1) with (S j) by lia. exact Hj.
          * rewrite Hi. intros [= ->]. lia.
    Qed.

    Lemma select_first a ind p s v ind' tr : a <> [] ->
      reads E refs (RSelect a id) ind p s v ind' tr -> reads_first E refs a ind p s v ind' tr.
    Proof. intros Hne H. inversion H; subst; [assumption|contradiction]. Qed.

    Lemma rest_ne : up < length args -> rest <> [].
    Proof.
      intros H He. assert (length rest = 0) by (rewrite He; reflexivity).
      unfold rest in *. rewrite skipn_length in *. lia.
    Qed.

    Lemma rest_nil : length args <= up -> rest = [] /\ args = taken.
    Proof. intros H. unfold rest, taken. rewrite skipn_all2, firstn_all2 by lia. auto. Qed.

    Lemma select_to_fast ind p c s v ind' tr : real_char c ->
      reads E refs (RSelect args id) ind p (c :: s) v ind' tr ->
      exists tr', reads E refs (fast table up args id) ind p (c :: s) v ind' tr' /\ reach p v tr tr'.
    Proof.
      intros Hc H.
      assert (Hlow : v = No -> p <= md tr) by (intros; eapply reads_low; eassumption).
      apply (select_first _ _ _ _ _ _ _ args_ne) in H. rewrite args_split in H.
      unfold fast. destruct (lookup c Hc) as [[Hn Hout]|(i & l1 & r & l2 & Hi & He & -> & Hn & Ho1 & Ho2)].
      - destruct (first_skip taken ind p (c :: s) (Hout s)) as (tr1 & H1 & Hm1).
        destruct (first_behind _ _ _ _ _ _ _ _ _ _ H1 H) as (tr2 & H2 & Hm).
        destruct (Nat.ltb_spec up (length args)) as [Hl|Hl].
        + exists tr2. split.
          * apply reads_fast_tail; [exact Hn|]. apply reads_select; [apply rest_ne; exact Hl|exact H2].
          * pose proof (first_low _ _ _ _ _ _ _ _ _ H2 (rest_ne Hl)) as Hlow2.
            destruct v; simpl; [lia|]. specialize (Hlow2 eq_refl). lia.
        + destruct (rest_nil Hl) as [Hr _]. rewrite Hr in H2. inversion H2; subst.
          eexists. split; [apply reads_fast_none; exact Hn|].
          specialize (Hlow eq_refl). simpl in Hm. simpl. unfold depth, next_offset. simpl. lia.
      - destruct (first_skip l1 ind p (c :: s) (Ho1 s)) as (tr1 & H1 & Hm1).
        rewrite He, <- app_assoc in H.
        destruct (first_behind _ _ _ _ _ _ _ _ _ _ H1 H) as (tr2 & H2 & Hm).
        assert (Hnth : forall tl, nth_error (taken ++ tl) (length l1) = Some r).
        { intros tl. rewrite He, <- app_assoc, nth_error_app2, Nat.sub_diag by lia. reflexivity. }
        assert (Hnth' : length args <= up -> nth_error args (length l1) = Some r).
        { intros Hl. destruct (rest_nil Hl) as [_ ->]. rewrite <- (app_nil_r taken). apply Hnth. }
        simpl in H2.
        inversion H2 as [|? ? ? ? ? n out ? ? Ha|? ? ? ? ? ind1 ta ? ? tb Ha Hb]; subst.
        + exists tr2. split; [|simpl; lia].
          destruct (Nat.ltb_spec up (length args)) as [Hl|Hl].
          * eapply reads_fast; [exact Hn|exact Hi|apply Hnth|exact Ha].
          * eapply reads_fast; [exact Hn|exact Hi|apply Hnth'; exact Hl|exact Ha].
        + destruct (first_skip l2 ind1 p (c :: s) (Ho2 s)) as (tr3 & H3 & Hm3).
          destruct (first_behind _ _ _ _ _ _ _ _ _ _ H3 Hb) as (tr4 & H4 & Hm4).
          pose proof (reads_low _ _ _ _ _ _ _ _ _ Ha eq_refl) as Hla.
          rewrite md_app in Hm.
          destruct (Nat.ltb_spec up (length args)) as [Hl|Hl].
          * exists (ta ++ tr4). split.
            -- eapply reads_fast_then_tail; [exact Hn|exact Hi|apply Hnth|exact Ha|].
               apply reads_select; [apply rest_ne; exact Hl|exact H4].
            -- destruct v; simpl; rewrite md_app; lia.
          * destruct (rest_nil Hl) as [Hr _]. rewrite Hr in H4. inversion H4; subst.
            exists ta. split.
            -- eapply reads_fast_no; [exact Hn|exact Hi|apply Hnth'; exact Hl|exact Ha].
            -- simpl in *. lia.
    Qed.

    Lemma fast_to_select ind p c s v ind' tr : real_char c ->
      reads E refs (fast table up args id) ind p (c :: s) v ind' tr ->
      exists tr', reads E refs (RSelect args id) ind p (c :: s) v ind' tr' /\ reach p v tr tr'.
    Proof.
      intros Hc H.
      assert (Hlow : v = No -> p <= md tr) by (intros; eapply reads_low; eassumption).
      assert (Hgo : exists tr', reads_first E refs (taken ++ rest) ind p (c :: s) v ind' tr' /\
                                reach p v tr tr').
      2:{ destruct Hgo as (tr' & Hr & Hreach). exists tr'. split; [|exact Hreach].
          apply reads_select; [exact args_ne|]. rewrite args_split. exact Hr. }
      destruct (lookup c Hc) as [[Hn Hout]|(i & l1 & r & l2 & Hi & He & -> & Hn & Ho1 & Ho2)].
      - destruct (first_skip taken ind p (c :: s) (Hout s)) as (tr1 & H1 & Hm1).
        unfold fast in H. destruct (Nat.ltb_spec up (length args)) as [Hl|Hl].
        + inversion H; subst; try congruence.
          match goal with He : _ ++ [_] = _ ++ [_] |- _ => apply app_inj_tail in He as [_ ->] end.
          match goal with Hs : reads _ _ (RSelect _ _) _ _ _ _ _ _ |- _ =>
            apply (select_first _ _ _ _ _ _ _ (rest_ne Hl)) in Hs end.
          eexists. split; [eapply first_app; eassumption|].
          destruct v; simpl; rewrite md_app; [lia|]. specialize (Hlow eq_refl). lia.
        + destruct (rest_nil Hl) as [Hr _]. rewrite Hr.
          inversion H; subst; try congruence.
          eexists. split; [eapply first_app; [eassumption|apply reads_first_none]|].
          simpl. rewrite app_nil_r. unfold depth, next_offset. simpl.
          destruct taken as [|r0 l0] eqn:Htk; [pose proof taken_length; rewrite Htk in *; simpl in *; lia|].
          pose proof (first_low _ _ _ _ _ _ _ _ _ H1 ltac:(discriminate) eq_refl). lia.
      - destruct (first_skip l1 ind p (c :: s) (Ho1 s)) as (tr1 & H1 & Hm1).
        assert (Hnth : forall tl, nth_error (taken ++ tl) (length l1) = Some r).
        { intros tl. rewrite He, <- app_assoc, nth_error_app2, Nat.sub_diag by lia. reflexivity. }
        assert (Hnth' : length args <= up -> nth_error args (length l1) = Some r).
        { intros Hl. destruct (rest_nil Hl) as [_ ->]. rewrite <- (app_nil_r taken). apply Hnth. }
        rewrite He, <- app_assoc. simpl.
        (* reading the one alternative *)
        assert (Hyes : forall n out ind' tr,
          reads E refs r ind p (c :: s) (Yes n out) ind' tr ->
          exists tr', reads_first E refs (l1 ++ r :: l2 ++ rest) ind p (c :: s) (Yes n out) ind' tr' /\
            reach p (Yes n out) tr tr').
        { intros n out ind2 tr2 Ha. eexists. split.
          - eapply first_app; [exact H1|apply reads_first_yes; exact Ha].
          - simpl. rewrite md_app. lia. }
        assert (Hno : forall ind1 tr2 v ind2 tr3,
          reads E refs r ind p (c :: s) No ind1 tr2 ->
          reads_first E refs rest ind1 p (c :: s) v ind2 tr3 ->
          exists tr', reads_first E refs (l1 ++ r :: l2 ++ rest) ind p (c :: s) v ind2 tr' /\
            reach p v (tr2 ++ tr3) tr').
        { intros ind1 tr2 v0 ind2 tr3 Ha Hb.
          destruct (first_skip l2 ind1 p (c :: s) (Ho2 s)) as (tr4 & H4 & Hm4).
          eexists. split.
          - eapply first_app; [exact H1|]. eapply reads_first_next; [exact Ha|].
            eapply first_app; eassumption.
          - pose proof (reads_low _ _ _ _ _ _ _ _ _ Ha eq_refl).
            destruct v0; simpl; rewrite !md_app; lia. }
        unfold fast in H. destruct (Nat.ltb_spec up (length args)) as [Hl|Hl].
        + inversion H; subst; try congruence.
          * match goal with Ha : nth_error table _ = Some ?a |- _ =>
              assert (a = length l1) by congruence; subst a end.
            match goal with Ha : nth_error (firstn _ _ ++ _) _ = Some ?a |- _ =>
              rewrite Hnth in Ha; injection Ha as <- end.
            apply Hyes. assumption.
          * match goal with He : _ ++ [_] = _ ++ [_] |- _ => apply app_inj_tail in He as [-> ->] end.
            match goal with Ha : nth_error table _ = Some ?a |- _ =>
              assert (a = length l1) by congruence; subst a end.
            match goal with Ha : nth_error (firstn _ _ ++ _) _ = Some ?a |- _ =>
              rewrite Hnth in Ha; injection Ha as <- end.
            match goal with Hs : reads _ _ (RSelect _ _) _ _ _ _ _ _ |- _ =>
              apply (select_first _ _ _ _ _ _ _ (rest_ne Hl)) in Hs end.
            eapply Hno; eassumption.
        + specialize (Hnth' Hl).
          inversion H; subst; try congruence.
          * match goal with Ha : nth_error table _ = Some ?a |- _ =>
              assert (a = length l1) by congruence; subst a end.
            match goal with Ha : nth_error args _ = Some ?a, Hr : reads _ _ ?a _ _ _ _ _ _ |- _ =>
              assert (a = r) by congruence; subst a end.
            apply Hyes. assumption.
          * match goal with Ha : nth_error table _ = Some ?a |- _ =>
              assert (a = length l1) by congruence; subst a end.
            match goal with Ha : nth_error args _ = Some ?a, Hr : reads _ _ ?a _ _ _ _ _ _ |- _ =>
              assert (a = r) by congruence; subst a end.
            rewrite <- (app_nil_r tr). eapply Hno; [eassumption|].
            destruct (rest_nil Hl) as [-> _]. apply reads_first_none.
    Qed.

    (** At the end of the text. *)
    Lemma select_at_end ind p :
      (forall r, In r rest -> fails_at_end E refs r) ->
      exists tr, reads E refs (RSelect args id) ind p [] No ind tr.
    Proof.
      intros H.
      assert (Hrest : forall l, (forall r, In r l -> fails_at_end E refs r) ->
        exists tr, reads_first E refs l ind p [] No ind tr).
      { induction l as [|r l IH]; intros Hl; [exists []; apply reads_first_none|].
        destruct (Hl r (or_introl eq_refl) ind p) as (ind' & Hr). apply runs_reads in Hr as (tr & Hr).
        pose proof (reads_end_ind _ _ _ _ _ _ _ _ Hr) as ->.
        destruct IH as (tr2 & H2); [intros r' Hr'; apply Hl; right; exact Hr'|].
        eexists. eapply reads_first_next; eassumption. }
      destruct (first_skip taken ind p []) as (tr1 & H1 & _).
      { intros r Hr. apply In_nth_error in Hr as (j & Hj). apply nth_taken in Hj as [Hlt Hj].
        destruct (table_public _ _ _ _ _ Ht) as (_ & _ & _ & _ & Hb & _).
        destruct (Hb _ _ Hlt Hj) as (b & Hb' & _). exists b. split; [exact Hb'|exact I]. }
      destruct (Hrest rest H) as (tr2 & H2).
      eexists. apply reads_select; [exact args_ne|]. rewrite args_split. eapply first_app; eassumption.
    Qed.
  End Step.
End First.
