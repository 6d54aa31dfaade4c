(** Single rules: C11-C13. *)
From Coq Require Import List NArith Bool Arith Lia.
From Verif Require Import Base Ext Types ParseModel PegSpec PrimProofs PegProofs PegComplete
  FuelProofs PegFacts RuleSpec.
Import ListNotations.

Section Rules.
  Variable E : ext.
  Variable refs : list rule.

  Lemma runs_reads r ind p s v ind' :
    runs E refs r ind p s v ind' <-> exists tr, reads E refs r ind p s v ind' tr.
  Proof.
    split.
    - intros H. destruct (H [] []) as (fuel & res & toks' & He & Ha).
      apply (parse_rule_sound E refs fuel r [] []) in He as (v' & tr & Hv & Ha').
      exists tr. assert (v' = v); [|subst; exact Hv].
      destruct v as [n out|], v' as [n' out'|].
      + destruct Ha as (junk1 & err & -> & ->). destruct Ha' as (junk2 & Hr & Ht).
        injection Hr as -> Hl _. simpl in *. f_equal.
        apply (f_equal (firstn (length out))) in Ht.
        rewrite firstn_app, firstn_all, Nat.sub_diag in Ht. rewrite Hl in Ht.
        rewrite firstn_app, firstn_all, Nat.sub_diag in Ht. simpl in Ht.
        rewrite !app_nil_r in Ht. auto.
      + destruct Ha as (junk1 & err & -> & ->). destruct Ha' as (e & junk2 & _ & Hr & _).
        discriminate.
      + destruct Ha as (e & junk1 & -> & ->). destruct Ha' as (junk2 & Hr & _). discriminate.
      + reflexivity.
    - intros (tr & H) base junk. apply parse_rule_complete in H as (N & H).
      destruct (H N (le_n N) base junk) as (res & toks' & He & Ha).
      exists N, res, toks'. split; [exact He|]. destruct v as [n out|].
      + destruct Ha as (junk1 & -> & ->). eauto.
      + destruct Ha as (e & junk1 & _ & -> & ->). eauto.
  Qed.

  Lemma runs_deterministic r ind p s v1 ind1 v2 ind2 :
    runs E refs r ind p s v1 ind1 -> runs E refs r ind p s v2 ind2 -> v1 = v2 /\ ind1 = ind2.
  Proof.
    rewrite !runs_reads. intros (tr1 & H1) (tr2 & H2).
    destruct (reads_deterministic _ _ _ _ _ _ _ _ _ _ _ _ H1 H2) as (H & H' & _). auto.
  Qed.

  Lemma optional_yes r id ind p s n out ind' :
    runs E refs r ind p s (Yes n out) ind' -> runs E refs (ROptional r id) ind p s (Yes n out) ind'.
  Proof. rewrite !runs_reads. intros (tr & H). exists tr. apply reads_optional. exact H. Qed.

  Lemma optional_no r id ind p s ind' :
    runs E refs r ind p s No ind' -> runs E refs (ROptional r id) ind p s (Yes 0 []) ind'.
  Proof. rewrite !runs_reads. intros (tr & H). exists tr. apply reads_optional_none. exact H. Qed.

  Lemma optional_inv r id ind p s v ind' :
    runs E refs (ROptional r id) ind p s v ind' ->
    (exists n out, v = Yes n out /\ runs E refs r ind p s (Yes n out) ind') \/
    (v = Yes 0 [] /\ runs E refs r ind p s No ind').
  Proof.
    rewrite runs_reads. intros (tr & H). inversion H; subst.
    - left. do 2 eexists. split; [reflexivity|]. apply runs_reads. eauto.
    - right. split; [reflexivity|]. apply runs_reads. eauto.
  Qed.

  Lemma optional_spec r id ind p s v ind' :
    runs E refs (ROptional r id) ind p s v ind' <->
    exists v', runs E refs r ind p s v' ind' /\
      v = match v' with Yes n out => Yes n out | No => Yes 0 [] end.
  Proof.
    split.
    - intros H. apply optional_inv in H as [(n & out & -> & H)|[-> H]]; eauto.
    - intros ([n out|] & H & ->); [apply optional_yes|apply optional_no]; exact H.
  Qed.

  Lemma not_spec r id ind p s v ind' :
    runs E refs (RNot r id) ind p s v ind' <->
    exists v', runs E refs r ind p s v' ind' /\
      v = match v' with Yes _ _ => No | No => Yes 0 [] end.
  Proof.
    rewrite runs_reads. split.
    - intros (tr & H). inversion H; subst; eexists; (split; [apply runs_reads; eauto|reflexivity]).
    - intros (v' & H & ->). apply runs_reads in H as (tr & H).
      destruct v'; eexists; [eapply reads_not_no|eapply reads_not]; exact H.
  Qed.

  Lemma not_not_spec r id1 id2 ind p s v ind' :
    runs E refs (RNot (RNot r id1) id2) ind p s v ind' <->
    exists v', runs E refs r ind p s v' ind' /\
      v = match v' with Yes _ _ => Yes 0 [] | No => No end.
  Proof.
    rewrite not_spec. split.
    - intros (v1 & H & ->). apply not_spec in H as (v2 & H & ->). exists v2.
      split; [exact H|]. destruct v2; reflexivity.
    - intros (v2 & H & ->). exists (match v2 with Yes _ _ => No | No => Yes 0 [] end). split.
      + apply not_spec. eauto.
      + destruct v2; reflexivity.
  Qed.

  (** Repetition. *)
  Lemma many_times r ind p s k n out ind' :
    (exists tr, reads_many E refs r ind p s k n out ind' tr) <->
    (exists ind1, times (runs E refs r) k ind p s n out ind1 /\
                  runs E refs r ind1 (p + n) (skipn n s) No ind').
  Proof.
    split.
    - intros (tr & H). revert ind p s n out tr H.
      induction k as [|k IH]; intros ind p s n out tr H; inversion H; subst.
      + exists ind. rewrite Nat.add_0_r. split; [constructor|]. apply runs_reads. eauto.
      + match goal with Hm : reads_many _ _ _ _ _ _ k _ _ _ _ |- _ =>
          apply IH in Hm as (ind2 & Ht & Hn) end.
        exists ind2. split.
        * econstructor; [apply runs_reads; eauto|exact Ht].
        * rewrite Nat.add_assoc, <- skipn_add. exact Hn.
    - intros (ind1 & Ht & Hn). revert Hn.
      induction Ht as [ind p s|k ind p s n out ind2 m out' ind3 H1 Ht IH]; intros Hn.
      + rewrite Nat.add_0_r in Hn. apply runs_reads in Hn as (tr & Hn). exists tr.
        constructor. exact Hn.
      + rewrite Nat.add_assoc, <- skipn_add in Hn. apply IH in Hn as (tr2 & Hm).
        apply runs_reads in H1 as (tr1 & H1). exists (tr1 ++ tr2). econstructor; eassumption.
  Qed.

  Lemma repeat_yes r optional id ind p s n out ind' :
    runs E refs (RRepeat r optional id) ind p s (Yes n out) ind' <->
    exists k ind1, (optional = true \/ 0 < k) /\
      times (runs E refs r) k ind p s n out ind1 /\
      runs E refs r ind1 (p + n) (skipn n s) No ind'.
  Proof.
    rewrite runs_reads. split.
    - intros (tr & H). inversion H; subst.
      match goal with Hm : reads_many _ _ _ _ _ _ ?k _ _ _ _ |- _ => exists k;
        pose proof (ex_intro _ tr Hm) as Hm'; apply many_times in Hm' as (ind1 & Ht & Hn) end.
      exists ind1. auto.
    - intros (k & ind1 & Hk & Ht & Hn).
      destruct (proj2 (many_times r ind p s k n out ind')) as (tr & Hm); [eauto|].
      exists tr. econstructor; eassumption.
  Qed.

  Lemma repeat_no r optional id ind p s ind' :
    runs E refs (RRepeat r optional id) ind p s No ind' <->
    optional = false /\ runs E refs r ind p s No ind'.
  Proof.
    rewrite !runs_reads. split.
    - intros (tr & H). inversion H; subst. eauto.
    - intros (-> & tr & H). exists tr. constructor. exact H.
  Qed.

  (** Separated lists. *)
  Lemma more_spec r by_ trail ind p s v ind' :
    (exists tr, reads_more E refs r by_ trail ind p s v ind' tr) <->
    (exists k n out ind1 v2,
      times (then_item (runs E refs by_) (runs E refs r)) k ind p s n out ind1 /\
      list_end (runs E refs by_) (runs E refs r) trail ind1 (p + n) (skipn n s) v2 ind' /\
      v = after n out v2).
  Proof.
    split.
    - intros (tr & H). induction H.
      + exists 0, 0, [], ind, (Yes 0 []). split; [constructor|]. rewrite Nat.add_0_r.
        split; [|reflexivity]. constructor. apply runs_reads. eauto.
      + exists 0, 0, [], ind, (if trail then Yes n out else No).
        split; [constructor|]. rewrite Nat.add_0_r. split.
        * destruct trail; [eapply list_end_trail|eapply list_end_fail]; try reflexivity;
            apply runs_reads; eauto.
        * destruct trail; reflexivity.
      + destruct IHreads_more as (k & n2 & out2 & ind4 & v2 & Ht & Hl & ->).
        exists (S k), (n + m + n2), ((out ++ out') ++ out2), ind4, v2. split.
        * eapply times_S; [econstructor; apply runs_reads; eauto|].
          rewrite Nat.add_assoc, <- skipn_add. exact Ht.
        * split.
          -- rewrite !Nat.add_assoc. rewrite <- !skipn_add. exact Hl.
          -- rewrite !after_after, ?Nat.add_assoc, ?app_assoc. reflexivity.
    - intros (k & n & out & ind1 & v2 & Ht & Hl & ->). revert Hl.
      induction Ht as [ind p s|k ind p s n out ind2 m out' ind3 H1 Ht IH]; intros Hl.
      + rewrite Nat.add_0_r in Hl. simpl in Hl. rewrite after_0.
        inversion Hl; subst.
        * match goal with H : runs _ _ _ _ _ _ _ _ |- _ => apply runs_reads in H as (tr & H) end.
          exists tr. constructor. assumption.
        * repeat match goal with H : runs _ _ _ _ _ _ _ _ |- _ =>
            apply runs_reads in H as (? & H) end.
          eexists. eapply (reads_more_trail E refs r by_ true); eassumption.
        * repeat match goal with H : runs _ _ _ _ _ _ _ _ |- _ =>
            apply runs_reads in H as (? & H) end.
          eexists. eapply (reads_more_trail E refs r by_ false); eassumption.
      + inversion H1 as [ind0 p0 s0 n1 out1 ind4 m1 out2 ind5 Hb Hi]; subst.
        rewrite !Nat.add_assoc in Hl. rewrite <- !skipn_add in Hl.
        rewrite !Nat.add_assoc in IH. rewrite <- !skipn_add in IH.
        apply IH in Hl as (tr3 & Hm).
        apply runs_reads in Hb as (tr1 & Hb). apply runs_reads in Hi as (tr2 & Hi).
        exists (tr1 ++ tr2 ++ tr3).
        replace (after (n1 + m1 + m) ((out1 ++ out2) ++ out') v2)
          with (after n1 out1 (after m1 out2 (after m out' v2)))
          by (rewrite !after_after, ?Nat.add_assoc, ?app_assoc; reflexivity).
        eapply reads_more_item; eassumption.
  Qed.

  Lemma separate_spec r by_ optional trail id ind p s v ind' :
    runs E refs (RSeparateBy r by_ optional trail id) ind p s v ind' <->
    (runs E refs r ind p s No ind' /\ v = if optional then Yes 0 [] else No) \/
    (exists n1 out1 ind1 k n2 out2 ind2 v2,
      runs E refs r ind p s (Yes n1 out1) ind1 /\
      times (then_item (runs E refs by_) (runs E refs r)) k ind1 (p + n1) (skipn n1 s)
        n2 out2 ind2 /\
      list_end (runs E refs by_) (runs E refs r) trail ind2 (p + n1 + n2)
        (skipn n2 (skipn n1 s)) v2 ind' /\
      v = after (n1 + n2) (out1 ++ out2) v2).
  Proof.
    rewrite runs_reads. split.
    - intros (tr & H). inversion H; subst.
      + right.
        match goal with Hm : reads_more _ _ _ _ _ _ _ _ _ _ ?t |- _ =>
          pose proof (ex_intro _ t Hm) as Hm'; apply more_spec in Hm'
            as (k & n2 & out2 & ind2 & v2 & Ht & Hl & ->) end.
        do 8 eexists. split; [apply runs_reads; eauto|]. split; [exact Ht|].
        split; [exact Hl|]. apply after_after.
      + left. split; [apply runs_reads; eauto|reflexivity].
    - intros [(H & ->)|(n1 & out1 & ind1 & k & n2 & out2 & ind2 & v2 & H1 & Ht & Hl & ->)].
      + apply runs_reads in H as (tr & H). exists tr. constructor. exact H.
      + apply runs_reads in H1 as (tr1 & H1).
        destruct (proj2 (more_spec r by_ trail ind1 (p + n1) (skipn n1 s) (after n2 out2 v2) ind'))
          as (tr2 & Hm).
        { exists k, n2, out2, ind2, v2. auto. }
        exists (tr1 ++ tr2). rewrite <- after_after. econstructor; eassumption.
  Qed.
End Rules.

(** Running a rule by evaluation. *)
Lemma runs_compute E refs fuel r ind p s res toks' ind' :
  parse_rule E fuel refs r [] 0 (RT s p) ind = Done (res, toks', ind') ->
  runs E refs r ind p s
    match res with
    | POk rg state _ => Yes (r_len rg) (firstn state toks')
    | PErr _ => No
    end ind'.
Proof.
  intros H. apply (parse_rule_sound E refs fuel r [] []) in H as (v & tr & Hv & Ha).
  apply runs_reads. exists tr. destruct v as [n out|].
  - destruct Ha as (junk & -> & ->). cbn [r_len app]. rewrite firstn_app, firstn_all, Nat.sub_diag.
    simpl. rewrite app_nil_r. exact Hv.
  - destruct Ha as (e & junk & _ & -> & _). exact Hv.
Qed.

Lemma runs_eval E refs fuel r ind p s v ind' :
  match parse_rule E fuel refs r [] 0 (RT s p) ind with
  | Done (POk rg state _, toks', ind2) => (v, ind') = (Yes (r_len rg) (firstn state toks'), ind2)
  | Done (PErr _, _, ind2) => (v, ind') = (No, ind2)
  | _ => False
  end -> runs E refs r ind p s v ind'.
Proof.
  intros H. destruct (parse_rule E fuel refs r [] 0 (RT s p) ind) as [[[[rg st e|e] toks'] ind2]| |] eqn:He;
    try contradiction; injection H as -> ->; apply runs_compute in He; exact He.
Qed.
