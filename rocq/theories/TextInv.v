(** What the built-in rules read is text of the meta language: the tools. *)
From Coq Require Import Ascii String List NArith Bool Arith Lia.
From Verif Require Import Base Ext Types DataSpec ParseModel BootstrapRules PegSpec PrimProofs RuleSpec RuleProofs PegFacts PegComplete
  OccursProofs SimProofs ShiftProofs JsonSpec IdSpec WriteSpec TextSpec TextProofs TextProofs2.
Import ListNotations.
Local Open Scope string_scope.
Local Open Scope list_scope.
Local Open Scope nat_scope.

Section Inv.
  Variable E : ext.
  Hypothesis HE : ext_ok E.

  (** The rule reads [t] in front of [rest], somewhere; it fails in front of [s]. *)
  Definition takes (r : rule) (t rest : str) : Prop :=
    exists ind p d ind' tr, reads E boot r ind p (t ++ rest) (Yes (length t) d) ind' tr.
  Definition takes_all (rs : list rule) (t rest : str) : Prop :=
    exists ind p d ind' tr, reads_seq E boot rs ind p (t ++ rest) (Yes (length t) d) ind' tr.
  Definition fails (r : rule) (s : str) : Prop :=
    exists ind p ind' tr, reads E boot r ind p s No ind' tr.

  Definition flat (r : rule) : bool := all_sub (fun r => negb (is_indented r)) r.

  Lemma flat_ok2 r : flat r = true -> ok2 eq false r r.
  Proof.
    intros H. split; [apply like_rule_ind'; reflexivity|]. right. intros r' id Ho.
    apply (all_sub_spec _ _ H) in Ho. discriminate.
  Qed.

  Lemma boot_ok2 : Forall2 (ok2 eq false) boot boot.
  Proof.
    rewrite <- boot_rules. apply ok2_refl. apply no_indented_check. vm_compute. reflexivity.
  Qed.

  (** Neither settings nor position matter. *)
  Definition same_length_verdict (v w : verdict) : Prop :=
    match v, w with Yes n _, Yes m _ => n = m | No, No => True | _, _ => False end.

  Lemma flat_runs r ind jnd p q s v ind' w jnd' : flat r = true ->
    runs E boot r ind p s v ind' -> runs E boot r jnd q s w jnd' -> same_length_verdict v w.
  Proof.
    intros Hf H Hw. apply (position_irrelevant _ _ _ _ _ p) in Hw. destruct Hw as (w' & Hm & Hw).
    assert (Hvw : same_length_verdict v w').
    { destruct (H [] []) as (fuel & res & toks & Hp & Hv). cbn [app length] in Hp, Hv.
      assert (Hs := sim_rule E eq false boot boot boot_ok2 fuel r r (flat_ok2 r Hf) [] 0 (RT s p) ind jnd I).
      rewrite Hp in Hs. destruct (parse_rule E fuel boot r _ _ _ jnd) as [[[res' toks'] jnd2]| |] eqn:Hq; cbn in Hs; try contradiction.
      destruct Hs as (H1 & _ & _). cbn in H1. apply runs_compute in Hq.
      destruct (runs_deterministic _ _ _ _ _ _ _ _ _ _ Hq Hw) as [Heq _].
      destruct v as [n out|].
      - destruct Hv as (junk' & err & -> & ->). destruct res' as [rg st err'|e]; cbn in H1; [|contradiction].
        destruct H1 as (<- & _). cbn [r_len] in Heq. subst w'. reflexivity.
      - destruct Hv as (e & junk' & -> & ->). destruct res' as [rg st err'|e']; cbn in H1; [contradiction|]. subst w'. exact I. }
    destruct v, w, w'; cbn in *; try contradiction; try exact I. lia.
  Qed.

  Lemma flat_reads r ind jnd p q s v ind' w jnd' tr tr' : flat r = true ->
    reads E boot r ind p s v ind' tr -> reads E boot r jnd q s w jnd' tr' -> same_length_verdict v w.
  Proof. intros Hf H1 H2. eapply (flat_runs r); [exact Hf| |]; apply runs_reads; eauto. Qed.

  Lemma clash r t rest : flat r = true -> takes r t rest -> fails r (t ++ rest) -> False.
  Proof.
    intros Hf (i & p & d & i' & tr & H1) (j & q & j' & tr' & H2). exact (flat_reads r _ _ _ _ _ _ _ _ _ _ _ Hf H1 H2).
  Qed.

  Lemma takes_unique r t rest t' rest' : flat r = true -> takes r t rest -> takes r t' rest' ->
    t ++ rest = t' ++ rest' -> t = t' /\ rest = rest'.
  Proof.
    intros Hf (i & p & d & i' & tr & H1) (j & q & d' & j' & tr' & H2) He. rewrite <- He in H2.
    assert (Hn := flat_reads r _ _ _ _ _ _ _ _ _ _ _ Hf H1 H2). cbn in Hn. apply app_eq_app in He.
    destruct He as (l & [[-> ->]|[-> ->]]); rewrite app_length in Hn; destruct l; cbn in Hn; try lia; rewrite app_nil_r; auto.
  Qed.

  Lemma good_takes r ok t P rest : good E r ok t P -> ok rest -> takes r t rest.
  Proof.
    intros (m & H) Hok. destruct (H 0 rest Hok) as (out & (tr & R) & _). unfold takes. eauto 6.
  Qed.
  Lemma bad_fails r s : bad E r s -> fails r s.
  Proof. intros H. destruct (H 0) as (tr & R). unfold fails. eauto. Qed.

  (** ** The parts *)

  Lemma all_nil t rest : takes_all [] t rest -> t = [].
  Proof.
    intros (ind & p & d & ind' & tr & H). inversion H as [? ? ? Hn| |]; subst. destruct t; [reflexivity|discriminate].
  Qed.

  Lemma split_at n (t rest : str) : n <= length t ->
    exists t1 t2, t = t1 ++ t2 /\ length t1 = n /\ skipn n (t ++ rest) = t2 ++ rest.
  Proof.
    intros Hn. exists (firstn n t), (skipn n t). split; [symmetry; apply firstn_skipn|].
    split; [apply firstn_length_le; exact Hn|]. rewrite skipn_app. replace (n - length t) with 0 by lia. reflexivity.
  Qed.

  Lemma all_cons r rs t rest : takes_all (r :: rs) t rest ->
    exists t1 t2, t = t1 ++ t2 /\ takes r t1 (t2 ++ rest) /\ takes_all rs t2 rest.
  Proof.
    intros (ind & p & d & ind' & tr & H). inversion H as [| |? ? ? ? ? n out ind1 tr1 v ? tr2 H1 H2 Ha]; subst.
    destruct v as [m out2|]; [|discriminate]. cbn [after] in *.
    assert (Hl : n + m = length t) by congruence.
    destruct (split_at n t rest ltac:(lia)) as (t1 & t2 & -> & Hn & Hs). exists t1, t2. split; [reflexivity|].
    rewrite app_length in Hl. split.
    - rewrite <- app_assoc in H1. rewrite <- Hn in H1. unfold takes. eauto 6.
    - rewrite Hs in H2. replace m with (length t2) in H2 by lia. unfold takes_all. eauto 6.
  Qed.

  Lemma takes_sequence rs id t rest : takes (RSequence rs id) t rest -> takes_all rs t rest.
  Proof. intros (ind & p & d & ind' & tr & H). inversion H; subst. unfold takes_all. eauto 6. Qed.

  Lemma same_start (a b c d : str) : a ++ b = c ++ d -> length a = length c -> a = c /\ b = d.
  Proof.
    revert c. induction a as [|x a IH]; intros [|y c] H Hl; try discriminate Hl; [auto|].
    cbn in H. injection H as -> H. injection Hl as Hl. destruct (IH c H Hl) as [-> ->]. auto.
  Qed.

  Lemma takes_tag text inv prop id t rest : takes (RTag text false inv prop id) t rest -> t = text.
  Proof.
    intros (ind & p & d & ind' & tr & H). inversion H; subst.
    match goal with Hs : starts_with _ _ |- _ => rename Hs into Hs0 end.
    destruct Hs0 as (rest' & Hs0). exact (proj1 (same_start _ _ _ _ Hs0 ltac:(congruence))).
  Qed.

  Lemma takes_not_tag text inv prop id t rest : takes (RTag text true inv prop id) t rest ->
    t = [] /\ ~ starts_with rest text.
  Proof.
    intros (ind & p & d & ind' & tr & H). inversion H; subst. assert (t = []) by (destruct t; [reflexivity|discriminate]). subst t.
    split; [reflexivity|assumption].
  Qed.

  Lemma longest_split P t rest : longest P (t ++ rest) (length t) -> Forall P t /\ stops P rest.
  Proof.
    intros (_ & H1 & H2). rewrite firstn_len in H1. split; [exact H1|].
    destruct rest as [|c rest]; [exact I|]. cbn. apply H2. rewrite nth_error_app2, Nat.sub_diag by lia. reflexivity.
  Qed.

  Lemma takes_white o id t rest : takes (RWhitespace o id) t rest ->
    Forall white t /\ stops white rest /\ (o = true \/ t <> []).
  Proof.
    intros (ind & p & d & ind' & tr & H). inversion H; subst.
    match goal with Hl : longest _ _ _, Ho : _ \/ _ |- _ => rename Hl into Hl0; rename Ho into Ho0 end.
    apply longest_split in Hl0. destruct Hl0 as [H1 H2]. split; [exact H1|]. split; [exact H2|].
    destruct Ho0 as [Ho|Ho]; [left; exact Ho|right; destruct t; [cbn in Ho; lia|discriminate]].
  Qed.

  Lemma takes_until any o prop id t rest : takes (RUntilAny any o prop id) t rest ->
    Forall (fun c => ~ In c any) t /\ stops (fun c => ~ In c any) rest /\ (o = true \/ t <> []).
  Proof.
    intros (ind & p & d & ind' & tr & H). inversion H; subst.
    match goal with Hl : longest _ _ _ |- _ => apply longest_split in Hl; destruct Hl as [H1 H2] end.
    split; [exact H1|]. split; [exact H2|].
    match goal with Ho : _ \/ _ |- _ => destruct Ho as [Ho|Ho]; [left; exact Ho|right; destruct t; [cbn in Ho; lia|discriminate]] end.
  Qed.

  Lemma takes_name prop id t rest : takes (RUntilAnyOrWs separators false prop id) t rest ->
    is_name t /\ stops name_char rest.
  Proof.
    intros (ind & p & d & ind' & tr & H). inversion H; subst.
    match goal with Hl : longest _ _ _ |- _ => apply longest_split in Hl; destruct Hl as [H1 H2] end.
    split; [split|exact H2]; [|exact H1].
    match goal with Ho : _ \/ _ |- _ => destruct Ho as [Ho|Ho]; [discriminate Ho|destruct t; [cbn in Ho; lia|discriminate]] end.
  Qed.

  Lemma takes_text b prop id t rest : takes (RText b prop id) t rest ->
    x_string E (t ++ rest) = Some (length t) /\ (b = true \/ length t <> 2) /\ exists v, x_parse_string E t = inl v.
  Proof.
    intros (ind & p & d & ind' & tr & H). inversion H; subst.
    match goal with Hp : x_parse_string _ _ = _ |- _ => rewrite firstn_len in Hp end. eauto.
  Qed.

  Lemma takes_number u prop id t rest : takes (RNumber u prop id) t rest ->
    x_number E u (t ++ rest) = Some (length t) /\ exists x, x_parse_number E u t = Some x.
  Proof.
    intros (ind & p & d & ind' & tr & H). inversion H; subst.
    match goal with Hp : x_parse_number _ _ _ = _ |- _ => rewrite firstn_len in Hp end. eauto.
  Qed.

  Lemma takes_option r id t rest : takes (ROptional r id) t rest -> takes r t rest \/ (t = [] /\ fails r rest).
  Proof.
    intros (ind & p & d & ind' & tr & H). inversion H; subst.
    - left. unfold takes. eauto 6.
    - right. assert (t = []) by (destruct t; [reflexivity|discriminate]). subst t. split; [reflexivity|]. unfold fails. eauto.
  Qed.

  Lemma takes_node name prop i id r t rest : nth_error boot i = Some r ->
    takes (RNode name prop (Some i) id) t rest -> takes r t rest.
  Proof.
    intros Hi (ind & p & d & ind' & tr & H). inversion H; subst.
    match goal with Hn : nth_error boot i = Some ?x |- _ => assert (x = r) by congruence; subst end. unfold takes. eauto 6.
  Qed.
  Lemma fails_node name prop i id r s : nth_error boot i = Some r ->
    fails (RNode name prop (Some i) id) s -> fails r s.
  Proof.
    intros Hi (ind & p & ind' & tr & H). inversion H; subst.
    match goal with Hn : nth_error boot i = Some ?x |- _ => assert (x = r) by congruence; subst end. unfold fails. eauto 6.
  Qed.

  (** The first alternative, or it fails and one of the others. *)
  Definition takes_first (rs : list rule) (t rest : str) : Prop :=
    exists ind p d ind' tr, reads_first E boot rs ind p (t ++ rest) (Yes (length t) d) ind' tr.

  Lemma takes_select rs id t rest : takes (RSelect rs id) t rest -> takes_first rs t rest.
  Proof. intros (ind & p & d & ind' & tr & H). inversion H; subst. unfold takes_first. eauto 6. Qed.

  Lemma first_cons r rs t rest : takes_first (r :: rs) t rest ->
    takes r t rest \/ (fails r (t ++ rest) /\ takes_first rs t rest).
  Proof.
    intros (ind & p & d & ind' & tr & H). inversion H; subst.
    - left. unfold takes. eauto 6.
    - right. split; [unfold fails; eauto|unfold takes_first; eauto 6].
  Qed.

  Lemma first_nil t rest : ~ takes_first [] t rest.
  Proof. intros (ind & p & d & ind' & tr & H). inversion H. Qed.

  (** Lists. *)
  Definition takes_more (r by_ : rule) (t rest : str) : Prop :=
    exists ind p d ind' tr, reads_more E boot r by_ true ind p (t ++ rest) (Yes (length t) d) ind' tr.

  Lemma takes_separate r by_ id t rest : takes (RSeparateBy r by_ false true id) t rest ->
    exists t1 t2, t = t1 ++ t2 /\ takes r t1 (t2 ++ rest) /\ takes_more r by_ t2 rest.
  Proof.
    intros (ind & p & d & ind' & tr & H).
    inversion H; subst.
    match goal with Hx : after ?a ?b ?c = _, Ha : reads _ _ _ _ _ _ _ _ _, Hb : reads_more _ _ _ _ _ _ _ _ _ _ _ |- _ =>
      rename a into n; rename b into out; rename c into v; rename Ha into H1; rename Hb into H2 end.
    destruct v as [m out2|]; [|discriminate]. cbn [after] in *.
    assert (Hl : n + m = length t) by congruence.
    destruct (split_at n t rest ltac:(lia)) as (t1 & t2 & -> & Hn & Hs). exists t1, t2. split; [reflexivity|].
    rewrite app_length in Hl. split.
    - rewrite <- app_assoc in H1. rewrite <- Hn in H1. unfold takes. eauto 6.
    - rewrite Hs in H2. replace m with (length t2) in H2 by lia. unfold takes_more. eauto 6.
  Qed.

  Lemma more_split r by_ t rest : takes_more r by_ t rest ->
    t = [] \/ takes by_ t rest \/
    exists t1 t2 t3, t = t1 ++ t2 ++ t3 /\ takes by_ t1 (t2 ++ t3 ++ rest) /\ takes r t2 (t3 ++ rest) /\ takes_more r by_ t3 rest.
  Proof.
    intros (ind & p & d & ind' & tr & H).
    inversion H as [|? ? ? ? ? ? n out ind1 tr1 ? tr2 H1 H2|? ? ? ? ? ? n out ind1 tr1 m out2 ind2 tr2 v ? tr3 H1 H2 H3]; subst.
    - left. destruct t; [reflexivity|discriminate].
    - right. left. unfold takes. eauto 6.
    - right. right. destruct v as [k out3|]; [|discriminate]. cbn [after] in *.
      assert (Hl : n + (m + k) = length t) by congruence.
      destruct (split_at n t rest ltac:(lia)) as (t1 & t' & -> & Hn & Hs). rewrite Hs in H2, H3. rewrite app_length in Hl.
      destruct (split_at m t' rest ltac:(lia)) as (t2 & t3 & -> & Hn2 & Hs2). rewrite Hs2 in H3. rewrite app_length in Hl.
      exists t1, t2, t3. split; [reflexivity|]. rewrite <- !app_assoc in *. split; [|split].
      + rewrite <- Hn in H1. unfold takes. eauto 6.
      + rewrite <- Hn2 in H2. unfold takes. eauto 6.
      + replace k with (length t3) in H3 by lia. unfold takes_more. eauto 6.
  Qed.

  (** Repetitions. *)
  Definition takes_many (r : rule) (t rest : str) : Prop :=
    exists ind p k d ind' tr, reads_many E boot r ind p (t ++ rest) k (length t) d ind' tr.

  Lemma takes_repeat r id t rest : takes (RRepeat r true id) t rest -> takes_many r t rest.
  Proof. intros (ind & p & d & ind' & tr & H). inversion H; subst. unfold takes_many. eauto 8. Qed.

  Lemma many_split r t rest : takes_many r t rest ->
    (t = [] /\ fails r rest) \/
    exists t1 t2, t = t1 ++ t2 /\ takes r t1 (t2 ++ rest) /\ takes_many r t2 rest.
  Proof.
    intros (ind & p & k & d & ind' & tr & H). inversion H as [|? ? ? ? n out ind1 tr1 k' m out2 ? tr2 H1 H2]; subst.
    - left. assert (t = []) by (destruct t; [reflexivity|discriminate]). subst t. split; [reflexivity|]. unfold fails. eauto.
    - right. assert (Hl : n + m = length t) by congruence.
      destruct (split_at n t rest ltac:(lia)) as (t1 & t2 & -> & Hn & Hs). exists t1, t2. split; [reflexivity|].
      rewrite app_length in Hl. split.
      + rewrite <- app_assoc in H1. rewrite <- Hn in H1. unfold takes. eauto 6.
      + rewrite Hs in H2. replace m with (length t2) in H2 by lia. unfold takes_many. eauto 8.
  Qed.

  (** Failures. *)
  Definition fails_all (rs : list rule) (s : str) : Prop :=
    exists ind p ind' tr, reads_seq E boot rs ind p s No ind' tr.

  Lemma fails_sequence rs id s : fails (RSequence rs id) s -> fails_all rs s.
  Proof. intros (ind & p & ind' & tr & H). inversion H; subst. unfold fails_all. eauto. Qed.

  Lemma fails_nil s : ~ fails_all [] s.
  Proof. intros (ind & p & ind' & tr & H). inversion H. Qed.

  Lemma fails_cons r rs s : fails_all (r :: rs) s ->
    fails r s \/ exists t rest, s = t ++ rest /\ takes r t rest /\ fails_all rs rest.
  Proof.
    intros (ind & p & ind' & tr & H). inversion H as [|? ? ? ? ? ? ? H1|? ? ? ? ? n out ind1 tr1 v ? tr2 H1 H2 Ha]; subst.
    - left. unfold fails. eauto.
    - right. destruct v as [m out2|]; [discriminate|].
      assert (Hn := reads_le E HE boot _ _ _ _ _ _ _ _ H1). exists (firstn n s), (skipn n s). rewrite firstn_skipn.
      split; [reflexivity|]. unfold takes, fails_all. rewrite firstn_skipn. rewrite firstn_length_le by exact Hn. split; eauto 8.
  Qed.

  Lemma fails_option r id s : ~ fails (ROptional r id) s.
  Proof. intros (ind & p & ind' & tr & H). inversion H. Qed.

  Lemma fails_repeat r id s : ~ fails (RRepeat r true id) s.
  Proof. intros (ind & p & ind' & tr & H). inversion H. Qed.

  Lemma fails_until any prop id s : ~ fails (RUntilAny any true prop id) s.
  Proof. intros (ind & p & ind' & tr & H). inversion H. Qed.

  Lemma fails_tag text inv prop id s : fails (RTag text false inv prop id) s -> ~ starts_with s text.
  Proof. intros (ind & p & ind' & tr & H). inversion H; subst. assumption. Qed.

  Lemma takes_starts text inv prop id t rest : takes (RTag text false inv prop id) t rest -> starts_with (t ++ rest) text.
  Proof. intros H. apply takes_tag in H. subst t. exists rest. reflexivity. Qed.
End Inv.
