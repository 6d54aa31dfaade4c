(** C91: what the examples hello_world.rs and neg_match.rs read. *)
From Coq Require Import Ascii String List NArith Bool Arith Lia.
From Verif Require Import Base Ext Types ParseModel LibModel JsonModel PegSpec PegFacts PegProofs PrimProofs ApiSpec ParseProofs SyntaxSpec OptSpec
  OptPublic SyntaxProofs ParsePublic PipeProofs RuleSpec ExtProofs Examples KeySpec KeyProofs KeyPublic FasterPublic HelloSpec.
Import ListNotations.
Local Open Scope string_scope.
Local Open Scope list_scope.
Local Open Scope nat_scope.

Definition name_rule : rule :=
  RSelect [RTag (s2l "James") false false (Some (s2l "james")) 1003; RTag (s2l "Peter") false false (Some (s2l "peter")) 1004] 1005.
Definition hi_rule : rule :=
  RSequence [RTag (s2l "hi") false false None 1001; RWhitespace true 1002; name_rule; RTag (s2l "!") false false None 1006] 1007.
Definition hello_syntax : syntax :=
  {| s_rules := [hi_rule; RNode (s2l "say_hi") None (Some 0) 2001]; s_names := [s2l "say_hi"; s2l "document"] |}.
Definition neg_syntax (name : str) (inverted : bool) : syntax :=
  {| s_rules := [RSequence [RTag (s2l "hi") true inverted (Some name) 1001; RUntilAny [] true None 1002] 1003]; s_names := [s2l "document"] |}.

Definition optimised (rules : str) (s : syntax) : syntax :=
  match lib_syntax std_ext 1000 rules with Done (inl s') => s' | _ => s end.

Lemma hello_read : rules_read std_ext hello_rules (inl hello_syntax).
Proof. exists 1000. vm_compute. reflexivity. Qed.
Lemma neg_read : rules_read std_ext neg_rules (inl (neg_syntax (s2l "hi_did_not_occured") false)).
Proof. exists 1000. vm_compute. reflexivity. Qed.
Lemma double_read : rules_read std_ext double_rules (inl (neg_syntax (s2l "hi") true)).
Proof. exists 1000. vm_compute. reflexivity. Qed.
Lemma hello_built : syntax_returns std_ext hello_rules (inl (optimised hello_rules hello_syntax)).
Proof. exists 1000. vm_compute. reflexivity. Qed.
Lemma hello_optimize : optimize_returns hello_syntax (optimised hello_rules hello_syntax).
Proof. exists 1000. vm_compute. reflexivity. Qed.
Lemma neg_built : syntax_returns std_ext neg_rules (inl (neg_syntax (s2l "hi_did_not_occured") false)).
Proof. exists 1000. vm_compute. reflexivity. Qed.
Lemma double_built : syntax_returns std_ext double_rules (inl (neg_syntax (s2l "hi") true)).
Proof. exists 1000. vm_compute. reflexivity. Qed.

Section Hello.
  Variable E : ext.

  Lemma hello_tails : tails_fail_at_end E hello_syntax.
  Proof. apply (no_tails_check E 100). vm_compute. reflexivity. Qed.

  Notation reads := (reads E (s_rules hello_syntax)).

  Lemma seq_inv refs r rest ind p s n out ind' tr : reads_seq E refs (r :: rest) ind p s (Yes n out) ind' tr ->
    exists n1 out1 ind1 tr1 n2 out2 tr2, PegSpec.reads E refs r ind p s (Yes n1 out1) ind1 tr1 /\
      reads_seq E refs rest ind1 (p + n1) (skipn n1 s) (Yes n2 out2) ind' tr2 /\ n = n1 + n2 /\ out = out1 ++ out2.
  Proof.
    intros H. inversion H; subst. match goal with HH : after _ _ ?v = _ |- _ => destruct v as [m o|]; [|discriminate]; injection HH as <- <- end.
    do 7 eexists. eauto.
  Qed.

  Lemma tag_inv refs t prop id ind p s n out ind' tr : PegSpec.reads E refs (RTag t false false prop id) ind p s (Yes n out) ind' tr ->
    exists rest, s = t ++ rest /\ n = length t /\ out = token prop (Rng p (length t)) (fun m => MBool m true) /\ ind' = ind.
  Proof. intros H. inversion H; subst. match goal with HH : starts_with _ _ |- _ => destruct HH as (rest & ->) end. eauto. Qed.

  Lemma name_inv ind p s n out ind' tr : reads name_rule ind p s (Yes n out) ind' tr ->
    ind' = ind /\ exists rest, (s = s2l "James" ++ rest /\ n = 5 /\ map snd out = [MBool (s2l "james") true]) \/
      (s = s2l "Peter" ++ rest /\ n = 5 /\ map snd out = [MBool (s2l "peter") true]).
  Proof.
    intros H. apply select_inv in H. apply first_inv in H as [(tr' & H)|(ind1 & tr1 & tr2 & Hno & H)].
    - apply tag_inv in H as (rest & -> & -> & -> & ->). split; [reflexivity|]. exists rest. left. split; [reflexivity|]. split; reflexivity.
    - apply first_inv in H as [(tr' & H)|(ind2 & tr3 & tr4 & _ & H)]; [|inversion H].
      apply tag_inv in H as (rest & -> & -> & -> & ->). split; [inversion Hno; reflexivity|].
      exists rest. right. split; [reflexivity|]. split; reflexivity.
  Qed.

  Lemma hi_back ind p s n out ind' tr : reads hi_rule ind p s (Yes n out) ind' tr -> n = length s ->
    exists d, greeting s d /\ map snd out = [d].
  Proof.
    intros H Hn. assert (Hs : reads_seq E (s_rules hello_syntax)
      [RTag (s2l "hi") false false None 1001; RWhitespace true 1002; name_rule; RTag (s2l "!") false false None 1006] ind p s (Yes n out) ind' tr)
      by (inversion H; assumption). clear H.
    apply seq_inv in Hs as (n1 & o1 & i1 & t1 & n2 & o2 & t2 & H1 & Hs & -> & ->).
    apply tag_inv in H1 as (s1 & -> & -> & -> & ->).
    apply seq_inv in Hs as (n3 & o3 & i3 & t3 & n4 & o4 & t4 & H1 & Hs & -> & ->).
    rewrite skipn_past in H1, Hs.
    assert (Hw : longest white s1 n3 /\ o3 = [] /\ i3 = ind) by (inversion H1; subst; auto). destruct Hw as (Hw & -> & ->).
    apply seq_inv in Hs as (n5 & o5 & i5 & t5 & n6 & o6 & t6 & H2 & Hs & -> & ->).
    apply seq_inv in Hs as (n7 & o7 & i7 & t7 & n8 & o8 & t8 & H3 & Hs & -> & ->).
    assert (n8 = 0 /\ o8 = []) as [-> ->] by (inversion Hs; auto).
    apply tag_inv in H3 as (s3 & H3 & -> & -> & ->).
    destruct Hw as (Hle & Hw & _).
    apply name_inv in H2 as (-> & s2 & [(H2 & -> & Ho)|(H2 & -> & Ho)]);
      rewrite H2, skipn_past in H3 || (rewrite H2 in H3; change (skipn 5 (?a :: ?b :: ?c :: ?d :: ?e :: ?r)) with r in H3).
    all: cbn [app] in Hn; rewrite app_length in Hn.
    all: match type of H2 with _ = ?w ++ _ => change (skipn 5 (w ++ s2)) with s2 in H3 end.
    all: subst s2; assert (length s3 = 0) by
      (pose proof (f_equal (@length char) H2) as Hl; rewrite skipn_length, !app_length in Hl; cbn in Hn, Hl; lia).
    all: destruct s3; [|discriminate]; rewrite <- (firstn_skipn n3 s1), H2; eexists; split; [constructor; exact Hw|].
    all: rewrite !app_nil_r; cbn [app token]; exact Ho.
  Qed.

  Lemma white_longest w c s : Forall white w -> ~ white c -> longest white (w ++ c :: s) (length w).
  Proof. intros Hw Hc. apply longest_here; [exact Hw|]. right. exists c, s. auto. Qed.

  Lemma hi_yes s d ind p : greeting s d -> exists out tr, reads hi_rule ind p s (Yes (length s) out) ind tr /\ map snd out = [d].
  Proof.
    intros H.
    assert (K : forall w name rest n out tr, s = s2l "hi" ++ w ++ name ++ s2l "!" -> Forall white w ->
      longest white (w ++ name ++ s2l "!") (length w) -> length name = n -> rest = s2l "!" ->
      reads name_rule ind (p + 2 + length w) (name ++ rest) (Yes n out) ind tr -> exists tr', reads hi_rule ind p s (Yes (length s) out) ind tr').
    { intros w name rest n out tr -> Hw Hl Hlen -> Hr. eexists. apply reads_sequence.
      replace (Yes (length (s2l "hi" ++ w ++ name ++ s2l "!")) out) with (after 2 [] (after (length w) [] (after n out (after 1 [] (Yes 0 []))))).
      2:{ cbn [after]. rewrite !app_nil_r. f_equal. rewrite !app_length, Hlen. reflexivity. }
      eapply (reads_seq_cons E _ _ _ _ _ _ 2); [apply (reads_tag E _ (s2l "hi")); eexists; reflexivity|].
      change (skipn 2 (s2l "hi" ++ w ++ name ++ s2l "!")) with (w ++ name ++ s2l "!").
      eapply (reads_seq_cons E _ _ _ _ _ _ (length w)); [apply reads_whitespace; [exact Hl|left; reflexivity]|].
      rewrite skipn_past. eapply reads_seq_cons; [exact Hr|].
      rewrite <- Hlen, skipn_past. eapply (reads_seq_cons E _ _ _ _ _ _ 1); [apply (reads_tag E _ (s2l "!")); exists []; reflexivity|].
      apply reads_seq_nil. }
    destruct H as [w Hw|w Hw].
    - exists [(Rng (p + 2 + length w) 5, MBool (s2l "james") true)].
      destruct (K w (s2l "James") (s2l "!") 5 [(Rng (p + 2 + length w) 5, MBool (s2l "james") true)] []) as (tr & Hr); try reflexivity; try assumption.
      + apply white_longest; [exact Hw|]. vm_compute. intuition discriminate.
      + apply reads_select; [discriminate|]. apply reads_first_yes. apply (reads_tag E _ (s2l "James") false (Some (s2l "james"))). eexists. reflexivity.
      + exists tr. split; [exact Hr|reflexivity].
    - exists [(Rng (p + 2 + length w) 5, MBool (s2l "peter") true)].
      edestruct (K w (s2l "Peter") (s2l "!") 5 [(Rng (p + 2 + length w) 5, MBool (s2l "peter") true)]) as (tr & Hr); try reflexivity; try assumption.
      + apply white_longest; [exact Hw|]. vm_compute. intuition discriminate.
      + apply reads_select; [discriminate|]. eapply reads_first_next; [apply reads_tag_no; intros (r & Hr); discriminate|].
        apply reads_first_yes. apply (reads_tag E _ (s2l "Peter") false (Some (s2l "peter"))). eexists. reflexivity.
      + exists tr. split; [exact Hr|reflexivity].
  Qed.

  Lemma hello_accepts text ind ds : (exists out, accepts E hello_syntax ind text out /\ map snd out = ds) <->
    (exists d, greeting text d /\ ds = [d]).
  Proof.
    split.
    - intros (out & [r out' ind' tr (rules & Hr) Hread] & <-). destruct rules as [|r0 [|r1 [|r2 rules]]]; try discriminate.
      injection Hr as _ <-. inversion Hread; subst. match goal with HH : nth_error _ 0 = Some _ |- _ => injection HH as <- end.
      match goal with HH : PegSpec.reads _ _ hi_rule _ _ _ _ _ _ |- _ => apply hi_back in HH as (d & Hd & Ho); [|reflexivity] end.
      exists d. split; [exact Hd|]. cbn [token]. rewrite app_nil_r. exact Ho.
    - intros (d & Hd & ->). destruct (hi_yes text d ind 0 Hd) as (out & tr & H & Ho). exists out. split; [|exact Ho].
      eapply accepts_all; [exists [hi_rule]; reflexivity|].
      pose proof (reads_node E (s_rules hello_syntax) (s2l "say_hi") None 0 2001 hi_rule ind 0 text (length text) out ind tr eq_refl H) as HH.
      cbn [token app] in HH. rewrite app_nil_r in HH. exact HH.
  Qed.

  Hypothesis HE : ext_ok E.

  Lemma hello_parse text tokens ind ds : (exists out, parse_returns E hello_syntax text tokens ind None (tokens ++ out) /\ map snd out = ds) <->
    (exists d, greeting text d /\ ds = [d]).
  Proof.
    rewrite <- (hello_accepts text ind ds). split.
    - intros (out & Hp & Ho). apply (parse_accepts E HE) in Hp as (out' & Ha & He). apply app_inv_head in He as ->. eauto.
    - intros (out & Ha & Ho). exists out. split; [|exact Ho]. apply (parse_accepts E HE). eauto.
  Qed.

  Theorem hello_texts s : syntax_returns std_ext hello_rules (inl s) -> forall text tokens ind ds, Forall real_char text ->
    (exists out, parse_returns E s text tokens ind None (tokens ++ out) /\ map snd out = ds) <-> (exists d, greeting text d /\ ds = [d]).
  Proof.
    intros Hs text tokens ind ds Hreal.
    assert (s = optimised hello_rules hello_syntax) as -> by (pose proof (syntax_returns_unique _ _ _ _ Hs hello_built); congruence).
    rewrite <- (hello_parse text tokens ind ds).
    split; intros (out & Hp & Ho); exists out; (split; [|exact Ho]);
      apply (optimize_accepts E HE hello_syntax _ hello_optimize hello_tails text tokens ind Hreal); exact Hp.
  Qed.

  (** What is printed. *)
  Theorem hello_printed s : syntax_returns std_ext hello_rules (inl s) -> forall text out, Forall real_char text ->
    parse_returns E s text [] indent_default None out ->
    exists w name shown, In (name, shown) [(s2l "James", s2l "james"); (s2l "Peter", s2l "peter")] /\
      Forall white w /\ text = s2l "hi" ++ w ++ name ++ s2l "!" /\
      json_write E out = Done (quote :: shown ++ quote :: s2l ":true" ++ [newline]).
  Proof.
    intros Hs text out Hreal Hp. destruct (proj1 (hello_texts s Hs text [] indent_default (map snd out) Hreal)) as (d & Hd & Ho); [eauto|].
    destruct out as [|[rg m] [|m' out]]; try discriminate. cbn in Ho. injection Ho as ->.
    destruct Hd as [w Hw|w Hw].
    - exists w, (s2l "James"), (s2l "james"). split; [left; reflexivity|]. split; [exact Hw|]. split; [reflexivity|]. vm_compute. reflexivity.
    - exists w, (s2l "Peter"), (s2l "peter"). split; [right; left; reflexivity|]. split; [exact Hw|]. split; [reflexivity|]. vm_compute. reflexivity.
  Qed.

  (** Everything that does not start with the forbidden token. *)
  Lemma neg_accepts name inverted text ind ds :
    (exists out, accepts E (neg_syntax name inverted) ind text out /\ map snd out = ds) <->
    (~ starts_with text (s2l "hi") /\ ds = [MBool name (negb inverted)]).
  Proof.
    split.
    - intros (out & [r out' ind' tr (rules & Hr) Hread] & <-). destruct rules as [|r0 [|r1 rules]]; try discriminate. injection Hr as <-.
      inversion Hread; subst. match goal with HH : reads_seq _ _ _ _ _ _ _ _ _ |- _ => apply seq_inv in HH as (n1 & o1 & i1 & t1 & n2 & o2 & t2 & H1 & Hs & _ & ->) end.
      apply seq_inv in Hs as (n3 & o3 & i3 & t3 & n4 & o4 & t4 & H2 & Hs & _ & ->).
      assert (o4 = []) as -> by (inversion Hs; reflexivity). assert (o3 = []) as -> by (inversion H2; reflexivity).
      inversion H1; subst. split; [assumption|]. reflexivity.
    - intros (Hn & ->). exists [(Rng 0 0, MBool name (negb inverted))]. split; [|reflexivity].
      eapply accepts_all; [exists []; reflexivity|]. apply reads_sequence.
      replace (Yes (length text) [(Rng 0 0, MBool name (negb inverted))]) with
        (after 0 [(Rng 0 0, MBool name (negb inverted))] (after (length text) [] (Yes 0 []))).
      2:{ cbn [after]. rewrite !app_nil_r. f_equal. lia. }
      eapply (reads_seq_cons E _ _ _ _ _ _ 0); [apply (reads_not_tag E _ (s2l "hi") inverted (Some name)); exact Hn|].
      eapply (reads_seq_cons E _ _ _ _ _ _ (length text)); [|apply reads_seq_nil].
      apply (reads_until E _ [] true None); [|left; reflexivity].
      rewrite <- (app_nil_r (skipn 0 text)). apply longest_here; [|left; reflexivity]. apply Forall_forall. intros c _ [].
  Qed.

  Lemma neg_parse name inverted text tokens ind ds :
    (exists out, parse_returns E (neg_syntax name inverted) text tokens ind None (tokens ++ out) /\ map snd out = ds) <->
    (~ starts_with text (s2l "hi") /\ ds = [MBool name (negb inverted)]).
  Proof.
    rewrite <- (neg_accepts name inverted text ind ds). split.
    - intros (out & Hp & Ho). apply (parse_accepts E HE) in Hp as (out' & Ha & He). apply app_inv_head in He as ->. eauto.
    - intros (out & Ha & Ho). exists out. split; [|exact Ho]. apply (parse_accepts E HE). eauto.
  Qed.

  Theorem neg_texts s : syntax_returns std_ext neg_rules (inl s) -> forall text tokens ind ds,
    (exists out, parse_returns E s text tokens ind None (tokens ++ out) /\ map snd out = ds) <->
    (~ starts_with text (s2l "hi") /\ ds = [MBool (s2l "hi_did_not_occured") true]).
  Proof.
    intros Hs text tokens ind ds.
    assert (s = neg_syntax (s2l "hi_did_not_occured") false) as -> by (pose proof (syntax_returns_unique _ _ _ _ Hs neg_built); congruence).
    apply neg_parse.
  Qed.

  Theorem double_texts s : syntax_returns std_ext double_rules (inl s) -> forall text tokens ind ds,
    (exists out, parse_returns E s text tokens ind None (tokens ++ out) /\ map snd out = ds) <->
    (~ starts_with text (s2l "hi") /\ ds = [MBool (s2l "hi") false]).
  Proof.
    intros Hs text tokens ind ds.
    assert (s = neg_syntax (s2l "hi") true) as -> by (pose proof (syntax_returns_unique _ _ _ _ Hs double_built); congruence).
    apply neg_parse.
  Qed.

  Theorem neg_printed s : syntax_returns std_ext neg_rules (inl s) -> forall text out,
    parse_returns E s text [] indent_default None out ->
    json_write E out = Done (quote :: s2l "hi_did_not_occured" ++ quote :: s2l ":true" ++ [newline]).
  Proof.
    intros Hs text out Hp. destruct (proj1 (neg_texts s Hs text [] indent_default (map snd out))) as (_ & Ho); [eauto|].
    destruct out as [|[rg m] [|m' out]]; try discriminate. cbn in Ho. injection Ho as ->. vm_compute. reflexivity.
  Qed.
End Hello.

Lemma hello_example : exists s out, syntax_returns std_ext hello_rules (inl s) /\
  Forall real_char (s2l "hi James!") /\ greeting (s2l "hi James!") (MBool (s2l "james") true) /\
  parse_returns std_ext s (s2l "hi James!") [] indent_default None out /\ map snd out = [MBool (s2l "james") true].
Proof.
  do 2 eexists. split; [exact hello_built|]. split; [apply real_check; vm_compute; reflexivity|].
  split; [apply (greet_james (s2l " ")); constructor; [vm_compute; tauto|constructor]|].
  split; [exists 200; vm_compute; reflexivity|]. vm_compute. reflexivity.
Qed.

Lemma neg_example : exists s out, syntax_returns std_ext neg_rules (inl s) /\ ~ starts_with (s2l "hello!") (s2l "hi") /\
  parse_returns std_ext s (s2l "hello!") [] indent_default None out /\ map snd out = [MBool (s2l "hi_did_not_occured") true].
Proof.
  do 2 eexists. split; [exact neg_built|]. split; [intros (r & H); discriminate|].
  split; [exists 200; vm_compute; reflexivity|]. vm_compute. reflexivity.
Qed.
