(** C60: bootstrapping reaches a fixed point. *)
From Coq Require Import Ascii String List NArith Bool Arith Lia.
From Verif Require Import Base Ext Types ParseModel OptimizeModel BootstrapRules ConvertModel LibModel
  ApiSpec ParseProofs OptSpec OptPublic AtEnd IdSpec ConvertSpec ConvertFuel SyntaxSpec SyntaxProofs ExtProofs EqModel Assets OldAssets
  BootSpec Examples.
Import ListNotations.
Local Open Scope string_scope.
Local Open Scope list_scope.
Local Open Scope nat_scope.

Lemma convert_returns_unique data ig r1 i1 r2 i2 :
  convert_returns data ig r1 i1 -> convert_returns data ig r2 i2 -> r1 = r2 /\ i1 = i2.
Proof.
  intros (f & Hf) (g & Hg). destruct (Nat.le_ge_cases f g) as [H|H].
  - destruct (convert_mono f g data ig H) as [Hq|Hq]; rewrite Hf in Hq; [discriminate|].
    rewrite Hg in Hq. injection Hq. auto.
  - destruct (convert_mono g f data ig H) as [Hq|Hq]; rewrite Hg in Hq; [discriminate|].
    rewrite Hf in Hq. injection Hq. auto.
Qed.

(** If the second generation has the same rules as the first, so have all. *)
Lemma generations E text first data ig s data' ig' :
  parse_returns E first text [] indent_default None data ->
  convert_returns data [] (Some s) ig ->
  parse_returns E s text [] indent_default None data' ->
  convert_returns data' [] (Some s) ig' ->
  forall n s', generation E text first (S n) s' <-> s' = s.
Proof.
  intros Hp Hc Hp' Hc' n. induction n as [|n IH]; intros s'; split.
  - intros H. inversion H as [|n0 s0 d s1 i Hg Hd Hs]; subst. inversion Hg; subst.
    destruct (parse_returns_unique _ _ _ _ _ _ _ _ _ Hd Hp) as [_ ->].
    destruct (convert_returns_unique _ _ _ _ _ _ Hs Hc) as [[= ->] _]. reflexivity.
  - intros ->. eapply generation_next; [apply generation_first|exact Hp|exact Hc].
  - intros H. inversion H as [|n0 s0 d s1 i Hg Hd Hs]; subst. apply IH in Hg. subst s0.
    destruct (parse_returns_unique _ _ _ _ _ _ _ _ _ Hd Hp') as [_ ->].
    destruct (convert_returns_unique _ _ _ _ _ _ Hs Hc') as [[= ->] _]. reflexivity.
  - intros ->. eapply generation_next; [apply IH; reflexivity|exact Hp'|exact Hc'].
Qed.

(** ** The self syntax *)

Definition the_data (o : outcome (option perr * list tok)) : list tok :=
  match o with Done (_, d) => d | _ => [] end.

Definition returned (o : outcome (option perr * list tok)) : bool :=
  match o with Done (None, _) => true | _ => false end.

Lemma returned_data o : returned o = true -> o = Done (None, the_data o).
Proof. destruct o as [[[e|] d]| |]; try discriminate. reflexivity. Qed.

Definition self_data : list tok :=
  the_data (parse_with_indent std_ext 1000 boot_computed self_syntax_text [] indent_default).

Lemma self_data_boot :
  parse_with_indent std_ext 1000 boot_computed self_syntax_text [] indent_default = Done (None, self_data).
Proof. apply returned_data. vm_cast_no_check (eq_refl true). Qed.

Lemma self_real : Forall real_char self_syntax_text.
Proof.
  apply Forall_forall. intros c Hc. apply N.ltb_lt. revert c Hc. apply forallb_forall.
  vm_compute. reflexivity.
Qed.

Lemma self_data_read :
  parse_returns std_ext bootstrap_rules self_syntax_text [] indent_default None self_data.
Proof.
  apply (optimize_accepts std_ext std_ext_ok bootstrap_rules boot_computed);
    [exists 100; exact boot_optimized|apply bootstrap_tails|exact self_real|exists 1000; exact self_data_boot].
Qed.

Lemma self_data_converts : exists ig, convert 1000 self_data [] = Done (Some self_computed, ig).
Proof. eexists. vm_compute. reflexivity. Qed.

Lemma self_rules_alike : parse_alike self_computed bootstrap_rules.
Proof. apply like_alike. vm_compute. reflexivity. Qed.

Lemma self_data_again :
  parse_returns std_ext self_computed self_syntax_text [] indent_default None self_data.
Proof.
  destruct (self_rules_alike std_ext self_syntax_text [] indent_default) as (_ & H & _).
  destruct (H _ _ self_data_read) as (r & Hr & Hl). destruct r as [e|]; [destruct Hl|exact Hr].
Qed.

Theorem self_generations : exists s,
  rules_read std_ext self_syntax_text (inl s) /\
  (forall n s', generation std_ext self_syntax_text bootstrap_rules (S n) s' <-> s' = s) /\
  syntax_eqb s s = true /\ parse_alike s bootstrap_rules.
Proof.
  exists self_computed. split; [exists 1000; exact self_read|]. split.
  - destruct self_data_converts as (ig & Hc).
    apply (generations std_ext _ _ self_data ig _ self_data ig);
      [exact self_data_read|exists 1000; exact Hc|exact self_data_again|exists 1000; exact Hc].
  - split; [vm_compute; reflexivity|exact self_rules_alike].
Qed.

(** ** The old language *)

Definition old_computed : syntax :=
  Eval vm_compute in the_rules (syntax_unoptimized std_ext 1000 old_syntax_text).

Lemma old_read : syntax_unoptimized std_ext 1000 old_syntax_text = Done (inl old_computed).
Proof. vm_compute. reflexivity. Qed.

Definition old_optimized : syntax :=
  Eval vm_compute in the_syntax (optimize 1000 old_computed).

Lemma old_optimize : optimize 1000 old_computed = Done old_optimized.
Proof. vm_compute. reflexivity. Qed.

Lemma old_syntax_read : syntax_returns std_ext old_syntax_text (inl old_optimized).
Proof. exists 1000. unfold lib_syntax. rewrite old_read. cbn [obind]. rewrite old_optimize. reflexivity. Qed.

Definition old_data : list tok :=
  the_data (parse_with_indent std_ext 1000 old_optimized old_self_syntax_text [] indent_default).

Lemma old_data_read :
  parse_with_indent std_ext 1000 old_optimized old_self_syntax_text [] indent_default = Done (None, old_data).
Proof. apply returned_data. vm_cast_no_check (eq_refl true). Qed.

Lemma old_data_converts : exists ig, convert 1000 old_data [] = Done (Some old_computed, ig).
Proof. eexists. vm_compute. reflexivity. Qed.

Lemma old_data_again :
  parse_with_indent std_ext 1000 old_computed old_self_syntax_text [] indent_default = Done (None, old_data).
Proof. vm_cast_no_check (@eq_refl (outcome (option perr * list tok)) (Done (None, old_data))). Qed.

Lemma old_generation n s' :
  generation std_ext old_self_syntax_text old_optimized (S n) s' <-> s' = old_computed.
Proof.
  destruct old_data_converts as (ig & Hc).
  apply (generations std_ext _ _ old_data ig _ old_data ig);
    [exists 1000; exact old_data_read|exists 1000; exact Hc|exists 1000; exact old_data_again|exists 1000; exact Hc].
Qed.

Theorem old_generations : exists s o,
  rules_read std_ext old_syntax_text (inl s) /\
  syntax_returns std_ext old_syntax_text (inl o) /\
  (forall n s', generation std_ext old_self_syntax_text o (S n) s' <-> s' = s) /\
  (forall E, ext_ok E -> accept_alike E s o).
Proof.
  exists old_computed, old_optimized. split; [exists 1000; exact old_read|]. split; [exact old_syntax_read|].
  split; [exact old_generation|]. intros E HE.
  assert (Hopt : optimize_returns old_computed old_optimized) by (exists 1000; exact old_optimize).
  assert (Ht : tails_fail_at_end E old_computed) by (apply (good_tails_check E 100 _ HE); vm_compute; reflexivity).
  intros text tokens ind Hreal. split; intros.
  - apply optimize_accepts; assumption.
  - apply optimize_rejects; assumption.
Qed.

Theorem old_not_equal : exists o s,
  syntax_returns std_ext old_syntax_text (inl o) /\
  generation std_ext old_self_syntax_text o 1 s /\ syntax_eqb o s = false.
Proof.
  exists old_optimized, old_computed. split; [exact old_syntax_read|].
  split; [apply old_generation; reflexivity|vm_compute; reflexivity].
Qed.

(** A description of something else is not reproduced. *)
Lemma not_reproduced : exists s1,
  generation std_ext (tx "1 doc = .t!:""a""") bootstrap_rules 1 s1 /\
  ~ exists s2, generation std_ext (tx "1 doc = .t!:""a""") bootstrap_rules 2 s2.
Proof.
  assert (H1 : exists data s1, parse_returns std_ext bootstrap_rules (tx "1 doc = .t!:""a""") [] indent_default None data /\
    convert_returns data [] (Some s1) [] /\
    exists e d, parse_returns std_ext s1 (tx "1 doc = .t!:""a""") [] indent_default (Some e) d).
  { do 2 eexists. split; [exists 200; vm_compute; reflexivity|]. split; [exists 200; vm_compute; reflexivity|].
    do 2 eexists. exists 200. vm_compute. reflexivity. }
  destruct H1 as (data & s1 & Hp & Hc & e & d & He).
  exists s1. split; [eapply generation_next; [apply generation_first|exact Hp|exact Hc]|].
  intros (s2 & H2). inversion H2 as [|n0 s0 d0 s' i Hg Hd Hs]; subst.
  inversion Hg as [|n1 s3 d1 s4 i1 Hg1 Hd1 Hs1]; subst. inversion Hg1; subst.
  destruct (parse_returns_unique _ _ _ _ _ _ _ _ _ Hd1 Hp) as [_ ->].
  destruct (convert_returns_unique _ _ _ _ _ _ Hs1 Hc) as [[= ->] _].
  destruct (parse_returns_unique _ _ _ _ _ _ _ _ _ Hd He) as [Hq _]. discriminate.
Qed.
