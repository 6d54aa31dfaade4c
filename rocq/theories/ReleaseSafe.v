(** An optimised build does not panic when parsing with a valid syntax, whatever the columns. *)
From Coq Require Import List NArith Bool Arith Lia.
From Verif Require Import Base Ext Types ParseModel DataSpec PegFacts TotalSpec SafeProofs ReleaseConvert ReleaseModel ReleaseSpec.
Import ListNotations.

Lemma quiet_bind {A B} (o : outcome A) (k : A -> outcome B) : o <> Panic -> (forall x, k x <> Panic) -> obind o k <> Panic.
Proof. destruct o; cbn; intros H Hk; [apply Hk|contradiction|discriminate]. Qed.

Section Quiet.
  Variable E : ext.
  Variable syn : syntax.
  Hypothesis Hvalid : valid syn.

  Definition real (t : rt) : Prop := Forall (fun c => real_char c) (src t).

  Definition quiet (P : parser) : Prop := forall toks st t ind, real t -> P toks st t ind <> Panic.

  Lemma real_consume t n : real t -> real (rt_consume t n).
  Proof. unfold real. intros H. cbn. rewrite <- (firstn_skipn n (src t)) in H. apply Forall_app in H. tauto. Qed.

  Lemma quiet_select p args id : Forall (fun r => quiet (p r)) args ->
    forall oe toks st t ind, real t -> select_loop p args id toks st t ind oe <> Panic.
  Proof.
    induction 1 as [|r rest Hr Hrest IH]; intros oe toks st t ind Hf; simpl; [destruct oe; discriminate|].
    apply quiet_bind; [apply Hr; exact Hf|]. intros [[[] toks'] ind']; [discriminate|apply IH; exact Hf].
  Qed.

  Lemma quiet_seq p args : Forall (fun r => quiet (p r)) args ->
    forall start oe toks st t ind, real t -> seq_loop p args start toks st t ind oe <> Panic.
  Proof.
    induction 1 as [|r rest Hr Hrest IH]; intros start oe toks st t ind Hf; simpl; [discriminate|].
    apply quiet_bind; [apply Hr; exact Hf|]. intros [[[] toks'] ind']; [apply IH; apply real_consume; exact Hf|discriminate].
  Qed.

  Lemma quiet_tail p args oe : Forall (fun r => quiet (p r)) args -> args <> [] -> quiet (fast_tail p args oe).
  Proof.
    intros Ha Hne toks st t ind Hf. unfold fast_tail. destruct args as [|a args]; [destruct (Hne eq_refl)|].
    destruct (nth_error (a :: args) (length (a :: args) - 1)) as [r|] eqn:Hr.
    - apply nth_error_In in Hr. rewrite Forall_forall in Ha. apply quiet_bind; [apply Ha; assumption|]. intros [[[] toks'] ind']; discriminate.
    - apply nth_error_None in Hr. simpl in Hr. lia.
  Qed.

  Lemma quiet_fast p table args tail id :
    Forall (fun r => quiet (p r)) args ->
    256 <= length table -> (forall i, In i table -> i = 255 \/ i < length args) ->
    (tail = true -> args <> []) -> quiet (parse_fast_select p table args tail id).
  Proof.
    intros Ha Hl Hi Ht toks st t ind Hf. unfold parse_fast_select.
    destruct (src t) as [|c s] eqn:Hs; [discriminate|].
    assert (Hc : N.to_nat (utf8_first c) < 256).
    { apply utf8_first_lt. unfold real in Hf. rewrite Hs in Hf. inversion Hf. assumption. }
    destruct (nth_error table (N.to_nat (utf8_first c))) as [i|] eqn:Hn; [|apply nth_error_None in Hn; lia].
    apply nth_error_In in Hn. apply Hi in Hn. destruct (Nat.eqb_spec i 255) as [->|Hne].
    - destruct tail; [|discriminate]. apply quiet_tail; auto.
    - destruct Hn as [Hn|Hn]; [contradiction|].
      destruct (nth_error args i) as [r|] eqn:Hr; [|apply nth_error_None in Hr; lia].
      apply nth_error_In in Hr. pose proof Ha as Ha'. rewrite Forall_forall in Ha'.
      apply quiet_bind; [apply Ha'; assumption|]. intros [[[] toks'] ind']; [discriminate|]. destruct tail; [|discriminate]. apply quiet_tail; auto.
  Qed.

  Lemma quiet_repeat P optional : quiet P ->
    forall f start first toks st t ind oe, real t -> repeat_loop f P optional start first toks st t ind oe <> Panic.
  Proof.
    intros HP. induction f as [|f IH]; intros start first toks st t ind oe Hf; simpl; [discriminate|].
    apply quiet_bind; [apply HP; exact Hf|]. intros [[[] toks'] ind']; [apply IH; apply real_consume; exact Hf|]. destruct (_ && _); discriminate.
  Qed.

  Lemma quiet_sep P Q optional trail : quiet P -> quiet Q ->
    forall f start first toks st t ind oe, real t -> sep_loop f P Q optional trail start first toks st t ind oe <> Panic.
  Proof.
    intros HP HQ. induction f as [|f IH]; intros start first toks st t ind oe Hf; simpl; [discriminate|].
    apply quiet_bind; [apply HP; exact Hf|]. intros [[[] toks'] ind'].
    - apply quiet_bind; [apply HQ; apply real_consume; exact Hf|]. intros [[[] toks2] ind2]; [|discriminate].
      apply IH. do 2 apply real_consume. exact Hf.
    - destruct (if first then negb optional else negb trail); discriminate.
  Qed.

  Lemma quiet_item P o t first ls ind : quiet P -> real t -> lines_item_indent_r P o t first ls ind <> Panic.
  Proof. intros HP Hf. unfold lines_item_indent_r. apply quiet_bind; [apply HP; exact Hf|]. intros [[[] toks'] ind']; discriminate. Qed.

  Lemma quiet_closure P (indented : bool) t ls : quiet P -> real t ->
    (if indented then lines_closure_indent_r P else lines_closure_plain P) t ls <> Panic.
  Proof.
    intros HP Hf. destruct indented.
    - unfold lines_closure_indent_r. destruct (skip_indent _ _ _) as [k|]; [|discriminate]. destruct (_ && _).
      + destruct (align_indent_r _ _ _). apply quiet_item; [exact HP|]. do 2 apply real_consume. exact Hf.
      + destruct (rt_tag _ _); [discriminate|]. apply quiet_item; [exact HP|]. apply real_consume. exact Hf.
    - unfold lines_closure_plain. apply quiet_bind; [apply HP; exact Hf|]. intros [[[] toks'] ind']; discriminate.
  Qed.

  Lemma quiet_lines P (indented : bool) : quiet P ->
    forall f nl t ls, real t ->
      lines_loop E (if indented then lines_closure_indent_r P else lines_closure_plain P) f nl t ls <> Panic.
  Proof.
    intros HP. induction f as [|f IH]; intros nl t ls Hf; [discriminate|]. cbn [lines_loop].
    destruct (Nat.eqb _ _); [discriminate|].
    assert (Hgo : forall t1, real t1 ->
      (do (res, st1) <- (if indented then lines_closure_indent_r P else lines_closure_plain P) t1 ls;
       match res with
       | None => Done (inl t1, st1)
       | Some r => lines_loop E (if indented then lines_closure_indent_r P else lines_closure_plain P) f
                     (ends_with_newline (rt_raw_string t1 (r_len r))) (rt_consume t1 (r_len r)) st1
       end) <> Panic).
    { intros t1 Hf1. apply quiet_bind; [apply quiet_closure; assumption|]. intros [[r|] ls1]; [|discriminate].
      apply IH. apply real_consume. exact Hf1. }
    destruct (after_last_newline _); [apply Hgo; apply real_consume; exact Hf|].
    destruct nl; [apply Hgo; exact Hf|discriminate].
  Qed.

  Lemma parse_rule_quiet f : forall r, occurs syn r -> quiet (parse_rule_r E f (s_rules syn) r).
  Proof.
    induction f as [|f IH]; intros r Ho; [intros toks st t ind _; discriminate|].
    assert (Hall : forall args, (forall c, In c args -> In c (children r)) ->
      Forall (fun c => quiet (parse_rule_r E f (s_rules syn) c)) args).
    { intros args Ha. apply Forall_forall. intros c Hc. apply IH.
      eapply occurs_child; [exact Ho|]. apply Ha. exact Hc. }
    assert (Hone : forall c, In c (children r) -> quiet (parse_rule_r E f (s_rules syn) c)).
    { intros c Hc. apply IH. eapply occurs_child; eassumption. }
    pose proof (Hvalid r Ho) as Hv.
    intros toks st t ind Hf. destruct r; cbn [parse_rule_r].
    - unfold parse_whitespace. destruct (_ && _); discriminate.
    - unfold parse_tag. destruct (rt_tag t text); destruct not;
        try (match goal with |- context [emit ?a ?b ?c ?d ?e] => destruct (emit a b c d e) end); discriminate.
    - unfold parse_until. destruct (_ && _);
        try (match goal with |- context [emit ?a ?b ?c ?d ?e] => destruct (emit a b c d e) end); discriminate.
    - unfold parse_until. destruct (_ && _);
        try (match goal with |- context [emit ?a ?b ?c ?d ?e] => destruct (emit a b c d e) end); discriminate.
    - unfold parse_text. destruct (x_string E (src t)); [|discriminate].
      destruct (_ && _); [discriminate|]. destruct (x_parse_string E _) as [txt|[re e]];
        try (match goal with |- context [emit ?a ?b ?c ?d ?e] => destruct (emit a b c d e) end); discriminate.
    - unfold parse_number. destruct (x_number E _ (src t)); [|discriminate].
      destruct (x_parse_number E _ _);
        try (match goal with |- context [emit ?a ?b ?c ?d ?e] => destruct (emit a b c d e) end); discriminate.
    - apply quiet_select; [|exact Hf]. apply Hall. auto.
    - simpl in Hv. destruct Hv as (Hl & Hi & Ht). apply quiet_fast; auto.
    - apply quiet_seq; [|exact Hf]. apply Hall. auto.
    - apply quiet_sep; [apply Hone|apply Hone|exact Hf]; simpl; auto.
    - apply quiet_repeat; [apply Hone|exact Hf]; simpl; auto.
    - unfold parse_lines_r, rt_lines. apply quiet_bind; [apply quiet_bind|].
      + apply quiet_lines; [apply Hone; left; reflexivity|exact Hf].
      + intros [[t'|r'] ls]; discriminate.
      + intros [[t'|r'] ls]; discriminate.
    - unfold parse_node. destruct index as [i|]; [|discriminate].
      destruct (emit _ _ _ _ _) as [toks1 st1].
      destruct (nth_error (s_rules syn) i) as [r|] eqn:Hr.
      + apply quiet_bind; [apply IH; [apply occurs_top; eapply nth_error_In; exact Hr|exact Hf]|].
        intros [[[] toks2] ind2]; [|discriminate]. destruct (emit _ _ _ _ _). discriminate.
      + apply nth_error_None in Hr. simpl in Hv. lia.
    - unfold parse_optional. apply quiet_bind; [apply Hone; [left; reflexivity|exact Hf]|]. intros [[[] toks2] ind2]; discriminate.
    - unfold parse_not. apply quiet_bind; [apply Hone; [left; reflexivity|exact Hf]|]. intros [[[] toks2] ind2]; discriminate.
  Qed.

  Theorem release_safe text tokens ind : Forall (fun c => real_char c) text -> ~ release_parse_panics E syn text tokens ind.
  Proof.
    intros Hf (f & H). unfold parse_with_indent_r in H.
    destruct (nth_error (s_rules syn) (length (s_rules syn) - 1)) as [r|] eqn:Hr; [|discriminate].
    revert H. apply quiet_bind.
    - apply parse_rule_quiet; [apply occurs_top; eapply nth_error_In; exact Hr|exact Hf].
    - intros [[[] toks'] ind']; [|discriminate]. destruct (_ <? _); discriminate.
  Qed.
End Quiet.
