(** Nested comments in the meta language: how deep parsing them nests. *)
From Coq Require Import Ascii String List NArith Bool Arith Lia.
From Verif Require Import Base Ext Types ParseModel OptimizeModel BootstrapRules DepthModel PegSpec PrimProofs
  DataSpec ApiSpec OptSpec JsonSpec WriteSpec FuelProofs ParsePublic SyntaxSpec SyntaxProofs TextSpec SurfaceSpec SurfaceProofs DepthProofs CommentProofs.
Import ListNotations.
Local Open Scope string_scope.
Local Open Scope list_scope.
Local Open Scope nat_scope.

Section Nest.
  Variable E : ext.
  Variable refs : list rule.
  Variable l : nat.
  Hypothesis Hmulti : nth_error refs 0 = Some multi.

  Notation on d := (parse_rule_on E d l refs).

  (** The stack is too small. *)
  Definition stuck (d : nat) (r : rule) (s : str) : Prop :=
    forall toks st p ind, on d r toks st (RT s p) ind = OutOfFuel.

  (** The rule reads [k] characters. *)
  Definition goes (d : nat) (r : rule) (s : str) (k : nat) : Prop :=
    forall toks st p ind, exists st' oe toks' ind',
      on d r toks st (RT s p) ind = Done (POk (Rng p k) st' oe, toks', ind').

  Definition errs (d : nat) (r : rule) (s : str) : Prop :=
    forall toks st p ind, exists e toks' ind',
      on d r toks st (RT s p) ind = Done (PErr e, toks', ind').

  Inductive seq_stuck (d : nat) : list rule -> str -> Prop :=
  | ss_here : forall r rest s, stuck d r s -> seq_stuck d (r :: rest) s
  | ss_later : forall r rest s k, goes d r s k -> seq_stuck d rest (skipn k s) ->
      seq_stuck d (r :: rest) s.

  Lemma stuck_seq d args id s : seq_stuck d args s -> stuck (S d) (RSequence args id) s.
  Proof.
    intros H toks st p ind. cbn [parse_rule_on]. unfold parse_sequence.
    generalize (RT s p) at 1 as start. generalize (@None perr) as oe. revert toks st p ind.
    induction H as [r rest s H|r rest s k H _ IH]; intros toks st p ind oe start; cbn [seq_loop].
    - rewrite H. reflexivity.
    - destruct (H toks st p ind) as (st' & oe' & toks' & ind' & He). rewrite He. cbn [obind r_len].
      unfold rt_consume. cbn [src off]. apply IH.
  Qed.

  Inductive sel_stuck (d : nat) : list rule -> str -> Prop :=
  | ls_here : forall r rest s, stuck d r s -> sel_stuck d (r :: rest) s
  | ls_later : forall r rest s, errs d r s -> sel_stuck d rest s -> sel_stuck d (r :: rest) s.

  Lemma stuck_sel d args id s : sel_stuck d args s -> stuck (S d) (RSelect args id) s.
  Proof.
    intros H toks st p ind. cbn [parse_rule_on]. unfold parse_select.
    generalize (@None perr) as oe. revert toks st p ind.
    induction H as [r rest s H|r rest s H _ IH]; intros toks st p ind oe; cbn [select_loop].
    - rewrite H. reflexivity.
    - destruct (H toks st p ind) as (e & toks' & ind' & He). rewrite He. cbn [obind]. apply IH.
  Qed.

  Lemma stuck_rep d r id optional s : stuck d r s -> stuck (S d) (RRepeat r optional id) s.
  Proof.
    intros H toks st p ind. cbn [parse_rule_on]. unfold parse_repeat.
    generalize l at 1 as m. intros [|m]; [reflexivity|]. cbn [repeat_loop]. rewrite H. reflexivity.
  Qed.

  Lemma stuck_node d name property i id r s : nth_error refs i = Some r -> stuck d r s ->
    stuck (S d) (RNode name property (Some i) id) s.
  Proof.
    intros Hi H toks st p ind. cbn [parse_rule_on]. unfold parse_node.
    destruct (emit _ _ _ _ _). rewrite Hi, H. reflexivity.
  Qed.

  Lemma stuck_lines d r id c s : is_ws c = false -> stuck d r (c :: s) ->
    stuck (S d) (RLines r false id) (c :: s).
  Proof.
    intros Hw H toks st p ind. cbn [parse_rule_on]. unfold parse_lines, rt_lines.
    generalize l at 2 as m. intros [|m]; [reflexivity|]. cbn [lines_loop src].
    change (span_len is_ws (c :: s)) with (if is_ws c then S (span_len is_ws s) else 0). rewrite Hw.
    cbn [Nat.eqb length]. change (firstn 0 (c :: s)) with (@nil char). cbn [after_last_newline].
    unfold lines_closure_plain at 1. cbn [ls_toks ls_state ls_ind]. rewrite H. reflexivity.
  Qed.

  Lemma goes_tag d text inverted property id s rest : s = text ++ rest ->
    goes (S d) (RTag text false inverted property id) s (length text).
  Proof.
    intros -> toks st p ind. cbn [parse_rule_on]. unfold parse_tag, rt_tag.
    assert (H : is_prefix text (text ++ rest) = true).
    { induction text as [|c text IH]; [reflexivity|]. cbn. rewrite N.eqb_refl. exact IH. }
    cbn [src off]. rewrite H. destruct (emit _ _ _ _ _) as [toks' st']. eauto.
  Qed.

  Lemma goes_not_tag d text inverted property id s : is_prefix text s = false ->
    goes (S d) (RTag text true inverted property id) s 0.
  Proof.
    intros H toks st p ind. cbn [parse_rule_on]. unfold parse_tag, rt_tag. cbn [src].
    rewrite H. destruct (emit _ _ _ _ _) as [toks' st']. unfold rt_start. cbn [off]. eauto.
  Qed.

  Lemma goes_until d any property id s k : span_len (fun c => negb (mem_char c any)) s = k ->
    goes (S d) (RUntilAny any true property id) s k.
  Proof.
    intros <- toks st p ind. cbn [parse_rule_on]. unfold parse_until, rt_until_any. cbn [src off].
    rewrite andb_false_r. destruct (emit _ _ _ _ _) as [toks' st']. eauto.
  Qed.

  Lemma goes_white d id s k : span_len is_ws s = k -> goes (S d) (RWhitespace true id) s k.
  Proof.
    intros <- toks st p ind. cbn [parse_rule_on]. unfold parse_whitespace, rt_whitespace. cbn [src off].
    rewrite andb_false_r. eauto.
  Qed.

  Lemma errs_tag d text inverted property id s : is_prefix text s = false ->
    errs (S d) (RTag text false inverted property id) s.
  Proof.
    intros H toks st p ind. cbn [parse_rule_on]. unfold parse_tag, rt_tag. cbn [src].
    rewrite H. eauto.
  Qed.

  Lemma errs_seq1 d r rest id s : errs d r s -> errs (S d) (RSequence (r :: rest) id) s.
  Proof.
    intros H toks st p ind. cbn [parse_rule_on]. unfold parse_sequence. cbn [seq_loop].
    destruct (H toks st p ind) as (e & toks' & ind' & He). rewrite He. cbn [obind]. eauto.
  Qed.

  Lemma errs_seq2 d r r' rest id s k : goes d r s k -> errs d r' (skipn k s) ->
    errs (S d) (RSequence (r :: r' :: rest) id) s.
  Proof.
    intros H H' toks st p ind. cbn [parse_rule_on]. unfold parse_sequence. cbn [seq_loop].
    destruct (H toks st p ind) as (st' & oe & toks' & ind' & He). rewrite He. cbn [obind r_len].
    unfold rt_consume. cbn [src off].
    destruct (H' toks' st' (p + k) ind') as (e & toks2 & ind2 & He2). rewrite He2. cbn [obind]. eauto.
  Qed.

  Lemma errs_node d name property i id r s : nth_error refs i = Some r -> errs d r s ->
    errs (S d) (RNode name property (Some i) id) s.
  Proof.
    intros Hi H toks st p ind. cbn [parse_rule_on]. unfold parse_node.
    destruct (emit _ _ _ _ _) as [toks1 st1]. rewrite Hi.
    destruct (H toks1 st1 p ind) as (e & toks' & ind' & He). rewrite He. cbn [obind]. eauto.
  Qed.

  Lemma multi_stuck k : forall rest, stuck (5 * k) multi (opened (S k) ++ rest).
  Proof.
    induction k as [|k IH]; intros rest; [intros toks st p ind; reflexivity|].
    replace (5 * S k) with (S (S (S (S (S (5 * k)))))) by lia. set (d := 5 * k) in *. clearbody d.
    change (opened (S (S k)) ++ rest) with (47%N :: 42%N :: 32%N :: opened (S k) ++ rest).
    set (s := opened (S k) ++ rest) in *.
    assert (Hs : exists s', s = 47%N :: s') by (exists (42%N :: 32%N :: opened k ++ rest); reflexivity).
    specialize (IH rest). fold s in IH. clearbody s. destruct Hs as [s' ->].
    apply stuck_seq. eapply ss_later; [eapply goes_tag; reflexivity|]. cbn [length skipn].
    eapply ss_later; [apply goes_until; reflexivity|]. cbn [skipn].
    apply ss_here. apply stuck_rep. apply stuck_sel.
    apply ls_later; [eapply errs_seq2; [apply goes_not_tag; reflexivity|apply errs_tag; reflexivity]|].
    apply ls_here. apply stuck_seq. apply ss_here. eapply stuck_node; [exact Hmulti|].
    exact IH.
  Qed.
End Nest.

Lemma nested_stuck E k rounds rest tokens ind :
  parse_on E (5 * k) rounds boot_computed (opened (S k) ++ rest) tokens ind = OutOfFuel.
Proof.
  unfold parse_on.
  replace (nth_error (s_rules boot_computed) (length (s_rules boot_computed) - 1)) with (Some (rule_at 22)) by reflexivity.
  cut (stuck E (s_rules boot_computed) rounds (7 + 5 * k) (rule_at 22) (opened (S k) ++ rest)).
  { intros H. specialize (H tokens (length tokens) 0 ind).
    destruct (parse_rule_on_mono E (s_rules boot_computed) (5 * k) (7 + 5 * k) rounds rounds (rule_at 22) ltac:(lia) (le_n _)
      tokens (length tokens) (RT (opened (S k) ++ rest) 0) ind) as [He|He]; [|rewrite H in He]; rewrite He; reflexivity. }
  pose proof (multi_stuck E (s_rules boot_computed) rounds eq_refl k rest) as Hm.
  change (opened (S k) ++ rest) with (47%N :: 42%N :: 32%N :: opened k ++ rest) in *.
  set (s := 42%N :: 32%N :: opened k ++ rest) in *. set (d := 5 * k) in *. clearbody d s.
  change (rule_at 22) with ltac:(let r := eval vm_compute in (rule_at 22) in exact r).
  apply stuck_seq. apply ss_here. apply stuck_lines; [reflexivity|].
  apply stuck_seq. eapply ss_later; [apply goes_white; reflexivity|]. apply ss_here. apply stuck_sel.
  apply ls_later; [eapply errs_node; [reflexivity|]; apply errs_seq1; apply errs_tag; reflexivity|].
  apply ls_here. eapply stuck_node; [reflexivity|].
  apply stuck_sel. apply ls_here. eapply stuck_node; [reflexivity|]. exact Hm.
Qed.

(** [n] comments, each in the next. *)
Fixpoint nested_comments (n : nat) : str :=
  match n with 0 => [] | S n' => s2l "/* " ++ nested_comments n' ++ s2l "*/" end.

Lemma nested_opened n : exists rest, nested_comments n = opened n ++ rest.
Proof.
  induction n as [|n [rest IH]]; [exists []; reflexivity|]. exists (rest ++ s2l "*/").
  cbn [nested_comments opened]. rewrite IH, <- app_assoc. reflexivity.
Qed.

Lemma nested_body n : comment_body (32%N :: nested_comments n).
Proof.
  induction n as [|n IH]; (apply comment_char; [discriminate|discriminate|]); [constructor|].
  cbn [nested_comments]. change (s2l "/* " ++ nested_comments n ++ s2l "*/")
    with (s2l "/*" ++ (32%N :: nested_comments n) ++ s2l "*/" ++ []). constructor; [exact IH|constructor].
Qed.

Lemma nested_real n : Forall real_char (nested_comments n).
Proof.
  induction n as [|n IH]; [constructor|]. cbn [nested_comments]. apply Forall_app. split.
  - repeat constructor; unfold real_char; reflexivity.
  - apply Forall_app. split; [exact IH|]. repeat constructor; unfold real_char; reflexivity.
Qed.

Lemma nested_accepted E : ext_ok E -> whole_readers E -> forall n, accepted E (nested_comments n).
Proof.
  intros HE HW [|n].
  - apply (form_accepted E HE HW []); [constructor|apply entries_none; constructor|].
    exists [], []. repeat split.
  - apply (form_accepted E HE HW [EComment]); [apply nested_real| |].
    + pose proof (entries_last E (literal E) any_string [] EComment
        (s2l "/*" ++ (32%N :: nested_comments n) ++ s2l "*/" ++ []) (Forall_nil _)
        (entry_comment E (literal E) any_string _ [] (nested_body n) (Forall_nil _))) as H.
      exact H.
    + exists [EComment], []. repeat split.
Qed.

Lemma nested_length n : length (nested_comments n) = 5 * n.
Proof. induction n as [|n IH]; [reflexivity|]. cbn [nested_comments]. rewrite !app_length, IH. cbn. lia. Qed.

(** ** The theorems *)

Theorem depth_needed E : ext_ok E -> whole_readers E ->
  forall boot, optimize_returns bootstrap_rules boot ->
  forall n, exists text, length text = 5 * (n + 1) /\ accepted E text /\
  forall depth rounds tokens ind, depth <= 5 * n -> parse_on E depth rounds boot text tokens ind = OutOfFuel.
Proof.
  intros HE HW boot Hb n. apply boot_unique in Hb. subst boot.
  exists (nested_comments (n + 1)). split; [apply nested_length|]. split; [apply nested_accepted; assumption|].
  intros depth rounds tokens ind Hd. destruct (nested_opened (n + 1)) as [rest Hr]. rewrite Hr.
  replace (n + 1) with (S n) by lia.
  destruct (parse_on_mono E depth (5 * n) rounds rounds boot_computed (opened (S n) ++ rest) tokens ind Hd (le_n _)) as [He|He];
    [exact He|]. rewrite He. apply nested_stuck.
Qed.
