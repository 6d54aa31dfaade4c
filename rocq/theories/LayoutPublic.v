(** C90: the length of the output for nested nodes. *)
From Coq Require Import Ascii String List NArith Bool Arith Lia.
From Verif Require Import Base Ext Types ParseModel LibModel JsonModel PegSpec PegFacts PegProofs PrimProofs ApiSpec ParseProofs SyntaxSpec
  SyntaxProofs ParsePublic DataSpec RuleSpec ExtProofs JsonSpec JsonProofs JsonProofs2 JsonProofs3 KeySpec KeyPublic Examples LayoutSpec LayoutProofs.
Import ListNotations.
Local Open Scope string_scope.
Local Open Scope list_scope.
Local Open Scope nat_scope.

Definition paren_rule : rule :=
  RSequence [RTag [40%N] false false None 1001;
             ROptional (RNode (s2l "doc") (Some (s2l "a")) (Some 0) 1002) 1003;
             RTag [41%N] false false None 1004] 1005.
Definition paren_syntax : syntax := {| s_rules := [paren_rule]; s_names := [s2l "doc"] |}.

Lemma paren_rules_read : syntax_returns std_ext paren_rules (inl paren_syntax).
Proof. exists 1000. vm_compute. reflexivity. Qed.

Definition paren_data (n : nat) : list metadata := repeat (StartNode (s2l "a")) n ++ repeat (EndNode (s2l "a")) n.

Lemma repeat_snoc {A} (x : A) n : repeat x (S n) = repeat x n ++ [x].
Proof. induction n as [|n IH]; [reflexivity|]. cbn [repeat app] in *. f_equal. exact IH. Qed.

Lemma paren_data_step n : paren_data (S n) = StartNode (s2l "a") :: paren_data n ++ [EndNode (s2l "a")].
Proof. unfold paren_data. rewrite (repeat_snoc (EndNode _)), !app_assoc. reflexivity. Qed.

Section Parens.
  Variable E : ext.

  Notation reads := (reads E [paren_rule]).

  Lemma paren_no ind p s : exists tr, reads paren_rule ind p (41%N :: s) No ind tr.
  Proof.
    eexists. apply reads_sequence. apply reads_seq_no. apply reads_tag_no. intros (r & H). discriminate.
  Qed.

  Lemma paren_yes n : forall p rest ind, exists out tr,
    reads paren_rule ind p (repeat 40%N (S n) ++ repeat 41%N (S n) ++ rest) (Yes (2 * S n) out) ind tr /\ map snd out = paren_data n.
  Proof.
    induction n as [|n IH]; intros p rest ind.
    - destruct (paren_no ind (p + 1) rest) as (tr & Hno). exists [], ([] ++ tr ++ [] ++ []). split; [|reflexivity].
      apply reads_sequence. change (Yes (2 * 1) []) with (after 1 [] (after 0 [] (after 1 [] (Yes 0 [])))).
      eapply reads_seq_cons; [apply reads_tag; eexists; reflexivity|]. 
      eapply reads_seq_cons; [eapply reads_optional_none, reads_node_no; [reflexivity|exact Hno]|].
      eapply reads_seq_cons; [apply reads_tag; eexists; reflexivity|]. apply reads_seq_nil.
    - destruct (IH (p + 1) (41%N :: rest) ind) as (out & tr & Hr & Ho).
      exists ([] ++ (token (Some (s2l "a")) (Rng (p + 1) 0) StartNode ++ out ++ token (Some (s2l "a")) (Rng (p + 1) (2 * S n)) EndNode) ++ [] ++ []), ([] ++ tr ++ [] ++ []).
      split.
      2:{ rewrite !app_nil_r, paren_data_step, <- Ho.
          change (StartNode (s2l "a") :: map snd (out ++ [(Rng (p + 1) (2 * S n), EndNode (s2l "a"))]) =
            StartNode (s2l "a") :: map snd out ++ [EndNode (s2l "a")]).
          f_equal. apply map_app. }
      apply reads_sequence.
      replace (2 * S (S n)) with (1 + (2 * S n + (1 + 0))) by lia.
      change (Yes (1 + (2 * S n + (1 + 0))) ?o) with (after 1 [] (after (2 * S n) (token (Some (s2l "a")) (Rng (p + 1) 0) StartNode ++ out ++ token (Some (s2l "a")) (Rng (p + 1) (2 * S n)) EndNode) (after 1 [] (Yes 0 [])))).
      eapply (reads_seq_cons E _ _ _ _ _ _ 1); [apply (reads_tag E _ [40%N]); eexists; reflexivity|].
      match goal with |- reads_seq _ _ _ _ _ ?t _ _ _ =>
        replace t with (repeat 40%N (S n) ++ repeat 41%N (S n) ++ 41%N :: rest)
          by (rewrite (repeat_snoc 41%N (S n)), <- app_assoc; reflexivity) end.
      eapply reads_seq_cons; [eapply reads_optional, reads_node; [reflexivity|exact Hr]|].
      match goal with |- reads_seq _ _ _ _ _ ?t _ _ _ => replace t with (41%N :: rest) end.
      2:{ rewrite app_assoc, skipn_app, app_length, !repeat_length.
          rewrite skipn_all2 by (rewrite app_length, !repeat_length; lia). replace (2 * S n - (S n + S n)) with 0 by lia. reflexivity. }
      eapply reads_seq_cons; [apply reads_tag; eexists; reflexivity|]. apply reads_seq_nil.
  Qed.

  Lemma paren_nested n : nested (paren_data n).
  Proof.
    induction n as [|n IH]; [constructor|]. rewrite paren_data_step.
    apply (nested_node (s2l "a") (paren_data n) []); [exact IH|constructor].
  Qed.

  Lemma opened_repeat n : opened (repeat (StartNode (s2l "a")) n) = n.
  Proof. induction n as [|n IH]; [reflexivity|]. cbn [repeat]. unfold opened in *. cbn. f_equal. exact IH. Qed.
  Lemma closed_repeat n : closed (repeat (StartNode (s2l "a")) n) = 0.
  Proof. induction n as [|n IH]; [reflexivity|]. cbn [repeat]. unfold closed in *. cbn. exact IH. Qed.
  Lemma firstn_repeat_le {A} (x : A) k n : k <= n -> firstn k (repeat x n) = repeat x k.
  Proof.
    revert n. induction k as [|k IH]; intros n H; [reflexivity|]. destruct n; [lia|]. cbn. f_equal. apply IH. lia.
  Qed.

  Lemma paren_open n k : k < n -> open_around (paren_data n) k = k.
  Proof.
    intros H. unfold open_around. rewrite (nested_imbalance _ (paren_nested n)). unfold paren_data.
    rewrite !firstn_app, !repeat_length, !firstn_repeat_le by lia.
    replace (k - n) with 0 by lia. replace (S k - n) with 0 by lia. cbn [firstn].
    rewrite !app_nil_r, opened_repeat, closed_repeat. lia.
  Qed.

  Lemma sum_app a b : list_sum (a ++ b) = list_sum a + list_sum b.
  Proof.
    induction a as [|x a IH]; [reflexivity|]. change (x + list_sum (a ++ b) = x + list_sum a + list_sum b). lia.
  Qed.

  Lemma sum_below n : 2 * list_sum (seq 0 n) + n = n * n.
  Proof. induction n as [|n IH]; [reflexivity|]. rewrite seq_S, sum_app. cbn [list_sum fold_right plus]. nia. Qed.

  Lemma paren_spaces n : n * n <= 2 * spaces_before (paren_data n) + n.
  Proof.
    unfold spaces_before. replace (length (paren_data n)) with (n + n) by (unfold paren_data; rewrite app_length, !repeat_length; reflexivity).
    rewrite seq_app, map_app, sum_app.
    replace (map (open_around (paren_data n)) (seq 0 n)) with (seq 0 n).
    - pose proof (sum_below n). lia.
    - rewrite <- (map_id (seq 0 n)) at 1. apply map_ext_in. intros k Hk. apply in_seq in Hk. symmetry. apply paren_open. lia.
  Qed.

  Hypothesis HE : ext_ok E.

  Theorem parens_long n tokens ind : exists out json,
    parse_returns E paren_syntax (parens (S n)) tokens ind None (tokens ++ out) /\
    json_write E out = Done json /\ n * n <= 2 * length json.
  Proof.
    destruct (paren_yes n 0 [] ind) as (out & tr & Hr & Ho). rewrite app_nil_r in Hr.
    assert (Hlen : length (parens (S n)) = 2 * S n) by (unfold parens; rewrite app_length, !repeat_length; lia).
    destruct (json_write_nested E out) as (_ & json & Hj); [rewrite Ho; apply paren_nested|].
    exists out, json. split; [|split; [exact Hj|]].
    - apply (parse_accepts E HE). exists out. split; [|reflexivity].
      eapply accepts_all; [exists []; reflexivity|]. rewrite Hlen. exact Hr.
    - destruct n as [|n]; [lia|].
      assert (out <> []) as Hne by (intros ->; discriminate).
      pose proof (output_length E out json Hj Hne) as [Hl _]. rewrite Ho in Hl.
      pose proof (f_equal (@length metadata) Ho) as Hn. unfold paren_data in Hn.
      rewrite map_length, app_length, !repeat_length in Hn.
      pose proof (paren_spaces (S n)). change (@length tok out) with (@length (range * metadata) out) in *. lia.
  Qed.
End Parens.

(** No multiple of the length of the text bounds the length of the output. *)
Theorem output_not_linear E : ext_ok E -> exists s, syntax_returns std_ext paren_rules (inl s) /\
  forall a : nat, exists text out json,
    parse_returns E s text [] indent_default None out /\
    json_write E out = Done json /\ a * length text < length json.
Proof.
  intros HE. exists paren_syntax. split; [exact paren_rules_read|]. intros a.
  destruct (parens_long E HE (4 * a + 8) [] indent_default) as (out & json & Hp & Hj & Hl).
  exists (parens (S (4 * a + 8))), out, json. split; [exact Hp|]. split; [exact Hj|].
  replace (length (parens (S (4 * a + 8)))) with (2 * S (4 * a + 8)) by (unfold parens; rewrite app_length, !repeat_length; lia). nia.
Qed.

Definition layout_data : list (range * metadata) :=
  map (fun d => (Rng 0 0, d))
    [StartNode (s2l "a"); MBool (s2l "b") true; StartNode (s2l "c"); MString (s2l "d") (s2l "x" ++ newline :: s2l "y"); EndNode (s2l "c");
     EndNode (s2l "a"); MBool (s2l "e") false].

Lemma layout_example : exists out ls, json_write std_ext layout_data = Done out /\ out = of_lines ls /\
  ls = [quote :: s2l "a" ++ quote :: s2l ":{"; s2l " " ++ quote :: s2l "b" ++ quote :: s2l ":true,"; s2l " " ++ quote :: s2l "c" ++ quote :: s2l ":{";
        s2l "  " ++ quote :: s2l "d" ++ quote :: colon :: quote :: s2l "x\ny" ++ [quote]; s2l " }"; s2l "},"; quote :: s2l "e" ++ quote :: s2l ":false"] /\
  one_line_numbers std_ext (map snd layout_data) /\
  spaces_before (map snd layout_data) = 5 /\ contents std_ext (map snd layout_data) = 8.
Proof.
  do 2 eexists. split; [vm_compute; reflexivity|]. split; [|split; [reflexivity|]]; [vm_compute; reflexivity|].
  split; [|split; vm_compute; reflexivity]. intros name x H. cbn in H. intuition discriminate.
Qed.
