(** A text in the meta language and the nodes it writes, for the examples. *)
From Coq Require Import Ascii String List NArith ZArith Bool Arith.
From Verif Require Import Base Ext Types PegSpec JsonSpec WriteSpec SyntaxSpec TextSpec TextProofs8 Examples.
Import ListNotations.
Local Open Scope string_scope.
Local Open Scope list_scope.
Local Open Scope nat_scope.

Definition three : f64 :=
  Eval vm_compute in match std_parse_number false (tx "3") with Some x => x | None => SpecFloat.S754_nan end.

Definition C44_strings : list (str * str) := [(tx "p", tx "val")].
Definition C44_nodes : list (str * f64 * rule) :=
  [(tx "doc", three, RSequence [RTag (tx "a") false true (Some (tx "val")) 0; RNot (RNode (tx "doc") None None 0) 0] 0)].
Definition C44_text : str := tx "_p: ""val""
// comment
3 doc = [""a"":!_p !doc]".

Lemma is_white_space w : forallb is_ws w = true -> Forall white w.
Proof. intros H. apply Forall_forall. intros c Hc. rewrite forallb_forall in H. apply H. exact Hc. Qed.

Lemma name_check n : n <> [] -> forallb (fun c => negb (is_ws c) && negb (existsb (N.eqb c) separators)) n = true -> is_name n.
Proof.
  intros Hne H. split; [exact Hne|]. apply Forall_forall. intros c Hc. rewrite forallb_forall in H.
  specialize (H c Hc). apply andb_prop in H. destruct H as [H1 H2]. split.
  - unfold white. destruct (is_ws c); [discriminate|intros H; discriminate H].
  - intros Hin. apply negb_true_iff in H2. assert (Ht : existsb (N.eqb c) separators = true).
    { apply existsb_exists. exists c. split; [exact Hin|apply N.eqb_refl]. }
    congruence.
Qed.

Lemma C44_string : entry_text std_ext quoted (defined C44_strings) (EString (tx "p") (tx "val")) (tx "_p: ""val""").
Proof.
  refine (entry_string _ _ _ (tx "p") (tx "val") (tx """val""") (tx " ") [] _ _ _ (Forall_nil _)).
  + apply name_check; [discriminate|reflexivity].
  + exists (tx "val"). split; [|reflexivity]. repeat constructor; discriminate.
  + apply is_white_space. reflexivity.
Qed.

Lemma C44_comment : entry_text std_ext quoted (defined C44_strings) EComment (tx "// comment").
Proof.
  refine (entry_line_comment _ _ _ (tx " comment") _). cbn. intuition discriminate.
Qed.

Definition C44_entry : entry := match C44_nodes with (n, x, r) :: _ => ENode x n r | [] => EComment end.

Lemma C44_node : entry_text std_ext quoted (defined C44_strings) C44_entry (tx "3 doc = [""a"":!_p !doc]").
Proof.
  refine (entry_node _ _ _ three (tx "3") (tx "doc") _ (tx " ") (tx " ") (tx " ") (tx "[""a"":!_p !doc]") [] _ _ _ _ _ _ _ _ (Forall_nil _));
    try (apply is_white_space; reflexivity); try discriminate.
  + destruct (std_numeral (tx "3")) as (x & H1 & H2 & H3); [discriminate|repeat constructor; vm_compute; discriminate|].
    split; [exact H1|]. split; [exact H2|]. vm_compute. reflexivity.
  + split; [apply name_check; [discriminate|reflexivity]|discriminate].
  + refine (m_sequence _ _ [_; _] _ [] (tx """a"":!_p !doc") (Forall_nil _) _).
    refine (m_more _ _ _ (tx """a"":!_p") (tx " ") _ (tx "!doc") _ _ _ (m_last _ _ _ (tx "!doc") [] _ (Forall_nil _)));
      [|apply is_white_space; reflexivity|discriminate|].
    * refine (m_tag_prop _ _ (tx "a") false true (tx "val") _ (tx """a""") (tx "_p") _ _).
      -- apply mtext_quoted; [|right; discriminate]. exists (tx "a"). split; [|reflexivity]. repeat constructor; discriminate.
      -- refine (mtext_name _ _ _ (tx "val") (tx "p") _ _); [apply name_check; [discriminate|reflexivity]|].
         exists [], []. split; [reflexivity|intros []].
    * refine (m_not _ _ _ _ (tx "doc") _ _); [|intros []].
      refine (m_reference _ _ (tx "doc") None _ [] _ (mprop_none _ _)).
      split; [apply name_check; [discriminate|reflexivity]|discriminate].
Qed.

Lemma C44_document : document std_ext C44_strings C44_nodes C44_text.
Proof.
  refine (document_of std_ext C44_strings C44_nodes [EString (tx "p") (tx "val"); EComment] [C44_entry]
    _ eq_refl eq_refl eq_refl eq_refl _).
  exact (entries_more _ _ _ [] _ (tx "_p: ""val""") _ _ (Forall_nil _) C44_string
    (entries_more _ _ _ [] _ (tx "// comment") _ _ (Forall_nil _) C44_comment
      (entries_last _ _ _ [] _ (tx "3 doc = [""a"":!_p !doc]") (Forall_nil _) C44_node))).
Qed.

(** The same nodes with other white space and without the comment. *)
Definition C45_text : str := tx "
 _p: ""val""
 3 doc = [""a"":!_p !doc]".

Lemma C45_document : document std_ext C44_strings C44_nodes C45_text.
Proof.
  refine (document_of std_ext C44_strings C44_nodes [EString (tx "p") (tx "val")] [C44_entry]
    _ eq_refl eq_refl eq_refl eq_refl _).
  refine (entries_more _ _ _ (newline :: tx " ") _ (tx "_p: ""val""") _ _ _ C44_string
      (entries_last _ _ _ (tx " ") _ (tx "3 doc = [""a"":!_p !doc]") _ C44_node)); apply is_white_space; reflexivity.
Qed.

Lemma real_check t : forallb (fun c => (c <? 1114112)%N) t = true -> Forall real_char t.
Proof.
  intros H. apply Forall_forall. intros c Hc. rewrite forallb_forall in H. specialize (H c Hc).
  apply N.ltb_lt in H. exact H.
Qed.

(** ** An unfinished comment that depends on what follows *)

(** In [/*/*/] the inner comment is never closed, so its slash and the closing mark count; a
    closing mark anywhere behind it changes that. *)
Lemma comment_line_matters : exists a b c s e,
  entry_text std_ext quoted (defined []) EComment c /\
  rules_read std_ext (a ++ newline :: b) (inl s) /\ syntax_returns std_ext (a ++ newline :: b) (inl s) /\
  rules_read std_ext (a ++ newline :: c ++ newline :: b) (inr e) /\
  syntax_returns std_ext (a ++ newline :: c ++ newline :: b) (inr e).
Proof.
  exists (tx "1 x = .w!
/*/*/"), (tx "2 y = .w!"), (tx "// */"). do 2 eexists.
  split; [refine (entry_line_comment _ _ _ (tx " */") _); cbn; intuition discriminate|].
  split; [exists 300; vm_compute; reflexivity|]. split; [exists 300; vm_compute; reflexivity|].
  split; exists 300; vm_compute; reflexivity.
Qed.
