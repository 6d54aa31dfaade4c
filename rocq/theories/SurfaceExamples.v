(** The stand-in for [read_token] and texts of the meta language. *)
From Coq Require Import Ascii String List NArith Bool Arith Lia.
From Verif Require Import Base Ext Types ParseModel BootstrapRules LibModel PegSpec PrimProofs DataSpec ApiSpec JsonSpec WriteSpec SyntaxSpec TextSpec SurfaceSpec
  ParseProofs SyntaxProofs ExtProofs TextProofs TextProofs8 TextInv3 SurfaceProofs Examples TextExamples.
Import ListNotations.
Local Open Scope string_scope.
Local Open Scope list_scope.
Local Open Scope nat_scope.

Lemma std_string_whole t : forall rest esc n, std_string_go (t ++ rest) esc n = Some (n + length t) ->
  (exists t', t = t' ++ [quote]) /\ forall rest', std_string_go (t ++ rest') esc n = Some (n + length t).
Proof.
  induction t as [|c t IH]; intros rest esc n H.
  - cbn [app length] in H. apply std_string_go_bounds in H. lia.
  - cbn [app length std_string_go] in *. rewrite <- Nat.add_succ_comm in *.
    assert (Hgo : forall esc', std_string_go (t ++ rest) esc' (S n) = Some (S n + length t) ->
      (exists t', c :: t = t' ++ [quote]) /\ forall rest', std_string_go (t ++ rest') esc' (S n) = Some (S n + length t)).
    { intros esc' H'. destruct (IH rest esc' (S n) H') as [(t' & ->) Hr]. split; [exists (c :: t'); reflexivity|exact Hr]. }
    destruct esc; [apply Hgo; exact H|].
    destruct (N.eqb c backslash); [apply Hgo; exact H|].
    destruct (N.eqb c quote) eqn:Hq; [|apply Hgo; exact H].
    apply N.eqb_eq in Hq. subst c. assert (Hl : length t = 0) by (injection H; lia).
    destruct t; [|discriminate]. split; [exists []; reflexivity|]. intros _. exact H.
Qed.

Lemma std_number_whole c c' rest' t : white c -> white c' -> forall rest sg dg dt ex es n,
  std_number_go false (t ++ c :: rest) sg dg dt ex es n = Some (n + length t) ->
  std_number_go false (t ++ c' :: rest') sg dg dt ex es n = Some (n + length t).
Proof.
  intros Hc Hc'. destruct (white_stop c Hc) as (H1 & H2 & H3 & H4 & H5 & H6).
  destruct (white_stop c' Hc') as (K1 & K2 & K3 & K4 & K5 & K6).
  induction t as [|d t IH]; intros rest sg dg dt ex es n H; cbn [app std_number_go] in *.
  - rewrite H1, H2, H3, H4, H5, H6 in H. rewrite K1, K2, K3, K4, K5, K6. rewrite !andb_false_r in *. exact H.
  - cbn [length] in *. rewrite <- Nat.add_succ_comm in *.
    repeat match goal with |- (if ?x then _ else _) = _ => destruct x end; try (eapply IH; exact H); try exact H;
      injection H; lia.
Qed.

Lemma std_whole_readers : whole_readers std_ext.
Proof.
  split.
  - intros t rest H. cbn [x_string std_ext] in *. unfold std_string in *. destruct t as [|c t].
    + cbn [app length] in H. destruct rest as [|c rest]; [discriminate|]. destruct (N.eqb c quote); [|discriminate].
      apply std_string_go_bounds in H. lia.
    + cbn [app length] in *. destruct (N.eqb c quote); [|discriminate].
      destruct (std_string_whole t rest false 1 H) as [(t' & ->) Hr]. split; [exists (c :: t'); reflexivity|exact Hr].
  - intros t c rest Hc H c' rest' Hc'. cbn [x_number std_ext] in *. unfold std_number in *.
    exact (std_number_whole c c' rest' t Hc Hc' rest _ _ _ _ _ 0 H).
  - intros c rest [-> | ->]; reflexivity.
Qed.

Lemma returns_once E text r r' : rules_read E text r -> rules_read E text r' -> r = r'.
Proof.
  intros (n & H) (m & H').
  destruct (syntax_unoptimized_mono E n (n + m) text (Nat.le_add_r _ _)) as [X|X]; [congruence|].
  destruct (syntax_unoptimized_mono E m (n + m) text ltac:(lia)) as [Y|Y]; [congruence|]. congruence.
Qed.

(** Acceptance by computation. *)
Lemma parse_accepted E text data fuel : ext_ok E -> Forall real_char text ->
  parse E fuel bootstrap_rules text [] = Done (None, data) -> accepted E text.
Proof.
  intros HE Hr H. exists data. apply text_data_accepts; [exact HE|exact Hr|].
  assert (Hp : parse_returns E bootstrap_rules text [] indent_default None data) by (exists fuel; exact H).
  apply parse_accepts in Hp; [|exact HE]. destruct Hp as (out & Ho & ->). exact Ho.
Qed.

(** The unfinished comment is accepted but is no text of this form. *)
Lemma short_comment_accepted : exists text, Forall real_char text /\ accepted std_ext text /\ ~ exists es, surface std_ext es text.
Proof.
  exists (tx "/*/*/"). split; [repeat constructor|]. split.
  - eapply (parse_accepted _ _ _ 100); [exact std_ext_ok|repeat constructor|vm_compute; reflexivity].
  - intros (es & H & Ho).
    assert (Hb : entries_text std_ext (literal std_ext) any_string [] []) by (apply entries_none; constructor).
    assert (Hc : entry_text std_ext (literal std_ext) any_string EComment (tx "// */")).
    { refine (entry_line_comment _ _ _ (tx " */") _). cbn. intuition discriminate. }
    assert (Hr := comment_between std_ext std_ext_ok std_whole_readers es (tx "/*/*/") [] [] (tx "// */") H Hb Hc).
    rewrite app_nil_r in Hr. specialize (Hr Ho). destruct Hr as (Hr & _); [repeat constructor|].
    specialize (Hr (inl (Syn [] []))). destruct Hr as [Hr _].
    destruct Hr as (n & Hn); [exists 300; vm_compute; reflexivity|].
    assert (Hx : exists e, rules_read std_ext (tx "/*/*/" ++ newline :: tx "// */" ++ [newline]) (inr e)).
    { eexists. exists 300. vm_compute. reflexivity. }
    destruct Hx as (e & He). assert (Heq := returns_once _ _ _ _ (ex_intro _ n Hn) He). discriminate.
Qed.

(** ** Examples *)

Fixpoint short_free (s : str) : bool :=
  negb (is_prefix (s2l "/*/") s) && match s with [] => true | _ :: s' => short_free s' end.

Lemma short_free_spec s : short_free s = true -> no_short_comment s.
Proof.
  induction s as [|c s IH]; intros H (a & b & He); cbn [short_free] in H; apply andb_true_iff in H; destruct H as [H1 H2].
  - destruct a; discriminate.
  - apply negb_true_iff in H1. apply is_prefix_false in H1. destruct a as [|c' a].
    + apply H1. exists b. exact He.
    + cbn in He. injection He as -> He. apply (IH H2). exists a, b. exact He.
Qed.

Lemma surface_example : let text := tx "// strings
 _a: ""x""
1 n = [""y"":_p ?n .w? !{_q}]
/* end */" in
  whole_readers std_ext /\ Forall real_char text /\ no_short_comment text /\ accepted std_ext text /\
  exists es, surface std_ext es text.
Proof.
  intros text. assert (Hr : Forall real_char text) by (apply real_ascii).
  assert (Hn : no_short_comment text) by (apply short_free_spec; reflexivity).
  assert (Ha : accepted std_ext text) by (eapply (parse_accepted _ _ _ 100); [exact std_ext_ok|exact Hr|vm_compute; reflexivity]).
  split; [exact std_whole_readers|]. split; [exact Hr|]. split; [exact Hn|]. split; [exact Ha|].
  apply (accepted_form std_ext std_ext_ok std_whole_readers); assumption.
Qed.

Lemma order_example : exists es text, Forall real_char text /\
  entries_text std_ext (literal std_ext) any_string es text /\ strings_of es <> [] /\ nodes_of es <> [] /\ ~ accepted std_ext text.
Proof.
  destruct (std_numeral (tx "1")) as (x & Hx); [discriminate|repeat constructor; vm_compute; discriminate|].
  exists [ENode x (tx "n") (RWhitespace true 0); EString (tx "a") (tx "x")], (tx "1 n = .w?
_a: ""x""").
  assert (Hr : Forall real_char (tx "1 n = .w?
_a: ""x""")) by apply real_ascii.
  assert (He : entries_text std_ext (literal std_ext) any_string [ENode x (tx "n") (RWhitespace true 0); EString (tx "a") (tx "x")] (tx "1 n = .w?
_a: ""x""")).
  { apply (entries_more std_ext (literal std_ext) any_string [] (ENode x (tx "n") (RWhitespace true 0)) (tx "1 n = .w?")); [constructor| |].
    - apply (entry_node std_ext (literal std_ext) any_string x (tx "1") (tx "n") (RWhitespace true 0) (tx " ") (tx " ") (tx " ") (tx ".w?") []);
        try exact Hx; try (repeat constructor); try discriminate.
      + intros Hin. vm_compute in Hin. intuition discriminate.
    - apply (entries_last std_ext (literal std_ext) any_string []); [constructor|].
      apply (entry_string std_ext (literal std_ext) any_string (tx "a") (tx "x") (tx """x""") (tx " ") []); try (repeat constructor); try discriminate.
      + intros Hin. vm_compute in Hin. intuition discriminate.
      + eexists. reflexivity. }
  split; [exact Hr|]. split; [exact He|]. split; [discriminate|]. split; [discriminate|].
  intros Ha. apply (form_accepted std_ext std_ext_ok std_whole_readers _ _ Hr He) in Ha.
  destruct Ha as (f & sn & Heq & Hf & Hs). destruct f as [|e f].
  - cbn in Heq. subst sn. discriminate.
  - cbn in Heq. injection Heq as <- _. discriminate.
Qed.

Lemma between_example : let a := tx "1 n = ""y"":_p" in let b := tx "2 m = .w?" in let c := tx "/* /* */ */" in
  accepted std_ext a /\ accepted std_ext b /\ accepted std_ext (a ++ newline :: b) /\ no_short_comment a /\ no_short_comment b /\
  entry_text std_ext (literal std_ext) any_string EComment c /\ Forall real_char (a ++ c ++ b).
Proof.
  intros a b c.
  split; [eapply (parse_accepted _ _ _ 100); [exact std_ext_ok|apply real_ascii|vm_compute; reflexivity]|].
  split; [eapply (parse_accepted _ _ _ 100); [exact std_ext_ok|apply real_ascii|vm_compute; reflexivity]|].
  split; [eapply (parse_accepted _ _ _ 100); [exact std_ext_ok|repeat constructor|vm_compute; reflexivity]|].
  split; [apply short_free_spec; reflexivity|]. split; [apply short_free_spec; reflexivity|]. split; [|repeat constructor].
  apply (entry_comment std_ext (literal std_ext) any_string (tx " /* */ ") []); [|constructor].
  apply comment_char; [discriminate|discriminate|]. apply (comment_nested (tx " ") (tx " "));
    (apply comment_char; [discriminate|discriminate|apply comment_nil]).
Qed.
