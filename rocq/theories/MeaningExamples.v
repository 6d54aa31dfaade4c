(** Texts with names of strings that are not defined, and what they mean. *)
From Coq Require Import Ascii String List NArith Bool Arith Lia.
From Verif Require Import Base Ext Types PegSpec JsonSpec WriteSpec SyntaxSpec TextSpec SurfaceSpec MeaningSpec LibModel IdSpec OptSpec
  ExtProofs TextProofs TextProofs8 SurfaceProofs SurfaceExamples MeaningProofs Examples TextExamples.
Import ListNotations.
Local Open Scope string_scope.
Local Open Scope list_scope.
Local Open Scope nat_scope.

(** Kept: a tag without its property, and the tag of the defined string. *)
Definition C56_text : str := tx "_a: ""x""
7 n = [""y"":_p ?_q _a]".
Definition C56_strings : list (str * str) := [(tx "a", tx "x")].
Definition C56_rule : rule :=
  RSequence [RTag (tx "y") false false None 0; RTag (tx "x") false false None 0] 0.

(** Lost: the only sub rule. *)
Definition C56_lost : str := tx "7 n = ?_q".

Definition seven : f64 := match x_parse_number std_ext false (tx "7") with Some x => x | None => SpecFloat.S754_nan end.

Local Ltac plain_name := repeat constructor; try discriminate; intros Hin; vm_compute in Hin; intuition discriminate.
Local Ltac spaces := try discriminate; repeat constructor.

Lemma seven_numeral : numeral std_ext seven (tx "7").
Proof.
  destruct (std_numeral (tx "7")) as (x & Hx); [discriminate|repeat constructor; vm_compute; discriminate|].
  assert (x = seven) by (destruct Hx as (_ & _ & Hx); vm_compute in Hx; injection Hx as <-; reflexivity). subst x. exact Hx.
Qed.

Lemma letter_literal c : In c (tx "xy") -> literal std_ext [c] (quote :: c :: [quote]).
Proof.
  intros Hc. assert (H : c = 120%N \/ c = 121%N) by (vm_compute in Hc; intuition).
  destruct H as [-> | ->]; (split; [eexists; reflexivity|split; [intros rest; reflexivity|reflexivity]]).
Qed.

Lemma C56_means : means std_ext C56_strings [(tx "n", seven, Some C56_rule)] C56_text.
Proof.
  apply (means_more_entries std_ext C56_strings [] C56_strings [] (tx "_a: ""x""") [] [(tx "n", seven, Some C56_rule)] (tx "7 n = [""y"":_p ?_q _a]"));
    [constructor| | |left; reflexivity].
  - apply (means_string std_ext C56_strings (tx "a") (tx "x") (tx """x""") (tx " ") []); [plain_name| |spaces|spaces].
    apply (letter_literal 120%N). left. reflexivity.
  - apply (means_last_entry std_ext C56_strings []); [constructor|].
    apply (means_node std_ext C56_strings seven (tx "7") (tx "n") (Some C56_rule) (tx " ") (tx " ") (tx " ") (tx "[""y"":_p ?_q _a]") []);
      try solve [spaces]; [exact seven_numeral|plain_name|].
    apply (means_sequence std_ext C56_strings _ 0%N [] (tx """y"":_p ?_q _a")); [constructor|].
    apply (means_more std_ext C56_strings (Some (RTag (tx "y") false false None 0)) (tx """y"":_p") (tx " ") [RTag (tx "x") false false None 0] (tx "?_q _a"));
      [|spaces|spaces|].
    + apply (means_tag_prop std_ext C56_strings (Some (tx "y")) false false None 0%N (tx """y""") (tx "_p")).
      * apply means_quoted; [apply (letter_literal 121%N); right; left; reflexivity|right; discriminate].
      * apply (means_name std_ext C56_strings false None (tx "p")); [plain_name|]. cbn. intuition discriminate.
    + apply (means_more std_ext C56_strings None (tx "?_q") (tx " ") [RTag (tx "x") false false None 0] (tx "_a")); [|spaces|spaces|].
      * apply (means_optional std_ext C56_strings None 0%N (tx "_q")).
        apply (means_tag std_ext C56_strings None false 0%N (tx "_q")).
        apply (means_name std_ext C56_strings false None (tx "q")); [plain_name|]. cbn. intuition discriminate.
      * apply (means_last std_ext C56_strings (Some (RTag (tx "x") false false None 0)) (tx "_a") []); [|constructor].
        apply (means_tag std_ext C56_strings (Some (tx "x")) false 0%N (tx "_a")).
        apply (means_name std_ext C56_strings false (Some (tx "x")) (tx "a")); [plain_name|]. exists [], []. split; [reflexivity|intros []].
Qed.

Lemma C56_means_lost : means std_ext [] [(tx "n", seven, None)] C56_lost.
Proof.
  apply (means_last_entry std_ext [] []); [constructor|].
  apply (means_node std_ext [] seven (tx "7") (tx "n") None (tx " ") (tx " ") (tx " ") (tx "?_q") []);
    try solve [spaces]; [exact seven_numeral|plain_name|].
  apply (means_optional std_ext [] None 0%N (tx "_q")).
  apply (means_tag std_ext [] None false 0%N (tx "_q")).
  apply (means_name std_ext [] false None (tx "q")); [plain_name|]. cbn. tauto.
Qed.
