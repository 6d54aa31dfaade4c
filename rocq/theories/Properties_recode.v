(** C88: rules and texts in other characters. *)
From Coq Require Import Ascii String List NArith Bool Arith Lia.
From Verif Require Import Base Ext Types PegSpec DataSpec ApiSpec OptSpec ExtProofs Examples
  RecodeSpec RecodeProofs RecodeProofs2 RecodeExamples.
Import ListNotations.
Local Open Scope string_scope.
Local Open Scope list_scope.
Local Open Scope nat_scope.

(** When the characters of the rules and of the text are replaced by others, the tokens are the
    same, at the same places, with the replaced characters in strings. *)
Theorem C88_accepts : forall E f s tokens ind text out, ext_ok E -> recoding E f -> no_tables s ->
  parse_returns E s text tokens ind None (tokens ++ out) ->
  exists out', parse_returns E (recode_syntax f s) (map f text) tokens ind None (tokens ++ out') /\
    Forall2 (recoded_token f text) out out'.
Proof.
  exact (fun E f s tokens ind text out HE HR Hs => proj1 (parse_recode E HE f HR s Hs tokens ind text) out).
Qed.
Print Assumptions C88_accepts.

(** The same error is reported at the same place. *)
Theorem C88_rejects : forall E f s tokens ind text e left_, ext_ok E -> recoding E f -> no_tables s ->
  parse_returns E s text tokens ind (Some e) left_ ->
  exists left_', parse_returns E (recode_syntax f s) (map f text) tokens ind (Some (recode_error f e)) left_'.
Proof.
  exact (fun E f s tokens ind text e l HE HR Hs => proj2 (parse_recode E HE f HR s Hs tokens ind text) e l).
Qed.
Print Assumptions C88_rejects.

(** The tokens are the same with the optimised rules. *)
Theorem C88_optimised : forall E f s o o' tokens ind text out, ext_ok E -> recoding E f -> no_tables s ->
  optimize_returns s o -> optimize_returns (recode_syntax f s) o' ->
  tails_fail_at_end E s -> tails_fail_at_end E (recode_syntax f s) ->
  Forall real_char text -> Forall real_char (map f text) ->
  parse_returns E o text tokens ind None (tokens ++ out) ->
  exists out', parse_returns E o' (map f text) tokens ind None (tokens ++ out') /\
    Forall2 (recoded_token f text) out out'.
Proof.
  exact (fun E f s o o' tokens ind text out HE HR Hs Ho Ho' Ht Ht' Hr Hr' =>
    optimised_recode E HE f HR s Hs o o' tokens ind text Ho Ho' Ht Ht' Hr Hr' out).
Qed.
Print Assumptions C88_optimised.

(** All characters are alike to the readers of the examples but those of ASCII and white space. *)
Theorem C88_readers : forall f, (forall c d, f c = f d -> c = d) -> (forall c, (c < 128)%N -> f c = c) ->
  (forall c, is_ws (f c) = is_ws c) -> recoding std_ext f.
Proof. exact std_recoding. Qed.
Print Assumptions C88_readers.

(** A letter that is written as an escape keeps its value. *)
Theorem C88_escape_refuted : exists f s text r v, recoding std_ext f /\ no_tables s /\
  parse_returns std_ext s text [] indent_default None [(r, MString (tx "v") v)] /\
  parse_returns std_ext (recode_syntax f s) (map f text) [] indent_default None [(r, MString (tx "v") v)] /\
  map f v <> v.
Proof.
  exists exchange, (Syn [RText false (Some (tx "v")) 1] [tx "doc"]), (quote :: tx "\u00e5" ++ [quote]).
  do 2 eexists. split; [exact exchange_recoding|]. split; [apply no_tables_check; reflexivity|].
  split; [exists 10; vm_compute; reflexivity|]. split; [exists 10; vm_compute; reflexivity|].
  vm_compute. discriminate.
Qed.
Print Assumptions C88_escape_refuted.

(** A list of words behind the letter 229, ended by a string; and the error without the end. *)
Example C88_example : exists s text out out',
  ext_ok std_ext /\ recoding std_ext exchange /\ no_tables s /\
  parse_returns std_ext s text [] indent_default None out /\
  parse_returns std_ext (recode_syntax exchange s) (map exchange text) [] indent_default None out' /\
  map exchange text <> text /\
  map snd out = [MString (tx "w") (tx "b" ++ [1078%N]); MString (tx "w") (tx "c"); MString (tx "t") [229%N]] /\
  map snd out' = [MString (tx "w") (tx "b" ++ [229%N]); MString (tx "w") (tx "c"); MString (tx "t") [1078%N]] /\
  (exists l, parse_returns std_ext s [229%N] [] indent_default (Some (Rng 1 0, ExpectedSomething 2)) l) /\
  (exists l, parse_returns std_ext s (tx "c") [] indent_default (Some (Rng 0 0, ExpectedTag [229%N] 1)) l) /\
  (exists l, parse_returns std_ext (recode_syntax exchange s) (tx "c") [] indent_default
    (Some (Rng 0 0, ExpectedTag [1078%N] 1)) l).
Proof.
  exists (Syn [RSequence [RRepeat (RSequence [RTag [229%N] false false None 1; RUntilAny [229%N; quote] false (Some (tx "w")) 2] 3) false 4;
      RText false (Some (tx "t")) 5] 6] [tx "doc"]),
    (229%N :: tx "b" ++ 1078%N :: 229%N :: tx "c" ++ [quote; 229%N; quote]).
  do 2 eexists. split; [exact std_ext_ok|]. split; [exact exchange_recoding|].
  split; [apply no_tables_check; reflexivity|]. split; [exists 20; vm_compute; reflexivity|].
  split; [exists 20; vm_compute; reflexivity|]. split; [vm_compute; discriminate|].
  split; [reflexivity|]. split; [reflexivity|].
  split; [|split]; eexists; exists 20; vm_compute; reflexivity.
Qed.
