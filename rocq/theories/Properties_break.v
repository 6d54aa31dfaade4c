(** C87: line breaks of Unix and of Windows. *)
From Coq Require Import Ascii String List NArith Bool Arith Lia.
From Verif Require Import Base Ext Types ParseModel BootstrapRules PegSpec DataSpec ApiSpec OptSpec SyntaxSpec SurfaceSpec ExtProofs Examples
  Assets SurfaceProofs FasterPublic BootProofs SyntaxProofs BreakSpec BreakProofs BreakProofs3 BreakProofs4 ParseProofs.
Import ListNotations.
Local Open Scope string_scope.
Local Open Scope list_scope.
Local Open Scope nat_scope.

(** Rules that do not tell line breaks apart accept both texts or none, with the same data but
    for line breaks inside of strings. *)
Theorem C87_parse : forall E s tokens ind text text', ext_ok E -> breaks_ok E -> breaks_safe s ->
  same_breaks text text' ->
  (forall out, parse_returns E s text tokens ind None (tokens ++ out) ->
    exists out', parse_returns E s text' tokens ind None (tokens ++ out') /\
      Forall2 (same_token text) out out') /\
  ((exists e left_, parse_returns E s text tokens ind (Some e) left_) <->
   exists e left_, parse_returns E s text' tokens ind (Some e) left_).
Proof.
  exact (fun E s tokens ind text text' HE HB Hs H =>
    let P := parse_breaks E HE HB s Hs tokens ind text text' H in
    conj (proj1 P) (conj (proj2 P) (proj2 (parse_breaks E HE HB s Hs tokens ind text' text (sb_sym _ _ H))))).
Qed.
Print Assumptions C87_parse.

(** The optimised rules do not tell line breaks apart either. *)
Theorem C87_optimised : forall s s', breaks_safe s -> optimize_returns s s' -> breaks_safe s'.
Proof. exact optimised_safe. Qed.
Print Assumptions C87_optimised.

(** A text of the meta language gives the same rules with both kinds of line breaks, if none is
    inside of a string. *)
Theorem C87_meta : forall E text text' data, ext_ok E -> breaks_ok E -> same_breaks text text' ->
  Forall real_char text -> text_data E text data ->
  (forall r n v, In (r, MString n v) data -> ~ In newline (under text r)) ->
  read_alike E text text'.
Proof. exact (fun E text text' data HE HB => meta_breaks E HE HB text text' data). Qed.
Print Assumptions C87_meta.

(** Without the conditions: [..."\n"!:"line"] stores the carriage return, *)
Theorem C87_line_refuted : exists s text text', same_breaks text text' /\
  (exists r r', parse_returns std_ext s text [] indent_default None [(r, MString (tx "line") (tx "a"))] /\
    parse_returns std_ext s text' [] indent_default None [(r', MString (tx "line") (tx "a" ++ [carriage]))]).
Proof.
  exists (Syn [RSequence [RUntilAny [newline] false (Some (tx "line")) 1; RWhitespace false 2] 3] [tx "doc"]),
    (tx "a" ++ [newline]), (tx "a" ++ [carriage; newline]).
  split; [repeat constructor|]. do 2 eexists. split; exists 10; vm_compute; reflexivity.
Qed.
Print Assumptions C87_line_refuted.

(** and the token ["\n"] is not found in the line breaks of Windows. *)
Theorem C87_tag_refuted : exists s text text' out e left_, same_breaks text text' /\
  parse_returns std_ext s text [] indent_default None out /\
  parse_returns std_ext s text' [] indent_default (Some e) left_.
Proof.
  exists (Syn [RSequence [RTag (tx "a") false false None 1; RTag [newline] false false None 2] 3] [tx "doc"]),
    (tx "a" ++ [newline]), (tx "a" ++ [carriage; newline]).
  do 3 eexists. split; [repeat constructor|]. split; exists 10; vm_compute; reflexivity.
Qed.
Print Assumptions C87_tag_refuted.

(** The reported errors may differ, although neither text is accepted: what is read up to the line
    break includes the carriage return, and that makes an error deeper. *)
Theorem C87_message_refuted : exists s text text' left_ left_', same_breaks text text' /\ breaks_safe s /\
  parse_returns std_ext s text [] indent_default (Some (Rng 0 0, ExpectedTag (tx "y") 4)) left_ /\
  parse_returns std_ext s text' [] indent_default (Some (Rng 1 0, ExpectedTag (tx "x") 2)) left_'.
Proof.
  exists (Syn [RSelect [RSequence [RUntilAny [newline] true None 1; RTag (tx "x") false false None 2] 3;
    RTag (tx "y") false false None 4] 5] [tx "doc"]), [newline], [carriage; newline].
  do 2 eexists. split; [repeat constructor|]. split; [apply breaks_check; reflexivity|].
  split; exists 10; vm_compute; reflexivity.
Qed.
Print Assumptions C87_message_refuted.

(** A byte order mark, which Windows programs put in front of a text, is not skipped. *)
Theorem C87_mark_refuted : exists text data, Forall real_char (65279%N :: text) /\
  text_data std_ext text data /\ ~ exists data', text_data std_ext (65279%N :: text) data'.
Proof.
  exists (tx "1 doc = .w?"). eexists.
  assert (Hr : Forall real_char (65279%N :: tx "1 doc = .w?")) by (apply real_check; reflexivity).
  split; [exact Hr|]. split.
  - exists boot_computed. split; [exists 100; exact boot_optimized|]. exists 1000. vm_compute. reflexivity.
  - intros (data' & bo & Hb & Hp). assert (Hb' : optimize_returns bootstrap_rules boot_computed) by (exists 100; exact boot_optimized).
    rewrite (OptProofs2.optimize_returns_unique _ _ _ Hb Hb') in Hp.
    assert (Hq : exists e l, parse_returns std_ext boot_computed (65279%N :: tx "1 doc = .w?") [] indent_default (Some e) l)
      by (do 2 eexists; exists 1000; vm_compute; reflexivity).
    destruct Hq as (e & l & Hq). destruct (ParseProofs.parse_returns_unique _ _ _ _ _ _ _ _ _ Hp Hq) as [Hx _]. discriminate.
Qed.
Print Assumptions C87_mark_refuted.

(** The syntax of the meta language itself, as it is checked out on Windows. The rules of the
    meta language do not tell line breaks apart. *)
Example C87_example :
  ext_ok std_ext /\ breaks_ok std_ext /\ breaks_safe bootstrap_rules /\
  same_breaks self_syntax_text (windows self_syntax_text) /\ windows self_syntax_text <> self_syntax_text /\
  read_alike std_ext self_syntax_text (windows self_syntax_text) /\
  (exists s text out, breaks_safe s /\ In newline text /\
     parse_returns std_ext s text [] indent_default None out /\
     exists out', parse_returns std_ext s (windows text) [] indent_default None out' /\
       map snd out = [MString (tx "v") (tx "a" ++ newline :: tx "b")] /\
       map snd out' = [MString (tx "v") (tx "a" ++ carriage :: newline :: tx "b")]).
Proof.
  split; [exact std_ext_ok|]. split; [exact std_breaks|]. split; [exact bootstrap_breaks|].
  split; [apply windows_breaks|]. split; [intros H; apply (f_equal (@length _)) in H; vm_compute in H; discriminate|].
  split.
  - apply (C87_meta std_ext self_syntax_text _ self_data std_ext_ok std_breaks (windows_breaks _) self_real).
    + exists boot_computed. split; [exists 100; exact boot_optimized|exists 1000; exact self_data_boot].
    + apply one_line_check. vm_compute. reflexivity.
  - exists (Syn [RText false (Some (tx "v")) 1] [tx "doc"]), (quote :: tx "a" ++ newline :: tx "b" ++ [quote]).
    eexists. split; [apply breaks_check; reflexivity|]. split; [cbn; tauto|].
    split; [exists 10; vm_compute; reflexivity|]. eexists. split; [exists 10; vm_compute; reflexivity|].
    split; reflexivity.
Qed.
