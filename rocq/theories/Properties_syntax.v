(** C27, C30, C31, C33, C46: reading a syntax from a text. *)
From Coq Require Import Ascii String List NArith Bool Arith.
From Verif Require Import Base Ext Types ParseModel OptimizeModel BootstrapRules Assets LibModel
  DataSpec ApiSpec OptSpec IdSpec TotalSpec TotalCheck ConvertSpec SyntaxSpec SyntaxProofs SyntaxProofs2 OriginSpec OriginProofs
  OriginProofs2 Examples.
Import ListNotations.
Local Open Scope string_scope.
Local Open Scope list_scope.
Local Open Scope nat_scope.

(** ** C27: undefined strings are reported. *)

(** [doc = ["a" _missing "b"]] refers to a string that is not defined, and is read as
    [doc = ["a" "b"]]. *)
Theorem C27_undefined_string_refuted : exists text name tokens s,
  text_data std_ext text tokens /\
  (exists r, In (r, MString (tx "ref") name) tokens) /\
  (forall r, ~ In (r, StartNode (tx "string")) tokens) /\
  syntax_returns std_ext text (inl s) /\
  parse_returns std_ext s (tx "ab") [] indent_default None [].
Proof.
  exists (tx "1 doc = [""a"" _missing ""b""]"), (tx "missing").
  eexists _, _. split; [exists boot_computed; split; [exists 100; exact boot_optimized|exists 300; vm_compute; reflexivity]|].
  split; [eexists; cbn [In]; repeat first [left; reflexivity|right]|].
  split; [intros r; cbn [In]; intros H; repeat destruct H as [H|H]; try discriminate H; exact H|].
  split; [exists 300; vm_compute; reflexivity|]. exists 50. vm_compute. reflexivity.
Qed.
Print Assumptions C27_undefined_string_refuted.

(** ** C30: reading a syntax terminates up to optimisation. *)

Theorem C30_reading_returns : forall E, ext_ok E -> forall text, columns_fit indent_default text ->
  (forall tokens, text_data E text tokens -> ids_small tokens) ->
  (exists result, rules_read E text result) /\ ~ reading_panics E text.
Proof. exact reading_returns. Qed.
Print Assumptions C30_reading_returns.

(** With the optimisation, if no rule can start with itself. *)
Theorem C30_syntax_returns : forall E, ext_ok E -> forall text, columns_fit indent_default text ->
  (forall tokens, text_data E text tokens -> ids_small tokens) ->
  (forall s, rules_read E text (inl s) -> tags_real s /\ no_left_recursion (s_rules s)) ->
  exists result, syntax_returns E text result.
Proof. exact syntax_returns_tame. Qed.
Print Assumptions C30_syntax_returns.

Definition C30_text : str := tx "3 doc = [.w? {.$ doc}]".

Example C30_example : columns_fit indent_default C30_text /\
  (exists tokens, text_data std_ext C30_text tokens /\ ids_small tokens) /\
  exists s, rules_read std_ext C30_text (inl s) /\ length (s_rules s) = 1.
Proof.
  split; [apply columns_fitb_spec; reflexivity|]. split.
  { eexists. split; [exists boot_computed; split; [exists 100; exact boot_optimized|exists 300; vm_compute; reflexivity]|].
    intros k [->|(r & x & Hin & ->)]; [vm_compute; discriminate|].
    cbn in Hin. repeat destruct Hin as [Hin|Hin]; try discriminate Hin; try contradiction.
    injection Hin as <- <-. vm_compute. discriminate. }
  eexists. split; [exists 300; vm_compute; reflexivity|reflexivity].
Qed.

(** A number of a node that is too large makes [syntax] panic. *)
Theorem C30_large_number_refuted : exists text, columns_fit indent_default text /\
  syntax_panics std_ext text.
Proof.
  exists (tx "18446744073709551615 doc = ""a""").
  split; [apply columns_fitb_spec; reflexivity|]. exists 300. vm_compute. reflexivity.
Qed.
Print Assumptions C30_large_number_refuted.

(** A rule that starts with itself makes [syntax] loop forever:
    [a = [a "x"]  doc = {"b" a}]. *)
Theorem C30_left_recursion_refuted : exists text, columns_fit indent_default text /\
  syntax_diverges std_ext text.
Proof.
  exact (ex_intro _ hanging_text (conj (columns_fitb_spec indent_default hanging_text eq_refl) hanging_syntax)).
Qed.
Print Assumptions C30_left_recursion_refuted.

(** ** C31: the self syntax describes exactly the built-in language. *)

Theorem C31_self_syntax : exists s boot,
  syntax_returns std_ext self_syntax_text (inl s) /\ optimize_returns bootstrap_rules boot /\
  s_names s = s_names boot /\ parse_alike s boot.
Proof. exact self_alike. Qed.
Print Assumptions C31_self_syntax.

Theorem C31_self_syntax_unoptimized : exists s,
  rules_read std_ext self_syntax_text (inl s) /\
  s_names s = s_names bootstrap_rules /\ parse_alike s bootstrap_rules.
Proof. exact self_unoptimized_alike. Qed.
Print Assumptions C31_self_syntax_unoptimized.

(** Both accept and reject the same; here one text of each kind. *)
Example C31_example : exists tokens e tokens',
  parse_returns std_ext bootstrap_rules (tx "1 a = .w!") [] indent_default None tokens /\
  length tokens = 9 /\
  parse_returns std_ext bootstrap_rules (tx "1 a = .w*") [] indent_default (Some e) tokens'.
Proof.
  do 3 eexists. split; [exists 200; vm_compute; reflexivity|]. split; [reflexivity|].
  exists 200. vm_compute. reflexivity.
Qed.

(** ** C33: separated lists without the dot forbid trailing separators. *)

(** [.s!("," .$:"n")] accepts ["1,2,"]. *)
Theorem C33_no_trailing_refuted : exists text s tokens,
  text = tx "1 doc = .s!("","" .$:""n"")" /\
  syntax_returns std_ext text (inl s) /\
  parse_returns std_ext s (tx "1,2,") [] indent_default None tokens.
Proof.
  do 3 eexists. split; [reflexivity|]. split; [exists 300; vm_compute; reflexivity|].
  exists 50. vm_compute. reflexivity.
Qed.
Print Assumptions C33_no_trailing_refuted.

(** No text in the meta language yields a list that forbids a trailing separator. *)
Theorem C33_always_trailing : forall E, ext_ok E -> forall text s, syntax_returns E text (inl s) ->
  forall r by_ optional trail id, occurs s (RSeparateBy r by_ optional trail id) -> trail = true.
Proof. intros E HE text s. exact (always_trailing E text s HE). Qed.
Print Assumptions C33_always_trailing.

Example C33_example : exists s r by_ id,
  syntax_returns std_ext (tx "1 doc = .s!("","" .$:""n"")") (inl s) /\
  occurs s (RSeparateBy r by_ false true id).
Proof.
  do 4 eexists. split; [exists 300; vm_compute; reflexivity|].
  eexists. split; [left; reflexivity|]. apply occurs_here.
Qed.

(** ** C46: a syntax contains nothing that was not written. *)

(** The names of the rules, the texts and properties inside of them and the flags that
    differ from the defaults are tokens read from the text. *)
Theorem C46_syntax_origin : forall E text s, syntax_returns E text (inl s) ->
  exists tokens, text_data E text tokens /\ Forall (says_string tokens (tx "name")) (s_names s) /\
  forall x, occurs s x -> fast_select x \/ comes_from tokens x.
Proof. exact syntax_origin. Qed.
Print Assumptions C46_syntax_origin.

(** In a converted syntax, before optimisation, whatever the data. *)
Theorem C46_convert_origin : forall data ignored s ignored',
  convert_returns data ignored (Some s) ignored' ->
  Forall (says_string data (tx "name")) (s_names s) /\ forall x, occurs s x -> comes_from data x.
Proof. exact convert_origin. Qed.
Print Assumptions C46_convert_origin.

Example C46_example : exists s tokens id,
  syntax_returns std_ext (tx "1 doc = [""a"":!""no"" ?doc]") (inl s) /\
  occurs s (RTag (tx "a") false true (Some (tx "no")) id) /\
  text_data std_ext (tx "1 doc = [""a"":!""no"" ?doc]") tokens /\
  comes_from tokens (RTag (tx "a") false true (Some (tx "no")) id) /\
  ~ comes_from tokens (RTag (tx "a") true true (Some (tx "no")) id).
Proof.
  do 3 eexists. split; [exists 300; vm_compute; reflexivity|]. split.
  { eexists. split; [left; reflexivity|]. eapply occurs_below; [left; reflexivity|]. apply occurs_here. }
  split.
  { eexists. split; [exists 100; vm_compute; reflexivity|exists 300; vm_compute; reflexivity]. }
  split.
  - cbn [comes_from]. split; [left; eexists; cbn; repeat first [left; reflexivity|right]|].
    split; [left; reflexivity|]. split; [right; eexists; cbn; repeat first [left; reflexivity|right]|].
    intros v Hv. injection Hv as <-. left. eexists. cbn. repeat first [left; reflexivity|right].
  - intros (_ & [H|(r & H)] & _); [discriminate|]. vm_compute in H.
    repeat destruct H as [H|H]; try discriminate H. exact H.
Qed.
