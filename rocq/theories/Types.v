(** Data types of the library. *)
From Coq Require Import Ascii String List NArith Bool Arith.
From Verif Require Import Base Ext.
Import ListNotations.

(** src/lib.rs:172-183 [MetaData]. [Arc<String>] is a string. *)
Inductive metadata :=
| StartNode (name : str)
| EndNode (name : str)
| MBool (name : str) (val : bool)
| MF64 (name : str) (val : f64)
| MString (name : str) (val : str).

(** [Range<MetaData>]. *)
Definition tok := ranged metadata.

(** src/lib.rs:150 [DebugId] is [usize]; here [N]. *)
Definition debug_id := N.
Bind Scope N_scope with debug_id.

(** src/parse_error.rs:10-39 [ParseError]. Simplifications: [ParseNumberError] has no
    payload, the message of [InvalidRule] is an enumeration of the two messages used. *)
Inductive invalid_msg := SelectEmpty | NodeNotUpdated.

Inductive parse_error :=
| ExpectedWhitespace (id : debug_id)
| ExpectedNewLine (id : debug_id)
| ExpectedSomething (id : debug_id)
| ExpectedNumber (id : debug_id)
| ParseNumberError (id : debug_id)
| ExpectedText (id : debug_id)
| EmptyTextNotAllowed (id : debug_id)
| ParseStringError (e : string_error) (id : debug_id)
| ExpectedTag (text : str) (id : debug_id)
| DidNotExpectTag (text : str) (id : debug_id)
| InvalidRule (msg : invalid_msg) (id : debug_id)
| NoRules
| ExpectedEnd
| Conversion (msg : str).

(** [Range<ParseError>]. *)
Definition perr := ranged parse_error.

(** src/meta_rules/rule.rs:29-63 [Rule] with the structs of the other files of
    src/meta_rules inlined: whitespace.rs:11-16, tag.rs:17-28, until_any.rs:17-26,
    until_any_or_whitespace.rs:17-26, text.rs:17-24, number.rs:17-24, select.rs:19-24,
    fast_select.rs:20-30, sequence.rs:19-24, separate_by.rs:20-31, repeat.rs:20-27,
    lines.rs:20-28, node.rs:21-30, optional.rs:19-24, not.rs:17-22.
    The table of [FastSelect] is a list (256 entries when well formed). *)
Inductive rule :=
| RWhitespace (optional : bool) (id : debug_id)
| RTag (text : str) (not inverted : bool) (property : option str) (id : debug_id)
| RUntilAny (any : str) (optional : bool) (property : option str) (id : debug_id)
| RUntilAnyOrWs (any : str) (optional : bool) (property : option str) (id : debug_id)
| RText (allow_empty : bool) (property : option str) (id : debug_id)
| RNumber (underscore : bool) (property : option str) (id : debug_id)
| RSelect (args : list rule) (id : debug_id)
| RFastSelect (table : list nat) (args : list rule) (tail : bool) (id : debug_id)
| RSequence (args : list rule) (id : debug_id)
| RSeparateBy (r by_ : rule) (optional allow_trail : bool) (id : debug_id)
| RRepeat (r : rule) (optional : bool) (id : debug_id)
| RLines (r : rule) (indent : bool) (id : debug_id)
| RNode (name : str) (property : option str) (index : option nat) (id : debug_id)
| ROptional (r : rule) (id : debug_id)
| RNot (r : rule) (id : debug_id).

(** src/lib.rs:187-192 [Syntax]. *)
Record syntax := Syn { s_rules : list rule; s_names : list str }.

(** src/lib.rs:196-201 [Syntax::new]. *)
Definition syntax_new : syntax := Syn [] [].

(** src/lib.rs:204-207 [Syntax::push]. *)
Definition syntax_push (s : syntax) (name : str) (r : rule) : syntax :=
  Syn (s_rules s ++ [r]) (s_names s ++ [name]).

(** src/meta_rules/indent_settings.rs:3-10 [IndentSettings]. *)
Record indent := Ind { i_indent : N; i_align_first : bool; i_tab_spaces : N }.

(** src/meta_rules/indent_settings.rs:12-20. *)
Definition indent_default : indent := Ind 0 true 4.

Definition set_indent (i : indent) (n : N) : indent :=
  Ind n (i_align_first i) (i_tab_spaces i).
