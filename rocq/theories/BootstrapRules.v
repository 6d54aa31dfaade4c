(** The built-in rules of the meta language, transcribed mechanically from
    src/bootstrap/rules.rs: every rule literal of that file, field by field. *)
From Coq Require Import Ascii String List NArith Bool Arith.
From Verif Require Import Base Ext Types ParseModel.
Import ListNotations.
Local Open Scope string_scope.
Local Open Scope list_scope.
Local Open Scope N_scope.

(** src/bootstrap/rules.rs:35-128. *)
Definition b_multi_line_comment_rule : rule :=
  RSequence
   [RTag (s2l "/*") false false None 2;
    RUntilAny (s2l "*/") true None 3;
    RRepeat
       (RSelect
         [RSequence
            [RTag (s2l "*/") true false None 7;
             RTag (s2l "*") false false None 8;
             RUntilAny (s2l "*/") true None 9] 6;
          RSequence
            [RNode (s2l "multi_line_comment") None None 11;
             RUntilAny (s2l "*/") true None 12] 10;
          RSequence
            [RTag (s2l "/") false false None 14;
             RUntilAny (s2l "*/") true None 15] 13] 5) true 4;
    RTag (s2l "*/") false false None 16] 1.

(** src/bootstrap/rules.rs:131-159. *)
Definition b_comment_rule : rule :=
  RSelect
   [RNode (s2l "multi_line_comment") None None 1002;
    RSequence
      [RTag (s2l "//") false false None 1004;
       RUntilAny [newline] true None 1005] 1003] 1001.

(** src/bootstrap/rules.rs:162-195. *)
Definition b_string_rule : rule :=
  RSequence
   [RTag (s2l "_") false false None 2002;
    RUntilAnyOrWs (s2l "[]{}():.!?""") false (Some (s2l "name")) 2003;
    RTag (s2l ":") false false None 2004;
    RWhitespace true 2005;
    RText true (Some (s2l "text")) 2006] 2001.

(** src/bootstrap/rules.rs:198-252. *)
Definition b_node_rule : rule :=
  RSequence
   [RNumber false (Some (s2l "id")) 3002;
    RWhitespace false 3003;
    RTag (s2l "_") true false None 3004;
    RTag (s2l ".") true false None 3005;
    RUntilAnyOrWs (s2l "[]{}():.!?""") false (Some (s2l "name")) 3006;
    RWhitespace true 3007;
    RTag (s2l "=") false false None 3008;
    RWhitespace true 3009;
    RNode (s2l "rule") (Some (s2l "rule")) None 3010] 3001.

(** src/bootstrap/rules.rs:255-282. *)
Definition b_set_rule : rule :=
  RSelect
   [RText false (Some (s2l "value")) 4002;
    RSequence
      [RTag (s2l "_") false false None 4004;
       RUntilAnyOrWs (s2l "[]{}():.!?""") false (Some (s2l "ref")) 4005] 4003] 4001.

(** src/bootstrap/rules.rs:285-312. *)
Definition b_set_opt_rule : rule :=
  RSelect
   [RText true (Some (s2l "value")) 5002;
    RSequence
      [RTag (s2l "_") false false None 5004;
       RUntilAnyOrWs (s2l "[]{}():.!?""") false (Some (s2l "ref")) 5005] 5003] 5001.

(** src/bootstrap/rules.rs:315-333. *)
Definition b_opt_rule : rule :=
  RSelect
   [RTag (s2l "?") false false (Some (s2l "optional")) 6002;
    RTag (s2l "!") false true (Some (s2l "optional")) 6003] 6001.

(** src/bootstrap/rules.rs:336-378. *)
Definition b_number_rule : rule :=
  RSequence
   [RTag (s2l ".$") false false None 7002;
    ROptional
       (RTag (s2l "_") false false (Some (s2l "underscore")) 7004) 7003;
    ROptional
       (RSequence
         [RTag (s2l ":") false false None 7006;
          RNode (s2l "set") (Some (s2l "property")) None 7007] 7005) 7004] 7001.

(** src/bootstrap/rules.rs:381-432. *)
Definition b_text_rule : rule :=
  RSequence
   [RTag (s2l ".t") false false None 8002;
    RSelect
      [RTag (s2l "?") false false (Some (s2l "allow_empty")) 8004;
       RTag (s2l "!") false true (Some (s2l "allow_empty")) 8005] 8003;
    ROptional
       (RSequence
         [RTag (s2l ":") false false None 8008;
          RNode (s2l "set") (Some (s2l "property")) None 8009] 8007) 8006] 8001.

(** src/bootstrap/rules.rs:435-480. *)
Definition b_reference_rule : rule :=
  RSequence
   [RTag (s2l "_") true false None 9002;
    RTag (s2l ".") true false None 9003;
    RUntilAnyOrWs (s2l "[]{}():.!?""") false (Some (s2l "name")) 9004;
    ROptional
       (RSequence
         [RTag (s2l ":") false false None 9007;
          RNode (s2l "set") (Some (s2l "property")) None 9008] 9006) 9005] 9001.

(** src/bootstrap/rules.rs:483-520. *)
Definition b_sequence_rule : rule :=
  RSequence
   [RTag (s2l "[") false false None 10002;
    RWhitespace true 10003;
    RSeparateBy
       (RNode (s2l "rule") (Some (s2l "rule")) None 10006)
       (RWhitespace false 10005) false true 10004;
    RTag (s2l "]") false false None 10007] 10001.

(** src/bootstrap/rules.rs:523-560. *)
Definition b_select_rule : rule :=
  RSequence
   [RTag (s2l "{") false false None 11002;
    RWhitespace true 11003;
    RSeparateBy
       (RNode (s2l "rule") (Some (s2l "rule")) None 11006)
       (RWhitespace false 11005) false true 11004;
    RTag (s2l "}") false false None 11007] 11001.

(** src/bootstrap/rules.rs:564-629. *)
Definition b_separated_by_rule : rule :=
  RSequence
   [RTag (s2l ".s") false false None 12002;
    RNode (s2l "opt") None None 12003;
    ROptional
       (RTag (s2l ".") false false (Some (s2l "allow_trail")) 12005) 12004;
    RTag (s2l "(") false false None 12006;
    RWhitespace true 12007;
    RNode (s2l "rule") (Some (s2l "by")) None 12008;
    RWhitespace false 12009;
    RNode (s2l "rule") (Some (s2l "rule")) None 12010;
    RWhitespace true 12011;
    RTag (s2l ")") false false None 12012] 12001.

(** src/bootstrap/rules.rs:632-683. *)
Definition b_tag_rule : rule :=
  RSequence
   [ROptional
       (RTag (s2l "!") false false (Some (s2l "not")) 13003) 13002;
    RNode (s2l "set") (Some (s2l "text")) None 13004;
    ROptional
       (RSequence
         [RTag (s2l ":") false false None 13007;
          ROptional
             (RTag (s2l "!") false false (Some (s2l "inverted")) 13009) 13008;
          RNode (s2l "set") (Some (s2l "property")) None 13010] 13006) 13005] 13001.

(** src/bootstrap/rules.rs:686-703. *)
Definition b_optional_rule : rule :=
  RSequence
   [RTag (s2l "?") false false None 14002;
    RNode (s2l "rule") (Some (s2l "rule")) None 14003] 14001.

(** src/bootstrap/rules.rs:706-723. *)
Definition b_not_rule : rule :=
  RSequence
   [RTag (s2l "!") false false None 15002;
    RNode (s2l "rule") (Some (s2l "rule")) None 15003] 15001.

(** src/bootstrap/rules.rs:726-743. *)
Definition b_whitespace_rule : rule :=
  RSequence
   [RTag (s2l ".w") false false None 16003;
    RNode (s2l "opt") None None 16004] 16002.

(** src/bootstrap/rules.rs:746-790. *)
Definition b_until_any_or_whitespace_rule : rule :=
  RSequence
   [RTag (s2l "..") false false None 17002;
    RNode (s2l "set_opt") (Some (s2l "any_characters")) None 17003;
    RNode (s2l "opt") None None 17004;
    ROptional
       (RSequence
         [RTag (s2l ":") false false None 17007;
          RNode (s2l "set") (Some (s2l "property")) None 17008] 17006) 17005] 17001.

(** src/bootstrap/rules.rs:793-837. *)
Definition b_until_any_rule : rule :=
  RSequence
   [RTag (s2l "...") false false None 18002;
    RNode (s2l "set_opt") (Some (s2l "any_characters")) None 18003;
    RNode (s2l "opt") None None 18004;
    ROptional
       (RSequence
         [RTag (s2l ":") false false None 18007;
          RNode (s2l "set") (Some (s2l "property")) None 18008] 18006) 18005] 18001.

(** src/bootstrap/rules.rs:840-877. *)
Definition b_repeat_rule : rule :=
  RSequence
   [RTag (s2l ".r") false false None 19002;
    RNode (s2l "opt") None None 19003;
    RTag (s2l "(") false false None 19004;
    RNode (s2l "rule") (Some (s2l "rule")) None 19005;
    RTag (s2l ")") false false None 19006] 19001.

(** src/bootstrap/rules.rs:880-929. *)
Definition b_lines_rule : rule :=
  RSequence
   [RTag (s2l ".l") false false None 20002;
    ROptional
       (RTag (s2l "+") false false (Some (s2l "indent")) 20004) 20003;
    RTag (s2l "(") false false None 20005;
    RWhitespace true 20006;
    RNode (s2l "rule") (Some (s2l "rule")) None 20007;
    RWhitespace true 20008;
    RTag (s2l ")") false false None 20009] 20001.

(** src/bootstrap/rules.rs:948-1036. *)
Definition b_rule_rule : rule :=
  RSelect
   [RNode (s2l "whitespace") (Some (s2l "whitespace")) None 21002;
    RNode (s2l "until_any_or_whitespace") (Some (s2l "until_any_or_whitespace")) None 21003;
    RNode (s2l "until_any") (Some (s2l "until_any")) None 21004;
    RNode (s2l "lines") (Some (s2l "lines")) None 21005;
    RNode (s2l "repeat") (Some (s2l "repeat")) None 21006;
    RNode (s2l "number") (Some (s2l "number")) None 21007;
    RNode (s2l "text") (Some (s2l "text")) None 21008;
    RNode (s2l "reference") (Some (s2l "reference")) None 21009;
    RNode (s2l "sequence") (Some (s2l "sequence")) None 21010;
    RNode (s2l "select") (Some (s2l "select")) None 21011;
    RNode (s2l "separated_by") (Some (s2l "separated_by")) None 21012;
    RNode (s2l "tag") (Some (s2l "tag")) None 21013;
    RNode (s2l "optional") (Some (s2l "optional")) None 21013;
    RNode (s2l "not") (Some (s2l "not")) None 21014] 21001.

(** src/bootstrap/rules.rs:1045-1113. *)
Definition b_document_rule : rule :=
  RSequence
   [RLines
       (RSequence
         [RWhitespace true 22004;
          RSelect
            [RNode (s2l "string") (Some (s2l "string")) None 22006;
             RNode (s2l "comment") None None 22007] 22005] 22003) false 22002;
    RLines
       (RSequence
         [RWhitespace true 22010;
          RSelect
            [RNode (s2l "node") (Some (s2l "node")) None 22012;
             RNode (s2l "comment") None None 22013] 22011] 22009) false 22008;
    RWhitespace true 22014] 22001.

(** src/bootstrap/rules.rs:1115-1141, the table before references are resolved. *)
Definition bootstrap_table : list (str * rule) :=
  [(s2l "multi_line_comment", b_multi_line_comment_rule);
   (s2l "comment", b_comment_rule);
   (s2l "string", b_string_rule);
   (s2l "node", b_node_rule);
   (s2l "set", b_set_rule);
   (s2l "set_opt", b_set_opt_rule);
   (s2l "opt", b_opt_rule);
   (s2l "number", b_number_rule);
   (s2l "text", b_text_rule);
   (s2l "reference", b_reference_rule);
   (s2l "sequence", b_sequence_rule);
   (s2l "select", b_select_rule);
   (s2l "separated_by", b_separated_by_rule);
   (s2l "tag", b_tag_rule);
   (s2l "optional", b_optional_rule);
   (s2l "not", b_not_rule);
   (s2l "whitespace", b_whitespace_rule);
   (s2l "until_any_or_whitespace", b_until_any_or_whitespace_rule);
   (s2l "until_any", b_until_any_rule);
   (s2l "repeat", b_repeat_rule);
   (s2l "lines", b_lines_rule);
   (s2l "rule", b_rule_rule);
   (s2l "document", b_document_rule)].

(** src/bootstrap/rules.rs:23-1144 [rules]. *)
Definition bootstrap_rules : syntax :=
  update_refs
    (fold_left (fun s nr => syntax_push s (fst nr) (snd nr)) bootstrap_table syntax_new).
