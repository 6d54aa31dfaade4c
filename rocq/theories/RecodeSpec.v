(** Texts and rules in other characters. *)
From Coq Require Import List NArith Bool Arith.
From Verif Require Import Base Ext Types PegSpec DataSpec.
Import ListNotations.

(** The rule with other characters in its tokens. The names of tokens stay. *)
Fixpoint recode_rule (f : char -> char) (r : rule) : rule :=
  match r with
  | RWhitespace _ _ | RText _ _ _ | RNumber _ _ _ | RNode _ _ _ _ => r
  | RTag text not inverted property id => RTag (map f text) not inverted property id
  | RUntilAny any optional property id => RUntilAny (map f any) optional property id
  | RUntilAnyOrWs any optional property id => RUntilAnyOrWs (map f any) optional property id
  | RSelect args id => RSelect (map (recode_rule f) args) id
  | RFastSelect table args tail id => RFastSelect table (map (recode_rule f) args) tail id
  | RSequence args id => RSequence (map (recode_rule f) args) id
  | RSeparateBy r by_ optional trail id =>
    RSeparateBy (recode_rule f r) (recode_rule f by_) optional trail id
  | RRepeat r optional id => RRepeat (recode_rule f r) optional id
  | RLines r indented id => RLines (recode_rule f r) indented id
  | ROptional r id => ROptional (recode_rule f r) id
  | RNot r id => RNot (recode_rule f r) id
  end.

Definition recode_syntax (f : char -> char) (s : syntax) : syntax :=
  Syn (map (recode_rule f) (s_rules s)) (s_names s).

(** The error with other characters in the token it names. *)
Definition recode_error (f : char -> char) (e : perr) : perr :=
  match e with
  | (r, ExpectedTag text id) => (r, ExpectedTag (map f text) id)
  | (r, DidNotExpectTag text id) => (r, DidNotExpectTag (map f text) id)
  | _ => e
  end.

(** No rule was optimised. *)
Definition no_tables (s : syntax) : Prop :=
  forall table args tail id, ~ occurs s (RFastSelect table args tail id).

(** The same token of the recoded text: the same place, name and value. A string is recoded, if it
    stands in the text as it is or without escapes. *)
Inductive recoded_token (f : char -> char) (text : str) : tok -> tok -> Prop :=
| rt_start : forall r n, recoded_token f text (r, StartNode n) (r, StartNode n)
| rt_end : forall r n, recoded_token f text (r, EndNode n) (r, EndNode n)
| rt_bool : forall r n b, recoded_token f text (r, MBool n b) (r, MBool n b)
| rt_number : forall r n x, recoded_token f text (r, MF64 n x) (r, MF64 n x)
| rt_string : forall r n v v',
    (under text r = v \/ ~ In backslash (under text r) -> v' = map f v) ->
    recoded_token f text (r, MString n v) (r, MString n v').

(** Other characters for all characters: different ones for different ones. White space stays
    white space, and the characters of lines and indentation stay the same. The readers of texts
    and numbers see the same. *)
Record recoding (E : ext) (f : char -> char) : Prop := {
  rc_different : forall c d, f c = f d -> c = d;
  rc_white : forall c, white (f c) <-> white c;
  rc_newline : f newline = newline;
  rc_space : f space = space;
  rc_tab : f tab = tab;
  rc_number : forall u s, x_number E u (map f s) = x_number E u s;
  rc_value : forall u s n, x_number E u s = Some n ->
    x_parse_number E u (map f (firstn n s)) = x_parse_number E u (firstn n s);
  rc_string : forall s, x_string E (map f s) = x_string E s;
  rc_literal : forall s n, x_string E s = Some n ->
    match x_parse_string E (firstn n s), x_parse_string E (map f (firstn n s)) with
    | inl v, inl v' => v = firstn n s \/ ~ In backslash (firstn n s) -> v' = map f v
    | inr e, inr e' => e' = e
    | _, _ => False
    end;
  rc_lines : forall s, x_lines_err E (map f s) = x_lines_err E s
}.
