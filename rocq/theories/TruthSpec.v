(** What the errors of parsing say about the text. *)
From Coq Require Import List NArith Bool Arith.
From Verif Require Import Base Ext Types PegSpec DataSpec.
Import ListNotations.

(** The rules that are used from the start rule on. *)
Inductive used (s : syntax) : rule -> Prop :=
| used_start : forall r, start_rule s r -> used s r
| used_part : forall a b, used s a -> In b (children a) -> used s b
| used_reference : forall name property i id r,
    used s (RNode name property (Some i) id) -> nth_error (s_rules s) i = Some r -> used s r.

(** The next byte of the text has no entry in the table. *)
Definition not_in_table (table : list nat) (s : str) : Prop :=
  match s with
  | [] => True
  | c :: _ => nth_error table (N.to_nat (utf8_first c)) = Some 255
  end.

Section Truth.
  Variable E : ext.
  Variable refs : list rule.
  Variable text : str.

  (** [explains r range error]: the error comes from the rule, which has the debug id of the
      error, and what it says about the text at the place is so. *)
  Inductive explains : rule -> range -> parse_error -> Prop :=
  | says_whitespace : forall id p,
      longest white (skipn p text) 0 ->
      explains (RWhitespace false id) (Rng p 0) (ExpectedWhitespace id)
  | says_tag : forall t inverted property id p,
      ~ starts_with (skipn p text) t ->
      explains (RTag t false inverted property id) (Rng p 0) (ExpectedTag t id)
  | says_no_tag : forall t inverted property id p,
      starts_with (skipn p text) t ->
      explains (RTag t true inverted property id) (Rng p (length t)) (DidNotExpectTag t id)
  | says_until : forall any property id p,
      longest (fun c => ~ In c any) (skipn p text) 0 ->
      explains (RUntilAny any false property id) (Rng p 0) (ExpectedSomething id)
  | says_until_ws : forall any property id p,
      longest (fun c => ~ white c /\ ~ In c any) (skipn p text) 0 ->
      explains (RUntilAnyOrWs any false property id) (Rng p 0) (ExpectedSomething id)
  | says_text : forall allow_empty property id p,
      x_string E (skipn p text) = None ->
      explains (RText allow_empty property id) (Rng p 0) (ExpectedText id)
  | says_empty : forall property id p,
      x_string E (skipn p text) = Some 2 ->
      explains (RText false property id) (Rng p 2) (EmptyTextNotAllowed id)
  | says_bad_text : forall allow_empty property id p n r e,
      x_string E (skipn p text) = Some n ->
      x_parse_string E (firstn n (skipn p text)) = inr (r, e) ->
      explains (RText allow_empty property id) (Rng (p + r_off r) (r_len r)) (ParseStringError e id)
  | says_number : forall underscore property id p,
      x_number E underscore (skipn p text) = None ->
      explains (RNumber underscore property id) (Rng p 0) (ExpectedNumber id)
  | says_bad_number : forall underscore property id p n,
      x_number E underscore (skipn p text) = Some n ->
      x_parse_number E underscore (firstn n (skipn p text)) = None ->
      explains (RNumber underscore property id) (Rng p n) (ParseNumberError id)
  | says_alternatives : forall table args id p,
      not_in_table table (skipn p text) ->
      explains (RFastSelect table args false id) (Rng p 0) (ExpectedSomething id)
  | says_end : forall table args id p,
      skipn p text = [] ->
      explains (RFastSelect table args true id) (Rng p 0) (ExpectedSomething id)
  (** Something other than white space stands on the same line. *)
  | says_new_line : forall r indented id p, let s := skipn p text in
      same_line s -> ~ Forall white s ->
      explains (RLines r indented id)
        (Rng (p + r_off (x_lines_err E s)) (r_len (x_lines_err E s))) (ExpectedNewLine id)
  (** The negated rule accepts the text of the range. *)
  | says_not : forall r id p n ind out ind' tr,
      reads E refs r ind p (skipn p text) (Yes n out) ind' tr ->
      explains (RNot r id) (Rng p n) (DidNotExpectTag (firstn n (skipn p text)) id)
  | says_no_alternatives : forall id p,
      explains (RSelect [] id) (Rng p 0) (InvalidRule SelectEmpty id)
  | says_undefined : forall name property id p,
      explains (RNode name property None id) (Rng p 0) (InvalidRule NodeNotUpdated id).
End Truth.
