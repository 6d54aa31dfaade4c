(** Syntaxes read as plain context-free grammars: the order of the alternatives, the greed of
    repetitions and negative lookahead play no role here. And when that reading is right. *)
From Coq Require Import List NArith Bool Arith.
From Verif Require Import Base Ext Types PegSpec DataSpec ShapeSpec TotalSpec.
Import ListNotations.

Section Grammar.
  Variable E : ext.
  Variable refs : list rule.

  (** [generates r x ms]: the rule generates the text [x] with the data [ms]. *)
  Inductive generates : rule -> str -> list metadata -> Prop :=
  | gen_whitespace : forall optional id x,
      Forall white x -> optional = true \/ x <> [] ->
      generates (RWhitespace optional id) x []
  | gen_tag : forall text inverted property id,
      generates (RTag text false inverted property id) text (item_of property (fun n => MBool n (negb inverted)))
  | gen_not_tag : forall text inverted property id,
      generates (RTag text true inverted property id) [] (item_of property (fun n => MBool n (negb inverted)))
  | gen_until : forall any optional property id x,
      Forall (fun c => ~ In c any) x -> optional = true \/ x <> [] ->
      generates (RUntilAny any optional property id) x (item_of property (fun n => MString n x))
  | gen_until_ws : forall any optional property id x,
      Forall (fun c => ~ white c /\ ~ In c any) x -> optional = true \/ x <> [] ->
      generates (RUntilAnyOrWs any optional property id) x (item_of property (fun n => MString n x))
  | gen_text : forall allow_empty property id x rest val,
      x_string E (x ++ rest) = Some (length x) -> allow_empty = true \/ length x <> 2 ->
      x_parse_string E x = inl val ->
      generates (RText allow_empty property id) x (item_of property (fun n => MString n val))
  | gen_number : forall underscore property id x rest val,
      x_number E underscore (x ++ rest) = Some (length x) ->
      x_parse_number E underscore x = Some val ->
      generates (RNumber underscore property id) x (item_of property (fun n => MF64 n val))
  | gen_sequence : forall args id x ms,
      generates_all args x ms -> generates (RSequence args id) x ms
  (** Any of the alternatives. *)
  | gen_select : forall args id r x ms,
      In r args -> generates r x ms -> generates (RSelect args id) x ms
  | gen_fast : forall table args tail id r x ms,
      In r args -> generates r x ms -> generates (RFastSelect table args tail id) x ms
  (** Any number of times. *)
  | gen_repeat : forall r optional id k x ms,
      generates_times r k x ms -> optional = true \/ 0 < k ->
      generates (RRepeat r optional id) x ms
  | gen_separate_none : forall r by_ trail id, generates (RSeparateBy r by_ true trail id) [] []
  | gen_separate : forall r by_ optional trail id x ms y ms',
      generates r x ms -> generates_more r by_ trail y ms' ->
      generates (RSeparateBy r by_ optional trail id) (x ++ y) (ms ++ ms')
  | gen_node : forall name property i id r x ms,
      nth_error refs i = Some r -> generates r x ms ->
      generates (RNode name property (Some i) id) x (node_around property ms)
  | gen_optional_none : forall r id, generates (ROptional r id) [] []
  | gen_optional : forall r id x ms, generates r x ms -> generates (ROptional r id) x ms
  | gen_not : forall r id, generates (RNot r id) [] []

  (** One after the other. *)
  with generates_all : list rule -> str -> list metadata -> Prop :=
  | gen_all_nil : generates_all [] [] []
  | gen_all_cons : forall r rest x ms y ms',
      generates r x ms -> generates_all rest y ms' -> generates_all (r :: rest) (x ++ y) (ms ++ ms')

  with generates_times : rule -> nat -> str -> list metadata -> Prop :=
  | gen_times_O : forall r, generates_times r 0 [] []
  | gen_times_S : forall r k x ms y ms',
      generates r x ms -> generates_times r k y ms' -> generates_times r (S k) (x ++ y) (ms ++ ms')

  (** Behind an item: separator and item any number of times, and a last separator if allowed. *)
  with generates_more : rule -> rule -> bool -> str -> list metadata -> Prop :=
  | gen_more_stop : forall r by_ trail, generates_more r by_ trail [] []
  | gen_more_trail : forall r by_ x ms,
      generates by_ x ms -> generates_more r by_ true x ms
  | gen_more_item : forall r by_ trail x ms y ms' z ms'',
      generates by_ x ms -> generates r y ms' -> generates_more r by_ trail z ms'' ->
      generates_more r by_ trail (x ++ y ++ z) (ms ++ ms' ++ ms'').

  Scheme generates_ind' := Minimality for generates Sort Prop
  with generates_all_ind' := Minimality for generates_all Sort Prop
  with generates_times_ind' := Minimality for generates_times Sort Prop
  with generates_more_ind' := Minimality for generates_more Sort Prop.
  Combined Scheme generates_mutind from generates_ind', generates_all_ind', generates_times_ind', generates_more_ind'.

  (** ** How texts begin *)

  (** A text of the rule may begin with the character. *)
  Inductive may_begin : rule -> char -> Prop :=
  | begin_whitespace : forall optional id c, white c -> may_begin (RWhitespace optional id) c
  | begin_tag : forall c text inverted property id, may_begin (RTag (c :: text) false inverted property id) c
  | begin_until : forall any optional property id c,
      ~ In c any -> may_begin (RUntilAny any optional property id) c
  | begin_until_ws : forall any optional property id c,
      ~ white c -> ~ In c any -> may_begin (RUntilAnyOrWs any optional property id) c
  | begin_text : forall allow_empty property id, may_begin (RText allow_empty property id) quote
  | begin_number : forall underscore property id c s n,
      x_number E underscore (c :: s) = Some n -> may_begin (RNumber underscore property id) c
  | begin_node : forall name property i id r c,
      nth_error refs i = Some r -> may_begin r c -> may_begin (RNode name property (Some i) id) c
  | begin_below : forall r r' c,
      (forall q id, r <> RNot q id) -> tried_first refs r r' -> may_begin r' c -> may_begin r c.
End Grammar.

(** ** What comes behind *)

Section Clear.
  Variable E : ext.
  Variable s : syntax.

  Definition empties := may_be_empty (s_rules s).
  Definition begins := may_begin E (s_rules s).

  (** Behind a text of the rule, the text may go on with the character, or end ([None]). *)
  Inductive goes_on : rule -> option char -> Prop :=
  | on_start : forall r, start_rule s r -> goes_on r None
  | on_node : forall name property i id r o,
      occurs s (RNode name property (Some i) id) -> nth_error (s_rules s) i = Some r ->
      goes_on (RNode name property (Some i) id) o -> goes_on r o
  | on_sequence_next : forall before r between r' behind id c,
      occurs s (RSequence (before ++ r :: between ++ r' :: behind) id) ->
      Forall empties between -> begins r' c -> goes_on r (Some c)
  | on_sequence_end : forall before r behind id o,
      occurs s (RSequence (before ++ r :: behind) id) -> Forall empties behind ->
      goes_on (RSequence (before ++ r :: behind) id) o -> goes_on r o
  | on_select : forall args id r o,
      occurs s (RSelect args id) -> In r args -> goes_on (RSelect args id) o -> goes_on r o
  | on_repeat_again : forall r optional id c,
      occurs s (RRepeat r optional id) -> begins r c -> goes_on r (Some c)
  | on_repeat_end : forall r optional id o,
      occurs s (RRepeat r optional id) -> goes_on (RRepeat r optional id) o -> goes_on r o
  | on_separator : forall r by_ optional trail id c,
      occurs s (RSeparateBy r by_ optional trail id) -> begins by_ c -> goes_on r (Some c)
  | on_separate_end : forall r by_ optional trail id o,
      occurs s (RSeparateBy r by_ optional trail id) ->
      goes_on (RSeparateBy r by_ optional trail id) o -> goes_on r o
  | on_item : forall r by_ optional trail id c,
      occurs s (RSeparateBy r by_ optional trail id) -> begins r c -> goes_on by_ (Some c)
  | on_trail : forall r by_ optional id o,
      occurs s (RSeparateBy r by_ optional true id) ->
      goes_on (RSeparateBy r by_ optional true id) o -> goes_on by_ o
  | on_optional : forall r id o,
      occurs s (ROptional r id) -> goes_on (ROptional r id) o -> goes_on r o.

  (** A number that was read up to some place is read up to there also in front of a text
      that begins in this way. *)
  Definition number_stops (underscore : bool) (o : option char) : Prop :=
    forall x rest rest', x_number E underscore (x ++ rest) = Some (length x) ->
      hd_error rest' = o -> x_number E underscore (x ++ rest') = Some (length x).

  (** What follows [r] does not begin like the rule [q], which is never empty. *)
  Definition apart (q r : rule) : Prop :=
    ~ empties q /\ forall c, begins q c -> ~ goes_on r (Some c).

  (** The next character always decides. *)
  Definition decided_by_next (r : rule) : Prop :=
    match r with
    | RWhitespace _ _ => forall c, goes_on r (Some c) -> ~ white c
    | RTag text true _ _ _ => exists c rest, text = c :: rest /\ ~ goes_on r (Some c)
    | RTag _ false _ _ _ => True
    | RUntilAny any _ _ _ => forall c, goes_on r (Some c) -> In c any
    | RUntilAnyOrWs any _ _ _ => forall c, goes_on r (Some c) -> white c \/ In c any
    | RText _ _ _ => True
    | RNumber underscore _ _ => forall o, goes_on r o -> number_stops underscore o
    | RSequence _ _ => True
    | RSelect args _ => forall before q between q' behind,
        args = before ++ q :: between ++ q' :: behind ->
        ~ empties q /\ forall c, begins q c ->
          ~ begins q' c /\ (empties q' -> ~ goes_on r (Some c))
    | RFastSelect _ _ _ _ => False
    | RRepeat q _ _ => apart q r
    | RSeparateBy q by_ optional trail _ =>
        ~ empties q /\ apart by_ r /\ (optional = true \/ trail = true -> apart q r)
    | RLines _ _ _ => False
    | RNode _ _ _ _ => True
    | ROptional q _ => apart q r
    | RNot q _ => apart q r
    end.

  Definition clear : Prop := forall r, occurs s r -> decided_by_next r.
End Clear.

(** No lines. *)
Definition without_lines (s : syntax) : Prop := forall r indented id, ~ occurs s (RLines r indented id).

(** The end of a string literal does not depend on what follows it. *)
Definition strings_end (E : ext) : Prop := forall x rest rest',
  x_string E (x ++ rest) = Some (length x) -> x_string E (x ++ rest') = Some (length x).

(** ** The same rules with the alternatives in another order *)

Inductive reordered : rule -> rule -> Prop :=
| re_same : forall r, children r = [] -> reordered r r
| re_select : forall args args' args'' id id', Forall2 reordered args args' ->
    (forall r, In r args' <-> In r args'') -> reordered (RSelect args id) (RSelect args'' id')
| re_sequence : forall args args' id, Forall2 reordered args args' -> reordered (RSequence args id) (RSequence args' id)
| re_repeat : forall r r' optional id, reordered r r' -> reordered (RRepeat r optional id) (RRepeat r' optional id)
| re_separate : forall r r' by_ by_' optional trail id, reordered r r' -> reordered by_ by_' ->
    reordered (RSeparateBy r by_ optional trail id) (RSeparateBy r' by_' optional trail id)
| re_optional : forall r r' id, reordered r r' -> reordered (ROptional r id) (ROptional r' id)
| re_not : forall r r' id, reordered r r' -> reordered (RNot r id) (RNot r' id).

Definition reordered_syntax (s s' : syntax) : Prop := Forall2 reordered (s_rules s) (s_rules s').
