(** The shape of the data that a rule gives, without the text: a grammar of trees. *)
From Coq Require Import List NArith Bool Arith.
From Verif Require Import Base Ext Types DataSpec TreeSpec.
Import ListNotations.

(** The item of a property, if the rule has one. *)
Definition item_of (property : option str) (mk : str -> metadata) : list metadata :=
  match property with Some name => [mk name] | None => [] end.

(** The node of a property, or what would be in it. *)
Definition node_around (property : option str) (inner : list metadata) : list metadata :=
  match property with Some name => StartNode name :: inner ++ [EndNode name] | None => inner end.

(** [shape refs r ms]: data of this form may come from the rule. *)
Inductive shape (refs : list rule) : rule -> list metadata -> Prop :=
| sh_whitespace : forall optional id, shape refs (RWhitespace optional id) []
| sh_tag : forall text not inverted property id,
    shape refs (RTag text not inverted property id) (item_of property (fun n => MBool n (negb inverted)))
| sh_until : forall any optional property id v,
    (forall c, In c v -> ~ In c any) -> optional = true \/ v <> [] ->
    shape refs (RUntilAny any optional property id) (item_of property (fun n => MString n v))
| sh_until_ws : forall any optional property id v,
    (forall c, In c v -> is_ws c = false /\ ~ In c any) -> optional = true \/ v <> [] ->
    shape refs (RUntilAnyOrWs any optional property id) (item_of property (fun n => MString n v))
| sh_text : forall allow_empty property id v,
    shape refs (RText allow_empty property id) (item_of property (fun n => MString n v))
| sh_number : forall underscore property id v,
    shape refs (RNumber underscore property id) (item_of property (fun n => MF64 n v))
(** All of them, in order. *)
| sh_sequence_none : forall id, shape refs (RSequence [] id) []
| sh_sequence : forall r rest id a b,
    shape refs r a -> shape refs (RSequence rest id) b -> shape refs (RSequence (r :: rest) id) (a ++ b)
(** One of them. *)
| sh_select : forall args id r ms, In r args -> shape refs r ms -> shape refs (RSelect args id) ms
| sh_fast : forall table args tail id r ms, In r args -> shape refs r ms -> shape refs (RFastSelect table args tail id) ms
(** Several, at least one unless optional. *)
| sh_repeat_none : forall r id, shape refs (RRepeat r true id) []
| sh_repeat_one : forall r optional id ms, shape refs r ms -> shape refs (RRepeat r optional id) ms
| sh_repeat_more : forall r optional id a b,
    shape refs r a -> shape refs (RRepeat r optional id) b -> shape refs (RRepeat r optional id) (a ++ b)
(** Several with separators between them, and behind the last if that is allowed. *)
| sh_separate_none : forall r by_ trail id, shape refs (RSeparateBy r by_ true trail id) []
| sh_separate_one : forall r by_ optional trail id ms, shape refs r ms -> shape refs (RSeparateBy r by_ optional trail id) ms
| sh_separate_trail : forall r by_ optional id a b,
    shape refs r a -> shape refs by_ b -> shape refs (RSeparateBy r by_ optional true id) (a ++ b)
| sh_separate_more : forall r by_ optional trail id a b c,
    shape refs r a -> shape refs by_ b -> shape refs (RSeparateBy r by_ false trail id) c ->
    shape refs (RSeparateBy r by_ optional trail id) (a ++ b ++ c)
(** One for each line. *)
| sh_lines_none : forall r indented id, shape refs (RLines r indented id) []
| sh_lines_more : forall r indented id a b,
    shape refs r a -> shape refs (RLines r indented id) b -> shape refs (RLines r indented id) (a ++ b)
(** What the rule referred to gives, as a node if there is a property. *)
| sh_node : forall name property i id r ms,
    nth_error refs i = Some r -> shape refs r ms -> shape refs (RNode name property (Some i) id) (node_around property ms)
| sh_optional_none : forall r id, shape refs (ROptional r id) []
| sh_optional : forall r id ms, shape refs r ms -> shape refs (ROptional r id) ms
(** Negative lookahead gives nothing. *)
| sh_not : forall r id, shape refs (RNot r id) [].

(** Somewhere in the trees. *)
Inductive below (t : tree) : list tree -> Prop :=
| below_here : forall ts, In t ts -> below t ts
| below_in : forall n ks ts, In (Tree n ks) ts -> below t ks -> below t ts.
