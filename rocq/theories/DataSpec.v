(** Specifications of meta data: nesting, placement in the text, origin of values. *)
From Coq Require Import List NArith Bool Arith.
From Verif Require Import Base Ext Types.
Import ListNotations.

(** Items that are not the start or end of a node. *)
Definition leaf (m : metadata) : Prop :=
  match m with
  | StartNode _ | EndNode _ => False
  | MBool _ _ | MF64 _ _ | MString _ _ => True
  end.

(** Every start is closed by an end of the same name, properly nested. *)
Inductive nested : list metadata -> Prop :=
| nested_nil : nested []
| nested_leaf : forall m rest, leaf m -> nested rest -> nested (m :: rest)
| nested_node : forall name inner rest,
    nested inner -> nested rest ->
    nested (StartNode name :: inner ++ EndNode name :: rest).

(** The tokens lie one after the other between the positions [a] and [b]. The start of a
    node has the empty range where the node starts, its end has the range of the whole
    node, and the tokens of the node lie within that range. *)
Inductive placed : nat -> nat -> list tok -> Prop :=
| placed_nil : forall a b, a <= b -> placed a b []
| placed_leaf : forall a b r m rest,
    leaf m -> a <= r_off r -> placed (next_offset r) b rest ->
    placed a b ((r, m) :: rest)
| placed_node : forall a b o n name inner rest,
    a <= o -> placed o (o + n) inner -> placed (o + n) b rest ->
    placed a b ((Rng o 0, StartNode name) :: inner ++ (Rng o n, EndNode name) :: rest).

(** The text under a range. *)
Definition under (text : str) (r : range) : str := firstn (r_len r) (skipn (r_off r) text).

(** The immediate sub rules. *)
Definition children (r : rule) : list rule :=
  match r with
  | RSelect args _ | RFastSelect _ args _ _ | RSequence args _ => args
  | RSeparateBy r by_ _ _ _ => [r; by_]
  | RRepeat r _ _ | RLines r _ _ | ROptional r _ | RNot r _ => [r]
  | RWhitespace _ _ | RTag _ _ _ _ _ | RUntilAny _ _ _ _ | RUntilAnyOrWs _ _ _ _
  | RText _ _ _ | RNumber _ _ _ | RNode _ _ _ _ => []
  end.

(** [occurs_in r r']: [r] occurs in the rule [r']. *)
Inductive occurs_in (r : rule) : rule -> Prop :=
| occurs_here : occurs_in r r
| occurs_below : forall r' c, In c (children r') -> occurs_in r c -> occurs_in r r'.

(** [r] occurs in the syntax. *)
Definition occurs (s : syntax) (r : rule) : Prop :=
  exists top, In top (s_rules s) /\ occurs_in r top.

(** The token was made by one of the rules of the syntax from the text under its range. *)
Inductive made_by (E : ext) (s : syntax) (text : str) : tok -> Prop :=
| made_by_tag : forall tag inverted name id p,
    occurs s (RTag tag false inverted (Some name) id) ->
    under text (Rng p (length tag)) = tag ->
    made_by E s text (Rng p (length tag), MBool name (negb inverted))
| made_by_not_tag : forall tag inverted name id p,
    occurs s (RTag tag true inverted (Some name) id) ->
    under text (Rng p (length tag)) <> tag ->
    made_by E s text (Rng p 0, MBool name (negb inverted))
| made_by_until : forall any optional name id r,
    occurs s (RUntilAny any optional (Some name) id) ->
    (forall c, In c (under text r) -> ~ In c any) ->
    made_by E s text (r, MString name (under text r))
| made_by_until_ws : forall any optional name id r,
    occurs s (RUntilAnyOrWs any optional (Some name) id) ->
    (forall c, In c (under text r) -> is_ws c = false /\ ~ In c any) ->
    made_by E s text (r, MString name (under text r))
| made_by_text : forall allow_empty name id r val,
    occurs s (RText allow_empty (Some name) id) ->
    x_parse_string E (under text r) = inl val ->
    made_by E s text (r, MString name val)
| made_by_number : forall underscore name id r val,
    occurs s (RNumber underscore (Some name) id) ->
    x_parse_number E underscore (under text r) = Some val ->
    made_by E s text (r, MF64 name val)
| made_by_start : forall name property index id r,
    occurs s (RNode name (Some property) index id) ->
    made_by E s text (r, StartNode property)
| made_by_end : forall name property index id r,
    occurs s (RNode name (Some property) index id) ->
    made_by E s text (r, EndNode property).
