(** Words for the conversion of meta data to rules. *)
From Coq Require Import Ascii String List NArith Bool Arith.
From Verif Require Import Base Ext Types DataSpec ParseModel ConvertModel.
Import ListNotations.
Local Open Scope string_scope.
Local Open Scope list_scope.
Local Open Scope nat_scope.

(** ** Items *)

(** One item: a leaf, or a node from its start to its end. *)
Inductive item : list tok -> Prop :=
| item_leaf : forall t, leaf (snd t) -> item [t]
| item_node : forall r r' name inner, nested (map snd inner) ->
    item ((r, StartNode name) :: inner ++ [(r', EndNode name)]).

(** [convert] returns ([None] is [Err(())]), with the ignored ranges; panics; loops. *)
Definition convert_returns (data : list tok) (ignored : list range)
  (result : option syntax) (ignored' : list range) : Prop :=
  exists fuel, convert fuel data ignored = Done (result, ignored').

Definition convert_panics (data : list tok) (ignored : list range) : Prop :=
  exists fuel, convert fuel data ignored = Panic.

Definition convert_diverges (data : list tok) (ignored : list range) : Prop :=
  forall fuel, convert fuel data ignored = OutOfFuel.

(** ** Debug ids *)

(** Number of nodes that hold a rule: those of the names [rule] and [by]. *)
Definition holds_rule (t : tok) : bool :=
  match snd t with
  | StartNode n => str_eqb n (s2l "rule") || str_eqb n (s2l "by")
  | _ => false
  end.

Definition rule_nodes (data : list tok) : nat := length (filter holds_rule data).

(** The number that a node gives as its id. *)
Definition gives_id (data : list tok) (k : N) : Prop :=
  k = 0%N \/ exists r x, In (r, MF64 (s2l "id") x) data /\ k = f64_as_usize x.

(** The ids that are given are so small that debug ids do not overflow. *)
Definition ids_small (data : list tok) : Prop :=
  forall k, gives_id data k -> (k * 1000 + N.of_nat (rule_nodes data) <= usize_max)%N.

(** The debug id of a rule. *)
Definition own_id (r : rule) : debug_id :=
  match r with
  | RWhitespace _ id | RTag _ _ _ _ id | RUntilAny _ _ _ id | RUntilAnyOrWs _ _ _ id
  | RText _ _ id | RNumber _ _ id | RSelect _ id | RFastSelect _ _ _ id | RSequence _ id
  | RSeparateBy _ _ _ _ id | RRepeat _ _ id | RLines _ _ id | RNode _ _ _ id
  | ROptional _ id | RNot _ id => id
  end.

(** All debug ids of a rule, those of sub rules first. *)
Fixpoint rule_ids (r : rule) : list debug_id :=
  match r with
  | RSelect args id | RFastSelect _ args _ id | RSequence args id => flat_map rule_ids args ++ [id]
  | RSeparateBy a b _ _ id => rule_ids a ++ rule_ids b ++ [id]
  | RRepeat a _ id | RLines a _ id | ROptional a id | RNot a id => rule_ids a ++ [id]
  | _ => [own_id r]
  end.

(** The debug ids of the rule are greater than [lo] and grow in the order in which the
    rules are completed: sub rules before the rule, arguments from first to last, the two
    rules of a separated list in either order. *)
Fixpoint ordered (lo : N) (r : rule) : Prop :=
  match r with
  | RSelect args id | RFastSelect _ args _ id | RSequence args id =>
    (fix go (lo : N) (args : list rule) : Prop :=
       match args with
       | [] => (lo < id)%N
       | a :: args' => ordered lo a /\ go (own_id a) args'
       end) lo args
  | RSeparateBy a b _ _ id =>
    (ordered lo a /\ ordered (own_id a) b /\ own_id b < id)%N \/
    (ordered lo b /\ ordered (own_id b) a /\ own_id a < id)%N
  | RRepeat a _ id | RLines a _ id | ROptional a id | RNot a id =>
    ordered lo a /\ (own_id a < id)%N
  | _ => (lo < own_id r)%N
  end.

(** The items hold an id. *)
Definition is_id (it : list tok) (x : f64) : Prop := exists r, it = [(r, MF64 (s2l "id") x)].

(** The number given by the last id among the items, 0 if there is none. *)
Inductive given_id : list (list tok) -> N -> Prop :=
| given_none : forall items, (forall it x, In it items -> ~ is_id it x) -> given_id items 0
| given_last : forall before it after x, is_id it x ->
    (forall it' x', In it' after -> ~ is_id it' x') ->
    given_id (before ++ it :: after) (f64_as_usize x).

(** The rule has ids as read from one item of the node: with the number [k] given before
    the item, they lie above [1000 * k], in order of completion, and none exceeds [1000 * k]
    plus the number of rules in that item. *)
Definition numbered_as (k : N) (node : list tok) (rule_ : rule) : Prop :=
  exists r r' before it after,
    node = (r, StartNode (s2l "node")) ::
      concat before ++ it ++ concat after ++ [(r', EndNode (s2l "node"))] /\
    Forall item before /\ item it /\ Forall item after /\
    given_id before k /\ ordered (k * 1000) rule_ /\
    (own_id rule_ <= k * 1000 + N.of_nat (rule_nodes it))%N.

Definition numbered (node : list tok) (rule_ : rule) : Prop :=
  exists k, numbered_as k node rule_.

(** ** Rules before references are resolved *)

Definition no_index (r : rule) : Prop :=
  match r with
  | RNode _ _ (Some _) _ | RFastSelect _ _ _ _ => False
  | _ => True
  end.

(** The rule and everything below. *)
Definition unresolved (r : rule) : Prop := forall x, occurs_in x r -> no_index x.
