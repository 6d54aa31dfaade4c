(** Renaming and dropping properties, renaming and renumbering rules. *)
From Coq Require Import List NArith Bool Arith.
From Verif Require Import Base Ext Types ParseModel DataSpec PegSpec.
Import ListNotations.

Section Rename.
  (** The new name of a property, or none to drop it. *)
  Variable f : str -> option str.
  (** Which rule of the one syntax corresponds to which rule of the other. *)
  Variable G : nat -> nat -> Prop.

  Definition new_property (p : option str) : option str :=
    match p with Some n => f n | None => None end.

  (** What becomes of a token. *)
  Definition new_token (t : tok) : list tok :=
    match snd t with
    | StartNode n => match f n with Some m => [(fst t, StartNode m)] | None => [] end
    | EndNode n => match f n with Some m => [(fst t, EndNode m)] | None => [] end
    | MBool n v => match f n with Some m => [(fst t, MBool m v)] | None => [] end
    | MF64 n v => match f n with Some m => [(fst t, MF64 m v)] | None => [] end
    | MString n v => match f n with Some m => [(fst t, MString m v)] | None => [] end
    end.

  Definition new_tokens (ts : list tok) : list tok := flat_map new_token ts.

  (** The same rule with the new properties, referring to the corresponding rules. The name
      in a reference may be any. *)
  Inductive renamed : rule -> rule -> Prop :=
  | rn_whitespace : forall o i, renamed (RWhitespace o i) (RWhitespace o i)
  | rn_tag : forall t n v p i, renamed (RTag t n v p i) (RTag t n v (new_property p) i)
  | rn_until : forall a o p i, renamed (RUntilAny a o p i) (RUntilAny a o (new_property p) i)
  | rn_until_ws : forall a o p i,
      renamed (RUntilAnyOrWs a o p i) (RUntilAnyOrWs a o (new_property p) i)
  | rn_text : forall e p i, renamed (RText e p i) (RText e (new_property p) i)
  | rn_number : forall u p i, renamed (RNumber u p i) (RNumber u (new_property p) i)
  | rn_select : forall a b i, Forall2 renamed a b -> renamed (RSelect a i) (RSelect b i)
  | rn_fast_select : forall t a b l i,
      Forall2 renamed a b -> renamed (RFastSelect t a l i) (RFastSelect t b l i)
  | rn_sequence : forall a b i, Forall2 renamed a b -> renamed (RSequence a i) (RSequence b i)
  | rn_separate_by : forall a b a' b' o t i, renamed a b -> renamed a' b' ->
      renamed (RSeparateBy a a' o t i) (RSeparateBy b b' o t i)
  | rn_repeat : forall a b o i, renamed a b -> renamed (RRepeat a o i) (RRepeat b o i)
  | rn_lines : forall a b d i, renamed a b -> renamed (RLines a d i) (RLines b d i)
  | rn_node : forall n n' p k k' i, G k k' ->
      renamed (RNode n p (Some k) i) (RNode n' (new_property p) (Some k') i)
  | rn_node_unresolved : forall n n' p i,
      renamed (RNode n p None i) (RNode n' (new_property p) None i)
  | rn_optional : forall a b i, renamed a b -> renamed (ROptional a i) (ROptional b i)
  | rn_not : forall a b i, renamed a b -> renamed (RNot a i) (RNot b i).

  (** Corresponding rules are the same rules, and so are the start rules. *)
  Definition renamed_syntax (s s' : syntax) : Prop :=
    (forall k k', G k k' -> match nth_error (s_rules s) k, nth_error (s_rules s') k' with
     | Some r, Some r' => renamed r r' | None, None => True | _, _ => False end) /\
    ((s_rules s = [] /\ s_rules s' = []) \/
     exists r r', start_rule s r /\ start_rule s' r' /\ renamed r r').
End Rename.

(** ** Properties *)

(** The rule with new properties. *)
Fixpoint with_properties (f : str -> option str) (r : rule) : rule :=
  match r with
  | RWhitespace o i => RWhitespace o i
  | RTag t n v p i => RTag t n v (new_property f p) i
  | RUntilAny a o p i => RUntilAny a o (new_property f p) i
  | RUntilAnyOrWs a o p i => RUntilAnyOrWs a o (new_property f p) i
  | RText e p i => RText e (new_property f p) i
  | RNumber u p i => RNumber u (new_property f p) i
  | RSelect a i => RSelect (map (with_properties f) a) i
  | RFastSelect t a l i => RFastSelect t (map (with_properties f) a) l i
  | RSequence a i => RSequence (map (with_properties f) a) i
  | RSeparateBy a b o t i => RSeparateBy (with_properties f a) (with_properties f b) o t i
  | RRepeat a o i => RRepeat (with_properties f a) o i
  | RLines a d i => RLines (with_properties f a) d i
  | RNode n p k i => RNode n (new_property f p) k i
  | ROptional a i => ROptional (with_properties f a) i
  | RNot a i => RNot (with_properties f a) i
  end.

Definition syntax_with_properties (f : str -> option str) (s : syntax) : syntax :=
  Syn (map (with_properties f) (s_rules s)) (s_names s).

(** ** Definitions *)

(** A syntax made of definitions in this order. *)
Definition built (defs : list (str * rule)) : syntax :=
  update_refs (fold_left (fun s d => syntax_push s (fst d) (snd d)) defs syntax_new).

(** The first definition of the name. *)
Definition defined (defs : list (str * rule)) (name : str) (r : rule) : Prop :=
  exists before after, defs = before ++ (name, r) :: after /\ ~ In name (map fst before).

Definition refers (r : rule) (name : str) : Prop :=
  exists p i, occurs_in (RNode name p None i) r.

(** The names that the rule [main] refers to, directly or by way of other definitions. *)
Inductive needs (defs : list (str * rule)) (main : rule) : str -> Prop :=
| needs_direct : forall name, refers main name -> needs defs main name
| needs_more : forall name r name', needs defs main name -> defined defs name r ->
    refers r name' -> needs defs main name'.

(** All references are by name. *)
Definition by_name (r : rule) : Prop :=
  forall x, occurs_in x r -> match x with
  | RNode _ _ (Some _) _ | RFastSelect _ _ _ _ => False
  | _ => True
  end.
