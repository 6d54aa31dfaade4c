(** Syntaxes read as plain context-free grammars, now with the places of the data. *)
From Coq Require Import List NArith Bool Arith.
From Verif Require Import Base Ext Types PegSpec DataSpec GrammarSpec.
Import ListNotations.

(** The data moved by [k] characters. *)
Definition moved_by (k : nat) (ts : list tok) : list tok :=
  map (fun t => (Rng (k + r_off (fst t)) (r_len (fst t)), snd t)) ts.

Section Place.
  Variable E : ext.
  Variable refs : list rule.

  (** [places r p x ts]: the rule generates the text [x], which stands at [p], with the data [ts]. *)
  Inductive places : rule -> nat -> str -> list tok -> Prop :=
  | at_whitespace : forall optional id p x,
      Forall white x -> optional = true \/ x <> [] ->
      places (RWhitespace optional id) p x []
  | at_tag : forall text inverted property id p,
      places (RTag text false inverted property id) p text
        (token property (Rng p (length text)) (fun n => MBool n (negb inverted)))
  | at_not_tag : forall text inverted property id p,
      places (RTag text true inverted property id) p [] (token property (Rng p 0) (fun n => MBool n (negb inverted)))
  | at_until : forall any optional property id p x,
      Forall (fun c => ~ In c any) x -> optional = true \/ x <> [] ->
      places (RUntilAny any optional property id) p x (token property (Rng p (length x)) (fun n => MString n x))
  | at_until_ws : forall any optional property id p x,
      Forall (fun c => ~ white c /\ ~ In c any) x -> optional = true \/ x <> [] ->
      places (RUntilAnyOrWs any optional property id) p x (token property (Rng p (length x)) (fun n => MString n x))
  | at_text : forall allow_empty property id p x rest val,
      x_string E (x ++ rest) = Some (length x) -> allow_empty = true \/ length x <> 2 ->
      x_parse_string E x = inl val ->
      places (RText allow_empty property id) p x (token property (Rng p (length x)) (fun n => MString n val))
  | at_number : forall underscore property id p x rest val,
      x_number E underscore (x ++ rest) = Some (length x) ->
      x_parse_number E underscore x = Some val ->
      places (RNumber underscore property id) p x (token property (Rng p (length x)) (fun n => MF64 n val))
  | at_sequence : forall args id p x ts,
      places_all args p x ts -> places (RSequence args id) p x ts
  | at_select : forall args id r p x ts,
      In r args -> places r p x ts -> places (RSelect args id) p x ts
  | at_fast : forall table args tail id r p x ts,
      In r args -> places r p x ts -> places (RFastSelect table args tail id) p x ts
  | at_repeat : forall r optional id k p x ts,
      places_times r k p x ts -> optional = true \/ 0 < k ->
      places (RRepeat r optional id) p x ts
  | at_separate_none : forall r by_ trail id p, places (RSeparateBy r by_ true trail id) p [] []
  | at_separate : forall r by_ optional trail id p x ts y ts',
      places r p x ts -> places_more r by_ trail (p + length x) y ts' ->
      places (RSeparateBy r by_ optional trail id) p (x ++ y) (ts ++ ts')
  | at_node : forall name property i id r p x ts,
      nth_error refs i = Some r -> places r p x ts ->
      places (RNode name property (Some i) id) p x
        (token property (Rng p 0) StartNode ++ ts ++ token property (Rng p (length x)) EndNode)
  | at_optional_none : forall r id p, places (ROptional r id) p [] []
  | at_optional : forall r id p x ts, places r p x ts -> places (ROptional r id) p x ts
  | at_not : forall r id p, places (RNot r id) p [] []

  with places_all : list rule -> nat -> str -> list tok -> Prop :=
  | at_all_nil : forall p, places_all [] p [] []
  | at_all_cons : forall r rest p x ts y ts',
      places r p x ts -> places_all rest (p + length x) y ts' -> places_all (r :: rest) p (x ++ y) (ts ++ ts')

  with places_times : rule -> nat -> nat -> str -> list tok -> Prop :=
  | at_times_O : forall r p, places_times r 0 p [] []
  | at_times_S : forall r k p x ts y ts',
      places r p x ts -> places_times r k (p + length x) y ts' -> places_times r (S k) p (x ++ y) (ts ++ ts')

  with places_more : rule -> rule -> bool -> nat -> str -> list tok -> Prop :=
  | at_more_stop : forall r by_ trail p, places_more r by_ trail p [] []
  | at_more_trail : forall r by_ p x ts,
      places by_ p x ts -> places_more r by_ true p x ts
  | at_more_item : forall r by_ trail p x ts y ts' z ts'',
      places by_ p x ts -> places r (p + length x) y ts' -> places_more r by_ trail (p + length x + length y) z ts'' ->
      places_more r by_ trail p (x ++ y ++ z) (ts ++ ts' ++ ts'').

  Scheme places_ind' := Minimality for places Sort Prop
  with places_all_ind' := Minimality for places_all Sort Prop
  with places_times_ind' := Minimality for places_times Sort Prop
  with places_more_ind' := Minimality for places_more Sort Prop.
  Combined Scheme places_mutind from places_ind', places_all_ind', places_times_ind', places_more_ind'.
End Place.

(** Texts with their data, one behind the other from [p] on: the data of the whole. *)
Fixpoint joined (p : nat) (items : list (str * list tok)) : list tok :=
  match items with
  | [] => []
  | (x, ts) :: rest => moved_by p ts ++ joined (p + length x) rest
  end.

Definition whole_text (items : list (str * list tok)) : str := concat (map fst items).
