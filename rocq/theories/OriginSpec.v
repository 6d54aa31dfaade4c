(** Where the parts of converted rules come from. *)
From Coq Require Import Ascii String List NArith Bool Arith.
From Verif Require Import Base Ext Types DataSpec.
Import ListNotations.
Local Open Scope string_scope.
Local Open Scope list_scope.
Local Open Scope nat_scope.

Section Origin.
  Variable data : list tok.

  (** The data says [name = value], for a flag or a string. *)
  Definition says_flag (name : str) (value : bool) : Prop := exists r, In (r, MBool name value) data.
  Definition says_string (name value : str) : Prop := exists r, In (r, MString name value) data.

  (** A flag, by default [d]. *)
  Definition flag_or (d : bool) (name : str) (value : bool) : Prop := value = d \/ says_flag name value.

  (** A text: given in place, or by a string definition. *)
  Definition says_text (value : str) : Prop :=
    says_string (s2l "value") value \/ says_string (s2l "text") value.

  Definition says_property (p : option str) : Prop := forall v, p = Some v -> says_text v.

  (** The rule itself, apart from its sub rules, comes from the data. *)
  Definition comes_from (r : rule) : Prop :=
    match r with
    | RWhitespace o _ => says_flag (s2l "optional") o
    | RTag t n i p _ => says_text t /\ flag_or false (s2l "not") n /\
        flag_or false (s2l "inverted") i /\ says_property p
    | RUntilAny any o p _ | RUntilAnyOrWs any o p _ =>
        says_text any /\ flag_or false (s2l "optional") o /\ says_property p
    | RText e p _ => flag_or true (s2l "allow_empty") e /\ says_property p
    | RNumber u p _ => flag_or false (s2l "underscore") u /\ says_property p
    | RNode name p _ _ => says_string (s2l "name") name /\ says_property p
    | RSeparateBy _ _ o t _ => flag_or true (s2l "optional") o /\ flag_or true (s2l "allow_trail") t
    | RRepeat _ o _ => says_flag (s2l "optional") o
    | RLines _ i _ => flag_or false (s2l "indent") i
    | RSelect _ _ | RSequence _ _ | ROptional _ _ | RNot _ _ => True
    | RFastSelect _ _ _ _ => False
    end.
End Origin.

Definition fast_select (r : rule) : Prop :=
  match r with RFastSelect _ _ _ _ => True | _ => False end.
