(** When optimisation runs forever: selects that ask for the first byte of a rule
    that starts with itself. *)
From Coq Require Import List NArith Bool Arith.
From Verif Require Import Base Ext Types DataSpec.
Import ListNotations.

(** The item the rule always starts with. *)
Inductive starts_with : rule -> rule -> Prop :=
| sw_select : forall a id, starts_with (RSelect [a] id) a
| sw_sequence : forall a rest id, starts_with (RSequence (a :: rest) id) a
| sw_separate : forall r by_ trail id, starts_with (RSeparateBy r by_ false trail id) r
| sw_repeat : forall r id, starts_with (RRepeat r false id) r
| sw_not : forall r id id', starts_with (RNot (RNot r id) id') r.

(** The rule starts with a reference to rule [i]. *)
Inductive starts_with_ref : rule -> nat -> Prop :=
| swr_here : forall name property i id, starts_with_ref (RNode name property (Some i) id) i
| swr_item : forall r a i, starts_with r a -> starts_with_ref a i -> starts_with_ref r i.

Section Stuck.
  Variable refs : list rule.

  (** The same through references. *)
  Inductive reaches : rule -> nat -> Prop :=
  | reaches_ref : forall r i, starts_with_ref r i -> reaches r i
  | reaches_on : forall r i ri j,
      starts_with_ref r i -> nth_error refs i = Some ri -> reaches ri j -> reaches r j.

  (** The rule starts with a rule that starts with itself. *)
  Definition endless (r : rule) : Prop :=
    exists i ri, reaches r i /\ nth_error refs i = Some ri /\ reaches ri i.

  (** The rule starts with a character whose first byte is [b]. *)
  Inductive begins : rule -> N -> Prop :=
  | begins_tag : forall c text inverted property id,
      begins (RTag (c :: text) false inverted property id) (utf8_first c)
  | begins_text : forall allow_empty property id, begins (RText allow_empty property id) 34%N
  | begins_item : forall r a b, starts_with r a -> begins a b -> begins r b
  | begins_ref : forall name property i id r b,
      nth_error refs i = Some r -> begins r b -> begins (RNode name property (Some i) id) b.

  (** One of the first 255 alternatives is endless, and those in front of it begin with
      different bytes. *)
  Definition stuck_select (args : list rule) : Prop :=
    exists before r behind bytes, args = before ++ r :: behind /\ length before < 255 /\
      Forall2 begins before bytes /\ NoDup bytes /\ endless r.
End Stuck.

(** Not optimised before. *)
Definition unoptimized (s : syntax) : Prop :=
  forall table args tail id, ~ occurs s (RFastSelect table args tail id).

(** Some select of the syntax is stuck. *)
Definition stuck (s : syntax) : Prop :=
  exists args id, occurs s (RSelect args id) /\ stuck_select (s_rules s) args.
