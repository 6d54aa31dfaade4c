(** Documents in which items of lists are added or taken out. *)
From Coq Require Import List NArith Bool Arith.
From Verif Require Import Base Ext Types DataSpec.
Import ListNotations.

(** A reference that gives nodes of the name. *)
Definition gives_node (name : str) (c : rule) : Prop :=
  exists reference index id, c = RNode reference (Some name) index id.

(** [list_of r c l]: the rule [r] is a list of the items [c], and the texts of [l] may stand there for an item: any number of
    items for an item of a repetition, but at least one if one is demanded; one item or more, with separators between them,
    for an item of a separated list. For what is optional nothing may stand, and any alternative for another one. *)
Inductive list_of : rule -> rule -> rule -> Prop :=
| list_repeat : forall c optional id, list_of (RRepeat c optional id) c (RRepeat c optional id)
| list_separate : forall c by_ optional trail id,
    list_of (RSeparateBy c by_ optional trail id) c (RSeparateBy c by_ false false id)
| list_optional : forall c id, list_of (ROptional c id) c (ROptional c id)
| list_select : forall args c id, In c args -> list_of (RSelect args id) c (RSelect args id)
| list_fast : forall table args tail c id, In c args -> list_of (RFastSelect table args tail id) c (RFastSelect table args tail id).

(** Nodes of the name are only read as items of lists, optional parts and alternatives. *)
Definition only_items (s : syntax) (name : str) : Prop :=
  (forall r, In r (s_rules s) -> ~ gives_node name r) /\
  (forall r by_ optional trail id, occurs s (RSeparateBy r by_ optional trail id) -> ~ gives_node name by_) /\
  (forall r c, occurs s r -> In c (children r) -> gives_node name c -> exists l, list_of r c l).

(** Nodes of the name are only read as items of repetitions. *)
Definition only_repeated (s : syntax) (name : str) : Prop :=
  (forall r, In r (s_rules s) -> ~ gives_node name r) /\
  (forall r c, occurs s r -> In c (children r) -> gives_node name c -> exists optional id, r = RRepeat c optional id).

(** Nodes of the name are only read as items of repetitions that may be empty, and as optional parts. *)
Definition only_optional (s : syntax) (name : str) : Prop :=
  (forall r, In r (s_rules s) -> ~ gives_node name r) /\
  (forall r c, occurs s r -> In c (children r) -> gives_node name c -> exists id, r = RRepeat c true id \/ r = ROptional c id).

(** Nodes of the name are only read as items of lists with the separator [by_]. *)
Definition only_separated (s : syntax) (name : str) (by_ : rule) : Prop :=
  (forall r, In r (s_rules s) -> ~ gives_node name r) /\ ~ gives_node name by_ /\
  (forall r c, occurs s r -> In c (children r) -> gives_node name c -> exists optional trail id, r = RSeparateBy c by_ optional trail id).
