(** C68: conversion is a function on the trees of the data. *)
From Coq Require Import Ascii String List NArith Bool Arith Lia.
From Verif Require Import Base Ext Types DataSpec OptSpec IdSpec ConvertModel ConvertSpec TreeSpec TreeProofs TreePublic Examples.
Import ListNotations.
Local Open Scope string_scope.
Local Open Scope list_scope.
Local Open Scope nat_scope.

(** Well nested data is a list of trees. *)
Theorem C68_trees : forall ms, nested ms -> exists ts, Forall good ts /\ flat_map flat ts = ms.
Proof. exact nested_trees. Qed.
Print Assumptions C68_trees.

(** What conversion returns is what the trees mean. *)
Theorem C68_meaning : forall data ts ig result ig', Forall good ts -> map snd data = flat_map flat ts ->
  convert_returns data ig result ig' -> says ts result.
Proof. exact convert_says. Qed.
Print Assumptions C68_meaning.

(** Data is converted if and only if its trees mean something. *)
Theorem C68_accepted : forall data ts ig, nested (map snd data) -> ids_small data -> Forall good ts -> map snd data = flat_map flat ts ->
  (exists s ig', convert_returns data ig (Some s) ig') <-> (exists nodes, data_meaning [] ts = Some nodes).
Proof. exact convert_accepts. Qed.
Print Assumptions C68_accepted.

(** Positions in the text play no role. *)
Theorem C68_positions : forall data data' ig ig2 r r' g g', nested (map snd data) -> map snd data = map snd data' ->
  convert_returns data ig r g -> convert_returns data' ig2 r' g' -> same_but_ids r r'.
Proof. exact positions_irrelevant. Qed.
Print Assumptions C68_positions.

(** Items of different names may change places, and unknown items may be left out, inside nodes and the known kinds of rules. *)
Theorem C68_rearranged : forall data data' ts ts' ig ig2 r r' g g', Forall good ts -> Forall good ts' ->
  map snd data = flat_map flat ts -> map snd data' = flat_map flat ts' -> Forall2 rearranged ts ts' ->
  convert_returns data ig r g -> convert_returns data' ig2 r' g' -> same_but_ids r r'.
Proof. exact rearranged_converts. Qed.
Print Assumptions C68_rearranged.

(** Two ways to say the same: a string, and a node with a tag that names a rule's text. *)
Definition C68_string : tree := Tree (tx "string") [Leaf (MString (tx "name") (tx "a")); Leaf (MString (tx "text") (tx "hi"))].

Definition C68_one : list tree :=
  [ C68_string;
    Tree (tx "node")
      [ Leaf (MString (tx "name") (tx "doc"));
        Tree (tx "rule")
          [ Tree (tx "tag")
              [ Tree (tx "text") [Leaf (MString (tx "ref") (tx "a"))];
                Tree (tx "property") [Leaf (MString (tx "value") (tx "greeting"))] ] ] ] ].

Definition C68_tag : list tree :=
  [ Tree (tx "tag")
      [ Leaf (MBool (tx "unknown") true);
        Tree (tx "property") [Leaf (MString (tx "value") (tx "greeting"))];
        Tree (tx "other") [Leaf (MBool (tx "not") true)];
        Tree (tx "text") [Leaf (MString (tx "ref") (tx "a"))] ] ].

Definition C68_two : list tree :=
  [ C68_string;
    Tree (tx "node")
      [ Tree (tx "rule") C68_tag;
        Leaf (MString (tx "name") (tx "doc"));
        Leaf (MBool (tx "id") false) ] ].

Definition C68_data (ts : list tree) : list tok := map (fun m => (Rng 7 1, m)) (flat_map flat ts).

Example C68_example :
  Forall good C68_one /\ Forall good C68_two /\
  map snd (C68_data C68_one) = flat_map flat C68_one /\
  data_meaning [] C68_one = Some [(tx "doc", RTag (tx "hi") false false (Some (tx "greeting")) 0%N)] /\
  (exists ig, convert_returns (C68_data C68_one) [] (Some (Syn [RTag (tx "hi") false false (Some (tx "greeting")) 1%N] [tx "doc"])) ig) /\
  (exists ig, convert_returns (C68_data C68_two) [] (Some (Syn [RTag (tx "hi") false false (Some (tx "greeting")) 1%N] [tx "doc"])) ig) /\
  Forall2 rearranged C68_one C68_two.
Proof.
  split; [repeat constructor|]. split; [repeat constructor|]. split; [vm_compute; reflexivity|]. split; [vm_compute; reflexivity|].
  split; [eexists; exists 40; vm_compute; reflexivity|]. split; [eexists; exists 40; vm_compute; reflexivity|].
  constructor; [apply re_same|]. constructor; [|constructor].
  apply re_trans with (b := Tree (tx "node") [Leaf (MString (tx "name") (tx "doc")); Tree (tx "rule") C68_tag]); [|apply re_node].
  - apply re_items. constructor; [apply re_same|]. constructor; [|constructor].
    eapply re_rule; [left; reflexivity|do 4 right; left; reflexivity|].
    intros n [<-|[<-|[<-|[<-|[]]]]]; reflexivity.
  - intros n [<-|[<-|[]]]; reflexivity.
Qed.

(** Not every kind of rule passes over unknown items: [whitespace] is not read any more. *)
Theorem C68_unknown_items_refuted : exists kids m, called (s2l "optional") (Leaf m) = false /\ good (Leaf m) /\
  (exists s g, convert_returns (map (pair (Rng 0 0)) (flat_map flat (one_rule (s2l "whitespace") kids))) [] (Some s) g) /\
  (exists g, convert_returns (map (pair (Rng 0 0)) (flat_map flat (one_rule (s2l "whitespace") (kids ++ [Leaf m])))) [] None g).
Proof. exact whitespace_strict. Qed.
Print Assumptions C68_unknown_items_refuted.
