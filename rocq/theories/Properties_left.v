(** C86: what a failed parse leaves in the vector. *)
From Coq Require Import Ascii String List NArith Bool Arith Lia.
From Verif Require Import Base Ext Types PegSpec DataSpec ApiSpec JsonModel ExtProofs Examples
  DataCheck LeftSpec LeftProofs LeftProofs2.
Import ListNotations.
Local Open Scope string_scope.
Local Open Scope list_scope.
Local Open Scope nat_scope.

(** A failed parse adds the beginning of sound data: when the open nodes are closed, the items
    are well nested and placed in the text, and each is made by a rule from the text under it. *)
Theorem C86_beginning : forall E s text tokens ind e tokens', ext_ok E ->
  parse_returns E s text tokens ind (Some e) tokens' ->
  exists new, tokens' = tokens ++ new /\ beginning E s text new.
Proof. exact failure_leaves. Qed.
Print Assumptions C86_beginning.

(** Whether or not the parse fails: the result and what is added to the vector do not depend on
    what the vector held. *)
Theorem C86_front : forall E s text tokens ind result tokens',
  parse_returns E s text tokens ind result tokens' <->
  exists new, parse_returns E s text [] ind result new /\ tokens' = tokens ++ new.
Proof. exact parse_front. Qed.
Print Assumptions C86_front.

(** The vector can be written as JSON after the failure. *)
Theorem C86_json : forall E E' s text tokens ind e tokens', ext_ok E ->
  parse_returns E s text tokens ind (Some e) tokens' -> nested (map snd tokens) ->
  exists out, json_write E' tokens' = Done out.
Proof. exact failure_json. Qed.
Print Assumptions C86_json.

(** It is not what was read in front of the error: an alternative that fails early overwrites
    the items of one that got further. The error is where [!] was read in place of [c], and the item
    left is from the other alternative. *)
Theorem C86_deepest_refuted : exists s text e new,
  parse_returns std_ext s text [] indent_default (Some e) new /\
  e = (Rng 2 0, ExpectedTag (tx "c") 3) /\ new = [(Rng 0 1, MBool (tx "z") true)] /\
  (exists rg, parse_returns std_ext (Syn [RSequence
      [RTag (tx "a") false false (Some (tx "x")) 1; RTag (tx "b") false false (Some (tx "y")) 2;
       RTag (tx "c") false false None 3] 4] [tx "doc"]) text [] indent_default (Some e)
      [(Rng 0 1, MBool (tx "x") true); (rg, MBool (tx "y") true)]).
Proof.
  exists (Syn [RSelect [RSequence
      [RTag (tx "a") false false (Some (tx "x")) 1; RTag (tx "b") false false (Some (tx "y")) 2;
       RTag (tx "c") false false None 3] 4;
      RSequence [RTag (tx "a") false false (Some (tx "z")) 5; RTag (tx "d") false false None 6] 7] 8]
    [tx "doc"]), (tx "ab!").
  do 2 eexists. split; [exists 10; vm_compute; reflexivity|].
  split; [reflexivity|]. split; [reflexivity|]. exists (Rng 1 1). exists 10. vm_compute. reflexivity.
Qed.
Print Assumptions C86_deepest_refuted.

(** The second item of [(a:12)(b:?)] is left open, with its name. *)
Example C86_example :
  ext_ok std_ext /\
  (exists e x new, parse_returns std_ext ex_syntax ex_bad [(Rng 0 0, MBool (tx "old") true)] indent_default
     (Some e) ((Rng 0 0, MBool (tx "old") true) :: new) /\
   map snd new = [StartNode (tx "item"); MString (tx "name") (tx "a"); MF64 (tx "num") x;
     EndNode (tx "item"); StartNode (tx "item"); MString (tx "name") (tx "b")] /\
   f64_as_usize x = 12%N) /\
  nested (map snd [(Rng 0 0, MBool (tx "old") true)]).
Proof.
  split; [exact std_ext_ok|]. split; [|apply nestedb_spec; reflexivity].
  do 3 eexists. split; [exists 40; vm_compute; reflexivity|]. split; reflexivity.
Qed.
