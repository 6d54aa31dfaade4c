(** Property theorems: exactly what optimisation changes. *)
From Coq Require Import Ascii String List NArith Bool Arith.
From Verif Require Import Base Ext Types ParseModel OptimizeModel PegSpec DataSpec ApiSpec OptSpec StuckSpec GuardSpec
  GuardProofs ExtProofs Examples.
Import ListNotations.
Local Open Scope string_scope.
Local Open Scope list_scope.
Local Open Scope nat_scope.

(** ** C72: without the proviso of C22. Where a select has two or more alternatives that are told
    apart by their first byte, the alternatives behind them are not tried at the end of the text.
    Nothing else changes. *)

(** The changed rules exist, and there is one choice. *)
Theorem C72_guarded : forall s s', optimize_returns s s' -> exists g, guarded s g.
Proof. exact guarded_exists. Qed.
Print Assumptions C72_guarded.

Theorem C72_guarded_unique : forall s g g', guarded s g -> guarded s g' -> g = g'.
Proof. exact guarded_unique. Qed.
Print Assumptions C72_guarded_unique.

(** The optimised syntax accepts what the changed rules accept, with the same data. *)
Theorem C72_same_acceptance : forall E, ext_ok E -> forall s s' g,
  optimize_returns s s' -> guarded s g ->
  forall text tokens ind, Forall real_char text ->
  forall tokens', parse_returns E g text tokens ind None tokens' <->
                  parse_returns E s' text tokens ind None tokens'.
Proof. exact guarded_accepts. Qed.
Print Assumptions C72_same_acceptance.

(** The other texts are rejected by both, at the same place. *)
Theorem C72_same_depth : forall E, ext_ok E -> forall s s' g,
  optimize_returns s s' -> guarded s g ->
  forall text tokens ind, Forall real_char text ->
  forall d,
  (exists e tokens', parse_returns E g text tokens ind (Some e) tokens' /\ next_offset (fst e) = d) <->
  (exists e tokens', parse_returns E s' text tokens ind (Some e) tokens' /\ next_offset (fst e) = d).
Proof. exact guarded_rejects. Qed.
Print Assumptions C72_same_depth.

(** Finding: optimisation does not only lose texts. Behind a [!] the same change makes a text
    accepted that was rejected: [!{"a" "b" .w?}] and the empty text. *)
Theorem C72_only_fewer_refuted : exists s s' out e junk,
  optimize_returns s s' /\
  parse_returns std_ext s [] [] indent_default (Some e) junk /\
  parse_returns std_ext s' [] [] indent_default None out.
Proof.
  exists (Syn [RNot (RSelect [RTag (tx "a") false false None 1; RTag (tx "b") false false None 2;
                        RWhitespace true 3] 4) 5] [tx "doc"]).
  do 4 eexists. split; [exists 10; vm_compute; reflexivity|].
  split; exists 100; vm_compute; reflexivity.
Qed.
Print Assumptions C72_only_fewer_refuted.

(** [{"a" "b" .w?}]: [.w?] is tried only if some text is left. The original accepts the empty
    text; the changed and the optimised rules do not. All accept a space. *)
Example C72_example :
  let a := RTag (tx "a") false false None 1 in
  let b := RTag (tx "b") false false None 2 in
  let w := RWhitespace true 3 in
  let s := Syn [RSelect [a; b; w] 4] [tx "doc"] in
  let g := Syn [RSelect [a; b; if_left w] 4] [tx "doc"] in
  guarded s g /\
  exists s', optimize_returns s s' /\
    (exists out, parse_returns std_ext s (tx "") [] indent_default None out) /\
    (exists e out, parse_returns std_ext g (tx "") [] indent_default (Some e) out) /\
    (exists e out, parse_returns std_ext s' (tx "") [] indent_default (Some e) out) /\
    (exists out, parse_returns std_ext g (tx " ") [] indent_default None out) /\
    (exists out, parse_returns std_ext s' (tx " ") [] indent_default None out) /\
    Forall real_char (tx " ").
Proof.
  intros a b w s g. split.
  - split; [reflexivity|]. constructor; [|constructor].
    apply (g_tail s [a; b; w] [a; b; w] 4 2); [repeat constructor| |repeat constructor].
    eapply (table_apart s 10). vm_compute. reflexivity.
  - eexists. split; [exists 10; vm_compute; reflexivity|].
    split; [eexists; exists 100; vm_compute; reflexivity|].
    split; [do 2 eexists; exists 100; vm_compute; reflexivity|].
    split; [do 2 eexists; exists 100; vm_compute; reflexivity|].
    split; [eexists; exists 100; vm_compute; reflexivity|].
    split; [eexists; exists 100; vm_compute; reflexivity|].
    repeat constructor.
Qed.
