(** What is read does not depend on where it stands. *)
From Coq Require Import Ascii String List NArith Bool Arith Lia.
From Verif Require Import Base Ext Types ParseModel DataSpec PegSpec RuleSpec ApiSpec
  ExtProofs RuleProofs ShiftSpec ShiftProofs Examples.
Import ListNotations.
Local Open Scope string_scope.
Local Open Scope list_scope.
Local Open Scope nat_scope.

(** ** C53: a rule reads the same at every position. *)

Theorem C53_position : forall E refs r ind p q s v ind', runs E refs r ind p s v ind' ->
  exists v', moved_verdict p q v v' /\ runs E refs r ind q s v' ind'.
Proof. exact position_irrelevant. Qed.
Print Assumptions C53_position.

(** A start rule behind a fixed text: the rest of the text gives the same tokens and the same
    error as it gives alone, moved by the length of the fixed text. *)
Theorem C53_prefix : forall E, ext_ok E -> forall T r t inv i j names names',
  Forall (refers_below (length T)) T -> refers_below (length T) r ->
  forall ind text tokens,
  (forall tokens', parse_returns E (Syn (T ++ [behind t inv i j r]) names') (t ++ text) tokens ind None tokens' <->
     exists out out', parse_returns E (Syn (T ++ [r]) names) text tokens ind None (tokens ++ out) /\
       Forall2 (moved 0 (length t)) out out' /\ tokens' = tokens ++ out') /\
  (forall e e', moved 0 (length t) e e' ->
     (exists tokens', parse_returns E (Syn (T ++ [behind t inv i j r]) names') (t ++ text) tokens ind (Some e') tokens') <->
     (exists tokens', parse_returns E (Syn (T ++ [r]) names) text tokens ind (Some e) tokens')).
Proof. exact prefix_parse. Qed.
Print Assumptions C53_prefix.

(** [ex_syntax] behind the text "head ". *)
Example C53_example :
  Forall (refers_below 1) [ex_item] /\ refers_below 1 ex_doc /\
  ex_syntax = Syn ([ex_item] ++ [ex_doc]) [tx "item"; tx "doc"] /\
  (exists tokens, parse_returns std_ext ex_syntax ex_bad [] indent_default (Some (Rng 9 0, ExpectedTag (tx "no") 7%N)) tokens) /\
  (exists tokens, parse_returns std_ext (Syn ([ex_item] ++ [behind (tx "head ") false 50 51 ex_doc]) [])
     (tx "head " ++ ex_bad) [] indent_default (Some (Rng 14 0, ExpectedTag (tx "no") 7%N)) tokens).
Proof.
  split; [|split].
  - constructor; [|constructor]. repeat (apply refers_below_intro; [exact I|]; cbn [children ex_item]; repeat apply Forall_cons; try apply Forall_nil).
  - repeat (apply refers_below_intro; [first [exact I|apply Nat.lt_0_1]|]; cbn [children ex_doc]; repeat apply Forall_cons; try apply Forall_nil).
  - split; [reflexivity|]. split; eexists; exists 60; vm_compute; reflexivity.
Qed.
