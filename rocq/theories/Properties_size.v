(** C70: how much data there is. *)
From Coq Require Import Ascii String List NArith Bool Arith Lia.
From Verif Require Import Base Ext Types ParseModel ApiSpec DataSpec TotalSpec ExtProofs TotalCheck SizeSpec SizeProofs SizeLeft SizePeak Examples.
Import ListNotations.
Local Open Scope string_scope.
Local Open Scope list_scope.
Local Open Scope nat_scope.

(** The number of items and nodes left in the vector is at most proportional to the length of
    the text, whether or not the text is accepted. *)
Theorem C70_linear : forall E, ext_ok E -> forall s, well_formed s -> exists c, forall text tokens ind result new,
  parse_returns E s text tokens ind result (tokens ++ new) -> length new <= c * S (length text).
Proof. exact linear_left. Qed.
Print Assumptions C70_linear.

(** No character is used for two items, whether or not the text is accepted. *)
Theorem C70_once : forall E, ext_ok E -> forall s text tokens ind result new,
  parse_returns E s text tokens ind result (tokens ++ new) -> characters new <= length text.
Proof. exact characters_left. Qed.
Print Assumptions C70_once.

(** Fifteen pieces of data from 24 characters, made from 12 of them. *)
Example C70_example : exists new, well_formed ex_syntax /\
  parse_returns std_ext ex_syntax ex_text [] indent_default None ([] ++ new) /\
  length ex_text = 24 /\ length new = 15 /\ characters new = 12.
Proof.
  eexists. split; [apply well_formedb_spec; vm_compute; reflexivity|]. split; [exists 40; vm_compute; reflexivity|].
  vm_compute. auto.
Qed.

(** The same text with a character behind it fails, and leaves the 15 pieces of data and the start of a node that was tried. *)
Example C70_failed_example : exists e new,
  parse_returns std_ext ex_syntax (ex_text ++ [35%N]) [] indent_default (Some e) ([] ++ new) /\
  length new = 16 /\ characters new = 12.
Proof. eexists _, _. split; [exists 40; vm_compute; reflexivity|]. vm_compute. auto. Qed.
