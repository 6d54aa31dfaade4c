(** Property theorems: references to undefined rules. *)
From Coq Require Import Ascii String List NArith Bool Arith.
From Verif Require Import Base Ext Types PegSpec DataSpec ApiSpec OptSpec SyntaxSpec TruthSpec TruthProofs UndefSpec
  UndefProofs UndefPublic Examples.
Import ListNotations.
Local Open Scope string_scope.
Local Open Scope list_scope.
Local Open Scope nat_scope.

(** ** C66: references to undefined rules. *)

(** In a syntax that was read, a reference has no number exactly if its name is not defined;
    otherwise it has the number of the first rule of that name. *)
Theorem C66_names : forall E text s, syntax_returns E text (inl s) ->
  forall r, occurs s r -> refers_by_name (s_names s) r.
Proof. exact syntax_names. Qed.
Print Assumptions C66_names.

(** Parsing is as if the alternatives that are references to undefined rules had not been
    written; elsewhere such references read nothing. *)
Theorem C66_ignored : forall E, ext_ok E -> forall s text tokens ind,
  (forall tokens', parse_returns E (prune_syntax s) text tokens ind None tokens' <->
     parse_returns E s text tokens ind None tokens') /\
  ((exists e tokens', parse_returns E (prune_syntax s) text tokens ind (Some e) tokens') <->
   (exists e tokens', parse_returns E s text tokens ind (Some e) tokens')).
Proof. exact parse_pruned. Qed.
Print Assumptions C66_ignored.

(** The error about an undefined rule is only given if there is one, with its debug id. *)
Theorem C66_error : forall E s ind text tokens rng id tokens',
  parse_returns E s text tokens ind (Some (rng, InvalidRule NodeNotUpdated id)) tokens' ->
  exists name property, used s (RNode name property None id).
Proof. exact undefined_error. Qed.
Print Assumptions C66_error.

(** Finding: a name that is not defined is not reported when the syntax is read, nor when a
    text is parsed for which another alternative is accepted. *)
Theorem C66_reported_refuted : exists text s name property id,
  syntax_returns std_ext text (inl s) /\
  used s (RNode name property None id) /\ ~ In name (s_names s) /\
  parse_returns std_ext s (s2l "x") [] indent_default None [].
Proof.
  exists (s2l "1 doc = {nam ""x""}"). do 4 eexists.
  split; [exists 300; vm_compute; reflexivity|]. split.
  - eapply used_part; [apply used_start; exists []; reflexivity|left; reflexivity].
  - split; [intros [H|[]]; discriminate H|]. exists 100. vm_compute. reflexivity.
Qed.
Print Assumptions C66_reported_refuted.

(** The same syntax without the undefined name; and the text that gives the error. *)
Example C66_example : exists s tokens',
  syntax_returns std_ext (s2l "1 doc = {nam [nam2 ""x""]}") (inl s) /\
  prune_syntax s = Syn [RSelect [RSequence [RSelect [] 1002; RTag (s2l "x") false false None 1003] 1004] 1005] [s2l "doc"] /\
  parse_returns std_ext s (s2l "y") [] indent_default (Some (Rng 0 0, InvalidRule NodeNotUpdated 1002)) tokens'.
Proof.
  do 2 eexists. split; [exists 300; vm_compute; reflexivity|]. split; [reflexivity|].
  exists 100. vm_compute. reflexivity.
Qed.
