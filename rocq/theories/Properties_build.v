(** C84: syntaxes built step by step. *)
From Coq Require Import Ascii String List NArith Bool Arith.
From Verif Require Import Base Ext Types ParseModel OptimizeModel DataSpec ApiSpec OptSpec Examples BuildSpec BuildProofs.
Import ListNotations.
Local Open Scope string_scope.
Local Open Scope list_scope.
Local Open Scope nat_scope.

(** ** C84: a syntax may be resolved and optimised along the way. *)

(** Resolving references before more rules are pushed makes no difference. *)
Theorem C84_resolve : forall s rules names,
  update_refs (Syn (s_rules (update_refs s) ++ rules) (s_names s ++ names)) =
  update_refs (Syn (s_rules s ++ rules) (s_names s ++ names)).
Proof. exact resolve_early. Qed.
Print Assumptions C84_resolve.

(** Nor does optimising, if all references are resolved at that time: what was built along
    the way and what was pushed at once have the same optimised form, or neither has one. *)
Theorem C84_built : forall s l, built s l -> forall s',
  optimize_returns (update_refs s) s' <-> optimize_returns (update_refs (pushed l)) s'.
Proof. exact built_same. Qed.
Print Assumptions C84_built.

Definition C84_tag (s : string) : rule := RTag (tx s) false false None 0.
Definition C84_node (s : string) (i : option nat) : rule := RNode (tx s) None i 0.

(** [a] with a select of its own is resolved and optimised, then [doc] is pushed, which
    refers to [a]. *)
Definition C84_a : rule := RSelect [C84_tag "x"; RSequence [C84_tag "("; C84_node "a" None; C84_tag ")"] 0] 0.
Definition C84_doc : rule := RSelect [RSequence [C84_tag "["; C84_node "a" None] 0; C84_node "a" None; C84_node "doc" None] 0.
Definition C84_list : list (str * rule) := [(tx "a", C84_a); (tx "doc", C84_doc)].

Example C84_example : exists s1 s' s2,
  let s := syntax_push (update_refs s1) (tx "doc") C84_doc in
  built s C84_list /\ optimize_returns (update_refs (syntax_push syntax_new (tx "a") C84_a)) s1 /\
  s1 <> update_refs (syntax_push syntax_new (tx "a") C84_a) /\
  optimize_returns (update_refs s) s' /\ s' = Syn s2 [tx "a"; tx "doc"] /\ length s2 = 2.
Proof.
  do 3 eexists. cbv zeta.
  assert (H : optimize_returns (update_refs (syntax_push syntax_new (tx "a") C84_a))
    (Syn [RFastSelect (set_nth (set_nth (repeat 255 256) 120 0) 40 1)
       [C84_tag "x"; RSequence [C84_tag "("; C84_node "a" (Some 0); C84_tag ")"] 0] false 0] [tx "a"])).
  { exists 10. vm_compute. reflexivity. }
  split.
  - apply (built_push _ [(tx "a", C84_a)]). apply built_resolve. eapply built_optimize; [| |exact H].
    + apply built_resolve. apply (built_push _ []). apply built_new.
    + apply (all_resolved_check 10). reflexivity.
  - split; [exact H|]. split; [discriminate|]. split; [exists 10; vm_compute; reflexivity|]. split; reflexivity.
Qed.

(** The other order, optimising first: references inside of a fast select are never resolved. *)
Theorem C84_order_refuted : exists l s1 s2 text junk,
  optimize_returns (pushed l) s1 /\ optimize_returns (update_refs (pushed l)) s2 /\
  parse_returns std_ext s2 text [] indent_default None [] /\
  parse_returns std_ext (update_refs s1) text [] indent_default (Some (Rng 1 0, InvalidRule NodeNotUpdated 7)) junk.
Proof.
  exists [(tx "a", C84_tag "x");
          (tx "doc", RSelect [RSequence [C84_tag "("; RNode (tx "a") None None 7; C84_tag ")"] 0;
                              RSequence [C84_tag "["; RNode (tx "a") None None 7; C84_tag "]"] 0] 0)].
  do 2 eexists. exists (tx "(x)"), []. split; [exists 10; vm_compute; reflexivity|].
  split; [exists 10; vm_compute; reflexivity|]. split; exists 20; vm_compute; reflexivity.
Qed.
Print Assumptions C84_order_refuted.
