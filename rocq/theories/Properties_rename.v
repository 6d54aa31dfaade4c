(** Names of properties, names and numbers of rules, unused definitions. *)
From Coq Require Import Ascii String List NArith Bool Arith Lia.
From Verif Require Import Base Ext Types ParseModel OptimizeModel DataSpec PegSpec ApiSpec OptSpec
  ExtProofs RenameSpec RenameProofs RenameProofs2 Examples.
Import ListNotations.
Local Open Scope string_scope.
Local Open Scope list_scope.
Local Open Scope nat_scope.

(** ** C47: properties only name the tokens. *)

(** Renaming or dropping properties changes the tokens accordingly and nothing else. *)
Theorem C47_properties : forall E f s, ext_ok E -> forall text tokens ind,
  (forall tokens', parse_returns E (syntax_with_properties f s) text tokens ind None tokens' <->
     exists out, parse_returns E s text tokens ind None (tokens ++ out) /\
       tokens' = tokens ++ new_tokens f out) /\
  (forall e,
     (exists tokens', parse_returns E (syntax_with_properties f s) text tokens ind (Some e) tokens') <->
     (exists tokens', parse_returns E s text tokens ind (Some e) tokens')).
Proof.
  exact (fun E f s HE => parse_renamed E f eq s _ HE (syntax_with_properties_renamed f s)).
Qed.
Print Assumptions C47_properties.

(** So does changing them before optimisation. *)
Theorem C47_properties_optimized : forall E f s o, ext_ok E -> optimize_returns s o ->
  exists o', optimize_returns (syntax_with_properties f s) o' /\ forall text tokens ind,
  (forall tokens', parse_returns E o' text tokens ind None tokens' <->
     exists out, parse_returns E o text tokens ind None (tokens ++ out) /\
       tokens' = tokens ++ new_tokens f out) /\
  (forall e, (exists tokens', parse_returns E o' text tokens ind (Some e) tokens') <->
     (exists tokens', parse_returns E o text tokens ind (Some e) tokens')).
Proof.
  exact (fun E f s o HE Ho => match with_properties_optimize f s o Ho with
    | ex_intro _ o' Ho' => ex_intro _ o' (conj Ho' (parse_renamed E f eq o o' HE
        (optimize_renamed f eq s _ o o' (syntax_with_properties_renamed f s) Ho Ho'))) end).
Qed.
Print Assumptions C47_properties_optimized.

(** "a" is dropped and everything else is renamed. *)
Example C47_example :
  let f n := if str_eqb n (tx "a") then None else Some (tx "x" ++ n) in
  let s := Syn [RSequence [RTag (tx "1") false false (Some (tx "a")) 1000%N; RTag (tx "2") false false (Some (tx "b")) 1001%N] 1000%N] [tx "doc"] in
  parse_returns std_ext s (tx "12") [] indent_default None
    [(Rng 0 1, MBool (tx "a") true); (Rng 1 1, MBool (tx "b") true)] /\
  parse_returns std_ext (syntax_with_properties f s) (tx "12") [] indent_default None
    [(Rng 1 1, MBool (tx "xb") true)].
Proof. split; exists 20; vm_compute; reflexivity. Qed.

(** ** C48: names and numbers of rules do not matter. *)

(** Two syntaxes that differ only in the names and the numbers of their rules, and in rules
    that do not correspond to any, behave alike. *)
Theorem C48_numbering : forall E G s s', ext_ok E -> renamed_syntax Some G s s' -> forall text tokens ind,
  (forall tokens', parse_returns E s' text tokens ind None tokens' <->
     parse_returns E s text tokens ind None tokens') /\
  (forall e, (exists tokens', parse_returns E s' text tokens ind (Some e) tokens') <->
     (exists tokens', parse_returns E s text tokens ind (Some e) tokens')).
Proof. exact parse_same. Qed.
Print Assumptions C48_numbering.

(** Optimisation keeps the correspondence. *)
Theorem C48_optimized : forall f G s s' o o', renamed_syntax f G s s' ->
  optimize_returns s o -> optimize_returns s' o' -> renamed_syntax f G o o'.
Proof. exact optimize_renamed. Qed.
Print Assumptions C48_optimized.

(** Rules 0 and 1 exchanged and renamed. *)
Example C48_example :
  let a k := RSequence [RTag (tx "(") false false None 1000%N; ROptional (RNode (tx "b") (Some (tx "b")) (Some k) 1001%N) 1002%N] 1003%N in
  let b k := RSequence [RTag (tx ")") false false None 2000%N; ROptional (RNode (tx "q") None (Some k) 2001%N) 2002%N] 2003%N in
  let doc k := RNode (tx "a") (Some (tx "a")) (Some k) 3000%N in
  renamed_syntax Some (fun k k' => (k = 0 /\ k' = 1) \/ (k = 1 /\ k' = 0))
    (Syn [a 1; b 0; doc 0] [tx "a"; tx "b"; tx "doc"])
    (Syn [b 1; a 0; doc 1] [tx "x"; tx "y"; tx "z"]).
Proof.
  assert (Hp : forall (G : nat -> nat -> Prop) n p k k' i, G k k' -> renamed Some G (RNode n p (Some k) i) (RNode n p (Some k') i)).
  { intros G n p k k' i H. replace p with (new_property Some p) at 2 by (destruct p; reflexivity).
    constructor. exact H. }
  assert (Ht : forall G t i, renamed Some G (RTag t false false None i) (RTag t false false None i))
    by (intros; apply (rn_tag Some)).
  intros a b doc. split.
  - intros k k' [[-> ->]|[-> ->]]; cbn; repeat (first [apply Hp; tauto|apply Ht|constructor]).
  - right. exists (doc 0), (doc 1). split; [exists [a 1; b 0]; reflexivity|].
    split; [exists [b 1; a 0]; reflexivity|]. apply Hp. tauto.
Qed.

(** ** C49: only the definitions that are needed matter. *)

(** Two lists of definitions that end with the same rule, and agree about every name that
    this rule needs, make syntaxes that behave alike. Unused definitions, later definitions
    of the same name and the order of definitions do not matter. *)
Theorem C49_definitions : forall E l l' name name' main, ext_ok E ->
  let defs := l ++ [(name, main)] in let defs' := l' ++ [(name', main)] in
  (forall n, needs defs main n -> forall r, defined defs n r <-> defined defs' n r) ->
  by_name main -> (forall n r, needs defs main n -> defined defs n r -> by_name r) ->
  forall text tokens ind,
  (forall tokens', parse_returns E (built defs') text tokens ind None tokens' <->
     parse_returns E (built defs) text tokens ind None tokens') /\
  (forall e, (exists tokens', parse_returns E (built defs') text tokens ind (Some e) tokens') <->
     (exists tokens', parse_returns E (built defs) text tokens ind (Some e) tokens')).
Proof.
  exact (fun E l l' name name' main HE Hsame Hm Hn =>
    parse_same E _ _ _ HE (definitions_renamed _ _ main Hsame Hm Hn l l' name name' eq_refl eq_refl)).
Qed.
Print Assumptions C49_definitions.

(** The same after optimisation. *)
Theorem C49_definitions_optimized : forall E l l' name name' main o o', ext_ok E ->
  let defs := l ++ [(name, main)] in let defs' := l' ++ [(name', main)] in
  (forall n, needs defs main n -> forall r, defined defs n r <-> defined defs' n r) ->
  by_name main -> (forall n r, needs defs main n -> defined defs n r -> by_name r) ->
  optimize_returns (built defs) o -> optimize_returns (built defs') o' ->
  forall text tokens ind,
  (forall tokens', parse_returns E o' text tokens ind None tokens' <->
     parse_returns E o text tokens ind None tokens') /\
  (forall e, (exists tokens', parse_returns E o' text tokens ind (Some e) tokens') <->
     (exists tokens', parse_returns E o text tokens ind (Some e) tokens')).
Proof.
  exact (fun E l l' name name' main o o' HE Hsame Hm Hn Ho Ho' =>
    parse_same E _ _ _ HE (optimize_renamed _ _ _ _ _ _
      (definitions_renamed _ _ main Hsame Hm Hn l l' name name' eq_refl eq_refl) Ho Ho')).
Qed.
Print Assumptions C49_definitions_optimized.

(** The definition of "b" is not needed and "a" is defined twice. *)
Example C49_example :
  let a := RTag (tx "1") false false (Some (tx "a")) 1000%N in
  let b := RNumber false (Some (tx "b")) 2000%N in
  let main := RRepeat (RNode (tx "a") None None 3000%N) false 3001%N in
  let defs := [(tx "b", b); (tx "a", a); (tx "a", b); (tx "doc", main)] in
  let defs' := [(tx "a", a); (tx "doc", main)] in
  (forall n, needs defs main n -> forall r, defined defs n r <-> defined defs' n r) /\
  by_name main /\ (forall n r, needs defs main n -> defined defs n r -> by_name r) /\
  parse_returns std_ext (built defs) (tx "11") [] indent_default None
    [(Rng 0 1, MBool (tx "a") true); (Rng 1 1, MBool (tx "a") true)].
Proof.
  intros a b main defs defs'.
  assert (Hda : forall r, defined defs (tx "a") r <-> r = a).
  { intros r. split.
    - intros H. apply (defined_unique defs (tx "a")); [exact H|]. exists [(tx "b", b)], [(tx "a", b); (tx "doc", main)].
      split; [reflexivity|]. intros [H1|[]]. discriminate H1.
    - intros ->. exists [(tx "b", b)], [(tx "a", b); (tx "doc", main)].
      split; [reflexivity|]. intros [H1|[]]. discriminate H1. }
  assert (Hda' : forall r, defined defs' (tx "a") r <-> r = a).
  { intros r. split.
    - intros H. apply (defined_unique defs' (tx "a")); [exact H|]. exists [], [(tx "doc", main)]. split; [reflexivity|]. tauto.
    - intros ->. exists [], [(tx "doc", main)]. split; [reflexivity|]. tauto. }
  assert (Hra : forall n, ~ refers a n).
  { intros n (p & i & H). inversion H as [|r0 c Hc Hx]; subst. destruct Hc. }
  assert (Hn : forall n, needs defs main n -> n = tx "a").
  { intros n H. induction H as [n (p & i & H)|n r n' _ -> Hd Hr].
    - inversion H as [|r0 c Hc Hx]; subst. destruct Hc as [<-|[]]. inversion Hx as [|r1 d Hd Hy]; subst; [reflexivity|].
      destruct Hd.
    - apply Hda in Hd. subst r. destruct (Hra _ Hr). }
  split; [intros n H r; rewrite (Hn n H), Hda, Hda'; reflexivity|].
  split.
  { intros x Hx. inversion Hx as [|r0 c Hc Hy]; subst; [exact I|]. destruct Hc as [<-|[]].
    inversion Hy as [|r1 d Hd Hz]; subst; [exact I|]. destruct Hd. }
  split.
  { intros n r H Hd. rewrite (Hn n H) in Hd. apply Hda in Hd. subst r.
    intros x Hx. inversion Hx as [|r0 c Hc Hy]; subst; [exact I|]. destruct Hc. }
  exists 30. vm_compute. reflexivity.
Qed.
