(** Properties C19-C22, C24, C32: references and optimisation. *)
From Coq Require Import Ascii String List NArith Bool Arith.
From Verif Require Import Base Ext Types ParseModel OptimizeModel BootstrapRules PegSpec DataSpec
  ApiSpec RuleSpec OptSpec Examples ExtProofs OccursProofs RuleProofs OptProofs OptProofs2 OptPublic ModelFacts.
Import ListNotations.
Local Open Scope string_scope.
Local Open Scope list_scope.

(** ** C19: reference resolution. *)

Theorem C19_update_refs : forall s,
  s_names (update_refs s) = s_names s /\
  Forall2 (resolved (s_names s)) (s_rules s) (s_rules (update_refs s)).
Proof. exact syntax_update_refs_resolved. Qed.
Print Assumptions C19_update_refs.

(** [resolved] leaves no choice. *)
Theorem C19_resolved_unique : forall s rs,
  Forall2 (resolved (s_names s)) (s_rules s) rs -> update_refs s = Syn rs (s_names s).
Proof. exact update_refs_only. Qed.
Print Assumptions C19_resolved_unique.

Theorem C19_idempotent : forall s, update_refs (update_refs s) = update_refs s.
Proof. exact syntax_update_refs_again. Qed.
Print Assumptions C19_idempotent.

(** Indices are in range. *)
Theorem C19_in_range : forall s name property i id,
  occurs (update_refs s) (RNode name property (Some i) id) ->
  occurs s (RNode name property (Some i) id) \/
  (first_index (s_names s) name i /\ i < length (s_names s)).
Proof. exact update_refs_in_range. Qed.
Print Assumptions C19_in_range.

(** Parsing an unresolved reference is an error. *)
Theorem C19_unresolved : forall E rules names name property id text tokens ind result tokens',
  parse_returns E (Syn (rules ++ [RNode name property None id]) names) text tokens ind
    result tokens' ->
  result = Some (Rng 0 0, InvalidRule NodeNotUpdated id) /\ tokens' = tokens.
Proof. exact reads_unresolved. Qed.
Print Assumptions C19_unresolved.

Example C19_example :
  let n name i := RNode (tx name) None i 0 in
  update_refs (Syn [RSequence [n "b" None; n "c" None; n "a" (Some 7)] 0; RNot (n "b" None) 0]
                   [tx "a"; tx "b"; tx "b"])
  = Syn [RSequence [n "b" (Some 1); n "c" None; n "a" (Some 7)] 0; RNot (n "b" (Some 1)) 0]
        [tx "a"; tx "b"; tx "b"].
Proof. reflexivity. Qed.

Example C19_example_unresolved : exists result tokens',
  parse_returns std_ext (Syn ([] ++ [RNode (tx "c") None None 5]) [tx "a"]) (tx "x") []
    indent_default result tokens'.
Proof. do 2 eexists. exists 10. vm_compute. reflexivity. Qed.

(** ** C20: the first-byte analysis is sound. *)

Theorem C20_unique_byte : forall E, ext_ok E -> forall refs r b, has_unique_byte refs r b ->
  forall ind p s, not_ahead b s -> forall base junk,
  exists fuel e junk',
    parse_rule E fuel refs r (base ++ junk) (length base) (RT s p) ind
      = Done (PErr (Rng p 0, e), base ++ junk', ind).
Proof. exact unique_byte_sound. Qed.
Print Assumptions C20_unique_byte.

Example C20_example :
  has_unique_byte (s_rules ex_syntax) (RNot (RNot (RNode (tx "item") None (Some 0) 0) 0) 0) 40 /\
  has_unique_byte [] (RText false None 0) 34 /\
  has_unique_byte [] (RTag [228%N; 97%N] false false None 0) 195 /\
  not_ahead 195 (tx "ab").
Proof. repeat split; try (exists 10; reflexivity). discriminate. Qed.

(** ** C21: the tables of fast selects. *)

Theorem C21_table : forall fuel refs args table up,
  unique_table_from_select fuel refs args = Done (table, up) ->
  length table = 256 /\ up <= 255 /\ up <= length args /\
  (forall b i, nth_error table b = Some i -> i <> 255 ->
     i < up /\ exists r, nth_error args i = Some r /\ has_unique_byte refs r (N.of_nat b)) /\
  (forall i r, i < up -> nth_error args i = Some r ->
     exists b, has_unique_byte refs r b /\ nth_error table (N.to_nat b) = Some i) /\
  (forall i j r r' b, i < up -> j < up -> nth_error args i = Some r ->
     nth_error args j = Some r' -> has_unique_byte refs r b -> has_unique_byte refs r' b ->
     i = j) /\
  (forall r, up < 255 -> nth_error args up = Some r ->
     unique_byte fuel refs r = Done None \/
     exists i r' b, i < up /\ nth_error args i = Some r' /\
       has_unique_byte refs r b /\ has_unique_byte refs r' b).
Proof. exact table_public. Qed.
Print Assumptions C21_table.

Example C21_example :
  let t s := RTag (tx s) false false None 0 in
  exists table,
  unique_table_from_select 5 [] [t "ab"; t "b"; t "c"; t "a"; t "d"] = Done (table, 3) /\
  nth_error table 97 = Some 0 /\ nth_error table 100 = Some 255.
Proof. eexists. split; [vm_compute; reflexivity|split; reflexivity]. Qed.

(** ** C22: optimisation preserves parsing. *)

Theorem C22_same_acceptance : forall E, ext_ok E -> forall s s',
  optimize_returns s s' -> tails_fail_at_end E s ->
  forall text tokens ind, Forall real_char text ->
  forall tokens', parse_returns E s text tokens ind None tokens' <->
                  parse_returns E s' text tokens ind None tokens'.
Proof. exact optimize_accepts. Qed.
Print Assumptions C22_same_acceptance.

Theorem C22_same_depth : forall E, ext_ok E -> forall s s',
  optimize_returns s s' -> tails_fail_at_end E s ->
  forall text tokens ind, Forall real_char text ->
  forall d,
  (exists e tokens', parse_returns E s text tokens ind (Some e) tokens' /\ next_offset (fst e) = d) <->
  (exists e tokens', parse_returns E s' text tokens ind (Some e) tokens' /\ next_offset (fst e) = d).
Proof. exact optimize_rejects. Qed.
Print Assumptions C22_same_depth.

(** A select with a tail; the tail fails at the end of a text. *)
Definition ex_opt : syntax :=
  let t s := RTag (tx s) false false (Some (tx s)) 0 in
  Syn [RRepeat (RSelect [t "ab"; t "b"; t "c"; t "ad"] 1) true 2] [tx "doc"].

Example C22_example : exists s', optimize_returns ex_opt s' /\ s' <> ex_opt /\
  tails_fail_at_end std_ext ex_opt /\
  parse_returns std_ext s' (tx "adbab") [] indent_default None
    [(Rng 0 2, MBool (tx "ad") true); (Rng 2 1, MBool (tx "b") true);
     (Rng 3 2, MBool (tx "ab") true)].
Proof.
  eexists. split; [exists 10; vm_compute; reflexivity|]. split; [discriminate|]. split.
  - intros rest (args & id & fuel & table & up & Ho & Ht & Hup & ->) r Hr.
    destruct Ho as (top & [<-|[]] & Ho).
    assert (Hargs : RSelect args id = hd (RSelect [] 0) (children (hd (RSelect [] 0) (s_rules ex_opt)))).
    { inversion Ho as [|r' c Hc Ho']; subst. destruct Hc as [<-|[]].
      inversion Ho' as [|r' c Hc Ho2]; subst; [reflexivity|].
      repeat (destruct Hc as [<-|Hc]; [inversion Ho2; subst; contradiction|]). destruct Hc. }
    injection Hargs as -> ->.
    pose proof (unique_table_unique _ _ fuel 10 _ _ Ht eq_refl) as He. injection He as -> ->.
    destruct Hr as [<-|[]]. intros ind p. exists ind.
    apply (runs_eval std_ext _ 10). reflexivity.
  - exists 100. vm_compute. reflexivity.
Qed.

(** Without the proviso: [{"a" "b" .w?}] accepts the empty text, its optimised form does
    not. *)
Theorem C22_same_acceptance_refuted : exists s s' out e junk,
  optimize_returns s s' /\
  parse_returns std_ext s [] [] indent_default None out /\
  parse_returns std_ext s' [] [] indent_default (Some e) junk.
Proof.
  exists (Syn [RSelect [RTag (tx "a") false false None 1; RTag (tx "b") false false None 2;
                        RWhitespace true 3] 4] [tx "doc"]).
  do 4 eexists. split; [exists 10; vm_compute; reflexivity|].
  split; exists 100; vm_compute; reflexivity.
Qed.
Print Assumptions C22_same_acceptance_refuted.

(** ** C24: optimisation is idempotent. *)

Theorem C24_idempotent : forall s s', optimize_returns s s' -> optimize_returns s' s'.
Proof. exact optimize_idempotent. Qed.
Print Assumptions C24_idempotent.

(** and its result is unique. *)
Theorem C24_unique : forall s s1 s2,
  optimize_returns s s1 -> optimize_returns s s2 -> s1 = s2.
Proof. exact optimize_returns_unique. Qed.
Print Assumptions C24_unique.

Example C24_example : exists s', optimize_returns ex_opt s' /\ s' <> ex_opt.
Proof. eexists. split; [exists 10; vm_compute; reflexivity|discriminate]. Qed.

(** ** C32: the optimised built-in rules are equivalent to the built-in rules. *)

Theorem C32_bootstrap : forall E, ext_ok E -> exists boot,
  optimize_returns bootstrap_rules boot /\
  forall text tokens ind, Forall real_char text ->
  (forall tokens', parse_returns E bootstrap_rules text tokens ind None tokens' <->
                   parse_returns E boot text tokens ind None tokens') /\
  (forall d,
    (exists e tokens', parse_returns E bootstrap_rules text tokens ind (Some e) tokens' /\
       next_offset (fst e) = d) <->
    (exists e tokens', parse_returns E boot text tokens ind (Some e) tokens' /\
       next_offset (fst e) = d)).
Proof. exact bootstrap_optimized. Qed.
Print Assumptions C32_bootstrap.

Example C32_example : exists boot tokens,
  optimize_returns bootstrap_rules boot /\ boot <> bootstrap_rules /\
  parse_returns std_ext boot (tx "0 doc = .w?") [] indent_default None tokens.
Proof.
  eexists. eexists. split; [exists 100; vm_compute; reflexivity|]. split.
  - vm_compute. discriminate.
  - exists 200. vm_compute. reflexivity.
Qed.
