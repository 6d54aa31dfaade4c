(** Properties C01-C08: what parsing returns. *)
From Coq Require Import Ascii String List NArith Bool Arith.
From Verif Require Import Base Ext Types ParseModel PegSpec DataSpec ApiSpec Examples
  ExtProofs PegComplete ParseProofs ParsePublic ModelFacts.
Import ListNotations.

(** ** C01: parsing equals the declarative rule semantics. *)

Theorem C01_success : forall E, ext_ok E -> forall s ind text tokens tokens',
  parse_returns E s text tokens ind None tokens' <->
  exists out, accepts E s ind text out /\ tokens' = tokens ++ out.
Proof. exact parse_accepts. Qed.
Print Assumptions C01_success.

Theorem C01_failure : forall E, ext_ok E -> forall s ind text tokens,
  (exists e tokens', parse_returns E s text tokens ind (Some e) tokens') <->
  exists tr, rejects E s ind text tr.
Proof.
  exact (fun E HE s ind text tokens => conj
    (fun H => match H with ex_intro _ e (ex_intro _ t Hr) =>
       proj1 (error_is_newest_deepest E s ind text tokens e t Hr) end)
    (fun H => match H with ex_intro _ tr Hr => rejects_parse E HE s ind text tokens tr Hr end)).
Qed.
Print Assumptions C01_failure.

(** The specification is unambiguous. *)
Theorem C01_unambiguous : forall E, ext_ok E -> forall s ind text out,
  accepts E s ind text out ->
  (forall out', accepts E s ind text out' -> out = out') /\
  (forall tr, ~ rejects E s ind text tr).
Proof.
  exact (fun E HE s ind text out H => conj
    (fun out' H' => accepts_unique E s ind text out out' H H')
    (fun tr Hr => accepts_not_rejects E HE s ind text out tr H Hr)).
Qed.
Print Assumptions C01_unambiguous.

(** The result is unique. *)
Theorem C01_unique : forall E s ind text tokens result tokens1 result' tokens2,
  parse_returns E s text tokens ind result tokens1 ->
  parse_returns E s text tokens ind result' tokens2 ->
  result = result' /\ tokens1 = tokens2.
Proof. exact parse_returns_unique. Qed.
Print Assumptions C01_unique.

Example C01_example_accepts :
  exists out, accepts std_ext ex_syntax indent_default ex_text out /\ length out = 15.
Proof.
  assert (H : exists tokens', parse_returns std_ext ex_syntax ex_text [] indent_default None tokens'
                              /\ length tokens' = 15)
    by (eexists; split; [exists 100; vm_compute; reflexivity|reflexivity]).
  destruct H as (t & H & Hl). apply (C01_success std_ext std_ext_ok) in H as (out & Ha & ->).
  exists out. auto.
Qed.

Example C01_example_rejects : exists tr, rejects std_ext ex_syntax indent_default ex_bad tr.
Proof.
  apply (C01_failure std_ext std_ext_ok _ _ _ []).
  do 2 eexists. exists 100. vm_compute. reflexivity.
Qed.

(** ** C02: the reported error is the newest of the deepest failures. *)

Theorem C02_newest_deepest : forall E s ind text tokens e tokens',
  parse_returns E s text tokens ind (Some e) tokens' ->
  (exists tr, rejects E s ind text tr) /\
  (forall tr, rejects E s ind text tr -> newest_deepest tr e).
Proof. exact error_is_newest_deepest. Qed.
Print Assumptions C02_newest_deepest.

Theorem C02_newest_deepest_unique : forall tr e e',
  newest_deepest tr e -> newest_deepest tr e' -> e = e'.
Proof. exact PegProofs.newest_deepest_unique. Qed.
Print Assumptions C02_newest_deepest_unique.

(** All four alternatives fail at position 9; the last one is reported, rather than the
    failure to read more items at position 6. *)
Example C02_example : exists tokens',
  parse_returns std_ext ex_syntax ex_bad [] indent_default
    (Some (Rng 9 0, ExpectedTag (s2l "no") 7%N)) tokens'.
Proof. eexists. exists 100. vm_compute. reflexivity. Qed.

(** ** C03: the caller's existing tokens are never touched. *)

Theorem C03_tokens_kept : forall E, ext_ok E -> forall s ind text tokens result tokens',
  parse_returns E s text tokens ind result tokens' -> exists new, tokens' = tokens ++ new.
Proof. exact tokens_kept. Qed.
Print Assumptions C03_tokens_kept.

(** Nor do they influence the result. *)
Theorem C03_tokens_irrelevant : forall E, ext_ok E -> forall s ind text tokens1 tokens2
    result tokens1',
  parse_returns E s text tokens1 ind result tokens1' ->
  exists tokens2', parse_returns E s text tokens2 ind result tokens2' /\
    (result = None -> exists new, tokens1' = tokens1 ++ new /\ tokens2' = tokens2 ++ new).
Proof. exact tokens_irrelevant. Qed.
Print Assumptions C03_tokens_irrelevant.

(** A failed parse does not restore the vector: it may leave new tokens in it. *)
Theorem C03_failure_restores_refuted : exists E s ind text tokens e tokens',
  ext_ok E /\ parse_returns E s text tokens ind (Some e) tokens' /\ tokens' <> tokens.
Proof.
  exists std_ext, ex_syntax, indent_default, ex_bad, [].
  do 2 eexists. split; [exact std_ext_ok|]. split; [exists 100; vm_compute; reflexivity|].
  discriminate.
Qed.
Print Assumptions C03_failure_restores_refuted.

Example C03_example : exists new,
  parse_returns std_ext ex_syntax ex_text [(Rng 7 3, MBool (s2l "old") true)] indent_default None
    ((Rng 7 3, MBool (s2l "old") true) :: new) /\ length new = 15.
Proof. eexists. split; [exists 100; vm_compute; reflexivity|reflexivity]. Qed.

(** ** C04: start and end of nodes are well nested. *)

Theorem C04_nested : forall E, ext_ok E -> forall s ind text tokens tokens',
  parse_returns E s text tokens ind None tokens' ->
  exists new, tokens' = tokens ++ new /\ nested (map snd new).
Proof. exact success_nested. Qed.
Print Assumptions C04_nested.

Example C04_example : exists new,
  parse_returns std_ext ex_syntax ex_text [] indent_default None new /\
  nth_error (map snd new) 0 = Some (StartNode (s2l "item")) /\
  nth_error (map snd new) 3 = Some (EndNode (s2l "item")).
Proof. eexists. split; [exists 100; vm_compute; reflexivity|split; reflexivity]. Qed.

(** ** C05: token ranges are sound. *)

Theorem C05_placed : forall E, ext_ok E -> forall s ind text tokens tokens',
  parse_returns E s text tokens ind None tokens' ->
  exists new, tokens' = tokens ++ new /\ placed 0 (length text) new.
Proof. exact success_placed. Qed.
Print Assumptions C05_placed.

(** What [placed] means for the single ranges. *)
Theorem C05_inside : forall E, ext_ok E -> forall s ind text tokens tokens',
  parse_returns E s text tokens ind None tokens' ->
  exists new, tokens' = tokens ++ new /\ Forall (fun t => next_offset (fst t) <= length text) new.
Proof. exact success_inside. Qed.
Print Assumptions C05_inside.

Theorem C05_ends_sorted : forall E, ext_ok E -> forall s ind text tokens tokens',
  parse_returns E s text tokens ind None tokens' ->
  exists new, tokens' = tokens ++ new /\
  forall i j t u, i <= j -> nth_error new i = Some t -> nth_error new j = Some u ->
  next_offset (fst t) <= next_offset (fst u).
Proof. exact success_sorted. Qed.
Print Assumptions C05_ends_sorted.

Example C05_example : exists new,
  parse_returns std_ext ex_syntax ex_text [] indent_default None new /\
  nth_error new 4 = Some (Rng 6 0, StartNode (s2l "item")) /\
  nth_error new 5 = Some (Rng 7 1, MString (s2l "name") (s2l "b")) /\
  nth_error new 6 = Some (Rng 9 4, MString (s2l "text") (s2l "hi")) /\
  nth_error new 7 = Some (Rng 6 8, EndNode (s2l "item")).
Proof. eexists. split; [exists 100; vm_compute; reflexivity|repeat split]. Qed.

(** ** C06: token values come from the text under their range. *)

Theorem C06_values : forall E, ext_ok E -> forall s ind text tokens tokens',
  parse_returns E s text tokens ind None tokens' ->
  exists new, tokens' = tokens ++ new /\ Forall (made_by E s text) new.
Proof. exact success_made. Qed.
Print Assumptions C06_values.

Example C06_example : exists new,
  parse_returns std_ext ex_syntax ex_text [] indent_default None new /\
  nth_error new 10 = Some (Rng 17 2, MBool (s2l "flag") false) /\
  under ex_text (Rng 17 2) = s2l "no".
Proof. eexists. split; [exists 100; vm_compute; reflexivity|split; reflexivity]. Qed.

(** ** C07: success means that the entire text was read. *)

Theorem C07_success_reads_all : forall E, ext_ok E -> forall s ind text tokens tokens',
  parse_returns E s text tokens ind None tokens' ->
  exists r out ind' tr, start_rule s r /\
    reads E (s_rules s) r ind 0 text (Yes (length text) out) ind' tr.
Proof. exact success_reads_all. Qed.
Print Assumptions C07_success_reads_all.

Theorem C07_early_end : forall E, ext_ok E -> forall s ind text tokens r n out ind' tr,
  start_rule s r -> reads E (s_rules s) r ind 0 text (Yes n out) ind' tr -> n < length text ->
  exists e tokens', parse_returns E s text tokens ind (Some e) tokens' /\ n <= depth e.
Proof. exact early_end. Qed.
Print Assumptions C07_early_end.

Example C07_example : exists r n out ind' tr,
  start_rule ex_syntax r /\
  reads std_ext (s_rules ex_syntax) r indent_default 0 ex_bad (Yes n out) ind' tr /\
  n < length ex_bad.
Proof.
  assert (Hr : start_rule ex_syntax ex_doc) by (exists [ex_item]; reflexivity).
  assert (H : exists res toks' ind', parse_rule std_ext 100 (s_rules ex_syntax) ex_doc ([] ++ []) 0
    (RT ex_bad 0) indent_default = Done (res, toks', ind') /\
    match res with POk rg _ _ => r_len rg = 6 | PErr _ => False end)
    by (do 3 eexists; split; [vm_compute; reflexivity|reflexivity]).
  destruct H as (res & toks' & ind' & H & Hres).
  apply (PegProofs.parse_rule_sound std_ext (s_rules ex_syntax) 100 ex_doc [] []) in H
    as (v & tr & Hv & Ha).
  destruct v as [n out|].
  - exists ex_doc, n, out, ind', tr. split; [exact Hr|]. split; [exact Hv|].
    destruct Ha as (junk & -> & _). simpl in Hres. subst n. vm_compute. repeat constructor.
  - destruct Ha as (e & junk & _ & -> & _). destruct Hres.
Qed.

(** ** C08: error ranges lie inside the text. *)

Theorem C08_error_inside : forall E, ext_ok E -> forall s ind text tokens e tokens',
  parse_returns E s text tokens ind (Some e) tokens' ->
  next_offset (fst e) <= length text.
Proof. exact error_inside. Qed.
Print Assumptions C08_error_inside.

Example C08_example : exists tokens',
  parse_returns std_ext ex_syntax (s2l "(a:12)(b") [] indent_default
    (Some (Rng 8 0, ExpectedTag (s2l ")") 11%N)) tokens' /\
  length (s2l "(a:12)(b") = 8.
Proof. eexists. split; [exists 100; vm_compute; reflexivity|reflexivity]. Qed.
