(** Errors say what could stand at their place. *)
From Coq Require Import Ascii String List NArith Bool Arith Lia.
From Verif Require Import Base Ext Types ParseModel PegSpec DataSpec ApiSpec OptSpec ExtProofs PegProofs PegFacts ParseProofs ParsePublic OptPublic
  TotalSpec TotalProofs TotalCheck ShapeSpec GrammarSpec GrammarProofs GrammarCheck GrammarPublic OccursProofs FasterPublic
  ViableSpec ViablePublic ExpectSpec ExpectProofs Examples.
Import ListNotations.
Local Open Scope string_scope.
Local Open Scope list_scope.
Local Open Scope nat_scope.

Theorem error_truthful E : ext_ok E -> forall s, without_lines s -> productive E s -> fast_reads_something E s -> forall r, start_rule s r ->
  forall text tokens ind e tokens', parse_returns E s text tokens ind (Some e) tokens' ->
  exists q z y ms, stopped_at E text e q /\ demands E (snd e) (skipn q text) z /\ Forall real_char y /\
  generates E (s_rules s) r (firstn q text ++ z ++ y) ms /\ (snd e = ExpectedEnd -> y = []).
Proof.
  intros HE s Hl Hp Hfa r Hr text tokens ind e tokens' (fuel & H). apply parse_inv in H.
  destruct H as [(He & _)|(r' & v & ind' & tr & Hr' & Hv & H)].
  { destruct Hr as [a Ha]. rewrite He in Ha. destruct a; discriminate. }
  assert (Hex : exists tr', rejects E s ind text tr' /\ best tr' = Some e).
  { destruct v as [n out|].
    - destruct H as [(Hn & e' & junk & Hb & [= <-] & _)|(_ & ? & _)]; [|discriminate]. eexists. split; [eapply rejects_early; eassumption|exact Hb].
    - destruct H as (e' & junk & Hb & [= <-] & _). eexists. split; [eapply rejects_fail; eassumption|exact Hb]. }
  destruct Hex as (tr' & Hrej & Hb).
  exact (proj1 (Forall_forall _ _) (errors_truthful E HE s Hl Hp Hfa text ind tr' r Hr Hrej) e (best_in _ _ Hb)).
Qed.

Lemma clear_no_fast E s : clear E s -> fast_reads_something E s.
Proof. intros Hc table args tail id Ho. destruct (Hc _ Ho). Qed.

Theorem error_replaced E : ext_ok E -> strings_end E -> forall s, valid s -> well_formed s -> clear E s -> productive E s ->
  forall text tokens ind e tokens', s_rules s <> [] -> parse_returns E s text tokens ind (Some e) tokens' ->
  exists q z y, stopped_at E text e q /\ demands E (snd e) (skipn q text) z /\ Forall real_char y /\ (snd e = ExpectedEnd -> y = []) /\
  forall tokens ind, columns_fit ind (firstn q text ++ z ++ y) ->
    exists tokens', parse_returns E s (firstn q text ++ z ++ y) tokens ind None tokens'.
Proof.
  intros HE Hs s Hv Hw Hc Hp text tokens ind e tokens' Hne H.
  assert (Hr : exists r, start_rule s r).
  { destruct (exists_last Hne) as (a & r & Ha). exists r, a. exact Ha. }
  destruct Hr as [r Hr].
  destruct (error_truthful E HE s (clear_no_lines E s Hc) Hp (clear_no_fast E s Hc) r Hr text tokens ind e tokens' H)
    as (q & z & y & ms & Hq & Hd & Hy & Hg & He).
  exists q, z, y. repeat (split; [assumption|]). intros tk i Hf.
  destruct (proj2 (clear_parse E HE Hs s Hv Hw Hc r Hr _ i Hf tk ms) Hg) as (new & Hn & _). eauto.
Qed.

(** The token that was expected, put in its place. *)
Theorem tag_inserted E : ext_ok E -> strings_end E -> forall s, valid s -> well_formed s -> clear E s -> productive E s ->
  forall text tokens ind at_ tag id tokens', s_rules s <> [] ->
  parse_returns E s text tokens ind (Some (at_, ExpectedTag tag id)) tokens' ->
  ~ starts_with (skipn (r_off at_) text) tag /\
  exists y, Forall real_char y /\ forall tokens ind, columns_fit ind (firstn (r_off at_) text ++ tag ++ y) ->
    exists tokens', parse_returns E s (firstn (r_off at_) text ++ tag ++ y) tokens ind None tokens'.
Proof.
  intros HE Hs s Hv Hw Hc Hp text tokens ind at_ tag id tokens' Hne H.
  destruct (error_replaced E HE Hs s Hv Hw Hc Hp text tokens ind _ tokens' Hne H) as (q & z & y & Hq & Hd & Hy & _ & Hall).
  unfold stopped_at in Hq. cbn in Hq, Hd. subst q. destruct Hd as [Hd ->]. split; [exact Hd|]. exists y. split; [exact Hy|exact Hall].
Qed.

(** The text cut off where its end was expected. *)
Theorem text_cut E : ext_ok E -> strings_end E -> forall s, valid s -> well_formed s -> clear E s -> productive E s ->
  forall text tokens ind at_ tokens', s_rules s <> [] ->
  parse_returns E s text tokens ind (Some (at_, ExpectedEnd)) tokens' ->
  r_off at_ < length text /\ forall tokens ind, columns_fit ind (firstn (r_off at_) text) ->
    exists tokens', parse_returns E s (firstn (r_off at_) text) tokens ind None tokens'.
Proof.
  intros HE Hs s Hv Hw Hc Hp text tokens ind at_ tokens' Hne H.
  destruct (error_replaced E HE Hs s Hv Hw Hc Hp text tokens ind _ tokens' Hne H) as (q & z & y & Hq & Hd & Hy & He & Hall).
  unfold stopped_at in Hq. cbn in Hq, Hd. subst q. destruct Hd as [Hd ->]. specialize (He eq_refl). subst y. cbn in Hall. rewrite app_nil_r in Hall.
  split; [|exact Hall]. destruct (Nat.lt_ge_cases (r_off at_) (length text)) as [Hlt|Hge]; [exact Hlt|]. destruct Hd. apply skipn_all2. exact Hge.
Qed.

(** ** Finding out that fast selects read something *)

Definition reads_something (fuel : nat) (empties : list bool) (refs : list rule) (r : rule) : bool :=
  match r with
  | RFastSelect _ args _ _ => existsb (fun q => fruitful fuel refs q && negb (emptyb empties q)) args
  | _ => true
  end.

Theorem something_check E fuel s : ext_ok E -> literals_exist E ->
  tables_ok (empties_of (s_rules s)) (ranks_of (empties_of (s_rules s)) (s_rules s)) (s_rules s) = true ->
  forallb (all_sub (reads_something fuel (empties_of (s_rules s)) (s_rules s))) (s_rules s) = true -> fast_reads_something E s.
Proof.
  intros HE Hl Ht H table args tail id Ho. apply (all_rules_spec _ _ H) in Ho. cbn in Ho. apply existsb_exists in Ho as (q & Hq & Hf).
  apply andb_true_iff in Hf as [Hf Hn]. destruct (fruitful_spec E Hl _ _ _ Hf) as (x & ms & Hx & Hg). exists x, ms.
  split; [|split; [exact Hx|eapply gen_fast; eassumption]]. intros ->.
  rewrite (emptyb_spec _ _ _ Ht q) in Hn; [discriminate|]. exact (proj1 (generated_empty E HE s) _ _ _ Hg eq_refl).
Qed.

(** ** What was expected need not help *)

(** [[.r?("a") "a"]] demands ["a"] behind any number of them. *)
Lemma greedy_demands : exists s r text at_ tag id tokens, valid s /\ well_formed s /\ without_lines s /\ productive std_ext s /\ start_rule s r /\
  parse_returns std_ext s text [] indent_default (Some (at_, ExpectedTag tag id)) tokens /\
  forall y tokens ind tokens', ~ parse_returns std_ext s (firstn (r_off at_) text ++ tag ++ y) tokens ind None tokens'.
Proof.
  exists greedy. eexists. exists (tx "aab"). do 4 eexists. split; [apply validb_spec; reflexivity|]. split; [apply well_formedb_spec; reflexivity|].
  split.
  { intros r i id H. apply (all_rules_spec (fun q => match q with RLines _ _ _ => false | _ => true end) greedy eq_refl) in H. discriminate. }
  split; [apply (productive_check std_ext 20); [exact std_literals|vm_compute; reflexivity]|].
  split; [exists []; reflexivity|]. split; [exists 20; vm_compute; reflexivity|].
  intros y tokens ind tokens'. apply (greedy_accepts_nothing std_ext std_ext_ok).
Qed.

(** ** JSON values *)

(** A missing comma: the closing bracket would do. *)
Lemma json_missing : exists tokens, parse_returns std_ext json_syntax (tx "[1 2]") [] indent_default (Some (Rng 3 0, ExpectedTag (tx "]") 10)) tokens.
Proof. eexists. exists 100. vm_compute. reflexivity. Qed.

Lemma json_too_long : exists tokens, parse_returns std_ext json_syntax (tx "[1] x") [] indent_default (Some (Rng 4 0, ExpectedEnd)) tokens.
Proof. eexists. exists 100. vm_compute. reflexivity. Qed.

(** The optimised rules, at the end of the text. *)
Lemma json_fast : exists s' tokens, optimize_returns json_syntax s' /\ without_lines s' /\ productive std_ext s' /\ fast_reads_something std_ext s' /\
  parse_returns std_ext s' [] [] indent_default (Some (Rng 0 0, ExpectedSomething 208)) tokens.
Proof.
  eexists. eexists. split; [exists 100; vm_compute; reflexivity|]. split.
  { intros r i id H. revert H. match goal with |- occurs ?s _ -> False =>
      intros H; pose proof (all_rules_spec (fun q => match q with RLines _ _ _ => false | _ => true end) s eq_refl _ H) as Hc; discriminate end. }
  split; [apply (productive_check std_ext 20); [exact std_literals|vm_compute; reflexivity]|].
  split; [apply (something_check std_ext 20); [exact std_ext_ok|exact std_literals|vm_compute; reflexivity|vm_compute; reflexivity]|].
  exists 100. vm_compute. reflexivity.
Qed.
