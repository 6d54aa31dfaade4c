(** The calls made with an optimised syntax. *)
From Coq Require Import Ascii String List NArith Bool Arith Lia.
From Verif Require Import Base Ext Types ParseModel OptimizeModel BootstrapRules PegSpec DataSpec PegFacts PegComplete TotalSpec TotalCheck TotalProofs ApiSpec ParseProofs
  ParsePublic OptSpec OptPublic CostModel CostSpec CostPublic CallSpec CallProofs GrammarSpec GrammarCheck GrammarPublic
  LinearSpec LinearPublic FasterProofs ExtProofs Examples.
Import ListNotations.
Local Open Scope string_scope.
Local Open Scope list_scope.
Local Open Scope nat_scope.

Lemma same_return E (HE : ext_ok E) s s' text tokens ind : optimize_returns s s' -> tails_fail_at_end E s -> Forall real_char text ->
  (exists result tokens', parse_returns E s text tokens ind result tokens') ->
  exists result tokens', parse_returns E s' text tokens ind result tokens'.
Proof.
  intros Ho Ht Hr (result & tokens' & H). destruct result as [e|].
  - destruct (proj1 (optimize_rejects E HE s s' Ho Ht text tokens ind Hr (next_offset (fst e)))) as (e' & tk & H' & _); [eauto|]. eauto.
  - apply (optimize_accepts E HE s s' Ho Ht text tokens ind Hr) in H. eauto.
Qed.

Theorem optimized_calls E (HE : ext_ok E) s s' text tokens ind n : optimize_returns s s' -> tails_fail_at_end E s -> Forall real_char text ->
  makes_calls E s text tokens ind n -> exists n', makes_calls E s' text tokens ind n' /\ n' <= n.
Proof.
  intros Ho Ht Hr Hn.
  destruct (same_return E HE s s' text tokens ind Ho Ht Hr (proj1 (count_exists E s text tokens ind) (ex_intro _ n Hn))) as (result & tokens' & Hp).
  destruct (proj2 (count_exists E s' text tokens ind) (ex_intro _ result (ex_intro _ tokens' Hp))) as (n' & Hn').
  exists n'. split; [exact Hn'|]. destruct Ho as [fuel Ho].
  pose proof (count_tree _ _ _ _ _ _ Hn) as Hc. pose proof (count_tree _ _ _ _ _ _ Hn') as Hc'.
  pose proof (opt_refs s s' fuel Ho) as Hrefs.
  destruct Hc as [He|r n Hs Htree].
  - destruct Hc' as [_|r n' [rules Hs] _]; [lia|]. rewrite He in Hrefs. assert (H0 : s_rules s' = []) by (inversion Hrefs; reflexivity). rewrite H0 in Hs. destruct rules; discriminate.
  - destruct (proj1 (all_fewer E HE s s' fuel Ho Ht) _ _ Htree) as [_ Hf].
    destruct Hc' as [He|r' n' Hs' Htree']; [lia|].
    destruct Hs as [l Hl], Hs' as [l' Hl']. rewrite Hl, Hl' in Hrefs.
    assert (Hrr : optimize_rule fuel (s_rules s) r = Done r').
    { rewrite Hl. apply Forall2_app_inv_l in Hrefs as (a & b & _ & Hb & He). inversion Hb as [|? q ? b' Hq Hnil]; subst. inversion Hnil; subst.
      apply app_inj_tail in He as [_ ->]. exact Hq. }
    destruct (Hf (r', ind, 0, text)) as (m & Hm & Hle).
    { cbn. split; [|auto]. right. split; [exact Hrr|]. intros c Hc. exists r. split; [rewrite Hl; apply in_or_app; right; left; reflexivity|exact Hc]. }
    rewrite (proj1 (tree_unique E s') _ _ Htree' _ Hm). exact Hle.
Qed.

Theorem optimized_linear E (HE : ext_ok E) s s' : valid s -> well_formed s -> clear E s -> without_lookahead s ->
  optimize_returns s s' -> tails_fail_at_end E s ->
  exists c, forall text tokens ind, Forall real_char text -> columns_fit ind text ->
  exists n, makes_calls E s' text tokens ind n /\ n <= c * S (length text).
Proof.
  intros Hv Hw Hc Hn Ho Ht. destruct (linear_returns E HE s Hv Hw Hc Hn) as [c H]. exists c. intros text tokens ind Hr Hf.
  destruct (H text tokens ind Hf) as (n & Hm & Hle). destruct (optimized_calls E HE s s' text tokens ind n Ho Ht Hr Hm) as (n' & Hm' & Hle').
  exists n'. split; [exact Hm'|lia].
Qed.

(** ** Without the proviso *)

(** An alternative that reads nothing at the end, and a dear one behind it. *)
Definition perhaps (c : string) (id : debug_id) : rule := ROptional (RTag (tx c) false false None id) id.
Definition dear : syntax := Syn [RSelect [RSelect [RTag (tx "a") false false None 1; RTag (tx "b") false false None 2; RWhitespace true 3] 4;
    RSequence [perhaps "c" 5; perhaps "d" 6; perhaps "e" 7] 8] 9] [tx "doc"].

Lemma dear_calls : exists s', optimize_returns dear s' /\ makes_calls std_ext dear [] [] indent_default 5 /\ makes_calls std_ext s' [] [] indent_default 9.
Proof.
  eexists. split; [exists 100; vm_compute; reflexivity|]. split; apply (makes_calls_check _ 100); vm_compute; reflexivity.
Qed.

Lemma dear_valid : valid dear /\ well_formed dear.
Proof. split; [apply validb_spec|apply well_formedb_spec]; vm_compute; reflexivity. Qed.

Lemma more_calls : exists s s' text n n', valid s /\ well_formed s /\ optimize_returns s s' /\
  makes_calls std_ext s text [] indent_default n /\ makes_calls std_ext s' text [] indent_default n' /\ n < n'.
Proof.
  destruct dear_calls as (s' & Ho & H1 & H2). destruct dear_valid as [Hv Hw]. exists dear, s', [], 5, 9.
  repeat (split; [assumption|]). lia.
Qed.

Lemma json_calls : exists s', optimize_returns json_syntax s' /\ makes_calls std_ext s' json_text [] indent_default 69 /\
  makes_calls std_ext s' (tx "[[[[[[[[[[") [] indent_default 144.
Proof.
  eexists. split; [exists 100; vm_compute; reflexivity|]. split; apply (makes_calls_check _ 100); vm_compute; reflexivity.
Qed.

Lemma real_check text : forallb (fun c => N.ltb c 1114112) text = true -> Forall real_char text.
Proof. intros H. apply Forall_forall. intros c Hc. apply (proj1 (forallb_forall _ _) H) in Hc. apply N.ltb_lt in Hc. exact Hc. Qed.

Lemma json_real : Forall real_char json_text.
Proof. apply real_check. vm_compute. reflexivity. Qed.

(** ** The built-in rules *)

Theorem built_in_calls E (HE : ext_ok E) boot : optimize_returns bootstrap_rules boot -> forall text tokens ind n n', Forall real_char text ->
  makes_calls E bootstrap_rules text tokens ind n -> makes_calls E boot text tokens ind n' -> n' <= n.
Proof.
  intros Ho text tokens ind n n' Hr Hn Hn'.
  destruct (optimized_calls E HE _ _ text tokens ind n Ho (bootstrap_tails E) Hr Hn) as (m & Hm & Hle).
  rewrite (count_unique _ _ _ _ _ _ _ Hn' Hm). exact Hle.
Qed.

Definition defined : str := tx "0 doc = [!""x"" .r?({.t?:""text"" ..""z""!})]".

Lemma built_in_example : exists boot, optimize_returns bootstrap_rules boot /\ Forall real_char defined /\
  makes_calls std_ext bootstrap_rules defined [] indent_default 223 /\ makes_calls std_ext boot defined [] indent_default 222.
Proof.
  eexists. split; [exists 100; vm_compute; reflexivity|]. split; [apply real_check; vm_compute; reflexivity|].
  split; apply (makes_calls_check _ 100); vm_compute; reflexivity.
Qed.
