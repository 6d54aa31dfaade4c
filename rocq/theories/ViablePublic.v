(** Errors stand behind texts that can be completed. *)
From Coq Require Import Ascii String List NArith Bool Arith Lia.
From Verif Require Import Base Ext Types ParseModel PegSpec DataSpec ApiSpec ExtProofs PegProofs PegFacts PegComplete ParseProofs ParsePublic OptPublic
  TotalSpec TotalProofs TotalCheck ShapeSpec GrammarSpec GrammarProofs GrammarCheck GrammarPublic OccursProofs FasterPublic ViableSpec ViableProofs Examples.
Import ListNotations.
Local Open Scope string_scope.
Local Open Scope list_scope.
Local Open Scope nat_scope.

Lemma best_in tr e : best tr = Some e -> In e tr.
Proof.
  unfold best. assert (H : forall tr o, fold_left (fun o e => err_update (Some e) o) tr o = Some e -> In e tr \/ o = Some e).
  { clear. intros tr. induction tr as [|a tr IH]; intros o H; [right; exact H|]. cbn in H. apply IH in H. destruct H as [H|H]; [left; right; exact H|].
    destruct o as [b|]; cbn in H; [|left; left; congruence]. destruct (_ <=? _) in H; injection H as <-; auto using in_eq. }
  intros Hb. apply H in Hb. destruct Hb as [Hb|Hb]; [exact Hb|discriminate].
Qed.

Theorem error_viable E : ext_ok E -> forall s, without_lines s -> productive E s -> forall r, start_rule s r ->
  forall text tokens ind e tokens', parse_returns E s text tokens ind (Some e) tokens' ->
  exists q, stopped_at E text e q /\ exists y ms, Forall real_char y /\ generates E (s_rules s) r (firstn q text ++ y) ms.
Proof.
  intros HE s Hl Hp r Hr text tokens ind e tokens' (fuel & H). apply parse_inv in H.
  destruct H as [(He & _)|(r' & v & ind' & tr & Hr' & Hv & H)].
  { destruct Hr as [a Ha]. rewrite He in Ha. destruct a; discriminate. }
  assert (Hex : exists tr', rejects E s ind text tr' /\ best tr' = Some e).
  { destruct v as [n out|].
    - destruct H as [(Hn & e' & junk & Hb & [= <-] & _)|(_ & ? & _)]; [|discriminate]. eexists. split; [eapply rejects_early; eassumption|exact Hb].
    - destruct H as (e' & junk & Hb & [= <-] & _). eexists. split; [eapply rejects_fail; eassumption|exact Hb]. }
  destruct Hex as (tr' & Hrej & Hb).
  exact (proj1 (Forall_forall _ _) (errors_there E HE s Hl Hp text ind tr' r Hr Hrej) e (best_in _ _ Hb)).
Qed.

Theorem error_completed E : ext_ok E -> strings_end E -> forall s, valid s -> well_formed s -> clear E s -> productive E s ->
  forall text tokens ind e tokens', s_rules s <> [] -> parse_returns E s text tokens ind (Some e) tokens' ->
  exists q, stopped_at E text e q /\ exists y, Forall real_char y /\
  forall tokens ind, columns_fit ind (firstn q text ++ y) -> exists tokens', parse_returns E s (firstn q text ++ y) tokens ind None tokens'.
Proof.
  intros HE Hs s Hv Hw Hc Hp text tokens ind e tokens' Hne H.
  assert (Hr : exists r, start_rule s r).
  { destruct (exists_last Hne) as (a & r & Ha). exists r, a. exact Ha. }
  destruct Hr as [r Hr].
  destruct (error_viable E HE s (clear_no_lines E s Hc) Hp r Hr text tokens ind e tokens' H) as (q & Hq & y & ms & Hy & Hg).
  exists q. split; [exact Hq|]. exists y. split; [exact Hy|]. intros tk i Hf.
  destruct (proj2 (clear_parse E HE Hs s Hv Hw Hc r Hr _ i Hf tk ms) Hg) as (new & Hn & _). eauto.
Qed.

(** ** Finding out that every rule generates some text *)

Definition literals_exist (E : ext) : Prop :=
  (exists x val, Forall real_char x /\ x_string E x = Some (length x) /\ length x <> 2 /\ x_parse_string E x = inl val) /\
  forall u, exists x val, Forall real_char x /\ x_number E u x = Some (length x) /\ x_parse_number E u x = Some val.

Definition letters : str := tx "abcdefghijklmnopqrstuvwxyz0123456789".
Definition some_letter (any : str) : bool := existsb (fun c => negb (existsb (N.eqb c) any)) letters.

Fixpoint fruitful (fuel : nat) (refs : list rule) (r : rule) : bool :=
  match fuel with
  | O => false
  | S fuel =>
    match r with
    | RWhitespace _ _ => true
    | RTag text _ _ _ _ => forallb (fun c => N.ltb c 1114112) text
    | RUntilAny any o _ _ | RUntilAnyOrWs any o _ _ => o || some_letter any
    | RText _ _ _ | RNumber _ _ _ => true
    | RSequence args _ => forallb (fruitful fuel refs) args
    | RSelect args _ | RFastSelect _ args _ _ => existsb (fruitful fuel refs) args
    | RRepeat r o _ => o || fruitful fuel refs r
    | RSeparateBy r _ o _ _ => o || fruitful fuel refs r
    | RNode _ _ (Some i) _ => match nth_error refs i with Some r => fruitful fuel refs r | None => false end
    | ROptional _ _ | RNot _ _ => true
    | _ => false
    end
  end.

Lemma letters_plain c : In c letters -> real_char c /\ ~ white c.
Proof.
  assert (H : forallb (fun c => N.ltb c 1114112 && negb (is_ws c)) letters = true) by (vm_compute; reflexivity).
  intros Hc. apply (proj1 (forallb_forall _ _) H) in Hc. apply andb_true_iff in Hc as [H1 H2]. apply N.ltb_lt in H1. split; [exact H1|].
  unfold white. destruct (is_ws c); [discriminate|]. discriminate.
Qed.

Lemma letter_found any : some_letter any = true -> exists c, real_char c /\ ~ white c /\ ~ In c any.
Proof.
  intros H. apply existsb_exists in H as (c & Hc & Hn). exists c. destruct (letters_plain c Hc) as [Hr Hw]. split; [exact Hr|]. split; [exact Hw|].
  intros Hi. apply negb_true_iff in Hn. assert (existsb (N.eqb c) any = true) by (apply existsb_exists; exists c; split; [exact Hi|apply N.eqb_refl]). congruence.
Qed.

Section Fruitful.
  Variable E : ext.
  Hypothesis Hlit : literals_exist E.
  Variable refs : list rule.

  Lemma fruitful_spec fuel : forall r, fruitful fuel refs r = true -> exists x ms, Forall real_char x /\ generates E refs r x ms.
  Proof.
    destruct Hlit as [(str_ & val & Hs1 & Hs2 & Hs3 & Hs4) Hnum].
    assert (Hspace : Forall real_char [space]) by (repeat constructor).
    induction fuel as [|fuel IH]; intros r H; [discriminate|]. destruct r; cbn [fruitful] in H; try discriminate.
    - exists [space], []. split; [exact Hspace|]. apply gen_whitespace; [repeat constructor|right; discriminate].
    - destruct not; do 2 eexists; (split; [|constructor]); [constructor|]. apply real_check. exact H.
    - destruct optional; cbn in H.
      + do 2 eexists. split; [|apply gen_until; [constructor|left; reflexivity]]. constructor.
      + apply letter_found in H as (c & Hr & _ & Hn). exists [c]. eexists. split; [repeat constructor; exact Hr|].
        apply gen_until; [repeat constructor; exact Hn|right; discriminate].
    - destruct optional; cbn in H.
      + do 2 eexists. split; [|apply gen_until_ws; [constructor|left; reflexivity]]. constructor.
      + apply letter_found in H as (c & Hr & Hw & Hn). exists [c]. eexists. split; [repeat constructor; exact Hr|].
        apply gen_until_ws; [repeat constructor; assumption|right; discriminate].
    - exists str_. eexists. split; [exact Hs1|]. apply gen_text with (rest := []); [rewrite app_nil_r; exact Hs2|right; exact Hs3|exact Hs4].
    - destruct (Hnum underscore) as (x & v & H1 & H2 & H3). exists x. eexists. split; [exact H1|].
      apply gen_number with (rest := []); [rewrite app_nil_r; exact H2|exact H3].
    - apply existsb_exists in H as (r & Hr & Hf). destruct (IH _ Hf) as (x & ms & Hx & Hg). exists x, ms. split; [exact Hx|eapply gen_select; eassumption].
    - apply existsb_exists in H as (r & Hr & Hf). destruct (IH _ Hf) as (x & ms & Hx & Hg). exists x, ms. split; [exact Hx|eapply gen_fast; eassumption].
    - assert (Hall : exists x ms, Forall real_char x /\ generates_all E refs args x ms).
      { clear -H IH. induction args as [|r args IHa]; [exists [], []; split; constructor|]. cbn in H. apply andb_true_iff in H as [H1 H2].
        destruct (IH _ H1) as (x & ms & Hx & Hg), (IHa H2) as (y & ms' & Hy & Hg'). exists (x ++ y), (ms ++ ms').
        split; [apply Forall_app; auto|apply gen_all_cons; assumption]. }
      destruct Hall as (x & ms & Hx & Hg). exists x, ms. split; [exact Hx|apply gen_sequence; exact Hg].
    - destruct optional; cbn in H; [exists [], []; split; [constructor|apply gen_separate_none]|].
      destruct (IH _ H) as (x & ms & Hx & Hg). exists (x ++ []), (ms ++ []). split; [rewrite app_nil_r; exact Hx|]. apply gen_separate; [exact Hg|apply gen_more_stop].
    - destruct optional; cbn in H; [exists [], []; split; [constructor|eapply gen_repeat; [apply gen_times_O|left; reflexivity]]|].
      destruct (IH _ H) as (x & ms & Hx & Hg). exists (x ++ []), (ms ++ []). split; [rewrite app_nil_r; exact Hx|].
      eapply gen_repeat with (k := 1); [apply gen_times_S; [exact Hg|apply gen_times_O]|right; lia].
    - destruct index as [i|]; [|discriminate]. destruct (nth_error refs i) as [q|] eqn:Hi; [|discriminate].
      destruct (IH _ H) as (x & ms & Hx & Hg). exists x. eexists. split; [exact Hx|eapply gen_node; eassumption].
    - exists [], []. split; [constructor|apply gen_optional_none].
    - exists [], []. split; [constructor|apply gen_not].
  Qed.
End Fruitful.

Theorem productive_check E fuel s : literals_exist E ->
  forallb (all_sub (fruitful fuel (s_rules s))) (s_rules s) = true -> productive E s.
Proof. intros Hl H r Hr. apply (fruitful_spec E Hl _ fuel). exact (all_rules_spec _ _ H r Hr). Qed.

Lemma std_literals : literals_exist std_ext.
Proof.
  split.
  - exists (tx """a"""), (tx "a"). split; [apply real_check; vm_compute; reflexivity|]. repeat split; try (vm_compute; reflexivity). discriminate.
  - intros u. exists (tx "0"). destruct (std_parse_number u (tx "0")) as [v|] eqn:Hv.
    + exists v. split; [apply real_check; vm_compute; reflexivity|]. split; [destruct u; vm_compute; reflexivity|exact Hv].
    + destruct u; vm_compute in Hv; discriminate.
Qed.

(** ** Where the next character does not decide *)

Lemma many_stops E refs r : forall ind p s k n out ind' tr, reads_many E refs r ind p s k n out ind' tr ->
  exists i tr', reads E refs r i (p + n) (skipn n s) No ind' tr'.
Proof.
  intros ind p s k. revert ind p s. induction k as [|k IH]; intros ind p s n out ind' tr H; inversion H; subst.
  - exists ind. eexists. rewrite Nat.add_0_r. eassumption.
  - match goal with G : reads_many _ _ _ _ _ _ _ _ _ _ _ |- _ => destruct (IH _ _ _ _ _ _ _ G) as (i & tr' & Hr) end.
    exists i, tr'. rewrite skipn_skipn_add, <- Nat.add_assoc in Hr. exact Hr.
Qed.

(** [[.r?("a") "a"]] accepts nothing. *)
Lemma greedy_accepts_nothing E : ext_ok E -> forall text tokens ind tokens', ~ parse_returns E greedy text tokens ind None tokens'.
Proof.
  intros HE text tokens ind tokens' H. apply (parse_accepts E HE) in H as (out & Ha & _).
  destruct Ha as [r out ind' tr Hr H].
  destruct Hr as [a Ha]. change (s_rules greedy) with ([] ++ s_rules greedy) in Ha at 1. apply app_inj_tail in Ha as [_ <-].
  assert (Hs : exists v i t, v <> No /\ reads_seq E (s_rules greedy) [RRepeat (RTag (tx "a") false false None 1) true 2; RTag (tx "a") false false None 3] ind 0 text v i t).
  { inversion H; subst. do 3 eexists. split; [|eassumption]. discriminate. }
  clear H. destruct Hs as (v & i & t & Hv & Hs). inversion Hs; subst; [congruence|].
  match goal with G : reads _ _ (RRepeat _ _ _) _ _ _ _ _ _ |- _ => inversion G; subst; clear G end.
  match goal with G : reads_many _ _ _ _ _ _ _ _ _ _ _ |- _ => destruct (many_stops _ _ _ _ _ _ _ _ _ _ _ G) as (i2 & t2 & Hn) end.
  match goal with G : reads_seq _ _ [_] _ _ _ _ _ _ |- _ => inversion G; subst; clear G end; [cbn in Hv; congruence|].
  match goal with G : reads _ _ (RTag _ _ _ _ _) _ _ _ (Yes _ _) _ _ |- _ => inversion G; subst; clear G end.
  inversion Hn; subst. contradiction.
Qed.

Lemma greedy_not_completed : exists s r text e tokens, valid s /\ well_formed s /\ without_lines s /\ productive std_ext s /\ start_rule s r /\
  parse_returns std_ext s text [] indent_default (Some e) tokens /\
  forall q, stopped_at std_ext text e q -> forall y tokens ind tokens', ~ parse_returns std_ext s (firstn q text ++ y) tokens ind None tokens'.
Proof.
  exists greedy. eexists. exists (tx "aab"). do 2 eexists. split; [apply validb_spec; reflexivity|]. split; [apply well_formedb_spec; reflexivity|].
  split.
  { intros r i id H. apply (all_rules_spec (fun q => match q with RLines _ _ _ => false | _ => true end) greedy eq_refl) in H. discriminate. }
  split; [apply (productive_check std_ext 20); [exact std_literals|vm_compute; reflexivity]|].
  split; [exists []; reflexivity|]. split; [exists 20; vm_compute; reflexivity|].
  intros q _ y tokens ind tokens'. apply (greedy_accepts_nothing std_ext std_ext_ok).
Qed.

(** [doc = ["a" doc]] generates nothing. *)
Definition endless_rule : rule := RSequence [RTag (tx "a") false false None 1; RNode (tx "doc") None (Some 0) 2] 3.
Definition endless : syntax := Syn [endless_rule] [tx "doc"].

Lemma endless_generates E : forall x ms, ~ generates E (s_rules endless) endless_rule x ms.
Proof.
  assert (H : (forall r x ms, generates E (s_rules endless) r x ms -> r <> endless_rule /\ r <> RNode (tx "doc") None (Some 0) 2) /\
    (forall args x ms, generates_all E (s_rules endless) args x ms -> ~ In (RNode (tx "doc") None (Some 0) 2) args) /\
    (forall r k x ms, generates_times E (s_rules endless) r k x ms -> True) /\
    (forall r by_ trail x ms, generates_more E (s_rules endless) r by_ trail x ms -> True)).
  { apply generates_mutind; intros; try exact I; try (split; discriminate).
    - split; [|discriminate]. unfold endless_rule. intros [= -> ->]. apply H0. right. left. reflexivity.
    - split; [discriminate|]. intros [= -> -> -> ->]. injection H as <-. destruct H1 as [H1 _]. apply H1. reflexivity.
    - intros [].
    - intros [->|Hi]; [destruct H0 as [_ H0]; apply H0; reflexivity|contradiction]. }
  intros x ms Hg. apply (proj1 H) in Hg. destruct Hg as [Hg _]. apply Hg. reflexivity.
Qed.

Lemma endless_not_viable : exists s r text e tokens, valid s /\ well_formed s /\ clear std_ext s /\ start_rule s r /\
  parse_returns std_ext s text [] indent_default (Some e) tokens /\ forall x ms, ~ generates std_ext (s_rules s) r x ms.
Proof.
  exists endless, endless_rule, (tx "ab"). do 2 eexists. split; [apply validb_spec; reflexivity|]. split; [apply well_formedb_spec; reflexivity|].
  split; [apply (clearb_spec std_ext number_chars 40 _ std_numbers); vm_compute; reflexivity|].
  split; [exists []; reflexivity|]. split; [exists 20; vm_compute; reflexivity|]. apply endless_generates.
Qed.

(** ** JSON values *)

Lemma json_productive : productive std_ext json_syntax.
Proof. apply (productive_check std_ext 20); [exact std_literals|vm_compute; reflexivity]. Qed.

Lemma json_stops : exists e tokens, parse_returns std_ext json_syntax (tx "[1, {""a"": tru}]") [] indent_default (Some e) tokens /\
  stopped_at std_ext (tx "[1, {""a"": tru}]") e 10 /\
  exists tokens', parse_returns std_ext json_syntax (firstn 10 (tx "[1, {""a"": tru}]") ++ tx "0}]") [] indent_default None tokens'.
Proof.
  do 2 eexists. split; [exists 100; vm_compute; reflexivity|]. split; [vm_compute; reflexivity|]. eexists. exists 100. vm_compute. reflexivity.
Qed.

Lemma json_string_stops : exists e tokens, parse_returns std_ext json_syntax (tx "[1, ""\q""]") [] indent_default (Some e) tokens /\
  r_off (fst e) = 5 /\ stopped_at std_ext (tx "[1, ""\q""]") e 4.
Proof.
  do 2 eexists. split; [exists 100; vm_compute; reflexivity|]. split; [reflexivity|]. cbn [stopped_at snd fst]. split; [cbn; lia|].
  eexists. vm_compute. reflexivity.
Qed.
