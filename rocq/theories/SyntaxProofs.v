(** Proofs about reading a syntax from a text. *)
From Coq Require Import Ascii String List NArith Bool Arith Lia.
From Verif Require Import Base Ext Types DataSpec ParseModel OptimizeModel ConvertModel BootstrapRules Assets
  LibModel ApiSpec OptSpec IdSpec TotalSpec ConvertSpec SyntaxSpec ParseProofs ParsePublic SimProofs OptProofs OptProofs2
  FuelProofs SafeProofs TotalProofs TotalCheck OptTotal ConvertFuel ConvertValid ConvertNodes Examples.
Import ListNotations.
Local Open Scope list_scope.
Local Open Scope nat_scope.

(** ** Fuel *)

Lemma syntax_unoptimized_mono E f g text : f <= g ->
  le_o (syntax_unoptimized E f text) (syntax_unoptimized E g text).
Proof.
  intros H. unfold syntax_unoptimized. apply le_o_bind; [apply optimize_mono; exact H|].
  intros boot. apply le_o_bind; [apply parse_with_indent_mono; exact H|].
  intros [[e|] toks]; [apply le_o_refl|].
  apply le_o_bind; [apply convert_mono; exact H|]. intros [[s|] ig]; apply le_o_refl.
Qed.

Lemma lib_syntax_mono E f g text : f <= g -> le_o (lib_syntax E f text) (lib_syntax E g text).
Proof.
  intros H. unfold lib_syntax. apply le_o_bind; [apply syntax_unoptimized_mono; exact H|].
  intros [s|e]; [|apply le_o_refl]. apply le_o_bind; [apply optimize_mono; exact H|].
  intros; apply le_o_refl.
Qed.

Lemma agree {A} (f : nat -> outcome A) : (forall m n, m <= n -> le_o (f m) (f n)) ->
  forall m n, f m <> OutOfFuel -> f n <> OutOfFuel -> f m = f n.
Proof.
  intros H m n Hm Hn. destruct (Nat.le_ge_cases m n) as [Hl|Hl].
  - destruct (H _ _ Hl) as [He|He]; [contradiction|]. exact He.
  - destruct (H _ _ Hl) as [He|He]; [contradiction|]. symmetry. exact He.
Qed.

(** ** Termination *)

Definition boot_computed : syntax :=
  Eval vm_compute in match optimize 100 bootstrap_rules with Done s => s | _ => syntax_new end.

Lemma boot_optimized : optimize 100 bootstrap_rules = Done boot_computed.
Proof. vm_compute. reflexivity. Qed.

Lemma boot_unique boot : optimize_returns bootstrap_rules boot -> boot = boot_computed.
Proof.
  intros (f & Hf).
  assert (H : optimize f bootstrap_rules = optimize 100 bootstrap_rules).
  { apply (agree (fun n => optimize n bootstrap_rules)).
    - intros m n. apply optimize_mono.
    - rewrite Hf. discriminate.
    - rewrite boot_optimized. discriminate. }
  rewrite Hf, boot_optimized in H. injection H as ->. reflexivity.
Qed.

Lemma boot_fine : valid boot_computed /\ well_formed boot_computed.
Proof.
  assert (H : validb boot_computed && well_formedb boot_computed = true) by (vm_compute; reflexivity).
  apply andb_prop in H as [H1 H2]. split; [apply validb_spec; exact H1|apply well_formedb_spec; exact H2].
Qed.

Lemma reading_total E : ext_ok E -> forall text, columns_fit indent_default text ->
  (forall tokens, text_data E text tokens -> ids_small tokens) ->
  exists result, rules_read E text result.
Proof.
  intros HE text Hfit Hsmall. destruct boot_fine as [Hv Hw].
  destruct (parse_decided E HE boot_computed Hv Hw text [] indent_default Hfit) as (res & tokens & fp & Hp).
  destruct res as [e|].
  - exists (inr e), (Nat.max 100 fp). unfold syntax_unoptimized.
    destruct (optimize_mono 100 (Nat.max 100 fp) bootstrap_rules) as [Ho|Ho];
      [apply Nat.le_max_l|rewrite boot_optimized in Ho; discriminate|]. rewrite <- Ho, boot_optimized.
    cbn [obind]. unfold parse.
    destruct (parse_with_indent_mono E fp (Nat.max 100 fp) boot_computed text [] indent_default) as [Hq|Hq];
      [apply Nat.le_max_r|congruence|]. rewrite <- Hq, Hp. reflexivity.
  - assert (Hd : text_data E text tokens).
    { exists boot_computed. split; [exists 100; exact boot_optimized|exists fp; exact Hp]. }
    assert (Hn : nested (map snd tokens)).
    { destruct (success_nested E HE _ _ _ _ _ (ex_intro _ fp Hp)) as (new & -> & Hn). exact Hn. }
    destruct (convert_returns_nested tokens [] Hn (Hsmall _ Hd)) as (r & ig & fc & Hc).
    set (f := Nat.max 100 (Nat.max fp fc)).
    exists (match r with Some s => inl s | None => inr conversion_error end), f. unfold syntax_unoptimized.
    destruct (optimize_mono 100 f bootstrap_rules) as [Ho|Ho];
      [apply Nat.le_max_l|rewrite boot_optimized in Ho; discriminate|]. rewrite <- Ho, boot_optimized.
    cbn [obind]. unfold parse.
    destruct (parse_with_indent_mono E fp f boot_computed text [] indent_default) as [Hq|Hq];
      [unfold f; lia|congruence|]. rewrite <- Hq, Hp. cbn [obind].
    destruct (convert_mono fc f tokens []) as [Hr|Hr]; [unfold f; lia|congruence|].
    rewrite <- Hr, Hc. cbn [obind]. destruct r; reflexivity.
Qed.

Theorem reading_returns E : ext_ok E -> forall text, columns_fit indent_default text ->
  (forall tokens, text_data E text tokens -> ids_small tokens) ->
  (exists result, rules_read E text result) /\ ~ reading_panics E text.
Proof.
  intros HE text Hfit Hsmall. destruct (reading_total E HE text Hfit Hsmall) as (res & f & Hf).
  split; [exists res, f; exact Hf|]. intros (g & Hg).
  pose proof (agree (fun n => syntax_unoptimized E n text) (fun m n => syntax_unoptimized_mono E m n text) f g) as H.
  cbn beta in H. rewrite Hf, Hg in H. specialize (H ltac:(discriminate) ltac:(discriminate)). discriminate.
Qed.

Lemma rules_read_valid E text s : rules_read E text (inl s) -> length (s_names s) = length (s_rules s) /\ valid s.
Proof.
  intros (f & H). unfold syntax_unoptimized in H.
  destruct (optimize f bootstrap_rules) as [boot| |]; try discriminate. cbn [obind] in H.
  destruct (parse E f boot text []) as [[[e|] tokens]| |]; try discriminate. cbn [obind] in H.
  destruct (convert f tokens []) as [[[s1|] ig]| |] eqn:Hc; try discriminate. cbn [obind] in H.
  injection H as ->. eapply convert_valid. exists f. exact Hc.
Qed.

Theorem syntax_returns_tame E : ext_ok E -> forall text, columns_fit indent_default text ->
  (forall tokens, text_data E text tokens -> ids_small tokens) ->
  (forall s, rules_read E text (inl s) -> tags_real s /\ no_left_recursion (s_rules s)) ->
  exists result, syntax_returns E text result.
Proof.
  intros HE text Hfit Hsmall Hs. destruct (reading_total E HE text Hfit Hsmall) as (res & f & Hf).
  destruct res as [s|e].
  - destruct (Hs s (ex_intro _ f Hf)) as [Ht Hl].
    destruct (optimizes s (proj2 (rules_read_valid _ _ _ (ex_intro _ f Hf))) Ht Hl) as (s' & g & Hg).
    exists (inl s'), (Nat.max f g). unfold lib_syntax.
    destruct (syntax_unoptimized_mono E f (Nat.max f g) text) as [Hq|Hq]; [apply Nat.le_max_l|congruence|].
    rewrite <- Hq, Hf. cbn [obind].
    destruct (optimize_mono g (Nat.max f g) s) as [Hr|Hr]; [apply Nat.le_max_r|congruence|].
    rewrite <- Hr, Hg. reflexivity.
  - exists (inr e), f. unfold lib_syntax. rewrite Hf. reflexivity.
Qed.

(** ** The self syntax *)

Fixpoint zero_ids (r : rule) : rule :=
  match r with
  | RWhitespace o _ => RWhitespace o 0
  | RTag a b c d _ => RTag a b c d 0
  | RUntilAny a b c _ => RUntilAny a b c 0
  | RUntilAnyOrWs a b c _ => RUntilAnyOrWs a b c 0
  | RText a b _ => RText a b 0
  | RNumber a b _ => RNumber a b 0
  | RSelect args _ => RSelect (map zero_ids args) 0
  | RFastSelect t args l _ => RFastSelect t (map zero_ids args) l 0
  | RSequence args _ => RSequence (map zero_ids args) 0
  | RSeparateBy a b o t _ => RSeparateBy (zero_ids a) (zero_ids b) o t 0
  | RRepeat a o _ => RRepeat (zero_ids a) o 0
  | RLines a o _ => RLines (zero_ids a) o 0
  | RNode a b c _ => RNode a b c 0
  | ROptional a _ => ROptional (zero_ids a) 0
  | RNot a _ => RNot (zero_ids a) 0
  end.

Lemma zero_like r : forall r', zero_ids r = zero_ids r' -> like_rule any_ids r r'.
Proof.
  induction r as [r IH] using rule_ind'; intros r' H.
  assert (Hargs : forall args, incl args (children r) -> forall args', map zero_ids args = map zero_ids args' ->
    Forall2 (like_rule any_ids) args args').
  { induction args as [|a args IHa]; intros Hi [|b args'] Hm; try discriminate; constructor.
    - apply IH; [apply Hi; left; reflexivity|]. injection Hm; auto.
    - apply IHa; [intros x Hx; apply Hi; right; exact Hx|]. injection Hm; auto. }
  destruct r, r'; try discriminate H; cbn [zero_ids] in H; injection H; intros; subst;
    try (constructor; exact I);
    constructor; try exact I; try (apply Hargs; [apply incl_refl|assumption]);
    apply IH; cbn; auto.
Qed.

Lemma zero_like_all l l' : map zero_ids l = map zero_ids l' -> Forall2 (like_rule any_ids) l l'.
Proof.
  revert l'. induction l as [|r l IH]; intros [|r' l'] H; try discriminate; constructor;
    injection H; intros; [apply zero_like|apply IH]; assumption.
Qed.

Lemma like_alike s s' : map zero_ids (s_rules s) = map zero_ids (s_rules s') -> parse_alike s s'.
Proof.
  intros H E text tokens ind. pose proof (zero_like_all _ _ H) as H1. pose proof (zero_like_all _ _ (eq_sym H)) as H2.
  destruct (ids_irrelevant_panics E s s' text tokens ind H1) as [Hp Hd].
  destruct (ids_irrelevant_panics E s' s text tokens ind H2) as [Hp' Hd'].
  refine (conj _ (conj _ (conj (conj Hp Hp') (conj Hd Hd')))); apply ids_irrelevant; assumption.
Qed.

Definition the_rules (o : outcome (syntax + perr)) : syntax :=
  match o with Done (inl s) => s | _ => syntax_new end.
Definition the_syntax (o : outcome syntax) : syntax :=
  match o with Done s => s | _ => syntax_new end.

Definition self_computed : syntax :=
  Eval vm_compute in the_rules (syntax_unoptimized std_ext 1000 self_syntax_text).

Lemma self_read : syntax_unoptimized std_ext 1000 self_syntax_text = Done (inl self_computed).
Proof. vm_compute. reflexivity. Qed.

Definition self_optimized : syntax :=
  Eval vm_compute in the_syntax (optimize 1000 self_computed).

Lemma self_optimize : optimize 1000 self_computed = Done self_optimized.
Proof. vm_compute. reflexivity. Qed.

Theorem self_unoptimized_alike : exists s, rules_read std_ext self_syntax_text (inl s) /\
  s_names s = s_names bootstrap_rules /\ parse_alike s bootstrap_rules.
Proof.
  exists self_computed. split; [exists 1000; exact self_read|]. split; [vm_compute; reflexivity|].
  apply like_alike. vm_compute. reflexivity.
Qed.

Theorem self_alike : exists s boot, syntax_returns std_ext self_syntax_text (inl s) /\
  optimize_returns bootstrap_rules boot /\ s_names s = s_names boot /\ parse_alike s boot.
Proof.
  exists self_optimized, boot_computed. split.
  { exists 1000. unfold lib_syntax. rewrite self_read. cbn [obind]. rewrite self_optimize. reflexivity. }
  split; [exists 100; exact boot_optimized|]. split; [vm_compute; reflexivity|].
  apply like_alike. vm_compute. reflexivity.
Qed.
