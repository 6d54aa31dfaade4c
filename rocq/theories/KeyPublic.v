(** C89: key-value files as read by the library. *)
From Coq Require Import Ascii String List NArith Bool Arith Lia.
From Verif Require Import Base Ext Types ParseModel LibModel JsonModel PegSpec PegFacts PegProofs PrimProofs ApiSpec ParseProofs SyntaxSpec OptSpec
  OptPublic SyntaxProofs ParsePublic PipeProofs RuleSpec ExtProofs JsonSpec JsonProofs JsonProofs2 OutlinePublic Examples KeySpec KeyProofs KeyProofs2 KeyProofs3.
Import ListNotations.
Local Open Scope string_scope.
Local Open Scope list_scope.
Local Open Scope nat_scope.

Lemma key_rules_read : rules_read std_ext key_value_rules (inl key_value_syntax).
Proof. exists 1000. vm_compute. reflexivity. Qed.

Definition key_value_optimised : syntax :=
  match lib_syntax std_ext 1000 key_value_rules with Done (inl s) => s | _ => key_value_syntax end.

Lemma key_rules_optimised : syntax_returns std_ext key_value_rules (inl key_value_optimised).
Proof. exists 1000. vm_compute. reflexivity. Qed.

Lemma key_optimize : optimize_returns key_value_syntax key_value_optimised.
Proof. exists 1000. vm_compute. reflexivity. Qed.

Lemma key_tails E : tails_fail_at_end E key_value_syntax.
Proof. apply (no_tails_check E 100). vm_compute. reflexivity. Qed.

Lemma rules_read_unique E text a b : rules_read E text a -> rules_read E text b -> a = b.
Proof.
  intros (f & Hf) (g & Hg).
  destruct (syntax_unoptimized_mono E f (f + g) text) as [H|H]; [lia|congruence|].
  destruct (syntax_unoptimized_mono E g (f + g) text) as [K|K]; [lia|congruence|]. congruence.
Qed.

Section Public.
  Variable E : ext.
  Hypothesis HE : ext_ok E.
  Hypothesis HL : solid_literals E.

  Lemma key_accepts text ind ds : (exists out, accepts E key_value_syntax ind text out /\ map snd out = ds) <->
    (exists ms, entries E text ms /\ concat ms = ds).
  Proof.
    split.
    - intros (out & [r out' ind' tr (rules & Hr) Hread] & <-). destruct rules as [|r0 [|r1 rules]]; try discriminate.
      injection Hr as <-. assert (H : reads_lines E (s_rules key_value_syntax) entry_rule false 20 true true ind 0 text (Yes (length text) out') ind' tr)
        by (inversion Hread; assumption).
      destruct (lines_back E HE HL _ 20 (S (length text)) _ _ _ _ _ _ _ _ (Nat.lt_succ_diag_r _) H) as (_ & ms & Hms & Ho).
      exists ms. auto.
    - intros (ms & Hms & <-).
      destruct (lines_yes E HE HL (s_rules key_value_syntax) 20 (S (length text)) text ms true true ind 0 (Nat.lt_succ_diag_r _) Hms (or_introl eq_refl)) as (out & tr & H & Ho).
      exists out. split; [|exact Ho]. eapply accepts_all; [exists []; reflexivity|]. apply reads_lines_rule. exact H.
  Qed.

  Lemma key_parse text tokens ind ds :
    (exists out, parse_returns E key_value_syntax text tokens ind None (tokens ++ out) /\ map snd out = ds) <->
    (exists ms, entries E text ms /\ concat ms = ds).
  Proof.
    rewrite <- (key_accepts text ind ds). split.
    - intros (out & Hp & Ho). apply (parse_accepts E HE) in Hp as (out' & Ha & He). apply app_inv_head in He as ->. eauto.
    - intros (out & Ha & Ho). exists out. split; [|exact Ho]. apply (parse_accepts E HE). eauto.
  Qed.

  Theorem key_values s : rules_read std_ext key_value_rules (inl s) -> forall text tokens ind ds,
    (exists out, parse_returns E s text tokens ind None (tokens ++ out) /\ map snd out = ds) <->
    (exists ms, entries E text ms /\ concat ms = ds).
  Proof.
    intros Hs text tokens ind ds. assert (s = key_value_syntax) as -> by (pose proof (rules_read_unique _ _ _ _ Hs key_rules_read); congruence).
    apply key_parse.
  Qed.

  Theorem key_values_optimised s : syntax_returns std_ext key_value_rules (inl s) -> forall text tokens ind ds, Forall real_char text ->
    (exists out, parse_returns E s text tokens ind None (tokens ++ out) /\ map snd out = ds) <->
    (exists ms, entries E text ms /\ concat ms = ds).
  Proof.
    intros Hs text tokens ind ds Hreal.
    assert (s = key_value_optimised) as -> by (pose proof (syntax_returns_unique _ _ _ _ Hs key_rules_optimised); congruence).
    rewrite <- (key_parse text tokens ind ds).
    split; intros (out & Hp & Ho); exists out; (split; [|exact Ho]);
      apply (optimize_accepts E HE key_value_syntax key_value_optimised key_optimize (key_tails E) text tokens ind Hreal); exact Hp.
  Qed.

  Theorem key_one_meaning text ms ms' : entries E text ms -> entries E text ms' -> concat ms = concat ms'.
  Proof.
    intros H H'. destruct (proj2 (key_accepts text indent_default (concat ms)) (ex_intro _ ms (conj H eq_refl))) as (out & Ha & <-).
    destruct (proj2 (key_accepts text indent_default (concat ms')) (ex_intro _ ms' (conj H' eq_refl))) as (out' & Ha' & <-).
    f_equal. eapply accepts_unique; eassumption.
  Qed.

  Theorem key_write pairs ms : Forall (fun kv => good_key (fst kv)) pairs -> Forall2 (fun kv m => prints E (snd kv) m) pairs ms ->
    exists items, entries E (concat (map print_pair pairs)) items /\
      concat items = concat (map (fun km => [MString (tx "key") (fst km); snd km]) (combine (map fst pairs) ms)).
  Proof.
    intros Hk Hm. induction Hm as [|[k v] m pairs ms Hv Hm IH].
    - exists []. split; [apply entries_none; constructor|reflexivity].
    - inversion Hk as [|? ? (Hne & Hkc & Hh) Hk']; subst. destruct (IH Hk') as (items & Hi & Hc). cbn [fst snd] in *.
      exists ([MString (tx "key") k; m] :: items). split; [|cbn; rewrite Hc; reflexivity].
      cbn [map concat]. unfold print_pair at 1. cbn [fst snd].
      replace ((k ++ [space; equals; space] ++ v ++ [newline]) ++ concat (map print_pair pairs))
        with ([] ++ (k ++ [space] ++ equals :: [space] ++ v) ++ [] ++ newline :: [] ++ concat (map print_pair pairs))
        by (cbn; rewrite <- !app_assoc; cbn; rewrite <- !app_assoc; reflexivity).
      apply entries_more; [constructor| |constructor|constructor|exact Hi].
      apply (entry_pair E _ _ k [space] [space] v m eq_refl Hne Hkc Hh); [repeat constructor|repeat constructor|].
      apply Hv. right. exists newline. eexists. split; reflexivity.
  Qed.
End Public.

(** ** The stand-ins *)

Lemma std_solid : solid_literals std_ext.
Proof.
  assert (Hs : forall t : str, t <> [] -> Forall (fun c => ~ white c) t -> starts_solid t /\ ends_solid t).
  { intros t Hne Hw. split.
    - destruct t as [|c t]; [congruence|]. inversion Hw; subst. exists c, t. auto.
    - destruct (exists_last Hne) as (r & c & ->). apply Forall_app in Hw as [_ Hw]. inversion Hw; subst. exists r, c. auto. }
  split.
  - intros s n H. pose proof (x_number_bounds std_ext std_ext_ok _ _ _ H) as Hb.
    destruct (number_go_exact _ _ _ _ _ _ _ _ _ H) as [_ Hf]. rewrite Nat.sub_0_r in Hf. apply Hs; [|exact Hf].
    destruct n; [lia|]. destruct s; [cbn in Hb; lia|discriminate].
  - intros s n H. assert (Hgo : forall s esc k n, std_string_go s esc k = Some n -> k < n /\ exists r, firstn (n - k) s = r ++ [quote]).
    { clear. induction s as [|c s IH]; intros esc k n H; cbn [std_string_go] in H; [discriminate|].
      assert (Hst : forall esc, std_string_go s esc (S k) = Some n -> k < n /\ exists r, firstn (n - k) (c :: s) = r ++ [quote]).
      { intros e He. apply IH in He as (Hl & r & Hr). split; [lia|]. exists (c :: r). replace (n - k) with (S (n - S k)) by lia. cbn. rewrite Hr. reflexivity. }
      destruct esc; [exact (Hst _ H)|]. destruct (N.eqb c backslash); [exact (Hst _ H)|].
      destruct (N.eqb c quote) eqn:Hq; [|exact (Hst _ H)]. injection H as <-. apply N.eqb_eq in Hq as ->. split; [lia|].
      exists []. replace (S k - k) with 1 by lia. reflexivity. }
    cbn in H. unfold std_string in H. destruct s as [|c s]; [discriminate|]. destruct (N.eqb c quote) eqn:Hq; [|discriminate].
    apply N.eqb_eq in Hq as ->. apply Hgo in H as (Hl & r & Hr). replace (firstn n (quote :: s)) with (quote :: firstn (n - 1) s).
    + rewrite Hr. split; [exists quote; eexists; split; [reflexivity|discriminate]|exists (quote :: r), quote; split; [reflexivity|discriminate]].
    + replace n with (S (n - 1)) at 2 by lia. reflexivity.
Qed.

Lemma no_number_first c s : is_digit c = false -> ((c =? 43) || (c =? 45))%N = false -> (c =? 46)%N = false -> no_number std_ext (c :: s).
Proof.
  intros H1 H2 H3 t v (rest & _ & Hx & _). cbn in Hx. unfold std_number in Hx. cbn [std_number_go] in Hx.
  rewrite H1, H2, H3 in Hx. cbn in Hx. discriminate.
Qed.

Lemma print_true : prints std_ext (tx "true") (MBool (tx "bool") true).
Proof. intros rest _. apply value_true; [|reflexivity]. apply no_number_first; reflexivity. Qed.
Lemma print_false : prints std_ext (tx "false") (MBool (tx "bool") false).
Proof. intros rest _. apply value_false; [|reflexivity]. apply no_number_first; reflexivity. Qed.

Lemma print_string v : prints std_ext (write_string v) (MString (tx "string") v).
Proof.
  intros rest _. destruct (std_string_literals v (flat_map write_char v) (written_text v)) as [Hx Hv].
  assert (He : write_string v = quote :: flat_map write_char v ++ [quote]) by reflexivity.
  rewrite He. apply value_string.
  - apply no_number_first; reflexivity.
  - split; intros (r & H); discriminate.
  - exists rest. split; [reflexivity|]. split; [|exact Hv].
    replace ((quote :: flat_map write_char v ++ [quote]) ++ rest) with (quote :: flat_map write_char v ++ quote :: rest)
      by (cbn; rewrite <- app_assoc; reflexivity).
    rewrite Hx. f_equal. cbn. rewrite app_length. cbn. lia.
Qed.

Lemma print_number t v : x_number std_ext true t = Some (length t) -> x_parse_number std_ext true t = Some v ->
  prints std_ext t (MF64 (tx "number") v).
Proof.
  intros Hn Hv rest Hr. apply value_number. exists rest. split; [reflexivity|]. split; [|exact Hv].
  apply (number_go_stop true rest Hr t _ _ _ _ _ 0). exact Hn.
Qed.
