(** Conversion is what the trees of the data mean: the results, and data that says the same. *)
From Coq Require Import Ascii String List NArith Bool Arith Lia.
From Verif Require Import Base Ext Types DataSpec ParseModel OptSpec IdSpec ConvertModel ConvertSpec OptProofs ConvertSound ConvertTotal
  ConvertNodes SyntaxProofs MeaningProofs TreeSpec TreeProofs TreeProofs2 TreeProofs3.
Import ListNotations.
Local Open Scope string_scope.
Local Open Scope list_scope.
Local Open Scope nat_scope.

(** ** The result *)

Lemma zero_again r : zero_ids (zero_ids r) = zero_ids r.
Proof.
  induction r as [r IH] using rule_ind'. destruct r; cbn [zero_ids children] in *; f_equal;
    try (rewrite map_map; apply map_ext_in; exact IH); apply IH; simpl; auto.
Qed.

Lemma zero_refs names r : zero_ids (rule_update_refs names r) = rule_update_refs names (zero_ids r).
Proof.
  induction r as [r IH] using rule_ind'. destruct r; cbn [zero_ids children rule_update_refs] in *; try reflexivity;
    try (f_equal; try (rewrite !map_map; apply map_ext_in; exact IH); apply IH; simpl; auto; fail).
  destruct index; reflexivity.
Qed.

Lemma pushed_names ns : forall s, s_names (pushed s ns) = s_names s ++ map fst ns.
Proof.
  induction ns as [|n ns IH]; intros s; cbn; [rewrite app_nil_r; reflexivity|]. unfold pushed in IH. rewrite IH. cbn. rewrite <- app_assoc. reflexivity.
Qed.

Lemma pushed_rules ns : forall s, s_rules (pushed s ns) = s_rules s ++ map snd ns.
Proof.
  induction ns as [|n ns IH]; intros s; cbn; [rewrite app_nil_r; reflexivity|]. unfold pushed in IH. rewrite IH. cbn. rewrite <- app_assoc. reflexivity.
Qed.

Lemma convert_means data ts ig result ig' : Forall good ts -> map snd data = flat_map flat ts -> convert_returns data ig result ig' ->
  match data_meaning [] ts with
  | Some ns => exists ns', map zero_node ns' = ns /\ result = Some (update_refs (pushed syntax_new ns'))
  | None => result = None
  end.
Proof.
  intros Hg Hd [fuel H]. unfold convert in H. destruct (strings_loop _ _ _) as [[c ss]| |] eqn:Hs; try discriminate. cbn [obind] in H.
  destruct (nodes_loop _ _ _ _ _) as [[res ig1]| |] eqn:Hn; try discriminate. cbn [obind] in H.
  assert (R := data_means fuel fuel ts data 0 [] c ss ig res ig1 Hg Hd Hs Hn).
  destruct (data_meaning [] ts) as [ns|].
  - destruct R as (ns' & <- & ->). injection H as <- _. exists ns'. split; reflexivity.
  - subst res. injection H as <- _. reflexivity.
Qed.

Theorem convert_says data ts ig result ig' : Forall good ts -> map snd data = flat_map flat ts -> convert_returns data ig result ig' ->
  says ts result.
Proof.
  intros Hg Hd H. apply (convert_means data ts) in H; [|assumption|assumption]. unfold says. destruct (data_meaning [] ts) as [ns|]; [|exact H].
  destruct H as (ns' & <- & ->). eexists. split; [reflexivity|].
  assert (Hn : s_names (pushed syntax_new ns') = map fst (map zero_node ns')) by (rewrite pushed_names, map_map; reflexivity).
  assert (Hr : s_rules (pushed syntax_new ns') = map snd ns') by (rewrite pushed_rules; reflexivity).
  unfold update_refs. cbn [s_names s_rules]. rewrite Hn, Hr. split; [reflexivity|].
  generalize (map fst (map zero_node ns')). intros names. clear. rewrite map_map. induction ns' as [|[n r] ns IH]; [constructor|]. cbn.
  constructor; [|exact IH]. exists r. split; [|apply update_refs_resolved]. apply zero_like, zero_again.
Qed.

Theorem convert_accepts data ts ig : nested (map snd data) -> ids_small data -> Forall good ts -> map snd data = flat_map flat ts ->
  (exists s ig', convert_returns data ig (Some s) ig') <-> (exists nodes, data_meaning [] ts = Some nodes).
Proof.
  intros Hn Hi Hg Hd. split.
  - intros (s & ig' & H). apply (convert_means data ts) in H; [|assumption|assumption]. destruct (data_meaning [] ts) as [ns|]; [eauto|discriminate].
  - intros [ns Hm]. destruct (convert_returns_nested data ig Hn Hi) as (result & ig' & H). pose proof H as H0.
    apply (convert_means data ts) in H; [|assumption|assumption]. rewrite Hm in H. destruct H as (ns' & _ & ->). eauto.
Qed.

Lemma same_meaning_same data data' ts ts' ig ig2 r r' g g' : Forall good ts -> Forall good ts' ->
  map snd data = flat_map flat ts -> map snd data' = flat_map flat ts' -> data_meaning [] ts = data_meaning [] ts' ->
  convert_returns data ig r g -> convert_returns data' ig2 r' g' -> same_but_ids r r'.
Proof.
  intros Hg Hg' Hd Hd' Hm H H'. apply (convert_means data ts) in H; [|assumption|assumption]. apply (convert_means data' ts') in H'; [|assumption|assumption].
  rewrite Hm in H. destruct (data_meaning [] ts') as [ns|]; [|subst; exact I].
  destruct H as (n1 & H1 & ->). destruct H' as (n2 & H2 & ->). cbn [same_but_ids update_refs s_names s_rules].
  rewrite !pushed_names, !pushed_rules. cbn [syntax_new s_names s_rules app].
  assert (Hf : map fst n1 = map fst n2).
  { transitivity (map fst ns); [rewrite <- H1|rewrite <- H2]; rewrite map_map; reflexivity. }
  split; [exact Hf|]. rewrite Hf. apply zero_like_all. rewrite !map_map.
  transitivity (map (fun n => rule_update_refs (map fst n2) (snd n)) ns).
  - rewrite <- H1, map_map. apply map_ext. intros n. apply zero_refs.
  - rewrite <- H2, map_map. apply map_ext. intros n. symmetry. apply zero_refs.
Qed.

Theorem positions_irrelevant data data' ig ig2 r r' g g' : nested (map snd data) -> map snd data = map snd data' ->
  convert_returns data ig r g -> convert_returns data' ig2 r' g' -> same_but_ids r r'.
Proof.
  intros Hn He. destruct (nested_trees _ Hn) as (ts & Hg & Hd). apply same_meaning_same with (ts := ts) (ts' := ts); auto. rewrite <- He. auto.
Qed.

(** ** Data that says the same *)

Lemma rearranged_ind' (P : tree -> tree -> Prop) :
  (forall t, P t t) -> (forall a b c, P a b -> P b c -> P a c) ->
  (forall n ks ks', Forall2 rearranged ks ks' -> Forall2 P ks ks' -> P (Tree n ks) (Tree n ks')) ->
  (forall p kind names ks ks', p = s2l "rule" \/ p = s2l "by" -> In (kind, names) known -> same_items names ks ks' ->
    P (Tree p [Tree kind ks]) (Tree p [Tree kind ks'])) ->
  (forall ks ks', same_items [s2l "name"; s2l "rule"] ks ks' -> P (Tree (s2l "node") ks) (Tree (s2l "node") ks')) ->
  forall a b, rearranged a b -> P a b.
Proof.
  intros H1 H2 H3 H4 H5. fix IH 3. intros a b H. destruct H as [t|a b c Hab Hbc|n ks ks' Hk|p kind names ks ks' Hp Hin Hs|ks ks' Hs].
  - apply H1.
  - exact (H2 a b c (IH _ _ Hab) (IH _ _ Hbc)).
  - apply H3; [exact Hk|]. induction Hk; constructor; auto.
  - exact (H4 _ _ _ _ _ Hp Hin Hs).
  - exact (H5 _ _ Hs).
Qed.

Lemma last_of_ext {A} (f : tree -> option A) ks ks' : Forall2 (fun k k' => f k = f k') ks ks' -> last_of f ks = last_of f ks'.
Proof. induction 1 as [|k k' ks ks' Hk H IH]; [reflexivity|]. cbn. rewrite IH, Hk. reflexivity. Qed.

Lemma answers_ext {A} (f : tree -> option A) ks ks' : Forall2 (fun k k' => f k = f k') ks ks' -> answers f ks = answers f ks'.
Proof. induction 1 as [|k k' ks ks' Hk H IH]; [reflexivity|]. cbn. rewrite IH, Hk. reflexivity. Qed.

Lemma last_of_filter {A} (f : tree -> option A) p ks : (forall t, p t = false -> f t = None) -> last_of f ks = last_of f (filter p ks).
Proof.
  intros H. induction ks as [|k ks IH]; [reflexivity|]. cbn. rewrite IH. destruct (p k) eqn:E; cbn; [reflexivity|]. rewrite (H _ E).
  destruct (last_of f (filter p ks)); reflexivity.
Qed.

Lemma answers_filter {A} (f : tree -> option A) p ks : (forall t, p t = false -> f t = None) -> answers f ks = answers f (filter p ks).
Proof.
  intros H. induction ks as [|k ks IH]; [reflexivity|]. cbn. rewrite IH. destruct (p k) eqn:E; cbn; [reflexivity|]. rewrite (H _ E). reflexivity.
Qed.

Lemma flag_called n t : called n t = false -> flag_of n t = None.
Proof. destruct t as [[]|]; cbn; try reflexivity. intros ->. reflexivity. Qed.

Lemma string_called n t : called n t = false -> string_at n t = None.
Proof. destruct t as [[]|]; cbn; try reflexivity. intros ->. reflexivity. Qed.

Lemma text_called ss n t : called n t = false -> text_of ss n t = None.
Proof. destruct t as [[]|]; cbn; try reflexivity. intros ->. reflexivity. Qed.

Lemma rule_called ss n t : called n t = false -> rule_of ss n t = None.
Proof. unfold rule_of. destruct t as [[]|]; cbn; try reflexivity. intros ->. reflexivity. Qed.

Definition kind_in (ss : list (str * str)) (t : tree) : option rule :=
  match t with Tree kind kids => kind_meaning ss (rule_in ss) kind kids | Leaf _ => None end.

(** What is the same of two trees. *)
Definition same_answers (t t' : tree) : Prop :=
  forall ss, (forall n, flag_of n t = flag_of n t') /\ (forall n, string_at n t = string_at n t') /\
    (forall n, n <> s2l "node" -> text_of ss n t = text_of ss n t') /\ (forall n, n <> s2l "node" -> rule_of ss n t = rule_of ss n t') /\
    kind_in ss t = kind_in ss t' /\ string_of t = string_of t' /\ node_of ss t = node_of ss t'.

Lemma Forall2_imp {A B} (P Q : A -> B -> Prop) l l' : (forall a b, P a b -> Q a b) -> Forall2 P l l' -> Forall2 Q l l'.
Proof. intros H. induction 1; constructor; auto. Qed.

Lemma kind_meaning_rules ss kind ks : kind_meaning ss (rule_in ss) kind ks =
  let is s := str_eqb kind (s2l s) in
  let flag s := last_of (flag_of (s2l s)) ks in
  let text s := last_of (text_of ss (s2l s)) ks in
  let rules s := last_of (rule_of ss (s2l s)) ks in
  let wrap (mk : rule -> rule) := match ks with [k] => option_map mk (rule_of ss (s2l "rule") k) | _ => None end in
  if is "sequence" then Some (RSequence (answers (rule_of ss (s2l "rule")) ks) 0)
  else if is "select" then Some (RSelect (answers (rule_of ss (s2l "rule")) ks) 0)
  else if is "until_any_or_whitespace" then
    option_map (fun any => RUntilAnyOrWs any (otherwise false (flag "optional")) (text "property") 0) (text "any_characters")
  else if is "until_any" then
    option_map (fun any => RUntilAny any (otherwise false (flag "optional")) (text "property") 0) (text "any_characters")
  else if is "tag" then
    option_map (fun t => RTag t (otherwise false (flag "not")) (otherwise false (flag "inverted")) (text "property") 0) (text "text")
  else if is "whitespace" then
    match ks with [k] => option_map (fun b => RWhitespace b 0) (flag_of (s2l "optional") k) | _ => None end
  else if is "text" then Some (RText (otherwise true (flag "allow_empty")) (text "property") 0)
  else if is "number" then Some (RNumber (otherwise false (flag "underscore")) (text "property") 0)
  else if is "reference" then
    option_map (fun n => RNode n (text "property") None 0) (last_of (string_at (s2l "name")) ks)
  else if is "optional" then wrap (fun r => ROptional r 0)
  else if is "not" then wrap (fun r => RNot r 0)
  else if is "separated_by" then
    match rules "by", rules "rule" with
    | Some b, Some r => Some (RSeparateBy r b (otherwise true (flag "optional")) (otherwise true (flag "allow_trail")) 0)
    | _, _ => None
    end
  else if is "lines" then
    match ks with
    | [k] => option_map (fun r => RLines r false 0) (rule_of ss (s2l "rule") k)
    | [f; k] =>
      match flag_of (s2l "indent") f with
      | Some b => option_map (fun r => RLines r b 0) (rule_of ss (s2l "rule") k)
      | None => None
      end
    | _ => None
    end
  else if is "repeat" then
    match rules "rule", flag "optional" with
    | Some r, Some b => Some (RRepeat r b 0)
    | _, _ => None
    end
  else None.
Proof. reflexivity. Qed.

Lemma kind_items ss kind ks ks' : Forall2 same_answers ks ks' -> kind_meaning ss (rule_in ss) kind ks = kind_meaning ss (rule_in ss) kind ks'.
Proof.
  intros H. rewrite !kind_meaning_rules. cbv zeta.
  assert (Hf : forall n, last_of (flag_of n) ks = last_of (flag_of n) ks').
  { intros n. apply last_of_ext. eapply Forall2_imp; [|exact H]. intros a b S. apply (S ss). }
  assert (Hs : forall n, last_of (string_at n) ks = last_of (string_at n) ks').
  { intros n. apply last_of_ext. eapply Forall2_imp; [|exact H]. intros a b S. apply (S ss). }
  assert (Ht : forall n, n <> s2l "node" -> last_of (text_of ss n) ks = last_of (text_of ss n) ks').
  { intros n Hn. apply last_of_ext. eapply Forall2_imp; [|exact H]. intros a b S. apply (S ss), Hn. }
  assert (Hr : forall n, n <> s2l "node" -> last_of (rule_of ss n) ks = last_of (rule_of ss n) ks').
  { intros n Hn. apply last_of_ext. eapply Forall2_imp; [|exact H]. intros a b S. apply (S ss), Hn. }
  assert (Ha : answers (rule_of ss (s2l "rule")) ks = answers (rule_of ss (s2l "rule")) ks').
  { apply answers_ext. eapply Forall2_imp; [|exact H]. intros a b S. apply (S ss). discriminate. }
  rewrite Ha, !Hf, !Hs, !Ht, !Hr by discriminate. clear Ha Hf Hs Ht Hr.
  destruct H as [|k k' ks ks' S1 H]; [reflexivity|]. destruct (S1 ss) as (F1 & _ & _ & R1 & _). rewrite !F1, !R1 by discriminate.
  destruct H as [|k2 k2' ks ks' S2 H]; [reflexivity|]. destruct (S2 ss) as (_ & _ & _ & R2 & _). rewrite !R2 by discriminate.
  destruct H; reflexivity.
Qed.

Lemma kind_known ss kind names ks ks' : In (kind, names) known -> same_items names ks ks' ->
  kind_meaning ss (rule_in ss) kind ks = kind_meaning ss (rule_in ss) kind ks'.
Proof.
  intros Hin Hs.
  assert (Hf : forall n, In n names -> last_of (flag_of n) ks = last_of (flag_of n) ks').
  { intros n Hn. rewrite (last_of_filter _ (called n) ks), (last_of_filter _ (called n) ks'), (Hs n Hn) by apply flag_called. reflexivity. }
  assert (Hg : forall n, In n names -> last_of (string_at n) ks = last_of (string_at n) ks').
  { intros n Hn. rewrite (last_of_filter _ (called n) ks), (last_of_filter _ (called n) ks'), (Hs n Hn) by apply string_called. reflexivity. }
  assert (Ht : forall n, In n names -> last_of (text_of ss n) ks = last_of (text_of ss n) ks').
  { intros n Hn. rewrite (last_of_filter _ (called n) ks), (last_of_filter _ (called n) ks'), (Hs n Hn) by apply text_called. reflexivity. }
  assert (Hr : forall n, In n names -> last_of (rule_of ss n) ks = last_of (rule_of ss n) ks').
  { intros n Hn. rewrite (last_of_filter _ (called n) ks), (last_of_filter _ (called n) ks'), (Hs n Hn) by apply rule_called. reflexivity. }
  assert (Ha : forall n, In n names -> answers (rule_of ss n) ks = answers (rule_of ss n) ks').
  { intros n Hn. rewrite (answers_filter _ (called n) ks), (answers_filter _ (called n) ks'), (Hs n Hn) by apply rule_called. reflexivity. }
  rewrite !kind_meaning_rules. cbv zeta. unfold known in Hin. cbn [In] in Hin.
  repeat (destruct Hin as [E|Hin]; [injection E as <- <-|]); [..|contradiction].
  all: repeat match goal with
    | |- context [str_eqb ?a ?b] => let v := eval vm_compute in (str_eqb a b) in change (str_eqb a b) with v; cbv iota
    end.
  all: rewrite ?Ha, ?Hf, ?Hg, ?Ht, ?Hr by (cbn [In]; tauto); reflexivity.
Qed.

Lemma node_known ss ks ks' : same_items [s2l "name"; s2l "rule"] ks ks' -> node_of ss (Tree (s2l "node") ks) = node_of ss (Tree (s2l "node") ks').
Proof.
  intros Hs. cbn [node_of]. rewrite !str_eqb_refl.
  rewrite (last_of_filter (string_at (s2l "name")) (called (s2l "name")) ks), (last_of_filter (string_at (s2l "name")) (called (s2l "name")) ks'),
    (last_of_filter (rule_of ss (s2l "rule")) (called (s2l "rule")) ks), (last_of_filter (rule_of ss (s2l "rule")) (called (s2l "rule")) ks')
    by (apply string_called || apply rule_called).
  rewrite !Hs by (cbn [In]; tauto). reflexivity.
Qed.

Lemma forallb_ext2 {A} (f : A -> bool) l l' : Forall2 (fun a b => f a = f b) l l' -> forallb f l = forallb f l'.
Proof. induction 1 as [|a b l l' H1 H IH]; [reflexivity|]. cbn. rewrite H1, IH. reflexivity. Qed.

Lemma rearranged_same t t' : rearranged t t' -> same_answers t t'.
Proof.
  intros H. induction H as [t|a b c IH1 IH2|n ks ks' Hk IH|p kind names ks ks' Hp Hin Hs|ks ks' Hs] using rearranged_ind'.
  - intros ss. auto 10.
  - intros ss. destruct (IH1 ss) as (A1 & A2 & A3 & A4 & A5 & A6 & A7), (IH2 ss) as (B1 & B2 & B3 & B4 & B5 & B6 & B7).
    split; [intros; rewrite A1; auto|]. split; [intros; rewrite A2; auto|]. split; [intros; rewrite A3; auto|]. split; [intros; rewrite A4; auto|].
    split; [congruence|]. split; congruence.
  - intros ss.
    assert (Hf : forall n, Forall2 (fun k k' => string_at n k = string_at n k') ks ks').
    { intros m. eapply Forall2_imp; [|exact IH]. intros a b S. apply (S ss). }
    split; [reflexivity|]. split; [reflexivity|]. split.
    { intros m Hm. cbn [text_of]. destruct (str_eqb n m); [|reflexivity]. cbn [andb].
      rewrite (forallb_ext2 _ ks ks'). 2:{ eapply Forall2_imp; [|exact IH]. intros a b S. destruct (S ss) as (_ & E & _). rewrite !E. reflexivity. }
      rewrite (last_of_ext _ ks ks'); [reflexivity|]. eapply Forall2_imp; [|exact IH]. intros a b S. destruct (S ss) as (_ & E & _). cbv beta. rewrite !E. reflexivity. }
    split.
    { intros m Hm. unfold rule_of. cbn [named]. destruct (str_eqb n m); [|reflexivity].
      destruct IH as [|k k' ks ks' S1 IH]; [reflexivity|]. destruct IH as [|k2 k2' ks ks' S2 IH].
      - destruct (S1 ss) as (_ & _ & _ & _ & E & _). destruct k, k'; exact E.
      - destruct k, k'; reflexivity. }
    split; [apply kind_items, IH|]. split.
    { cbn [string_of]. destruct (str_eqb n (s2l "string")); [|reflexivity]. cbn [andb].
      rewrite (forallb_ext2 _ ks ks'). 2:{ eapply Forall2_imp; [|exact IH]. intros a b S. destruct (S ss) as (_ & E & _). rewrite !E. reflexivity. }
      rewrite !(last_of_ext (string_at _) ks ks') by apply Hf. reflexivity. }
    cbn [node_of]. destruct (str_eqb n (s2l "node")); [|reflexivity]. rewrite !(last_of_ext (string_at _) ks ks') by apply Hf.
    rewrite (last_of_ext (rule_of ss (s2l "rule")) ks ks'); [reflexivity|]. eapply Forall2_imp; [|exact IH]. intros a b S. apply (S ss). discriminate.
  - intros ss. assert (E := kind_known ss kind names ks ks' Hin Hs). split; [reflexivity|]. split; [reflexivity|].
    split; [intros n _; cbn; destruct (str_eqb p n); reflexivity|]. split.
    { intros n _. unfold rule_of. cbn [named rule_in]. rewrite E. reflexivity. }
    split; [destruct Hp as [-> | ->]; reflexivity|]. split; destruct Hp as [-> | ->]; reflexivity.
  - intros ss. split; [reflexivity|]. split; [reflexivity|]. split.
    { intros n Hn. cbn [text_of]. destruct (str_eqb (s2l "node") n) eqn:E; [|reflexivity]. apply str_eqb_eq in E. congruence. }
    split. { intros n Hn. unfold rule_of. cbn [named]. destruct (str_eqb (s2l "node") n) eqn:E; [|reflexivity]. apply str_eqb_eq in E. congruence. }
    split; [reflexivity|]. split; [reflexivity|]. apply node_known, Hs.
Qed.

Lemma rearranged_meaning ts ts' : Forall2 rearranged ts ts' -> forall ss, data_meaning ss ts = data_meaning ss ts'.
Proof.
  intros H. assert (Hs : Forall2 same_answers ts ts') by (eapply Forall2_imp; [exact rearranged_same|exact H]). clear H.
  induction Hs as [|t t' ts ts' S H IH]; intros ss; [reflexivity|]. cbn [data_meaning]. destruct (S ss) as (_ & _ & _ & _ & _ & E & En). rewrite E.
  destruct (string_of t'); [apply IH|].
  assert (Hall : all_of (node_of ss) ts = all_of (node_of ss) ts').
  { clear - H. induction H as [|t t' ts ts' S H IH]; [reflexivity|]. cbn. destruct (S ss) as (_ & _ & _ & _ & _ & _ & ->). rewrite IH. reflexivity. }
  cbn. rewrite En, Hall. reflexivity.
Qed.

Theorem rearranged_converts data data' ts ts' ig ig2 r r' g g' : Forall good ts -> Forall good ts' ->
  map snd data = flat_map flat ts -> map snd data' = flat_map flat ts' -> Forall2 rearranged ts ts' ->
  convert_returns data ig r g -> convert_returns data' ig2 r' g' -> same_but_ids r r'.
Proof. intros. eapply same_meaning_same with (ts := ts) (ts' := ts'); eauto. apply rearranged_meaning. assumption. Qed.


(** ** Rules that do not pass over unknown items *)

Lemma whitespace_strict : exists kids m, called (s2l "optional") (Leaf m) = false /\ good (Leaf m) /\
  (exists s g, convert_returns (map (pair (Rng 0 0)) (flat_map flat (one_rule (s2l "whitespace") kids))) [] (Some s) g) /\
  (exists g, convert_returns (map (pair (Rng 0 0)) (flat_map flat (one_rule (s2l "whitespace") (kids ++ [Leaf m])))) [] None g).
Proof.
  exists [Leaf (MBool (s2l "optional") true)], (MBool (s2l "unknown") true). split; [reflexivity|]. split; [exact I|]. split.
  - do 2 eexists. exists 30. vm_compute. reflexivity.
  - eexists. exists 30. vm_compute. reflexivity.
Qed.
