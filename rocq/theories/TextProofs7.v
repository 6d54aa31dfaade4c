(** Reading what is written: the whole way from the text to the rules. *)
From Coq Require Import Ascii String List NArith Bool Arith Lia.
From Verif Require Import Base Ext Types ParseModel OptimizeModel ConvertModel BootstrapRules LibModel PegSpec DataSpec ApiSpec
  OptSpec IdSpec PrimProofs JsonSpec ConvertSpec WriteSpec SyntaxSpec TextSpec RuleProofs OptProofs OptProofs2 ParseProofs OptPublic
  FuelProofs ConvertFuel WriteProofs WriteProofs3 SyntaxProofs TextProofs TextProofs2 TextProofs3 TextProofs4 TextProofs5 TextProofs6 SimProofs.
Import ListNotations.
Local Open Scope string_scope.
Local Open Scope list_scope.
Local Open Scope nat_scope.

(** ** Numbered rules *)

Lemma like_same r : like_rule any_ids r r.
Proof. apply zero_like. reflexivity. Qed.

Lemma like_number r : forall lo, like_rule any_ids r (fst (number lo r)).
Proof.
  induction r as [r IH] using rule_ind'; intros lo.
  assert (Hargs : forall args, incl args (children r) -> forall lo, Forall2 (like_rule any_ids) args (fst (number_args lo args))).
  { induction args as [|a args IHa]; intros Hi lo'; [constructor|]. cbn [number_args].
    assert (Ha := IH a (Hi a (or_introl eq_refl)) lo'). destruct (number lo' a) as [a' mid].
    assert (Hl := IHa (fun x Hx => Hi x (or_intror Hx)) mid). destruct (number_args mid args) as [l' hi].
    constructor; assumption. }
  destruct r; try (apply like_same);
    try (rewrite ?number_select, ?number_sequence;
         specialize (Hargs args (fun x Hx => Hx) lo); destruct (number_args lo args) as [l' hi]; constructor; [exact I|exact Hargs]);
    try (cbn [number fst]; constructor; exact I).
  - cbn [number]. assert (Hb := IH r2 (or_intror (or_introl eq_refl)) lo). destruct (number lo r2) as [b' mid].
    assert (Ha := IH r1 (or_introl eq_refl) mid). destruct (number mid r1) as [a' hi].
    constructor; [exact I|assumption|assumption].
  - cbn [number]. assert (Ha := IH r (or_introl eq_refl) lo). destruct (number lo r) as [a' hi]. constructor; [exact I|assumption].
  - cbn [number]. assert (Ha := IH r (or_introl eq_refl) lo). destruct (number lo r) as [a' hi]. constructor; [exact I|assumption].
  - cbn [number]. assert (Ha := IH r (or_introl eq_refl) lo). destruct (number lo r) as [a' hi]. constructor; [exact I|assumption].
  - cbn [number]. assert (Ha := IH r (or_introl eq_refl) lo). destruct (number lo r) as [a' hi]. constructor; [exact I|assumption].
Qed.

Section Public.
  Variable E : ext.
  Hypothesis HE : ext_ok E.
  Hypothesis HS : string_literals_ok E.
  Hypothesis HN : no_slash_number E.

  Lemma quoted_read : forall v t, quoted v t -> literal E v t.
  Proof. intros v t. apply quoted_literal. exact HS. Qed.

  Lemma number_exact ss r t lo : mrule quoted (defined ss) r t ->
    let r' := fst (number lo r) in
    let hi := (lo + N.of_nat (length (rule_ids r)))%N in
    own_id r' = hi /\ forall i, In i (rule_ids r') <-> (lo < i <= hi)%N.
  Proof.
    intros Hm. destruct (read_rule E HE quoted quoted_read ss r t Hm) as (m & Hrd).
    destruct (Hrd 0 [] I) as (out & _ & Hw & _). specialize (Hw lo). apply (proj1 (OnceProofs.once_write ss)) in Hw. cbv zeta.
    destruct (proj1 (wids ss) _ _ _ _ Hw) as [Hown _]. destruct (proj1 (wexact ss) _ _ _ _ Hw) as [Hhi Hids].
    rewrite (like_ids_length _ _ (like_number r lo)) in Hhi. rewrite <- Hhi. split; [exact Hown|exact Hids].
  Qed.

  Lemma document_rules strings nodes text : document E strings nodes text ->
    Forall (fun n => exists t, mrule quoted (defined strings) (snd n) t) nodes.
  Proof.
    intros [fs sn text' _ _ _ <- Ht].
    assert (H : Forall (fun n => exists t, mrule quoted (defined strings) (snd n) t) (nodes_of (fs ++ sn))).
    { clear -Ht. induction Ht as [|w e t _ He|w e t es rest _ He _ IH]; [constructor| |].
      - destruct He; cbn; repeat constructor. eauto.
      - destruct He; cbn; try exact IH. constructor; [eauto|exact IH]. }
    rewrite nodes_app in H. apply Forall_app in H. exact (proj2 H).
  Qed.

  Definition names_of (nodes : list (str * f64 * rule)) : list str := map (fun n => fst (fst n)) nodes.
  Definition node_lo (n : str * f64 * rule) : N := (f64_as_usize (snd (fst n)) * 1000)%N.
  Definition node_hi (n : str * f64 * rule) : N := (node_lo n + N.of_nat (length (rule_ids (snd n))))%N.

  (** The rules that are read: numbered and resolved. *)
  Definition read_syntax (nodes : list (str * f64 * rule)) : syntax :=
    Syn (map (fun n => rule_update_refs (names_of nodes) (numbered n)) nodes) (names_of nodes).

  Lemma document_syntax strings nodes text : document E strings nodes text -> Forall real_char text ->
    Forall (fun n => (node_hi n <= usize_max)%N) nodes -> rules_read E text (inl (read_syntax nodes)).
  Proof.
    intros Hd Hreal Hsmall. assert (Hrules := document_rules _ _ _ Hd).
    destruct (document_read E strings nodes text HE HS HN Hd) as (data & tr & R & Hw).
    assert (Hacc : accepts E bootstrap_rules indent_default text data).
    { eapply (accepts_all _ _ _ _ (nth 22 boot (RSelect [] 0))); [|rewrite boot_rules; exact R].
      unfold start_rule. rewrite boot_rules. exists (firstn 22 boot). reflexivity. }
    assert (Hp : parse_returns E bootstrap_rules text [] indent_default None data).
    { apply parse_accepts; [exact HE|]. exists data. auto. }
    destruct (bootstrap_optimized E HE) as (bo & Hbo & Hsame).
    apply (proj1 (Hsame text [] indent_default Hreal)) in Hp.
    destruct (document_back data (names_of nodes) (map numbered nodes) [] Hw) as (s & Hc & Hn & Hr).
    { apply Forall_map. apply Forall_forall. intros n Hin.
      rewrite Forall_forall in Hrules, Hsmall. destruct (Hrules n Hin) as (t & Hm). specialize (Hsmall n Hin).
      destruct n as [[nm x] r]. destruct (number_exact strings r t (f64_as_usize x * 1000)%N Hm) as [Hown _].
      cbn [numbered]. rewrite Hown. exact Hsmall. }
    assert (Hs : s = read_syntax nodes).
    { destruct s as [rules names]. cbn [s_names s_rules] in *. subst names. unfold read_syntax. f_equal.
      rewrite <- (map_map numbered). revert Hr. generalize (map numbered nodes).
      induction l in rules |- *; intros Hr; inversion Hr; subst; [reflexivity|]. cbn. f_equal; [|auto].
      eapply resolved_unique; [eassumption|apply update_refs_resolved]. }
    subst s. destruct Hbo as (f1 & Hf1), Hp as (f2 & Hf2), Hc as (f3 & Hf3).
    exists (f1 + f2 + f3). unfold syntax_unoptimized.
    assert (G1 : optimize (f1 + f2 + f3) bootstrap_rules = Done bo).
    { destruct (optimize_mono f1 (f1 + f2 + f3) bootstrap_rules ltac:(lia)) as [H|H]; congruence. }
    assert (G2 : parse E (f1 + f2 + f3) bo text [] = Done (None, data)).
    { unfold parse. destruct (parse_with_indent_mono E f2 (f1 + f2 + f3) bo text [] indent_default ltac:(lia)) as [H|H]; congruence. }
    assert (G3 : convert (f1 + f2 + f3) data [] = Done (Some (read_syntax nodes), [])).
    { destruct (convert_mono f3 (f1 + f2 + f3) data [] ltac:(lia)) as [H|H]; congruence. }
    rewrite G1. cbn [obind]. rewrite G2. cbn [obind]. rewrite G3. reflexivity.
  Qed.

  Lemma read_syntax_rules strings nodes text : document E strings nodes text ->
    Forall2 (fun n r => (exists r1, like_rule any_ids (snd n) r1 /\ resolved (names_of nodes) r1 r) /\
      forall i, In i (rule_ids r) <-> (node_lo n < i <= node_hi n)%N) nodes (s_rules (read_syntax nodes)).
  Proof.
    intros Hd. assert (Hrules := document_rules _ _ _ Hd). unfold read_syntax. cbn [s_rules].
    generalize (names_of nodes) as names. intros names. clear Hd. induction Hrules as [|n nodes (t & Hm) Hrules IH]; [constructor|].
    cbn [map]. constructor; [|exact IH]. destruct n as [[nm x] r]. split.
    - exists (numbered (nm, x, r)). split; [apply like_number|apply update_refs_resolved].
    - rewrite rule_ids_refs. apply (proj2 (number_exact strings r t _ Hm)).
  Qed.

  (** What becomes of the rules after that. *)
  Lemma rules_then_syntax text s : rules_read E text (inl s) ->
    (forall s', syntax_returns E text (inl s') <-> optimize_returns s s') /\
    (forall e, ~ syntax_returns E text (inr e)) /\
    (syntax_diverges E text <-> optimize_diverges s).
  Proof.
    intros (f & Hf).
    assert (Hall : forall g, syntax_unoptimized E g text = OutOfFuel \/ syntax_unoptimized E g text = Done (inl s)).
    { intros g. destruct (syntax_unoptimized E g text) eqn:Hg; auto; right;
        rewrite <- Hg, <- Hf; apply (agree (fun n => syntax_unoptimized E n text));
        try (intros m n; apply syntax_unoptimized_mono); cbn beta; congruence. }
    split; [|split].
    - intros s'. split.
      + intros (g & Hg). unfold lib_syntax in Hg. destruct (Hall g) as [H|H]; rewrite H in Hg; [discriminate|].
        cbn [obind] in Hg. exists g. destruct (optimize g s); try discriminate. injection Hg as ->. reflexivity.
      + intros (g & Hg). exists (f + g). unfold lib_syntax.
        destruct (syntax_unoptimized_mono E f (f + g) text ltac:(lia)) as [H|H]; [congruence|].
        rewrite <- H, Hf. cbn [obind]. destruct (optimize_mono g (f + g) s ltac:(lia)) as [H'|H']; [congruence|].
        rewrite <- H', Hg. reflexivity.
    - intros e (g & Hg). unfold lib_syntax in Hg. destruct (Hall g) as [H|H]; rewrite H in Hg; [discriminate|].
      cbn [obind] in Hg. destruct (optimize g s); discriminate.
    - split.
      + intros H g. specialize (H (f + g)). unfold lib_syntax in H.
        destruct (syntax_unoptimized_mono E f (f + g) text ltac:(lia)) as [H1|H1]; [congruence|].
        rewrite <- H1, Hf in H. cbn [obind] in H.
        destruct (optimize_mono g (f + g) s ltac:(lia)) as [H'|H']; [exact H'|].
        destruct (optimize (f + g) s) eqn:Ho; [discriminate|discriminate|congruence].
      + intros H g. unfold lib_syntax. destruct (Hall g) as [H1|H1]; rewrite H1; [reflexivity|].
        cbn [obind]. rewrite H. reflexivity.
  Qed.

  Theorem text_back strings nodes text :
    document E strings nodes text -> Forall real_char text ->
    let names := map (fun n => fst (fst n)) nodes in
    let lo n := (f64_as_usize (snd (fst n)) * 1000)%N in
    let hi n := (lo n + N.of_nat (length (rule_ids (snd n))))%N in
    Forall (fun n => (hi n <= usize_max)%N) nodes ->
    exists s, rules_read E text (inl s) /\ s_names s = names /\
      Forall2 (fun n r => (exists r1, like_rule any_ids (snd n) r1 /\ resolved names r1 r) /\
        forall i, In i (rule_ids r) <-> (lo n < i <= hi n)%N) nodes (s_rules s) /\
      forall s', optimize_returns s s' -> syntax_returns E text (inl s').
  Proof.
    intros Hd Hreal names lo hi Hsmall. exists (read_syntax nodes).
    assert (H := document_syntax strings nodes text Hd Hreal Hsmall).
    split; [exact H|]. split; [reflexivity|]. split; [exact (read_syntax_rules strings nodes text Hd)|].
    intros s' Hs'. apply (proj1 (rules_then_syntax text _ H)). exact Hs'.
  Qed.

  (** ** Comments and white space *)

  Theorem layout_irrelevant strings nodes text text' :
    document E strings nodes text -> document E strings nodes text' ->
    Forall real_char text -> Forall real_char text' ->
    Forall (fun n => (f64_as_usize (snd (fst n)) * 1000 + N.of_nat (length (rule_ids (snd n))) <= usize_max)%N) nodes ->
    (exists s, rules_read E text (inl s) /\ rules_read E text' (inl s)) /\
    (forall result, syntax_returns E text result <-> syntax_returns E text' result) /\
    (syntax_diverges E text <-> syntax_diverges E text').
  Proof.
    intros Hd Hd' Hr Hr' Hsmall.
    assert (H := document_syntax strings nodes text Hd Hr Hsmall).
    assert (H' := document_syntax strings nodes text' Hd' Hr' Hsmall).
    split; [eauto|]. destruct (rules_then_syntax text _ H) as (H1 & H2 & H3).
    destruct (rules_then_syntax text' _ H') as (H1' & H2' & H3'). split.
    - intros [s|e]; [rewrite H1, H1'; reflexivity|]. split; intros X; exfalso; [exact (H2 _ X)|exact (H2' _ X)].
    - rewrite H3, H3'. reflexivity.
  Qed.

  Lemma entries_white lit def es text w : Forall white w -> entries_text E lit def es text -> entries_text E lit def es (w ++ text).
  Proof.
    intros Hw [w1 H1|w1 e t H1 He|w1 e t es' rest H1 He Hes].
    - apply entries_none. apply Forall_app; auto.
    - rewrite app_assoc. apply entries_last; [apply Forall_app; auto|exact He].
    - rewrite app_assoc. apply entries_more; [apply Forall_app; auto|exact He|exact Hes].
  Qed.

  Lemma entries_app lit def es1 a es2 b : entries_text E lit def es1 a -> entries_text E lit def es2 b ->
    entries_text E lit def (es1 ++ es2) (a ++ newline :: b).
  Proof.
    intros H1 H2. induction H1 as [w Hw|w e t Hw He|w e t es rest Hw He Hes IH].
    - change (w ++ newline :: b) with (w ++ [newline] ++ b). rewrite app_assoc. apply entries_white; [|exact H2].
      apply Forall_app. split; [exact Hw|repeat constructor].
    - rewrite <- app_assoc. apply entries_more; assumption.
    - cbn [app]. rewrite <- !app_assoc. cbn [app]. apply entries_more; assumption.
  Qed.

  (** A comment on lines of its own, between two entries. *)
  Theorem comment_line strings es1 a es2 b c :
    entries_text E quoted (defined strings) es1 a -> entries_text E quoted (defined strings) es2 b -> entry_text E quoted (defined strings) EComment c ->
    (exists first second, es1 ++ es2 = first ++ second /\ nodes_of first = [] /\ strings_of second = []) ->
    strings_of (es1 ++ es2) = strings ->
    Forall real_char (a ++ c ++ b) ->
    Forall (fun n => (f64_as_usize (snd (fst n)) * 1000 + N.of_nat (length (rule_ids (snd n))) <= usize_max)%N) (nodes_of (es1 ++ es2)) ->
    let text := a ++ newline :: b in
    let text' := a ++ newline :: c ++ newline :: b in
    (exists s, rules_read E text (inl s) /\ rules_read E text' (inl s)) /\
    (forall result, syntax_returns E text result <-> syntax_returns E text' result) /\
    (syntax_diverges E text <-> syntax_diverges E text').
  Proof.
    intros Ha Hb Hc (f & sn & Heq & Hf & Hsn) Hss Hreal Hsmall text text'.
    assert (Hnl : real_char newline) by reflexivity.
    apply Forall_app in Hreal. destruct Hreal as [Hra Hreal]. apply Forall_app in Hreal. destruct Hreal as [Hrc Hrb].
    assert (Hst : strings_of f = strings).
    { rewrite <- Hss, Heq, strings_app, Hsn, app_nil_r. reflexivity. }
    assert (Hnd : nodes_of sn = nodes_of (es1 ++ es2)) by (rewrite Heq, nodes_app, Hf; reflexivity).
    apply (layout_irrelevant strings (nodes_of (es1 ++ es2))); [| | | |exact Hsmall].
    - apply document_of with (first := f) (second := sn); try assumption. rewrite <- Heq. apply entries_app; assumption.
    - assert (Hc' : entries_text E quoted (defined strings) [EComment] c) by (apply (entries_last E quoted (defined strings) []); [constructor|exact Hc]).
      assert (Hall : entries_text E quoted (defined strings) (es1 ++ EComment :: es2) text')
        by (apply entries_app; [exact Ha|apply (entries_app quoted (defined strings) [EComment]); assumption]).
      apply app_eq_app in Heq. destruct Heq as (l & [[-> ->]|[-> ->]]).
      + apply document_of with (first := f) (second := l ++ EComment :: es2); try assumption.
        * rewrite !strings_app in *. exact Hsn.
        * rewrite !nodes_app, Hf. reflexivity.
        * rewrite <- app_assoc in Hall. exact Hall.
      + apply document_of with (first := es1 ++ EComment :: l) (second := sn); try assumption.
        * rewrite nodes_app in *. exact Hf.
        * rewrite strings_app in *. exact Hst.
        * rewrite <- app_assoc. exact Hall.
    - apply Forall_app. split; [exact Hra|]. constructor; assumption.
    - apply Forall_app. split; [exact Hra|]. constructor; [exact Hnl|]. apply Forall_app. split; [exact Hrc|]. constructor; assumption.
  Qed.
End Public.
