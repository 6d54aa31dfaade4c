(** Reading back what was written as JSON. *)
From Coq Require Import Ascii String List NArith Bool Arith Lia.
From Verif Require Import Base Ext Types JsonModel JsonSpec DataSpec JsonProofs ParseModel PegSpec
  RuleSpec RuleProofs OptProofs.
Import ListNotations.
Local Open Scope list_scope.

(** ** String literals *)

Lemma lookup_escape_spec e c : In (e, c) escapes -> lookup_escape e escapes = Some c.
Proof.
  simpl. intros H.
  repeat (destruct H as [H|H]; [injection H as <- <-; reflexivity|]). destruct H.
Qed.

Lemma read_chars_spec raw s t : chars_text raw s t ->
  forall rest, read_chars (t ++ quote :: rest) = Some (s, rest).
Proof.
  induction 1 as [|c s t Hq Hb Hr H IH|e c s t He H IH]; intros rest.
  - reflexivity.
  - cbn [app read_chars]. rewrite (proj2 (N.eqb_neq _ _) Hq), (proj2 (N.eqb_neq _ _) Hb), IH.
    reflexivity.
  - cbn [app read_chars]. rewrite IH, (lookup_escape_spec _ _ He). reflexivity.
Qed.

Lemma std_string_literal raw s t : chars_text raw s t -> forall rest n,
  std_string_go (t ++ quote :: rest) false n = Some (n + length t + 1).
Proof.
  induction 1 as [|c s t Hq Hb Hr H IH|e c s t He H IH]; intros rest n.
  - cbn. f_equal. lia.
  - cbn [app std_string_go]. rewrite (proj2 (N.eqb_neq _ _) Hq), (proj2 (N.eqb_neq _ _) Hb), IH.
    cbn [length]. f_equal. lia.
  - cbn [app std_string_go]. change (N.eqb backslash backslash) with true. cbn iota.
    rewrite IH. cbn [length]. f_equal. lia.
Qed.

Lemma std_unescape_cons c x s n acc : c <> backslash ->
  std_unescape (c :: x :: s) n acc = std_unescape (x :: s) (n + 1) (c :: acc).
Proof. intros H. cbn [std_unescape]. rewrite (proj2 (N.eqb_neq _ _) H). reflexivity. Qed.

Lemma std_unescape_literal raw s t : chars_text raw s t -> forall n acc,
  std_unescape (t ++ [quote]) n acc = inl (rev acc ++ s).
Proof.
  induction 1 as [|c s t Hq Hb Hr H IH|e c s t He H IH]; intros n acc.
  - cbn. rewrite app_nil_r. reflexivity.
  - cbn [app]. destruct (t ++ [quote]) as [|x u] eqn:Ht; [destruct t; discriminate|].
    rewrite std_unescape_cons by exact Hb. rewrite IH. cbn [rev].
    rewrite <- app_assoc. reflexivity.
  - cbn [app]. assert (Hgo : std_unescape (backslash :: e :: t ++ [quote]) n acc
      = std_unescape (t ++ [quote]) (n + 2) (c :: acc)).
    { simpl in He.
      repeat (destruct He as [He|He]; [injection He as <- <-; reflexivity|]). destruct He. }
    rewrite Hgo, IH. cbn [rev]. rewrite <- app_assoc. reflexivity.
Qed.

Lemma std_string_literals : string_literals_ok std_ext.
Proof.
  intros s t H. split.
  - intros rest. cbn [x_string std_ext std_string]. change (N.eqb quote quote) with true. cbn iota.
    rewrite (std_string_literal _ _ _ H). f_equal. lia.
  - cbn [x_parse_string std_ext std_parse_string].
    rewrite (std_unescape_literal _ _ _ H). reflexivity.
Qed.

Definition anyc (c : char) : Prop := True.

Lemma written_text s : chars_text anyc s (flat_map write_char s).
Proof. apply write_string_text. intros c _. left. exact I. Qed.

Lemma written_length s : s <> [] -> flat_map write_char s <> [].
Proof.
  destruct s as [|c s]; [contradiction|]. intros _. cbn [flat_map]. unfold write_char.
  repeat (destruct (N.eqb _ _); [discriminate|]). discriminate.
Qed.

Lemma text_rule_reads_back E : string_literals_ok E ->
  forall refs allow_empty name id ind p s rest,
  allow_empty = true \/ s <> [] ->
  runs E refs (RText allow_empty (Some name) id) ind p (write_string s ++ rest)
    (Yes (length (write_string s)) [(Rng p (length (write_string s)), MString name s)]) ind.
Proof.
  intros HE refs allow_empty name id ind p s rest Hs.
  destruct (HE s _ (written_text s)) as [H1 H2].
  assert (Hlen : length (write_string s) = length (flat_map write_char s) + 2).
  { unfold write_string. cbn [app length]. rewrite app_length. cbn [length]. lia. }
  assert (Htext : write_string s ++ rest = quote :: flat_map write_char s ++ quote :: rest).
  { unfold write_string. cbn [app]. rewrite <- app_assoc. reflexivity. }
  rewrite Hlen. apply (runs_eval E refs 1).
  cbn [parse_rule]. unfold parse_text. cbn [src]. rewrite Htext, H1.
  assert (Hne : negb allow_empty && Nat.eqb (length (flat_map write_char s) + 2) 2 = false).
  { destruct Hs as [->|Hs]; [reflexivity|]. apply andb_false_intro2. apply Nat.eqb_neq.
    apply written_length in Hs. destruct (flat_map write_char s); [contradiction|]. simpl. lia. }
  rewrite Hne. unfold rt_raw_string. cbn [src].
  assert (Hf : firstn (length (flat_map write_char s) + 2)
    (quote :: flat_map write_char s ++ quote :: rest) = quote :: flat_map write_char s ++ [quote]).
  { replace (length (flat_map write_char s) + 2) with (S (length (flat_map write_char s) + 1)) by lia.
    cbn [firstn]. f_equal. rewrite firstn_app_2. reflexivity. }
  rewrite Hf, H2. unfold emit, rt_peek. cbn. reflexivity.
Qed.

Lemma written_inj s s' : write_string s = write_string s' -> s = s'.
Proof.
  unfold write_string. intros H. injection H as H.
  pose proof (read_chars_spec _ _ _ (written_text s) []) as H1.
  pose proof (read_chars_spec _ _ _ (written_text s') []) as H2.
  rewrite H in H1. congruence.
Qed.

(** ** The reader *)

Lemma wsb_spec c : wsb c = true <-> json_ws c.
Proof.
  unfold wsb, json_ws. rewrite existsb_exists. split.
  - intros (x & Hx & He). apply N.eqb_eq in He. subst. exact Hx.
  - intros H. exists c. split; [exact H|apply N.eqb_refl].
Qed.

Lemma bareb_spec c : bareb c = true <-> bare c.
Proof.
  unfold bareb, bare. rewrite andb_true_iff, !negb_true_iff.
  rewrite <- wsb_spec. split.
  - intros [H1 H2]. split; [congruence|]. intros Hin.
    assert (existsb (N.eqb c) [quote; open_brace; close_brace; colon; comma] = true)
      by (apply existsb_exists; exists c; split; [exact Hin|apply N.eqb_refl]). congruence.
  - intros [H1 H2]. split; [destruct (wsb c); congruence|].
    destruct (existsb _ _) eqn:He; [|reflexivity]. exfalso. apply H2.
    apply existsb_exists in He as (x & Hx & He). apply N.eqb_eq in He. subst. exact Hx.
Qed.

Lemma skip_ws_app w t : Forall json_ws w -> skip_ws (w ++ t) = skip_ws t.
Proof.
  induction 1 as [|c w Hc H IH]; [reflexivity|]. cbn [app skip_ws].
  rewrite (proj2 (wsb_spec c) Hc). exact IH.
Qed.

Lemma skip_ws_stop c t : wsb c = false -> skip_ws (c :: t) = c :: t.
Proof. intros H. cbn [skip_ws]. rewrite H. reflexivity. Qed.

(** What may follow a word. *)
Definition stops (rest : str) : Prop :=
  match rest with [] => True | c :: _ => bareb c = false end.

Lemma read_word_spec w rest : Forall bare w -> stops rest -> read_word (w ++ rest) = (w, rest).
Proof.
  intros H Hr. induction H as [|c w Hc H IH].
  - destruct rest as [|c rest]; [reflexivity|]. cbn. simpl in Hr. rewrite Hr. reflexivity.
  - cbn [app read_word]. rewrite (proj2 (bareb_spec c) Hc), IH. reflexivity.
Qed.

Lemma bareb_not c : bareb c = true -> c <> quote /\ c <> open_brace.
Proof. intros H. apply bareb_spec in H as [_ H]. simpl in H. split; intros ->; tauto. Qed.

Lemma word_starts c w rest f : bare c ->
  read_json (S f) ((c :: w) ++ rest)
  = match read_word ((c :: w) ++ rest) with
    | ([], _) => None
    | (w, rest) =>
      Some (if str_eqb w (s2l "true") then JBool true
            else if str_eqb w (s2l "false") then JBool false
            else JNumber w, rest)
    end.
Proof.
  intros Hc. destruct (bareb_not c) as [H1 H2]; [apply bareb_spec; exact Hc|].
  cbn [app read_json]. rewrite (proj2 (N.eqb_neq _ _) H1), (proj2 (N.eqb_neq _ _) H2). reflexivity.
Qed.

Lemma fixed_word w v : Forall bare w -> w <> [] ->
  v = (if str_eqb w (s2l "true") then JBool true
       else if str_eqb w (s2l "false") then JBool false else JNumber w) ->
  forall rest f, stops rest -> read_json (S f) (w ++ rest) = Some (v, rest).
Proof.
  intros Hw Hne -> rest f Hr. destruct w as [|c w]; [contradiction|].
  rewrite word_starts by (inversion Hw; assumption). rewrite read_word_spec by assumption.
  reflexivity.
Qed.

Lemma str_eqb_neq a b : a <> b -> str_eqb a b = false.
Proof.
  intros H. destruct (str_eqb a b) eqn:He; [|reflexivity].
  apply str_eqb_eq in He. contradiction.
Qed.

Lemma ascii_bare w : forallb bareb w = true -> Forall bare w.
Proof.
  intros H. apply Forall_forall. intros c Hc. apply bareb_spec.
  exact (proj1 (forallb_forall _ _) H c Hc).
Qed.

(** What a text starts with when it is no white space. *)
Lemma json_text_head raw v t : json_text raw word v t ->
  exists c u, t = c :: u /\ wsb c = false /\ c <> close_brace.
Proof.
  destruct 1 as [s t H| | |w [Hne [Hw _]]|w H|ms t H].
  - exists quote, (t ++ [quote]). repeat split; discriminate.
  - exists 116%N, (s2l "rue"). repeat split; discriminate.
  - exists 102%N, (s2l "alse"). repeat split; discriminate.
  - destruct w as [|c w]; [contradiction|]. exists c, w. split; [reflexivity|].
    inversion Hw as [|? ? [H1 H2] ?]; subst. rewrite <- wsb_spec in H1.
    split; [destruct (wsb c); congruence|]. intros ->. apply H2. simpl. tauto.
  - eexists _, _. split; [reflexivity|]. split; [reflexivity|discriminate].
  - eexists _, _. split; [reflexivity|]. split; [reflexivity|discriminate].
Qed.

Lemma skip_ws_json raw v t rest : json_text raw word v t -> skip_ws (t ++ rest) = t ++ rest.
Proof.
  intros H. destruct (json_text_head _ _ _ H) as (c & u & -> & Hc & _). cbn [app].
  apply skip_ws_stop. exact Hc.
Qed.

Lemma ws_stops w c rest : Forall json_ws w -> bareb c = false -> stops (w ++ c :: rest).
Proof.
  intros H Hc. destruct H as [|d w Hd H]; [exact Hc|]. cbn.
  apply wsb_spec in Hd. unfold bareb. rewrite Hd. reflexivity.
Qed.

(** Enough fuel reads a value, the members up to the closing brace, a member up to what
    follows it. *)
Lemma reads_texts raw :
  (forall v t, json_text raw word v t -> exists N, forall f rest, N <= f -> stops rest ->
     read_json f (t ++ rest) = Some (v, rest)) /\
  (forall ms t, members_text raw word ms t ->
     (exists w u, t = w ++ quote :: u /\ Forall json_ws w) /\
     exists N, forall f rest, N <= f ->
     read_members f (t ++ close_brace :: rest) = Some (ms, rest)) /\
  (forall k v m, member_text raw word k v m ->
     (exists w u, m = w ++ quote :: u /\ Forall json_ws w) /\
     exists N, forall f c rest, N <= f -> bareb c = false -> wsb c = false ->
     read_members (S f) (m ++ c :: rest) =
       if N.eqb c comma then
         match read_members f rest with
         | Some (ms, t6) => Some ((k, v) :: ms, t6)
         | None => None
         end
       else if N.eqb c close_brace then Some ([(k, v)], rest)
       else None).
Proof.
  apply json_text_mutind.
  - intros s t H. exists 1. intros f rest Hf _. destruct f as [|f]; [lia|].
    cbn [app read_json]. change (N.eqb quote quote) with true. cbn iota.
    rewrite <- app_assoc. cbn [app]. rewrite (read_chars_spec _ _ _ H). reflexivity.
  - exists 1. intros f rest Hf Hr. destruct f as [|f]; [lia|].
    apply fixed_word; [apply ascii_bare; reflexivity|discriminate|reflexivity|exact Hr].
  - exists 1. intros f rest Hf Hr. destruct f as [|f]; [lia|].
    apply fixed_word; [apply ascii_bare; reflexivity|discriminate|reflexivity|exact Hr].
  - intros w (Hne & Hw & H1 & H2). exists 1. intros f rest Hf Hr. destruct f as [|f]; [lia|].
    apply fixed_word; [exact Hw|exact Hne| |exact Hr].
    rewrite (str_eqb_neq _ _ H1), (str_eqb_neq _ _ H2). reflexivity.
  - intros w Hw. exists 1. intros f rest Hf _. destruct f as [|f]; [lia|].
    cbn [app read_json]. change (N.eqb open_brace quote) with false.
    change (N.eqb open_brace open_brace) with true. cbn iota.
    rewrite <- app_assoc, skip_ws_app by exact Hw. reflexivity.
  - intros ms t _ [(w & u & -> & Hw) [N IH]]. exists (S N). intros f rest Hf _.
    destruct f as [|f]; [lia|].
    cbn [app read_json]. change (N.eqb open_brace quote) with false.
    change (N.eqb open_brace open_brace) with true. cbn iota.
    specialize (IH f rest ltac:(lia)).
    rewrite <- !app_assoc in *. cbn [app] in *. rewrite skip_ws_app by exact Hw.
    rewrite skip_ws_stop by reflexivity. change (N.eqb quote close_brace) with false. cbn iota.
    rewrite IH. reflexivity.
  - intros k v m _ [Hh [N IH]]. split; [exact Hh|]. exists (S N). intros f rest Hf.
    destruct f as [|f]; [lia|]. rewrite IH by (lia || reflexivity). reflexivity.
  - intros k v m ms t _ [(w & u & -> & Hw) [N IH]] _ [_ [N' IH']]. split.
    { exists w, (u ++ comma :: t). rewrite <- app_assoc. split; [reflexivity|exact Hw]. }
    exists (S (N + N')). intros f rest Hf. destruct f as [|f]; [lia|].
    rewrite <- app_assoc. cbn [app].
    rewrite IH by (lia || reflexivity). change (N.eqb comma comma) with true. cbn iota.
    rewrite IH' by lia. reflexivity.
  - intros k t v tv a b c d Ha Hb Hc Hd Hk Hv [N IH]. split.
    { exists a, (t ++ quote :: b ++ colon :: c ++ tv ++ d). split; [reflexivity|exact Ha]. }
    exists N. intros f e rest Hf He Hew.
    cbn [read_members]. rewrite <- !app_assoc. rewrite skip_ws_app by exact Ha.
    cbn [app]. rewrite skip_ws_stop by reflexivity. change (N.eqb quote quote) with true. cbn iota.
    rewrite <- !app_assoc. cbn [app]. rewrite (read_chars_spec _ _ _ Hk).
    rewrite <- !app_assoc. rewrite skip_ws_app by exact Hb.
    cbn [app]. rewrite skip_ws_stop by reflexivity. change (N.eqb colon colon) with true. cbn iota.
    rewrite <- !app_assoc. rewrite skip_ws_app by exact Hc. rewrite (skip_ws_json _ _ _ _ Hv).
    rewrite IH by (exact Hf || (apply ws_stops; assumption)).
    rewrite skip_ws_app by exact Hd. rewrite skip_ws_stop by exact Hew. reflexivity.
Qed.

Lemma reader_complete v t : loose_json v t -> exists N, forall f, N <= f ->
  read_json f t = Some (v, []).
Proof.
  intros H. destruct (proj1 (reads_texts _) v t H) as [N HN]. exists N. intros f Hf.
  specialize (HN f [] Hf I). rewrite app_nil_r in HN. exact HN.
Qed.

Lemma text_unique v v' t : loose_json v t -> loose_json v' t -> v = v'.
Proof.
  intros H H'. destruct (reader_complete _ _ H) as [N HN], (reader_complete _ _ H') as [N' HN'].
  specialize (HN (N + N') ltac:(lia)). specialize (HN' (N + N') ltac:(lia)). congruence.
Qed.
