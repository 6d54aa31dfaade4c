(** The output of the JSON writer: structure, panics, indentation. *)
From Coq Require Import Ascii String List NArith Bool Arith Lia.
From Verif Require Import Base Ext Types JsonModel JsonSpec DataSpec JsonProofs JsonProofs2.
Import ListNotations.
Local Open Scope list_scope.

Ltac norm_app := repeat (progress (rewrite <- ?app_assoc, ?app_nil_r; cbn [app])).

(** ** Counting starts and ends *)

Lemma starts_opened toks : length (filter is_start toks) = opened (map snd toks).
Proof. induction toks as [|[r [n|n|n b|n x|n s]] toks IH]; simpl; rewrite ?IH; reflexivity. Qed.

Lemma ends_closed toks : length (filter is_end toks) = closed (map snd toks).
Proof. induction toks as [|[r [n|n|n b|n x|n s]] toks IH]; simpl; rewrite ?IH; reflexivity. Qed.

Lemma json_write_eq E toks :
  json_write E toks
  = omap (fun out => out ++ [newline]) (write_loop E toks 0 true (imbalance (map snd toks)) []).
Proof.
  unfold json_write. rewrite starts_opened, ends_closed. unfold imbalance.
  replace (Nat.max (opened (map snd toks)) (closed (map snd toks))
           - Nat.min (opened (map snd toks)) (closed (map snd toks)))
    with (opened (map snd toks) - closed (map snd toks)
          + (closed (map snd toks) - opened (map snd toks))) by lia.
  destruct (write_loop _ _ _ _ _ _); reflexivity.
Qed.

Lemma opened_app a b : opened (a ++ b) = opened a + opened b.
Proof. induction a as [|[n|n|n x|n x|n s] a IH]; simpl; rewrite ?IH; reflexivity. Qed.

Lemma closed_app a b : closed (a ++ b) = closed a + closed b.
Proof. induction a as [|[n|n|n x|n x|n s] a IH]; simpl; rewrite ?IH; reflexivity. Qed.

Lemma nested_balanced data : nested data -> opened data = closed data.
Proof.
  induction 1 as [|m rest Hl H IH|name inner rest Hi IHi Hr IHr]; [reflexivity| |].
  - destruct m; simpl in *; tauto.
  - cbn [opened closed]. rewrite opened_app, closed_app. cbn [opened closed]. lia.
Qed.

Lemma nested_imbalance data : nested data -> imbalance data = 0.
Proof. intros H. unfold imbalance. rewrite (nested_balanced _ H). lia. Qed.

Lemma nested_members E data : nested data -> exists ms, data_members E data ms.
Proof.
  induction 1 as [|m rest Hl H [ms IH]|name inner rest Hi [ms IHi] Hr [ms' IHr]].
  - exists []. constructor.
  - destruct m; try destruct Hl; eexists; constructor; exact IH.
  - eexists. econstructor; eassumption.
Qed.

Lemma members_nested E data ms : data_members E data ms -> nested data.
Proof. induction 1; [constructor|constructor 2; simpl; auto..|]. constructor 3; assumption. Qed.

(** ** Well nested data *)

Lemma json_write_members E toks ms : data_members E (map snd toks) ms ->
  json_write E toks = Done (lines_layout 0 ms ++ [newline]).
Proof.
  intros H. rewrite json_write_eq, (nested_imbalance _ (members_nested _ _ _ H)).
  pose proof (write_members E _ _ H toks eq_refl [] 0 true 0 []) as Hw.
  rewrite app_nil_r in Hw. rewrite Hw. destruct ms as [|m ms]; reflexivity.
Qed.

Lemma ws_space : json_ws space.
Proof. left. reflexivity. Qed.

Lemma ws_newline : json_ws newline.
Proof. right. right. left. reflexivity. Qed.

Lemma spaces_ws n : Forall json_ws (repeat space n).
Proof.
  apply Forall_forall. intros c Hc. apply repeat_spec in Hc. subst. exact ws_space.
Qed.

Section Text.
  Variable E : ext.
  Variable raw : char -> Prop.
  Variable number : str -> Prop.

  Definition string_ok (s : str) : Prop := forall c, In c s -> raw c \/ In c [10; 13; 9]%N.

  Lemma line_member depth k v w w' :
    Forall json_ws w -> Forall json_ws w' -> string_ok k ->
    json_text raw number v (value_layout depth v) ->
    member_text raw number k v (w ++ line_layout depth k v ++ w').
  Proof.
    intros Hw Hw' Hk Hv. unfold line_layout, write_string.
    replace (w ++ (repeat space depth ++ ([quote] ++ flat_map write_char k ++ [quote])
        ++ [colon] ++ value_layout depth v) ++ w')
      with ((w ++ repeat space depth) ++ quote :: flat_map write_char k ++ quote ::
        [] ++ colon :: [] ++ value_layout depth v ++ w')
      by (norm_app; reflexivity).
    apply member; try constructor; try assumption.
    - apply Forall_app. split; [exact Hw|apply spaces_ws].
    - apply write_string_text. exact Hk.
  Qed.

  Lemma lines_members data ms : data_members E data ms ->
    (forall d s, In d data -> In s (item_strings d) -> string_ok s) ->
    (forall d x, In d data -> In x (item_numbers d) -> number (x_fmt_f64 E x)) ->
    forall depth w w', Forall json_ws w -> Forall json_ws w' -> ms <> [] ->
    members_text raw number ms (w ++ lines_layout depth ms ++ w').
  Proof.
    assert (Hmore : forall k v ms depth w w',
      string_ok k -> json_text raw number v (value_layout depth v) ->
      Forall json_ws w -> Forall json_ws w' ->
      (forall depth w w', Forall json_ws w -> Forall json_ws w' -> ms <> [] ->
        members_text raw number ms (w ++ lines_layout depth ms ++ w')) ->
      members_text raw number ((k, v) :: ms) (w ++ lines_layout depth ((k, v) :: ms) ++ w')).
    { intros k v ms0 depth w w' Hk Hv Hw Hw' IH. rewrite lines_layout_cons.
      destruct ms0 as [|m ms0]; cbn [no_members].
      - rewrite app_nil_r. apply members_last. apply line_member; assumption.
      - replace (w ++ (line_layout depth k v ++ [comma; newline] ++ lines_layout depth (m :: ms0)) ++ w')
          with ((w ++ line_layout depth k v ++ []) ++ comma ::
                ([newline] ++ lines_layout depth (m :: ms0) ++ w'))
          by (norm_app; reflexivity).
        apply members_more.
        + apply line_member; try assumption. constructor.
        + apply IH; [|exact Hw'|discriminate]. constructor; [exact ws_newline|constructor]. }
    induction 1 as [|name b rest0 ms Hr IH|name x rest0 ms Hr IH|name s rest0 ms Hr IH
                   |name inner rest0 ms ms' Hi IHi Hr IHr]; intros Hs Hx depth w w' Hw Hw' Hne.
    - contradiction.
    - apply Hmore; try assumption.
      + apply (Hs (MBool name b) name); simpl; tauto.
      + destruct b; constructor.
      + apply IH; [intros d s' Hd; apply Hs; right; exact Hd|intros d x Hd; apply Hx; right; exact Hd].
    - apply Hmore; try assumption.
      + apply (Hs (MF64 name x) name); simpl; tauto.
      + apply text_number. apply (Hx (MF64 name x) x); simpl; tauto.
      + apply IH; [intros d s' Hd; apply Hs; right; exact Hd|intros d y Hd; apply Hx; right; exact Hd].
    - apply Hmore; try assumption.
      + apply (Hs (MString name s) name); simpl; tauto.
      + cbn [value_layout]. unfold write_string. cbn [app]. apply text_string.
        apply write_string_text. apply (Hs (MString name s) s); simpl; tauto.
      + apply IH; [intros d s' Hd; apply Hs; right; exact Hd|intros d y Hd; apply Hx; right; exact Hd].
    - apply Hmore; try assumption.
      + apply (Hs (StartNode name) name); simpl; tauto.
      + rewrite object_layout. destruct ms as [|m ms].
        * cbn [lines_layout app]. 
          apply (text_empty raw number (newline :: repeat space depth)).
          constructor; [exact ws_newline|apply spaces_ws].
        * replace ([open_brace; newline] ++ lines_layout (S depth) (m :: ms) ++
                   [newline] ++ repeat space depth ++ [close_brace])
            with (open_brace :: ([newline] ++ lines_layout (S depth) (m :: ms) ++
                   (newline :: repeat space depth)) ++ [close_brace])
            by (norm_app; reflexivity).
          apply text_object. apply IHi; [| | | |discriminate].
          -- intros d s Hd. apply Hs. right. apply in_or_app. left. exact Hd.
          -- intros d x Hd. apply Hx. right. apply in_or_app. left. exact Hd.
          -- constructor; [exact ws_newline|constructor].
          -- constructor; [exact ws_newline|apply spaces_ws].
      + apply IHr; [intros d s Hd; apply Hs|intros d x Hd; apply Hx];
          right; apply in_or_app; right; right; exact Hd.
  Qed.

  Lemma json_write_text toks ms : data_members E (map snd toks) ms ->
    (forall d s, In d (map snd toks) -> In s (item_strings d) -> string_ok s) ->
    (forall d x, In d (map snd toks) -> In x (item_numbers d) -> number (x_fmt_f64 E x)) ->
    exists out, json_write E toks = Done out /\
      json_text raw number (JObject ms) (open_brace :: out ++ [close_brace]).
  Proof.
    intros H Hs Hx. eexists. split; [apply json_write_members; exact H|].
    destruct ms as [|m ms].
    - cbn [lines_layout app]. apply (text_empty raw number [newline]). constructor; [exact ws_newline|constructor].
    - apply text_object.
      apply (lines_members _ _ H Hs Hx 0 [] [newline]); [constructor| |discriminate].
      constructor; [exact ws_newline|constructor].
  Qed.
End Text.

(** The members determine the data when distinct numbers print differently. *)
Lemma members_inj E : forall data ms, data_members E data ms -> forall data',
  data_members E data' ms ->
  (forall d d' x y, In d data -> In d' data' -> In x (item_numbers d) -> In y (item_numbers d') ->
     x_fmt_f64 E x = x_fmt_f64 E y -> x = y) ->
  data = data'.
Proof.
  induction 1 as [|name b rest0 ms Hr IH|name x rest0 ms Hr IH|name s rest0 ms Hr IH
                 |name inner rest0 ms ms' Hi IHi Hr IHr]; intros data' H' Hx;
    inversion H'; subst.
  - reflexivity.
  - f_equal. apply IH; [assumption|]. intros d d' u v Hd Hd'. apply Hx; right; assumption.
  - f_equal; [f_equal; eapply Hx;
      [left; reflexivity|left; reflexivity|left; reflexivity|left; reflexivity|congruence]|].
    apply IH; [assumption|]. intros d d' u v Hd Hd'. apply Hx; right; assumption.
  - f_equal. apply IH; [assumption|]. intros d d' u v Hd Hd'. apply Hx; right; assumption.
  - f_equal. rewrite (IHi inner0), (IHr rest); [reflexivity|assumption| |assumption|].
    + intros d d' u v Hd Hd'. apply Hx; right; apply in_or_app; right; right; assumption.
    + intros d d' u v Hd Hd'. apply Hx; right; apply in_or_app; left; assumption.
Qed.

Lemma json_write_loose E toks : nested (map snd toks) -> prints_words E (map snd toks) ->
  exists out ms N, data_members E (map snd toks) ms /\ json_write E toks = Done out /\
    forall fuel, N <= fuel ->
      read_json fuel (open_brace :: out ++ [close_brace]) = Some (JObject ms, []).
Proof.
  intros H Hw. destruct (nested_members E _ H) as [ms Hms].
  destruct (json_write_text E anyc word toks ms Hms) as (out & Ho & Ht); [|exact Hw|].
  { intros d s _ _ c _. left. exact I. }
  destruct (reader_complete _ _ Ht) as [N HN]. exists out, ms, N. repeat split; assumption.
Qed.

Lemma json_write_inj E toks toks' out :
  nested (map snd toks) -> nested (map snd toks') ->
  prints_words E (map snd toks) -> prints_words E (map snd toks') ->
  (forall d d' x y, In d (map snd toks) -> In d' (map snd toks') ->
     In x (item_numbers d) -> In y (item_numbers d') ->
     x_fmt_f64 E x = x_fmt_f64 E y -> x = y) ->
  json_write E toks = Done out -> json_write E toks' = Done out ->
  map snd toks = map snd toks'.
Proof.
  intros Hn Hn' Hw Hw' Hx Ho Ho'.
  destruct (json_write_loose E toks Hn Hw) as (o & ms & N & Hm & H1 & H2).
  destruct (json_write_loose E toks' Hn' Hw') as (o' & ms' & N' & Hm' & H1' & H2').
  assert (o = out) by congruence. assert (o' = out) by congruence. subst o o'.
  specialize (H2 (N + N') ltac:(lia)). specialize (H2' (N + N') ltac:(lia)).
  assert (ms = ms') by congruence. subst ms'.
  exact (members_inj E _ _ Hm _ Hm' Hx).
Qed.

Lemma json_write_valid E toks : nested (map snd toks) ->
  (forall d s, In d (map snd toks) -> In s (item_strings d) -> Forall writable s) ->
  (forall d x, In d (map snd toks) -> In x (item_numbers d) -> json_number (x_fmt_f64 E x)) ->
  exists out ms, data_members E (map snd toks) ms /\ json_write E toks = Done out /\
    valid_json (JObject ms) (open_brace :: out ++ [close_brace]).
Proof.
  intros H Hs Hx. destruct (nested_members E _ H) as [ms Hms].
  destruct (json_write_text E not_control json_number toks ms Hms) as (out & Ho & Ht); [|exact Hx|].
  - intros d s Hd Hi c Hc. exact (proj1 (Forall_forall _ _) (Hs d s Hd Hi) c Hc).
  - exists out, ms. repeat split; assumption.
Qed.

Lemma write_string_valid s : Forall writable s ->
  valid_json (JString s) (write_string s).
Proof.
  intros H. unfold write_string. cbn [app]. apply text_string. apply write_string_text.
  intros c Hc. exact (proj1 (Forall_forall _ _) H c Hc).
Qed.

(** The converse: the characters that make a string unwritable. *)
Lemma write_string_valid_iff s :
  (exists v, valid_json v (write_string s)) -> Forall writable s.
Proof.
  intros (v & H). unfold write_string in H. cbn [app] in H.
  assert (Hc : exists s' t, chars_text not_control s' t /\ flat_map write_char s ++ [quote] = t ++ [quote]).
  { remember (quote :: flat_map write_char s ++ [quote]) as u eqn:Hu.
    destruct H as [s' t Hc| | |w Hw|w Hw|ms t Hm]; try discriminate Hu.
    - exists s', t. split; [exact Hc|]. injection Hu as Hu. symmetry. exact Hu.
    - exfalso. destruct Hw as [sign i f e Hs Hi Hf He].
      destruct Hs as [<-|[<-|[]]]; [|discriminate].
      destruct Hi as [|c i [Hd1 Hd2] Hz Hi]; [discriminate|].
      injection Hu as Hq _. subst c. vm_compute in Hd1. apply Hd1. reflexivity. }
  destruct Hc as (s' & t & Hc & Ht). apply app_inj_tail in Ht as [<- _].
  clear H v. remember (flat_map write_char s) as t eqn:Ht.
  revert s Ht. induction Hc as [|c s' t Hq Hb Hr Hc IH|e c s' t He Hc IH]; intros s Ht.
  - destruct s as [|c s]; [constructor|]. exfalso. symmetry in Ht.
    exact (written_length (c :: s) ltac:(discriminate) Ht).
  - destruct s as [|d s]; [discriminate|]. cbn [flat_map] in Ht. unfold write_char in Ht.
    repeat match type of Ht with context [N.eqb d ?k] =>
      destruct (N.eqb_spec d k); [injection Ht as -> _; contradiction|] end.
    injection Ht as -> Ht. constructor; [left; exact Hr|]. apply IH. exact Ht.
  - destruct s as [|d s]; [discriminate|]. cbn [flat_map] in Ht. unfold write_char in Ht.
    repeat match type of Ht with context [N.eqb d ?k] =>
      destruct (N.eqb_spec d k) as [->|?];
      [injection Ht as _ Ht; constructor;
       [unfold writable; simpl; first [left; discriminate|right; tauto]|apply IH; exact Ht]|] end.
    injection Ht as Hd Ht. subst. contradiction.
Qed.

(** ** Panics *)

Lemma write_loop_panic E toks : forall i first depth out,
  write_loop E toks i first depth out = Panic <->
  exists before after, map snd toks = before ++ after /\ opened before + depth < closed before.
Proof.
  induction toks as [|[r d] toks IH]; intros i first depth out.
  - split; [discriminate|]. intros (before & after & H & Hlt).
    destruct before; [simpl in Hlt; lia|discriminate].
  - assert (Hstep : forall depth', (forall before, opened (d :: before) + depth < closed (d :: before)
        <-> opened before + depth' < closed before) ->
      (exists before after, map snd ((r, d) :: toks) = before ++ after /\
         opened before + depth < closed before) <->
      (exists before after, map snd toks = before ++ after /\
         opened before + depth' < closed before)).
    { intros depth' Hd. split.
      - intros (before & after & H & Hlt). destruct before as [|x before]; [simpl in Hlt; lia|].
        injection H as <- H. exists before, after. split; [exact H|]. apply Hd. exact Hlt.
      - intros (before & after & H & Hlt). exists (d :: before), after. split.
        + cbn [map snd app]. rewrite H. reflexivity.
        + apply Hd. exact Hlt. }
    destruct d as [n|n|n b|n x|n s]; cbn [write_loop is_end is_start snd andb].
    + rewrite IH. symmetry. apply Hstep. intros before. cbn [opened closed]. lia.
    + destruct depth as [|depth]; cbn [Nat.eqb].
      * split; [intros _|reflexivity]. exists [EndNode n], (map snd toks).
        split; [reflexivity|]. simpl. lia.
      * rewrite IH. symmetry. apply Hstep. intros before. cbn [opened closed]. lia.
    + rewrite IH. symmetry. apply Hstep. intros before. cbn [opened closed]. lia.
    + rewrite IH. symmetry. apply Hstep. intros before. cbn [opened closed]. lia.
    + rewrite IH. symmetry. apply Hstep. intros before. cbn [opened closed]. lia.
Qed.

Lemma write_loop_fuel E toks : forall i first depth out,
  write_loop E toks i first depth out <> OutOfFuel.
Proof.
  induction toks as [|d toks IH]; intros i first depth out; [discriminate|].
  cbn [write_loop]. destruct (is_end d && Nat.eqb depth 0); [discriminate|]. apply IH.
Qed.

Lemma json_write_panics E toks :
  json_write E toks = Panic <-> over_closed (map snd toks).
Proof.
  rewrite json_write_eq. unfold over_closed.
  pose proof (write_loop_panic E toks 0 true (imbalance (map snd toks)) []) as H.
  destruct (write_loop E toks 0 true (imbalance (map snd toks)) []) as [o| |]; cbn [omap];
    rewrite <- H; split; intros H'; first [discriminate|reflexivity].
Qed.

Lemma json_write_decided E toks : json_write E toks = Panic \/ exists out, json_write E toks = Done out.
Proof.
  rewrite json_write_eq.
  destruct (write_loop E toks 0 true (imbalance (map snd toks)) []) eqn:H; simpl; eauto.
  exfalso. exact (write_loop_fuel _ _ _ _ _ _ H).
Qed.

(** ** Indentation *)

Lemma write_char_no_newline c : ~ In newline (write_char c).
Proof.
  unfold write_char.
  destruct (N.eqb_spec c 92); [simpl; intuition discriminate|].
  destruct (N.eqb_spec c 34); [simpl; intuition discriminate|].
  destruct (N.eqb_spec c 10) as [|Hn]; [simpl; intuition discriminate|].
  destruct (N.eqb_spec c 13); [simpl; intuition discriminate|].
  destruct (N.eqb_spec c 9); [simpl; intuition discriminate|].
  simpl. intros [H|[]]. apply Hn. rewrite H. reflexivity.
Qed.

Lemma write_string_no_newline s : ~ In newline (write_string s).
Proof.
  unfold write_string. rewrite !in_app_iff, in_flat_map.
  intros [[H|[]]|[(c & _ & H)|[H|[]]]]; try discriminate.
  exact (write_char_no_newline c H).
Qed.

Lemma write_item_no_newline E d :
  (forall x, In x (item_numbers d) -> ~ In newline (x_fmt_f64 E x)) ->
  ~ In newline (write_item E d).
Proof.
  intros Hx. destruct d as [n|n|n b|n x|n s]; cbn [write_item]; rewrite ?in_app_iff.
  - intros [H|H]; [exact (write_string_no_newline _ H)|simpl in H; intuition discriminate].
  - simpl. intuition discriminate.
  - intros [H|[H|H]]; [exact (write_string_no_newline _ H)|simpl in H; intuition discriminate|].
    destruct b; simpl in H; intuition discriminate.
  - intros [H|[H|H]]; [exact (write_string_no_newline _ H)|simpl in H; intuition discriminate|].
    revert H. apply Hx. left. reflexivity.
  - intros [H|[H|H]]; [exact (write_string_no_newline _ H)|simpl in H; intuition discriminate|].
    exact (write_string_no_newline _ H).
Qed.

Lemma write_item_head E d : exists c u, write_item E d = c :: u /\ c <> space.
Proof. destruct d; eexists _, _; (split; [reflexivity|discriminate]). Qed.

Lemma write_loop_lines E toks :
  (forall d x, In d (map snd toks) -> In x (item_numbers d) -> ~ In newline (x_fmt_f64 E x)) ->
  forall i first depth out res,
  write_loop E toks i first depth out = Done res -> toks <> [] ->
  exists sep text, res = out ++ sep ++ text /\
    lines_indented (line_depths depth (map snd toks)) (text ++ [newline]) /\
    (first = true -> i = 0 -> sep = []) /\
    (i <> 0 -> sep = [newline] \/ sep = [comma; newline]).
Proof.
  induction toks as [|[r d] toks IH]; intros Hx i first depth out res Hw Hne; [contradiction|].
  cbn [write_loop] in Hw. cbn [map snd] in *.
  set (depth1 := if is_end (r, d) then depth - 1 else depth) in *.
  set (depth2 := if is_start (r, d) then S depth1 else depth1) in *.
  destruct (is_end (r, d) && Nat.eqb depth 0); [discriminate|].
  assert (Hd : line_depths depth (d :: map snd toks) = depth1 :: line_depths depth2 (map snd toks)).
  { destruct d; reflexivity. }
  assert (Hb : ~ In newline (write_item E d)).
  { apply write_item_no_newline. intros x Hxi. apply (Hx d x); [left; reflexivity|exact Hxi]. }
  destruct (write_item_head E d) as (c & u & Hcu & Hcs).
  set (sep := if negb first && negb (is_end (r, d)) then [comma; newline]
              else if Nat.eqb i 0 then [] else [newline]).
  assert (Hsep : (if negb first && negb (is_end (r, d)) then out ++ s2l "," ++ [newline]
                  else if Nat.eqb i 0 then out else out ++ [newline]) = out ++ sep).
  { unfold sep. destruct (negb first && negb (is_end (r, d))); [reflexivity|].
    destruct (Nat.eqb i 0); rewrite ?app_nil_r; reflexivity. }
  rewrite Hsep in Hw.
  assert (Hs1 : first = true -> i = 0 -> sep = []).
  { intros -> ->. reflexivity. }
  assert (Hs2 : i <> 0 -> sep = [newline] \/ sep = [comma; newline]).
  { intros Hi. unfold sep. destruct (negb first && _); [right; reflexivity|].
    apply Nat.eqb_neq in Hi. rewrite Hi. left. reflexivity. }
  rewrite Hd. destruct toks as [|t toks].
  - cbn in Hw. injection Hw as <-. exists sep, (repeat space depth1 ++ write_item E d).
    split; [rewrite <- !app_assoc; reflexivity|]. split; [|split; assumption].
    cbn [map line_depths]. rewrite <- app_assoc. apply lines_one.
    + rewrite Hcu. simpl. congruence.
    + exact Hb.
    + rewrite Hcu. discriminate.
  - apply IH in Hw as (sep' & text & -> & Ht & _ & Hsep'); [|intros d' x Hd'; apply Hx; right; exact Hd'|discriminate].
    assert (Hl : exists m ms, line_depths depth2 (map snd (t :: toks)) = m :: ms).
    { destruct t as [r' [n|n|n b|n x|n s]]; cbn; eauto. }
    destruct Hl as (m & ms & Hl). rewrite Hl in *.
    assert (Hbody : exists body, sep' ++ text = body ++ newline :: text /\ (body = [] \/ body = [comma])).
    { destruct (Hsep' ltac:(discriminate)) as [-> | ->]; [exists []|exists [comma]]; split; auto. }
    destruct Hbody as (body & Hbt & Hbody).
    exists sep, (repeat space depth1 ++ (write_item E d ++ body) ++ newline :: text).
    split; [rewrite Hbt, <- !app_assoc; reflexivity|]. split; [|split; assumption].
    rewrite <- !app_assoc. cbn [app]. rewrite (app_assoc (write_item E d)).
    apply lines_more; [rewrite Hcu; simpl; congruence| |rewrite Hcu; discriminate|exact Ht].
    rewrite in_app_iff. intros [H|H]; [exact (Hb H)|].
    destruct Hbody as [->| ->]; [destruct H|]. destruct H as [H|[]]; discriminate.
Qed.

Lemma json_write_indented E toks out :
  (forall d x, In d (map snd toks) -> In x (item_numbers d) -> ~ In newline (x_fmt_f64 E x)) ->
  json_write E toks = Done out ->
  lines_indented (line_depths (imbalance (map snd toks)) (map snd toks)) out.
Proof.
  intros Hx H. rewrite json_write_eq in H.
  destruct (write_loop E toks 0 true (imbalance (map snd toks)) []) as [res| |] eqn:Hw; [|discriminate..].
  cbn in H. injection H as <-. destruct toks as [|t toks].
  - cbn in Hw. injection Hw as <-. apply lines_none.
  - destruct (write_loop_lines E (t :: toks) Hx _ _ _ _ _ Hw) as (sep & text & -> & Ht & Hs & _);
      [discriminate|]. rewrite (Hs eq_refl eq_refl). exact Ht.
Qed.

(** ** Numbers that are not JSON *)

Lemma digit_bare c : digit c -> bare c.
Proof.
  intros H. apply bareb_spec. unfold bareb, wsb, digit in *. cbn [existsb].
  repeat match goal with |- context [N.eqb c ?k] =>
    rewrite (proj2 (N.eqb_neq c k)) by (unfold quote, open_brace, close_brace, colon, comma; lia) end.
  reflexivity.
Qed.

Lemma json_number_head w : json_number w -> forall c u, w = c :: u -> (48 <= c <= 57)%N \/ c = 45%N.
Proof.
  intros [sign i f e Hs Hi Hf He] c u Hc. destruct Hs as [<-|[<-|[]]].
  - destruct Hi as [|c' v Hc' _ Hv]; injection Hc as <- _; left; [split; discriminate|exact Hc'].
  - injection Hc as <- _. right. reflexivity.
Qed.

Lemma json_number_word w : json_number w -> word w.
Proof.
  intros [sign i f e Hs Hi Hf He].
  assert (Hd : forall w, Forall digit w -> Forall bare w).
  { intros v Hv. apply Forall_impl with (2 := Hv). exact digit_bare. }
  assert (Hbi : Forall bare i).
  { destruct Hi as [|c v Hc _ Hv].
    - constructor; [apply digit_bare; split; discriminate|constructor].
    - constructor; [apply digit_bare; exact Hc|apply Hd; exact Hv]. }
  assert (Hbs : Forall bare sign).
  { destruct Hs as [<-|[<-|[]]]; apply ascii_bare; reflexivity. }
  assert (Hbf : Forall bare f).
  { destruct Hf as [|v _ Hv]; [constructor|]. constructor; [apply bareb_spec; reflexivity|apply Hd; exact Hv]. }
  assert (Hbe : Forall bare e).
  { destruct He as [|c s v Hc Hs' _ Hv]; [constructor|]. constructor.
    - apply bareb_spec. destruct Hc as [<-|[<-|[]]]; reflexivity.
    - apply Forall_app. split; [|apply Hd; exact Hv].
      destruct Hs' as [<-|[<-|[<-|[]]]]; apply ascii_bare; reflexivity. }
  assert (Hhead : forall c u, sign ++ i ++ f ++ e = c :: u -> digit c \/ c = 45%N).
  { intros c u Hc. destruct Hs as [<-|[<-|[]]].
    - destruct Hi as [|c' v Hc' _ Hv]; injection Hc as <- _; left; [split; discriminate|exact Hc'].
    - injection Hc as <- _. right. reflexivity. }
  repeat split.
  - destruct Hs as [<-|[<-|[]]]; [|discriminate]. destruct Hi; discriminate.
  - repeat (apply Forall_app; split); assumption.
  - intros H. destruct (Hhead _ _ H) as [[_ H']|H']; [apply H'; reflexivity|discriminate].
  - intros H. destruct (Hhead _ _ H) as [[_ H']|H']; [apply H'; reflexivity|discriminate].
Qed.

Lemma chars_text_mono (raw raw' : char -> Prop) s t : (forall c, raw c -> raw' c) ->
  chars_text raw s t -> chars_text raw' s t.
Proof. intros H. induction 1; [constructor|apply chars_raw; auto|apply chars_escape; auto]. Qed.

Lemma json_text_mono (raw raw' : char -> Prop) (number number' : str -> Prop) :
  (forall c, raw c -> raw' c) -> (forall w, number w -> number' w) ->
  (forall v t, json_text raw number v t -> json_text raw' number' v t) /\
  (forall ms t, members_text raw number ms t -> members_text raw' number' ms t) /\
  (forall k v m, member_text raw number k v m -> member_text raw' number' k v m).
Proof.
  intros Hr Hn. apply json_text_mutind; intros; try (constructor; auto; fail).
  - apply text_string. eapply chars_text_mono; eassumption.
  - apply member; try assumption. eapply chars_text_mono; eassumption.
Qed.

Lemma valid_loose v t : valid_json v t -> loose_json v t.
Proof.
  apply (proj1 (json_text_mono not_control (fun _ => True) json_number word
    (fun _ _ => I) json_number_word)).
Qed.

(** A node with an infinite number is not written as JSON. *)
Lemma infinity_invalid E x name : x_fmt_f64 E x = s2l "inf" ->
  exists out, json_write E [(Rng 0 0, MF64 name x)] = Done out /\
    forall v, ~ valid_json v (open_brace :: out ++ [close_brace]).
Proof.
  intros Hx. pose (toks := [(Rng 0 0, MF64 name x)]).
  assert (Hm : data_members E (map snd toks) [(name, JNumber (s2l "inf"))]).
  { rewrite <- Hx. apply data_f64. constructor. }
  destruct (json_write_text E anyc word toks _ Hm) as (out & Ho & Ht).
  - intros d s _ _ c _. left. exact I.
  - intros d y Hd Hy. cbn in Hd. destruct Hd as [<-|[]]. destruct Hy as [<-|[]]. rewrite Hx.
    split; [discriminate|]. split; [apply ascii_bare; reflexivity|]. split; discriminate.
  - exists out. split; [exact Ho|]. intros v Hv.
    assert (v = JObject [(name, JNumber (s2l "inf"))]) as ->.
    { eapply text_unique; [apply valid_loose; exact Hv|exact Ht]. }
    inversion Hv as [| | | | |ms t Hms]; subst. inversion Hms as [k v' m Hmem|k v' m ms t' _ Hnil]; subst.
    + inversion Hmem as [k t1 v1 tv a b c d _ _ _ _ _ Hj]; subst.
      inversion Hj as [| | |w Hw| |]; subst.
      destruct (json_number_head _ Hw _ _ eq_refl) as [[_ H]|H]; [|discriminate].
      apply H. reflexivity.
    + inversion Hnil.
Qed.

Lemma json_write_nested E toks : nested (map snd toks) ->
  imbalance (map snd toks) = 0 /\ exists out, json_write E toks = Done out.
Proof.
  intros H. split; [apply nested_imbalance; exact H|].
  destruct (nested_members E _ H) as [ms Hms]. eexists. apply json_write_members. exact Hms.
Qed.

Lemma control_invalid : exists s, forall v, ~ valid_json v (write_string s).
Proof.
  exists [1%N]. intros v Hv. pose proof (write_string_valid_iff [1%N] (ex_intro _ v Hv)) as H.
  inversion H as [|? ? [H1|H1] _]; subst.
  - apply H1. reflexivity.
  - simpl in H1. intuition discriminate.
Qed.
