(** The counted calls are those of the tree of calls. *)
From Coq Require Import List NArith Bool Arith Lia.
From Verif Require Import Base Ext Types ParseModel CostModel CostSpec PegSpec ApiSpec CallSpec
  ExtProofs PrimProofs PegProofs PegComplete CostProofs CostBound CostPublic.
Import ListNotations.

Lemma cbind_done {A B} (x : counted A) (k : A -> counted B) n b :
  cbind x k = (n, Done b) ->
  exists m a j, x = (m, Done a) /\ k a = (j, Done b) /\ n = m + j.
Proof.
  destruct x as [m [a| |]]; unfold cbind; cbn [fst snd]; intros H; try discriminate.
  destruct (k a) as [j o] eqn:Hk. cbn [fst snd] in H. injection H as <- ->.
  exists m, a, j. auto.
Qed.

Section Counted.
  Variable E : ext.
  Variable syn : syntax.

  Notation refs := (s_rules syn).
  Notation tree := (tree E refs).
  Notation trees := (trees E refs).

  (** The parser counts the calls for the rule. *)
  Definition counts_for (r : rule) (P : counted_parser) : Prop :=
    forall base junk s p ind n x, P (base ++ junk) (length base) (RT s p) ind = (n, Done x) ->
      tree (r, ind, p, s) n.

  Definition fine_for (r : rule) (P : counted_parser) : Prop :=
    right_for E syn r P /\ counts_for r P.

  (** A call, what it means and its count. *)
  Lemma fine_call r P base junk s p ind n res toks' ind' : fine_for r P ->
    P (base ++ junk) (length base) (RT s p) ind = (n, Done (res, toks', ind')) ->
    tree (r, ind, p, s) n /\
    ((exists k out tr junk', res = POk (Rng p k) (length (base ++ out)) (best tr) /\
        toks' = (base ++ out) ++ junk' /\ reads E refs r ind p s (Yes k out) ind' tr) \/
     (exists e junk' tr, res = PErr e /\ toks' = base ++ junk' /\ reads E refs r ind p s No ind' tr)).
  Proof.
    intros [HR HC] H. split; [eapply HC; exact H|].
    assert (He : snd (P (base ++ junk) (length base) (RT s p) ind) = Done (res, toks', ind'))
      by (rewrite H; reflexivity).
    apply HR in He as (v & tr & Hr & Hag). destruct v as [k out|].
    - destruct Hag as (junk' & -> & ->). left. exists k, out, tr, junk'. auto.
    - destruct Hag as (e & junk' & _ & -> & ->). right. exists e, junk', tr. auto.
  Qed.

  Lemma seq_trees P args : (forall r, fine_for r (P r)) ->
    forall start base junk s p ind oe n x,
      seq_cost P args start (base ++ junk) (length base) (RT s p) ind oe = (n, Done x) ->
      exists l, in_order E refs args ind p s l /\ trees l n.
  Proof.
    intros HP. induction args as [|r args IH]; intros start base junk s p ind oe n x H; cbn [seq_cost] in H.
    - injection H as <- _. exists []. split; constructor.
    - apply cbind_done in H as (m & [[res toks'] ind'] & j & H1 & H2 & ->).
      destruct (fine_call _ _ _ _ _ _ _ _ _ _ _ (HP r) H1)
        as [Ht [(k & out & tr & junk' & -> & -> & Hr)|(e & junk' & tr & -> & -> & Hr)]].
      + rewrite rt_eq in H2. cbn [r_len] in H2.
        destruct (IH _ _ _ _ _ _ _ _ _ H2) as (l & Hl & Hn). eexists. split; [econstructor 3; eassumption|].
        constructor; assumption.
      + injection H2 as <- _. eexists. split; [econstructor 2; exact Hr|].
        econstructor; [exact Ht|constructor].
  Qed.

  Lemma select_trees P args id : (forall r, fine_for r (P r)) ->
    forall base junk s p ind oe n x,
      select_cost P args id (base ++ junk) (length base) (RT s p) ind oe = (n, Done x) ->
      exists l, in_turn E refs args ind p s l /\ trees l n.
  Proof.
    intros HP. induction args as [|r args IH]; intros base junk s p ind oe n x H; cbn [select_cost] in H.
    - exists []. split; [constructor|]. destruct oe; injection H as <- _; constructor.
    - apply cbind_done in H as (m & [[res toks'] ind'] & j & H1 & H2 & ->).
      destruct (fine_call _ _ _ _ _ _ _ _ _ _ _ (HP r) H1)
        as [Ht [(k & out & tr & junk' & -> & -> & Hr)|(e & junk' & tr & -> & -> & Hr)]].
      + injection H2 as <- _. eexists. split; [econstructor 2; exact Hr|].
        econstructor; [exact Ht|constructor].
      + destruct (IH _ _ _ _ _ _ _ _ H2) as (l & Hl & Hn). eexists. split; [econstructor 3; eassumption|].
        constructor; assumption.
  Qed.

  Lemma repeat_trees P r optional : fine_for r P -> forall f start first base junk s p ind oe n x,
    repeat_cost f P optional start first (base ++ junk) (length base) (RT s p) ind oe = (n, Done x) ->
    exists l, over_again E refs r ind p s l /\ trees l n.
  Proof.
    intros HP f. induction f as [|f IH]; intros start first base junk s p ind oe n x H;
      [discriminate|]. cbn [repeat_cost] in H.
    apply cbind_done in H as (m & [[res toks'] ind'] & j & H1 & H2 & ->).
    destruct (fine_call _ _ _ _ _ _ _ _ _ _ _ HP H1)
      as [Ht [(k & out & tr & junk' & -> & -> & Hr)|(e & junk' & tr & -> & -> & Hr)]].
    - rewrite rt_eq in H2. cbn [r_len] in H2.
      destruct (IH _ _ _ _ _ _ _ _ _ _ H2) as (l & Hl & Hn). eexists. split; [econstructor 2; eassumption|].
      constructor; assumption.
    - assert (j = 0) by (destruct (_ && _); injection H2 as <- _; reflexivity). subst j.
      eexists. split; [econstructor 1; exact Hr|]. econstructor; [exact Ht|constructor].
  Qed.

  Lemma sep_trees P Q r by_ optional trail : fine_for r P -> fine_for by_ Q ->
    forall f start first base junk s p ind oe n x,
    sep_cost f P Q optional trail start first (base ++ junk) (length base) (RT s p) ind oe = (n, Done x) ->
    exists l, by_turns E refs r by_ ind p s l /\ trees l n.
  Proof.
    intros HP HQ f. induction f as [|f IH]; intros start first base junk s p ind oe n x H;
      [discriminate|]. cbn [sep_cost] in H.
    apply cbind_done in H as (m & [[res toks'] ind'] & j & H1 & H2 & ->).
    destruct (fine_call _ _ _ _ _ _ _ _ _ _ _ HP H1)
      as [Ht [(k & out & tr & junk' & -> & -> & Hr)|(e & junk' & tr & -> & -> & Hr)]].
    - cbv zeta in H2. rewrite rt_eq in H2. cbn [r_len] in H2.
      apply cbind_done in H2 as (m2 & [[res2 toks2] ind2] & j2 & H2 & H3 & ->).
      destruct (fine_call _ _ _ _ _ _ _ _ _ _ _ HQ H2)
        as [Ht2 [(k2 & out2 & tr2 & junk2 & -> & -> & Hr2)|(e & junk2 & tr2 & -> & -> & Hr2)]].
      + rewrite rt_eq in H3. cbn [r_len] in H3.
        destruct (IH _ _ _ _ _ _ _ _ _ _ H3) as (l & Hl & Hn). eexists.
        split; [econstructor 2; [exact Hr|econstructor 2; [exact Hr2|exact Hl]]|].
        constructor; [exact Ht|]. constructor; assumption.
      + injection H3 as <- _. eexists. split; [econstructor 2; [exact Hr|econstructor 1; exact Hr2]|].
        constructor; [exact Ht|]. econstructor; [exact Ht2|constructor].
    - assert (j = 0) by (destruct (if first then _ else _); injection H2 as <- _; reflexivity). subst j.
      eexists. split; [econstructor 1; exact Hr|]. econstructor; [exact Ht|constructor].
  Qed.

  Lemma tail_tree P args oe : (forall r, fine_for r (P r)) ->
    forall base junk s p ind n x, tail_cost P args oe (base ++ junk) (length base) (RT s p) ind = (n, Done x) ->
    exists args' r, args = args' ++ [r] /\ tree (r, ind, p, s) n /\ exists v ind' tr, reads E refs r ind p s v ind' tr.
  Proof.
    intros HP base junk s p ind n x H. unfold tail_cost in H.
    destruct args as [|r0 args]; [discriminate|].
    destruct (nth_error (r0 :: args) _) as [r|] eqn:Hn; [|discriminate].
    assert (Hl : exists args', r0 :: args = args' ++ [r]).
    { destruct (exists_last (l := r0 :: args) ltac:(discriminate)) as (args' & z & Hz).
      exists args'. rewrite Hz in Hn |- *. rewrite app_length, Nat.add_sub in Hn. cbn in Hn.
      rewrite nth_error_app2, Nat.sub_diag in Hn by apply le_n. cbn in Hn. injection Hn as ->. reflexivity. }
    destruct Hl as (args' & Ha). exists args', r. split; [exact Ha|].
    apply cbind_done in H as (m & [[res toks'] ind'] & j & H1 & H2 & ->).
    assert (j = 0) by (destruct res; injection H2 as <- _; reflexivity). subst j. rewrite Nat.add_0_r.
    destruct (fine_call _ _ _ _ _ _ _ _ _ _ _ (HP r) H1)
      as [Ht [(k & out & tr & junk' & -> & -> & Hr)|(e & junk' & tr & -> & -> & Hr)]]; eauto 6.
  Qed.

  Lemma one_tree c n : tree c n -> trees [c] n.
  Proof. intros H. rewrite <- (Nat.add_0_r n). constructor; [exact H|constructor]. Qed.

  Lemma fast_trees P table args tail id : (forall r, fine_for r (P r)) ->
    forall base junk s p ind n x,
      fast_cost P table args tail id (base ++ junk) (length base) (RT s p) ind = (n, Done x) ->
      exists l, tries E refs (RFastSelect table args tail id, ind, p, s) l /\ trees l n.
  Proof.
    intros HP base junk s p ind n x H. unfold fast_cost in H. cbn [src] in H.
    destruct s as [|c s].
    { injection H as <- _. exists []. split; [apply tries_fast_end|constructor]. }
    destruct (nth_error table _) as [i|] eqn:Hi; [|discriminate].
    destruct (Nat.eqb_spec i 255) as [->|Hne].
    - destruct tail.
      + apply tail_tree in H as (args' & r & -> & Ht & _); [|exact HP].
        eexists. split; [apply tries_fast_tail; exact Hi|]. apply one_tree. exact Ht.
      + injection H as <- _. exists []. split; [apply tries_fast_none; exact Hi|constructor].
    - destruct (nth_error args i) as [r|] eqn:Hr; [|discriminate].
      apply cbind_done in H as (m & [[res toks'] ind'] & j & H1 & H2 & ->).
      destruct (fine_call _ _ _ _ _ _ _ _ _ _ _ (HP r) H1)
        as [Ht [(k & out & tr & junk' & -> & -> & Hrd)|(e & junk' & tr & -> & -> & Hrd)]].
      + injection H2 as <- _. rewrite Nat.add_0_r. destruct tail.
        * destruct args as [|a0 args0]; [destruct i; discriminate|].
          destruct (exists_last (l := a0 :: args0) ltac:(discriminate)) as (args' & z & Hz).
          rewrite Hz in *. eexists. split.
          -- eapply tries_fast_both; [exact Hi|exact Hne|exact Hr|]. eapply turn_hit. exact Hrd.
          -- apply one_tree. exact Ht.
        * eexists. split; [eapply tries_fast; eassumption|]. apply one_tree. exact Ht.
      + destruct tail.
        * apply tail_tree in H2 as (args' & r' & -> & Ht' & v & ind2 & tr2 & Hv); [|exact HP].
          eexists. split.
          -- eapply tries_fast_both; [exact Hi|exact Hne|exact Hr|]. eapply turn_next; [exact Hrd|].
             destruct v as [k out|]; [eapply turn_hit; exact Hv|].
             eapply turn_next; [exact Hv|]. apply turn_nil.
          -- constructor; [exact Ht|]. apply one_tree. exact Ht'.
        * injection H2 as <- _. rewrite Nat.add_0_r.
          eexists. split; [eapply tries_fast; eassumption|]. apply one_tree. exact Ht.
  Qed.

  Lemma item_tree P r o t first ls ind base junk n x : fine_for r P ->
    ls_toks ls = base ++ junk -> ls_state ls = length base ->
    item_cost P o t first ls ind = (n, Done x) ->
    tree (r, set_indent ind (i_indent ind + 1), off t, src t) n.
  Proof.
    intros [_ HP] Ht Hst H. unfold item_cost, add_u32 in H. rewrite Ht, Hst in H.
    destruct (N.leb _ _); [|discriminate].
    apply cbind_done in H as (m & a & j & H1 & H2 & ->). injection H1 as <- <-.
    apply cbind_done in H2 as (m & [[res toks'] ind'] & j2 & H1 & H2 & ->).
    assert (j2 = 0) by (destruct res; injection H2 as <- _; reflexivity). subst j2.
    rewrite Nat.add_0_r. destruct t as [s p]. cbn [src off]. eapply HP. exact H1.
  Qed.

  Lemma closure_trees P r indented base tr fresh ind ls s p n x : fine_for r P ->
    ls_rep base tr fresh ind ls -> closure_cost indented P (RT s p) ls = (n, Done x) ->
    exists l, on_line r indented fresh ind p s l /\ trees l n.
  Proof.
    intros HP (junk & ->) H. unfold closure_cost in H. cbn [src off ls_ind ls_first ls_toks ls_state] in H.
    destruct indented.
    - destruct (skip_indent s (i_indent ind) (i_tab_spaces ind)) as [k|] eqn:Hk.
      2:{ injection H as <- _. exists []. split; [|constructor]. apply on_short.
          apply skip_indent_none. exact Hk. }
      apply skip_indent_spec in Hk. rewrite rt_eq in H; cbn [r_len] in H. cbn [src off] in H.
      destruct (fresh && i_align_first ind) eqn:Hfa.
      + apply andb_true_iff in Hfa as [-> Hal].
        destruct (align_indent_cases (i_tab_spaces ind) (skipn k s) (i_indent ind))
          as [Hd|[Hd _]]; rewrite Hd in H; [|discriminate].
        apply cbind_done in H as (m & [k2 w] & j & H1 & H2 & ->). injection H1 as <- <- <-.
        rewrite rt_eq in H2. cbn [r_len] in H2.
        apply (item_tree P r _ _ _ _ _ base junk) in H2; [|exact HP|reflexivity|reflexivity].
        cbn [src off set_indent i_indent] in H2. eexists. split.
        * apply on_align; [exact Hk|exact Hal|]. apply longest_span. apply blank_spec.
        * apply one_tree. exact H2.
      + unfold rt_tag in H. cbn [src] in H.
        destruct (is_prefix [space] (skipn k s)) eqn:Hp.
        * apply is_prefix_spec in Hp. injection H as <- _. exists []. split; [|constructor].
          eapply on_deep; eassumption.
        * apply is_prefix_false in Hp.
          apply (item_tree P r _ _ _ _ _ base junk) in H; [|exact HP|reflexivity|reflexivity].
          eexists. split; [eapply on_exact; eassumption|]. apply one_tree. exact H.
    - apply cbind_done in H as (m & [[res toks'] ind'] & j & H1 & H2 & ->).
      assert (j = 0) by (destruct res; injection H2 as <- _; reflexivity). subst j.
      rewrite Nat.add_0_r. eexists. split; [apply on_plain|]. apply one_tree.
      destruct HP as [_ HP]. eapply HP. exact H1.
  Qed.

  Lemma trees_app l l' n m : trees l n -> trees l' m -> trees (l ++ l') (n + m).
  Proof.
    intros H H'. induction H as [|c l n k Hc _ IH]; [exact H'|].
    rewrite <- Nat.add_assoc. constructor; assumption.
  Qed.

  Lemma lines_trees P r indented : fine_for r P ->
    forall f nl base tr fresh ind ls s p n x, ls_rep base tr fresh ind ls ->
      lines_cost E (closure_cost indented P) f nl (RT s p) ls = (n, Done x) ->
      exists l, by_lines E refs r indented fresh nl ind p s l /\ trees l n.
  Proof.
    intros HP f. induction f as [|f IH]; intros nl base tr fresh ind ls s p n x Hls H; [discriminate|].
    cbn [lines_cost] in H. cbn [src] in H.
    destruct (Nat.eqb_spec (span_len is_ws s) (length s)) as [Hw|Hw].
    - injection H as <- _. exists []. split; [|constructor]. apply lines_end. apply all_white. exact Hw.
    - assert (Hnw : ~ Forall white s) by (intros H0; apply Hw; apply all_white; exact H0).
      assert (Hgo : forall k, line_start nl s k ->
        cbind (closure_cost indented P (rt_consume (RT s p) k) ls) (fun '(res, st1) =>
         match res with
         | None => free (Done (inl (rt_consume (RT s p) k), st1))
         | Some r =>
           lines_cost E (closure_cost indented P) f
             (ends_with_newline (rt_raw_string (rt_consume (RT s p) k) (r_len r)))
             (rt_consume (rt_consume (RT s p) k) (r_len r)) st1
         end) = (n, Done x) ->
        exists l, by_lines E refs r indented fresh nl ind p s l /\ trees l n).
      { clear H. intros k Hk H. rewrite rt_eq in H; cbn [r_len] in H.
        apply cbind_done in H as (m & [ores ls1] & j & H1 & H2 & ->).
        pose proof (closure_trees P r indented base tr fresh ind ls _ _ _ _ HP Hls H1) as (l & Hl & Hm).
        assert (He : closure indented (fun toks st t ind => snd (P toks st t ind))
          (RT (skipn k s) (p + k)) ls = Done (ores, ls1)).
        { unfold closure. rewrite <- (closure_same P _ indented _ ls (fun _ _ _ _ => eq_refl)).
          rewrite H1. reflexivity. }
        eapply closure_sound in He as (v & fresh' & ind' & tr' & Hr & Hc); [|apply HP|exact Hls].
        destruct v as [i out|].
        - destruct Hc as [-> Hrep']. rewrite rt_eq in H2. cbn [r_len] in H2.
          unfold rt_raw_string in H2. cbn [src] in H2.
          apply (IH _ _ _ _ _ _ _ _ _ _ Hrep') in H2 as (l' & Hl' & Hj).
          exists (l ++ l'). split; [|apply trees_app; assumption].
          eapply lines_next; try eassumption. rewrite <- ends_with_newline_spec. reflexivity.
        - destruct Hc as [-> Hrep']. injection H2 as <- _. rewrite Nat.add_0_r.
          exists l. split; [|exact Hm]. eapply lines_stop; eassumption. }
      pose proof (line_start_model nl s) as Hm.
      destruct (after_last_newline _) as [k|].
      + apply (Hgo k); assumption.
      + destruct nl.
        * apply (Hgo 0); [constructor; [reflexivity|exact Hm]|].
          rewrite rt_consume_0. exact H.
        * injection H as <- _. exists []. split; [|constructor]. apply lines_missing; assumption.
  Qed.

  Lemma rule_trees f : forall r, fine_for r (rule_cost E f refs r).
  Proof.
    induction f as [|f IH]; intros r; (split; [apply rule_right|]); intros base junk s p ind n x H;
      [discriminate|]. cbn [rule_cost] in H.
    assert (Hex : forall y : counted (pres * list tok * indent),
      (let '(n, o) := y in (S n, o)) = (n, Done x) -> exists m, n = S m /\ y = (m, Done x)).
    { intros [m o] Hy. injection Hy as <- ->. eauto. }
    apply Hex in H as (m & -> & H). clear Hex.
    assert (Hgoal : exists l, tries E refs (r, ind, p, s) l /\ trees l m);
      [|destruct Hgoal as (l & Hl & Hm); apply (tree_node E refs _ l); assumption].
    destruct r.
    all: try (injection H as <- _; exists []; split; constructor).
    - apply select_trees in H as (l & Hl & Hm); [|exact IH]. exists l. split; [constructor; exact Hl|exact Hm].
    - apply fast_trees in H; [exact H|exact IH].
    - apply seq_trees in H as (l & Hl & Hm); [|exact IH]. exists l. split; [constructor; exact Hl|exact Hm].
    - apply (sep_trees _ _ r1 r2) in H as (l & Hl & Hm); [|apply IH|apply IH].
      exists l. split; [constructor; exact Hl|exact Hm].
    - apply (repeat_trees _ r) in H as (l & Hl & Hm); [|apply IH].
      exists l. split; [constructor; exact Hl|exact Hm].
    - apply cbind_done in H as (k & [res ls] & j & H1 & H2 & ->).
      assert (j = 0) by (destruct res; injection H2 as <- _; reflexivity). subst j. rewrite Nat.add_0_r.
      apply (lines_trees _ r indent (IH r) _ _ base []) with (fresh := true) (ind := ind) in H1 as (l & Hl & Hm);
        [|exists junk; reflexivity].
      exists l. split; [constructor; exact Hl|exact Hm].
    - destruct index as [i|]; [|injection H as <- _; exists []; split; constructor].
      edestruct (emit_spec property StartNode (rt_start (RT s p)) base junk) as (junk1 & He).
      rewrite He in H. clear He.
      destruct (nth_error refs i) as [r|] eqn:Hi; [|discriminate].
      apply cbind_done in H as (k & [[res toks'] ind'] & j & H1 & H2 & ->).
      assert (j = 0).
      { destruct res; [|injection H2 as <- _; reflexivity].
        destruct (emit property EndNode _ _ _). injection H2 as <- _. reflexivity. }
      subst j. rewrite Nat.add_0_r. eexists. split; [apply tries_node; exact Hi|].
      apply one_tree. destruct (IH r) as [_ HC]. eapply HC. exact H1.
    - apply cbind_done in H as (k & [[res toks'] ind'] & j & H1 & H2 & ->).
      assert (j = 0) by (destruct res; injection H2 as <- _; reflexivity). subst j. rewrite Nat.add_0_r.
      eexists. split; [apply tries_optional|]. apply one_tree. destruct (IH r) as [_ HC]. eapply HC. exact H1.
    - apply cbind_done in H as (k & [[res toks'] ind'] & j & H1 & H2 & ->).
      assert (j = 0) by (destruct res; injection H2 as <- _; reflexivity). subst j. rewrite Nat.add_0_r.
      eexists. split; [apply tries_not|]. apply one_tree. destruct (IH r) as [_ HC]. eapply HC. exact H1.
  Qed.

  (** ** The tree is unique *)

  Lemma order_unique args ind p s l : in_order E refs args ind p s l ->
    forall l', in_order E refs args ind p s l' -> l = l'.
  Proof.
    induction 1 as [|r rest ind p s ind' tr H|r rest ind p s n out ind' tr l H _ IH];
      intros l' H'; inversion H'; subst; try reflexivity;
      match goal with Hx : reads _ _ r ind p s _ _ _ |- _ =>
        lazymatch Hx with H => fail | _ => destruct (reads_deterministic _ _ _ _ _ _ _ _ _ _ _ _ H Hx) as (Hv & Hi & _) end end;
      try discriminate; try reflexivity.
    injection Hv as -> ->. subst. f_equal. apply IH. assumption.
  Qed.

  Lemma turn_unique args ind p s l : in_turn E refs args ind p s l ->
    forall l', in_turn E refs args ind p s l' -> l = l'.
  Proof.
    induction 1 as [|r rest ind p s n out ind' tr H|r rest ind p s ind' tr l H _ IH];
      intros l' H'; inversion H'; subst; try reflexivity;
      match goal with Hx : reads _ _ r ind p s _ _ _ |- _ =>
        lazymatch Hx with H => fail | _ => destruct (reads_deterministic _ _ _ _ _ _ _ _ _ _ _ _ H Hx) as (Hv & Hi & _) end end;
      try discriminate; try reflexivity.
    subst. f_equal. apply IH. assumption.
  Qed.

  Lemma again_unique r ind p s l : over_again E refs r ind p s l ->
    forall l', over_again E refs r ind p s l' -> l = l'.
  Proof.
    induction 1 as [ind p s ind' tr H|ind p s n out ind' tr l H _ IH];
      intros l' H'; inversion H'; subst; try reflexivity;
      match goal with Hx : reads _ _ r ind p s _ _ _ |- _ =>
        lazymatch Hx with H => fail | _ => destruct (reads_deterministic _ _ _ _ _ _ _ _ _ _ _ _ H Hx) as (Hv & Hi & _) end end;
      try discriminate; try reflexivity.
    injection Hv as -> ->. subst. f_equal. apply IH. assumption.
  Qed.

  Lemma turns_unique r q ind p s l : by_turns E refs r q ind p s l ->
    forall l', by_turns E refs r q ind p s l' -> l = l'.
  Proof.
    induction 1 as [r q ind p s ind' tr H|r q ind p s n out ind' tr l H _ IH];
      intros l' H'; inversion H'; subst; try reflexivity;
      match goal with Hx : reads _ _ r ind p s _ _ _ |- _ =>
        lazymatch Hx with H => fail | _ => destruct (reads_deterministic _ _ _ _ _ _ _ _ _ _ _ _ H Hx) as (Hv & Hi & _) end end;
      try discriminate; try reflexivity.
    injection Hv as -> ->. subst. f_equal. apply IH. assumption.
  Qed.

  Lemma indentation_unique tabs n s k k' : indentation tabs n s k -> indentation tabs n s k' -> k = k'.
  Proof. rewrite <- !skip_indent_spec. congruence. Qed.

  Lemma on_line_unique r indented fresh ind p s l l' :
    on_line r indented fresh ind p s l -> on_line r indented fresh ind p s l' -> l = l'.
  Proof.
    intros H H'. destruct H; inversion H'; subst; try reflexivity;
      try (match goal with Hn : forall k, ~ indentation _ _ _ k, Hk : indentation _ _ _ _ |- _ =>
             destruct (Hn _ Hk) end);
      match goal with Hk : indentation _ _ _ ?k, Hk' : indentation _ _ _ ?k' |- _ =>
        tryif constr_eq k k' then fail else (pose proof (indentation_unique _ _ _ _ _ Hk Hk'); subst) end;
      try reflexivity; try contradiction;
      try (match goal with Ha : true && ?x = false, Hb : ?x = true |- _ => rewrite Hb in Ha; discriminate end).
    match goal with Hb : longest blank _ ?k, Hb' : longest blank _ ?k' |- _ =>
        tryif constr_eq k k' then fail else (pose proof (longest_unique _ _ _ _ Hb Hb'); subst) end.
    reflexivity.
  Qed.

  Lemma line_deterministic r indented fresh ind p s v fresh1 ind1 tr1 v' fresh2 ind2 tr2 :
    reads_line E refs r indented fresh ind p s v fresh1 ind1 tr1 ->
    reads_line E refs r indented fresh ind p s v' fresh2 ind2 tr2 ->
    v = v' /\ fresh1 = fresh2 /\ ind1 = ind2.
  Proof.
    intros H H'. destruct H; inversion H'; subst; auto;
      try (match goal with Hn : forall k, ~ indentation _ _ _ k, Hk : indentation _ _ _ _ |- _ =>
             destruct (Hn _ Hk) end);
      try (match goal with Hk : indentation _ _ _ ?k, Hk' : indentation _ _ _ ?k' |- _ =>
        tryif constr_eq k k' then fail else (pose proof (indentation_unique _ _ _ _ _ Hk Hk'); subst) end);
      try contradiction;
      try (match goal with Ha : true && ?x = false, Hb : ?x = true |- _ => rewrite Hb in Ha; discriminate end);
      try (match goal with Hb : longest blank _ ?k, Hb' : longest blank _ ?k' |- _ =>
        tryif constr_eq k k' then fail else (pose proof (longest_unique _ _ _ _ Hb Hb'); subst) end);
      match goal with Ha : reads _ _ r _ _ _ ?a _ _, Hb : reads _ _ r _ _ _ ?b _ _ |- _ =>
        tryif constr_eq a b then fail else destruct (reads_deterministic _ _ _ _ _ _ _ _ _ _ _ _ Ha Hb) as (-> & -> & _) end;
      auto.
  Qed.

  Lemma lines_unique r indented fresh nl ind p s l : by_lines E refs r indented fresh nl ind p s l ->
    forall l', by_lines E refs r indented fresh nl ind p s l' -> l = l'.
  Proof.
    induction 1 as [fresh nl ind p s Hw|fresh ind p s Hw Hs|fresh nl ind p s k fresh' ind' tr l Hw Hk Hr Hl
      |fresh nl ind p s k n out fresh' ind' tr l nl' l1 Hw Hk Hr Hl Hnl _ IH];
      intros l' H'; inversion H'; subst; try contradiction; try reflexivity;
      try (match goal with Hk : line_start false ?s _, Hs : same_line ?s |- _ => destruct (line_start_same_line _ _ Hk Hs) end);
      (match goal with Ha : line_start _ _ ?k2 |- _ => lazymatch Ha with Hk => fail | _ =>
         pose proof (line_start_unique _ _ _ _ Hk Ha); subst k2 end end);
      (match goal with Ha : reads_line _ _ _ _ _ _ _ _ _ _ _ _ |- _ => lazymatch Ha with Hr => fail | _ =>
         destruct (line_deterministic _ _ _ _ _ _ _ _ _ _ _ _ _ _ Hr Ha) as (Hv & Hf & Hi) end end);
      try discriminate;
      (match goal with Ha : on_line _ _ _ _ _ _ _ |- _ => lazymatch Ha with Hl => fail | _ =>
         pose proof (on_line_unique _ _ _ _ _ _ _ _ Hl Ha); subst end end).
    - reflexivity.
    - injection Hv as -> ->. subst. f_equal. apply IH.
      match goal with Ha : by_lines _ _ _ _ _ ?b _ _ _ _ |- _ => replace nl' with b; [exact Ha|] end.
      match goal with |- ?b = nl' => destruct b, nl'; try reflexivity end.
      + symmetry. apply Hnl. match goal with Ha : true = true <-> _ |- _ => apply Ha; reflexivity end.
      + match goal with Ha : false = true <-> _ |- _ => apply Ha end. apply Hnl. reflexivity.
  Qed.

  Lemma tries_unique c l l' : tries E refs c l -> tries E refs c l' -> l = l'.
  Proof.
    intros H H'. destruct H; inversion H'; subst; try reflexivity; try congruence.
    all: try (eapply order_unique; eassumption).
    all: try (eapply turns_unique; eassumption).
    all: try (eapply again_unique; eassumption).
    all: try (eapply lines_unique; eassumption).
    all: try (match goal with Ha : _ ++ [_] = _ ++ [_] |- _ => apply app_inj_tail in Ha; destruct Ha; subst end).
    all: try reflexivity; try congruence.
    all: try (match goal with Ha : nth_error _ _ = Some ?i, Hb : nth_error _ _ = Some ?j |- _ =>
       tryif constr_eq i j then fail else (assert (i = j) by congruence; subst) end).
    all: try (match goal with Ha : nth_error _ _ = Some ?i, Hb : nth_error _ _ = Some ?j |- _ =>
       tryif constr_eq i j then fail else (assert (i = j) by congruence; subst) end).
    all: try congruence; try (eapply turn_unique; eassumption).
  Qed.

  Lemma tree_unique : (forall c n, tree c n -> forall n', tree c n' -> n = n') /\
    (forall l n, trees l n -> forall n', trees l n' -> n = n').
  Proof.
    apply (tree_mutind E refs (fun c n => forall n', tree c n' -> n = n')
      (fun l n => forall n', trees l n' -> n = n')).
    - intros c l n Hl _ IH n' H. inversion H; subst.
      match goal with Ha : tries _ _ c _ |- _ => pose proof (tries_unique _ _ _ Hl Ha); subst end.
      f_equal. apply IH. assumption.
    - intros n' H. inversion H. reflexivity.
    - intros c l n m _ IHc _ IHl n' H. inversion H; subst. f_equal; auto.
  Qed.
End Counted.

(** The count is the size of the tree of calls; tokens that were there before do not
    matter. *)
Theorem count_tree E s text tokens ind n :
  makes_calls E s text tokens ind n -> text_calls E s ind text n.
Proof.
  intros (f & x & H). unfold parse_cost in H.
  destruct (nth_error (s_rules s) (length (s_rules s) - 1)) as [r|] eqn:Hr.
  - assert (Hs : start_rule s r).
    { destruct (s_rules s) as [|r0 rest] eqn:Hl; [discriminate|].
      destruct (exists_last (l := r0 :: rest) ltac:(discriminate)) as (rules & z & Hz).
      exists rules. rewrite Hl, Hz. rewrite Hz, app_length, Nat.add_sub in Hr. cbn in Hr.
      rewrite nth_error_app2, Nat.sub_diag in Hr by apply le_n. cbn in Hr. injection Hr as ->. reflexivity. }
    apply cbind_done in H as (m & [[res toks'] ind'] & j & H1 & H2 & ->).
    assert (j = 0) by (destruct res; [destruct (_ <? _)|]; injection H2 as <- _; reflexivity).
    subst j. rewrite Nat.add_0_r. eapply text_start; [exact Hs|].
    destruct (rule_trees E s f r) as [_ HC].
    apply (HC tokens [] text 0 ind m (res, toks', ind')). rewrite app_nil_r. exact H1.
  - injection H as <- _. apply text_no_rules.
    destruct (s_rules s) as [|r0 rest] eqn:Hl; [reflexivity|].
    apply nth_error_None in Hr. cbn [length] in Hr. lia.
Qed.

Theorem text_calls_unique E s ind text n n' :
  text_calls E s ind text n -> text_calls E s ind text n' -> n = n'.
Proof.
  intros H H'. destruct H as [Hn|r n (rules & Hr) Ht], H' as [Hn'|r' n' (rules' & Hr') Ht'].
  - reflexivity.
  - rewrite Hn in Hr'. destruct rules'; discriminate.
  - rewrite Hn' in Hr. destruct rules; discriminate.
  - rewrite Hr in Hr'. apply app_inj_tail in Hr' as [_ <-].
    exact (proj1 (tree_unique E s) _ _ Ht _ Ht').
Qed.

(** When parsing returns, the calls are those of the tree. *)
Theorem calls_tree E s text tokens ind result tokens' :
  parse_returns E s text tokens ind result tokens' ->
  forall n, makes_calls E s text tokens ind n <-> text_calls E s ind text n.
Proof.
  intros H n. split; [apply count_tree|]. intros Hn.
  destruct (proj2 (count_exists E s text tokens ind)) as (m & Hm); [eauto|].
  rewrite (text_calls_unique _ _ _ _ _ _ Hn (count_tree _ _ _ _ _ _ Hm)). exact Hm.
Qed.
