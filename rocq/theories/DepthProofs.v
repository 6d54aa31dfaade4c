(** How deep parsing nests: linear in the length of the text. *)
From Coq Require Import List NArith Bool Arith Lia.
From Verif Require Import Base Ext Types ParseModel DepthModel PegSpec PrimProofs DataSpec ApiSpec
  FuelProofs PegProofs PegFacts TotalSpec OptProofs SafeProofs TotalProofs ParseProofs.
Import ListNotations.

(** ** The limited stack changes nothing but [OutOfFuel] *)

Lemma parse_rule_on_mono E refs d : forall d' l l' r, d <= d' -> l <= l' ->
  le_p (parse_rule_on E d l refs r) (parse_rule_on E d' l' refs r).
Proof.
  induction d as [|d IH]; intros d' l l' r Hd Hl toks st t ind; [left; reflexivity|].
  destruct d' as [|d']; [lia|].
  assert (IHg : forall r, le_p (parse_rule_on E d l refs r) (parse_rule_on E d' l' refs r))
    by (intros; apply IH; lia).
  destruct r; cbn [parse_rule_on]; try apply le_o_refl.
  - apply select_loop_mono. exact IHg.
  - apply fast_select_mono. exact IHg.
  - apply seq_loop_mono. exact IHg.
  - apply sep_loop_mono; [apply IHg|apply IHg|lia].
  - apply repeat_loop_mono; [apply IHg|lia].
  - unfold parse_lines, rt_lines. apply le_o_bind; [|intros; apply le_o_refl].
    apply le_o_bind; [|intros; apply le_o_refl].
    apply lines_loop_mono; [|lia]. apply lines_closure_mono. apply IHg.
  - unfold parse_node. destruct index; [|apply le_o_refl].
    destruct (emit _ _ _ _ _). destruct (nth_error refs _); [|apply le_o_refl].
    apply le_o_bind; [apply IHg|]. intros. apply le_o_refl.
  - apply le_o_bind; [apply IHg|]. intros. apply le_o_refl.
  - apply le_o_bind; [apply IHg|]. intros. apply le_o_refl.
Qed.

Lemma parse_rule_on_le E refs l d : forall f r, d + l <= f ->
  le_p (parse_rule_on E d l refs r) (parse_rule E f refs r).
Proof.
  induction d as [|d IH]; intros f r Hf toks st t ind; [left; reflexivity|].
  destruct f as [|f]; [lia|].
  assert (IHg : forall r, le_p (parse_rule_on E d l refs r) (parse_rule E f refs r))
    by (intros; apply IH; lia).
  destruct r; cbn [parse_rule_on parse_rule]; try apply le_o_refl.
  - apply select_loop_mono. exact IHg.
  - apply fast_select_mono. exact IHg.
  - apply seq_loop_mono. exact IHg.
  - apply sep_loop_mono; [apply IHg|apply IHg|lia].
  - apply repeat_loop_mono; [apply IHg|lia].
  - unfold parse_lines, rt_lines. apply le_o_bind; [|intros; apply le_o_refl].
    apply le_o_bind; [|intros; apply le_o_refl].
    apply lines_loop_mono; [|lia]. apply lines_closure_mono. apply IHg.
  - unfold parse_node. destruct index; [|apply le_o_refl].
    destruct (emit _ _ _ _ _). destruct (nth_error refs _); [|apply le_o_refl].
    apply le_o_bind; [apply IHg|]. intros. apply le_o_refl.
  - apply le_o_bind; [apply IHg|]. intros. apply le_o_refl.
  - apply le_o_bind; [apply IHg|]. intros. apply le_o_refl.
Qed.

(** Conversely, fuel allows as many nested calls and rounds. *)
Lemma parse_rule_le_on E refs l f : forall d r, f <= d -> f <= l ->
  le_p (parse_rule E f refs r) (parse_rule_on E d l refs r).
Proof.
  induction f as [|f IH]; intros d r Hf Hl toks st t ind; [left; reflexivity|].
  destruct d as [|d]; [lia|].
  assert (IHg : forall r, le_p (parse_rule E f refs r) (parse_rule_on E d l refs r))
    by (intros; apply IH; lia).
  destruct r; cbn [parse_rule_on parse_rule]; try apply le_o_refl.
  - apply select_loop_mono. exact IHg.
  - apply fast_select_mono. exact IHg.
  - apply seq_loop_mono. exact IHg.
  - apply sep_loop_mono; [apply IHg|apply IHg|lia].
  - apply repeat_loop_mono; [apply IHg|lia].
  - unfold parse_lines, rt_lines. apply le_o_bind; [|intros; apply le_o_refl].
    apply le_o_bind; [|intros; apply le_o_refl].
    apply lines_loop_mono; [|lia]. apply lines_closure_mono. apply IHg.
  - unfold parse_node. destruct index; [|apply le_o_refl].
    destruct (emit _ _ _ _ _). destruct (nth_error refs _); [|apply le_o_refl].
    apply le_o_bind; [apply IHg|]. intros. apply le_o_refl.
  - apply le_o_bind; [apply IHg|]. intros. apply le_o_refl.
  - apply le_o_bind; [apply IHg|]. intros. apply le_o_refl.
Qed.

Lemma parse_on_le E d l s text tokens ind :
  le_o (parse_on E d l s text tokens ind) (parse_with_indent E (d + l) s text tokens ind).
Proof.
  unfold parse_on, parse_with_indent. destruct (nth_error _ _); [|apply le_o_refl].
  apply le_o_bind; [apply parse_rule_on_le; lia|]. intros. apply le_o_refl.
Qed.

Lemma parse_le_on E f s text tokens ind :
  le_o (parse_with_indent E f s text tokens ind) (parse_on E f f s text tokens ind).
Proof.
  unfold parse_on, parse_with_indent. destruct (nth_error _ _); [|apply le_o_refl].
  apply le_o_bind; [apply parse_rule_le_on; lia|]. intros. apply le_o_refl.
Qed.

Lemma parse_on_mono E d d' l l' s text tokens ind : d <= d' -> l <= l' ->
  le_o (parse_on E d l s text tokens ind) (parse_on E d' l' s text tokens ind).
Proof.
  intros Hd Hl. unfold parse_on. destruct (nth_error _ _); [|apply le_o_refl].
  apply le_o_bind; [apply parse_rule_on_mono; assumption|]. intros. apply le_o_refl.
Qed.

Lemma parse_on_same E s text tokens ind result tokens' :
  (exists depth rounds, parse_on E depth rounds s text tokens ind = Done (result, tokens')) <->
  parse_returns E s text tokens ind result tokens'.
Proof.
  split.
  - intros (d & l & H). exists (d + l). pose proof (parse_on_le E d l s text tokens ind) as Hle.
    rewrite H in Hle. destruct Hle as [Hle|Hle]; [discriminate|]. symmetry. exact Hle.
  - intros [f H]. exists f, f. pose proof (parse_le_on E f s text tokens ind) as Hle.
    rewrite H in Hle. destruct Hle as [Hle|Hle]; [discriminate|]. symmetry. exact Hle.
Qed.

(** ** Upper bound *)

Lemma bind_in {A B} (o : outcome A) (k : A -> outcome B) :
  o <> OutOfFuel -> (forall x, o = Done x -> k x <> OutOfFuel) -> obind o k <> OutOfFuel.
Proof. destruct o; simpl; intros H1 H2; [apply H2; reflexivity|discriminate|congruence]. Qed.

Section Bound.
  Variable E : ext.
  Hypothesis HE : ext_ok E.
  Variable syn : syntax.
  Hypothesis Hwf : well_formed syn.

  Notation refs := (s_rules syn).

  (** The parser ends within the limits in front of texts of length at most [m]. *)
  Definition ends_in (m : nat) (P : parser) : Prop :=
    forall base junk s p ind, length s <= m ->
      P (base ++ junk) (length base) (RT s p) ind <> OutOfFuel.

  Lemma ends_in_le m m' P : ends_in m P -> m' <= m -> ends_in m' P.
  Proof. intros H Hm base junk s p ind Hs. apply H. lia. Qed.

  Lemma seq_in m P args : (forall r, sound_for E refs r (P r)) ->
    forall done todo, args = done ++ todo ->
    (forall before r behind, args = before ++ r :: behind -> Forall (may_be_empty refs) before ->
       ends_in m (P r)) ->
    (forall r m', In r args -> m' < m -> ends_in m' (P r)) ->
    forall start base junk s p ind oe, length s <= m ->
      (length s < m \/ Forall (may_be_empty refs) done) ->
      seq_loop P todo start (base ++ junk) (length base) (RT s p) ind oe <> OutOfFuel.
  Proof.
    intros HP done todo. revert done.
    induction todo as [|r todo IH]; intros done Ha Hfirst Hlater start base junk s p ind oe Hs Hd;
      cbn [seq_loop]; [discriminate|].
    apply bind_in.
    - destruct Hd as [Hd|Hd].
      + apply (Hlater r (length s)); [rewrite Ha; apply in_or_app; right; left; reflexivity|
          exact Hd|lia].
      + apply (Hfirst done r todo Ha Hd). exact Hs.
    - intros [[res toks'] ind'] He. apply HP in He as (v & tr & Hr & Hag).
      destruct v as [n out|].
      + destruct Hag as (junk' & -> & ->). rewrite rt_eq. cbn [r_len].
        pose proof (reads_le E HE refs _ _ _ _ _ _ _ _ Hr) as Hn.
        apply (IH (done ++ [r])).
        * rewrite <- app_assoc. exact Ha.
        * exact Hfirst.
        * exact Hlater.
        * rewrite skipn_length. lia.
        * rewrite skipn_length. destruct Hd as [Hd|Hd]; [left; lia|].
          destruct n as [|n]; [right|left; lia]. apply Forall_app. split; [exact Hd|].
          constructor; [|constructor]. eapply (reads_empty E HE syn). exact Hr.
      + destruct Hag as (e & junk' & _ & -> & ->). discriminate.
  Qed.

  Lemma select_in m P id args : (forall r, sound_for E refs r (P r)) ->
    (forall r, In r args -> ends_in m (P r)) ->
    forall base junk s p ind oe, length s <= m ->
      select_loop P args id (base ++ junk) (length base) (RT s p) ind oe <> OutOfFuel.
  Proof.
    intros HP. induction args as [|r args IH]; intros Hin base junk s p ind oe Hs;
      cbn [select_loop]; [destruct oe; discriminate|].
    apply bind_in; [apply Hin; [left; reflexivity|exact Hs]|].
    intros [[res toks'] ind'] He. apply HP in He as (v & tr & Hr & Hag). destruct v as [n out|].
    - destruct Hag as (junk' & -> & ->). discriminate.
    - destruct Hag as (e & junk' & _ & -> & ->). apply IH; [|exact Hs].
      intros r' Hr'. apply Hin. right. exact Hr'.
  Qed.

  Lemma tail_in m P args oe : (forall r, In r args -> ends_in m (P r)) ->
    ends_in m (fast_tail P args oe).
  Proof.
    intros Hin base junk s p ind Hs. unfold fast_tail. destruct args as [|r args]; [discriminate|].
    destruct (nth_error (r :: args) _) as [r'|] eqn:Hn; [|discriminate].
    apply bind_in; [apply Hin; [eapply nth_error_In; exact Hn|exact Hs]|].
    intros [[res toks'] ind'] _. destruct res; discriminate.
  Qed.

  Lemma fast_in m P table args tail id : (forall r, sound_for E refs r (P r)) ->
    (forall r, In r args -> ends_in m (P r)) ->
    ends_in m (parse_fast_select P table args tail id).
  Proof.
    intros HP Hin base junk s p ind Hs. unfold parse_fast_select. cbn [src].
    destruct s as [|c s]; [discriminate|].
    destruct (nth_error table _) as [i|]; [|discriminate].
    destruct (Nat.eqb i 255).
    - destruct tail; [apply (tail_in m); assumption|discriminate].
    - destruct (nth_error args i) as [r|] eqn:Hi; [|discriminate].
      apply bind_in; [apply Hin; [eapply nth_error_In; exact Hi|exact Hs]|].
      intros [[res toks'] ind'] He. apply HP in He as (v & tr & Hr & Hag). destruct v as [n out|].
      + destruct Hag as (junk' & -> & ->). discriminate.
      + destruct Hag as (e & junk' & _ & -> & ->). destruct tail; [|discriminate].
        apply (tail_in m); assumption.
  Qed.

  Lemma repeat_in m P r optional : sound_for E refs r P -> ~ may_be_empty refs r ->
    ends_in m P -> forall l start first base junk s p ind oe, length s <= m -> length s < l ->
      repeat_loop l P optional start first (base ++ junk) (length base) (RT s p) ind oe
        <> OutOfFuel.
  Proof.
    intros HP Hne Hin l. induction l as [|l IH]; intros start first base junk s p ind oe Hs Hl;
      [lia|]. cbn [repeat_loop].
    apply bind_in; [apply Hin; exact Hs|].
    intros [[res toks'] ind'] He. apply HP in He as (v & tr & Hr & Hag). destruct v as [n out|].
    - destruct Hag as (junk' & -> & ->). rewrite rt_eq. cbn [r_len].
      pose proof (reads_le E HE refs _ _ _ _ _ _ _ _ Hr) as Hn.
      assert (n <> 0) by (intros ->; apply Hne; eapply (reads_empty E HE syn); exact Hr).
      apply IH; rewrite skipn_length; lia.
    - destruct Hag as (e & junk' & _ & -> & ->). destruct (_ && _); discriminate.
  Qed.

  Lemma sep_in m P Q r by_ optional trail : sound_for E refs r P -> sound_for E refs by_ Q ->
    ~ (may_be_empty refs r /\ may_be_empty refs by_) ->
    ends_in m P -> (may_be_empty refs r -> ends_in m Q) ->
    (forall m', m' < m -> ends_in m' Q) ->
    forall l start first base junk s p ind oe, length s <= m -> length s < l ->
      sep_loop l P Q optional trail start first (base ++ junk) (length base) (RT s p) ind oe
        <> OutOfFuel.
  Proof.
    intros HP HQ Hne HinP HinQ HlaterQ l.
    induction l as [|l IH]; intros start first base junk s p ind oe Hs Hl; [lia|].
    cbn [sep_loop]. apply bind_in; [apply HinP; exact Hs|].
    intros [[res toks'] ind'] He. apply HP in He as (v & tr & Hr & Hag). destruct v as [n out|].
    - destruct Hag as (junk' & -> & ->). rewrite rt_eq. cbn [r_len].
      pose proof (reads_le E HE refs _ _ _ _ _ _ _ _ Hr) as Hn.
      assert (Hz : n = 0 -> may_be_empty refs r)
        by (intros ->; eapply (reads_empty E HE syn); exact Hr).
      apply bind_in.
      + destruct (Nat.eq_dec n 0) as [H0|H0].
        * apply (HinQ (Hz H0)). rewrite skipn_length. lia.
        * apply (HlaterQ (length (skipn n s))); [rewrite skipn_length; lia|lia].
      + intros [[res2 toks2] ind2] He. apply HQ in He as (v2 & tr2 & Hr2 & Hag).
        destruct v2 as [n2 out2|].
        * destruct Hag as (junk2 & -> & ->). rewrite rt_eq. cbn [r_len].
          pose proof (reads_le E HE refs _ _ _ _ _ _ _ _ Hr2) as Hn2.
          rewrite skipn_length in Hn2.
          assert (n + n2 <> 0).
          { intros H0. apply Hne. split; [apply Hz; lia|].
            assert (n2 = 0) by lia. subst n2. eapply (reads_empty E HE syn). exact Hr2. }
          apply IH; rewrite !skipn_length; lia.
        * destruct Hag as (e & junk2 & _ & -> & ->). discriminate.
    - destruct Hag as (e & junk' & _ & -> & ->). destruct first, optional, trail; discriminate.
  Qed.

  Lemma item_in m P o t first ls ind base junk : ls_toks ls = base ++ junk ->
    ls_state ls = length base -> ends_in m P -> length (src t) <= m ->
    lines_item_indent P o t first ls ind <> OutOfFuel.
  Proof.
    intros Ht Hst Hin Hs. unfold lines_item_indent, add_u32.
    destruct (N.leb _ _); [|discriminate]. cbn [obind]. rewrite Ht, Hst.
    destruct t as [s p]. cbn [src] in Hs.
    apply bind_in; [apply Hin; exact Hs|]. intros [[res toks'] ind'] _. destruct res; discriminate.
  Qed.

  Lemma closure_in m P indented base tr fresh ind ls s p : ls_rep base tr fresh ind ls ->
    ends_in m P -> length s <= m -> closure indented P (RT s p) ls <> OutOfFuel.
  Proof.
    intros (junk & ->) Hin Hs. destruct indented; cbn [closure].
    - unfold lines_closure_indent. cbn [src ls_ind ls_first].
      destruct (skip_indent _ _ _) as [k|]; [|discriminate].
      destruct (_ && _).
      + destruct (align_indent_cases (i_tab_spaces ind) (src (rt_consume (RT s p) k)) (i_indent ind))
          as [Hd|[Hd _]]; rewrite Hd; [|discriminate]. cbn [obind].
        eapply (item_in m); [reflexivity|reflexivity|exact Hin|].
        rewrite !rt_eq. cbn [src]. rewrite !skipn_length. lia.
      + destruct (rt_tag _ _); [discriminate|].
        eapply (item_in m); [reflexivity|reflexivity|exact Hin|].
        rewrite rt_eq. cbn [src]. rewrite skipn_length. lia.
    - unfold lines_closure_plain. cbn [ls_toks ls_state ls_ind].
      apply bind_in; [apply Hin; exact Hs|]. intros [[res toks'] ind'] _. destruct res; discriminate.
  Qed.

  Lemma lines_in m P r indented : sound_for E refs r P -> ends_in m P ->
    forall l nl base tr fresh ind ls s p, ls_rep base tr fresh ind ls -> length s <= m ->
      length s + (if nl : bool then 1 else 0) < l ->
      lines_loop E (closure indented P) l nl (RT s p) ls <> OutOfFuel.
  Proof.
    intros HP Hin l. induction l as [|l IH]; intros nl base tr fresh ind ls s p Hrep Hs Hl; [lia|].
    cbn [lines_loop]. cbn [src]. destruct (Nat.eqb _ _); [discriminate|].
    assert (Hgo : forall k, k <> 0 \/ nl = true -> k <= length s ->
      (do (res, st1) <- closure indented P (RT (skipn k s) (p + k)) ls;
       match res with
       | None => Done (inl (RT (skipn k s) (p + k)), st1)
       | Some r =>
         lines_loop E (closure indented P) l
           (ends_with_newline (rt_raw_string (RT (skipn k s) (p + k)) (r_len r)))
           (rt_consume (RT (skipn k s) (p + k)) (r_len r)) st1
       end) <> OutOfFuel).
    { intros k Hk Hks. apply bind_in.
      - eapply (closure_in m); [exact Hrep|exact Hin|]. rewrite skipn_length. lia.
      - intros [ores ls1] He.
        eapply closure_sound in He as (v & fresh' & ind' & tr' & Hr & Hc); [|exact HP|exact Hrep].
        destruct v as [n out|].
        + destruct Hc as [-> Hrep']. rewrite rt_eq. cbn [r_len].
          assert (Hn : n <= length (skipn k s)).
          { destruct (reads_fits_all E HE refs) as (_ & _ & _ & _ & _ & _ & Hall).
            apply Hall in Hr as [[Hr _] _]. exact Hr. }
          rewrite skipn_length in Hn.
          eapply IH; [exact Hrep'| |]; rewrite !skipn_length; [lia|].
          unfold rt_raw_string. cbn [src]. destruct n as [|n].
          * change (firstn 0 (skipn k s)) with (@nil char).
            change (ends_with_newline []) with false. cbv iota.
            destruct Hk as [Hk| ->]; [destruct nl; lia|lia].
          * destruct (ends_with_newline _), nl; lia.
        + destruct Hc as [-> _]. discriminate. }
    pose proof (line_start_model nl s) as Hls.
    destruct (after_last_newline _) as [k|] eqn:Hal.
    - rewrite rt_eq. apply Hgo; [left; intros ->|eapply line_start_le; exact Hls].
      pose proof (after_last_newline_spec (firstn (span_len is_ws s) s)) as Hsp.
      rewrite Hal in Hsp. destruct Hsp as (a & b & _ & _ & Hz). lia.
    - destruct nl; [|discriminate]. rewrite <- (rt_consume_0 s p), rt_eq.
      apply (Hgo 0); [right; reflexivity|lia].
  Qed.

  (** ** The measure *)

  Fixpoint height (r : rule) : nat :=
    match r with
    | RSelect args _ | RSequence args _ | RFastSelect _ args _ _ =>
      S (fold_right Nat.max 0 (map height args))
    | RSeparateBy r by_ _ _ _ => S (Nat.max (height r) (height by_))
    | RRepeat r _ _ | RLines r _ _ | ROptional r _ | RNot r _ => S (height r)
    | _ => 1
    end.

  Lemma max_in n l : In n l -> n <= fold_right Nat.max 0 l.
  Proof.
    induction l as [|x l IH]; intros [].
    - subst. simpl. lia.
    - simpl. specialize (IH H). lia.
  Qed.

  Lemma height_child r c : In c (children r) -> height c < height r.
  Proof.
    destruct r; cbn [children height]; intros Hc; try contradiction Hc;
      try (apply (in_map height) in Hc; apply max_in in Hc; lia);
      try (destruct Hc as [<-|[]]; lia).
    destruct Hc as [<-|[<-|[]]]; lia.
  Qed.

  Lemma height_occurs r top : occurs_in r top -> height r <= height top.
  Proof. induction 1 as [|r' c Hc _ IH]; [lia|]. apply height_child in Hc. lia. Qed.

  Definition tallest : nat := fold_right Nat.max 0 (map height refs).

  Lemma occurs_tallest r : occurs syn r -> height r <= tallest.
  Proof.
    intros (top & Ht & Ho). apply height_occurs in Ho.
    assert (height top <= tallest) by (apply max_in; apply in_map; exact Ht). lia.
  Qed.

  Section Ranked.
    Variable rank : nat -> nat.
    Hypothesis Hrank : forall i r j,
      nth_error refs i = Some r -> leads_to refs r j -> rank j < rank i.

    Definition highest : nat := S (fold_right Nat.max 0 (map rank (seq 0 (length refs)))).

    Lemma rank_highest i : i < length refs -> rank i < highest.
    Proof.
      intros Hi. unfold highest. apply le_n_S. apply max_in. apply in_map. apply in_seq. lia.
    Qed.

    Definition per_char : nat := highest * tallest + tallest.

    Lemma rule_in l d : forall m k r, k <= highest -> m + 1 < l -> occurs syn r ->
      (forall j, j < length refs -> leads_to refs r j -> rank j < k) ->
      per_char * m + k * tallest + height r <= d ->
      ends_in m (parse_rule_on E d l refs r).
    Proof.
      induction d as [|d IH]; intros m k r Hk Hml Ho Hlead Hd.
      { exfalso. destruct r; cbn [height] in Hd; lia. }
      assert (Hsound : forall r, sound_for E refs r (parse_rule_on E d l refs r)).
      { intros r0 base junk s p ind res toks' ind' H.
        pose proof (parse_rule_on_le E refs l d (d + l) r0 (le_n _) (base ++ junk) (length base)
          (RT s p) ind) as Hle. rewrite H in Hle. destruct Hle as [Hle|Hle]; [discriminate|].
        eapply parse_rule_sound. symmetry. exact Hle. }
      assert (Hfirst : forall c, In c (children r) -> tried_first refs r c ->
        ends_in m (parse_rule_on E d l refs c)).
      { intros c Hc Ht. apply (IH m k c Hk Hml).
        - eapply occurs_child; eassumption.
        - intros j Hj Hl. apply Hlead; [exact Hj|]. eapply leads_below; eassumption.
        - apply height_child in Hc. lia. }
      assert (Hlater : forall c m', In c (children r) -> m' < m ->
        ends_in m' (parse_rule_on E d l refs c)).
      { intros c m' Hc Hm. apply (IH m' highest c (le_n _)); [lia| | |].
        - eapply occurs_child; eassumption.
        - intros j Hj _. apply rank_highest. exact Hj.
        - assert (Hh : height c <= tallest)
            by (apply occurs_tallest; eapply occurs_child; eassumption).
          assert (Hp : per_char * m' + per_char <= per_char * m).
          { rewrite <- (Nat.mul_1_r per_char) at 2. rewrite <- Nat.mul_add_distr_l.
            apply Nat.mul_le_mono_l. lia. }
          unfold per_char in Hp at 2.
          assert (1 <= height r) by (destruct r; cbn [height]; lia).
          lia. }
      destruct r; cbn [parse_rule_on]; intros base junk s p ind Hs.
      - unfold parse_whitespace. destruct (_ && _); discriminate.
      - unfold parse_tag. destruct (rt_tag _ _), not; try discriminate;
          destruct (emit _ _ _ _ _); discriminate.
      - unfold parse_until. destruct (_ && _); [discriminate|].
        destruct (emit _ _ _ _ _); discriminate.
      - unfold parse_until. destruct (_ && _); [discriminate|].
        destruct (emit _ _ _ _ _); discriminate.
      - unfold parse_text. destruct (x_string _ _); [|discriminate].
        destruct (_ && _); [discriminate|]. destruct (x_parse_string _ _) as [|[]]; [|discriminate].
        destruct (emit _ _ _ _ _); discriminate.
      - unfold parse_number. destruct (x_number _ _ _); [|discriminate].
        destruct (x_parse_number _ _ _); [|discriminate].
        destruct (emit _ _ _ _ _); discriminate.
      - apply (select_in m); [exact Hsound| |exact Hs].
        intros r Hr. apply Hfirst; [exact Hr|]. constructor. exact Hr.
      - apply (fast_in m); [exact Hsound| |exact Hs].
        intros r Hr. apply Hfirst; [exact Hr|]. constructor. exact Hr.
      - unfold parse_sequence.
        apply (seq_in m (parse_rule_on E d l refs) args Hsound [] args eq_refl); [| |exact Hs|].
        + intros before r behind Ha Hb. apply Hfirst.
          * cbn [children]. rewrite Ha. apply in_or_app. right. left. reflexivity.
          * rewrite Ha. constructor. exact Hb.
        + intros r m' Hr Hm. apply Hlater; [exact Hr|exact Hm].
        + right. constructor.
      - unfold parse_separate_by. destruct Hwf as (_ & Hsep & _).
        apply (sep_in m _ _ r1 r2); [apply Hsound|apply Hsound|eapply Hsep; exact Ho| | | |exact Hs|lia].
        + apply Hfirst; [left; reflexivity|constructor].
        + intros He. apply Hfirst; [right; left; reflexivity|]. constructor. exact He.
        + intros m' Hm. apply Hlater; [right; left; reflexivity|exact Hm].
      - unfold parse_repeat. destruct Hwf as (Hrep & _ & _).
        apply (repeat_in m _ r); [apply Hsound|eapply Hrep; exact Ho| |exact Hs|lia].
        apply Hfirst; [left; reflexivity|constructor].
      - unfold parse_lines, rt_lines. apply bind_in; [|intros [[] ls] _; discriminate].
        apply bind_in; [|intros [[] ls] _; discriminate].
        change (if indent then lines_closure_indent (parse_rule_on E d l refs r)
          else lines_closure_plain (parse_rule_on E d l refs r))
          with (closure indent (parse_rule_on E d l refs r)).
        eapply (lines_in m _ r indent (Hsound r)) with (tr := []).
        + apply Hfirst; [left; reflexivity|constructor].
        + exists junk. reflexivity.
        + exact Hs.
        + lia.
      - unfold parse_node. destruct index as [i|]; [|discriminate].
        edestruct (emit_spec property) as (junk' & He). rewrite He. clear He.
        destruct (nth_error refs i) as [r|] eqn:Hi; [|discriminate].
        apply bind_in.
        + assert (Hn : i < length refs) by (apply nth_error_Some; congruence).
          apply nth_error_In in Hi as Hin. apply occurs_top in Hin.
          assert (Hr : rank i < k) by (apply Hlead; [exact Hn|constructor]).
          apply (IH m (rank i) r); [lia|exact Hml|exact Hin| | |exact Hs].
          * intros j _ Hj. eapply Hrank; eassumption.
          * apply occurs_tallest in Hin. cbn [height] in Hd.
            assert (rank i * tallest + tallest <= k * tallest).
            { rewrite <- (Nat.mul_1_l tallest) at 2. rewrite <- Nat.mul_add_distr_r.
              apply Nat.mul_le_mono_r. lia. }
            lia.
        + intros [[res toks'] ind'] _. destruct res; [|discriminate].
          destruct (emit _ _ _ _ _); discriminate.
      - unfold parse_optional. apply bind_in.
        + apply Hfirst; [left; reflexivity|constructor|exact Hs].
        + intros [[res toks'] ind'] _. destruct res; discriminate.
      - unfold parse_not. apply bind_in.
        + apply Hfirst; [left; reflexivity|constructor|exact Hs].
        + intros [[res toks'] ind'] _. destruct res; discriminate.
    Qed.
  End Ranked.

  Theorem depth_bound : exists c, forall text tokens ind,
    parse_on E (c * S (length text)) (2 + length text) syn text tokens ind <> OutOfFuel.
  Proof.
    destruct Hwf as (_ & _ & rank & Hrank).
    exists (highest rank * tallest + tallest). intros text tokens ind.
    unfold parse_on. destruct (nth_error refs _) as [r|] eqn:Hr; [|discriminate].
    apply nth_error_In in Hr. apply occurs_top in Hr.
    apply bind_in.
    - rewrite <- (app_nil_r tokens) at 1.
      apply (rule_in rank Hrank _ _ (length text) (highest rank) r (le_n _)); [lia|exact Hr| | |lia].
      + intros j Hj _. apply rank_highest. exact Hj.
      + apply occurs_tallest in Hr. unfold per_char. lia.
    - intros [[res toks'] ind'] _. destruct res; [|discriminate].
      destruct (_ <? _); discriminate.
  Qed.
End Bound.

Theorem linear_depth E : ext_ok E -> forall s, valid s -> well_formed s ->
  exists c, forall text tokens ind, columns_fit ind text ->
  exists result tokens',
    parse_on E (c * S (length text)) (2 + length text) s text tokens ind = Done (result, tokens').
Proof.
  intros HE s Hv Hwf. destruct (depth_bound E HE s Hwf) as [c Hc]. exists c.
  intros text tokens ind Hf. specialize (Hc text tokens ind).
  destruct (parse_on _ _ _ _ _ _ _) as [[result tokens']| |] eqn:Hp; [eauto| |congruence].
  exfalso. apply (parse_safe E s Hv text tokens ind Hf).
  exists (c * S (length text) + (2 + length text)).
  pose proof (parse_on_le E (c * S (length text)) (2 + length text) s text tokens ind) as Hle.
  rewrite Hp in Hle. destruct Hle as [Hle|Hle]; [discriminate|]. symmetry. exact Hle.
Qed.
