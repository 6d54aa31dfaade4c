(** Parsing runs forever exactly when a call comes back to itself. *)
From Coq Require Import List NArith Bool Arith Lia.
From Verif Require Import Base Ext Types ParseModel PegSpec PrimProofs DataSpec PegProofs PegComplete
  PegFacts TotalSpec OptProofs SafeProofs ApiSpec ParseProofs TotalProofs CostModel CostProofs
  CostPublic CallSpec CallProofs HangSpec.
Import ListNotations.

(** ** Calls can be compared *)

Fixpoint rule_eq_dec (a b : rule) {struct a} : {a = b} + {a <> b}.
Proof.
  decide equality; try apply Bool.bool_dec; try apply N.eq_dec; try apply Nat.eq_dec;
    try (apply list_eq_dec; first [exact rule_eq_dec | apply N.eq_dec | apply Nat.eq_dec]);
    try (decide equality; first [apply Nat.eq_dec | apply (list_eq_dec N.eq_dec)]).
Defined.

Definition indent_eq_dec (a b : indent) : {a = b} + {a <> b}.
Proof. decide equality; [apply N.eq_dec|apply Bool.bool_dec|apply N.eq_dec]. Defined.

Definition call_eq_dec (a b : call) : {a = b} + {a <> b}.
Proof.
  destruct a as [[[r i] p] s], b as [[[r' i'] p'] s'].
  destruct (rule_eq_dec r r') as [->|H]; [|right; congruence].
  destruct (indent_eq_dec i i') as [->|H]; [|right; congruence].
  destruct (Nat.eq_dec p p') as [->|H]; [|right; congruence].
  destruct (list_eq_dec N.eq_dec s s') as [->|H]; [|right; congruence].
  left. reflexivity.
Defined.

(** ** Calls that return are not circular *)

Section Back.
  Variable E : ext.
  Variable syn : syntax.
  Let refs := s_rules syn.

  Notation needs := (needs E refs).
  Notation comes_to := (comes_to E refs).
  Notation tree := (tree E refs).
  Notation trees := (trees E refs).

  Lemma tree_pos c n : tree c n -> 1 <= n.
  Proof. intros H. inversion H. lia. Qed.

  Lemma trees_in l : forall n c, trees l n -> In c l -> exists m, tree c m /\ m <= n.
  Proof.
    induction l as [|d l IH]; intros n c H Hin; [destruct Hin|].
    inversion H as [|? ? a b Ha Hb]; subst. destruct Hin as [->|Hin].
    - exists a. split; [exact Ha|lia].
    - destruct (IH b c Hb Hin) as (m & Hm & Hle). exists m. split; [exact Hm|lia].
  Qed.

  Ltac same H :=
    match goal with Hx : reads _ _ _ _ _ _ _ _ _ |- _ =>
      lazymatch Hx with H => fail | _ =>
        destruct (reads_deterministic _ _ _ _ _ _ _ _ _ _ _ _ H Hx) as (?Hv & ?Hi & _) end end.

  Lemma order_in args ind p s c : comes_in_order E refs args ind p s c ->
    forall l, in_order E refs args ind p s l -> In c l.
  Proof.
    induction 1 as [r rest ind p s|r rest ind p s n out ind' tr c H _ IH]; intros l Hl.
    - inversion Hl; subst; left; reflexivity.
    - inversion Hl; subst; same H; [discriminate|]. injection Hv as <- <-. subst.
      right. apply IH. assumption.
  Qed.

  Lemma turn_in args ind p s c : comes_in_turn E refs args ind p s c ->
    forall l, in_turn E refs args ind p s l -> In c l.
  Proof.
    induction 1 as [r rest ind p s|r rest ind p s ind' tr c H _ IH]; intros l Hl.
    - inversion Hl; subst; left; reflexivity.
    - inversion Hl; subst; same H; [discriminate|]. subst. right. apply IH. assumption.
  Qed.

  Lemma lines_in r indented fresh nl ind p s c : comes_by_lines E refs r indented fresh nl ind p s c ->
    forall l, by_lines E refs r indented fresh nl ind p s l -> In c l.
  Proof.
    induction 1 as [fresh nl ind p s k c Hw Hk Hl|fresh nl ind p s k n out fresh' ind' tr nl' c Hw Hk Hr Hnl _ IH];
      intros l' H'; inversion H'; subst; try contradiction;
      try (match goal with Hk : line_start false ?s _, Hs : same_line ?s |- _ => destruct (line_start_same_line _ _ Hk Hs) end);
      (match goal with Ha : line_start _ _ ?k2 |- _ => lazymatch Ha with Hk => fail | _ =>
         pose proof (line_start_unique _ _ _ _ Hk Ha); subst k2 end end).
    - match goal with Ha : on_line _ _ _ _ _ _ _ |- _ => lazymatch Ha with Hl => fail | _ =>
         pose proof (on_line_unique _ _ _ _ _ _ _ _ Hl Ha); subst end end. left. reflexivity.
    - match goal with Ha : on_line _ _ _ _ _ _ _ |- _ => lazymatch Ha with Hl => fail | _ =>
         pose proof (on_line_unique _ _ _ _ _ _ _ _ Hl Ha); subst end end. left. reflexivity.
    - match goal with Ha : reads_line _ _ _ _ _ _ _ _ _ _ _ _ |- _ => lazymatch Ha with Hr => fail | _ =>
         destruct (line_deterministic E syn _ _ _ _ _ _ _ _ _ _ _ _ _ _ Hr Ha) as (Hv & Hf & Hi) end end.
      discriminate.
    - match goal with Ha : reads_line _ _ _ _ _ _ _ _ _ _ _ _ |- _ => lazymatch Ha with Hr => fail | _ =>
         destruct (line_deterministic E syn _ _ _ _ _ _ _ _ _ _ _ _ _ _ Hr Ha) as (Hv & Hf & Hi) end end.
      injection Hv as <- <-. subst. apply in_or_app. right. apply IH.
      match goal with Ha : by_lines _ _ _ _ _ ?b _ _ _ _ |- _ => replace nl' with b; [exact Ha|] end.
      match goal with |- ?b = nl' => destruct b, nl'; try reflexivity end.
      + symmetry. apply Hnl. match goal with Ha : true = true <-> _ |- _ => apply Ha; reflexivity end.
      + match goal with Ha : false = true <-> _ |- _ => apply Ha end. apply Hnl. reflexivity.
  Qed.

  Lemma turns_head r q ind p s l : by_turns E refs r q ind p s l -> exists l', l = (r, ind, p, s) :: l'.
  Proof. intros H. inversion H; subst; eexists; reflexivity. Qed.

  Lemma turns_on r q ind p s n out ind' tr l : reads E refs r ind p s (Yes n out) ind' tr ->
    by_turns E refs r q ind p s l ->
    exists l', l = (r, ind, p, s) :: l' /\ by_turns E refs q r ind' (p + n) (skipn n s) l'.
  Proof.
    intros H Hl. inversion Hl; subst; same H; try discriminate. injection Hv as <- <-. subst. eauto.
  Qed.

  Lemma needs_smaller c d : needs c d -> forall n, tree c n -> exists m, m < n /\ tree d m.
  Proof.
    intros H n Hn.
    assert (Hgo : (forall l, tries E refs c l -> In d l) -> exists m, m < n /\ tree d m).
    { intros Hin. inversion Hn as [? l k Hl Hk]; subst.
      destruct (trees_in l k d Hk (Hin l Hl)) as (m & Hm & Hle). exists m. split; [lia|exact Hm]. }
    destruct H.
    - apply Hgo. intros l Hl. inversion Hl; subst. eapply order_in; eassumption.
    - apply Hgo. intros l Hl. inversion Hl; subst. eapply turn_in; eassumption.
    - apply Hgo. intros l Hl. inversion Hl; subst; try congruence.
      all: match goal with Ha : _ ++ [_] = _ ++ [_] |- _ => apply app_inj_tail in Ha as [-> ->] end; left; reflexivity.
    - apply Hgo. intros l Hl. inversion Hl; subst; try congruence.
      + left. congruence.
      + match goal with Ha : in_turn _ _ (?r2 :: _) _ _ _ _ |- _ => assert (r2 = r) by congruence; subst;
          inversion Ha; subst; left; reflexivity end.
    - apply Hgo. intros l Hl. inversion Hl; subst; try congruence.
      match goal with Ha : _ ++ [_] = _ ++ [_] |- _ => apply app_inj_tail in Ha as [-> ->] end.
      match goal with Ha : in_turn _ _ (?r2 :: _) _ _ _ _ |- _ => assert (r2 = r) by congruence; subst;
          eapply turn_in; [|exact Ha]; eapply turn_later; [eassumption|apply turn_now] end.
    - apply Hgo. intros l Hl. inversion Hl; subst.
      match goal with Ha : over_again _ _ _ _ _ _ _ |- _ => inversion Ha; subst; left; reflexivity end.
    - inversion Hn as [? l k Hl Hk]; subst. inversion Hl; subst.
      match goal with Ha : over_again _ _ _ _ _ _ _ |- _ => inversion Ha; subst end.
      all: same H; try discriminate. injection Hv as <- <-. subst.
      inversion Hk as [|? ? a b Hta Htb]; subst. pose proof (tree_pos _ _ Hta).
      exists (1 + b). split; [lia|]. econstructor; [constructor; eassumption|exact Htb].
    - apply Hgo. intros l Hl. inversion Hl as [| | | | | | | | | | | | |? ? ? ? ? ? ? ? ? Ht| | | | | |]; subst.
      apply turns_head in Ht as (l' & ->). left. reflexivity.
    - apply Hgo. intros l Hl. inversion Hl as [| | | | | | | | | | | | |? ? ? ? ? ? ? ? ? Ht| | | | | |]; subst.
      destruct (turns_on _ _ _ _ _ _ _ _ _ _ H Ht) as (l' & -> & Ht').
      apply turns_head in Ht' as (l'' & ->). right. left. reflexivity.
    - inversion Hn as [? l k Hl Hk]; subst.
      inversion Hl as [| | | | | | | | | | | | |? ? ? ? ? ? ? ? ? Ht| | | | | |]; subst.
      destruct (turns_on _ _ _ _ _ _ _ _ _ _ H Ht) as (l' & -> & Ht').
      destruct (turns_on _ _ _ _ _ _ _ _ _ _ H0 Ht') as (l'' & -> & Ht'').
      inversion Hk as [|? ? a b Hta Htb]; subst. inversion Htb as [|? ? a' b' Hta' Htb']; subst.
      pose proof (tree_pos _ _ Hta).
      exists (1 + b'). split; [lia|]. econstructor; [constructor; exact Ht''|exact Htb'].
    - apply Hgo. intros l Hl. inversion Hl; subst. eapply lines_in; eassumption.
    - apply Hgo. intros l Hl. inversion Hl; subst. left. congruence.
    - apply Hgo. intros l Hl. inversion Hl; subst. left. reflexivity.
    - apply Hgo. intros l Hl. inversion Hl; subst. left. reflexivity.
  Qed.

  Lemma comes_smaller c d : comes_to c d -> forall n, tree c n -> exists m, m < n /\ tree d m.
  Proof.
    induction 1 as [c d H|c d e H _ IH]; intros n Hn.
    - eapply needs_smaller; eassumption.
    - destruct (needs_smaller _ _ H n Hn) as (m & Hm & Ht). destruct (IH m Ht) as (k & Hk & Hu).
      exists k. split; [lia|exact Hu].
  Qed.

  Lemma circular_no_tree c n : circular E refs c -> ~ tree c n.
  Proof.
    intros (d & Hc & Hd) Hn.
    assert (Ht : exists m, tree d m).
    { destruct Hc as [->|Hc]; [eauto|]. destruct (comes_smaller _ _ Hc n Hn) as (m & _ & Hm). eauto. }
    destruct Ht as (m & Hm). induction m as [m IH] using lt_wf_ind.
    destruct (comes_smaller _ _ Hd m Hm) as (k & Hk & Hu). exact (IH k Hk Hu).
  Qed.
End Back.

(** ** Calls that are not circular return *)

Section Forth.
  Variable E : ext.
  Hypothesis HE : ext_ok E.
  Variable syn : syntax.
  Hypothesis Hvalid : valid syn.
  Let refs := s_rules syn.

  Notation needs := (needs E refs).
  Notation comes_to := (comes_to E refs).

  Definition returns (c : call) : Prop :=
    let '(r, ind, p, s) := c in exists v ind' tr, reads E refs r ind p s v ind' tr.

  (** What indent settings can become. *)
  Definition grows (ind ind' : indent) : Prop :=
    i_align_first ind' = i_align_first ind /\ i_tab_spaces ind' = i_tab_spaces ind /\
    (i_indent ind' <= N.max (i_indent ind) u32_max)%N.

  Lemma grows_refl ind : grows ind ind.
  Proof. unfold grows. repeat split; lia. Qed.

  Lemma grows_trans a b c : grows a b -> grows b c -> grows a c.
  Proof. intros (A1 & A2 & A3) (B1 & B2 & B3). unfold grows. repeat split; [congruence|congruence|lia]. Qed.

  Lemma reads_grows_all :
    (forall r ind p s v ind' tr, reads E refs r ind p s v ind' tr -> grows ind ind') /\
    (forall args ind p s v ind' tr, reads_seq E refs args ind p s v ind' tr -> grows ind ind') /\
    (forall args ind p s v ind' tr, reads_first E refs args ind p s v ind' tr -> grows ind ind') /\
    (forall r ind p s k n out ind' tr, reads_many E refs r ind p s k n out ind' tr -> grows ind ind') /\
    (forall r by_ trail ind p s v ind' tr, reads_more E refs r by_ trail ind p s v ind' tr -> grows ind ind') /\
    (forall r indented id fresh nl ind p s v ind' tr,
      reads_lines E refs r indented id fresh nl ind p s v ind' tr -> grows ind ind') /\
    (forall r indented fresh ind p s v fresh' ind' tr,
      reads_line E refs r indented fresh ind p s v fresh' ind' tr -> grows ind ind').
  Proof.
    apply reads_mutind; intros; try apply grows_refl; try assumption;
      try (eapply grows_trans; eassumption); try (eapply grows_trans; [|eapply grows_trans]; eassumption).
    - match goal with H : grows (set_indent _ _) _ |- _ => destruct H as (A1 & A2 & _) end.
      unfold grows, set_indent in *. cbn in *. repeat split; [assumption|assumption|lia].
    - match goal with H : grows (set_indent _ _) _ |- _ => destruct H as (A1 & A2 & _) end.
      unfold grows, set_indent in *. cbn in *. repeat split; [assumption|assumption|lia].
  Qed.

  Lemma reads_grows r ind p s v ind' tr : reads E refs r ind p s v ind' tr -> grows ind ind'.
  Proof. apply (proj1 reads_grows_all). Qed.

  Lemma line_grows r indented fresh ind p s v fresh' ind' tr :
    reads_line E refs r indented fresh ind p s v fresh' ind' tr -> grows ind ind'.
  Proof. apply reads_grows_all. Qed.

  Lemma line_le r indented fresh ind p s n out fresh' ind' tr :
    reads_line E refs r indented fresh ind p s (Yes n out) fresh' ind' tr -> n <= length s.
  Proof.
    intros H. destruct (reads_fits_all E HE refs) as (_ & _ & _ & _ & _ & _ & Hall).
    apply Hall in H as [[H _] _]. exact H.
  Qed.

  Lemma on_line_cases r indented fresh ind p s c : columns_fit ind s ->
    on_line r indented fresh ind p s [c] ->
    exists k ind', k <= length s /\ c = (r, ind', p + k, skipn k s) /\ grows ind ind'.
  Proof.
    intros Hf H. inversion H; subst.
    - exists 0, ind. rewrite Nat.add_0_r. split; [lia|]. split; [reflexivity|apply grows_refl].
    - match goal with Hk : indentation _ _ _ ?k |- _ =>
        pose proof (indentation_width _ _ _ _ Hk) as [_ Hkl];
        assert (Hw : (i_indent ind + width (i_tab_spaces ind) (firstn 0 (skipn k s)) + 1 <= u32_max)%N)
          by (eapply line_width; [exact Hk|lia|apply Hf]); exists k end.
      eexists. split; [exact Hkl|]. split; [reflexivity|].
      cbn in Hw. unfold grows, set_indent. cbn. repeat split. lia.
    - match goal with Hk : indentation _ _ _ ?k, Hb : longest blank (skipn ?k s) ?b |- _ =>
        pose proof (indentation_width _ _ _ _ Hk) as [_ Hkl]; pose proof (longest_le _ _ _ Hb) as Hbl;
        assert (Hw : (i_indent ind + width (i_tab_spaces ind) (firstn b (skipn k s)) + 1 <= u32_max)%N)
          by (eapply line_width; [exact Hk|exact Hbl|apply Hf]); exists (k + b) end.
      rewrite skipn_length in Hbl.
      eexists. split; [lia|]. rewrite Nat.add_assoc, <- skipn_skipn_add.
      split; [reflexivity|]. unfold grows, set_indent. cbn. repeat split. lia.
  Qed.

  (** *** One call, when what it needs returns *)

  Section Local.
    Variable Q : Prop.

    Lemma seq_local args : forall ind p s,
      (forall d, comes_in_order E refs args ind p s d -> returns d \/ Q) ->
      (exists v ind' tr, reads_seq E refs args ind p s v ind' tr) \/ Q.
    Proof.
      induction args as [|r rest IH]; intros ind p s H.
      - left. do 3 eexists. apply reads_seq_nil.
      - destruct (H _ (order_now E refs r rest ind p s)) as [(v & ind1 & tr1 & H1)|q]; [|right; exact q].
        destruct v as [n out|]; [|left; do 3 eexists; apply reads_seq_no; exact H1].
        destruct (IH ind1 (p + n) (skipn n s)) as [(v & ind2 & tr2 & H2)|q]; [| |right; exact q].
        + intros d Hd. apply H. eapply order_later; eassumption.
        + left. do 3 eexists. eapply reads_seq_cons; eassumption.
    Qed.

    Lemma first_local args : forall ind p s,
      (forall d, comes_in_turn E refs args ind p s d -> returns d \/ Q) ->
      (exists v ind' tr, reads_first E refs args ind p s v ind' tr) \/ Q.
    Proof.
      induction args as [|r rest IH]; intros ind p s H.
      - left. do 3 eexists. apply reads_first_none.
      - destruct (H _ (turn_now E refs r rest ind p s)) as [(v & ind1 & tr1 & H1)|q]; [|right; exact q].
        destruct v as [n out|]; [left; do 3 eexists; apply reads_first_yes; exact H1|].
        destruct (IH ind1 p s) as [(v & ind2 & tr2 & H2)|q]; [| |right; exact q].
        + intros d Hd. apply H. eapply turn_later; eassumption.
        + left. do 3 eexists. eapply reads_first_next; eassumption.
    Qed.

    Lemma line_local r indented fresh ind p s : columns_fit ind s ->
      (forall d, on_line r indented fresh ind p s [d] -> returns d \/ Q) ->
      (exists v fresh' ind' tr, reads_line E refs r indented fresh ind p s v fresh' ind' tr) \/ Q.
    Proof.
      intros Hf H. destruct indented.
      - destruct (skip_indent s (i_indent ind) (i_tab_spaces ind)) as [k|] eqn:Hk.
        2: { left. do 4 eexists. apply reads_line_short. apply skip_indent_none. exact Hk. }
        apply skip_indent_spec in Hk.
        assert (Hw : forall b, b <= length (skipn k s) ->
          (i_indent ind + width (i_tab_spaces ind) (firstn b (skipn k s)) + 1 <= u32_max)%N).
        { intros b Hb. eapply line_width; [exact Hk|exact Hb|apply Hf]. }
        destruct (fresh && i_align_first ind) eqn:Hfr.
        + apply andb_true_iff in Hfr as [-> Ha].
          pose proof (longest_span blank blankb (skipn k s) blank_spec) as Hb.
          specialize (Hw _ (longest_le _ _ _ Hb)).
          set (b := span_len blankb (skipn k s)) in *.
          destruct (H _ (on_align r ind p s k b Hk Ha Hb)) as [(v & ind' & tr & Hr)|q]; [|right; exact q].
          left. do 4 eexists. eapply reads_line_align; try eassumption. reflexivity.
        + destruct (is_prefix [space] (skipn k s)) eqn:Hp.
          * left. do 4 eexists. eapply reads_line_deep; try eassumption. apply is_prefix_spec. exact Hp.
          * apply is_prefix_false in Hp.
            specialize (Hw 0 ltac:(lia)). simpl in Hw. rewrite N.add_0_r in Hw.
            destruct (H _ (on_exact r fresh ind p s k Hk Hfr Hp)) as [(v & ind' & tr & Hr)|q]; [|right; exact q].
            left. do 4 eexists. eapply reads_line_exact; eassumption.
      - destruct (H _ (on_plain r fresh ind p s)) as [(v & ind' & tr & Hr)|q]; [|right; exact q].
        left. do 4 eexists. apply reads_line_plain. exact Hr.
    Qed.

    Lemma lines_local r indented id m : forall nl fresh ind p s,
      length s + (if nl : bool then 1 else 0) = m -> columns_fit ind s ->
      (forall d, comes_by_lines E refs r indented fresh nl ind p s d -> returns d \/ Q) ->
      (exists v ind' tr, reads_lines E refs r indented id fresh nl ind p s v ind' tr) \/ Q.
    Proof.
      induction m as [m IH] using lt_wf_ind. intros nl fresh ind p s Hm Hf Hd.
      destruct (forall_white_dec s) as [Hws|Hws].
      { left. do 3 eexists. apply reads_lines_end. exact Hws. }
      assert (Hgo : forall k, line_start nl s k -> k <> 0 \/ nl = true ->
        (exists v ind' tr, reads_lines E refs r indented id fresh nl ind p s v ind' tr) \/ Q).
      { intros k Hk Hp. pose proof (line_start_le _ _ _ Hk) as Hkl.
        destruct (line_local r indented fresh ind (p + k) (skipn k s))
          as [(v & fresh' & ind1 & tr1 & H1)|q]; [| | |right; exact q].
        - apply columns_fit_skip. exact Hf.
        - intros d Hl. apply Hd. eapply lines_now; eassumption.
        - destruct v as [j out|].
          2: { left. do 3 eexists. eapply reads_lines_stop; eassumption. }
          set (nl' := ends_with_newline (firstn j (skipn k s))).
          pose proof (line_le _ _ _ _ _ _ _ _ _ _ _ H1) as Hj. rewrite skipn_length in Hj.
          destruct (IH (length (skipn j (skipn k s)) + (if nl' then 1 else 0))) with
            (nl := nl') (fresh := fresh') (ind := ind1) (p := p + k + j) (s := skipn j (skipn k s))
            as [(v & ind2 & tr2 & H2)|q]; [| | | | |right; exact q].
          + rewrite !skipn_length. destruct (Nat.eq_dec j 0) as [->|Hj0].
            * unfold nl'. change (firstn 0 (skipn k s)) with (@nil char).
              change (ends_with_newline []) with false. cbv iota.
              destruct Hp as [Hk0| ->]; [|lia]. lia.
            * destruct nl', nl; lia.
          + reflexivity.
          + eapply columns_fit_tabs; [|do 2 apply columns_fit_skip; exact Hf].
            apply (line_grows _ _ _ _ _ _ _ _ _ _ H1).
          + intros d Hl. apply Hd. eapply lines_later; try eassumption. apply ends_with_newline_spec.
          + left. do 3 eexists. eapply reads_lines_item; try eassumption.
            apply ends_with_newline_spec. }
      pose proof (line_start_model nl s) as Hls.
      destruct (after_last_newline _) as [k|] eqn:Hal.
      - apply (Hgo k Hls). left. intros ->.
        pose proof (after_last_newline_spec (firstn (span_len is_ws s) s)) as Hsp.
        rewrite Hal in Hsp. destruct Hsp as (a & b & _ & _ & Hz). lia.
      - destruct nl.
        + apply (Hgo 0); [apply line_start_here; [reflexivity|exact Hls]|right; reflexivity].
        + left. do 3 eexists. apply reads_lines_missing; assumption.
    Qed.

    Lemma call_local r ind p s : occurs syn r -> columns_fit ind s ->
      (forall d, needs (r, ind, p, s) d -> returns d \/ Q) -> returns (r, ind, p, s) \/ Q.
    Proof.
      intros Ho Hf H. pose proof (Hvalid r Ho) as Hv. unfold returns. destruct r.
      - left. pose proof (longest_span white is_ws s white_spec) as Hw.
        destruct optional; [do 3 eexists; apply reads_whitespace; [exact Hw|auto]|].
        destruct (span_len is_ws s) as [|w] eqn:Hz.
        + do 3 eexists. apply reads_whitespace_no. exact Hw.
        + do 3 eexists. apply reads_whitespace; [exact Hw|]. right. lia.
      - left. destruct (is_prefix text s) eqn:Hp.
        + apply is_prefix_spec in Hp. destruct not; do 3 eexists;
            [apply reads_not_tag_no|apply reads_tag]; exact Hp.
        + apply is_prefix_false in Hp. destruct not; do 3 eexists;
            [apply reads_not_tag|apply reads_tag_no]; exact Hp.
      - left. pose proof (longest_span _ _ s (until_spec any)) as Hw.
        destruct optional; [do 3 eexists; apply reads_until; [exact Hw|auto]|].
        destruct (span_len _ s) as [|w] eqn:Hz.
        + do 3 eexists. apply reads_until_no. exact Hw.
        + do 3 eexists. apply reads_until; [exact Hw|]. right. lia.
      - left. pose proof (longest_span _ _ s (until_ws_spec any)) as Hw.
        destruct optional; [do 3 eexists; apply reads_until_ws; [exact Hw|auto]|].
        destruct (span_len _ s) as [|w] eqn:Hz.
        + do 3 eexists. apply reads_until_ws_no. exact Hw.
        + do 3 eexists. apply reads_until_ws; [exact Hw|]. right. lia.
      - left. destruct (x_string E s) as [m|] eqn:Hx.
        2: { do 3 eexists. apply reads_text_none. exact Hx. }
        destruct (Nat.eq_dec m 2) as [->|Hm].
        + destruct allow_empty; [|do 3 eexists; apply reads_text_empty; exact Hx].
          destruct (x_parse_string E (firstn 2 s)) as [val|[re e]] eqn:Hps; do 3 eexists.
          * eapply reads_text; [exact Hx|left; reflexivity|exact Hps].
          * eapply reads_text_bad; [exact Hx|left; reflexivity|exact Hps].
        + destruct (x_parse_string E (firstn m s)) as [val|[re e]] eqn:Hps; do 3 eexists.
          * eapply reads_text; [exact Hx|right; exact Hm|exact Hps].
          * eapply reads_text_bad; [exact Hx|right; exact Hm|exact Hps].
      - left. match goal with |- context [RNumber ?u _ _] => destruct (x_number E u s) as [m|] eqn:Hx end.
        2: { do 3 eexists. apply reads_number_none. exact Hx. }
        match goal with |- context [RNumber ?u _ _] =>
          destruct (x_parse_number E u (firstn m s)) as [val|] eqn:Hpn end; do 3 eexists.
        + eapply reads_number; eassumption.
        + eapply reads_number_bad; eassumption.
      - destruct args as [|a args]; [left; do 3 eexists; apply reads_select_empty|].
        destruct (first_local (a :: args) ind p s) as [(v & ind' & tr & Hr)|q]; [| |right; exact q].
        + intros d Hd. apply H. constructor. exact Hd.
        + left. do 3 eexists. apply reads_select; [discriminate|exact Hr].
      - destruct s as [|c s]; [left; do 3 eexists; apply reads_fast_end|].
        destruct Hv as (Hlen & Hent & Htail).
        assert (Hb : N.to_nat (utf8_first c) < 256).
        { apply utf8_first_lt. destruct Hf as [Hr _]. inversion Hr. assumption. }
        destruct (nth_error table (N.to_nat (utf8_first c))) as [i|] eqn:Hi.
        2: { apply nth_error_None in Hi. lia. }
        pose proof (Hent i (nth_error_In _ _ Hi)) as Hin.
        assert (Hlast : tail = true -> exists init last, args = init ++ [last]).
        { intros Ht. destruct (exists_last (Htail Ht)) as (init & last & ->). eauto. }
        destruct (Nat.eq_dec i 255) as [->|Hi255].
        + destruct tail; [|left; do 3 eexists; apply reads_fast_none; exact Hi].
          destruct (Hlast eq_refl) as (init & last & ->).
          destruct (H _ (needs_fast_tail E refs table init last id ind p c s Hi)) as [(v & ind' & tr & Hr)|q];
            [|right; exact q].
          left. do 3 eexists. apply reads_fast_tail; eassumption.
        + destruct Hin as [Hin|Hin]; [contradiction|].
          destruct (nth_error args i) as [r|] eqn:Hr; [|apply nth_error_None in Hr; lia].
          destruct (H _ (needs_fast E refs table args tail id ind p c s i r Hi Hi255 Hr))
            as [(v & ind1 & tr1 & H1)|q]; [|right; exact q].
          destruct v as [k' out|]; [left; do 3 eexists; eapply reads_fast; eassumption|].
          destruct tail; [|left; do 3 eexists; eapply reads_fast_no; eassumption].
          destruct (Hlast eq_refl) as (init & last & ->).
          destruct (H _ (needs_fast_then_tail E refs table init last id ind p c s i r ind1 tr1 Hi Hi255 Hr H1))
            as [(v & ind2 & tr2 & H2)|q]; [|right; exact q].
          left. do 3 eexists. eapply reads_fast_then_tail; eassumption.
      - destruct (seq_local args ind p s) as [(v & ind' & tr & Hr)|q]; [| |right; exact q].
        + intros d Hd. apply H. constructor. exact Hd.
        + left. do 3 eexists. apply reads_sequence. exact Hr.
      - destruct (H _ (needs_item E refs r1 r2 optional allow_trail id ind p s)) as [(v & ind1 & tr1 & H1)|q];
          [|right; exact q].
        destruct v as [n out|]; [|left; do 3 eexists; eapply reads_separate_none; exact H1].
        destruct (H _ (needs_separator E refs r1 r2 optional allow_trail id ind p s n out ind1 tr1 H1))
          as [(v & ind2 & tr2 & H2)|q]; [|right; exact q].
        destruct v as [m out2|].
        2: { left. do 3 eexists. eapply reads_separate; [exact H1|]. apply reads_more_stop. exact H2. }
        destruct (H _ (needs_separate_again E refs r1 r2 optional allow_trail id ind p s n out ind1 tr1 m out2 ind2 tr2 H1 H2))
          as [(v & ind3 & tr3 & H3)|q]; [|right; exact q].
        left. inversion H3; subst; do 3 eexists; (eapply reads_separate; [exact H1|]).
        + eapply reads_more_item; eassumption.
        + eapply reads_more_trail; eassumption.
      - destruct (H _ (needs_repeat E refs r optional id ind p s)) as [(v & ind1 & tr1 & H1)|q]; [|right; exact q].
        destruct v as [n out|].
        2: { left. destruct optional; do 3 eexists.
             - eapply reads_repeat; [apply reads_many_stop; exact H1|auto].
             - apply reads_repeat_no. exact H1. }
        destruct (H _ (needs_repeat_again E refs r optional id ind p s n out ind1 tr1 H1))
          as [(v & ind2 & tr2 & H2)|q]; [|right; exact q].
        left. inversion H2; subst; do 3 eexists.
        + eapply reads_repeat; [eapply reads_many_step; eassumption|right; lia].
        + eapply reads_repeat; [eapply reads_many_step; [exact H1|apply reads_many_stop; eassumption]|right; lia].
      - match goal with |- context [RLines r ?i ?d] =>
          destruct (lines_local r i d (length s + 1) true true ind p s eq_refl Hf) as [(v & ind' & tr & Hr)|q];
            [| |right; exact q] end.
        + intros d Hd. apply H. constructor. exact Hd.
        + left. do 3 eexists. apply reads_lines_rule. exact Hr.
      - destruct index as [i|]; [|left; do 3 eexists; apply reads_node_unresolved].
        destruct (nth_error refs i) as [r|] eqn:Hr.
        2: { apply nth_error_None in Hr. simpl in Hv. unfold refs in Hr. lia. }
        destruct (H _ (needs_node E refs name property i id r ind p s Hr)) as [(v & ind' & tr & H1)|q]; [|right; exact q].
        left. destruct v as [k' out|]; do 3 eexists; [eapply reads_node|eapply reads_node_no]; eassumption.
      - destruct (H _ (needs_optional E refs r id ind p s)) as [(v & ind' & tr & H1)|q]; [|right; exact q].
        left. destruct v as [k' out|]; do 3 eexists; [eapply reads_optional|eapply reads_optional_none]; exact H1.
      - destruct (H _ (needs_not E refs r id ind p s)) as [(v & ind' & tr & H1)|q]; [|right; exact q].
        left. destruct v as [k' out|]; do 3 eexists; [eapply reads_not_no|eapply reads_not]; exact H1.
    Qed.
  End Local.

  (** *** There are finitely many calls for a text *)

  Lemma sub_rules r : exists l, forall x, occurs_in x r -> In x l.
  Proof.
    induction r as [r IH] using rule_ind'.
    assert (Hl : forall cs, (forall c, In c cs -> In c (children r)) ->
      exists l, forall c x, In c cs -> occurs_in x c -> In x l).
    { induction cs as [|c cs IHcs]; intros Hcs.
      - exists []. intros c x [].
      - destruct (IHcs (fun d Hd => Hcs d (or_intror Hd))) as (l & Hl).
        destruct (IH c (Hcs c (or_introl eq_refl))) as (l' & Hl').
        exists (l' ++ l). intros d x [<-|Hd] Hx; apply in_or_app; [left; apply Hl'; exact Hx|right].
        eapply Hl; eassumption. }
    destruct (Hl (children r)) as (l & Hin); [auto|]. exists (r :: l). intros x Hx.
    destruct Hx as [|r c Hc Hx]; [left; reflexivity|right; eapply Hin; eassumption].
  Qed.

  Lemma all_sub_rules : exists l, forall x, occurs syn x -> In x l.
  Proof.
    unfold occurs. induction (s_rules syn) as [|r rules (l & IH)].
    - exists []. intros x (top & [] & _).
    - destruct (sub_rules r) as (l' & Hl'). exists (l' ++ l). intros x (top & [<-|Ht] & Hx).
      + apply in_or_app. left. apply Hl'. exact Hx.
      + apply in_or_app. right. apply IH. eauto.
  Qed.

  Variable text : str.
  Variable ind0 : indent.
  Hypothesis Hfit : columns_fit ind0 text.

  Definition at_text (c : call) : Prop :=
    let '(r, ind, p, s) := c in
    occurs syn r /\ grows ind0 ind /\ p <= length text /\ s = skipn p text.

  Lemma finitely_many : exists l, forall c, at_text c -> In c l.
  Proof.
    destruct all_sub_rules as (rules & Hrules).
    set (bound := N.max (i_indent ind0) u32_max).
    exists (flat_map (fun r => flat_map (fun i => map (fun p => (r, set_indent ind0 (N.of_nat i), p, skipn p text))
        (seq 0 (S (length text)))) (seq 0 (S (N.to_nat bound)))) rules).
    intros [[[r ind] p] s] (Ho & (Ha & Ht & Hi) & Hp & ->).
    apply in_flat_map. exists r. split; [apply Hrules; exact Ho|].
    apply in_flat_map. exists (N.to_nat (i_indent ind)). split; [apply in_seq; fold bound in Hi; lia|].
    apply in_map_iff. exists p. split; [|apply in_seq; lia].
    rewrite N2Nat.id. destruct ind as [i a t]. cbn in *. subst. unfold set_indent. reflexivity.
  Qed.

  Lemma fit_at ind p : grows ind0 ind -> columns_fit ind (skipn p text).
  Proof.
    intros (_ & Ht & _). eapply columns_fit_tabs; [exact Ht|]. apply columns_fit_skip. exact Hfit.
  Qed.

  Definition place (ind : indent) (p : nat) (s : str) : Prop :=
    grows ind0 ind /\ p <= length text /\ s = skipn p text.

  Lemma place_on r ind p s n out ind' tr : place ind p s ->
    reads E refs r ind p s (Yes n out) ind' tr -> place ind' (p + n) (skipn n s).
  Proof.
    intros (Hg & Hp & ->) H. pose proof (reads_le E HE _ _ _ _ _ _ _ _ _ H) as Hn.
    rewrite skipn_length in Hn. split; [eapply grows_trans; [exact Hg|eapply reads_grows; exact H]|].
    split; [lia|]. rewrite skipn_skipn_add. reflexivity.
  Qed.

  Lemma place_no r ind p s ind' tr : place ind p s ->
    reads E refs r ind p s No ind' tr -> place ind' p s.
  Proof.
    intros (Hg & Hp & Hs) H. split; [eapply grows_trans; [exact Hg|eapply reads_grows; exact H]|auto].
  Qed.

  Lemma at_place r ind p s : occurs syn r -> place ind p s -> at_text (r, ind, p, s).
  Proof. intros Ho (H1 & H2 & H3). repeat split; try assumption; apply H1. Qed.

  Lemma order_at args ind p s d : comes_in_order E refs args ind p s d ->
    (forall r, In r args -> occurs syn r) -> place ind p s -> at_text d.
  Proof.
    induction 1 as [r rest ind p s|r rest ind p s n out ind' tr c H _ IH]; intros Ho Hp.
    - apply at_place; [apply Ho; left; reflexivity|exact Hp].
    - apply IH; [intros; apply Ho; right; assumption|]. eapply place_on; eassumption.
  Qed.

  Lemma turn_at args ind p s d : comes_in_turn E refs args ind p s d ->
    (forall r, In r args -> occurs syn r) -> place ind p s -> at_text d.
  Proof.
    induction 1 as [r rest ind p s|r rest ind p s ind' tr c H _ IH]; intros Ho Hp.
    - apply at_place; [apply Ho; left; reflexivity|exact Hp].
    - apply IH; [intros; apply Ho; right; assumption|]. eapply place_no; eassumption.
  Qed.

  Lemma place_skip ind ind' p s k : place ind p s -> k <= length s -> grows ind ind' ->
    place ind' (p + k) (skipn k s).
  Proof.
    intros (Hg & Hp & ->) Hk Hi. rewrite skipn_length in Hk.
    split; [eapply grows_trans; eassumption|]. split; [lia|]. rewrite skipn_skipn_add. reflexivity.
  Qed.

  Lemma lines_at r indented fresh nl ind p s d : comes_by_lines E refs r indented fresh nl ind p s d ->
    occurs syn r -> place ind p s -> at_text d.
  Proof.
    intros H Ho.
    induction H as [fresh nl ind p s k c Hw Hk Hl|fresh nl ind p s k n out fresh' ind' tr nl' c Hw Hk Hr Hnl _ IH];
      intros Hp; pose proof (line_start_le _ _ _ Hk) as Hkl;
      pose proof (place_skip ind ind p s k Hp Hkl (grows_refl ind)) as Hp'.
    - destruct (on_line_cases _ _ _ _ _ _ _ (let '(conj Hg (conj _ Hs)) := Hp' in
        eq_ind_r (columns_fit ind) (fit_at ind (p + k) Hg) Hs) Hl) as (j & ind' & Hj & -> & Hg).
      apply at_place; [exact Ho|]. eapply place_skip; eassumption.
    - apply IH. eapply place_skip; [exact Hp'|eapply line_le; exact Hr|eapply line_grows; exact Hr].
  Qed.

  Lemma needs_at c d : needs c d -> at_text c -> at_text d.
  Proof.
    intros H.
    assert (Hin : forall r ind p s, c = (r, ind, p, s) -> at_text c -> occurs syn r /\ place ind p s).
    { intros r ind p s -> (H1 & H2 & H3 & H4). unfold place. auto. }
    assert (Hch : forall r x, occurs syn r -> In x (children r) -> occurs syn x)
      by (intros; eapply occurs_child; eassumption).
    destruct H; intros Hc; destruct (Hin _ _ _ _ eq_refl Hc) as [Ho Hp].
    - eapply order_at; [eassumption| |exact Hp]. intros r Hr. eapply Hch; [exact Ho|exact Hr].
    - eapply turn_at; [eassumption| |exact Hp]. intros r Hr. eapply Hch; [exact Ho|exact Hr].
    - apply at_place; [|exact Hp]. eapply Hch; [exact Ho|]. apply in_or_app. right. left. reflexivity.
    - apply at_place; [|exact Hp]. eapply Hch; [exact Ho|]. eapply nth_error_In. eassumption.
    - apply at_place; [|eapply place_no; eassumption]. eapply Hch; [exact Ho|].
      apply in_or_app. right. left. reflexivity.
    - apply at_place; [|exact Hp]. eapply Hch; [exact Ho|]. left. reflexivity.
    - apply at_place; [exact Ho|]. eapply place_on; eassumption.
    - apply at_place; [|exact Hp]. eapply Hch; [exact Ho|]. left. reflexivity.
    - apply at_place; [|eapply place_on; eassumption]. eapply Hch; [exact Ho|]. right. left. reflexivity.
    - apply at_place; [exact Ho|]. eapply place_on; [eapply place_on; eassumption|eassumption].
    - eapply lines_at; [eassumption| |exact Hp]. eapply Hch; [exact Ho|]. left. reflexivity.
    - apply at_place; [|exact Hp]. apply occurs_top. eapply nth_error_In. eassumption.
    - apply at_place; [|exact Hp]. eapply Hch; [exact Ho|]. left. reflexivity.
    - apply at_place; [|exact Hp]. eapply Hch; [exact Ho|]. left. reflexivity.
  Qed.

  Lemma comes_on c d e : comes_to c d -> needs d e -> comes_to c e.
  Proof.
    induction 1 as [c d H|c d f H _ IH]; intros He.
    - eapply comes_later; [exact H|]. apply comes_now. exact He.
    - eapply comes_later; [exact H|]. apply IH. exact He.
  Qed.

  Lemma follow all (Hall : forall c, at_text c -> In c all) n : forall seen c, length all - length seen <= n ->
    at_text c -> In c seen -> NoDup seen -> (forall d, In d seen -> at_text d) ->
    (forall d, In d seen -> d = c \/ comes_to d c) ->
    returns c \/ circular E refs c.
  Proof.
    induction n as [|n IH]; intros seen c Hn Hc Hin Hnd Hat Hseen;
      destruct c as [[[r ind] p] s];
      pose proof Hc as (Ho & Hg & Hp & Hs);
      (apply call_local; [exact Ho|subst s; apply fit_at; exact Hg|]);
      intros d Hd; (destruct (in_dec call_eq_dec d seen) as [Hs'|Hs'];
        [right; exists d; split; [right; apply comes_now; exact Hd|];
         destruct (Hseen d Hs') as [->|Hdc]; [apply comes_now; exact Hd|];
         eapply comes_on; eassumption|]);
      assert (Hda : at_text d) by (eapply needs_at; eassumption).
    - exfalso. assert (Hl : length (d :: seen) <= length all).
      { apply NoDup_incl_length; [constructor; assumption|]. intros x [<-|Hx]; apply Hall; auto. }
      simpl in Hl. lia.
    - destruct (IH (d :: seen) d) as [Hr|(e & He & Hee)].
      + simpl. lia.
      + exact Hda.
      + left. reflexivity.
      + constructor; assumption.
      + intros x [<-|Hx]; auto.
      + intros x [<-|Hx]; [left; reflexivity|right]. destruct (Hseen x Hx) as [->|Hxc].
        * apply comes_now. exact Hd.
        * eapply comes_on; eassumption.
      + left. exact Hr.
      + right. exists e. split; [|exact Hee]. right. destruct He as [->|He].
        * apply comes_now. exact Hd.
        * eapply comes_later; eassumption.
  Qed.

  Theorem returns_or_circular r : occurs syn r -> returns (r, ind0, 0, text) \/ circular E refs (r, ind0, 0, text).
  Proof.
    intros Ho. destruct finitely_many as (all & Hall).
    assert (Hc : at_text (r, ind0, 0, text)).
    { apply at_place; [exact Ho|]. split; [apply grows_refl|]. split; [lia|reflexivity]. }
    apply (follow all Hall (length all) [(r, ind0, 0, text)]); try assumption.
    - lia.
    - left. reflexivity.
    - constructor; [intros []|constructor].
    - intros d [<-|[]]. exact Hc.
    - intros d [<-|[]]. left. reflexivity.
  Qed.
End Forth.

(** ** Texts *)

Section Texts.
  Variable E : ext.
  Hypothesis HE : ext_ok E.
  Variable s : syntax.
  Hypothesis Hvalid : valid s.

  Lemma text_returns_or_circular text tokens ind : columns_fit ind text ->
    (exists result tokens', parse_returns E s text tokens ind result tokens') \/
    circular_text E s ind text.
  Proof.
    intros Hf. destruct (s_rules s) as [|r0 rules] eqn:Hs.
    - left. exists (Some (Rng 0 0, NoRules)), tokens, 0. unfold parse_with_indent. rewrite Hs. reflexivity.
    - assert (Hr : exists r, start_rule s r).
      { destruct (exists_last (l := r0 :: rules)) as (init & r & He); [discriminate|].
        exists r, init. rewrite Hs. exact He. }
      destruct Hr as (r & Hr).
      destruct (returns_or_circular E HE s Hvalid text ind Hf r) as [(v & ind' & tr & H)|Hc].
      + destruct Hr as (init & Hr). apply occurs_top. rewrite Hr. apply in_or_app. right. left. reflexivity.
      + left. destruct (parse_done E s text tokens ind r _ _ _ Hr H) as (fuel & res & tokens' & Hp).
        exists res, tokens', fuel. exact Hp.
      + right. exists r. split; assumption.
  Qed.

  Lemma circular_not_returns text tokens ind result tokens' : circular_text E s ind text ->
    ~ parse_returns E s text tokens ind result tokens'.
  Proof.
    intros (r & (rules & Hr) & Hc) H.
    destruct (proj2 (count_exists E s text tokens ind)) as (m & Hm); [eauto|].
    apply count_tree in Hm. inversion Hm as [Hn|r' n (rules' & Hr') Ht]; subst.
    - rewrite Hn in Hr. destruct rules; discriminate.
    - rewrite Hr in Hr'. apply app_inj_tail in Hr' as [_ <-].
      eapply circular_no_tree; eassumption.
  Qed.

  Theorem diverges_iff_circular text tokens ind : columns_fit ind text ->
    (parse_diverges E s text tokens ind <-> circular_text E s ind text).
  Proof.
    intros Hf. split.
    - intros H. destruct (text_returns_or_circular text tokens ind Hf) as [(res & tokens' & f & Hr)|Hc]; [|exact Hc].
      rewrite H in Hr. discriminate.
    - intros Hc fuel. destruct (parse_with_indent E fuel s text tokens ind) as [[res tokens']| |] eqn:Hp; [| |reflexivity].
      + exfalso. eapply circular_not_returns; [exact Hc|]. exists fuel. exact Hp.
      + exfalso. eapply (parse_safe E s Hvalid text tokens ind Hf). exists fuel. exact Hp.
  Qed.

  Theorem returns_iff_not_circular text tokens ind : columns_fit ind text ->
    ((exists result tokens', parse_returns E s text tokens ind result tokens') <->
     ~ circular_text E s ind text).
  Proof.
    intros Hf. split.
    - intros (res & tokens' & H) Hc. eapply circular_not_returns; eassumption.
    - intros H. destruct (text_returns_or_circular text tokens ind Hf) as [Hr|Hc]; [exact Hr|contradiction].
  Qed.
End Texts.
