(** Lines: C14, C15. *)
From Coq Require Import List NArith Bool Arith Lia.
From Verif Require Import Base Ext Types ParseModel PegSpec PrimProofs PegProofs PegComplete
  FuelProofs PegFacts RuleSpec RuleProofs.
Import ListNotations.

Lemma white_newline : white newline.
Proof. reflexivity. Qed.

Lemma longest_app P a b : Forall P a -> forall n, longest P b n -> longest P (a ++ b) (length a + n).
Proof.
  intros Ha n Hb. induction Ha as [|c a Hc Ha IH]; simpl; [exact Hb|].
  apply longest_S. auto.
Qed.

Lemma longest_split P s n : longest P s n ->
  s = firstn n s ++ skipn n s /\ Forall P (firstn n s) /\ longest P (skipn n s) 0 /\
  length (firstn n s) = n.
Proof.
  intros (H1 & H2 & H3). split; [symmetry; apply firstn_skipn|]. split; [exact H2|]. split.
  - split; [lia|]. split; [constructor|]. intros c Hc. apply H3.
    rewrite <- Hc. rewrite <- (firstn_skipn n s) at 1.
    rewrite nth_error_app2 by (rewrite firstn_length; lia).
    rewrite firstn_length. f_equal. lia.
  - rewrite firstn_length. lia.
Qed.

Lemma longest_of_app P a b : Forall P a -> longest P b 0 -> longest P (a ++ b) (length a).
Proof. intros Ha Hb. rewrite <- (Nat.add_0_r (length a)). apply longest_app; assumption. Qed.

Lemma same_line_exists s : exists w, longest white s w.
Proof. exists (span_len is_ws s). apply longest_span. reflexivity. Qed.

(** The gap in front of the next line. *)
Lemma gap_line_start prev nl s k :
  (nl = true <-> forall x, prev = Some x -> ends_line x) ->
  ~ Forall white s -> line_start nl s k ->
  gap_ok prev (firstn k s) (skipn k s) /\ length (firstn k s) = k.
Proof.
  intros Hnl Hs Hk. destruct Hk as [a b w Hw Hf Hb|Hn Hl].
  - destruct (longest_split _ _ _ Hw) as (He & Hwh & H0 & Hlen).
    rewrite Hf in Hwh. apply Forall_app in Hwh as (Ha & Hnb). inversion Hnb; subst.
    assert (Hsplit : s = (a ++ [newline]) ++ (b ++ skipn w s)).
    { rewrite He at 1. rewrite Hf. rewrite <- !app_assoc. reflexivity. }
    assert (Hf1 : firstn (length a + 1) s = a ++ [newline]).
    { rewrite Hsplit, firstn_app. rewrite app_length. simpl length.
      rewrite Nat.sub_diag, firstn_all2 by (rewrite app_length; simpl; lia).
      simpl. apply app_nil_r. }
    assert (Hf2 : skipn (length a + 1) s = b ++ skipn w s).
    { rewrite Hsplit at 1. rewrite skipn_app. rewrite app_length. simpl length.
      rewrite Nat.sub_diag, skipn_all2 by (rewrite app_length; simpl; lia). reflexivity. }
    rewrite Hf1, Hf2. split; [|rewrite app_length; reflexivity].
    apply gap_break; [assumption| |].
    + exists (length b). split; [apply longest_of_app; assumption|].
      rewrite firstn_app, Nat.sub_diag, firstn_all. simpl. rewrite app_nil_r. exact Hb.
    + intros Hall. apply Hs. rewrite Hsplit. apply Forall_app. split; [|exact Hall].
      apply Forall_app. auto.
  - simpl. split; [|reflexivity]. apply gap_none; try assumption. apply Hnl. exact Hn.
Qed.

Lemma line_start_gap prev nl gap rest :
  (nl = true <-> forall x, prev = Some x -> ends_line x) ->
  gap_ok prev gap rest ->
  ~ Forall white (gap ++ rest) /\ line_start nl (gap ++ rest) (length gap).
Proof.
  intros Hnl H. destruct H as [g rest Hg (w & Hw & Hl) Hr|rest Hp Hl Hr].
  - split.
    + intros Hall. apply Forall_app in Hall as [_ Hall]. auto.
    + rewrite app_length. simpl length.
      destruct (longest_split _ _ _ Hw) as (He & Hwh & H0 & Hlen).
      eapply (line_start_break nl _ g (firstn w rest) (length g + S w)).
      * rewrite <- app_assoc. apply longest_app; [exact Hg|]. simpl. apply longest_S.
        split; [exact white_newline|exact Hw].
      * rewrite <- app_assoc. rewrite firstn_app_2. reflexivity.
      * exact Hl.
  - split; [exact Hr|]. simpl. apply line_start_here; [|exact Hl]. apply Hnl. exact Hp.
Qed.

Section Lines.
  Variable E : ext.
  Hypothesis HE : ext_ok E.
  Variable refs : list rule.
  Variable r : rule.

  Definition line (indented : bool) : indent * bool -> nat -> str -> verdict -> indent * bool -> Prop :=
    if indented then indented_line (runs E refs r) else plain_line (runs E refs r).

  Lemma line_spec indented ind fresh p s v fresh' ind' :
    (exists tr, reads_line E refs r indented fresh ind p s v fresh' ind' tr) <->
    line indented (ind, fresh) p s v (ind', fresh').
  Proof.
    split.
    - intros (tr & H). inversion H; subst; simpl.
      + split; [apply runs_reads; eauto|reflexivity].
      + constructor. assumption.
      + eapply indented_deep; eassumption.
      + eapply indented_exact; try eassumption; [lia|]. apply runs_reads. eauto.
      + eapply indented_first; try eassumption; try reflexivity; [lia|].
        apply runs_reads. rewrite <- skipn_add. eauto.
    - destruct indented; simpl.
      + intros H. inversion H; subst.
        * eexists. apply reads_line_short. assumption.
        * eexists. eapply reads_line_deep; eassumption.
        * match goal with H : runs _ _ _ _ _ _ _ _ |- _ => apply runs_reads in H as (tr & H) end.
          exists tr. eapply reads_line_exact; try eassumption. lia.
        * match goal with H : runs _ _ _ _ _ _ _ _ |- _ => apply runs_reads in H as (tr & H) end.
          rewrite <- skipn_add in *.
          exists tr. eapply reads_line_align; try eassumption; try reflexivity. lia.
      + intros (H & Hf). simpl in *. subst. apply runs_reads in H as (tr & H). exists tr.
        constructor. exact H.
  Qed.

  Lemma runs_le ind p s n out ind' : runs E refs r ind p s (Yes n out) ind' -> n <= length s.
  Proof. rewrite runs_reads. intros (tr & H). eapply reads_le; eassumption. Qed.

  Lemma indentation_le tabs n s k : indentation tabs n s k -> k <= length s.
  Proof. induction 1; simpl; lia. Qed.

  Lemma line_le indented st p s n out st' :
    line indented st p s (Yes n out) st' -> n <= length s.
  Proof.
    destruct indented; simpl.
    - intros H. inversion H; subst.
      + match goal with H : after _ _ ?v = _ |- _ => destruct v; [|discriminate]; injection H as <- <- end.
        match goal with H : runs _ _ _ _ _ _ _ _ |- _ => apply runs_le in H; rewrite skipn_length in H end.
        match goal with H : indentation _ _ _ _ |- _ => apply indentation_le in H end. lia.
      + match goal with H : after _ _ ?v = _ |- _ => destruct v; [|discriminate]; injection H as <- <- end.
        match goal with H : runs _ _ _ _ _ _ _ _ |- _ => apply runs_le in H; rewrite skipn_length in H end.
        match goal with H : indentation _ _ _ _ |- _ => apply indentation_le in H end.
        match goal with H : longest _ _ _ |- _ => apply longest_le in H; rewrite skipn_length in H end.
        lia.
    - intros (H & _). eapply runs_le. exact H.
  Qed.

  Lemma block_sound indented id fresh nl ind p s v ind' tr prev :
    reads_lines E refs r indented id fresh nl ind p s v ind' tr ->
    (nl = true <-> forall x, prev = Some x -> ends_line x) ->
    exists items fresh', block (line indented) prev (ind, fresh) p s items v (ind', fresh').
  Proof.
    intros H. remember r as r' eqn:Hr in H. revert prev. induction H; subst; intros prev Hnl.
    - exists [], fresh. constructor. assumption.
    - exists [], fresh. destruct prev as [x|].
      + apply block_glued; try assumption. intros He.
        assert (false = true); [|discriminate]. apply Hnl. intros x' [= <-]. exact He.
      + assert (false = true); [|discriminate]. apply Hnl. discriminate.
    - destruct (gap_line_start _ _ _ _ Hnl H H0) as (Hg & Hl).
      exists [], fresh'. rewrite <- (firstn_skipn k s) at 1.
      replace (Yes k []) with (Yes (length (firstn k s)) []) by (rewrite Hl; reflexivity).
      apply block_stop; [exact Hg|]. rewrite Hl. apply line_spec. eauto.
    - destruct (gap_line_start _ _ _ _ Hnl H H0) as (Hg & Hl).
      assert (Hline : line indented (ind, fresh) (p + k) (skipn k s) (Yes n out) (ind1, fresh'))
        by (apply line_spec; eauto).
      pose proof (line_le _ _ _ _ _ _ _ Hline) as Hn.
      assert (Hitem : length (firstn n (skipn k s)) = n) by (rewrite firstn_length; lia).
      destruct (IHreads_lines eq_refl (Some (firstn n (skipn k s)))) as (items & fresh2 & Hb).
      { rewrite H2. split; [intros He x [= <-]; exact He|intros He; apply He; reflexivity]. }
      exists ((firstn k s, firstn n (skipn k s)) :: items), fresh2.
      rewrite <- (firstn_skipn k s) at 1. rewrite <- (firstn_skipn n (skipn k s)) at 1.
      replace (after (k + n) out v) with
        (after (length (firstn k s) + length (firstn n (skipn k s))) out v)
        by (rewrite Hl, Hitem; reflexivity).
      eapply block_item.
      + rewrite firstn_skipn. exact Hg.
      + rewrite firstn_skipn, Hl, Hitem. exact Hline.
      + rewrite Hl, Hitem. exact Hb.
  Qed.

  Lemma ends_line_dec s : {ends_line s} + {~ ends_line s}.
  Proof.
    destruct (ends_with_newline s) eqn:He; [left|right].
    - apply ends_with_newline_spec. exact He.
    - rewrite <- ends_with_newline_spec. congruence.
  Qed.

  Lemma block_complete indented id nl ind fresh p s items v ind' fresh' prev :
    block (line indented) prev (ind, fresh) p s items v (ind', fresh') ->
    (nl = true <-> forall x, prev = Some x -> ends_line x) ->
    exists tr, reads_lines E refs r indented id fresh nl ind p s v ind' tr.
  Proof.
    intros H. remember (ind, fresh) as st eqn:Hst. remember (ind', fresh') as st' eqn:Hst'.
    revert nl ind fresh Hst.
    induction H as [prev st p s Hw|prev st p gap rest st1 Hg Hl|x st p s Hx Hs Hw
                   |prev st p gap item rest out st1 items v st2 Hg Hl Hb IH];
      intros nl ind fresh Hst Hnl.
    - assert (He : (ind, fresh) = (ind', fresh')) by congruence. injection He as -> ->. exists []. constructor. exact Hw.
    - subst st1 st. destruct (line_start_gap _ _ _ _ Hnl Hg) as (Hw & Hk).
      apply line_spec in Hl as (tr & Hl). exists tr.
      eapply (reads_lines_stop E refs r indented id fresh nl ind p (gap ++ rest) (length gap));
        try eassumption.
      rewrite skipn_app, skipn_all, Nat.sub_diag. simpl. exact Hl.
    - assert (He : (ind, fresh) = (ind', fresh')) by congruence. injection He as -> ->. eexists.
      destruct nl; [exfalso; apply Hx; apply Hnl; reflexivity|].
      apply reads_lines_missing; assumption.
    - destruct (line_start_gap _ _ _ _ Hnl Hg) as (Hw & Hk).
      subst st. destruct st1 as [ind1 fresh1].
      destruct (IH Hst' (if ends_line_dec item then true else false) ind1 fresh1 eq_refl)
        as (tr2 & Htr2).
      { destruct (ends_line_dec item); split; try discriminate.
        - intros _ x [= <-]. assumption.
        - reflexivity.
        - intros Hx. exfalso. apply n. apply Hx. reflexivity. }
      apply line_spec in Hl as (tr & Hl). exists (tr ++ tr2).
      assert (Hsk : skipn (length gap) (gap ++ item ++ rest) = item ++ rest).
      { rewrite skipn_app, skipn_all, Nat.sub_diag. reflexivity. }
      assert (Hfi : firstn (length item) (item ++ rest) = item).
      { rewrite firstn_app, firstn_all, Nat.sub_diag. simpl. apply app_nil_r. }
      assert (Hsi : skipn (length item) (item ++ rest) = rest).
      { rewrite skipn_app, skipn_all, Nat.sub_diag. reflexivity. }
      eapply (reads_lines_item E refs r indented id fresh nl ind p (gap ++ item ++ rest)
        (length gap) (length item) out fresh1 ind1 tr
        (if ends_line_dec item then true else false)); try assumption.
      + rewrite Hsk. exact Hl.
      + rewrite Hsk, Hfi. destruct (ends_line_dec item); split; intros; try assumption;
          try reflexivity; try discriminate; contradiction.
      + rewrite Hsk, Hsi. exact Htr2.
  Qed.

  Lemma lines_spec indented id ind p s v ind' :
    runs E refs (RLines r indented id) ind p s v ind' <->
    exists items fresh', block (line indented) None (ind, true) p s items v (ind', fresh').
  Proof.
    rewrite runs_reads. split.
    - intros (tr & H). inversion H; subst.
      eapply block_sound; [eassumption|]. split; [discriminate|reflexivity].
    - intros (items & fresh' & H). apply (block_complete _ id true) in H as (tr & H).
      + exists tr. constructor. exact H.
      + split; [discriminate|reflexivity].
  Qed.
End Lines.

Lemma last_default {A} (l : list A) d d' : l <> [] -> last l d = last l d'.
Proof.
  induction l as [|x l IH]; [congruence|]. intros _. destruct l as [|y l]; [reflexivity|].
  change (last (y :: l) d = last (y :: l) d'). apply IH. discriminate.
Qed.

(** The pieces of a block. *)
Section Blocks.
  Context {St : Type}.
  Variable line : St -> nat -> str -> verdict -> St -> Prop.

  Lemma gap_ok_white prev gap rest : gap_ok prev gap rest -> Forall white gap.
  Proof.
    intros [g rest' Hg _ _|]; [|constructor]. apply Forall_app. split; [exact Hg|].
    constructor; [exact white_newline|constructor].
  Qed.

  Lemma gap_ok_break prev gap rest : gap_ok prev gap rest ->
    forall x, prev = Some x -> ends_line (x ++ gap).
  Proof.
    intros [g rest' Hg _ _|rest' H _ _] x Hx.
    - exists (x ++ g), []. rewrite app_assoc. auto.
    - rewrite app_nil_r. auto.
  Qed.

  Lemma block_pieces prev st p s items v st' :
    block line prev st p s items v st' ->
    broken prev items /\
    match v with
    | Yes n out => exists gap rest, s = joined items ++ gap ++ rest /\ Forall white gap /\
        n = length (joined items ++ gap) /\
        (rest = [] \/ (~ Forall white rest /\ exists st1, line st1 (p + n) rest No st'))
    | No => exists x rest, s = joined items ++ rest /\
        last (map (fun i => Some (snd i)) items) prev = Some x /\
        ~ ends_line x /\ same_line rest /\ ~ Forall white rest
    end.
  Proof.
    induction 1 as [prev st p s Hw|prev st p gap rest st1 Hg Hl|x st p s Hx Hs Hw
                   |prev st p gap item rest out st1 items v st2 Hg Hl Hb (IH1 & IH2)].
    - split; [constructor|]. exists s, []. simpl. rewrite app_nil_r. auto.
    - split; [constructor|]. exists gap, rest. simpl.
      split; [reflexivity|]. split; [eapply gap_ok_white; exact Hg|]. split; [reflexivity|].
      right. split; [destruct Hg; assumption|]. eauto.
    - split; [constructor|]. exists x, s. auto.
    - split.
      + constructor; [eapply gap_ok_white; exact Hg|eapply gap_ok_break; exact Hg|exact IH1].
      + destruct v as [n out'|]; simpl.
        * destruct IH2 as (g & rest' & -> & Hw & -> & Hr).
          exists g, rest'. rewrite <- !app_assoc. split; [reflexivity|]. split; [exact Hw|].
          split; [rewrite !app_length; lia|]. destruct Hr as [Hr|(Hr & st3 & Hr')]; [auto|].
          right. split; [exact Hr|]. exists st3.
          match type of Hr' with line _ ?q _ _ _ => match goal with |- line _ ?q' _ _ _ =>
            replace q' with q by (rewrite ?app_length; lia) end end.
          exact Hr'.
        * destruct IH2 as (x & rest' & -> & Hlast & H). exists x, rest'.
          rewrite <- !app_assoc. split; [reflexivity|]. split; [|exact H].
          destruct items as [|i items]; [exact Hlast|].
          rewrite <- Hlast. refine (last_default (map _ (i :: items)) prev (Some item) _).
          discriminate.
  Qed.
End Blocks.

(** ** Columns *)

Lemma indentation_spaces tabs n s k :
  indentation tabs n s k -> ~ In tab s ->
  k = N.to_nat n /\ exists y, s = repeat space k ++ y.
Proof.
  induction 1 as [s|n s k Hn H IH|n s k Hn H IH|n s Hn]; intros Ht.
  - split; [reflexivity|]. exists s. reflexivity.
  - destruct IH as (-> & y & ->); [intros Hi; apply Ht; right; exact Hi|].
    split; [lia|]. exists y. reflexivity.
  - exfalso. apply Ht. left. reflexivity.
  - exfalso. apply Ht. left. reflexivity.
Qed.

Lemma blanks_spaces b s : longest blank s b -> ~ In tab s ->
  firstn b s = repeat space b /\ hd_error (skipn b s) <> Some space.
Proof.
  revert b. induction s as [|c s IH]; intros b Hb Ht.
  - apply longest_nil in Hb. subst. split; [reflexivity|discriminate].
  - destruct b as [|b].
    + apply longest_0 in Hb. split; [reflexivity|]. intros [= ->]. apply Hb. left. reflexivity.
    + apply longest_S in Hb as [Hc Hb].
      apply IH in Hb as (H1 & H2); [|intros Hi; apply Ht; right; exact Hi].
      destruct Hc as [-> | ->]; [|exfalso; apply Ht; left; reflexivity].
      simpl. rewrite H1. auto.
Qed.

Lemma width_spaces tabs b : width tabs (repeat space b) = N.of_nat b.
Proof.
  induction b as [|b IH]; [reflexivity|]. simpl repeat. cbn [width]. rewrite IH.
  change (N.eqb space tab) with false. cbn iota. lia.
Qed.

Lemma repeat_firstn {A} (x : A) n k : firstn n (repeat x k) = repeat x (min n k).
Proof. revert k. induction n; intros [|k]; simpl; congruence. Qed.

Lemma firstn_split {A} (l : list A) k y n : l = k ++ y -> length k <= n ->
  firstn n l = k ++ firstn (n - length k) y.
Proof.
  intros -> H. rewrite firstn_app. rewrite firstn_all2 by exact H. reflexivity.
Qed.

Lemma hd_firstn {A} (l : list A) n x : hd_error (firstn n l) = Some x -> hd_error l = Some x.
Proof. destruct n, l; simpl; congruence. Qed.

(** Reading changes neither the tab width nor the wish to align. *)
Definition same_mode (a b : indent) : Prop :=
  i_tab_spaces b = i_tab_spaces a /\ i_align_first b = i_align_first a.

Section Mode.
  Variable E : ext.
  Variable refs : list rule.

  Lemma reads_mode_all :
    (forall r ind p s v ind' tr, reads E refs r ind p s v ind' tr -> same_mode ind ind') /\
    (forall args ind p s v ind' tr, reads_seq E refs args ind p s v ind' tr -> same_mode ind ind') /\
    (forall args ind p s v ind' tr,
      reads_first E refs args ind p s v ind' tr -> same_mode ind ind') /\
    (forall r ind p s k n out ind' tr,
      reads_many E refs r ind p s k n out ind' tr -> same_mode ind ind') /\
    (forall r by_ trail ind p s v ind' tr,
      reads_more E refs r by_ trail ind p s v ind' tr -> same_mode ind ind') /\
    (forall r indented id fresh nl ind p s v ind' tr,
      reads_lines E refs r indented id fresh nl ind p s v ind' tr -> same_mode ind ind') /\
    (forall r indented fresh ind p s v fresh' ind' tr,
      reads_line E refs r indented fresh ind p s v fresh' ind' tr -> same_mode ind ind').
  Proof.
    apply reads_mutind; unfold same_mode; simpl; intros; auto; intuition congruence.
  Qed.

  Lemma runs_mode r ind p s v ind' : runs E refs r ind p s v ind' -> same_mode ind ind'.
  Proof. rewrite runs_reads. intros (tr & H). exact (proj1 reads_mode_all _ _ _ _ _ _ _ H). Qed.
End Mode.

Section Columns.
  Variable E : ext.
  Hypothesis HE : ext_ok E.
  Variable refs : list rule.
  Variable r : rule.
  Variable ind0 : indent.

  (** The settings when the block has its column. *)
  Definition settled (c : N) (st : indent * bool) : Prop :=
    same_mode ind0 (fst st) /\ i_indent (fst st) = c /\ snd st && i_align_first ind0 = false.

  Lemma set_indent_mode a b n : same_mode a b -> same_mode a (set_indent b n).
  Proof. intros [H1 H2]. split; assumption. Qed.

  Lemma settled_line c st p s v st' :
    settled c st -> ~ In tab s ->
    indented_line (runs E refs r) st p s v st' ->
    settled c st' /\
    (forall n out, v = Yes n out -> at_column c (firstn n s)).
  Proof.
    intros (Hm & Hc & Hf) Ht H. destruct H; simpl in *.
    - split; [split; auto|]. discriminate.
    - split; [split; auto|]. discriminate.
    - apply runs_mode in H3. split.
      + split; [|split; auto]. destruct Hm, H3. split; simpl in *; congruence.
      + intros n out Hv. destruct (indentation_spaces _ _ _ _ H0 Ht) as (-> & y & Hy).
        destruct v as [m out'|]; [|discriminate]. injection Hv as <- <-.
        rewrite Hc in *. exists (firstn m y). split.
        * rewrite (firstn_split _ _ _ _ Hy) by (rewrite repeat_length; lia).
          rewrite repeat_length. f_equal. f_equal. lia.
        * intros Hd. apply hd_firstn in Hd. apply H1. rewrite Hy, skipn_app, repeat_length.
          rewrite skipn_all2 by (rewrite repeat_length; lia). rewrite Nat.sub_diag. simpl.
          destruct y as [|x y]; [discriminate|]. injection Hd as ->. exists y. reflexivity.
    - exfalso. destruct Hm as [_ Hm]. simpl in *. congruence.
  Qed.

  Lemma first_line st p s v st' :
    same_mode ind0 (fst st) -> i_indent (fst st) = i_indent ind0 -> snd st = true ->
    i_align_first ind0 = true -> ~ In tab s ->
    indented_line (runs E refs r) st p s v st' ->
    (st' = st /\ v = No) \/
    exists c, (i_indent ind0 <= c)%N /\ settled c st' /\
      (forall n out, v = Yes n out -> at_column c (firstn n s)).
  Proof.
    intros Hm Hi Hfr Ha Ht H. destruct H; simpl in *; subst.
    - left. auto.
    - left. auto.
    - exfalso. destruct Hm as [_ Hm]. simpl in *. congruence.
    - right. destruct (indentation_spaces _ _ _ _ H0 Ht) as (-> & y & Hy).
      assert (Hsk : skipn (N.to_nat (i_indent ind)) s = y).
      { rewrite Hy, skipn_app, repeat_length.
        rewrite skipn_all2 by (rewrite repeat_length; lia). rewrite Nat.sub_diag. reflexivity. }
      rewrite Hsk in *.
      assert (Hty : ~ In tab y).
      { intros Hi'. apply Ht. rewrite Hy. apply in_or_app. right. exact Hi'. }
      destruct (blanks_spaces _ _ H1 Hty) as (Hb & Hd).
      rewrite Hb in *. rewrite width_spaces in *.
      exists (i_indent ind + N.of_nat b)%N. split; [lia|]. split.
      + split; [|split; auto]. simpl. apply runs_mode in H4. destruct Hm, H4.
        split; simpl in *; congruence.
      + intros n out Hv. destruct v as [m out'|]; [|discriminate]. injection Hv as <- <-.
        exists (firstn m (skipn b y)). split.
        * assert (Hs : s = repeat space (N.to_nat (i_indent ind + N.of_nat b)) ++ skipn b y).
          { rewrite Hy at 1. rewrite <- (firstn_skipn b y) at 1. rewrite Hb, app_assoc.
            rewrite <- repeat_app. f_equal. f_equal. lia. }
          rewrite (firstn_split _ _ _ _ Hs) by (rewrite repeat_length; lia).
          rewrite repeat_length. f_equal. f_equal. lia.
        * intros He. apply Hd. eapply hd_firstn. exact He.
  Qed.

  Lemma no_tab_app_r (a b : str) : ~ In tab (a ++ b) -> ~ In tab b.
  Proof. intros H Hi. apply H. apply in_or_app. right. exact Hi. Qed.

  Lemma block_settled c prev st p s items v st' :
    block (indented_line (runs E refs r)) prev st p s items v st' ->
    settled c st -> ~ In tab s ->
    Forall (at_column c) (map snd items) /\ settled c st'.
  Proof.
    induction 1; intros Hs Ht; simpl; try (split; [constructor|exact Hs]).
    - apply no_tab_app_r in Ht. split; [constructor|].
      exact (proj1 (settled_line _ _ _ _ _ _ Hs Ht H0)).
    - apply no_tab_app_r in Ht.
      destruct (settled_line _ _ _ _ _ _ Hs Ht H0) as (Hs' & Hc).
      destruct IHblock as [IH1 IH2]; [exact Hs'|eapply no_tab_app_r; exact Ht|].
      split; [|exact IH2]. constructor; [|exact IH1].
      specialize (Hc _ _ eq_refl). rewrite firstn_app, firstn_all, Nat.sub_diag in Hc.
      simpl in Hc. rewrite app_nil_r in Hc. exact Hc.
  Qed.

  Lemma block_columns p s items v st' :
    block (indented_line (runs E refs r)) None (ind0, true) p s items v st' ->
    ~ In tab s ->
    exists c, (i_indent ind0 <= c)%N /\ (i_align_first ind0 = false -> c = i_indent ind0) /\
      Forall (at_column c) (map snd items) /\
      (items <> [] -> i_indent (fst st') = c).
  Proof.
    intros H Ht. destruct (i_align_first ind0) eqn:Ha.
    - inversion H; subst.
      + exists (i_indent ind0). split; [lia|]. split; [discriminate|split; [constructor|contradiction]].
      + exists (i_indent ind0). split; [lia|]. split; [discriminate|split; [constructor|contradiction]].
      + apply no_tab_app_r in Ht.
        destruct (first_line (ind0, true) (p + length gap) (item ++ rest)
          (Yes (length item) out) st1) as [[_ Hv]|(c & Hc & Hs & Hcol)]; auto.
        * split; reflexivity.
        * discriminate.
        * exists c. split; [exact Hc|]. split; [discriminate|]. simpl.
          match goal with Hb : block _ (Some item) _ _ _ _ _ _ |- _ =>
            destruct (block_settled _ _ _ _ _ _ _ _ Hb Hs) as [HF Hst];
              [eapply no_tab_app_r; exact Ht|] end.
          split; [|intros _; exact (proj1 (proj2 Hst))]. constructor; [|exact HF].
          specialize (Hcol _ _ eq_refl). rewrite firstn_app, firstn_all, Nat.sub_diag in Hcol.
          simpl in Hcol. rewrite app_nil_r in Hcol. exact Hcol.
    - exists (i_indent ind0). split; [lia|]. split; [reflexivity|].
      destruct (block_settled (i_indent ind0) _ _ _ _ _ _ _ H) as [HF Hst]; [|exact Ht|].
      + split; [split; reflexivity|]. split; [reflexivity|]. rewrite Ha. reflexivity.
      + split; [exact HF|]. intros _. exact (proj1 (proj2 Hst)).
  Qed.
End Columns.
