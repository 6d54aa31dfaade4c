(** Lemmas relating the text primitives of the model to the words of [PegSpec]. *)
From Coq Require Import List NArith Bool Arith Lia.
From Verif Require Import Base Ext Types ParseModel PegSpec.
Import ListNotations.

(** ** Longest prefixes *)

Lemma span_len_le f s : span_len f s <= length s.
Proof. induction s as [|c s IH]; simpl; [lia|]. destruct (f c); lia. Qed.

Lemma longest_nil P n : longest P [] n <-> n = 0.
Proof.
  split.
  - intros (H & _). simpl in H. lia.
  - intros ->. split; [simpl; lia|]. split; [constructor|]. intros c Hc. discriminate.
Qed.

Lemma longest_0 P c s : longest P (c :: s) 0 <-> ~ P c.
Proof.
  split.
  - intros (_ & _ & H). apply H. reflexivity.
  - intros H. split; [lia|]. split; [constructor|]. simpl. intros c' [= <-]. exact H.
Qed.

Lemma longest_S P c s n : longest P (c :: s) (S n) <-> P c /\ longest P s n.
Proof.
  unfold longest. simpl. split.
  - intros (H1 & H2 & H3). inversion H2; subst. repeat split; try assumption; lia.
  - intros (Hc & H1 & H2 & H3). repeat split; try assumption; try lia.
    constructor; assumption.
Qed.

Lemma longest_span P f s :
  (forall c, f c = true <-> P c) -> longest P s (span_len f s).
Proof.
  intros Hf. induction s as [|c s IH]; simpl.
  - apply longest_nil. reflexivity.
  - destruct (f c) eqn:Hc.
    + apply longest_S. split; [apply Hf; exact Hc|exact IH].
    + apply longest_0. rewrite <- Hf. congruence.
Qed.

Lemma longest_unique P s n m : longest P s n -> longest P s m -> n = m.
Proof.
  revert n m. induction s as [|c s IH]; intros n m Hn Hm.
  - apply longest_nil in Hn, Hm. congruence.
  - destruct n as [|n], m as [|m]; [reflexivity| | |].
    + apply longest_0 in Hn. apply longest_S in Hm. tauto.
    + apply longest_0 in Hm. apply longest_S in Hn. tauto.
    + apply longest_S in Hn, Hm. f_equal. apply IH; tauto.
Qed.

Lemma longest_span_eq P f s n :
  (forall c, f c = true <-> P c) -> longest P s n -> n = span_len f s.
Proof.
  intros Hf H. eapply longest_unique; [exact H|]. apply longest_span. exact Hf.
Qed.

Lemma longest_ext P Q s n : (forall c, P c <-> Q c) -> longest P s n -> longest Q s n.
Proof.
  intros H (H1 & H2 & H3). split; [exact H1|]. split.
  - eapply Forall_impl; [|exact H2]. intros c. apply H.
  - intros c Hc HQ. apply (H3 c Hc). apply H. exact HQ.
Qed.

Lemma longest_le P s n : longest P s n -> n <= length s.
Proof. intros (H & _). exact H. Qed.

(** ** Characters *)

Lemma mem_char_spec c any : mem_char c any = true <-> In c any.
Proof.
  unfold mem_char. rewrite existsb_exists. split.
  - intros (x & Hx & He). apply N.eqb_eq in He. subst. exact Hx.
  - intros H. exists c. split; [exact H|]. apply N.eqb_refl.
Qed.

Lemma white_spec c : is_ws c = true <-> white c.
Proof. reflexivity. Qed.

Lemma until_spec any c : negb (mem_char c any) = true <-> ~ In c any.
Proof. rewrite negb_true_iff, <- mem_char_spec. destruct (mem_char c any); intuition congruence. Qed.

Lemma until_ws_spec any c :
  negb (is_ws c) && negb (mem_char c any) = true <-> ~ white c /\ ~ In c any.
Proof.
  rewrite andb_true_iff, until_spec, negb_true_iff. unfold white.
  destruct (is_ws c); intuition congruence.
Qed.

Lemma white_dec c : {white c} + {~ white c}.
Proof. unfold white. destruct (is_ws c); [left|right]; congruence. Qed.

Lemma forall_white_dec s : {Forall white s} + {~ Forall white s}.
Proof. apply Forall_dec. exact white_dec. Qed.

Lemma all_white s : span_len is_ws s = length s <-> Forall white s.
Proof.
  induction s as [|c s IH]; simpl.
  - split; [constructor|reflexivity].
  - destruct (is_ws c) eqn:Hc.
    + split.
      * intros [= H]. constructor; [exact Hc|]. apply IH. exact H.
      * intros H. inversion H; subst. f_equal. apply IH. assumption.
    + split; [discriminate|]. intros H. inversion H; subst. unfold white in *. congruence.
Qed.

(** ** Prefixes *)

Lemma is_prefix_spec p s : is_prefix p s = true <-> starts_with s p.
Proof.
  revert s. induction p as [|a p IH]; intros s; simpl.
  - split; [intros _; exists s; reflexivity|reflexivity].
  - destruct s as [|b s].
    + split; [discriminate|]. intros (rest & H). discriminate.
    + rewrite andb_true_iff, N.eqb_eq, IH. split.
      * intros (-> & rest & ->). exists rest. reflexivity.
      * intros (rest & [= -> ->]). split; [reflexivity|]. exists rest. reflexivity.
Qed.

Lemma is_prefix_false p s : is_prefix p s = false <-> ~ starts_with s p.
Proof. rewrite <- is_prefix_spec. destruct (is_prefix p s); intuition congruence. Qed.

Lemma starts_with_le s p : starts_with s p -> length p <= length s.
Proof. intros (rest & ->). rewrite app_length. lia. Qed.

Lemma starts_with_firstn s p : starts_with s p -> firstn (length p) s = p.
Proof.
  intros (rest & ->). rewrite firstn_app, Nat.sub_diag, firstn_all. simpl.
  apply app_nil_r.
Qed.

(** ** Lines *)

Lemma after_last_newline_spec s :
  match after_last_newline s with
  | Some k => exists a b, s = a ++ newline :: b /\ ~ In newline b /\ k = length a + 1
  | None => ~ In newline s
  end.
Proof.
  induction s as [|c s IH]; simpl; [auto|].
  destruct (after_last_newline s) as [k|].
  - destruct IH as (a & b & -> & Hb & ->). exists (c :: a), b. repeat split; auto.
  - destruct (N.eqb_spec c newline) as [->|Hc].
    + exists [], s. repeat split; auto.
    + intros [H|H]; auto.
Qed.

Lemma app_newline_inj a b a' b' :
  a ++ newline :: b = a' ++ newline :: b' -> ~ In newline b -> ~ In newline b' -> a = a'.
Proof.
  revert a'. induction a as [|x a IH]; intros [|x' a'] H Hb Hb'; simpl in *.
  - reflexivity.
  - injection H as <- ->. exfalso. apply Hb. apply in_or_app. right. left. reflexivity.
  - injection H as -> <-. exfalso. apply Hb'. apply in_or_app. right. left. reflexivity.
  - injection H as <- H. f_equal. eapply IH; eassumption.
Qed.

Lemma line_start_unique nl s k k' : line_start nl s k -> line_start nl s k' -> k = k'.
Proof.
  intros [a b w Hw Hf Hb|Hnl (w & Hw & Hs)] [a' b' w' Hw' Hf' Hb'|Hnl' (w' & Hw' & Hs')].
  - assert (w = w') by (eapply longest_unique; eassumption). subst.
    rewrite Hf in Hf'. f_equal. f_equal. eapply app_newline_inj; eassumption.
  - assert (w = w') by (eapply longest_unique; eassumption). subst.
    exfalso. apply Hs'. rewrite Hf. apply in_or_app. right. left. reflexivity.
  - assert (w = w') by (eapply longest_unique; eassumption). subst.
    exfalso. apply Hs. rewrite Hf'. apply in_or_app. right. left. reflexivity.
  - reflexivity.
Qed.

(** What the model computes for the start of the next line. *)
Lemma line_start_model nl s :
  match after_last_newline (firstn (span_len is_ws s) s) with
  | Some k => line_start nl s k
  | None => same_line s
  end.
Proof.
  pose proof (after_last_newline_spec (firstn (span_len is_ws s) s)) as H.
  assert (Hw : longest white s (span_len is_ws s)) by (apply longest_span; apply white_spec).
  destruct (after_last_newline _) as [k|].
  - destruct H as (a & b & Hf & Hb & ->). eapply line_start_break; eassumption.
  - exists (span_len is_ws s). auto.
Qed.

Lemma line_start_same_line s k : line_start false s k -> ~ same_line s.
Proof.
  intros [a b w Hw Hf Hb|H]; [|discriminate].
  intros (w' & Hw' & Hs). assert (w = w') by (eapply longest_unique; eassumption). subst.
  apply Hs. rewrite Hf. apply in_or_app. right. left. reflexivity.
Qed.

Lemma line_start_le nl s k : line_start nl s k -> k <= length s.
Proof.
  intros [a b w Hw Hf Hb|H]; [|lia].
  assert (length (firstn w s) <= length s) by (rewrite firstn_length; lia).
  rewrite Hf, app_length in H. simpl in H. lia.
Qed.

Lemma existsb_newline l : existsb (N.eqb newline) l = true <-> In newline l.
Proof.
  rewrite existsb_exists. split.
  - intros (x & Hx & He). apply N.eqb_eq in He. subst. exact Hx.
  - intros H. exists newline. split; [exact H|]. apply N.eqb_refl.
Qed.

Lemma ends_with_newline_spec s : ends_with_newline s = true <-> ends_line s.
Proof.
  unfold ends_with_newline. rewrite existsb_newline.
  assert (Hw : longest white (rev s) (span_len is_ws (rev s)))
    by (apply longest_span; apply white_spec).
  set (w := span_len is_ws (rev s)) in *. split.
  - intros H. apply in_split in H as (a & b & H).
    exists (rev (skipn w (rev s)) ++ rev b), (rev a).
    assert (He : s = rev (firstn w (rev s) ++ skipn w (rev s)))
      by (rewrite firstn_skipn, rev_involutive; reflexivity).
    split.
    + rewrite He at 1. rewrite H. rewrite !rev_app_distr. simpl. rewrite <- !app_assoc.
      reflexivity.
    + destruct Hw as (_ & Hw & _). rewrite H in Hw. apply Forall_app in Hw as [Hw _].
      apply Forall_rev. exact Hw.
  - intros (a & b & -> & Hb).
    assert (Hr : rev (a ++ newline :: b) = rev b ++ newline :: rev a).
    { rewrite rev_app_distr. simpl. rewrite <- app_assoc. reflexivity. }
    subst w. rewrite Hr in *.
    apply Forall_rev in Hb. revert Hb. clear. generalize (rev b) as l, (rev a) as m. clear.
    intros l m Hl. induction Hl as [|c l Hc Hl IH]; simpl.
    + left. reflexivity.
    + rewrite Hc. simpl. right. exact IH.
Qed.

(** ** Indentation *)

Lemma skip_indent_spec tabs n s k :
  skip_indent s n tabs = Some k <-> indentation tabs n s k.
Proof.
  split.
  - revert n k. induction s as [|c s IH]; intros n k; simpl.
    + destruct (N.eqb_spec n 0); [|discriminate]. intros [= <-]. subst. constructor.
    + destruct (N.eqb_spec n 0) as [->|Hn]; [intros [= <-]; constructor|].
      destruct (N.eqb_spec c space) as [->|Hs].
      * destruct (skip_indent s (n - 1) tabs) as [k'|] eqn:Hk; [|discriminate].
        intros [= <-]. apply indentation_space; [lia|]. apply IH. exact Hk.
      * destruct (N.eqb_spec c tab) as [->|Ht]; [|discriminate].
        destruct (N.leb_spec n tabs) as [Hle|Hlt].
        -- intros [= <-]. apply indentation_tab_last. lia.
        -- destruct (skip_indent s (n - tabs) tabs) as [k'|] eqn:Hk; [|discriminate].
           intros [= <-]. apply indentation_tab; [lia|]. apply IH. exact Hk.
  - induction 1 as [s|n s k Hn H IH|n s k Hn H IH|n s Hn].
    + destruct s; reflexivity.
    + cbn [skip_indent]. destruct (N.eqb_spec n 0); [lia|].
      rewrite N.eqb_refl, IH. reflexivity.
    + cbn [skip_indent]. destruct (N.eqb_spec n 0); [lia|].
      change (N.eqb tab space) with false. rewrite N.eqb_refl.
      destruct (N.leb_spec n tabs); [lia|]. rewrite IH. reflexivity.
    + cbn [skip_indent]. destruct (N.eqb_spec n 0); [lia|].
      change (N.eqb tab space) with false. rewrite N.eqb_refl.
      destruct (N.leb_spec n tabs); [reflexivity|lia].
Qed.

Lemma skip_indent_none tabs n s :
  skip_indent s n tabs = None <-> (forall k, ~ indentation tabs n s k).
Proof.
  split.
  - intros H k Hk. apply skip_indent_spec in Hk. congruence.
  - intros H. destruct (skip_indent s n tabs) as [k|] eqn:Hk; [|reflexivity].
    apply skip_indent_spec in Hk. exfalso. eapply H. exact Hk.
Qed.

Lemma skip_indent_le tabs n s k : skip_indent s n tabs = Some k -> k <= length s.
Proof.
  intros H. apply skip_indent_spec in H. induction H; simpl; lia.
Qed.

Definition blankb (c : char) : bool := N.eqb c space || N.eqb c tab.

Lemma blank_spec c : blankb c = true <-> blank c.
Proof. unfold blankb, blank. rewrite orb_true_iff, !N.eqb_eq. reflexivity. Qed.

(** Aligning either ends with the width of all blanks, or overflows. *)
Lemma align_indent_cases tabs s n :
  let b := span_len blankb s in
  let w := (n + width tabs (firstn b s))%N in
  align_indent s n tabs = Done (b, w) \/
  (align_indent s n tabs = Panic /\ (u32_max < w)%N).
Proof.
  revert n. induction s as [|c s IH]; intros n; cbn [align_indent span_len].
  - left. simpl. rewrite N.add_0_r. reflexivity.
  - destruct (N.eqb_spec c space) as [->|Hs].
    + change (blankb space) with true. cbn [firstn width]. change (N.eqb space tab) with false. cbv iota zeta. unfold add_u32.
      destruct (N.leb_spec (n + 1) u32_max) as [H|H].
      * destruct (IH (n + 1)%N) as [He|[He Hw]]; cbn [obind]; rewrite He.
        -- left. cbn [obind]. do 2 f_equal. lia.
        -- right. split; [reflexivity|]. lia.
      * right. split; [reflexivity|]. lia.
    + destruct (N.eqb_spec c tab) as [->|Ht].
      * change (blankb tab) with true. cbn [firstn width]. rewrite N.eqb_refl. cbv zeta. unfold add_u32.
        destruct (N.leb_spec (n + tabs) u32_max) as [H|H].
        -- destruct (IH (n + tabs)%N) as [He|[He Hw]]; cbn [obind]; rewrite He.
           ++ left. cbn [obind]. do 2 f_equal. lia.
           ++ right. split; [reflexivity|]. lia.
        -- right. split; [reflexivity|]. lia.
      * assert (Hb : blankb c = false)
          by (unfold blankb; apply N.eqb_neq in Hs, Ht; rewrite Hs, Ht; reflexivity).
        rewrite Hb. left. simpl. rewrite N.add_0_r. reflexivity.
Qed.
