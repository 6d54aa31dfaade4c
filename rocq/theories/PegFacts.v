(** Facts about derivations of [reads]: positions, nesting and origin of tokens. *)
From Coq Require Import List NArith Bool Arith Lia.
From Verif Require Import Base Ext Types PegSpec PrimProofs DataSpec.
Import ListNotations.

Lemma placed_le a b out : placed a b out -> a <= b.
Proof. induction 1; unfold next_offset in *; lia. Qed.

Lemma placed_weaken a a' b out : placed a b out -> a' <= a -> placed a' b out.
Proof. intros H Ha. destruct H; [apply placed_nil|apply placed_leaf|apply placed_node]; try assumption; lia. Qed.

Lemma placed_app a b c out out' :
  placed a b out -> placed b c out' -> placed a c (out ++ out').
Proof.
  intros H. revert c out'. induction H; intros c out' H'; simpl.
  - eapply placed_weaken; [exact H'|assumption].
  - constructor; auto.
  - rewrite <- app_assoc. simpl. apply placed_node; auto.
Qed.

Lemma placed_extend a b b' out : placed a b out -> b <= b' -> placed a b' out.
Proof.
  intros H Hb. rewrite <- (app_nil_r out). eapply placed_app; [exact H|]. constructor. exact Hb.
Qed.

Lemma placed_token p n property mk :
  (forall name, leaf (mk name)) -> placed p (p + n) (token property (Rng p n) mk).
Proof.
  intros Hl. destruct property; simpl; [|constructor; lia].
  constructor; [apply Hl|simpl; lia|]. constructor. unfold next_offset. simpl. lia.
Qed.

Lemma placed_token_0 p property mk :
  (forall name, leaf (mk name)) -> placed p (p + 0) (token property (Rng p 0) mk).
Proof. apply placed_token. Qed.

(** Failures between two positions. *)
Definition within (a b : nat) (e : perr) : Prop := a <= r_off (fst e) /\ next_offset (fst e) <= b.

Lemma within_weaken a a' b b' tr :
  Forall (within a b) tr -> a' <= a -> b <= b' -> Forall (within a' b') tr.
Proof. intros H Ha Hb. eapply Forall_impl; [|exact H]. unfold within. lia. Qed.

Definition fits (p : nat) (s : str) (v : verdict) (tr : list perr) : Prop :=
  match v with
  | Yes n out => n <= length s /\ placed p (p + n) out
  | No => True
  end /\ Forall (within p (p + length s)) tr.

Lemma fits_after p s n out v tr1 tr2 :
  fits p s (Yes n out) tr1 -> fits (p + n) (skipn n s) v tr2 ->
  fits p s (after n out v) (tr1 ++ tr2).
Proof.
  intros [[Hn Hp] Ht] [Hv Ht2]. rewrite skipn_length in *. split.
  - destruct v as [m out'|]; simpl; [|exact I]. destruct Hv as [Hm Hp']. split; [lia|].
    rewrite Nat.add_assoc. eapply placed_app; eassumption.
  - apply Forall_app. split; [exact Ht|]. eapply within_weaken; [exact Ht2|lia|lia].
Qed.

Lemma fits_skip p s k v tr :
  k <= length s -> fits (p + k) (skipn k s) v tr -> fits p s (after k [] v) tr.
Proof.
  intros Hk H. apply (fits_after p s k [] v [] tr); [|exact H].
  split; [|constructor]. split; [exact Hk|]. constructor. lia.
Qed.

Lemma fits_no p s r e : within p (p + length s) (r, e) -> fits p s No [(r, e)].
Proof. intros H. split; [exact I|]. constructor; [exact H|constructor]. Qed.

Lemma fits_no_app p s tr1 v tr2 :
  fits p s No tr1 -> fits p s v tr2 -> fits p s v (tr1 ++ tr2).
Proof.
  intros [_ H1] [Hv H2]. split; [exact Hv|]. apply Forall_app. auto.
Qed.

Lemma longest_firstn P s n : longest P s n -> Forall P (firstn n s).
Proof. intros (_ & H & _). exact H. Qed.

Section Facts.
  Variable E : ext.
  Hypothesis HE : ext_ok E.
  Variable refs : list rule.

  Lemma indentation_le tabs n s k : indentation tabs n s k -> k <= length s.
  Proof. induction 1; simpl; lia. Qed.

  Theorem reads_fits_all :
    (forall r ind p s v ind' tr, reads E refs r ind p s v ind' tr -> fits p s v tr) /\
    (forall args ind p s v ind' tr, reads_seq E refs args ind p s v ind' tr -> fits p s v tr) /\
    (forall args ind p s v ind' tr,
      reads_first E refs args ind p s v ind' tr -> fits p s v tr) /\
    (forall r ind p s k n out ind' tr,
      reads_many E refs r ind p s k n out ind' tr -> fits p s (Yes n out) tr) /\
    (forall r by_ trail ind p s v ind' tr,
      reads_more E refs r by_ trail ind p s v ind' tr -> fits p s v tr) /\
    (forall r indented id fresh nl ind p s v ind' tr,
      reads_lines E refs r indented id fresh nl ind p s v ind' tr -> fits p s v tr) /\
    (forall r indented fresh ind p s v fresh' ind' tr,
      reads_line E refs r indented fresh ind p s v fresh' ind' tr -> fits p s v tr).
  Proof.
    apply reads_mutind; intros;
      try (apply fits_no; unfold within, next_offset; simpl;
           repeat match goal with
           | H : starts_with _ _ |- _ => apply starts_with_le in H
           | H : longest _ _ _ |- _ => apply longest_le in H
           | H : x_string _ _ = Some _ |- _ => apply (x_string_bounds E HE) in H as [? _]
           | H : x_number _ _ _ = Some _ |- _ => apply (x_number_bounds E HE) in H
           end; lia);
      try assumption.
    - (* whitespace *) split; [|constructor]. split; [eapply longest_le; eassumption|].
      constructor. lia.
    - split; [|constructor]. split; [apply starts_with_le; assumption|].
      apply placed_token. intros; exact I.
    - split; [|constructor]. split; [lia|]. apply placed_token. intros; exact I.
    - split; [|constructor]. split; [eapply longest_le; eassumption|].
      apply placed_token. intros; exact I.
    - split; [|constructor]. split; [eapply longest_le; eassumption|].
      apply placed_token. intros; exact I.
    - split; [|constructor]. split; [|apply placed_token; intros; exact I].
      apply (x_string_bounds E HE) in H as [? _]. lia.
    - apply fits_no. unfold within, next_offset. simpl.
      apply (x_parse_string_bounds E HE) in H1. rewrite firstn_length in H1.
      unfold next_offset in H1. lia.
    - split; [|constructor]. split; [|apply placed_token; intros; exact I].
      apply (x_number_bounds E HE) in H. lia.
    - (* fast, then tail *) apply fits_no_app; assumption.
    - (* separate *) apply fits_after; assumption.
    - split; [|apply H0]. destruct optional; [|exact I]. split; [lia|]. constructor. lia.
    - (* node *) destruct H1 as [[Hn Hp] Ht]. split; [|exact Ht]. split; [exact Hn|].
      destruct property as [name'|]; simpl.
      + apply (placed_node p (p + n) p n); [lia|exact Hp|]. constructor. lia.
      + rewrite app_nil_r. exact Hp.
    - (* optional *) split; [|apply H0]. split; [lia|]. constructor. lia.
    - (* not *) split; [|constructor]. split; [lia|]. constructor. lia.
    - apply fits_no. destruct H0 as [[Hn _] _]. unfold within, next_offset. simpl. lia.
    - (* seq *) split; [|constructor]. split; [lia|]. constructor. lia.
    - apply fits_after; assumption.
    - (* first *) split; [exact I|constructor].
    - apply fits_no_app; assumption.
    - (* many *) split; [|apply H0]. split; [lia|]. constructor. lia.
    - apply (fits_after p s n out (Yes m out')); assumption.
    - (* more *) split; [|apply H0]. split; [lia|]. constructor. lia.
    - pose proof (fits_after p s n out No tr1 tr2 H0 H2) as H3.
      destruct H0 as [H0 _]. split; [|apply H3]. destruct trail; [exact H0|exact I].
    - apply fits_after; [assumption|]. apply fits_after; assumption.
    - (* lines *) split; [|constructor]. split; [lia|]. constructor. lia.
    - apply fits_no. pose proof (x_lines_err_bounds E HE s) as Hb.
      unfold within, next_offset in *. simpl. lia.
    - apply line_start_le in H0.
      pose proof (fits_skip p s k No tr H0 H2) as [_ Ht]. split; [|exact Ht].
      split; [exact H0|]. constructor. lia.
    - apply line_start_le in H0.
      pose proof (fits_skip p s k (Yes n out) tr1 H0 H2) as H6. simpl in H6.
      apply fits_after; [exact H6|]. rewrite <- Nat.add_assoc in H5.
      replace (skipn (k + n) s) with (skipn n (skipn k s)); [exact H5|].
      clear. revert s. induction k as [|k IH]; intros s; simpl; [reflexivity|].
      destruct s; [apply skipn_nil|]. apply IH.
    - (* line *) split; [exact I|constructor].
    - split; [exact I|constructor].
    - apply fits_skip; [eapply indentation_le; eassumption|assumption].
    - pose proof (indentation_le _ _ _ _ H) as Hk. pose proof (longest_le _ _ _ H1) as Hb.
      rewrite <- (app_nil_r (@nil tok)). 
      replace (after (k + b) ([] ++ []) v) with (after k [] (after b [] v))
        by (destruct v; simpl; rewrite ?Nat.add_assoc; reflexivity).
      apply fits_skip; [exact Hk|]. apply fits_skip; assumption.
  Qed.

  Theorem reads_fits r ind p s v ind' tr : reads E refs r ind p s v ind' tr -> fits p s v tr.
  Proof. apply reads_fits_all. Qed.

  Corollary reads_le r ind p s n out ind' tr :
    reads E refs r ind p s (Yes n out) ind' tr -> n <= length s.
  Proof. intros H. apply reads_fits in H as [[H _] _]. exact H. Qed.
End Facts.

(** ** Origin of tokens *)

Lemma occurs_in_trans a b c : occurs_in a b -> occurs_in b c -> occurs_in a c.
Proof.
  intros Hab Hbc. induction Hbc as [|c' d Hd _ IH]; [exact Hab|].
  eapply occurs_below; [exact Hd|exact IH].
Qed.

Lemma occurs_child s r c : occurs s r -> In c (children r) -> occurs s c.
Proof.
  intros (top & Ht & Ho) Hc. exists top. split; [exact Ht|].
  eapply occurs_in_trans; [|exact Ho]. eapply occurs_below; [exact Hc|constructor].
Qed.

Lemma occurs_top s r : In r (s_rules s) -> occurs s r.
Proof. intros H. exists r. split; [exact H|constructor]. Qed.

Lemma skipn_skipn_add {A} n m (l : list A) : skipn m (skipn n l) = skipn (n + m) l.
Proof.
  revert l. induction n as [|n IH]; intros l; simpl; [reflexivity|].
  destruct l; [apply skipn_nil|]. apply IH.
Qed.

Section Origin.
  Variable E : ext.
  Variable syn : syntax.
  Variable text : str.

  Definition made (v : verdict) : Prop :=
    match v with
    | Yes _ out => Forall (made_by E syn text) out
    | No => True
    end.

  Lemma made_after n out v : Forall (made_by E syn text) out -> made v -> made (after n out v).
  Proof. intros H Hv. destruct v; simpl; [|exact I]. apply Forall_app. auto. Qed.

  Lemma made_token property r mk :
    (forall name, property = Some name -> made_by E syn text (r, mk name)) ->
    Forall (made_by E syn text) (token property r mk).
  Proof. intros H. destruct property; simpl; constructor; auto. Qed.

  Theorem reads_made_all :
    (forall r ind p s v ind' tr, reads E (s_rules syn) r ind p s v ind' tr ->
      occurs syn r -> s = skipn p text -> made v) /\
    (forall args ind p s v ind' tr, reads_seq E (s_rules syn) args ind p s v ind' tr ->
      Forall (occurs syn) args -> s = skipn p text -> made v) /\
    (forall args ind p s v ind' tr, reads_first E (s_rules syn) args ind p s v ind' tr ->
      Forall (occurs syn) args -> s = skipn p text -> made v) /\
    (forall r ind p s k n out ind' tr, reads_many E (s_rules syn) r ind p s k n out ind' tr ->
      occurs syn r -> s = skipn p text -> made (Yes n out)) /\
    (forall r by_ trail ind p s v ind' tr,
      reads_more E (s_rules syn) r by_ trail ind p s v ind' tr ->
      occurs syn r -> occurs syn by_ -> s = skipn p text -> made v) /\
    (forall r indented id fresh nl ind p s v ind' tr,
      reads_lines E (s_rules syn) r indented id fresh nl ind p s v ind' tr ->
      occurs syn r -> s = skipn p text -> made v) /\
    (forall r indented fresh ind p s v fresh' ind' tr,
      reads_line E (s_rules syn) r indented fresh ind p s v fresh' ind' tr ->
      occurs syn r -> s = skipn p text -> made v).
  Proof.
    assert (Hsub : forall r args, occurs syn r -> children r = args -> Forall (occurs syn) args).
    { intros r args Ho <-. apply Forall_forall. intros c Hc. eapply occurs_child; eassumption. }
    apply reads_mutind; intros; try exact I; try (constructor; fail).
    - (* tag *) apply made_token. intros name ->. eapply made_by_tag; [eassumption|].
      unfold under. simpl. subst s. apply starts_with_firstn. assumption.
    - apply made_token. intros name ->. eapply made_by_not_tag; [eassumption|].
      unfold under. simpl. subst s. intros He. apply H. exists (skipn (length text0) (skipn p text)).
      rewrite <- He at 1. symmetry. apply firstn_skipn.
    - (* until *) apply made_token. intros name ->. subst s.
      apply (made_by_until E syn text any optional name id (Rng p n)); [assumption|].
      apply longest_firstn in H. rewrite Forall_forall in H. exact H.
    - apply made_token. intros name ->. subst s.
      apply (made_by_until_ws E syn text any optional name id (Rng p n)); [assumption|].
      apply longest_firstn in H. rewrite Forall_forall in H. intros c Hc. apply H in Hc as [Hw Hc].
      split; [|exact Hc]. unfold white in Hw. destruct (is_ws c); congruence.
    - (* text *) apply made_token. intros name ->. subst s. eapply made_by_text; eassumption.
    - (* number *) apply made_token. intros name ->. subst s. eapply made_by_number; eassumption.
    - (* sequence *) apply H0; [|assumption]. eapply Hsub; [eassumption|reflexivity].
    - apply H1; [|assumption]. eapply Hsub; [eassumption|reflexivity].
    - (* fast *) apply H1; [|assumption]. eapply occurs_child; [eassumption|]. simpl.
      apply in_or_app. right. left. reflexivity.
    - apply H3; [|assumption]. eapply occurs_child; [eassumption|]. simpl.
      eapply nth_error_In. eassumption.
    - apply H5; [|assumption]. eapply occurs_child; [eassumption|]. simpl.
      apply in_or_app. right. left. reflexivity.
    - (* repeat *) apply H0; [|assumption]. eapply occurs_child; [eassumption|]. left. reflexivity.
    - (* separate *)
      assert (Ho1 : occurs syn r)
        by (apply (occurs_child syn (RSeparateBy r by_ optional trail id)); simpl; auto).
      assert (Ho2 : occurs syn by_)
        by (apply (occurs_child syn (RSeparateBy r by_ optional trail id)); simpl; auto).
      subst s. apply made_after; [apply H0; auto|]. apply H2; auto. apply skipn_skipn_add.
    - destruct optional; constructor.
    - (* lines *) apply H0; [|assumption]. eapply occurs_child; [eassumption|]. left. reflexivity.
    - (* node *) assert (Ho : made (Yes n out)).
      { apply H1; [|assumption]. apply occurs_top. eapply nth_error_In. eassumption. }
      simpl. apply Forall_app. split.
      + apply made_token. intros q ->. eapply made_by_start. eassumption.
      + apply Forall_app. split; [exact Ho|].
        apply made_token. intros q ->. eapply made_by_end. eassumption.
    - (* optional *) apply H0; [|assumption]. eapply occurs_child; [eassumption|]. left. reflexivity.
    - (* seq *) inversion H3; subst. apply made_after; [apply H0; auto|]. apply H2; auto.
      apply skipn_skipn_add.
    - (* first *) inversion H1; subst. apply H0; auto.
    - inversion H3; subst. apply H2; auto.
    - (* many *) subst s. apply (made_after n out (Yes m out')); [apply H0; auto|].
      apply H2; auto. apply skipn_skipn_add.
    - (* more *) destruct trail; [|exact I]. apply H0; auto.
    - subst s. apply made_after; [apply H0; auto|]. apply made_after.
      + apply H2; auto. apply skipn_skipn_add.
      + apply H4; auto. rewrite !skipn_skipn_add. f_equal. lia.
    - (* lines *) subst s. apply made_after.
      + apply H2; auto. apply skipn_skipn_add.
      + apply H5; auto. rewrite !skipn_skipn_add. f_equal. lia.
    - (* line *) apply H0; auto.
    - subst s. apply made_after; [constructor|]. apply H4; auto. apply skipn_skipn_add.
    - subst s. apply made_after; [constructor|]. apply H5; auto. rewrite !skipn_skipn_add.
      f_equal. lia.
  Qed.
End Origin.
