(** Reading texts that differ in their line breaks: characters and lines. *)
From Coq Require Import List NArith Bool Arith Lia.
From Verif Require Import Base Ext Types PegSpec PrimProofs PegFacts DataSpec BreakSpec.
Import ListNotations.

Lemma sb_sym s s' : same_breaks s s' -> same_breaks s' s.
Proof. induction 1; constructor; assumption. Qed.

Lemma sb_refl s : same_breaks s s.
Proof. induction s; constructor; assumption. Qed.

Lemma sb_app a a' b b' : same_breaks a a' -> same_breaks b b' -> same_breaks (a ++ b) (a' ++ b').
Proof. induction 1; intros H'; cbn [app]; [exact H'|constructor; auto..]. Qed.

Lemma sb_plain s s' : same_breaks s s' -> ~ In newline s -> s' = s.
Proof.
  induction 1; intros Hn; [reflexivity| | |].
  - f_equal. apply IHsame_breaks. intros H0. apply Hn. right. exact H0.
  - exfalso. apply Hn. left. reflexivity.
  - exfalso. apply Hn. right. left. reflexivity.
Qed.

Lemma white_newline : white newline.
Proof. apply white_spec. reflexivity. Qed.

Lemma white_carriage : white carriage.
Proof. apply white_spec. reflexivity. Qed.

(** ** Longest prefixes *)

(** Both parts of a line break are read, or none. *)
Lemma longest_breaks P s s' : (P newline <-> P carriage) -> same_breaks s s' ->
  forall n, longest P s n ->
  exists n', longest P s' n' /\ same_breaks (firstn n s) (firstn n' s') /\
    same_breaks (skipn n s) (skipn n' s') /\ (0 < n <-> 0 < n').
Proof.
  intros HP H. induction H as [|c s s' H IH|s s' H IH|s s' H IH]; intros n Hn.
  - apply longest_nil in Hn. subst. exists 0. split; [apply longest_nil; reflexivity|].
    cbn. split; [constructor|]. split; [constructor|lia].
  - destruct n as [|n].
    + apply longest_0 in Hn. exists 0. split; [apply longest_0; exact Hn|]. cbn.
      split; [constructor|]. split; [constructor; exact H|lia].
    + apply longest_S in Hn as [Hc Hn]. destruct (IH _ Hn) as (n' & H1 & H2 & H3 & _).
      exists (S n'). split; [apply longest_S; auto|]. cbn. split; [constructor; exact H2|].
      split; [exact H3|lia].
  - destruct n as [|n].
    + apply longest_0 in Hn. exists 0. split; [apply longest_0; tauto|]. cbn.
      split; [constructor|]. split; [constructor; exact H|lia].
    + apply longest_S in Hn as [Hc Hn]. destruct (IH _ Hn) as (n' & H1 & H2 & H3 & _).
      exists (S (S n')). split; [rewrite !longest_S; tauto|]. cbn. split; [constructor; exact H2|].
      split; [exact H3|lia].
  - destruct n as [|n].
    + apply longest_0 in Hn. exists 0. split; [apply longest_0; tauto|]. cbn.
      split; [constructor|]. split; [constructor; exact H|lia].
    + apply longest_S in Hn as [Hc Hn]. destruct n as [|n]; [apply longest_0 in Hn; tauto|].
      apply longest_S in Hn as [_ Hn]. destruct (IH _ Hn) as (n' & H1 & H2 & H3 & _).
      exists (S n'). split; [apply longest_S; tauto|]. cbn. split; [constructor; exact H2|].
      split; [exact H3|lia].
Qed.

(** Only the line feed stops. *)
Lemma longest_feed P s s' : ~ P newline -> P carriage -> same_breaks s s' ->
  forall n, longest P s n ->
  exists n', longest P s' n' /\ same_breaks (skipn n s) (skipn n' s').
Proof.
  intros Hnl Hcr H. induction H as [|c s s' H IH|s s' H IH|s s' H IH]; intros n Hn.
  - apply longest_nil in Hn. subst. exists 0. split; [apply longest_nil; reflexivity|constructor].
  - destruct n as [|n].
    + apply longest_0 in Hn. exists 0. split; [apply longest_0; exact Hn|]. constructor; exact H.
    + apply longest_S in Hn as [Hc Hn]. destruct (IH _ Hn) as (n' & H1 & H2).
      exists (S n'). split; [apply longest_S; auto|exact H2].
  - destruct n as [|n]; [|apply longest_S in Hn; tauto]. exists 1.
    split; [apply longest_S; split; [exact Hcr|]; apply longest_0; exact Hnl|].
    constructor. exact H.
  - destruct n as [|n]; [apply longest_0 in Hn; tauto|]. apply longest_S in Hn as [_ Hn].
    destruct n as [|n]; [|apply longest_S in Hn; tauto]. exists 0.
    split; [apply longest_0; exact Hnl|]. constructor. exact H.
Qed.

(** Neither part is read: the same characters. *)
Lemma longest_none P s s' : ~ P newline -> ~ P carriage -> same_breaks s s' ->
  forall n, longest P s n ->
  longest P s' n /\ firstn n s' = firstn n s /\ same_breaks (skipn n s) (skipn n s').
Proof.
  intros Hnl Hcr H. induction H as [|c s s' H IH|s s' H IH|s s' H IH]; intros n Hn.
  - apply longest_nil in Hn. subst. split; [apply longest_nil; reflexivity|]. split; [reflexivity|constructor].
  - destruct n as [|n].
    + apply longest_0 in Hn. split; [apply longest_0; exact Hn|]. split; [reflexivity|]. constructor; exact H.
    + apply longest_S in Hn as [Hc Hn]. destruct (IH _ Hn) as (H1 & H2 & H3).
      split; [apply longest_S; auto|]. cbn. rewrite H2. auto.
  - destruct n as [|n]; [|apply longest_S in Hn; tauto].
    split; [apply longest_0; exact Hcr|]. split; [reflexivity|]. constructor. exact H.
  - destruct n as [|n]; [|apply longest_S in Hn; tauto].
    split; [apply longest_0; exact Hnl|]. split; [reflexivity|]. constructor. exact H.
Qed.

(** ** Tokens *)

Lemma starts_breaks t : ~ In newline t -> ~ In carriage t ->
  forall s s', same_breaks s s' -> starts_with s t ->
  starts_with s' t /\ same_breaks (skipn (length t) s) (skipn (length t) s').
Proof.
  induction t as [|c t IH]; intros Hnl Hcr s s' H (rest & Hs).
  - split; [exists s'; reflexivity|exact H].
  - cbn [app] in Hs. subst s. inversion H; subst.
    + match goal with H0 : same_breaks (t ++ rest) ?x |- _ =>
        destruct (IH ltac:(intros ?; apply Hnl; right; assumption)
          ltac:(intros ?; apply Hcr; right; assumption) (t ++ rest) x H0
          ltac:(exists rest; reflexivity)) as [(r' & ->) Hr] end.
      split; [exists r'; reflexivity|exact Hr].
    + exfalso. apply Hnl. left. reflexivity.
    + exfalso. apply Hcr. left. reflexivity.
Qed.

(** ** Lines *)

Lemma all_white_breaks s s' : same_breaks s s' -> Forall white s -> Forall white s'.
Proof.
  induction 1; intros Hw; [constructor| | |].
  - inversion Hw; subst. constructor; auto.
  - inversion Hw; subst. constructor; [exact white_carriage|]. constructor; auto.
  - inversion Hw as [|x y _ Hw1]; subst. inversion Hw1; subst. constructor; auto.
Qed.

Lemma newline_breaks s s' : same_breaks s s' -> In newline s -> In newline s'.
Proof.
  induction 1 as [|c s s' _ IH|s s' _ IH|s s' _ IH]; intros Hi.
  - exact Hi.
  - destruct Hi as [->|Hi]; [left; reflexivity|right; auto].
  - right. left. reflexivity.
  - left. reflexivity.
Qed.

Lemma same_line_breaks s s' : same_breaks s s' -> same_line s -> same_line s'.
Proof.
  intros H (w & Hw & Hn).
  destruct (longest_breaks white s s' ltac:(split; intros; [exact white_carriage|exact white_newline])
    H w Hw) as (w' & Hw' & Hf & _).
  exists w'. split; [exact Hw'|]. intros Hi. apply Hn. eapply newline_breaks; [|exact Hi].
  apply sb_sym. exact Hf.
Qed.

(** Behind the last line break. *)
Lemma last_break_breaks u u' : same_breaks u u' ->
  forall a b, u = a ++ newline :: b -> ~ In newline b ->
  exists a', u' = a' ++ newline :: b.
Proof.
  induction 1 as [|c u u' H IH|u u' H IH|u u' H IH]; intros a b Hu Hb.
  - destruct a; discriminate.
  - destruct a as [|x a]; cbn [app] in Hu; injection Hu as -> Hu.
    + subst. apply sb_plain in H; [|exact Hb]. subst. exists []. reflexivity.
    + destruct (IH a b Hu Hb) as (a' & ->). exists (x :: a'). reflexivity.
  - destruct a as [|x a]; cbn [app] in Hu.
    + injection Hu as ->. apply sb_plain in H; [|exact Hb]. subst. exists [carriage]. reflexivity.
    + injection Hu as <- Hu. destruct (IH a b Hu Hb) as (a' & ->).
      exists (carriage :: newline :: a'). reflexivity.
  - destruct a as [|x [|y a]]; cbn [app] in Hu.
    + discriminate.
    + injection Hu as _ ->. apply sb_plain in H; [|exact Hb]. subst. exists []. reflexivity.
    + injection Hu as _ <- Hu. destruct (IH a b Hu Hb) as (a' & ->). exists (newline :: a'). reflexivity.
Qed.

Lemma line_start_breaks nl s s' k : same_breaks s s' -> line_start nl s k ->
  exists k', line_start nl s' k' /\ same_breaks (skipn k s) (skipn k' s').
Proof.
  intros H Hl. destruct Hl as [a b w Hw Hf Hb|Hnl Hs].
  - destruct (longest_breaks white s s' ltac:(split; intros; [exact white_carriage|exact white_newline])
      H w Hw) as (w' & Hw' & Hff & Hss & _).
    rewrite Hf in Hff. destruct (last_break_breaks _ _ Hff a b eq_refl Hb) as (a' & Ha').
    exists (length a' + 1). split; [econstructor; eassumption|].
    rewrite <- (firstn_skipn w s), <- (firstn_skipn w' s'), Hf, Ha'.
    assert (Hsk : forall x y (z : str), skipn (length x + 1) ((x ++ newline :: y) ++ z) = y ++ z).
    { intros x y z. rewrite <- app_assoc, Nat.add_1_r.
      replace (S (length x)) with (length (x ++ [newline])) by (rewrite app_length; cbn; lia).
      change (newline :: y) with ([newline] ++ y). rewrite <- app_assoc, app_assoc.
      rewrite skipn_app, Nat.sub_diag, skipn_all. reflexivity. }
    rewrite !Hsk. apply sb_app; [apply sb_refl|exact Hss].
  - exists 0. split; [|exact H]. apply line_start_here; [exact Hnl|].
    eapply same_line_breaks; eassumption.
Qed.

(** Whether the white space at the end contains a line break. *)
Definition no_carriage (s : str) : str := filter (fun c => negb (N.eqb c carriage)) s.

Lemma no_carriage_breaks s s' : same_breaks s s' -> no_carriage s = no_carriage s'.
Proof.
  unfold no_carriage. induction 1 as [|c s s' _ IH|s s' _ IH|s s' _ IH]; [reflexivity| | |].
  - cbn [filter]. rewrite IH. reflexivity.
  - cbn. rewrite IH. reflexivity.
  - cbn. rewrite IH. reflexivity.
Qed.

Lemma no_carriage_app a b : no_carriage (a ++ b) = no_carriage a ++ no_carriage b.
Proof. apply filter_app. Qed.

Lemma no_carriage_white b : Forall white b <-> Forall white (no_carriage b).
Proof.
  split; intros H.
  - apply Forall_forall. intros c Hc. apply filter_In in Hc as [Hc _].
    rewrite Forall_forall in H. auto.
  - apply Forall_forall. intros c Hc. destruct (N.eqb_spec c carriage) as [->|Hn].
    + exact white_carriage.
    + rewrite Forall_forall in H. apply H. apply filter_In. split; [exact Hc|].
      apply negb_true_iff, N.eqb_neq. exact Hn.
Qed.

Lemma ends_line_carriage s : ends_line s <-> ends_line (no_carriage s).
Proof.
  split.
  - intros (a & b & -> & Hw). rewrite no_carriage_app.
    exists (no_carriage a), (no_carriage b). split; [reflexivity|]. apply (no_carriage_white b). exact Hw.
  - induction s as [|c s IH]; intros (a & b & Hs & Hw); [destruct a; discriminate|].
    unfold no_carriage in Hs. cbn [filter] in Hs. destruct (N.eqb_spec c carriage) as [->|Hn]; cbn [negb] in Hs.
    + destruct IH as (a' & b' & -> & Hw'); [exists a, b; auto|]. exists (carriage :: a'), b'. auto.
    + destruct a as [|x a]; cbn [app] in Hs; injection Hs as -> Hs.
      * subst b. exists [], s. split; [reflexivity|]. apply (no_carriage_white s). exact Hw.
      * destruct IH as (a' & b' & -> & Hw'); [exists a, b; auto|]. exists (x :: a'), b'. auto.
Qed.

Lemma ends_line_breaks s s' n n' : same_breaks s s' -> same_breaks (skipn n s) (skipn n' s') ->
  ends_line (firstn n s) <-> ends_line (firstn n' s').
Proof.
  intros H Hs. rewrite (ends_line_carriage (firstn n s)), (ends_line_carriage (firstn n' s')).
  apply no_carriage_breaks in H, Hs.
  rewrite <- (firstn_skipn n s), <- (firstn_skipn n' s'), !no_carriage_app, Hs in H.
  apply app_inv_tail in H. rewrite H. reflexivity.
Qed.

(** ** Indentation *)

Lemma indentation_breaks tabs n s k : indentation tabs n s k ->
  forall s', same_breaks s s' -> indentation tabs n s' k /\ same_breaks (skipn k s) (skipn k s').
Proof.
  induction 1 as [s|n s k Hn Hi IH|n s k Hn Hi IH|n s Hn]; intros s' H.
  - split; [constructor|exact H].
  - inversion H; subst. destruct (IH _ H3) as [H4 H5]. split; [constructor; assumption|exact H5].
  - inversion H; subst. destruct (IH _ H3) as [H4 H5]. split; [constructor; assumption|exact H5].
  - inversion H; subst. split; [constructor; assumption|assumption].
Qed.

Lemma blank_breaks : ~ blank newline /\ ~ blank carriage.
Proof. split; intros H; apply blank_spec in H; discriminate. Qed.
