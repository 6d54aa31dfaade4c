(** Counting calls: the outcome is that of parsing, and the count does not depend on fuel. *)
From Coq Require Import List NArith Bool Arith Lia.
From Verif Require Import Base Ext Types ParseModel CostModel.
Import ListNotations.

(** ** The outcome is that of parsing *)

Lemma cbind_snd {A B} (x : counted A) (k : A -> counted B) :
  snd (cbind x k) = obind (snd x) (fun a => snd (k a)).
Proof. destruct x as [n []]; reflexivity. Qed.

Lemma obind_ext {A B} (o : outcome A) (f g : A -> outcome B) :
  (forall a, f a = g a) -> obind o f = obind o g.
Proof. intros H. destruct o; simpl; auto. Qed.

(** The counted parser has the outcomes of the parser. *)
Definition same_p (p : counted_parser) (q : parser) : Prop :=
  forall toks st t ind, snd (p toks st t ind) = q toks st t ind.

Ltac follow := rewrite cbind_snd; cbn [free snd].

Lemma select_same P Q args id : (forall r, same_p (P r) (Q r)) ->
  forall toks st t ind oe,
    snd (select_cost P args id toks st t ind oe) = select_loop Q args id toks st t ind oe.
Proof.
  intros H. induction args as [|r args IH]; intros; simpl; [destruct oe; reflexivity|].
  follow. rewrite H. apply obind_ext. intros [[res toks'] ind']. destruct res; [reflexivity|apply IH].
Qed.

Lemma tail_same P Q args oe : (forall r, same_p (P r) (Q r)) ->
  same_p (tail_cost P args oe) (fast_tail Q args oe).
Proof.
  intros H toks st t ind. unfold tail_cost, fast_tail. destruct args; [reflexivity|].
  destruct (nth_error _ _); [|reflexivity]. follow. rewrite H. apply obind_ext.
  intros [[res toks'] ind']. destruct res; reflexivity.
Qed.

Lemma fast_same P Q table args tail id : (forall r, same_p (P r) (Q r)) ->
  same_p (fast_cost P table args tail id) (parse_fast_select Q table args tail id).
Proof.
  intros H toks st t ind. unfold fast_cost, parse_fast_select. destruct (src t); [reflexivity|].
  destruct (nth_error table _) as [i|]; [|reflexivity]. destruct (Nat.eqb i 255).
  - destruct tail; [apply tail_same; exact H|reflexivity].
  - destruct (nth_error args i); [|reflexivity]. follow. rewrite H. apply obind_ext.
    intros [[res toks'] ind']. destruct res; [reflexivity|].
    destruct tail; [apply tail_same; exact H|reflexivity].
Qed.

Lemma seq_same P Q args : (forall r, same_p (P r) (Q r)) ->
  forall start toks st t ind oe,
    snd (seq_cost P args start toks st t ind oe) = seq_loop Q args start toks st t ind oe.
Proof.
  intros H. induction args as [|r args IH]; intros; simpl; [reflexivity|].
  follow. rewrite H. apply obind_ext. intros [[res toks'] ind']. destruct res; [apply IH|reflexivity].
Qed.

Lemma repeat_same P Q optional : same_p P Q -> forall f start first toks st t ind oe,
  snd (repeat_cost f P optional start first toks st t ind oe) =
  repeat_loop f Q optional start first toks st t ind oe.
Proof.
  intros H f. induction f as [|f IH]; intros; [reflexivity|]. cbn [repeat_cost repeat_loop].
  follow. rewrite H. apply obind_ext. intros [[res toks'] ind']. destruct res; [apply IH|].
  destruct (_ && _); reflexivity.
Qed.

Lemma sep_same P Q P' Q' optional trail : same_p P P' -> same_p Q Q' ->
  forall f start first toks st t ind oe,
  snd (sep_cost f P Q optional trail start first toks st t ind oe) =
  sep_loop f P' Q' optional trail start first toks st t ind oe.
Proof.
  intros HP HQ f. induction f as [|f IH]; intros; [reflexivity|]. cbn [sep_cost sep_loop].
  follow. rewrite HP. apply obind_ext. intros [[res toks'] ind']. destruct res.
  - follow. rewrite HQ. apply obind_ext. intros [[res2 toks2] ind2]. destruct res2; [apply IH|reflexivity].
  - destruct first, optional, trail; reflexivity.
Qed.

Lemma item_same P Q o t first ls ind : same_p P Q ->
  snd (item_cost P o t first ls ind) = lines_item_indent Q o t first ls ind.
Proof.
  intros H. unfold item_cost, lines_item_indent. follow. apply obind_ext. intros n. follow.
  rewrite H. apply obind_ext. intros [[res toks'] ind']. destruct res; reflexivity.
Qed.

Lemma closure_same P Q (indented : bool) t ls : same_p P Q ->
  snd (closure_cost indented P t ls) =
  (if indented then lines_closure_indent Q else lines_closure_plain Q) t ls.
Proof.
  intros H. unfold closure_cost. destruct indented.
  - unfold lines_closure_indent. destruct (skip_indent _ _ _); [|reflexivity].
    destruct (_ && _).
    + follow. apply obind_ext. intros [k2 m]. apply item_same. exact H.
    + destruct (rt_tag _ _); [reflexivity|]. apply item_same. exact H.
  - unfold lines_closure_plain. follow. rewrite H. apply obind_ext.
    intros [[res toks'] ind']. destruct res; reflexivity.
Qed.

Lemma lines_same E c d : (forall t ls, snd (c t ls) = d t ls) ->
  forall f nl t ls, snd (lines_cost E c f nl t ls) = lines_loop E d f nl t ls.
Proof.
  intros H f. induction f as [|f IH]; intros nl t ls; [reflexivity|]. cbn [lines_cost lines_loop].
  destruct (Nat.eqb _ _); [reflexivity|].
  assert (Hgo : forall t1, snd
    (cbind (c t1 ls) (fun '(res, st1) =>
     match res with
     | None => free (Done (inl t1, st1))
     | Some r => lines_cost E c f (ends_with_newline (rt_raw_string t1 (r_len r)))
                   (rt_consume t1 (r_len r)) st1
     end)) =
    (do (res, st1) <- d t1 ls;
     match res with
     | None => Done (inl t1, st1)
     | Some r => lines_loop E d f (ends_with_newline (rt_raw_string t1 (r_len r)))
                   (rt_consume t1 (r_len r)) st1
     end)).
  { intros t1. follow. rewrite H. apply obind_ext. intros [[r|] st1]; [apply IH|reflexivity]. }
  destruct (after_last_newline _); [apply Hgo|]. destruct nl; [apply Hgo|reflexivity].
Qed.


Theorem rule_same E refs f : forall r, same_p (rule_cost E f refs r) (parse_rule E f refs r).
Proof.
  induction f as [|f IH]; intros r toks st t ind; [reflexivity|].
  destruct r; cbn [rule_cost parse_rule]; try reflexivity.
  - unfold parse_select. rewrite <- (select_same _ _ args id IH).
    destruct (select_cost _ _ _ _ _ _ _ _). reflexivity.
  - rewrite <- (fast_same _ _ table args tail id IH). destruct (fast_cost _ _ _ _ _ _ _ _ _).
    reflexivity.
  - unfold parse_sequence. rewrite <- (seq_same _ _ args IH). destruct (seq_cost _ _ _ _ _ _ _ _).
    reflexivity.
  - unfold parse_separate_by. rewrite <- (sep_same _ _ _ _ optional allow_trail (IH r1) (IH r2)).
    destruct (sep_cost _ _ _ _ _ _ _ _ _ _ _ _). reflexivity.
  - unfold parse_repeat. rewrite <- (repeat_same _ _ optional (IH r)).
    destruct (repeat_cost _ _ _ _ _ _ _ _ _ _). reflexivity.
  - unfold parse_lines, rt_lines.
    rewrite <- (lines_same E _ _ (fun t ls => closure_same _ _ indent t ls (IH r))).
    destruct (lines_cost _ _ _ _ _ _) as [n [[[] ls]| |]]; reflexivity.
  - unfold parse_node. destruct index; [|reflexivity].
    destruct (emit _ _ _ _ _). destruct (nth_error refs _); [|reflexivity].
    rewrite <- (IH r). destruct (rule_cost _ _ _ _ _ _ _ _) as [k [[[[] toks2] ind2]| |]]; try reflexivity.
    cbn. destruct (emit _ _ _ _ _). reflexivity.
  - unfold parse_optional. rewrite <- (IH r).
    destruct (rule_cost _ _ _ _ _ _ _ _) as [k [[[[] toks2] ind2]| |]]; reflexivity.
  - unfold parse_not. rewrite <- (IH r).
    destruct (rule_cost _ _ _ _ _ _ _ _) as [k [[[[] toks2] ind2]| |]]; reflexivity.
Qed.

Theorem parse_same E f s text tokens ind :
  snd (parse_cost E f s text tokens ind) = parse_with_indent E f s text tokens ind.
Proof.
  unfold parse_cost, parse_with_indent. destruct (nth_error _ _); [|reflexivity].
  follow. rewrite (rule_same E (s_rules s) f). apply obind_ext. intros [[[] toks'] ind']; [|reflexivity].
  destruct (_ <? _); reflexivity.
Qed.

(** ** More fuel does not change the count *)

Definition le_c {A} (a b : counted A) : Prop := snd a = OutOfFuel \/ a = b.

Lemma le_c_refl {A} (a : counted A) : le_c a a.
Proof. right. reflexivity. Qed.

Lemma le_c_bind {A B} (a b : counted A) (f g : A -> counted B) :
  le_c a b -> (forall x, le_c (f x) (g x)) -> le_c (cbind a f) (cbind b g).
Proof.
  intros [H| ->] Hk.
  - left. rewrite cbind_snd, H. reflexivity.
  - destruct b as [n [x| |]]; unfold cbind; cbn [fst snd]; [|right; reflexivity|right; reflexivity].
    destruct (Hk x) as [H|H]; [left; exact H|right; rewrite H; reflexivity].
Qed.

Definition le_cp (P Q : counted_parser) : Prop :=
  forall toks st t ind, le_c (P toks st t ind) (Q toks st t ind).

Lemma select_more P Q args id : (forall r, le_cp (P r) (Q r)) ->
  forall toks st t ind oe,
    le_c (select_cost P args id toks st t ind oe) (select_cost Q args id toks st t ind oe).
Proof.
  intros H. induction args as [|r rest IH]; intros; simpl; [apply le_c_refl|].
  apply le_c_bind; [apply H|]. intros [[res toks'] ind']. destruct res; [apply le_c_refl|apply IH].
Qed.

Lemma tail_more P Q args oe : (forall r, le_cp (P r) (Q r)) ->
  le_cp (tail_cost P args oe) (tail_cost Q args oe).
Proof.
  intros H toks st t ind. unfold tail_cost. destruct args; [apply le_c_refl|].
  destruct (nth_error _ _); [|apply le_c_refl].
  apply le_c_bind; [apply H|]. intros. apply le_c_refl.
Qed.

Lemma fast_more P Q table args tail id : (forall r, le_cp (P r) (Q r)) ->
  le_cp (fast_cost P table args tail id) (fast_cost Q table args tail id).
Proof.
  intros H toks st t ind. unfold fast_cost. destruct (src t); [apply le_c_refl|].
  destruct (nth_error table _) as [i|]; [|apply le_c_refl].
  destruct (Nat.eqb i 255).
  - destruct tail; [apply tail_more; exact H|apply le_c_refl].
  - destruct (nth_error args i); [|apply le_c_refl].
    apply le_c_bind; [apply H|]. intros [[res toks'] ind'].
    destruct res; [apply le_c_refl|]. destruct tail; [apply tail_more; exact H|apply le_c_refl].
Qed.

Lemma seq_more P Q args : (forall r, le_cp (P r) (Q r)) ->
  forall start toks st t ind oe,
    le_c (seq_cost P args start toks st t ind oe) (seq_cost Q args start toks st t ind oe).
Proof.
  intros H. induction args as [|r rest IH]; intros; simpl; [apply le_c_refl|].
  apply le_c_bind; [apply H|]. intros [[res toks'] ind']. destruct res; [apply IH|apply le_c_refl].
Qed.

Lemma repeat_more P Q : le_cp P Q -> forall f g optional start first toks st t ind oe,
  f <= g ->
  le_c (repeat_cost f P optional start first toks st t ind oe)
       (repeat_cost g Q optional start first toks st t ind oe).
Proof.
  intros H f. induction f as [|f IH]; intros g optional start first toks st t ind oe Hg;
    [left; reflexivity|].
  destruct g as [|g]; [lia|]. cbn [repeat_cost].
  apply le_c_bind; [apply H|]. intros [[res toks'] ind']. destruct res; [|apply le_c_refl].
  apply IH. lia.
Qed.

Lemma sep_more P Q P' Q' : le_cp P P' -> le_cp Q Q' ->
  forall f g optional trail start first toks st t ind oe,
  f <= g ->
  le_c (sep_cost f P Q optional trail start first toks st t ind oe)
       (sep_cost g P' Q' optional trail start first toks st t ind oe).
Proof.
  intros HP HQ f. induction f as [|f IH];
    intros g optional trail start first toks st t ind oe Hg; [left; reflexivity|].
  destruct g as [|g]; [lia|]. cbn [sep_cost].
  apply le_c_bind; [apply HP|]. intros [[res toks'] ind']. destruct res; [|apply le_c_refl].
  apply le_c_bind; [apply HQ|]. intros [[res2 toks2] ind2]. destruct res2; [|apply le_c_refl].
  apply IH. lia.
Qed.

Lemma closure_more P Q (indented : bool) : le_cp P Q -> forall t ls,
  le_c (closure_cost indented P t ls) (closure_cost indented Q t ls).
Proof.
  intros H t ls.
  assert (Hi : forall o t first ls ind, le_c (item_cost P o t first ls ind)
    (item_cost Q o t first ls ind)).
  { intros o t0 first ls0 ind. unfold item_cost.
    apply le_c_bind; [apply le_c_refl|]. intros n.
    apply le_c_bind; [apply H|]. intros. apply le_c_refl. }
  unfold closure_cost. destruct indented.
  - destruct (skip_indent _ _ _); [|apply le_c_refl].
    destruct (_ && _).
    + apply le_c_bind; [apply le_c_refl|]. intros [k2 m]. apply Hi.
    + destruct (rt_tag _ _); [apply le_c_refl|]. apply Hi.
  - apply le_c_bind; [apply H|]. intros. apply le_c_refl.
Qed.

Lemma lines_more E c d : (forall t ls, le_c (c t ls) (d t ls)) ->
  forall f g nl t ls, f <= g -> le_c (lines_cost E c f nl t ls) (lines_cost E d g nl t ls).
Proof.
  intros H f. induction f as [|f IH]; intros g nl t ls Hg; [left; reflexivity|].
  destruct g as [|g]; [lia|]. cbn [lines_cost].
  destruct (Nat.eqb _ _); [apply le_c_refl|].
  assert (Hgo : forall t1, le_c
    (cbind (c t1 ls) (fun '(res, st1) =>
     match res with
     | None => free (Done (inl t1, st1))
     | Some r => lines_cost E c f (ends_with_newline (rt_raw_string t1 (r_len r)))
                   (rt_consume t1 (r_len r)) st1
     end))
    (cbind (d t1 ls) (fun '(res, st1) =>
     match res with
     | None => free (Done (inl t1, st1))
     | Some r => lines_cost E d g (ends_with_newline (rt_raw_string t1 (r_len r)))
                   (rt_consume t1 (r_len r)) st1
     end))).
  { intros t1. apply le_c_bind; [apply H|]. intros [[r|] st1]; [|apply le_c_refl].
    apply IH. lia. }
  destruct (after_last_newline _); [apply Hgo|]. destruct nl; [apply Hgo|apply le_c_refl].
Qed.

Lemma le_c_one {A} (a b : counted A) : le_c a b ->
  le_c (let '(n, o) := a in (S n, o)) (let '(n, o) := b in (S n, o)).
Proof.
  intros [H| ->]; [|apply le_c_refl]. left. destruct a. exact H.
Qed.

Lemma rule_more E refs f : forall g r, f <= g ->
  le_cp (rule_cost E f refs r) (rule_cost E g refs r).
Proof.
  induction f as [|f IH]; intros g r Hg toks st t ind; [left; reflexivity|].
  destruct g as [|g]; [lia|].
  assert (IHg : forall r, le_cp (rule_cost E f refs r) (rule_cost E g refs r))
    by (intros; apply IH; lia).
  destruct r; cbn [rule_cost]; try apply le_c_refl; apply le_c_one.
  - apply select_more. exact IHg.
  - apply fast_more. exact IHg.
  - apply seq_more. exact IHg.
  - apply sep_more; [apply IHg|apply IHg|lia].
  - apply repeat_more; [apply IHg|lia].
  - apply le_c_bind; [|intros; apply le_c_refl].
    apply lines_more; [|lia]. apply closure_more. apply IHg.
  - destruct index; [|apply le_c_refl].
    destruct (emit _ _ _ _ _). destruct (nth_error refs _); [|apply le_c_refl].
    apply le_c_bind; [apply IHg|]. intros. apply le_c_refl.
  - apply le_c_bind; [apply IHg|]. intros. apply le_c_refl.
  - apply le_c_bind; [apply IHg|]. intros. apply le_c_refl.
Qed.

Lemma parse_more E f g s text tokens ind : f <= g ->
  le_c (parse_cost E f s text tokens ind) (parse_cost E g s text tokens ind).
Proof.
  intros H. unfold parse_cost. destruct (nth_error _ _); [|apply le_c_refl].
  apply le_c_bind; [apply rule_more; exact H|]. intros. apply le_c_refl.
Qed.
