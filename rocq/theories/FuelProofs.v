(** More fuel changes nothing but [OutOfFuel]. *)
From Coq Require Import List NArith Bool Arith Lia.
From Verif Require Import Base Ext Types ParseModel.
Import ListNotations.

Definition le_o {A} (a b : outcome A) : Prop := a = OutOfFuel \/ a = b.

Lemma le_o_refl {A} (a : outcome A) : le_o a a.
Proof. right. reflexivity. Qed.

Lemma le_o_bind {A B} (a b : outcome A) (f g : A -> outcome B) :
  le_o a b -> (forall x, le_o (f x) (g x)) -> le_o (obind a f) (obind b g).
Proof.
  intros [-> | ->] H; [left; reflexivity|]. destruct b; simpl; [apply H|right|right]; reflexivity.
Qed.

Definition le_p (P Q : parser) : Prop := forall toks st t ind, le_o (P toks st t ind) (Q toks st t ind).

Lemma select_loop_mono P Q args id :
  (forall r, le_p (P r) (Q r)) ->
  forall toks st t ind oe,
    le_o (select_loop P args id toks st t ind oe) (select_loop Q args id toks st t ind oe).
Proof.
  intros H. induction args as [|r rest IH]; intros; simpl; [apply le_o_refl|].
  apply le_o_bind; [apply H|]. intros [[res toks'] ind']. destruct res; [apply le_o_refl|apply IH].
Qed.

Lemma fast_tail_mono P Q args oe :
  (forall r, le_p (P r) (Q r)) -> le_p (fast_tail P args oe) (fast_tail Q args oe).
Proof.
  intros H toks st t ind. unfold fast_tail. destruct args; [apply le_o_refl|].
  destruct (nth_error _ _); [|apply le_o_refl].
  apply le_o_bind; [apply H|]. intros. apply le_o_refl.
Qed.

Lemma fast_select_mono P Q table args tail id :
  (forall r, le_p (P r) (Q r)) ->
  le_p (parse_fast_select P table args tail id) (parse_fast_select Q table args tail id).
Proof.
  intros H toks st t ind. unfold parse_fast_select. destruct (src t); [apply le_o_refl|].
  destruct (nth_error table _) as [i|]; [|apply le_o_refl].
  destruct (Nat.eqb i 255).
  - destruct tail; [apply fast_tail_mono; exact H|apply le_o_refl].
  - destruct (nth_error args i); [|apply le_o_refl].
    apply le_o_bind; [apply H|]. intros [[res toks'] ind'].
    destruct res; [apply le_o_refl|]. destruct tail; [apply fast_tail_mono; exact H|apply le_o_refl].
Qed.

Lemma seq_loop_mono P Q args :
  (forall r, le_p (P r) (Q r)) ->
  forall start toks st t ind oe,
    le_o (seq_loop P args start toks st t ind oe) (seq_loop Q args start toks st t ind oe).
Proof.
  intros H. induction args as [|r rest IH]; intros; simpl; [apply le_o_refl|].
  apply le_o_bind; [apply H|]. intros [[res toks'] ind']. destruct res; [apply IH|apply le_o_refl].
Qed.

Lemma repeat_loop_mono P Q : le_p P Q -> forall f g optional start first toks st t ind oe,
  f <= g ->
  le_o (repeat_loop f P optional start first toks st t ind oe)
       (repeat_loop g Q optional start first toks st t ind oe).
Proof.
  intros H f. induction f as [|f IH]; intros g optional start first toks st t ind oe Hg;
    [left; reflexivity|].
  destruct g as [|g]; [lia|]. cbn [repeat_loop].
  apply le_o_bind; [apply H|]. intros [[res toks'] ind']. destruct res; [|apply le_o_refl].
  apply IH. lia.
Qed.

Lemma sep_loop_mono P Q P' Q' : le_p P P' -> le_p Q Q' ->
  forall f g optional trail start first toks st t ind oe,
  f <= g ->
  le_o (sep_loop f P Q optional trail start first toks st t ind oe)
       (sep_loop g P' Q' optional trail start first toks st t ind oe).
Proof.
  intros HP HQ f. induction f as [|f IH];
    intros g optional trail start first toks st t ind oe Hg; [left; reflexivity|].
  destruct g as [|g]; [lia|]. cbn [sep_loop].
  apply le_o_bind; [apply HP|]. intros [[res toks'] ind']. destruct res; [|apply le_o_refl].
  apply le_o_bind; [apply HQ|]. intros [[res2 toks2] ind2]. destruct res2; [|apply le_o_refl].
  apply IH. lia.
Qed.

Lemma lines_item_mono P Q : le_p P Q -> forall o t first ls ind,
  le_o (lines_item_indent P o t first ls ind) (lines_item_indent Q o t first ls ind).
Proof.
  intros H o t first ls ind. unfold lines_item_indent.
  apply le_o_bind; [apply le_o_refl|]. intros n.
  apply le_o_bind; [apply H|]. intros. apply le_o_refl.
Qed.

Lemma lines_closure_mono P Q (indented : bool) : le_p P Q -> forall t ls,
  le_o ((if indented then lines_closure_indent P else lines_closure_plain P) t ls)
       ((if indented then lines_closure_indent Q else lines_closure_plain Q) t ls).
Proof.
  intros H t ls. destruct indented.
  - unfold lines_closure_indent. destruct (skip_indent _ _ _); [|apply le_o_refl].
    destruct (_ && _).
    + apply le_o_bind; [apply le_o_refl|]. intros [k2 m]. apply lines_item_mono. exact H.
    + destruct (rt_tag _ _); [apply le_o_refl|]. apply lines_item_mono. exact H.
  - unfold lines_closure_plain. apply le_o_bind; [apply H|]. intros. apply le_o_refl.
Qed.

Lemma lines_loop_mono E {St} (c d : rt -> St -> outcome (option range * St)) :
  (forall t ls, le_o (c t ls) (d t ls)) ->
  forall f g nl t ls, f <= g -> le_o (lines_loop E c f nl t ls) (lines_loop E d g nl t ls).
Proof.
  intros H f. induction f as [|f IH]; intros g nl t ls Hg; [left; reflexivity|].
  destruct g as [|g]; [lia|]. cbn [lines_loop].
  destruct (Nat.eqb _ _); [apply le_o_refl|].
  assert (Hgo : forall t1, le_o
    (do (res, st1) <- c t1 ls;
     match res with
     | None => Done (inl t1, st1)
     | Some r => lines_loop E c f (ends_with_newline (rt_raw_string t1 (r_len r)))
                   (rt_consume t1 (r_len r)) st1
     end)
    (do (res, st1) <- d t1 ls;
     match res with
     | None => Done (inl t1, st1)
     | Some r => lines_loop E d g (ends_with_newline (rt_raw_string t1 (r_len r)))
                   (rt_consume t1 (r_len r)) st1
     end)).
  { intros t1. apply le_o_bind; [apply H|]. intros [[r|] st1]; [|apply le_o_refl].
    apply IH. lia. }
  destruct (after_last_newline _); [apply Hgo|]. destruct nl; [apply Hgo|apply le_o_refl].
Qed.

Lemma parse_rule_mono E refs f : forall g r, f <= g ->
  le_p (parse_rule E f refs r) (parse_rule E g refs r).
Proof.
  induction f as [|f IH]; intros g r Hg toks st t ind; [left; reflexivity|].
  destruct g as [|g]; [lia|].
  assert (IHg : forall r, le_p (parse_rule E f refs r) (parse_rule E g refs r))
    by (intros; apply IH; lia).
  destruct r; cbn [parse_rule]; try apply le_o_refl.
  - apply select_loop_mono. exact IHg.
  - apply fast_select_mono. exact IHg.
  - apply seq_loop_mono. exact IHg.
  - apply sep_loop_mono; [apply IHg|apply IHg|lia].
  - apply repeat_loop_mono; [apply IHg|lia].
  - unfold parse_lines, rt_lines. apply le_o_bind; [|intros; apply le_o_refl].
    apply le_o_bind; [|intros; apply le_o_refl].
    apply lines_loop_mono; [|lia]. apply lines_closure_mono. apply IHg.
  - unfold parse_node. destruct index; [|apply le_o_refl].
    destruct (emit _ _ _ _ _). destruct (nth_error refs _); [|apply le_o_refl].
    apply le_o_bind; [apply IHg|]. intros. apply le_o_refl.
  - apply le_o_bind; [apply IHg|]. intros. apply le_o_refl.
  - apply le_o_bind; [apply IHg|]. intros. apply le_o_refl.
Qed.

Lemma parse_with_indent_mono E f g s text tokens ind : f <= g ->
  le_o (parse_with_indent E f s text tokens ind) (parse_with_indent E g s text tokens ind).
Proof.
  intros H. unfold parse_with_indent. destruct (nth_error _ _); [|apply le_o_refl].
  apply le_o_bind; [apply parse_rule_mono; exact H|]. intros. apply le_o_refl.
Qed.

(** Two amounts of fuel that both suffice give the same. *)
Lemma parse_with_indent_fuel E f g s text tokens ind a b :
  parse_with_indent E f s text tokens ind = a -> a <> OutOfFuel ->
  parse_with_indent E g s text tokens ind = b -> b <> OutOfFuel -> a = b.
Proof.
  intros <- Ha <- Hb. destruct (Nat.le_gt_cases f g) as [H|H].
  - destruct (parse_with_indent_mono E f g s text tokens ind H); congruence.
  - destruct (parse_with_indent_mono E g f s text tokens ind ltac:(lia)); congruence.
Qed.
