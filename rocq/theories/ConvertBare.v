(** Conversion does not look at the ranges of the meta data. *)
From Coq Require Import Ascii String List NArith Bool Arith Lia.
From Verif Require Import Base Ext Types ParseModel ConvertModel TextProofs.
Import ListNotations.
Local Open Scope string_scope.
Local Open Scope list_scope.
Local Open Scope nat_scope.

(** Converters at the same place of data that differ in the ranges only. *)
Definition same_cv (c c' : conv) : Prop := c_off c' = c_off c /\ metas (c_data c') = metas (c_data c).

Definition same_o {A} (R : A -> A -> Prop) (x y : outcome A) : Prop :=
  match x, y with
  | Done a, Done b => R a b
  | Panic, Panic => True
  | OutOfFuel, OutOfFuel => True
  | _, _ => False
  end.

Definition on1 {A B} (R : A -> A -> Prop) (x y : A * B) : Prop := R (fst x) (fst y) /\ snd x = snd y.

Definition opt {A} (R : A -> A -> Prop) (x y : option A) : Prop :=
  match x, y with Some a, Some b => R a b | None, None => True | _, _ => False end.

Definition same_r (P Q : reader) : Prop := forall c c' st, same_cv c c' -> same_o eq (P c st) (Q c' st).

Lemma same_o_bind {A B} (R : A -> A -> Prop) (S : B -> B -> Prop) o o' f f' :
  same_o R o o' -> (forall a b, R a b -> same_o S (f a) (f' b)) ->
  same_o S (obind o f) (obind o' f').
Proof. destruct o, o'; cbn; try tauto. intros H1 H2. exact (H2 _ _ H1). Qed.

Lemma same_o_eq {A} (o : outcome A) : same_o eq o o.
Proof. destruct o; cbn; auto. Qed.

Lemma same_o_is {A} (o o' : outcome A) : same_o eq o o' -> o = o'.
Proof. destruct o, o'; cbn; intros H; congruence || contradiction. Qed.

Ltac same_head Hs :=
  destruct Hs as [_ Hs];
  match type of Hs with metas ?d' = metas ?d => destruct d as [|[r x] l], d' as [|[r' x'] l'] end;
  cbn in Hs; try discriminate Hs; [reflexivity|injection Hs as -> _].

Lemma same_start c c' n : same_cv c c' -> c_start_node c' n = c_start_node c n.
Proof. intros Hs. unfold c_start_node. rewrite (proj1 Hs). same_head Hs. destruct x; reflexivity. Qed.
Lemma same_end c c' n : same_cv c c' -> c_end_node c' n = c_end_node c n.
Proof. intros Hs. unfold c_end_node. rewrite (proj1 Hs). same_head Hs. destruct x; reflexivity. Qed.
Lemma same_string c c' n : same_cv c c' -> c_meta_string c' n = c_meta_string c n.
Proof. intros Hs. unfold c_meta_string. rewrite (proj1 Hs). same_head Hs. destruct x; reflexivity. Qed.
Lemma same_f64 c c' n : same_cv c c' -> c_meta_f64 c' n = c_meta_f64 c n.
Proof. intros Hs. unfold c_meta_f64. rewrite (proj1 Hs). same_head Hs. destruct x; reflexivity. Qed.
Lemma same_bool c c' n : same_cv c c' -> c_meta_bool c' n = c_meta_bool c n.
Proof. intros Hs. unfold c_meta_bool. rewrite (proj1 Hs). same_head Hs. destruct x; reflexivity. Qed.
Lemma same_subtract c c' d d' : same_cv c c' -> same_cv d d' -> c_subtract c' d' = c_subtract c d.
Proof. intros [H _] [H' _]. unfold c_subtract. rewrite H, H'. reflexivity. Qed.
Lemma same_length c c' : same_cv c c' -> length (c_data c') = length (c_data c).
Proof.
  intros [_ H]. apply (f_equal (@length _)) in H. unfold metas in H. rewrite !map_length in H. exact H.
Qed.
Lemma metas_skipn n d : metas (skipn n d) = skipn n (metas d).
Proof. unfold metas. symmetry. apply skipn_map. Qed.
Lemma same_update c c' r : same_cv c c' -> same_o same_cv (c_update c r) (c_update c' r).
Proof.
  intros Hs. unfold c_update. rewrite (same_length c c' Hs). destruct Hs as [H1 H2]. rewrite H1.
  destruct (_ <? _); [exact I|]. destruct (_ <? _); [exact I|]. split; [reflexivity|]. cbn.
  rewrite !metas_skipn, H2. reflexivity.
Qed.
Lemma same_ignore_loop d : forall d' a n, metas d' = metas d -> ignore_loop d' a n = ignore_loop d a n.
Proof.
  induction d as [|[r x] d IH]; intros [|[r' x'] d'] a n H; try discriminate H; [reflexivity|].
  cbn in H. injection H as -> H. cbn [ignore_loop].
  destruct (match x with StartNode _ => _ | EndNode _ => _ | _ => _ end) as [k| |]; cbn [obind];
    [|reflexivity|reflexivity].
  destruct (Nat.eqb k 0); [reflexivity|apply IH; exact H].
Qed.
Lemma same_skip c c' ig : same_cv c c' -> same_o (on1 same_cv) (skip_item c ig) (skip_item c' ig).
Proof.
  intros Hs. unfold skip_item, c_ignore. rewrite (same_ignore_loop _ _ _ _ (proj2 Hs)), (proj1 Hs).
  destruct (ignore_loop _ _ _) as [n| |]; cbn [obind]; [|exact I|exact I].
  eapply same_o_bind; [apply same_update; exact Hs|]. intros a b Hab. split; [exact Hab|reflexivity].
Qed.

Ltac same_split :=
  repeat match goal with
  | H : on1 _ ?x ?y |- _ => destruct H as [? ?]; destruct x, y; cbn [fst snd] in *; subst
  | H : @eq _ ?x ?y |- _ => is_var y; subst y
  | H : opt _ ?x ?y |- _ => destruct x, y; cbn [opt] in H; try contradiction H
  | H : on1 _ (_, _) (_, _) |- _ => destruct H as [? ?]; cbn [fst snd] in *; subst
  end.

Ltac same_rw :=
  repeat match goal with
  | H : same_cv ?c ?c' |- _ => first
      [rewrite (same_start c c' _ H)|rewrite (same_end c c' _ H)|rewrite (same_string c c' _ H)
      |rewrite (same_f64 c c' _ H)|rewrite (same_bool c c' _ H)]
  end.

Ltac lock IH :=
  same_split; same_rw; repeat first
    [ apply same_o_eq
    | apply IH; solve [assumption]
    | eapply same_o_bind; [first [apply same_update; eassumption|apply same_skip; eassumption|apply IH; eassumption
        |apply same_o_eq
        |match goal with H : same_r ?P ?Q |- same_o _ (?P _ _) (?Q _ _) => apply H; eassumption end]
        |intros ? ? ?; same_split; same_rw]
    | match goal with
      | |- same_o _ (match ?x with _ => _ end) (match ?x with _ => _ end) => destruct x; same_rw
      | H : same_cv ?c ?c', H' : same_cv ?d ?d' |- context [c_subtract ?c' ?d'] => rewrite (same_subtract c c' d d' H H')
      | H : same_r ?P ?Q |- same_o _ (?P _ _) (?Q _ _) => apply H; assumption
      | |- same_o _ (Done _) (Done _) => cbn [same_o opt]; repeat match goal with |- on1 _ _ _ => split; cbn [fst snd] end; (assumption || reflexivity || exact I)
      end ].

Lemma same_string_loop : forall f c c' n t, same_cv c c' ->
  same_o (opt (on1 (on1 same_cv))) (string_loop f c n t) (string_loop f c' n t).
Proof.
  induction f as [|f IH]; intros c c' n t Hs; [exact I|]. cbn [string_loop]. lock IH.
Qed.
Lemma same_read_string f c c' : same_cv c c' -> same_o eq (read_string f c) (read_string f c').
Proof. intros Hs. unfold read_string. lock same_string_loop. Qed.

Lemma same_set_loop p ss : forall f c c' t, same_cv c c' ->
  same_o (opt (on1 same_cv)) (set_loop f p ss c t) (set_loop f p ss c' t).
Proof. induction f as [|f IH]; intros c c' t Hs; [exact I|]. cbn [set_loop]. lock IH. Qed.
Lemma same_read_set f p c c' ss : same_cv c c' -> same_o eq (read_set f p c ss) (read_set f p c' ss).
Proof. intros Hs. unfold read_set. lock same_set_loop. Qed.

Lemma same_finish s s' c c' st mk : same_cv s s' -> same_cv c c' -> same_o eq (finish s c st mk) (finish s' c' st mk).
Proof. intros H1 H2. unfold finish. rewrite (same_subtract c c' s s' H2 H1). apply same_o_eq. Qed.

Ltac lock2 IH := repeat first [progress lock IH|progress lock same_read_set|apply same_finish; assumption].

Lemma same_until_loop node ss : forall f c c' a o p ig, same_cv c c' ->
  same_o (on1 (on1 (on1 (on1 same_cv)))) (until_loop f node ss c a o p ig) (until_loop f node ss c' a o p ig).
Proof. induction f as [|f IH]; intros c c' a o p ig Hs; [exact I|]. cbn [until_loop]. lock2 IH. Qed.
Lemma same_read_until f node mk ss : same_r (read_until f node mk ss) (read_until f node mk ss).
Proof. intros c c' st Hs. unfold read_until. lock2 same_until_loop. Qed.

Lemma same_tag_loop ss : forall f c c' t p n i ig, same_cv c c' ->
  same_o (on1 (on1 (on1 (on1 (on1 same_cv))))) (tag_loop f ss c t p n i ig) (tag_loop f ss c' t p n i ig).
Proof. induction f as [|f IH]; intros c c' t p n i ig Hs; [exact I|]. cbn [tag_loop]. lock2 IH. Qed.
Lemma same_read_tag f ss : same_r (read_tag f ss) (read_tag f ss).
Proof. intros c c' st Hs. unfold read_tag. lock2 same_tag_loop. Qed.

Lemma same_read_whitespace : same_r read_whitespace read_whitespace.
Proof. intros c c' st Hs. unfold read_whitespace. lock2 I. Qed.

Lemma same_flag_loop node flag ss : forall f c c' b p ig, same_cv c c' ->
  same_o (on1 (on1 (on1 same_cv))) (flag_loop f node flag ss c b p ig) (flag_loop f node flag ss c' b p ig).
Proof. induction f as [|f IH]; intros c c' b p ig Hs; [exact I|]. cbn [flag_loop]. lock2 IH. Qed.
Lemma same_read_text f ss : same_r (read_text f ss) (read_text f ss).
Proof. intros c c' st Hs. unfold read_text. lock2 same_flag_loop. Qed.
Lemma same_read_number f ss : same_r (read_number f ss) (read_number f ss).
Proof. intros c c' st Hs. unfold read_number. lock2 same_flag_loop. Qed.

Lemma same_reference_loop ss : forall f c c' n p ig, same_cv c c' ->
  same_o (on1 (on1 (on1 same_cv))) (reference_loop f ss c n p ig) (reference_loop f ss c' n p ig).
Proof. induction f as [|f IH]; intros c c' n p ig Hs; [exact I|]. cbn [reference_loop]. lock2 IH. Qed.
Lemma same_read_reference f ss : same_r (read_reference f ss) (read_reference f ss).
Proof. intros c c' st Hs. unfold read_reference. lock2 same_reference_loop. Qed.

Lemma same_args_loop P node : same_r P P -> forall f c c' args st, same_cv c c' ->
  same_o (on1 (on1 same_cv)) (args_loop f P node c args st) (args_loop f P node c' args st).
Proof. intros HP. induction f as [|f IH]; intros c c' args st Hs; [exact I|]. cbn [args_loop]. lock2 IH. Qed.
Lemma same_read_args P f node mk : same_r P P -> same_r (read_args f P node mk) (read_args f P node mk).
Proof. intros HP c c' st Hs. unfold read_args. lock2 (same_args_loop P node HP). Qed.

Lemma same_read_wrap P node mk : same_r P P -> same_r (read_wrap P node mk) (read_wrap P node mk).
Proof. intros HP c c' st Hs. unfold read_wrap. lock2 I. Qed.

Lemma same_sep_by_loop P Q : same_r P P -> same_r Q Q -> forall f c c' o t b r st, same_cv c c' ->
  same_o (on1 (on1 (on1 (on1 (on1 same_cv))))) (sep_by_loop f P Q c o t b r st) (sep_by_loop f P Q c' o t b r st).
Proof.
  intros HP HQ. induction f as [|f IH]; intros c c' o t b r st Hs; [exact I|]. cbn [sep_by_loop]. lock2 IH.
Qed.
Lemma same_read_separated_by P Q f : same_r P P -> same_r Q Q ->
  same_r (read_separated_by f P Q) (read_separated_by f P Q).
Proof. intros HP HQ c c' st Hs. unfold read_separated_by. lock2 (same_sep_by_loop P Q HP HQ). Qed.

Lemma same_read_lines P : same_r P P -> same_r (read_lines P) (read_lines P).
Proof.
  intros HP c c' st Hs. unfold read_lines. same_rw. destruct (c_start_node c _); [|apply same_o_eq].
  eapply same_o_bind; [apply same_update; eassumption|]. intros c1 c1' H1.
  apply same_o_bind with (R := on1 same_cv); [lock2 I|]. intros ? ? ?. lock2 I.
Qed.

Lemma same_rep_loop P : same_r P P -> forall f c c' r o st, same_cv c c' ->
  same_o (on1 (on1 (on1 same_cv))) (rep_loop f P c r o st) (rep_loop f P c' r o st).
Proof. intros HP. induction f as [|f IH]; intros c c' r o st Hs; [exact I|]. cbn [rep_loop]. lock2 IH. Qed.
Lemma same_read_repeat P f : same_r P P -> same_r (read_repeat f P) (read_repeat f P).
Proof. intros HP c c' st Hs. unfold read_repeat. lock2 (same_rep_loop P HP). Qed.

Lemma same_first_reader l : Forall (fun P => same_r P P) l -> same_r (first_reader l) (first_reader l).
Proof.
  induction 1 as [|P l HP Hl IH]; intros c c' st Hs; cbn [first_reader]; [apply same_o_eq|].
  eapply same_o_bind; [apply HP; exact Hs|]. intros [[x|] st'] b <-; [apply same_o_eq|apply IH; exact Hs].
Qed.

Lemma same_read_rule ss : forall f p, same_r (read_rule f p ss) (read_rule f p ss).
Proof.
  induction f as [|f IH]; intros p c c' st Hs; [exact I|]. cbn [read_rule]. cbv zeta.
  same_rw. destruct (c_start_node c p); [|apply same_o_eq].
  eapply same_o_bind; [apply same_update; eassumption|]. intros c1 c1' H1.
  eapply same_o_bind.
  - apply same_first_reader; [|eassumption].
    repeat apply Forall_cons; [..|apply Forall_nil]; auto using same_read_args, same_read_until, same_read_tag,
      same_read_whitespace, same_read_text, same_read_number, same_read_reference, same_read_wrap,
      same_read_separated_by, same_read_lines, same_read_repeat.
  - intros ? ? ?. lock2 I.
Qed.

Lemma same_node_loop ss : forall f c c' id n r ig, same_cv c c' ->
  same_o (on1 (on1 (on1 same_cv))) (node_loop f ss c id n r ig) (node_loop f ss c' id n r ig).
Proof.
  induction f as [|f IH]; intros c c' id n r ig Hs; [exact I|]. cbn [node_loop].
  pose proof (same_read_rule ss f) as Hr. repeat first [progress lock2 IH|progress lock2 Hr].
Qed.
Lemma same_read_node f ss c c' ig : same_cv c c' -> same_o eq (read_node f ss c ig) (read_node f ss c' ig).
Proof. intros Hs. unfold read_node. lock2 same_node_loop. Qed.

Lemma same_strings_loop : forall f c c' ss, same_cv c c' ->
  same_o (on1 same_cv) (strings_loop f c ss) (strings_loop f c' ss).
Proof.
  induction f as [|f IH]; intros c c' ss Hs; [exact I|]. cbn [strings_loop].
  eapply same_o_bind; [apply same_read_string; exact Hs|]. intros ? ? ?. lock IH.
Qed.

Lemma same_nodes_loop ss : forall f c c' s ig, same_cv c c' ->
  same_o eq (nodes_loop f ss c s ig) (nodes_loop f ss c' s ig).
Proof.
  induction f as [|f IH]; intros c c' s ig Hs; [exact I|]. cbn [nodes_loop].
  eapply same_o_bind; [apply same_read_node; exact Hs|]. intros ? ? ?. same_split.
  unfold c_remaining. rewrite (same_length c c' Hs). lock IH.
Qed.

Theorem convert_metas f d d' ig : metas d' = metas d -> convert f d ig = convert f d' ig.
Proof.
  intros H. apply same_o_is. unfold convert.
  eapply same_o_bind; [apply same_strings_loop; split; [reflexivity|exact H]|]. intros [c ss] [c' ss'] [H1 H2].
  cbn [fst snd] in *. subst ss'.
  eapply same_o_bind; [apply same_nodes_loop; exact H1|]. intros ? ? <-. apply same_o_eq.
Qed.
