(** Where the checked build does not panic, the optimised build does the same. *)
From Coq Require Import Ascii String List NArith ZArith Bool Arith Lia.
From Verif Require Import Base Ext Types ParseModel OptimizeModel ConvertModel HandlerModel BootstrapRules LibModel LoadModel
  ReleaseConvert ReleaseModel.
Import ListNotations.
Local Open Scope string_scope.
Local Open Scope list_scope.
Local Open Scope nat_scope.

Definition le_d {A} (a b : outcome A) : Prop := a = Panic \/ a = b.

Lemma le_d_refl {A} (a : outcome A) : le_d a a.
Proof. right. reflexivity. Qed.

Lemma le_d_bind {A B} (a b : outcome A) (f g : A -> outcome B) :
  le_d a b -> (forall x, le_d (f x) (g x)) -> le_d (obind a f) (obind b g).
Proof.
  intros [-> | ->] H; [left; reflexivity|]. destruct b; simpl; [apply H|right|right]; reflexivity.
Qed.

(** ** Parsing *)

Definition le_dp (P Q : parser) : Prop := forall toks st t ind, le_d (P toks st t ind) (Q toks st t ind).

Lemma select_loop_d P Q args id :
  (forall r, le_dp (P r) (Q r)) ->
  forall toks st t ind oe,
    le_d (select_loop P args id toks st t ind oe) (select_loop Q args id toks st t ind oe).
Proof.
  intros H. induction args as [|r rest IH]; intros; simpl; [apply le_d_refl|].
  apply le_d_bind; [apply H|]. intros [[res toks'] ind']. destruct res; [apply le_d_refl|apply IH].
Qed.

Lemma fast_tail_d P Q args oe :
  (forall r, le_dp (P r) (Q r)) -> le_dp (fast_tail P args oe) (fast_tail Q args oe).
Proof.
  intros H toks st t ind. unfold fast_tail. destruct args; [apply le_d_refl|].
  destruct (nth_error _ _); [|apply le_d_refl].
  apply le_d_bind; [apply H|]. intros. apply le_d_refl.
Qed.

Lemma fast_select_d P Q table args tail id :
  (forall r, le_dp (P r) (Q r)) ->
  le_dp (parse_fast_select P table args tail id) (parse_fast_select Q table args tail id).
Proof.
  intros H toks st t ind. unfold parse_fast_select. destruct (src t); [apply le_d_refl|].
  destruct (nth_error table _) as [i|]; [|apply le_d_refl].
  destruct (Nat.eqb i 255).
  - destruct tail; [apply fast_tail_d; exact H|apply le_d_refl].
  - destruct (nth_error args i); [|apply le_d_refl].
    apply le_d_bind; [apply H|]. intros [[res toks'] ind'].
    destruct res; [apply le_d_refl|]. destruct tail; [apply fast_tail_d; exact H|apply le_d_refl].
Qed.

Lemma seq_loop_d P Q args :
  (forall r, le_dp (P r) (Q r)) ->
  forall start toks st t ind oe,
    le_d (seq_loop P args start toks st t ind oe) (seq_loop Q args start toks st t ind oe).
Proof.
  intros H. induction args as [|r rest IH]; intros; simpl; [apply le_d_refl|].
  apply le_d_bind; [apply H|]. intros [[res toks'] ind']. destruct res; [apply IH|apply le_d_refl].
Qed.

Lemma repeat_loop_d P Q : le_dp P Q -> forall f optional start first toks st t ind oe,
  le_d (repeat_loop f P optional start first toks st t ind oe)
       (repeat_loop f Q optional start first toks st t ind oe).
Proof.
  intros H f. induction f as [|f IH]; intros optional start first toks st t ind oe;
    [apply le_d_refl|]. cbn [repeat_loop].
  apply le_d_bind; [apply H|]. intros [[res toks'] ind']. destruct res; [|apply le_d_refl].
  apply IH.
Qed.

Lemma sep_loop_d P Q P' Q' : le_dp P P' -> le_dp Q Q' ->
  forall f optional trail start first toks st t ind oe,
  le_d (sep_loop f P Q optional trail start first toks st t ind oe)
       (sep_loop f P' Q' optional trail start first toks st t ind oe).
Proof.
  intros HP HQ f. induction f as [|f IH];
    intros optional trail start first toks st t ind oe; [apply le_d_refl|]. cbn [sep_loop].
  apply le_d_bind; [apply HP|]. intros [[res toks'] ind']. destruct res; [|apply le_d_refl].
  apply le_d_bind; [apply HQ|]. intros [[res2 toks2] ind2]. destruct res2; [|apply le_d_refl].
  apply IH.
Qed.

Lemma add_u32_d a b : add_u32 a b = Panic \/ add_u32 a b = Done (add_u32_r a b).
Proof.
  unfold add_u32, add_u32_r. destruct (N.leb_spec (a + b) u32_max) as [H|H]; [right|left; reflexivity].
  f_equal. symmetry. apply N.mod_small. lia.
Qed.

Lemma align_indent_d s : forall ind tabs, le_d (align_indent s ind tabs) (Done (align_indent_r s ind tabs)).
Proof.
  induction s as [|c s IH]; intros ind tabs; [apply le_d_refl|]. cbn [align_indent align_indent_r].
  assert (Hstep : forall w, le_d
    (do ind1 <- add_u32 ind w; do (k, ind2) <- align_indent s ind1 tabs; Done (S k, ind2))
    (Done (let (k, ind2) := align_indent_r s (add_u32_r ind w) tabs in (S k, ind2)))).
  { intros w. destruct (add_u32_d ind w) as [-> | ->]; [left; reflexivity|]. cbn [obind].
    destruct (IH (add_u32_r ind w) tabs) as [-> | ->]; [left; reflexivity|]. cbn [obind].
    destruct (align_indent_r _ _ _). apply le_d_refl. }
  destruct (N.eqb c space); [apply Hstep|]. destruct (N.eqb c tab); [apply Hstep|apply le_d_refl].
Qed.

Lemma lines_item_d P Q : le_dp P Q -> forall o t first ls ind,
  le_d (lines_item_indent P o t first ls ind) (lines_item_indent_r Q o t first ls ind).
Proof.
  intros H o t first ls ind. unfold lines_item_indent, lines_item_indent_r.
  destruct (add_u32_d (i_indent ind) 1) as [-> | ->]; [left; reflexivity|]. cbn [obind].
  apply le_d_bind; [apply H|]. intros. apply le_d_refl.
Qed.

Lemma lines_closure_d P Q (indented : bool) : le_dp P Q -> forall t ls,
  le_d ((if indented then lines_closure_indent P else lines_closure_plain P) t ls)
       ((if indented then lines_closure_indent_r Q else lines_closure_plain Q) t ls).
Proof.
  intros H t ls. destruct indented.
  - unfold lines_closure_indent, lines_closure_indent_r. destruct (skip_indent _ _ _); [|apply le_d_refl].
    destruct (_ && _).
    + destruct (align_indent_d (src (rt_consume t n)) (i_indent (ls_ind ls)) (i_tab_spaces (ls_ind ls))) as [-> | ->];
        [left; reflexivity|]. cbn [obind]. destruct (align_indent_r _ _ _) as [k2 m]. apply lines_item_d. exact H.
    + destruct (rt_tag _ _); [apply le_d_refl|]. apply lines_item_d. exact H.
  - unfold lines_closure_plain. apply le_d_bind; [apply H|]. intros. apply le_d_refl.
Qed.

Lemma lines_loop_d E {St} (c d : rt -> St -> outcome (option range * St)) :
  (forall t ls, le_d (c t ls) (d t ls)) ->
  forall f nl t ls, le_d (lines_loop E c f nl t ls) (lines_loop E d f nl t ls).
Proof.
  intros H f. induction f as [|f IH]; intros nl t ls; [apply le_d_refl|]. cbn [lines_loop].
  destruct (Nat.eqb _ _); [apply le_d_refl|].
  assert (Hgo : forall t1, le_d
    (do (res, st1) <- c t1 ls;
     match res with
     | None => Done (inl t1, st1)
     | Some r => lines_loop E c f (ends_with_newline (rt_raw_string t1 (r_len r)))
                   (rt_consume t1 (r_len r)) st1
     end)
    (do (res, st1) <- d t1 ls;
     match res with
     | None => Done (inl t1, st1)
     | Some r => lines_loop E d f (ends_with_newline (rt_raw_string t1 (r_len r)))
                   (rt_consume t1 (r_len r)) st1
     end)).
  { intros t1. apply le_d_bind; [apply H|]. intros [[r|] st1]; [|apply le_d_refl]. apply IH. }
  destruct (after_last_newline _); [apply Hgo|]. destruct nl; [apply Hgo|apply le_d_refl].
Qed.

Lemma parse_rule_d E refs f : forall r, le_dp (parse_rule E f refs r) (parse_rule_r E f refs r).
Proof.
  induction f as [|f IH]; intros r toks st t ind; [apply le_d_refl|].
  destruct r; cbn [parse_rule parse_rule_r]; try apply le_d_refl.
  - apply select_loop_d. exact IH.
  - apply fast_select_d. exact IH.
  - apply seq_loop_d. exact IH.
  - apply sep_loop_d; apply IH.
  - apply repeat_loop_d. apply IH.
  - unfold parse_lines, parse_lines_r, rt_lines. apply le_d_bind; [|intros; apply le_d_refl].
    apply le_d_bind; [|intros; apply le_d_refl].
    apply lines_loop_d. apply lines_closure_d. apply IH.
  - unfold parse_node. destruct index; [|apply le_d_refl].
    destruct (emit _ _ _ _ _). destruct (nth_error refs _); [|apply le_d_refl].
    apply le_d_bind; [apply IH|]. intros. apply le_d_refl.
  - apply le_d_bind; [apply IH|]. intros. apply le_d_refl.
  - apply le_d_bind; [apply IH|]. intros. apply le_d_refl.
Qed.

Lemma parse_with_indent_d E f s text tokens ind :
  le_d (parse_with_indent E f s text tokens ind) (parse_with_indent_r E f s text tokens ind).
Proof.
  unfold parse_with_indent, parse_with_indent_r. destruct (nth_error _ _); [|apply le_d_refl].
  apply le_d_bind; [apply parse_rule_d|]. intros. apply le_d_refl.
Qed.

(** ** Conversion *)

Definition le_dr (P Q : reader) : Prop := forall c st, le_d (P c st) (Q c st).

Lemma ignore_loop_d data : forall acc len, le_d (ignore_loop data acc len) (ignore_loop_r data (Z.of_nat acc) len).
Proof.
  induction data as [|[rg item] data IH]; intros acc len; [apply le_d_refl|]. cbn [ignore_loop ignore_loop_r].
  assert (Hgo : forall a z, z = Z.of_nat a -> le_d
    (if Nat.eqb a 0 then Done (len + 1) else ignore_loop data a (len + 1))
    (if (z =? 0)%Z then Done (len + 1) else ignore_loop_r data z (len + 1))).
  { intros a z ->. destruct a as [|a]; [apply le_d_refl|]. apply IH. }
  destruct item as [n|n|n b|n x|n s]; cbn [obind]; try (apply Hgo; reflexivity).
  - apply Hgo. lia.
  - destruct acc as [|acc]; [left; reflexivity|]. cbn [Nat.eqb obind]. apply Hgo. lia.
Qed.

Lemma c_ignore_d c : le_d (c_ignore c) (c_ignore_r c).
Proof. unfold c_ignore, c_ignore_r. apply le_d_bind; [apply ignore_loop_d|]. intros. apply le_d_refl. Qed.

Lemma skip_item_d c ig : le_d (skip_item c ig) (skip_item_r c ig).
Proof. unfold skip_item, skip_item_r. apply le_d_bind; [apply c_ignore_d|]. intros. apply le_d_refl. Qed.

Lemma add_usize_d a b : le_d (add_usize a b) (add_usize_r a b).
Proof.
  unfold add_usize, add_usize_r. destruct (N.leb_spec (a + b) usize_max) as [H|H]; [right|left; reflexivity].
  f_equal. symmetry. apply N.mod_small. lia.
Qed.

Lemma mul_usize_d a b : le_d (mul_usize a b) (mul_usize_r a b).
Proof.
  unfold mul_usize, mul_usize_r. destruct (N.leb_spec (a * b) usize_max) as [H|H]; [right|left; reflexivity].
  f_equal. symmetry. apply N.mod_small. lia.
Qed.

Lemma finish_d a b st mk : le_d (finish a b st mk) (finish_r a b st mk).
Proof. unfold finish, finish_r. apply le_d_bind; [apply add_usize_d|]. intros. apply le_d_refl. Qed.

(** The two sides have the same shape. *)
Ltac same IH :=
  repeat first
    [ apply le_d_refl
    | apply finish_d
    | apply skip_item_d
    | apply mul_usize_d
    | apply IH; solve [assumption]
    | apply IH
    | apply le_d_bind; [|intros ?]
    | match goal with
      | |- le_d (match ?x with _ => _ end) (match ?x with _ => _ end) => destruct x
      | H : le_dr ?P ?Q |- le_d (?P _ _) (?Q _ _) => apply H
      end ].

Lemma until_loop_d node ss : forall f c a o p ig,
  le_d (until_loop f node ss c a o p ig) (until_loop_r f node ss c a o p ig).
Proof. induction f as [|f IH]; intros c a o p ig; [apply le_d_refl|]. cbn [until_loop until_loop_r]. same IH. Qed.

Lemma read_until_d f node mk ss : le_dr (read_until f node mk ss) (read_until_r f node mk ss).
Proof. intros c st. unfold read_until, read_until_r. same until_loop_d. Qed.

Lemma tag_loop_d ss : forall f c t p n i ig, le_d (tag_loop f ss c t p n i ig) (tag_loop_r f ss c t p n i ig).
Proof. induction f as [|f IH]; intros c t p n i ig; [apply le_d_refl|]. cbn [tag_loop tag_loop_r]. same IH. Qed.

Lemma read_tag_d f ss : le_dr (read_tag f ss) (read_tag_r f ss).
Proof. intros c st. unfold read_tag, read_tag_r. same tag_loop_d. Qed.

Lemma read_whitespace_d : le_dr read_whitespace read_whitespace_r.
Proof. intros c st. unfold read_whitespace, read_whitespace_r. same I. Qed.

Lemma flag_loop_d node flag ss : forall f c b p ig,
  le_d (flag_loop f node flag ss c b p ig) (flag_loop_r f node flag ss c b p ig).
Proof. induction f as [|f IH]; intros c b p ig; [apply le_d_refl|]. cbn [flag_loop flag_loop_r]. same IH. Qed.

Lemma read_text_d f ss : le_dr (read_text f ss) (read_text_r f ss).
Proof. intros c st. unfold read_text, read_text_r. same flag_loop_d. Qed.

Lemma read_number_d f ss : le_dr (read_number f ss) (read_number_r f ss).
Proof. intros c st. unfold read_number, read_number_r. same flag_loop_d. Qed.

Lemma reference_loop_d ss : forall f c n p ig, le_d (reference_loop f ss c n p ig) (reference_loop_r f ss c n p ig).
Proof. induction f as [|f IH]; intros c n p ig; [apply le_d_refl|]. cbn [reference_loop reference_loop_r]. same IH. Qed.

Lemma read_reference_d f ss : le_dr (read_reference f ss) (read_reference_r f ss).
Proof. intros c st. unfold read_reference, read_reference_r. same reference_loop_d. Qed.

Lemma args_loop_d P Q node : le_dr P Q -> forall f c args st, le_d (args_loop f P node c args st) (args_loop_r f Q node c args st).
Proof. intros HP. induction f as [|f IH]; intros c args st; [apply le_d_refl|]. cbn [args_loop args_loop_r]. same IH. Qed.

Lemma read_args_d P Q f node mk : le_dr P Q -> le_dr (read_args f P node mk) (read_args_r f Q node mk).
Proof. intros HP c st. unfold read_args, read_args_r. same (args_loop_d P Q node HP). Qed.

Lemma read_wrap_d P Q node mk : le_dr P Q -> le_dr (read_wrap P node mk) (read_wrap_r Q node mk).
Proof. intros HP c st. unfold read_wrap, read_wrap_r. same I. Qed.

Lemma sep_by_loop_d P Q P' Q' : le_dr P Q -> le_dr P' Q' -> forall f c o t b r st,
  le_d (sep_by_loop f P P' c o t b r st) (sep_by_loop_r f Q Q' c o t b r st).
Proof.
  intros HP HP'. induction f as [|f IH]; intros c o t b r st; [apply le_d_refl|]. cbn [sep_by_loop sep_by_loop_r]. same IH.
Qed.

Lemma read_separated_by_d P Q P' Q' f : le_dr P Q -> le_dr P' Q' -> le_dr (read_separated_by f P P') (read_separated_by_r f Q Q').
Proof. intros HP HP' c st. unfold read_separated_by, read_separated_by_r. same (sep_by_loop_d P Q P' Q' HP HP'). Qed.

Lemma read_lines_d P Q : le_dr P Q -> le_dr (read_lines P) (read_lines_r Q).
Proof. intros HP c st. unfold read_lines, read_lines_r. same I. Qed.

Lemma rep_loop_d P Q : le_dr P Q -> forall f c r o st, le_d (rep_loop f P c r o st) (rep_loop_r f Q c r o st).
Proof. intros HP. induction f as [|f IH]; intros c r o st; [apply le_d_refl|]. cbn [rep_loop rep_loop_r]. same IH. Qed.

Lemma read_repeat_d P Q f : le_dr P Q -> le_dr (read_repeat f P) (read_repeat_r f Q).
Proof. intros HP c st. unfold read_repeat, read_repeat_r. same (rep_loop_d P Q HP). Qed.

Lemma first_reader_d ps qs : Forall2 le_dr ps qs -> le_dr (first_reader ps) (first_reader qs).
Proof.
  intros H. induction H as [|p q ps qs Hp _ IH]; intros c st; [apply le_d_refl|]. cbn [first_reader].
  apply le_d_bind; [apply Hp|]. intros [[x|] st']; [apply le_d_refl|apply IH].
Qed.

Lemma read_rule_d ss : forall f property, le_dr (read_rule f property ss) (read_rule_r f property ss).
Proof.
  induction f as [|f IH]; intros property c st; [apply le_d_refl|]. cbn [read_rule read_rule_r].
  destruct (c_start_node c property) as [r|]; [|apply le_d_refl].
  apply le_d_bind; [apply le_d_refl|]. intros c1.
  apply le_d_bind; [|intros; apply le_d_refl].
  apply first_reader_d.
  repeat (constructor; [first
    [apply read_args_d; apply IH|apply read_until_d|apply read_tag_d|apply read_whitespace_d|apply read_text_d|apply read_number_d
    |apply read_reference_d|apply read_wrap_d; apply IH|apply read_separated_by_d; apply IH|apply read_lines_d; apply IH
    |apply read_repeat_d; apply IH]|]). constructor.
Qed.

Lemma node_loop_d ss : forall f c id name r ig, le_d (node_loop f ss c id name r ig) (node_loop_r f ss c id name r ig).
Proof.
  induction f as [|f IH]; intros c id name r ig; [apply le_d_refl|]. cbn [node_loop node_loop_r].
  repeat first [apply read_rule_d|same IH].
Qed.

Lemma read_node_d f ss c ig : le_d (read_node f ss c ig) (read_node_r f ss c ig).
Proof. unfold read_node, read_node_r. same node_loop_d. Qed.

Lemma nodes_loop_d ss : forall f c s ig, le_d (nodes_loop f ss c s ig) (nodes_loop_r f ss c s ig).
Proof.
  induction f as [|f IH]; intros c s ig; [apply le_d_refl|]. cbn [nodes_loop nodes_loop_r].
  repeat first [apply read_node_d|same IH].
Qed.

Lemma convert_d f data ig : le_d (convert f data ig) (convert_r f data ig).
Proof. unfold convert, convert_r. same nodes_loop_d. Qed.

(** ** The whole library *)

Lemma syntax_unoptimized_d E f text : le_d (syntax_unoptimized E f text) (syntax_unoptimized_r E f text).
Proof.
  unfold syntax_unoptimized, syntax_unoptimized_r. apply le_d_bind; [apply le_d_refl|]. intros boot.
  apply le_d_bind; [apply parse_with_indent_d|]. intros [[e|] toks]; [apply le_d_refl|].
  apply le_d_bind; [apply convert_d|]. intros. apply le_d_refl.
Qed.

Lemma lib_syntax_d E f text : le_d (lib_syntax E f text) (lib_syntax_r E f text).
Proof. unfold lib_syntax, lib_syntax_r. apply le_d_bind; [apply syntax_unoptimized_d|]. intros. apply le_d_refl. Qed.

Lemma load_d E f sy da : le_d (load_syntax_data E f sy da) (load_syntax_data_r E f sy da).
Proof.
  unfold load_syntax_data, load_syntax_data_r. destruct sy as [s|]; [|apply le_d_refl].
  apply le_d_bind; [apply lib_syntax_d|]. intros res. apply le_d_bind; [apply le_d_refl|]. intros [rules|w]; [|apply le_d_refl].
  destruct da as [d|]; [|apply le_d_refl]. apply le_d_bind; [apply parse_with_indent_d|]. intros. apply le_d_refl.
Qed.
