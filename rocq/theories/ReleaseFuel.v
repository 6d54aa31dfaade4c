(** The optimised build: more fuel changes nothing but [OutOfFuel]. *)
From Coq Require Import Ascii String List NArith Bool Arith Lia.
From Verif Require Import Base Ext Types ParseModel OptimizeModel ConvertModel ConvertSpec HandlerModel BootstrapRules LibModel LoadModel
  FuelProofs OptProofs2 ConvertFuel ReleaseConvert ReleaseModel.
Import ListNotations.
Local Open Scope string_scope.
Local Open Scope list_scope.
Local Open Scope nat_scope.

Lemma lines_item_r_mono P Q : le_p P Q -> forall o t first ls ind,
  le_o (lines_item_indent_r P o t first ls ind) (lines_item_indent_r Q o t first ls ind).
Proof.
  intros H o t first ls ind. unfold lines_item_indent_r.
  apply le_o_bind; [apply H|]. intros. apply le_o_refl.
Qed.

Lemma lines_closure_r_mono P Q (indented : bool) : le_p P Q -> forall t ls,
  le_o ((if indented then lines_closure_indent_r P else lines_closure_plain P) t ls)
       ((if indented then lines_closure_indent_r Q else lines_closure_plain Q) t ls).
Proof.
  intros H t ls. destruct indented.
  - unfold lines_closure_indent_r. destruct (skip_indent _ _ _); [|apply le_o_refl].
    destruct (_ && _).
    + destruct (align_indent_r _ _ _). apply lines_item_r_mono. exact H.
    + destruct (rt_tag _ _); [apply le_o_refl|]. apply lines_item_r_mono. exact H.
  - unfold lines_closure_plain. apply le_o_bind; [apply H|]. intros. apply le_o_refl.
Qed.

Lemma parse_rule_r_mono E refs f : forall g r, f <= g ->
  le_p (parse_rule_r E f refs r) (parse_rule_r E g refs r).
Proof.
  induction f as [|f IH]; intros g r Hg toks st t ind; [left; reflexivity|].
  destruct g as [|g]; [lia|].
  assert (IHg : forall r, le_p (parse_rule_r E f refs r) (parse_rule_r E g refs r))
    by (intros; apply IH; lia).
  destruct r; cbn [parse_rule_r]; try apply le_o_refl.
  - apply select_loop_mono. exact IHg.
  - apply fast_select_mono. exact IHg.
  - apply seq_loop_mono. exact IHg.
  - apply sep_loop_mono; [apply IHg|apply IHg|lia].
  - apply repeat_loop_mono; [apply IHg|lia].
  - unfold parse_lines_r, rt_lines. apply le_o_bind; [|intros; apply le_o_refl].
    apply le_o_bind; [|intros; apply le_o_refl].
    apply lines_loop_mono; [|lia]. apply lines_closure_r_mono. apply IHg.
  - unfold parse_node. destruct index; [|apply le_o_refl].
    destruct (emit _ _ _ _ _). destruct (nth_error refs _); [|apply le_o_refl].
    apply le_o_bind; [apply IHg|]. intros. apply le_o_refl.
  - apply le_o_bind; [apply IHg|]. intros. apply le_o_refl.
  - apply le_o_bind; [apply IHg|]. intros. apply le_o_refl.
Qed.

Lemma parse_with_indent_r_mono E f g s text tokens ind : f <= g ->
  le_o (parse_with_indent_r E f s text tokens ind) (parse_with_indent_r E g s text tokens ind).
Proof.
  intros H. unfold parse_with_indent_r. destruct (nth_error _ _); [|apply le_o_refl].
  apply le_o_bind; [apply parse_rule_r_mono; exact H|]. intros. apply le_o_refl.
Qed.

(** Two amounts of fuel that both suffice give the same. *)
Lemma parse_with_indent_r_fuel E f g s text tokens ind a b :
  parse_with_indent_r E f s text tokens ind = a -> a <> OutOfFuel ->
  parse_with_indent_r E g s text tokens ind = b -> b <> OutOfFuel -> a = b.
Proof.
  intros <- Ha <- Hb. destruct (Nat.le_gt_cases f g) as [H|H].
  - destruct (parse_with_indent_r_mono E f g s text tokens ind H); congruence.
  - destruct (parse_with_indent_r_mono E g f s text tokens ind ltac:(lia)); congruence.
Qed.

(** ** Conversion *)

Lemma until_loop_r_mono node ss : forall f g c a o p ig, f <= g ->
  le_o (until_loop_r f node ss c a o p ig) (until_loop_r g node ss c a o p ig).
Proof.
  induction f as [|f IH]; intros g c a o p ig Hg; [left; reflexivity|].
  destruct g as [|g]; [lia|]. cbn [until_loop_r].
  repeat first [apply read_set_mono; lia|mono IH].
Qed.

Lemma read_until_r_mono f g node mk ss : f <= g -> le_r (read_until_r f node mk ss) (read_until_r g node mk ss).
Proof. intros Hg c st. unfold read_until_r. mono until_loop_r_mono. Qed.

Lemma tag_loop_r_mono ss : forall f g c t p n i ig, f <= g ->
  le_o (tag_loop_r f ss c t p n i ig) (tag_loop_r g ss c t p n i ig).
Proof.
  induction f as [|f IH]; intros g c t p n i ig Hg; [left; reflexivity|].
  destruct g as [|g]; [lia|]. cbn [tag_loop_r].
  repeat first [apply read_set_mono; lia|mono IH].
Qed.

Lemma read_tag_r_mono f g ss : f <= g -> le_r (read_tag_r f ss) (read_tag_r g ss).
Proof. intros Hg c st. unfold read_tag_r. mono tag_loop_r_mono. Qed.

Lemma flag_loop_r_mono node flag ss : forall f g c b p ig, f <= g ->
  le_o (flag_loop_r f node flag ss c b p ig) (flag_loop_r g node flag ss c b p ig).
Proof.
  induction f as [|f IH]; intros g c b p ig Hg; [left; reflexivity|].
  destruct g as [|g]; [lia|]. cbn [flag_loop_r].
  repeat first [apply read_set_mono; lia|mono IH].
Qed.

Lemma read_text_r_mono f g ss : f <= g -> le_r (read_text_r f ss) (read_text_r g ss).
Proof. intros Hg c st. unfold read_text_r. mono flag_loop_r_mono. Qed.

Lemma read_number_r_mono f g ss : f <= g -> le_r (read_number_r f ss) (read_number_r g ss).
Proof. intros Hg c st. unfold read_number_r. mono flag_loop_r_mono. Qed.

Lemma reference_loop_r_mono ss : forall f g c n p ig, f <= g ->
  le_o (reference_loop_r f ss c n p ig) (reference_loop_r g ss c n p ig).
Proof.
  induction f as [|f IH]; intros g c n p ig Hg; [left; reflexivity|].
  destruct g as [|g]; [lia|]. cbn [reference_loop_r].
  repeat first [apply read_set_mono; lia|mono IH].
Qed.

Lemma read_reference_r_mono f g ss : f <= g -> le_r (read_reference_r f ss) (read_reference_r g ss).
Proof. intros Hg c st. unfold read_reference_r. mono reference_loop_r_mono. Qed.

Lemma args_loop_r_mono P Q node : le_r P Q -> forall f g c args st, f <= g ->
  le_o (args_loop_r f P node c args st) (args_loop_r g Q node c args st).
Proof.
  intros HP. induction f as [|f IH]; intros g c args st Hg; [left; reflexivity|].
  destruct g as [|g]; [lia|]. cbn [args_loop_r]. mono IH.
Qed.

Lemma read_args_r_mono P Q f g node mk : le_r P Q -> f <= g ->
  le_r (read_args_r f P node mk) (read_args_r g Q node mk).
Proof. intros HP Hg c st. unfold read_args_r. mono (args_loop_r_mono P Q node HP). Qed.

Lemma read_wrap_r_mono P Q node mk : le_r P Q -> le_r (read_wrap_r P node mk) (read_wrap_r Q node mk).
Proof. intros HP c st. unfold read_wrap_r. mono I. Qed.

Lemma sep_by_loop_r_mono P Q P' Q' : le_r P Q -> le_r P' Q' -> forall f g c o t b r st, f <= g ->
  le_o (sep_by_loop_r f P P' c o t b r st) (sep_by_loop_r g Q Q' c o t b r st).
Proof.
  intros HP HP'. induction f as [|f IH]; intros g c o t b r st Hg; [left; reflexivity|].
  destruct g as [|g]; [lia|]. cbn [sep_by_loop_r]. mono IH.
Qed.

Lemma read_separated_by_r_mono P Q P' Q' f g : le_r P Q -> le_r P' Q' -> f <= g ->
  le_r (read_separated_by_r f P P') (read_separated_by_r g Q Q').
Proof.
  intros HP HP' Hg c st. unfold read_separated_by_r. mono (sep_by_loop_r_mono P Q P' Q' HP HP').
Qed.

Lemma read_lines_r_mono P Q : le_r P Q -> le_r (read_lines_r P) (read_lines_r Q).
Proof. intros HP c st. unfold read_lines_r. mono I. Qed.

Lemma rep_loop_r_mono P Q : le_r P Q -> forall f g c r o st, f <= g ->
  le_o (rep_loop_r f P c r o st) (rep_loop_r g Q c r o st).
Proof.
  intros HP. induction f as [|f IH]; intros g c r o st Hg; [left; reflexivity|].
  destruct g as [|g]; [lia|]. cbn [rep_loop_r]. mono IH.
Qed.

Lemma read_repeat_r_mono P Q f g : le_r P Q -> f <= g -> le_r (read_repeat_r f P) (read_repeat_r g Q).
Proof. intros HP Hg c st. unfold read_repeat_r. mono (rep_loop_r_mono P Q HP). Qed.

Lemma read_rule_r_mono ss : forall f g p, f <= g -> le_r (read_rule_r f p ss) (read_rule_r g p ss).
Proof.
  induction f as [|f IH]; intros g p Hg c st; [left; reflexivity|].
  destruct g as [|g]; [lia|]. cbn [read_rule_r]. cbv zeta.
  assert (Hr : forall p, le_r (read_rule_r f p ss) (read_rule_r g p ss)) by (intros q; apply IH; lia).
  destruct (c_start_node c p); [|apply le_o_refl].
  apply le_o_bind; [apply le_o_refl|]. intros c1.
  apply le_o_bind; [|intros; apply le_o_refl].
  apply first_reader_mono.
  repeat (apply Forall2_cons); [..|apply Forall2_nil].
  - apply read_args_r_mono; [apply Hr|lia].
  - apply read_until_r_mono. lia.
  - apply read_until_r_mono. lia.
  - apply read_tag_r_mono. lia.
  - intros ? ?. apply le_o_refl.
  - apply read_text_r_mono. lia.
  - apply read_number_r_mono. lia.
  - apply read_reference_r_mono. lia.
  - apply read_args_r_mono; [apply Hr|lia].
  - apply read_wrap_r_mono. apply Hr.
  - apply read_wrap_r_mono. apply Hr.
  - apply read_separated_by_r_mono; [apply Hr|apply Hr|lia].
  - apply read_lines_r_mono. apply Hr.
  - apply read_repeat_r_mono; [apply Hr|lia].
Qed.

Lemma node_loop_r_mono ss : forall f g c id n r ig, f <= g ->
  le_o (node_loop_r f ss c id n r ig) (node_loop_r g ss c id n r ig).
Proof.
  induction f as [|f IH]; intros g c id n r ig Hg; [left; reflexivity|].
  destruct g as [|g]; [lia|]. cbn [node_loop_r].
  repeat first [apply read_rule_r_mono; lia|mono IH].
Qed.

Lemma read_node_r_mono f g ss c ig : f <= g -> le_o (read_node_r f ss c ig) (read_node_r g ss c ig).
Proof. intros Hg. unfold read_node_r. mono node_loop_r_mono. Qed.

Lemma nodes_loop_r_mono ss : forall f g c s ig, f <= g ->
  le_o (nodes_loop_r f ss c s ig) (nodes_loop_r g ss c s ig).
Proof.
  induction f as [|f IH]; intros g c s ig Hg; [left; reflexivity|].
  destruct g as [|g]; [lia|]. cbn [nodes_loop_r].
  repeat first [apply read_node_r_mono; lia|mono IH].
Qed.

Lemma convert_r_mono f g data ig : f <= g -> le_o (convert_r f data ig) (convert_r g data ig).
Proof.
  intros Hg. unfold convert_r. apply le_o_bind; [apply strings_loop_mono; exact Hg|].
  intros [c ss]. apply le_o_bind; [apply nodes_loop_r_mono; exact Hg|]. intros. apply le_o_refl.
Qed.

(** Any two runs that end agree. *)
Lemma convert_r_agree f g data ig : convert_r f data ig <> OutOfFuel -> convert_r g data ig <> OutOfFuel ->
  convert_r f data ig = convert_r g data ig.
Proof.
  intros Hf Hg. destruct (Nat.le_ge_cases f g) as [H|H]; apply (convert_r_mono _ _ data ig) in H;
    destruct H; congruence.
Qed.

(** ** The whole library *)

Lemma syntax_unoptimized_r_mono E f g text : f <= g -> le_o (syntax_unoptimized_r E f text) (syntax_unoptimized_r E g text).
Proof.
  intros H. unfold syntax_unoptimized_r. apply le_o_bind; [apply optimize_mono; exact H|]. intros boot.
  apply le_o_bind; [apply parse_with_indent_r_mono; exact H|]. intros [[e|] toks]; [apply le_o_refl|].
  apply le_o_bind; [apply convert_r_mono; exact H|]. intros. apply le_o_refl.
Qed.

Lemma lib_syntax_r_mono E f g text : f <= g -> le_o (lib_syntax_r E f text) (lib_syntax_r E g text).
Proof.
  intros H. unfold lib_syntax_r. apply le_o_bind; [apply syntax_unoptimized_r_mono; exact H|]. intros [s|e]; [|apply le_o_refl].
  apply le_o_bind; [apply optimize_mono; exact H|]. intros. apply le_o_refl.
Qed.

Lemma load_r_mono E f g sy da : f <= g -> le_o (load_syntax_data_r E f sy da) (load_syntax_data_r E g sy da).
Proof.
  intros H. unfold load_syntax_data_r. destruct sy as [s|]; [|apply le_o_refl].
  apply le_o_bind; [apply lib_syntax_r_mono; exact H|]. intros res. apply le_o_bind; [apply le_o_refl|]. intros [rules|w]; [|apply le_o_refl].
  destruct da as [d|]; [|apply le_o_refl]. apply le_o_bind; [apply parse_with_indent_r_mono; exact H|]. intros. apply le_o_refl.
Qed.
