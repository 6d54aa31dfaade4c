(** Conversion: more fuel changes nothing but [OutOfFuel]. *)
From Coq Require Import Ascii String List NArith Bool Arith Lia.
From Verif Require Import Base Ext Types ParseModel ConvertModel ConvertSpec FuelProofs.
Import ListNotations.
Local Open Scope string_scope.
Local Open Scope list_scope.
Local Open Scope nat_scope.

Definition le_r (P Q : reader) : Prop := forall c st, le_o (P c st) (Q c st).

(** The two sides have the same shape. *)
Ltac mono IH :=
  repeat first
    [ apply le_o_refl
    | apply IH; solve [lia | assumption]
    | apply le_o_bind; [|intros ?]
    | match goal with
      | |- le_o (match ?x with _ => _ end) (match ?x with _ => _ end) => destruct x
      | H : le_r ?P ?Q |- le_o (?P _ _) (?Q _ _) => apply H
      end ].

Lemma string_loop_mono : forall f g c n t, f <= g -> le_o (string_loop f c n t) (string_loop g c n t).
Proof.
  induction f as [|f IH]; intros g c n t Hg; [left; reflexivity|].
  destruct g as [|g]; [lia|]. cbn [string_loop]. mono IH.
Qed.

Lemma read_string_mono f g c : f <= g -> le_o (read_string f c) (read_string g c).
Proof. intros Hg. unfold read_string. mono string_loop_mono. Qed.

Lemma set_loop_mono p ss : forall f g c t, f <= g -> le_o (set_loop f p ss c t) (set_loop g p ss c t).
Proof.
  induction f as [|f IH]; intros g c t Hg; [left; reflexivity|].
  destruct g as [|g]; [lia|]. cbn [set_loop]. mono IH.
Qed.

Lemma read_set_mono f g p c ss : f <= g -> le_o (read_set f p c ss) (read_set g p c ss).
Proof. intros Hg. unfold read_set. mono set_loop_mono. Qed.

Lemma until_loop_mono node ss : forall f g c a o p ig, f <= g ->
  le_o (until_loop f node ss c a o p ig) (until_loop g node ss c a o p ig).
Proof.
  induction f as [|f IH]; intros g c a o p ig Hg; [left; reflexivity|].
  destruct g as [|g]; [lia|]. cbn [until_loop].
  repeat first [apply read_set_mono; lia|mono IH].
Qed.

Lemma read_until_mono f g node mk ss : f <= g -> le_r (read_until f node mk ss) (read_until g node mk ss).
Proof. intros Hg c st. unfold read_until. mono until_loop_mono. Qed.

Lemma tag_loop_mono ss : forall f g c t p n i ig, f <= g ->
  le_o (tag_loop f ss c t p n i ig) (tag_loop g ss c t p n i ig).
Proof.
  induction f as [|f IH]; intros g c t p n i ig Hg; [left; reflexivity|].
  destruct g as [|g]; [lia|]. cbn [tag_loop].
  repeat first [apply read_set_mono; lia|mono IH].
Qed.

Lemma read_tag_mono f g ss : f <= g -> le_r (read_tag f ss) (read_tag g ss).
Proof. intros Hg c st. unfold read_tag. mono tag_loop_mono. Qed.

Lemma flag_loop_mono node flag ss : forall f g c b p ig, f <= g ->
  le_o (flag_loop f node flag ss c b p ig) (flag_loop g node flag ss c b p ig).
Proof.
  induction f as [|f IH]; intros g c b p ig Hg; [left; reflexivity|].
  destruct g as [|g]; [lia|]. cbn [flag_loop].
  repeat first [apply read_set_mono; lia|mono IH].
Qed.

Lemma read_text_mono f g ss : f <= g -> le_r (read_text f ss) (read_text g ss).
Proof. intros Hg c st. unfold read_text. mono flag_loop_mono. Qed.

Lemma read_number_mono f g ss : f <= g -> le_r (read_number f ss) (read_number g ss).
Proof. intros Hg c st. unfold read_number. mono flag_loop_mono. Qed.

Lemma reference_loop_mono ss : forall f g c n p ig, f <= g ->
  le_o (reference_loop f ss c n p ig) (reference_loop g ss c n p ig).
Proof.
  induction f as [|f IH]; intros g c n p ig Hg; [left; reflexivity|].
  destruct g as [|g]; [lia|]. cbn [reference_loop].
  repeat first [apply read_set_mono; lia|mono IH].
Qed.

Lemma read_reference_mono f g ss : f <= g -> le_r (read_reference f ss) (read_reference g ss).
Proof. intros Hg c st. unfold read_reference. mono reference_loop_mono. Qed.

Lemma args_loop_mono P Q node : le_r P Q -> forall f g c args st, f <= g ->
  le_o (args_loop f P node c args st) (args_loop g Q node c args st).
Proof.
  intros HP. induction f as [|f IH]; intros g c args st Hg; [left; reflexivity|].
  destruct g as [|g]; [lia|]. cbn [args_loop]. mono IH.
Qed.

Lemma read_args_mono P Q f g node mk : le_r P Q -> f <= g ->
  le_r (read_args f P node mk) (read_args g Q node mk).
Proof. intros HP Hg c st. unfold read_args. mono (args_loop_mono P Q node HP). Qed.

Lemma read_wrap_mono P Q node mk : le_r P Q -> le_r (read_wrap P node mk) (read_wrap Q node mk).
Proof. intros HP c st. unfold read_wrap. mono I. Qed.

Lemma sep_by_loop_mono P Q P' Q' : le_r P Q -> le_r P' Q' -> forall f g c o t b r st, f <= g ->
  le_o (sep_by_loop f P P' c o t b r st) (sep_by_loop g Q Q' c o t b r st).
Proof.
  intros HP HP'. induction f as [|f IH]; intros g c o t b r st Hg; [left; reflexivity|].
  destruct g as [|g]; [lia|]. cbn [sep_by_loop]. mono IH.
Qed.

Lemma read_separated_by_mono P Q P' Q' f g : le_r P Q -> le_r P' Q' -> f <= g ->
  le_r (read_separated_by f P P') (read_separated_by g Q Q').
Proof.
  intros HP HP' Hg c st. unfold read_separated_by. mono (sep_by_loop_mono P Q P' Q' HP HP').
Qed.

Lemma read_lines_mono P Q : le_r P Q -> le_r (read_lines P) (read_lines Q).
Proof. intros HP c st. unfold read_lines. mono I. Qed.

Lemma rep_loop_mono P Q : le_r P Q -> forall f g c r o st, f <= g ->
  le_o (rep_loop f P c r o st) (rep_loop g Q c r o st).
Proof.
  intros HP. induction f as [|f IH]; intros g c r o st Hg; [left; reflexivity|].
  destruct g as [|g]; [lia|]. cbn [rep_loop]. mono IH.
Qed.

Lemma read_repeat_mono P Q f g : le_r P Q -> f <= g -> le_r (read_repeat f P) (read_repeat g Q).
Proof. intros HP Hg c st. unfold read_repeat. mono (rep_loop_mono P Q HP). Qed.

Lemma first_reader_mono l l' : Forall2 le_r l l' -> le_r (first_reader l) (first_reader l').
Proof.
  induction 1 as [|P Q l l' HP Hl IH]; intros c st; cbn [first_reader]; [apply le_o_refl|].
  apply le_o_bind; [apply HP|]. intros [[x|] st']; [apply le_o_refl|apply IH].
Qed.

Lemma read_rule_mono ss : forall f g p, f <= g -> le_r (read_rule f p ss) (read_rule g p ss).
Proof.
  induction f as [|f IH]; intros g p Hg c st; [left; reflexivity|].
  destruct g as [|g]; [lia|]. cbn [read_rule]. cbv zeta.
  assert (Hr : forall p, le_r (read_rule f p ss) (read_rule g p ss)) by (intros q; apply IH; lia).
  destruct (c_start_node c p); [|apply le_o_refl].
  apply le_o_bind; [apply le_o_refl|]. intros c1.
  apply le_o_bind; [|intros; apply le_o_refl].
  apply first_reader_mono.
  repeat (apply Forall2_cons); [..|apply Forall2_nil].
  - apply read_args_mono; [apply Hr|lia].
  - apply read_until_mono. lia.
  - apply read_until_mono. lia.
  - apply read_tag_mono. lia.
  - intros ? ?. apply le_o_refl.
  - apply read_text_mono. lia.
  - apply read_number_mono. lia.
  - apply read_reference_mono. lia.
  - apply read_args_mono; [apply Hr|lia].
  - apply read_wrap_mono. apply Hr.
  - apply read_wrap_mono. apply Hr.
  - apply read_separated_by_mono; [apply Hr|apply Hr|lia].
  - apply read_lines_mono. apply Hr.
  - apply read_repeat_mono; [apply Hr|lia].
Qed.

Lemma node_loop_mono ss : forall f g c id n r ig, f <= g ->
  le_o (node_loop f ss c id n r ig) (node_loop g ss c id n r ig).
Proof.
  induction f as [|f IH]; intros g c id n r ig Hg; [left; reflexivity|].
  destruct g as [|g]; [lia|]. cbn [node_loop].
  repeat first [apply read_rule_mono; lia|mono IH].
Qed.

Lemma read_node_mono f g ss c ig : f <= g -> le_o (read_node f ss c ig) (read_node g ss c ig).
Proof. intros Hg. unfold read_node. mono node_loop_mono. Qed.

Lemma strings_loop_mono : forall f g c ss, f <= g -> le_o (strings_loop f c ss) (strings_loop g c ss).
Proof.
  induction f as [|f IH]; intros g c ss Hg; [left; reflexivity|].
  destruct g as [|g]; [lia|]. cbn [strings_loop].
  repeat first [apply read_string_mono; lia|mono IH].
Qed.

Lemma nodes_loop_mono ss : forall f g c s ig, f <= g ->
  le_o (nodes_loop f ss c s ig) (nodes_loop g ss c s ig).
Proof.
  induction f as [|f IH]; intros g c s ig Hg; [left; reflexivity|].
  destruct g as [|g]; [lia|]. cbn [nodes_loop].
  repeat first [apply read_node_mono; lia|mono IH].
Qed.

Lemma convert_mono f g data ig : f <= g -> le_o (convert f data ig) (convert g data ig).
Proof.
  intros Hg. unfold convert. apply le_o_bind; [apply strings_loop_mono; exact Hg|].
  intros [c ss]. apply le_o_bind; [apply nodes_loop_mono; exact Hg|]. intros. apply le_o_refl.
Qed.

(** Any two runs that end agree. *)
Lemma convert_agree f g data ig : convert f data ig <> OutOfFuel -> convert g data ig <> OutOfFuel ->
  convert f data ig = convert g data ig.
Proof.
  intros Hf Hg. destruct (Nat.le_ge_cases f g) as [H|H]; apply (convert_mono _ _ data ig) in H;
    destruct H; congruence.
Qed.
