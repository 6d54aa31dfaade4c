(** The concrete instance meets the laws assumed of the external functions. *)
From Coq Require Import List NArith Bool Arith Lia.
From Verif Require Import Base Ext.
Import ListNotations.

Lemma std_number_go_bounds u s : forall sign digit dot expo esign n m,
  (digit = true -> 1 <= n) ->
  std_number_go u s sign digit dot expo esign n = Some m -> 1 <= m /\ n <= m <= n + length s.
Proof.
  induction s as [|c s IH]; intros sign digit dot expo esign n m Hd H; cbn [std_number_go] in H.
  - destruct digit; [|discriminate]. injection H as <-. specialize (Hd eq_refl). simpl. lia.
  - simpl length.
    repeat match type of H with
    | (if ?b then _ else _) = Some _ => destruct b eqn:?
    | std_number_go _ _ _ _ _ _ _ _ = Some _ =>
      apply IH in H; [lia|intros; try lia; try (specialize (Hd ltac:(assumption)); lia)]
    end; try discriminate.
    injection H as <-. specialize (Hd eq_refl). lia.
Qed.

Lemma std_string_go_bounds s : forall esc n m,
  std_string_go s esc n = Some m -> S n <= m <= n + length s.
Proof.
  induction s as [|c s IH]; intros esc n m H; cbn [std_string_go] in H; [discriminate|].
  simpl length.
  destruct esc; [apply IH in H; lia|].
  destruct (N.eqb c backslash); [apply IH in H; lia|].
  destruct (N.eqb c quote); [injection H as <-; lia|apply IH in H; lia].
Qed.

Lemma std_unescape_bounds k : forall s n acc r e, length s <= k ->
  std_unescape s n acc = inr (r, e) -> next_offset r <= n + length s.
Proof.
  induction k as [|k IH]; intros s n acc r e Hk H.
  - destruct s; [discriminate|simpl in Hk; lia].
  - destruct s as [|c [|d s]]; [discriminate|discriminate|].
    cbn [std_unescape] in H. destruct (N.eqb c backslash).
    + simpl in Hk.
      repeat match type of H with
      | (if ?b then _ else _) = inr _ => destruct b
      | std_unescape _ _ _ = inr _ => apply IH in H; simpl in *; lia
      end; try (injection H as <- <-; unfold next_offset; simpl; lia).
      destruct s as [|a1 [|a2 [|a3 [|a4 s4]]]];
        try (injection H as <- <-; unfold next_offset; simpl; lia).
      destruct (hex_digit a1), (hex_digit a2), (hex_digit a3), (hex_digit a4);
        try (injection H as <- <-; unfold next_offset; simpl; lia).
      cbv zeta in H. destruct (valid_charb _).
      * apply IH in H; simpl in *; lia.
      * injection H as <- <-. unfold next_offset. simpl. lia.
    + change (std_unescape (d :: s) (n + 1) (c :: acc) = inr (r, e)) in H.
      apply IH in H; simpl in *; lia.
Qed.

Lemma std_ext_ok : ext_ok std_ext.
Proof.
  constructor.
  - intros u s n H. simpl in H. unfold std_number in H. apply std_number_go_bounds in H; [lia|].
    discriminate.
  - intros s n H. simpl in H. unfold std_string in H. destruct s as [|c s]; [discriminate|].
    destruct (N.eqb_spec c quote) as [->|]; [|discriminate].
    apply std_string_go_bounds in H. simpl. split; [lia|reflexivity].
  - intros s r e H. simpl in H. unfold std_parse_string in H. destruct s as [|c s]; [discriminate|].
    eapply std_unescape_bounds in H; [|apply le_n]. simpl. lia.
  - intros s. simpl. unfold next_offset. simpl. lia.
Qed.
