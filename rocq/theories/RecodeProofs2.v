(** Recoding: the readers of the examples, and whole texts. *)
From Coq Require Import List NArith Bool Arith Lia.
From Verif Require Import Base Ext Types OptimizeModel PegSpec DataSpec ApiSpec OptSpec PrimProofs PegFacts PegProofs ParseProofs ParsePublic OptPublic
  BreakProofs3 RecodeSpec RecodeProofs.
Import ListNotations.

Section Std.
  Variable f : char -> char.
  Hypothesis Hinj : forall c d, f c = f d -> c = d.
  Hypothesis Hfix : forall c, (c < 128)%N -> f c = c.
  Hypothesis Hws : forall c, is_ws (f c) = is_ws c.

  Lemma low_or c : ((c < 128)%N /\ f c = c) \/ ((128 <= c)%N /\ (128 <= f c)%N).
  Proof.
    destruct (N.lt_ge_cases c 128) as [H|H]; [left; auto|]. right. split; [exact H|].
    destruct (N.lt_ge_cases (f c) 128) as [H'|H']; [|exact H']. pose proof (Hfix _ H') as He. apply Hinj in He. lia.
  Qed.

  Lemma eqb_low c k : (k <? 128)%N = true -> N.eqb (f c) k = N.eqb c k.
  Proof.
    intros Hk. apply N.ltb_lt in Hk. destruct (low_or c) as [[_ ->]|[H1 H2]]; [reflexivity|].
    transitivity false; [apply N.eqb_neq; lia|symmetry; apply N.eqb_neq; lia].
  Qed.

  Lemma digit_low c : is_digit (f c) = is_digit c.
  Proof.
    destruct (low_or c) as [[_ ->]|[H1 H2]]; [reflexivity|]. unfold is_digit.
    assert (G : forall x, (128 <= x)%N -> (x <=? 57)%N = false) by (intros x Hx; apply N.leb_gt; lia).
    rewrite !G by assumption. rewrite !andb_false_r. reflexivity.
  Qed.

  Lemma hex_low c : hex_digit (f c) = hex_digit c.
  Proof.
    destruct (low_or c) as [[_ ->]|[H1 H2]]; [reflexivity|]. unfold hex_digit, is_digit.
    assert (G : forall x y, (128 <= x)%N -> (y <? 128)%N = true -> (x <=? y)%N = false)
      by (intros x y Hx Hy; apply N.ltb_lt in Hy; apply N.leb_gt; lia).
    rewrite !(G (f c)), !(G c) by (assumption || reflexivity). rewrite !andb_false_r. reflexivity.
  Qed.

  Lemma number_low u s : forall a b c d e n, std_number_go u (map f s) a b c d e n = std_number_go u s a b c d e n.
  Proof.
    induction s as [|x s IH]; intros a b c d e n; [reflexivity|]. cbn [map std_number_go].
    rewrite digit_low, !eqb_low by reflexivity. rewrite !IH. reflexivity.
  Qed.

  Definition low (c : char) : Prop := (c < 128)%N.

  Lemma map_low l : Forall low l -> map f l = l.
  Proof. induction 1 as [|c l Hc _ IH]; [reflexivity|]. cbn. rewrite IH, (Hfix _ Hc). reflexivity. Qed.

  Lemma number_consumes u s : forall a b c d e n k, std_number_go u s a b c d e n = Some k ->
    n <= k /\ Forall low (firstn (k - n) s).
  Proof.
    induction s as [|x s IH]; intros a b c d e n k.
    - cbn. destruct b; [|discriminate]. intros [= <-]. rewrite Nat.sub_diag. split; [lia|constructor].
    - assert (Hgo : low x -> forall a b c d e, std_number_go u s a b c d e (S n) = Some k ->
        n <= k /\ Forall low (firstn (k - n) (x :: s))).
      { intros Hx a' b' c' d' e' H. apply IH in H as [H1 H2]. split; [lia|].
        replace (k - n) with (S (k - S n)) by lia. constructor; assumption. }
      assert (Htwo : forall y z, (y <? 128)%N = true -> (z <? 128)%N = true -> ((x =? y) || (x =? z))%N = true -> low x).
      { intros y z Hy Hz H. apply N.ltb_lt in Hy, Hz. apply orb_true_iff in H as [H|H]; apply N.eqb_eq in H; subst x; assumption. }
      assert (Hany : forall y, (y <? 128)%N = true -> (x =? y)%N = true -> low x).
      { intros y Hy H. apply N.ltb_lt in Hy. apply N.eqb_eq in H. subst x. exact Hy. }
      cbn [std_number_go].
      destruct (is_digit x) eqn:H1.
      { apply Hgo. unfold is_digit in H1. apply andb_true_iff in H1 as [_ H1]. apply N.leb_le in H1. unfold low. lia. }
      destruct (a && _) eqn:H2. { apply andb_true_iff in H2 as [_ H2]. apply Hgo. eapply Htwo; [| |exact H2]; reflexivity. }
      destruct (e && _) eqn:H3. { apply andb_true_iff in H3 as [_ H3]. apply Hgo. eapply Htwo; [| |exact H3]; reflexivity. }
      destruct (u && b && _) eqn:H4. { apply andb_true_iff in H4 as [_ H4]. apply Hgo. eapply Hany; [|exact H4]; reflexivity. }
      destruct (negb c && negb d && _) eqn:H5. { apply andb_true_iff in H5 as [_ H5]. apply Hgo. eapply Hany; [|exact H5]; reflexivity. }
      destruct (b && negb d && _) eqn:H6. { apply andb_true_iff in H6 as [_ H6]. apply Hgo. eapply Htwo; [| |exact H6]; reflexivity. }
      destruct b; [|discriminate]. intros [= <-]. rewrite Nat.sub_diag. split; [lia|constructor].
  Qed.

  Lemma string_low s : forall esc n, std_string_go (map f s) esc n = std_string_go s esc n.
  Proof.
    induction s as [|c s IH]; intros esc n; [reflexivity|]. cbn [map std_string_go].
    rewrite !eqb_low by reflexivity. rewrite !IH. reflexivity.
  Qed.

  Lemma u4_low s : u4 (map f s) = match u4 s with Some (v, r) => Some (v, map f r) | None => None end.
  Proof.
    destruct s as [|a [|b [|c [|d s]]]]; try reflexivity. cbn [map u4]. rewrite !hex_low.
    destruct (hex_digit a), (hex_digit b), (hex_digit c), (hex_digit d); reflexivity.
  Qed.

  Lemma u4_shorter s v r : u4 s = Some (v, r) -> length r < length s.
  Proof.
    destruct s as [|a [|b [|c [|d s]]]]; try discriminate. cbn [u4].
    destruct (hex_digit a), (hex_digit b), (hex_digit c), (hex_digit d); try discriminate. intros [= _ <-]. cbn. lia.
  Qed.

  Lemma unescape_low k : forall s n acc acc', length s <= k ->
    match std_unescape s n acc, std_unescape (map f s) n acc' with
    | inl v, inl v' => length v <= length acc + pred (length s) /\ (~ In backslash s -> acc' = map f acc -> v' = map f v)
    | inr e, inr e' => e' = e
    | _, _ => False
    end.
  Proof.
    induction k as [|k IH]; intros s n acc acc' Hk.
    { destruct s; [|cbn in Hk; lia]. cbn. rewrite rev_length. split; [lia|]. intros _ ->. rewrite map_rev. reflexivity. }
    assert (Hend : length (rev acc) <= length acc + pred (length s) /\
      (~ In backslash s -> acc' = map f acc -> rev acc' = map f (rev acc))).
    { rewrite rev_length. split; [lia|]. intros _ ->. rewrite map_rev. reflexivity. }
    destruct s as [|c [|d s]]; [exact Hend|exact Hend|].
    destruct (N.eq_dec c backslash) as [->|Hc].
    - assert (Hgo : forall r n y, length r <= length s ->
        match std_unescape r n (y :: acc), std_unescape (map f r) n (y :: acc') with
        | inl v, inl v' => length v <= length acc + pred (length (backslash :: d :: s)) /\
          (~ In backslash (backslash :: d :: s) -> acc' = map f acc -> v' = map f v)
        | inr e, inr e' => e' = e
        | _, _ => False
        end).
      { intros r m y Hr. cbn [length] in Hk. specialize (IH r m (y :: acc) (y :: acc') ltac:(lia)).
        destruct (std_unescape r m (y :: acc)), (std_unescape (map f r) m (y :: acc')); try exact IH.
        split; [cbn [length pred] in *; lia|]. intros Hn. destruct Hn. left. reflexivity. }
      destruct (N.eq_dec d 117) as [->|Hd].
      + cbn [map]. rewrite (Hfix backslash), (Hfix 117%N) by reflexivity. rewrite !unescape_u, u4_low.
        destruct (u4 s) as [[v r]|] eqn:H4; [|reflexivity]. destruct (valid_charb v); [|reflexivity].
        apply Hgo. apply u4_shorter in H4. lia.
      + apply N.eqb_neq in Hd. cbn [map std_unescape]. rewrite !eqb_low by reflexivity. rewrite Hd.
        change (N.eqb backslash backslash) with true. cbn iota.
        repeat match goal with |- context [if N.eqb d ?x then _ else _] =>
          destruct (N.eqb d x); [apply Hgo; lia|] end.
        reflexivity.
    - apply N.eqb_neq in Hc. cbn [length] in Hk. specialize (IH (d :: s) (n + 1) (c :: acc) (f c :: acc') ltac:(cbn; lia)).
      cbn [map] in *. cbn [std_unescape]. rewrite (eqb_low c) by reflexivity. rewrite Hc.
      change (match std_unescape (d :: s) (n + 1) (c :: acc), std_unescape (f d :: map f s) (n + 1) (f c :: acc') with
        | inl v, inl v' => length v <= length acc + pred (length (c :: d :: s)) /\
          (~ In backslash (c :: d :: s) -> acc' = map f acc -> v' = map f v)
        | inr e, inr e' => e' = e
        | _, _ => False
        end).
      destruct (std_unescape (d :: s) _ _), (std_unescape (f d :: map f s) _ _); try exact IH.
      destruct IH as [H1 H2]. split; [cbn [length pred] in *; lia|]. intros Hn ->. apply H2; [|reflexivity].
      intros Hin. apply Hn. right. exact Hin.
  Qed.

  Theorem std_recoding : recoding std_ext f.
  Proof.
    split.
    - exact Hinj.
    - intros c. unfold white. rewrite Hws. reflexivity.
    - apply Hfix. reflexivity.
    - apply Hfix. reflexivity.
    - apply Hfix. reflexivity.
    - intros u s. apply number_low.
    - intros u s n H. cbn [std_ext x_number x_parse_number] in *. apply number_consumes in H as [_ H].
      rewrite Nat.sub_0_r in H. rewrite (map_low _ H). reflexivity.
    - intros [|c s]; [reflexivity|]. cbn [std_ext x_string map std_string]. rewrite eqb_low by reflexivity.
      rewrite string_low. reflexivity.
    - intros s n H. cbn [std_ext x_string x_parse_string] in *.
      destruct (firstn n s) as [|q l]; [cbn; reflexivity|]. cbn [map std_parse_string].
      pose proof (unescape_low (length l) l 1 [] [] (le_n _)) as G.
      destruct (std_unescape l 1 []) as [v|e], (std_unescape (map f l) 1 []) as [v'|e']; try exact G.
      destruct G as [G1 G2]. intros [Hv|Hb].
      + subst v. cbn in G1. lia.
      + apply G2; [|reflexivity]. intros Hin. apply Hb. right. exact Hin.
    - intros s. reflexivity.
  Qed.
End Std.

Section Whole.
  Variable E : ext.
  Hypothesis HE : ext_ok E.
  Variable f : char -> char.
  Hypothesis HR : recoding E f.
  Variable s : syntax.
  Hypothesis Hplain : no_tables s.

  Lemma start_recode r : start_rule s r -> start_rule (recode_syntax f s) (recode_rule f r).
  Proof. intros (rules & H). exists (map (recode_rule f) rules). cbn. rewrite H, map_app. reflexivity. Qed.

  Lemma depth_recode e : depth (recode_error f e) = depth e.
  Proof. destruct e as [r []]; reflexivity. Qed.

  Lemma newest_recode tr e : newest_deepest tr e -> newest_deepest (map (recode_error f) tr) (recode_error f e).
  Proof.
    intros (older & newer & -> & H1 & H2). exists (map (recode_error f) older), (map (recode_error f) newer).
    rewrite map_app. split; [reflexivity|]. rewrite !Forall_map.
    split; eapply Forall_impl; [|exact H1| |exact H2]; intros x Hx; rewrite !depth_recode; exact Hx.
  Qed.

  Theorem parse_recode tokens ind text :
    (forall out, parse_returns E s text tokens ind None (tokens ++ out) ->
      exists out', parse_returns E (recode_syntax f s) (map f text) tokens ind None (tokens ++ out') /\
        Forall2 (recoded_token f text) out out') /\
    (forall e left_, parse_returns E s text tokens ind (Some e) left_ ->
      exists left_', parse_returns E (recode_syntax f s) (map f text) tokens ind (Some (recode_error f e)) left_').
  Proof.
    split.
    - intros out Hp. apply parse_accepts in Hp as (out0 & Ha & Heq); [|exact HE]. apply app_inv_head in Heq. subst out0.
      destruct Ha as [r out0 ind' tr Hst R].
      destruct (proj1 (reads_recode E f HR s Hplain text) _ _ _ _ _ _ _ R (start_occurs s r Hst) eq_refl) as (v' & R' & V).
      apply vrec_yes in V as (out' & -> & Hout). rewrite <- (map_length f text) in R'.
      exists out'. split; [|exact Hout]. apply parse_accepts; [exact HE|]. exists out'. split; [|reflexivity].
      eapply accepts_all; [apply start_recode; exact Hst|exact R'].
    - intros e l Hp. apply parse_rejects in Hp as (tr & junk & Hr & Hn & _).
      assert (Hr' : rejects E (recode_syntax f s) ind (map f text) (map (recode_error f) tr)).
      { destruct Hr as [H0|r ind' tr0 Hst R|r n out ind' tr0 Hst R Hlt].
        - apply rejects_no_rules. cbn. rewrite H0. reflexivity.
        - destruct (proj1 (reads_recode E f HR s Hplain text) _ _ _ _ _ _ _ R (start_occurs s r Hst) eq_refl) as (v' & R' & V).
          apply vrec_no in V as ->. eapply rejects_fail; [apply start_recode; exact Hst|exact R'].
        - destruct (proj1 (reads_recode E f HR s Hplain text) _ _ _ _ _ _ _ R (start_occurs s r Hst) eq_refl) as (v' & R' & V).
          apply vrec_yes in V as (out' & -> & Hout). rewrite map_app. cbn [map recode_error].
          eapply rejects_early; [apply start_recode; exact Hst|exact R'|]. rewrite map_length. exact Hlt. }
      destruct (rejects_parse E HE _ _ _ tokens _ Hr') as (e' & l' & Hp').
      destruct (error_is_newest_deepest _ _ _ _ _ _ _ Hp') as [_ He]. apply He, best_spec in Hr'.
      apply newest_recode, best_spec in Hn. exists l'. congruence.
  Qed.

  (** The same for the optimised rules, as far as acceptance goes. *)
  Corollary optimised_recode o o' tokens ind text :
    optimize_returns s o -> optimize_returns (recode_syntax f s) o' ->
    tails_fail_at_end E s -> tails_fail_at_end E (recode_syntax f s) ->
    Forall real_char text -> Forall real_char (map f text) ->
    forall out, parse_returns E o text tokens ind None (tokens ++ out) ->
    exists out', parse_returns E o' (map f text) tokens ind None (tokens ++ out') /\
      Forall2 (recoded_token f text) out out'.
  Proof.
    intros Ho Ho' Ht Ht' Hr Hr' out Hp.
    apply (optimize_accepts E HE s o Ho Ht text tokens ind Hr) in Hp.
    destruct (proj1 (parse_recode tokens ind text) out Hp) as (out' & Hp' & H).
    exists out'. split; [|exact H]. apply (optimize_accepts E HE _ o' Ho' Ht' _ tokens ind Hr'). exact Hp'.
  Qed.
End Whole.
