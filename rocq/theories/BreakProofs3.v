(** Line breaks: the readers of the examples, optimisation and whole texts. *)
From Coq Require Import List NArith Bool Arith Lia.
From Verif Require Import Base Ext Types OptimizeModel PegSpec DataSpec ApiSpec OptSpec PrimProofs PegFacts OptProofs OptProofs2
  ParseProofs BreakSpec BreakProofs BreakProofs2.
Import ListNotations.

(** ** Numbers *)

Lemma std_number_breaks u s s' : same_breaks s s' -> forall a b c d e n k,
  std_number_go u s a b c d e n = Some k ->
  std_number_go u s' a b c d e n = Some k /\ n <= k /\ firstn (k - n) s' = firstn (k - n) s /\
  same_breaks (skipn (k - n) s) (skipn (k - n) s').
Proof.
  assert (Hstop : forall x s (b : bool) a c d e n, (x = newline \/ x = carriage) ->
    std_number_go u (x :: s) a b c d e n = if b then Some n else None).
  { intros x t b a c d e n [-> | ->]; cbn; rewrite !andb_false_r; reflexivity. }
  assert (Hend : forall (b : bool) (s s' : str) n k, same_breaks s s' -> (if b then Some n else None) = Some k ->
    (if b then Some n else None) = Some k /\ n <= k /\ firstn (k - n) s' = firstn (k - n) s /\
    same_breaks (skipn (k - n) s) (skipn (k - n) s')).
  { intros b t t' n k H Hk. destruct b; [|discriminate]. injection Hk as <-. rewrite Nat.sub_diag.
    split; [reflexivity|]. split; [lia|]. split; [reflexivity|exact H]. }
  induction 1 as [|x s s' H IH|s s' H IH|s s' H IH]; intros a b c d e n k.
  - apply Hend. constructor.
  - assert (Hgo : forall a b c d e, std_number_go u s a b c d e (S n) = Some k ->
      std_number_go u s' a b c d e (S n) = Some k /\ n <= k /\ firstn (k - n) (x :: s') = firstn (k - n) (x :: s) /\
      same_breaks (skipn (k - n) (x :: s)) (skipn (k - n) (x :: s'))).
    { intros a' b' c' d' e' Hg. destruct (IH _ _ _ _ _ _ _ Hg) as (H1 & H2 & H3 & H4).
      replace (k - n) with (S (k - S n)) by lia. cbn [firstn skipn].
      split; [exact H1|]. split; [lia|]. split; [rewrite H3; reflexivity|exact H4]. }
    cbn [std_number_go].
    repeat match goal with |- context [if ?b then std_number_go _ _ _ _ _ _ _ _ else _] => destruct b; [apply Hgo|] end.
    apply Hend. constructor. exact H.
  - rewrite !Hstop by auto. apply Hend. constructor. exact H.
  - rewrite !Hstop by auto. apply Hend. constructor. exact H.
Qed.

(** ** Texts *)

Lemma std_string_breaks s s' : same_breaks s s' -> forall esc n n' k, std_string_go s esc n = Some k ->
  exists t t' r r', s = t ++ quote :: r /\ s' = t' ++ quote :: r' /\ same_breaks t t' /\ same_breaks r r' /\
    k = n + S (length t) /\ std_string_go s' esc n' = Some (n' + S (length t')).
Proof.
  assert (Hgo : forall u u' (s s' : str) n n' k esc1 esc2,
    same_breaks u u' ->
    (exists t t' r r', s = t ++ quote :: r /\ s' = t' ++ quote :: r' /\ same_breaks t t' /\ same_breaks r r' /\
      k = n + length u + S (length t) /\ std_string_go s' esc1 (n' + length u') = Some (n' + length u' + S (length t'))) ->
    std_string_go (u' ++ s') esc2 n' = std_string_go s' esc1 (n' + length u') ->
    exists t t' r r', u ++ s = t ++ quote :: r /\ u' ++ s' = t' ++ quote :: r' /\ same_breaks t t' /\ same_breaks r r' /\
      k = n + S (length t) /\ std_string_go (u' ++ s') esc2 n' = Some (n' + S (length t'))).
  { intros u u' t t' n n' k e1 e2 Hu (a & a' & r & r' & -> & -> & Ha & Hr & -> & Hg) He.
    exists (u ++ a), (u' ++ a'), r, r'. rewrite <- !app_assoc. split; [reflexivity|]. split; [reflexivity|].
    split; [apply sb_app; assumption|]. split; [exact Hr|]. rewrite !app_length. split; [lia|].
    rewrite He, Hg. f_equal. lia. }
  induction 1 as [|x s s' H IH|s s' H IH|s s' H IH]; intros esc n n' k; [discriminate|..].
  - cbn [std_string_go]. intros Hk.
    assert (Hx : same_breaks [x] [x]) by apply sb_refl.
    destruct esc.
    + apply (Hgo [x] [x] s s' n n' k false true Hx); cbn [length app std_string_go]; rewrite !Nat.add_1_r; [apply IH; exact Hk|reflexivity].
    + destruct (N.eqb x backslash) eqn:Hb.
      * pose proof (Hgo [x] [x] s s' n n' k true false Hx) as G. cbn [length app std_string_go] in G. rewrite Hb, !Nat.add_1_r in G.
        apply G; [apply IH; exact Hk|reflexivity].
      * destruct (N.eqb x quote) eqn:Hq.
        -- apply N.eqb_eq in Hq. subst x. injection Hk as <-. exists [], [], s, s'. cbn [app length].
           repeat (split; [first [reflexivity|constructor|assumption|lia]|]). f_equal. lia.
        -- pose proof (Hgo [x] [x] s s' n n' k false false Hx) as G. cbn [length app std_string_go] in G. rewrite Hb, Hq, !Nat.add_1_r in G.
           apply G; [apply IH; exact Hk|reflexivity].
  - intros Hk. apply (Hgo [newline] [carriage; newline] s s' n n' k false esc (sb_add _ _ sb_nil)); cbn [length app].
    + rewrite Nat.add_1_r. apply IH. destruct esc; exact Hk.
    + replace (n' + 2) with (S (S n')) by lia. destruct esc; reflexivity.
  - intros Hk. apply (Hgo [carriage; newline] [newline] s s' n n' k false esc (sb_drop _ _ sb_nil)); cbn [length app].
    + replace (n + 2) with (S (S n)) by lia. apply IH. destruct esc; exact Hk.
    + rewrite Nat.add_1_r. destruct esc; reflexivity.
Qed.

Definition u4 (s : str) : option (N * str) :=
  match s with
  | a :: b :: c :: d :: s4 =>
    match hex_digit a, hex_digit b, hex_digit c, hex_digit d with
    | Some x3, Some x2, Some x1, Some x0 => Some ((((x3 * 16 + x2) * 16 + x1) * 16 + x0)%N, s4)
    | _, _, _, _ => None
    end
  | _ => None
  end.

Lemma unescape_u s n acc : std_unescape (backslash :: 117%N :: s) n acc =
  match u4 s with
  | Some (v, s4) => if valid_charb v then std_unescape s4 (n + 6) (v :: acc) else inr (Rng n 6, BadUnicodeValue v)
  | None => inr (Rng n 2, BadUnicode)
  end.
Proof.
  unfold u4. destruct s as [|a [|b [|c [|d s4]]]]; try reflexivity.
  cbn [std_unescape]. change (N.eqb backslash backslash) with true. cbn -[hex_digit valid_charb std_unescape].
  destruct (hex_digit a), (hex_digit b), (hex_digit c), (hex_digit d); reflexivity.
Qed.

Lemma hex_same x t s' : same_breaks (x :: t) s' -> hex_digit x <> None ->
  exists t', s' = x :: t' /\ same_breaks t t'.
Proof. intros H Hx. inversion H; subst; [eauto|exfalso; apply Hx; reflexivity..]. Qed.

Lemma hex_head x a t s : t ++ [quote] = x :: s -> hex_digit x = Some a -> exists t1, t = x :: t1 /\ t1 ++ [quote] = s.
Proof.
  destruct t as [|y t]; cbn; intros [= Hx Hs] Ha; [subst; discriminate|]. subst. eauto.
Qed.

Lemma u4_breaks t t' v r : same_breaks t t' -> u4 (t ++ [quote]) = Some (v, r) ->
  exists t1 t1', r = t1 ++ [quote] /\ u4 (t' ++ [quote]) = Some (v, t1' ++ [quote]) /\ same_breaks t1 t1' /\ length t1 < length t.
Proof.
  intros H. unfold u4 at 1. destruct (t ++ [quote]) as [|a [|b [|c [|d s4]]]] eqn:Ht; try discriminate.
  destruct (hex_digit a) as [x3|] eqn:Ha; [|discriminate]. destruct (hex_digit b) as [x2|] eqn:Hb; [|discriminate].
  destruct (hex_digit c) as [x1|] eqn:Hc; [|discriminate]. destruct (hex_digit d) as [x0|] eqn:Hd; [|discriminate].
  intros [= <- <-].
  destruct (hex_head _ _ _ _ Ht Ha) as (t1 & -> & Ht1). destruct (hex_head _ _ _ _ Ht1 Hb) as (t2 & -> & Ht2).
  destruct (hex_head _ _ _ _ Ht2 Hc) as (t3 & -> & Ht3). destruct (hex_head _ _ _ _ Ht3 Hd) as (t4 & -> & Ht4).
  destruct (hex_same _ _ _ H ltac:(congruence)) as (t1' & -> & H1). destruct (hex_same _ _ _ H1 ltac:(congruence)) as (t2' & -> & H2).
  destruct (hex_same _ _ _ H2 ltac:(congruence)) as (t3' & -> & H3). destruct (hex_same _ _ _ H3 ltac:(congruence)) as (t4' & -> & H4).
  exists t4, t4'. split; [congruence|]. split; [cbn [app u4]; rewrite Ha, Hb, Hc, Hd; reflexivity|]. split; [exact H4|cbn; lia].
Qed.

Definition both (x y : str + (range * string_error)) : Prop :=
  match x, y with
  | inl v, inl v' => same_breaks v v'
  | inr _, inr _ => True
  | _, _ => False
  end.

Lemma unescape_plain c s x n acc : c <> backslash ->
  std_unescape (c :: s ++ [x]) n acc = std_unescape (s ++ [x]) (n + 1) (c :: acc).
Proof.
  intros Hc. apply N.eqb_neq in Hc. destruct s; cbn [app std_unescape]; rewrite Hc; reflexivity.
Qed.

Lemma std_unescape_breaks k : forall t t', length t <= k -> same_breaks t t' -> forall n n' acc acc',
  same_breaks (rev acc) (rev acc') ->
  both (std_unescape (t ++ [quote]) n acc) (std_unescape (t' ++ [quote]) n' acc').
Proof.
  induction k as [|k IH]; intros t t' Hk H n n' acc acc' Hacc.
  { destruct t; [|cbn in Hk; lia]. inversion H; subst. exact Hacc. }
  assert (Hput : forall x, same_breaks (rev (x :: acc)) (rev (x :: acc')))
    by (intros x; cbn [rev]; apply sb_app; [exact Hacc|apply sb_refl]).
  destruct H as [|c s s' H|s s' H|s s' H]; [exact Hacc|..].
  - cbn [length] in Hk. destruct (N.eq_dec c backslash) as [->|Hc].
    2: { cbn [app]. rewrite !unescape_plain by exact Hc. apply IH; [lia|exact H|apply Hput]. }
    destruct H as [|d s s' H|s s' H|s s' H].
    + cbn. exact (Hput quote).
    + cbn [length] in Hk. destruct (N.eq_dec d 117) as [->|Hu].
      * cbn [app]. rewrite !unescape_u.
        destruct (u4 (s ++ [quote])) as [[v r]|] eqn:H4.
        -- destruct (u4_breaks _ _ _ _ H H4) as (t1 & t1' & -> & -> & Ht & Hlt).
           destruct (valid_charb v); [|exact I]. apply IH; [lia|exact Ht|apply Hput].
        -- destruct (u4 (s' ++ [quote])) as [[v r]|] eqn:H4'; [|exact I].
           destruct (u4_breaks _ _ _ _ (sb_sym _ _ H) H4') as (t1 & t1' & _ & H5 & _). congruence.
      * cbn [app std_unescape]. apply N.eqb_neq in Hu. rewrite Hu. change (N.eqb backslash backslash) with true. cbn iota.
        destruct (s ++ [quote]) eqn:Hs; [destruct s; discriminate|]. destruct (s' ++ [quote]) eqn:Hs'; [destruct s'; discriminate|].
        rewrite <- Hs, <- Hs'.
        repeat match goal with |- context [if N.eqb d ?x then _ else _] =>
          destruct (N.eqb d x); [apply IH; [lia|exact H|apply Hput]|] end.
        exact I.
    + destruct s, s'; exact I.
    + destruct s, s'; exact I.
  - cbn [length] in Hk. cbn [app]. rewrite unescape_plain by discriminate.
    change (carriage :: newline :: s' ++ [quote]) with (carriage :: (newline :: s') ++ [quote]).
    rewrite unescape_plain by discriminate. cbn [app]. rewrite unescape_plain by discriminate.
    apply IH; [lia|exact H|]. cbn [rev]. rewrite <- app_assoc. apply sb_app; [exact Hacc|]. cbn. repeat constructor.
  - cbn [length] in Hk. cbn [app].
    change (carriage :: newline :: s ++ [quote]) with (carriage :: (newline :: s) ++ [quote]).
    rewrite unescape_plain by discriminate. cbn [app]. rewrite !unescape_plain by discriminate.
    apply IH; [lia|exact H|]. cbn [rev]. rewrite <- app_assoc. apply sb_app; [exact Hacc|]. cbn. repeat constructor.
Qed.

Theorem std_breaks : breaks_ok std_ext.
Proof.
  split.
  - intros u s s' n H Hn. cbn [x_number std_ext] in *. unfold std_number in *.
    destruct (std_number_breaks u s s' H _ _ _ _ _ _ _ Hn) as (H1 & _ & H2 & H3). rewrite Nat.sub_0_r in *. auto.
  - intros s s' n H Hn. cbn [x_string x_parse_string std_ext] in *. unfold std_string in *.
    destruct s as [|c s]; [discriminate|]. destruct (N.eqb c quote) eqn:Hc; [|discriminate].
    apply N.eqb_eq in Hc. subst c. inversion H as [|c x x' Hx| |]; subst.
    destruct (std_string_breaks _ _ Hx _ _ 1 _ Hn) as (t & t' & r & r' & -> & -> & Ht & Hr & -> & Hg).
    exists (1 + S (length t')). rewrite N.eqb_refl. split; [exact Hg|].
    assert (Hf : forall a b, firstn (1 + S (length a)) (quote :: a ++ quote :: b) = quote :: a ++ [quote]).
    { intros a b. change (quote :: firstn (S (length a)) (a ++ [quote] ++ b) = quote :: a ++ [quote]). f_equal. rewrite app_assoc.
      replace (S (length a)) with (length (a ++ [quote])) by (rewrite app_length; cbn; lia).
      rewrite firstn_app, firstn_all, Nat.sub_diag, firstn_O. apply app_nil_r. }
    assert (Hs : forall a b, skipn (1 + S (length a)) (quote :: a ++ quote :: b) = b).
    { intros a b. change (skipn (S (length a)) (a ++ [quote] ++ b) = b). rewrite app_assoc.
      replace (S (length a)) with (length (a ++ [quote])) by (rewrite app_length; cbn; lia).
      rewrite skipn_app, skipn_all, Nat.sub_diag. reflexivity. }
    rewrite !Hf, !Hs. split; [|split; [|split; [exact Hr|]]].
    + destruct Ht; cbn; lia.
    + constructor. apply sb_app; [exact Ht|apply sb_refl].
    + cbn [std_parse_string]. exact (std_unescape_breaks (length t) t t' (le_n _) Ht 1 1 [] [] sb_nil).
Qed.

(** ** Optimised rules *)

Lemma first_low c (b : N) : (b < 128)%N -> utf8_first c = b -> c = b.
Proof.
  intros Hb. unfold utf8_first. destruct (N.ltb_spec c 128); [auto|]. intros H'.
  exfalso. destruct (c <? 2048)%N; [|destruct (c <? 65536)%N]; subst b;
    (eapply N.lt_irrefl, N.lt_le_trans; [exact Hb|]; etransitivity; [|apply N.le_add_r]; discriminate).
Qed.

Lemma first_10 c : utf8_first c = 10%N -> c = newline.
Proof. apply first_low. reflexivity. Qed.

Lemma first_13 c : utf8_first c = 13%N -> c = carriage.
Proof. apply first_low. reflexivity. Qed.

Lemma Forall2_in_r {A B} (R : A -> B -> Prop) l l' : Forall2 R l l' -> forall b, In b l' -> exists a, In a l /\ R a b.
Proof.
  induction 1 as [|a b l l' H _ IH]; intros x []; [subst; exists a; split; [left; reflexivity|exact H]|].
  destruct (IH x H0) as (y & Hy & HR). exists y. split; [right; exact Hy|exact HR].
Qed.

Lemma firstn_In {A} n (l : list A) x : In x (firstn n l) -> In x l.
Proof. intros H. rewrite <- (firstn_skipn n l). apply in_or_app. left. exact H. Qed.

Lemma skipn_In {A} n (l : list A) x : In x (skipn n l) -> In x l.
Proof. intros H. rewrite <- (firstn_skipn n l). apply in_or_app. right. exact H. Qed.

Section Optimised.
  Ltac binds H := repeat match type of H with
    | obind ?x _ = Done _ =>
      let Hx := fresh "Hx" in destruct x eqn:Hx; [cbn [obind] in H|discriminate..] end.

  Variables (fuel : nat) (s : syntax).
  Hypothesis Hsafe : breaks_safe s.

  Lemma byte_safe f : forall r b, occurs s r -> unique_byte f (s_rules s) r = Done (Some b) -> b <> 10%N /\ b <> 13%N.
  Proof.
    induction f as [|f IH]; intros r b Ho; [discriminate|].
    assert (Hc : forall c, In c (children r) -> unique_byte f (s_rules s) c = Done (Some b) -> b <> 10%N /\ b <> 13%N).
    { intros c Hin. apply IH. eapply occurs_child; eassumption. }
    pose proof (Hsafe _ Ho) as Hs. destruct r; cbn [unique_byte children break_safe] in *; try discriminate.
    - destruct not, text as [|c text]; try discriminate. intros [= <-]. destruct Hs as [H1 H2].
      split; intros Hb.
      + apply H1. left. apply first_10. exact Hb.
      + apply H2. left. apply first_13. exact Hb.
    - intros [= <-]. split; discriminate.
    - destruct args as [|a [|]]; [discriminate|apply Hc; left; reflexivity|discriminate].
    - destruct args as [|a l]; [discriminate|apply Hc; left; reflexivity].
    - destruct optional; [discriminate|]. apply Hc. left. reflexivity.
    - destruct optional; [discriminate|]. apply Hc. left. reflexivity.
    - destruct index as [i|]; [|discriminate]. destruct (nth_error (s_rules s) i) as [r|] eqn:Hi; [|discriminate].
      apply IH. apply occurs_top. eapply nth_error_In. exact Hi.
    - destruct r; try discriminate. intros Hb. eapply IH; [|exact Hb].
      eapply occurs_child; [eapply occurs_child; [exact Ho|left; reflexivity]|left; reflexivity].
  Qed.

  Lemma table_safe args table up : Forall (occurs s) args ->
    unique_table_from_select fuel (s_rules s) args = Done (table, up) -> nth_error table 10 = nth_error table 13.
  Proof.
    intros Ho H. apply table_public in H as (Hlen & _ & _ & Hin & _).
    assert (Hb : forall b, b = 10 \/ b = 13 -> nth_error table b = Some 255).
    { intros b Hb. destruct (nth_error table b) as [i|] eqn:Hi; [|apply nth_error_None in Hi; lia].
      destruct (Nat.eq_dec i 255) as [->|Hne]; [reflexivity|].
      destruct (Hin b i Hi Hne) as (_ & r & Hr & f & Hf). apply nth_error_In in Hr.
      rewrite Forall_forall in Ho. destruct (byte_safe f r _ (Ho r Hr) Hf) as [H1 H2].
      destruct Hb as [-> | ->]; [elim H1|elim H2]; reflexivity. }
    rewrite (Hb 10), (Hb 13) by auto. reflexivity.
  Qed.

  Lemma rule_safe r : forall r', occurs s r -> optimize_rule fuel (s_rules s) r = Done r' ->
    forall x, occurs_in x r' -> break_safe x.
  Proof.
    induction r as [r IH] using rule_ind'. intros r' Ho H x Hx.
    assert (Hc : forall c c', In c (children r) -> optimize_rule fuel (s_rules s) c = Done c' ->
      forall x, occurs_in x c' -> break_safe x).
    { intros c c' Hin. apply IH; [exact Hin|]. eapply occurs_child; eassumption. }
    assert (Hcs : forall args args', incl args (children r) ->
      Forall2 (fun r r' => optimize_rule fuel (s_rules s) r = Done r') args args' ->
      forall c x, In c args' -> occurs_in x c -> break_safe x).
    { intros args args' Hi HF c y Hin Hy. destruct (Forall2_in_r _ _ _ HF c Hin) as (a & Ha & Hac).
      eapply Hc; [apply Hi; exact Ha|exact Hac|exact Hy]. }
    destruct r; try (cbn [optimize_rule] in H; injection H as <-;
      (inversion Hx as [|r' c Hin _]; subst; [exact (Hsafe _ Ho)|destruct Hin])).
    - (* select *)
      apply opt_select_cases in H as (table & up & args' & Ht & Ha & ->).
      assert (Htab : nth_error table 10 = nth_error table 13).
      { eapply table_safe; [|exact Ht]. apply Forall_forall. intros c Hin. eapply occurs_child; [exact Ho|exact Hin]. }
      destruct (up <? 2); [|destruct (up <? length args)];
        (inversion Hx as [|r' c Hin Hcx]; subst; [first [exact I|exact Htab]|]); cbn [children] in Hin.
      + eapply Hcs; [apply incl_refl|exact Ha|exact Hin|exact Hcx].
      + apply in_app_or in Hin as [Hin|[<-|[]]].
        * eapply Hcs; [apply incl_refl|exact Ha| |exact Hcx]. eapply firstn_In. exact Hin.
        * inversion Hcx as [|r' c Hin Hcx']; subst; [exact I|]. cbn [children] in Hin.
          eapply Hcs; [apply incl_refl|exact Ha| |exact Hcx']. eapply skipn_In. exact Hin.
      + eapply Hcs; [apply incl_refl|exact Ha|exact Hin|exact Hcx].
    - (* fast select *)
      cbn [optimize_rule] in H. injection H as <-. apply Hsafe. destruct Ho as (top & Htop & Hin).
      exists top. split; [exact Htop|]. eapply occurs_in_trans; eassumption.
    - cbn [optimize_rule] in H. binds H. injection H as <-.
      (inversion Hx as [|r' c Hin Hcx]; subst; [exact I|]).
      eapply Hcs; [apply incl_refl|apply map_o_done; eassumption|exact Hin|exact Hcx].
    - cbn [optimize_rule] in H. binds H. injection H as <-.
      (inversion Hx as [|r' c Hin Hcx]; subst; [exact I|]). destruct Hin as [<-|[<-|[]]].
      + eapply (Hc r1); [left; reflexivity|eassumption|exact Hcx].
      + eapply (Hc r2); [right; left; reflexivity|eassumption|exact Hcx].
    - cbn [optimize_rule] in H. binds H. injection H as <-.
      (inversion Hx as [|r' c Hin Hcx]; subst; [exact I|]). destruct Hin as [<-|[]].
      eapply (Hc r); [left; reflexivity|eassumption|exact Hcx].
    - cbn [optimize_rule] in H. binds H. injection H as <-.
      (inversion Hx as [|r' c Hin Hcx]; subst; [exact I|]). destruct Hin as [<-|[]].
      eapply (Hc r); [left; reflexivity|eassumption|exact Hcx].
    - cbn [optimize_rule] in H. binds H. injection H as <-.
      (inversion Hx as [|r' c Hin Hcx]; subst; [exact I|]). destruct Hin as [<-|[]].
      eapply (Hc r); [left; reflexivity|eassumption|exact Hcx].
    - cbn [optimize_rule] in H. binds H. injection H as <-.
      (inversion Hx as [|r' c Hin Hcx]; subst; [exact I|]). destruct Hin as [<-|[]].
      eapply (Hc r); [left; reflexivity|eassumption|exact Hcx].
  Qed.
End Optimised.

Theorem optimised_safe s s' : breaks_safe s -> optimize_returns s s' -> breaks_safe s'.
Proof.
  intros Hs (fuel & H) x (top & Htop & Hx). unfold optimize in H.
  destruct (map_o _ _) as [rules| |] eqn:Hm; try discriminate. injection H as <-. cbn [s_rules] in Htop.
  apply map_o_done in Hm. destruct (Forall2_in_r _ _ _ Hm top Htop) as (a & Ha & Hat).
  eapply (rule_safe fuel s Hs a); [apply occurs_top; exact Ha|exact Hat|exact Hx].
Qed.

(** ** Whole texts *)

Section Whole.
  Variable E : ext.
  Hypothesis HE : ext_ok E.
  Hypothesis HB : breaks_ok E.
  Variable s : syntax.
  Hypothesis Hsafe : breaks_safe s.

  Lemma start_occurs r : start_rule s r -> occurs s r.
  Proof. intros (rules & H). apply occurs_top. rewrite H. apply in_or_app. right. left. reflexivity. Qed.

  Lemma skip_end (n : nat) (t : str) : skipn n t = [] -> length t <= n.
  Proof. intros H. apply (f_equal (@length _)) in H. rewrite skipn_length in H. cbn in H. lia. Qed.

  Lemma accepts_breaks ind text text' out : same_breaks text text' -> accepts E s ind text out ->
    exists out', accepts E s ind text' out' /\ Forall2 (same_token text) out out'.
  Proof.
    intros H [r out0 ind' tr Hst R].
    destruct (proj1 (reads_breaks E HB s Hsafe text) _ _ _ _ _ _ _ R (start_occurs r Hst) eq_refl 0 text' H)
      as (v' & tr' & R' & V).
    apply vrel_yes in V as (n' & out' & -> & Hsk & Hout).
    rewrite skipn_all in Hsk. assert (Hn : skipn n' text' = []) by (inversion Hsk; reflexivity). apply skip_end in Hn. assert (Hle : n' <= length text') by (eapply reads_le; [exact HE|exact R']).
    replace n' with (length text') in R' by lia. exists out'. split; [econstructor; eassumption|exact Hout].
  Qed.

  Lemma rejects_breaks ind text text' tr : same_breaks text text' -> rejects E s ind text tr ->
    exists tr', rejects E s ind text' tr'.
  Proof.
    intros H [H0|r ind' tr0 Hst R|r n out ind' tr0 Hst R Hn].
    - eexists. apply rejects_no_rules. exact H0.
    - destruct (proj1 (reads_breaks E HB s Hsafe text) _ _ _ _ _ _ _ R (start_occurs r Hst) eq_refl 0 text' H)
        as (v' & tr' & R' & V).
      apply vrel_no in V as ->. eexists. eapply rejects_fail; eassumption.
    - destruct (proj1 (reads_breaks E HB s Hsafe text) _ _ _ _ _ _ _ R (start_occurs r Hst) eq_refl 0 text' H)
        as (v' & tr' & R' & V).
      apply vrel_yes in V as (n' & out' & -> & Hsk & _). eexists. eapply rejects_early; [exact Hst|exact R'|].
      destruct (le_lt_dec (length text') n') as [Hle|Hlt]; [|exact Hlt]. rewrite (skipn_all2 _ Hle) in Hsk.
      assert (Hk : skipn n text = []) by (inversion Hsk; reflexivity). apply skip_end in Hk. lia.
  Qed.

  Theorem parse_breaks tokens ind text text' : same_breaks text text' ->
    (forall out, parse_returns E s text tokens ind None (tokens ++ out) ->
      exists out', parse_returns E s text' tokens ind None (tokens ++ out') /\ Forall2 (same_token text) out out') /\
    ((exists e left_, parse_returns E s text tokens ind (Some e) left_) ->
      exists e left_, parse_returns E s text' tokens ind (Some e) left_).
  Proof.
    intros H. split.
    - intros out Hp. apply parse_accepts in Hp as (out0 & Ha & Heq); [|exact HE]. apply app_inv_head in Heq. subst out0.
      destruct (accepts_breaks ind text text' out H Ha) as (out' & Ha' & Hout).
      exists out'. split; [|exact Hout]. apply parse_accepts; [exact HE|]. eauto.
    - intros (e & l & Hp). apply parse_rejects in Hp as (tr & junk & Hr & _).
      destruct (rejects_breaks ind text text' tr H Hr) as (tr' & Hr').
      eapply rejects_parse; eassumption.
  Qed.

  (** Values are the same if no line break stands inside of them. *)
  Lemma tokens_same text out out' : Forall2 (same_token text) out out' ->
    (forall r n v, In (r, MString n v) out -> ~ In newline (under text r)) -> map snd out' = map snd out.
  Proof.
    induction 1 as [|a b out out' Hab _ IH]; intros Hn; [reflexivity|]. cbn [map]. f_equal.
    - inversion Hab as [| | | |r r' n v v' _ Hv]; subst; try reflexivity. cbn. f_equal. apply Hv.
      eapply Hn. left. reflexivity.
    - apply IH. intros r n v Hin. eapply Hn. right. exact Hin.
  Qed.
End Whole.
