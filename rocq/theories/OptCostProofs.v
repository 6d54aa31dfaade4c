(** Counting the calls of optimisation. *)
From Coq Require Import Ascii String List NArith Bool Arith Lia.
From Verif Require Import Base Ext Types OptimizeModel OptCostModel DataSpec ApiSpec TotalSpec OptSpec
  OptProofs StuckSpec StuckProofs OptCostSpec.
Import ListNotations.
Local Open Scope nat_scope.

(** ** The same results *)

Definition same_result {A} (o : outcome A) (c : outcome (A * N)) : Prop :=
  match o with
  | Done x => exists n, c = Done (x, n)
  | _ => forall x, c <> Done x
  end.

Lemma map_same {A B} (f : A -> outcome B) g l : (forall x, In x l -> same_result (f x) (g x)) ->
  same_result (map_o f l) (map_count g l).
Proof.
  induction l as [|x l IH]; intros H.
  - exists 0%N. reflexivity.
  - cbn [map_o map_count]. pose proof (H x (or_introl eq_refl)) as Hx. unfold same_result in Hx.
    destruct (f x) as [y| |].
    + destruct Hx as (n & ->). cbn [obind].
      specialize (IH (fun z Hz => H z (or_intror Hz))). unfold same_result in IH.
      destruct (map_o f l) as [ys| |].
      * destruct IH as (m & ->). cbn [obind]. exists (n + m)%N. reflexivity.
      * cbn [obind same_result]. intros z. destruct (map_count g l) as [[ys m]| |]; try discriminate.
        exfalso. eapply IH. reflexivity.
      * cbn [obind same_result]. intros z. destruct (map_count g l) as [[ys m]| |]; try discriminate.
        exfalso. eapply IH. reflexivity.
    + cbn [obind same_result]. intros z. destruct (g x) as [[y n]| |]; try discriminate.
      exfalso. eapply Hx. reflexivity.
    + cbn [obind same_result]. intros z. destruct (g x) as [[y n]| |]; try discriminate.
      exfalso. eapply Hx. reflexivity.
Qed.

Section Count.
  Variable refs : list rule.
  Variable fuel : nat.

  Notation opt := (optimize_rule fuel refs).
  Notation cnt := (optimize_rule_count fuel refs).

  Lemma rule_same r : same_result (opt r) (cnt r).
  Proof.
    induction r as [r IH] using rule_ind'.
    assert (Hone : forall c, In c (children r) -> forall (k : rule -> rule) (k' : N -> N),
      same_result (do c' <- opt c; Done (k c')) (do (c', n) <- cnt c; Done (k c', k' n))).
    { intros c Hc k k'. specialize (IH c Hc). unfold same_result in IH.
      destruct (opt c) as [c'| |].
      - destruct IH as (n & ->). eexists. reflexivity.
      - intros z. destruct (cnt c) as [[c' n]| |]; try discriminate. exfalso. eapply IH. reflexivity.
      - intros z. destruct (cnt c) as [[c' n]| |]; try discriminate. exfalso. eapply IH. reflexivity. }
    assert (Hmap : forall l, (forall c, In c l -> In c (children r)) ->
      same_result (map_o opt l) (map_count cnt l)).
    { intros l Hl. apply map_same. intros c Hc. apply IH. apply Hl. exact Hc. }
    destruct r; try (exists 1%N; reflexivity); try (apply (Hone r (or_introl eq_refl))).
    - (* select *)
      cbn [optimize_rule optimize_rule_count].
      destruct (unique_table_from_select fuel refs args) as [[table up]| |];
        [cbn [obind]|intros z; discriminate|intros z; discriminate].
      pose proof (Hmap args (fun c Hc => Hc)) as Ha. unfold same_result in Ha.
      destruct (up <? 2) eqn:Hup.
      + assert (Hno : forall x n y, match args with
            | a :: ((_ :: _ :: _) as rest) =>
              do (try_args, n) <- map_count cnt rest;
              match RSelect try_args id with
              | RFastSelect _ _ _ _ =>
                do (a', m) <- cnt a; Done (Some (RSelect [a'; RSelect try_args id] id), (n + m)%N)
              | _ => Done (None, n)
              end
            | _ => Done (None, 0%N)
            end = Done (Some x, n) -> y).
        { intros x n y H. destruct args as [|a [|b [|c rest]]]; try discriminate.
          destruct (map_count cnt (b :: c :: rest)) as [[l m]| |]; discriminate. }
        destruct (map_o opt args) as [args'| |] eqn:Hm; cbn [obind same_result].
        * destruct Ha as (n & Hn).
          assert (He : exists n0, match args with
            | a :: ((_ :: _ :: _) as rest) =>
              do (try_args, n) <- map_count cnt rest;
              match RSelect try_args id with
              | RFastSelect _ _ _ _ =>
                do (a', m) <- cnt a; Done (Some (RSelect [a'; RSelect try_args id] id), (n + m)%N)
              | _ => Done (None, n)
              end
            | _ => Done (None, 0%N)
            end = Done (None, n0)).
          { destruct args as [|a [|b [|c rest]]]; try (eexists; reflexivity).
            pose proof (Hmap (b :: c :: rest) (fun z Hz => or_intror Hz)) as Hr. unfold same_result in Hr.
            cbn [map_o] in Hm. destruct (opt a); try discriminate. cbn [obind] in Hm.
            change (do y <- opt b; do ys <- (do y0 <- opt c; do ys0 <- map_o opt rest; Done (y0 :: ys0)); Done (y :: ys))
              with (map_o opt (b :: c :: rest)) in Hm.
            destruct (map_o opt (b :: c :: rest)); try discriminate. destruct Hr as (m & ->).
            eexists. reflexivity. }
          destruct He as (n0 & He). cbv zeta. rewrite He. cbn [obind]. rewrite Hn. cbn [obind].
          eexists. reflexivity.
        * intros z. cbv zeta.
          match goal with |- obind ?o _ <> _ => destruct o as [[[x|] n]| |] eqn:He end; try discriminate.
          -- exact (Hno _ _ _ eq_refl).
          -- cbn [obind]. destruct (map_count cnt args) as [[l m]| |]; try discriminate.
             exfalso. eapply Ha. reflexivity.
        * intros z. cbv zeta.
          match goal with |- obind ?o _ <> _ => destruct o as [[[x|] n]| |] eqn:He end; try discriminate.
          -- exact (Hno _ _ _ eq_refl).
          -- cbn [obind]. destruct (map_count cnt args) as [[l m]| |]; try discriminate.
             exfalso. eapply Ha. reflexivity.
      + destruct (map_o opt args) as [args'| |]; cbn [obind same_result].
        * destruct Ha as (n & ->). cbn [obind]. destruct (up <? length args); eexists; reflexivity.
        * intros z. destruct (map_count cnt args) as [[l m]| |]; try discriminate. exfalso. eapply Ha. reflexivity.
        * intros z. destruct (map_count cnt args) as [[l m]| |]; try discriminate. exfalso. eapply Ha. reflexivity.
    - (* sequence *)
      cbn [optimize_rule optimize_rule_count].
      pose proof (Hmap args (fun c Hc => Hc)) as Ha. unfold same_result in Ha.
      destruct (map_o opt args) as [args'| |]; cbn [obind same_result].
      + destruct Ha as (n & ->). eexists. reflexivity.
      + intros z. destruct (map_count cnt args) as [[l m]| |]; try discriminate. exfalso. eapply Ha. reflexivity.
      + intros z. destruct (map_count cnt args) as [[l m]| |]; try discriminate. exfalso. eapply Ha. reflexivity.
    - (* separate *)
      cbn [optimize_rule optimize_rule_count].
      pose proof (IH r1 (or_introl eq_refl)) as H1. pose proof (IH r2 (or_intror (or_introl eq_refl))) as H2.
      unfold same_result in H1, H2.
      destruct (opt r1) as [a| |]; cbn [obind same_result].
      + destruct H1 as (n & ->). cbn [obind]. destruct (opt r2) as [b| |]; cbn [obind same_result].
        * destruct H2 as (m & ->). eexists. reflexivity.
        * intros z. destruct (cnt r2) as [[l m]| |]; try discriminate. exfalso. eapply H2. reflexivity.
        * intros z. destruct (cnt r2) as [[l m]| |]; try discriminate. exfalso. eapply H2. reflexivity.
      + intros z. destruct (cnt r1) as [[l m]| |]; try discriminate. exfalso. eapply H1. reflexivity.
      + intros z. destruct (cnt r1) as [[l m]| |]; try discriminate. exfalso. eapply H1. reflexivity.
  Qed.

  (** ** What is counted *)

  Lemma loop_up args : forall i data up table up', unique_loop fuel refs args i data up = Done (table, up') ->
    up <= i -> up <= up'.
  Proof.
    induction args as [|r args IH]; intros i data up table up' H Hi; cbn [unique_loop] in H.
    - injection H as _ ->. lia.
    - destruct (255 <=? i); [injection H as _ ->; lia|].
      destruct (unique_byte fuel refs r) as [[b|]| |]; try discriminate; cbn [obind] in H.
      2: { injection H as _ ->. lia. }
      destruct (nth_error data (N.to_nat b)) as [x|]; [|discriminate].
      destruct (Nat.eqb x 255); [|injection H as _ ->; lia].
      apply IH in H; lia.
  Qed.

  Lemma begins_done a x o : begins refs a x -> unique_byte fuel refs a = Done o -> o = Some x.
  Proof.
    intros Hb H. destruct (begins_byte refs a x Hb) as (k & Hk). rewrite Hk in H.
    destruct (fuel <=? k); congruence.
  Qed.

  Lemma first_two a b rest table up :
    unique_table_from_select fuel refs (a :: b :: rest) = Done (table, up) ->
    2 <= up <-> begin_differently refs a b.
  Proof.
    unfold unique_table_from_select. intros H.
    remember (repeat 255 256) as data eqn:Hd. cbn [unique_loop] in H.
    change (255 <=? 0) with false in H. change (255 <=? 1) with false in H. cbv iota in H.
    destruct (unique_byte fuel refs a) as [[x|]| |] eqn:Hx; try discriminate; cbn [obind] in H.
    2: { injection H as _ <-. split; [lia|]. intros (x & y & Hb & _).
         pose proof (begins_done a x _ Hb Hx). discriminate. }
    destruct (nth_error data (N.to_nat x)) as [z|] eqn:Hz; [|discriminate].
    assert (Hlen : N.to_nat x < length data) by (apply nth_error_Some; congruence).
    assert (z = 255) as ->.
    { subst data. apply nth_error_In in Hz. apply repeat_spec in Hz. exact Hz. }
    change (255 =? 255) with true in H. cbv iota in H.
    destruct (unique_byte fuel refs b) as [[y|]| |] eqn:Hy; try discriminate; cbn [obind] in H.
    2: { injection H as _ <-. split; [lia|]. intros (x' & y & _ & Hb & _).
         pose proof (begins_done b y _ Hb Hy). discriminate. }
    destruct (N.eq_dec x y) as [<-|Hne].
    - rewrite set_nth_same in H by exact Hlen. change (0 =? 255) with false in H. cbv iota in H.
      injection H as _ <-. split; [lia|]. intros (x' & y' & Ha & Hb & Hn).
      pose proof (begins_done a x' _ Ha Hx). pose proof (begins_done b y' _ Hb Hy). congruence.
    - rewrite set_nth_other in H by lia.
      destruct (nth_error data (N.to_nat y)) as [z|] eqn:Hz'; [|discriminate].
      assert (z = 255) as ->.
      { subst data. apply nth_error_In in Hz'. apply repeat_spec in Hz'. exact Hz'. }
      change (255 =? 255) with true in H. cbv iota in H.
      apply loop_up in H; [|lia]. split; [|intros _; exact H]. intros _.
      exists x, y. split; [eapply byte_begins; exact Hx|]. split; [eapply byte_begins; exact Hy|exact Hne].
  Qed.

  Lemma map_visits l : (forall c, In c l -> forall c' n, cnt c = Done (c', n) -> visits refs c n) ->
    forall l' n, map_count cnt l = Done (l', n) -> visits_all refs l n.
  Proof.
    induction l as [|c l IH]; intros H l' n Hn; cbn [map_count] in Hn.
    - injection Hn as _ <-. constructor.
    - destruct (cnt c) as [[c' k]| |] eqn:Hc; try discriminate. cbn [obind] in Hn.
      destruct (map_count cnt l) as [[l0 m]| |] eqn:Hl; try discriminate. cbn [obind] in Hn.
      injection Hn as _ <-. constructor; [eapply H; [left; reflexivity|exact Hc]|].
      eapply IH; [|reflexivity]. intros d Hd. apply H. right. exact Hd.
  Qed.

  Lemma visits_same r n m : visits refs r n -> n = m -> visits refs r m.
  Proof. intros H <-. exact H. Qed.

  Lemma done_counts {A} (x y : A) (n m : N) : Done (x, n) = Done (y, m) -> m = n.
  Proof. congruence. Qed.

  Lemma counted_visits r : forall r' n, cnt r = Done (r', n) -> visits refs r n.
  Proof.
    induction r as [r IH] using rule_ind'. intros r' n H.
    assert (Hmap : forall l, (forall c, In c l -> In c (children r)) -> forall l' n,
      map_count cnt l = Done (l', n) -> visits_all refs l n).
    { intros l Hl. apply map_visits. intros c Hc. apply IH. apply Hl. exact Hc. }
    assert (Hone : forall c n, children r = [c] -> plain refs r -> (exists c', cnt c = Done (c', n)) ->
      visits refs r (1 + n)).
    { intros c k Hc Hp (c' & Hk). apply visits_once; [exact Hp|]. rewrite Hc.
      rewrite <- (N.add_0_r k). constructor; [|constructor]. eapply IH; [|exact Hk].
      rewrite Hc. left. reflexivity. }
    destruct r; cbn [optimize_rule_count] in H;
      try (apply done_counts in H; subst n; apply (visits_same _ (1 + 0)%N); [apply visits_once; [exact I|constructor]|reflexivity]).
    - (* select *)
      destruct (unique_table_from_select fuel refs args) as [[table up]| |] eqn:Ht; try discriminate.
      cbn [obind] in H.
      assert (Hall : forall l' k, map_count cnt args = Done (l', k) -> visits_all refs args k)
        by (apply Hmap; auto).
      destruct (up <? 2) eqn:Hup.
      + apply Nat.ltb_lt in Hup.
        destruct args as [|a [|b [|c rest]]];
          try (cbn [obind] in H;
            match goal with H : (do (args', m) <- map_count cnt ?l; _) = _ |- _ =>
              destruct (map_count cnt l) as [[l' m]| |] eqn:Hm; try discriminate; cbn [obind] in H end;
            apply done_counts in H; subst n; apply visits_once; [exact I|]; eapply Hall; reflexivity).
        assert (Hnd : ~ begin_differently refs a b).
        { intros Hd. apply (first_two _ _ _ _ _ Ht) in Hd. lia. }
        cbv zeta in H.
        destruct (map_count cnt (b :: c :: rest)) as [[tr m]| |] eqn:Hm; try discriminate.
        cbn [obind] in H.
        change (map_count cnt (a :: b :: c :: rest)) with
          (do (y, n) <- cnt a; do (ys, m) <- map_count cnt (b :: c :: rest); Done (y :: ys, (n + m)%N)) in H.
        destruct (cnt a) as [[a' k]| |] eqn:Ha; try discriminate. cbn [obind] in H.
        rewrite Hm in H. cbn [obind] in H. apply done_counts in H; subst n.
        eapply visits_same; [apply visits_twice; [exact Hnd| |]|].
        * eapply IH; [left; reflexivity|exact Ha].
        * eapply Hmap; [|exact Hm]. intros z Hz. right. exact Hz.
        * lia.
      + apply Nat.ltb_ge in Hup.
        destruct (map_count cnt args) as [[l' m]| |] eqn:Hm; try discriminate. cbn [obind] in H.
        assert (n = (1 + m)%N) as -> by (destruct (up <? length args); apply done_counts in H; subst n; reflexivity).
        apply visits_once; [|eapply Hall; reflexivity].
        destruct args as [|a [|b [|c rest]]]; try exact I.
        cbn [plain]. apply (first_two _ _ _ _ _ Ht). exact Hup.
    - (* fast *)
      apply done_counts in H; subst n. constructor.
    - (* sequence *)
      destruct (map_count cnt args) as [[l' m]| |] eqn:Hm; try discriminate. cbn [obind] in H.
      apply done_counts in H; subst n. apply visits_once; [exact I|]. eapply Hmap; [|exact Hm]. auto.
    - (* separate *)
      destruct (cnt r1) as [[a k]| |] eqn:H1; try discriminate. cbn [obind] in H.
      destruct (cnt r2) as [[b m]| |] eqn:H2; try discriminate. cbn [obind] in H.
      apply done_counts in H; subst n. eapply visits_same.
      + apply visits_once; [exact I|]. constructor; [eapply IH; [left; reflexivity|exact H1]|].
        constructor; [eapply IH; [right; left; reflexivity|exact H2]|constructor].
      + lia.
    - destruct (cnt r) as [[a k]| |] eqn:H1; try discriminate. cbn [obind] in H. apply done_counts in H; subst n.
      apply (Hone r); [reflexivity|exact I|eauto].
    - destruct (cnt r) as [[a k]| |] eqn:H1; try discriminate. cbn [obind] in H. apply done_counts in H; subst n.
      apply (Hone r); [reflexivity|exact I|eauto].
    - destruct (cnt r) as [[a k]| |] eqn:H1; try discriminate. cbn [obind] in H. apply done_counts in H; subst n.
      apply (Hone r); [reflexivity|exact I|eauto].
    - destruct (cnt r) as [[a k]| |] eqn:H1; try discriminate. cbn [obind] in H. apply done_counts in H; subst n.
      apply (Hone r); [reflexivity|exact I|eauto].
  Qed.
End Count.

Lemma visits_unique refs :
  (forall r n, visits refs r n -> forall m, visits refs r m -> n = m) /\
  (forall l n, visits_all refs l n -> forall m, visits_all refs l m -> n = m).
Proof.
  apply visits_mutind.
  - intros table args tail id m H. inversion H as [|? ? Hp|]; [reflexivity|destruct Hp].
  - intros r n Hp Hall IH m H. inversion H as [|? k Hp' Hk|]; subst.
    + destruct Hp.
    + f_equal. apply IH. exact Hk.
    + contradiction.
  - intros a b c rest id n m Hd _ IHa _ IHr k H. inversion H as [|? ? Hp|? ? ? ? ? n' m' ? Ha Hr]; subst.
    + contradiction.
    + rewrite (IHa _ Ha), (IHr _ Hr). reflexivity.
  - intros m H. inversion H. reflexivity.
  - intros r rs n m _ IHr _ IHrs k H. inversion H as [|? ? n' m' H1 H2]; subst.
    rewrite (IHr _ H1), (IHrs _ H2). reflexivity.
Qed.

Lemma syntax_same fuel s : same_result (optimize fuel s) (optimize_count fuel s).
Proof.
  unfold optimize, optimize_count.
  pose proof (map_same (optimize_rule fuel (s_rules s)) (optimize_rule_count fuel (s_rules s)) (s_rules s)
    (fun r _ => rule_same (s_rules s) fuel r)) as H. unfold same_result in H.
  destruct (map_o (optimize_rule fuel (s_rules s)) (s_rules s)) as [l| |]; cbn [obind same_result].
  - destruct H as (n & ->). eexists. reflexivity.
  - intros z. destruct (map_count _ _) as [[l m]| |]; try discriminate. exfalso. eapply H. reflexivity.
  - intros z. destruct (map_count _ _) as [[l m]| |]; try discriminate. exfalso. eapply H. reflexivity.
Qed.

(** With the branch that the model leaves out the results are the same. *)
Theorem branch_irrelevant fuel s s' :
  optimize fuel s = Done s' <-> exists n, optimize_count fuel s = Done (s', n).
Proof.
  pose proof (syntax_same fuel s) as H. unfold same_result in H.
  destruct (optimize fuel s) as [x| |].
  - destruct H as (n & Hn). split.
    + intros [= ->]. eauto.
    + intros (m & Hm). congruence.
  - split; [discriminate|]. intros (n & Hn). destruct (H _ Hn).
  - split; [discriminate|]. intros (n & Hn). destruct (H _ Hn).
Qed.

Theorem calls_exact s n : optimize_makes_calls s n <->
  (exists s', optimize_returns s s') /\ visits_all (s_rules s) (s_rules s) n.
Proof.
  assert (Hv : forall n, optimize_makes_calls s n -> visits_all (s_rules s) (s_rules s) n).
  { intros m (f & s' & H). unfold optimize_count in H.
    destruct (map_count _ _) as [[l k]| |] eqn:Hm; try discriminate. cbn [obind] in H. injection H as _ <-.
    eapply map_visits; [|exact Hm]. intros c _ c' j Hj. eapply counted_visits. exact Hj. }
  split.
  - intros H. split; [|apply Hv; exact H]. destruct H as (f & s' & H). exists s', f.
    apply branch_irrelevant. eauto.
  - intros ((s' & f & Hf) & Hn). apply branch_irrelevant in Hf as (m & Hm).
    assert (optimize_makes_calls s m) as Hc by (exists f, s'; exact Hm).
    rewrite (proj2 (visits_unique (s_rules s)) _ _ Hn _ (Hv _ Hc)). exact Hc.
Qed.

(** ** Bounds *)

Fixpoint sizes (l : list rule) : N := match l with [] => 0%N | r :: l => (rule_size r + sizes l)%N end.
Fixpoint depths (l : list rule) : N := match l with [] => 0%N | r :: l => N.max (select_depth r) (depths l) end.

Lemma sizes_fold l : fold_right (fun a n => (rule_size a + n)%N) 0%N l = sizes l.
Proof. induction l as [|r l IH]; [reflexivity|]. cbn. rewrite IH. reflexivity. Qed.

Lemma depths_fold l : fold_right (fun a n => N.max (select_depth a) n) 0%N l = depths l.
Proof. induction l as [|r l IH]; [reflexivity|]. cbn. rewrite IH. reflexivity. Qed.

Lemma size_children refs r : plain refs r -> rule_size r = (1 + sizes (children r))%N.
Proof.
  destruct r; intros H; try reflexivity; try destruct H; cbn [rule_size children sizes];
    rewrite ?sizes_fold; cbn [sizes]; lia.
Qed.

Lemma depth_select args id :
  select_depth (RSelect args id) = ((if (2 <? length args)%nat then 1 else 0) + depths args)%N.
Proof. rewrite <- depths_fold. reflexivity. Qed.

Lemma depth_sequence args id : select_depth (RSequence args id) = depths args.
Proof. rewrite <- depths_fold. reflexivity. Qed.

Lemma depth_children refs r : plain refs r -> (depths (children r) <= select_depth r)%N.
Proof.
  intros H. destruct r; try contradiction; cbn [children];
    try (rewrite depth_select; destruct (2 <? length args)%nat); try rewrite depth_sequence;
    cbn [depths]; try cbn [select_depth]; lia.
Qed.

Lemma visits_bound refs :
  (forall r n, visits refs r n -> (n <= rule_size r * 2 ^ select_depth r)%N) /\
  (forall l n, visits_all refs l n -> (n <= sizes l * 2 ^ depths l)%N).
Proof.
  assert (Hpow : forall a b, (a <= b)%N -> (2 ^ a <= 2 ^ b)%N) by (intros; apply N.pow_le_mono_r; lia).
  assert (Hpos : forall a, (1 <= 2 ^ a)%N).
  { intros a. pose proof (N.pow_nonzero 2 a ltac:(discriminate)). lia. }
  apply visits_mutind.
  - intros. cbn. lia.
  - intros r n Hp _ IH. rewrite (size_children refs r Hp).
    pose proof (Hpow _ _ (depth_children refs r Hp)) as Hd. pose proof (Hpos (select_depth r)) as H1.
    assert (sizes (children r) * 2 ^ depths (children r) <= sizes (children r) * 2 ^ select_depth r)%N
      by (apply N.mul_le_mono_l; exact Hd). nia.
  - intros a b c rest id n m _ _ IHa _ IHr.
    rewrite depth_select. cbn [rule_size]. rewrite sizes_fold.
    change (2 <? length (a :: b :: c :: rest)) with true. cbv iota.
    change (sizes (a :: b :: c :: rest)) with (rule_size a + sizes (b :: c :: rest))%N.
    change (depths (a :: b :: c :: rest)) with (N.max (select_depth a) (depths (b :: c :: rest)))%N.
    set (da := select_depth a) in *. set (dr := depths (b :: c :: rest)) in *.
    set (sr := sizes (b :: c :: rest)) in *.
    rewrite N.pow_add_r. change (2 ^ 1)%N with 2%N.
    pose proof (Hpow da (N.max da dr) ltac:(lia)). pose proof (Hpow dr (N.max da dr) ltac:(lia)).
    pose proof (Hpos (N.max da dr)).
    set (p := (2 ^ N.max da dr)%N) in *.
    assert (rule_size a * 2 ^ da <= rule_size a * p)%N by (apply N.mul_le_mono_l; assumption).
    assert (sr * 2 ^ dr <= sr * p)%N by (apply N.mul_le_mono_l; assumption). nia.
  - cbn. lia.
  - intros r rs n m _ IHr _ IHrs. cbn [sizes depths].
    pose proof (Hpow (select_depth r) (N.max (select_depth r) (depths rs)) ltac:(lia)).
    pose proof (Hpow (depths rs) (N.max (select_depth r) (depths rs)) ltac:(lia)).
    set (p := (2 ^ N.max (select_depth r) (depths rs))%N) in *.
    assert (rule_size r * 2 ^ select_depth r <= rule_size r * p)%N by (apply N.mul_le_mono_l; assumption).
    assert (sizes rs * 2 ^ depths rs <= sizes rs * p)%N by (apply N.mul_le_mono_l; assumption). nia.
Qed.

Theorem calls_bound s n : optimize_makes_calls s n -> (n <= syntax_size s * 2 ^ syntax_depth s)%N.
Proof.
  intros H. apply calls_exact in H as [_ H]. apply visits_bound in H.
  unfold syntax_size, syntax_depth. rewrite sizes_fold, depths_fold. exact H.
Qed.

Lemma visits_least refs :
  (forall r n, visits refs r n -> (rule_size r <= n)%N) /\
  (forall l n, visits_all refs l n -> (sizes l <= n)%N).
Proof.
  apply visits_mutind.
  - intros. cbn. lia.
  - intros r n Hp _ IH. rewrite (size_children refs r Hp). lia.
  - intros a b c rest id n m _ _ IHa _ IHr. cbn [rule_size]. rewrite sizes_fold.
    change (sizes (a :: b :: c :: rest)) with (rule_size a + sizes (b :: c :: rest))%N. lia.
  - cbn. lia.
  - intros r rs n m _ IHr _ IHrs. cbn [sizes]. lia.
Qed.

Theorem calls_least s n : optimize_makes_calls s n -> (syntax_size s <= n)%N.
Proof.
  intros H. apply calls_exact in H as [_ H]. apply visits_least in H.
  unfold syntax_size. rewrite sizes_fold. exact H.
Qed.

Theorem returns_counted s s' : optimize_returns s s' <-> exists fuel n, optimize_count fuel s = Done (s', n).
Proof.
  split.
  - intros (f & H). exists f. apply branch_irrelevant. exact H.
  - intros (f & H). exists f. apply branch_irrelevant. exact H.
Qed.
