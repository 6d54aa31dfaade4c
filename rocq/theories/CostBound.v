(** Upper bounds on the number of calls. *)
From Coq Require Import List NArith Bool Arith Lia.
From Verif Require Import Base Ext Types ParseModel CostModel CostSpec PegSpec PrimProofs DataSpec
  ApiSpec PegProofs PegFacts TotalSpec OptProofs SafeProofs TotalProofs DepthProofs CostProofs.
Import ListNotations.

(** The sum of [h 0 .. h n]. *)
Fixpoint total (h : nat -> nat) (n : nat) : nat :=
  match n with
  | 0 => h 0
  | S n' => h n + total h n'
  end.

Lemma total_le h m n : m <= n -> total h m <= total h n.
Proof. induction 1 as [|n _ IH]; [lia|]. simpl. lia. Qed.

Lemma total_step h m n : m < n -> h n + total h m <= total h n.
Proof. intros H. destruct n as [|n]; [lia|]. simpl. apply Nat.add_le_mono_l. apply total_le. lia. Qed.

Lemma total_one h n : h n <= total h n.
Proof. destruct n; simpl; lia. Qed.

Lemma cbind_le {A B} (x : counted A) (k : A -> counted B) a b :
  fst x <= a -> (forall y, snd x = Done y -> fst (k y) <= b) -> fst (cbind x k) <= a + b.
Proof.
  destruct x as [n [y| |]]; unfold cbind; cbn [fst snd]; intros H1 H2.
  - specialize (H2 y eq_refl). lia.
  - lia.
  - lia.
Qed.

Section Bound.
  Variable E : ext.
  Hypothesis HE : ext_ok E.
  Variable syn : syntax.

  Notation refs := (s_rules syn).

  (** At most [n] calls in front of texts of length at most [m]. *)
  Definition within (m n : nat) (P : counted_parser) : Prop :=
    forall base junk s p ind, length s <= m ->
      fst (P (base ++ junk) (length base) (RT s p) ind) <= n.

  Lemma within_more m n n' P : within m n P -> n <= n' -> within m n' P.
  Proof. intros H Hn base junk s p ind Hs. specialize (H base junk s p ind Hs). lia. Qed.

  Lemma within_less m m' n P : within m n P -> m' <= m -> within m' n P.
  Proof. intros H Hn base junk s p ind Hs. apply H. lia. Qed.

  (** What the counted parser returns is right. *)
  Definition right_for (r : rule) (P : counted_parser) : Prop :=
    sound_for E refs r (fun toks st t ind => snd (P toks st t ind)).

  Lemma rule_right f r : right_for r (rule_cost E f refs r).
  Proof.
    intros base junk s p ind res toks' ind' H. rewrite (rule_same E refs f r) in H.
    eapply parse_rule_sound. exact H.
  Qed.

  Lemma select_within m n P id args : (forall r, right_for r (P r)) ->
    (forall r, In r args -> within m n (P r)) ->
    forall base junk s p ind oe, length s <= m ->
      fst (select_cost P args id (base ++ junk) (length base) (RT s p) ind oe)
        <= length args * n.
  Proof.
    intros HP. induction args as [|r args IH]; intros Hin base junk s p ind oe Hs;
      cbn [select_cost]; [destruct oe; simpl; lia|].
    cbn [length Nat.mul].
    apply cbind_le; [apply Hin; [left; reflexivity|exact Hs]|].
    intros [[res toks'] ind'] He. apply HP in He as (v & tr & Hr & Hag). destruct v as [k out|].
    - destruct Hag as (junk' & -> & ->). simpl. lia.
    - destruct Hag as (e & junk' & _ & -> & ->). apply IH; [|exact Hs].
      intros r' Hr'. apply Hin. right. exact Hr'.
  Qed.

  Lemma tail_within m n P args oe : (forall r, In r args -> within m n (P r)) ->
    within m n (tail_cost P args oe).
  Proof.
    intros Hin base junk s p ind Hs. unfold tail_cost.
    destruct args as [|r args]; [simpl; lia|].
    destruct (nth_error (r :: args) _) as [r'|] eqn:Hn; [|simpl; lia].
    rewrite <- (Nat.add_0_r n).
    apply cbind_le; [apply Hin; [eapply nth_error_In; exact Hn|exact Hs]|].
    intros [[res toks'] ind'] _. destruct res; simpl; lia.
  Qed.

  Lemma fast_within m n P table args tail id : (forall r, right_for r (P r)) ->
    (forall r, In r args -> within m n (P r)) ->
    within m (n + n) (fast_cost P table args tail id).
  Proof.
    intros HP Hin base junk s p ind Hs. unfold fast_cost. cbn [src].
    destruct s as [|c s]; [simpl; lia|].
    destruct (nth_error table _) as [i|]; [|simpl; lia].
    destruct (Nat.eqb i 255).
    - destruct tail; [|simpl; lia].
      pose proof (tail_within m n P args None Hin base junk (c :: s) p ind Hs). lia.
    - destruct (nth_error args i) as [r|] eqn:Hi; [|simpl; lia].
      apply cbind_le; [apply Hin; [eapply nth_error_In; exact Hi|exact Hs]|].
      intros [[res toks'] ind'] He. apply HP in He as (v & tr & Hr & Hag). destruct v as [k out|].
      + destruct Hag as (junk' & -> & ->). simpl. lia.
      + destruct Hag as (e & junk' & _ & -> & ->). destruct tail; [|simpl; lia].
        apply (tail_within m n P); assumption.
  Qed.

  Lemma seq_within m n P args : (forall r, right_for r (P r)) ->
    forall done todo, args = done ++ todo ->
    (forall before r behind, args = before ++ r :: behind -> Forall (may_be_empty refs) before ->
       within m n (P r)) ->
    (forall r m', In r args -> m' < m -> within m' n (P r)) ->
    forall start base junk s p ind oe, length s <= m ->
      (length s < m \/ Forall (may_be_empty refs) done) ->
      fst (seq_cost P todo start (base ++ junk) (length base) (RT s p) ind oe)
        <= length todo * n.
  Proof.
    intros HP done todo. revert done.
    induction todo as [|r todo IH]; intros done Ha Hfirst Hlater start base junk s p ind oe Hs Hd;
      cbn [seq_cost]; [simpl; lia|].
    cbn [length Nat.mul]. apply cbind_le.
    - destruct Hd as [Hd|Hd].
      + apply (Hlater r (length s)); [rewrite Ha; apply in_or_app; right; left; reflexivity|
          exact Hd|lia].
      + apply (Hfirst done r todo Ha Hd). exact Hs.
    - intros [[res toks'] ind'] He. apply HP in He as (v & tr & Hr & Hag).
      destruct v as [k out|].
      + destruct Hag as (junk' & -> & ->). rewrite rt_eq. cbn [r_len].
        pose proof (reads_le E HE refs _ _ _ _ _ _ _ _ Hr) as Hn.
        apply (IH (done ++ [r])).
        * rewrite <- app_assoc. exact Ha.
        * exact Hfirst.
        * exact Hlater.
        * rewrite skipn_length. lia.
        * rewrite skipn_length. destruct Hd as [Hd|Hd]; [left; lia|].
          destruct k as [|k]; [right|left; lia]. apply Forall_app. split; [exact Hd|].
          constructor; [|constructor]. eapply (reads_empty E HE syn). exact Hr.
      + destruct Hag as (e & junk' & _ & -> & ->). simpl. lia.
  Qed.

  Lemma repeat_within h m P r optional : right_for r P -> ~ may_be_empty refs r ->
    (forall i, i <= m -> within i (h i) P) ->
    forall l start first base junk s p ind oe, length s <= m ->
      fst (repeat_cost l P optional start first (base ++ junk) (length base) (RT s p) ind oe)
        <= total h (length s).
  Proof.
    intros HP Hne Hin l. induction l as [|l IH]; intros start first base junk s p ind oe Hs;
      [simpl; lia|]. cbn [repeat_cost].
    destruct (P (base ++ junk) (length base) (RT s p) ind) as [n o] eqn:HPs.
    assert (Hn : n <= h (length s)).
    { pose proof (Hin (length s) Hs base junk s p ind (le_n _)) as H. rewrite HPs in H. exact H. }
    destruct o as [[[res toks'] ind']| |].
    2, 3: unfold cbind; cbn [fst snd]; pose proof (total_one h (length s)); lia.
    unfold cbind. cbn [fst snd].
    assert (He : snd (P (base ++ junk) (length base) (RT s p) ind) = Done (res, toks', ind'))
      by (rewrite HPs; reflexivity).
    apply HP in He as (v & tr & Hr & Hag). destruct v as [k out|].
    - destruct Hag as (junk' & -> & ->). rewrite rt_eq. cbn [r_len].
      pose proof (reads_le E HE refs _ _ _ _ _ _ _ _ Hr) as Hk.
      assert (k <> 0) by (intros ->; apply Hne; eapply (reads_empty E HE syn); exact Hr).
      match goal with |- _ + fst (repeat_cost _ _ _ ?st ?f (?b ++ ?j) _ (RT ?s' ?p') ?i ?o) <= _ =>
        pose proof (IH st f b j s' p' i o) as IH' end.
      rewrite skipn_length in IH'. specialize (IH' ltac:(lia)).
      pose proof (total_step h (length s - k) (length s) ltac:(lia)). lia.
    - destruct Hag as (e & junk' & _ & -> & ->). pose proof (total_one h (length s)).
      destruct (_ && _); cbn [free fst]; lia.
  Qed.

  Lemma sep_within h h' m P Q r by_ optional trail : right_for r P -> right_for by_ Q ->
    ~ (may_be_empty refs r /\ may_be_empty refs by_) ->
    (forall i, i <= m -> within i (h i) P) ->
    (forall i, i <= m -> i < m \/ may_be_empty refs r -> within i (h' i) Q) ->
    (forall i, i < m -> h' i <= h' (S i)) ->
    forall l start first base junk s p ind oe, length s <= m ->
      fst (sep_cost l P Q optional trail start first (base ++ junk) (length base) (RT s p) ind oe)
        <= total (fun i => h i + h' i) (length s).
  Proof.
    intros HP HQ Hne HinP HinQ Hup l.
    assert (Hmono : forall i j, i <= j -> j <= m -> h' i <= h' j).
    { intros i j Hij. induction Hij as [|j Hij IH]; intros Hj; [lia|].
      specialize (IH ltac:(lia)). specialize (Hup j ltac:(lia)). lia. }
    induction l as [|l IH]; intros start first base junk s p ind oe Hs; [simpl; lia|].
    cbn [sep_cost].
    set (hh := fun i => h i + h' i).
    pose proof (total_one hh (length s)) as Hone. unfold hh at 1 in Hone. cbv beta in Hone.
    destruct (P (base ++ junk) (length base) (RT s p) ind) as [n o] eqn:HPs.
    assert (Hn : n <= h (length s)).
    { pose proof (HinP (length s) Hs base junk s p ind (le_n _)) as H. rewrite HPs in H. exact H. }
    destruct o as [[[res toks'] ind']| |].
    2, 3: unfold cbind; cbn [fst snd]; lia.
    unfold cbind at 1. cbn [fst snd].
    assert (He : snd (P (base ++ junk) (length base) (RT s p) ind) = Done (res, toks', ind'))
      by (rewrite HPs; reflexivity).
    apply HP in He as (v & tr & Hr & Hag). destruct v as [k out|].
    2: { destruct Hag as (e & junk' & _ & -> & ->).
         destruct first, optional, trail; cbn [negb free fst]; lia. }
    destruct Hag as (junk' & -> & ->). rewrite rt_eq. cbn [r_len].
    pose proof (reads_le E HE refs _ _ _ _ _ _ _ _ Hr) as Hk.
    assert (Hz : k = 0 -> may_be_empty refs r)
      by (intros ->; eapply (reads_empty E HE syn); exact Hr).
    destruct (Q ((base ++ out) ++ junk') (length (base ++ out)) (RT (skipn k s) (p + k)) ind')
      as [n2 o2] eqn:HQs.
    assert (Hn2 : n2 <= h' (length s)).
    { pose proof (HinQ (length (skipn k s))) as H. rewrite skipn_length in H.
      specialize (H ltac:(lia)).
      assert (Hc : length s - k < m \/ may_be_empty refs r).
      { destruct (Nat.eq_dec k 0) as [H0|H0]; [right; auto|left; lia]. }
      specialize (H Hc (base ++ out) junk' (skipn k s) (p + k) ind').
      rewrite skipn_length in H. specialize (H (le_n _)). rewrite HQs in H. cbn [fst] in H.
      specialize (Hmono (length s - k) (length s) ltac:(lia) Hs). lia. }
    destruct o2 as [[[res2 toks2] ind2]| |].
    2, 3: unfold cbind; cbn [fst snd]; lia.
    unfold cbind. cbn [fst snd].
    assert (He : snd (Q ((base ++ out) ++ junk') (length (base ++ out)) (RT (skipn k s) (p + k)) ind')
      = Done (res2, toks2, ind2)) by (rewrite HQs; reflexivity).
    apply HQ in He as (v2 & tr2 & Hr2 & Hag). destruct v2 as [k2 out2|].
    - destruct Hag as (junk2 & -> & ->). rewrite rt_eq. cbn [r_len].
      pose proof (reads_le E HE refs _ _ _ _ _ _ _ _ Hr2) as Hk2.
      rewrite skipn_length in Hk2.
      assert (k + k2 <> 0).
      { intros H0. apply Hne. split; [apply Hz; lia|].
        assert (k2 = 0) by lia. subst k2. eapply (reads_empty E HE syn). exact Hr2. }
      match goal with |- _ + (_ + fst (sep_cost _ _ _ _ _ ?st ?f (?b ++ ?j) _ (RT ?s' ?p') ?i ?o)) <= _ =>
        pose proof (IH st f b j s' p' i o) as IH' end.
      rewrite !skipn_length in IH'. specialize (IH' ltac:(lia)). fold hh in IH'.
      pose proof (total_step hh (length s - k - k2) (length s) ltac:(lia)) as Hstep.
      unfold hh at 1 in Hstep. cbv beta in Hstep. lia.
    - destruct Hag as (e & junk2 & _ & -> & ->). cbn [free fst]. lia.
  Qed.

  Lemma item_within m n P o t first ls ind base junk : ls_toks ls = base ++ junk ->
    ls_state ls = length base -> within m n P -> length (src t) <= m ->
    fst (item_cost P o t first ls ind) <= n.
  Proof.
    intros Ht Hst Hin Hs. unfold item_cost, add_u32.
    destruct (N.leb _ _); [|simpl; lia]. unfold cbind at 1. cbn [free fst snd].
    rewrite Ht, Hst. destruct t as [s p]. cbn [src] in Hs. rewrite Nat.add_0_l.
    rewrite <- (Nat.add_0_r n).
    apply cbind_le; [apply Hin; exact Hs|]. intros [[res toks'] ind'] _. destruct res; simpl; lia.
  Qed.

  Lemma closure_within m n P indented base tr fresh ind ls s p : ls_rep base tr fresh ind ls ->
    within m n P -> length s <= m -> fst (closure_cost indented P (RT s p) ls) <= n.
  Proof.
    intros (junk & ->) Hin Hs. unfold closure_cost. cbn [src ls_ind ls_first ls_toks ls_state].
    destruct indented.
    - destruct (skip_indent _ _ _) as [k|]; [|simpl; lia].
      destruct (_ && _).
      + destruct (align_indent_cases (i_tab_spaces ind) (src (rt_consume (RT s p) k)) (i_indent ind))
          as [Hd|[Hd _]]; rewrite Hd; [|simpl; lia]. unfold cbind at 1. cbn [free fst snd].
        rewrite Nat.add_0_l.
        eapply (item_within m); [reflexivity|reflexivity|exact Hin|].
        rewrite !rt_eq. cbn [src]. rewrite !skipn_length. lia.
      + destruct (rt_tag _ _); [simpl; lia|].
        eapply (item_within m); [reflexivity|reflexivity|exact Hin|].
        rewrite rt_eq. cbn [src]. rewrite skipn_length. lia.
    - rewrite <- (Nat.add_0_r n).
      apply cbind_le; [apply Hin; exact Hs|]. intros [[res toks'] ind'] _. destruct res; simpl; lia.
  Qed.

  Lemma lines_within h m P r indented : right_for r P ->
    (forall i, i <= m -> within i (h i) P) ->
    forall l (nl : bool) base tr fresh ind ls s p, ls_rep base tr fresh ind ls -> length s <= m ->
      fst (lines_cost E (closure_cost indented P) l nl (RT s p) ls)
        <= (if nl then total h (length s)
            else match length s with 0 => 0 | S i => total h i end).
  Proof.
    intros HP Hin l. induction l as [|l IH]; intros nl base tr fresh ind ls s p Hrep Hs;
      [simpl; lia|].
    cbn [lines_cost]. cbn [src]. destruct (Nat.eqb _ _); [simpl; lia|].
    assert (Hgo : forall k, (k <> 0 \/ nl = true) -> k <= length s ->
      fst (cbind (closure_cost indented P (RT (skipn k s) (p + k)) ls) (fun '(res, st1) =>
       match res with
       | None => free (Done (inl (RT (skipn k s) (p + k)), st1))
       | Some r =>
         lines_cost E (closure_cost indented P) l
           (ends_with_newline (rt_raw_string (RT (skipn k s) (p + k)) (r_len r)))
           (rt_consume (RT (skipn k s) (p + k)) (r_len r)) st1
       end)) <= total h (length s - k)).
    { intros k Hk Hks.
      destruct (closure_cost indented P (RT (skipn k s) (p + k)) ls) as [n o] eqn:Hcs.
      assert (Hn : n <= h (length s - k)).
      { pose proof (closure_within (length s - k) (h (length s - k)) P indented base tr fresh ind ls
          (skipn k s) (p + k) Hrep) as H. rewrite Hcs in H. apply H; [apply Hin; lia|].
        rewrite skipn_length. lia. }
      pose proof (total_one h (length s - k)) as Hone.
      destruct o as [[ores ls1]| |].
      2, 3: unfold cbind; cbn [fst snd]; lia.
      unfold cbind. cbn [fst snd].
      assert (He : closure indented (fun toks st t ind => snd (P toks st t ind))
        (RT (skipn k s) (p + k)) ls = Done (ores, ls1)).
      { unfold closure. rewrite <- (closure_same P _ indented _ ls (fun _ _ _ _ => eq_refl)).
        rewrite Hcs. reflexivity. }
      eapply closure_sound in He as (v & fresh' & ind' & tr' & Hr & Hc); [|exact HP|exact Hrep].
      destruct v as [j out|].
      - destruct Hc as [-> Hrep']. rewrite rt_eq. cbn [r_len].
        assert (Hj : j <= length (skipn k s)).
        { destruct (reads_fits_all E HE refs) as (_ & _ & _ & _ & _ & _ & Hall).
          apply Hall in Hr as [[Hr _] _]. exact Hr. }
        rewrite skipn_length in Hj.
        match goal with |- _ + fst (lines_cost _ _ _ ?nl' (RT ?s' ?p') _) <= _ =>
          pose proof (IH nl' _ _ _ _ _ s' p' Hrep') as IH' end.
        rewrite !skipn_length in IH'. specialize (IH' ltac:(lia)).
        unfold rt_raw_string in *. cbn [src] in *. destruct j as [|j].
        + change (firstn 0 (skipn k s)) with (@nil char) in *.
          change (ends_with_newline []) with false in *. cbv iota in IH'.
          rewrite Nat.sub_0_r in IH'.
          destruct (length s - k) as [|i] eqn:Hi; [lia|].
          pose proof (total_step h i (S i) ltac:(lia)). lia.
        + destruct (length s - k) as [|i] eqn:Hi; [lia|].
          assert (Ht : total h (S i - S j) <= total h i) by (apply total_le; lia).
          pose proof (total_step h i (S i) ltac:(lia)).
          assert (Ht2 : match S i - S j with 0 => 0 | S i0 => total h i0 end <= total h i).
          { destruct (S i - S j) as [|i0] eqn:Hi0; [lia|]. apply total_le. lia. }
          destruct (ends_with_newline _); lia.
      - destruct Hc as [-> _]. cbn [free fst]. lia. }
    assert (Hall : forall k, (k <> 0 \/ nl = true) -> k <= length s ->
      total h (length s - k) <=
      (if nl then total h (length s) else match length s with 0 => 0 | S i => total h i end)).
    { intros k Hk Hks. destruct nl; [apply total_le; lia|].
      destruct (length s) as [|i]; [lia|]. apply total_le. lia. }
    pose proof (line_start_model nl s) as Hls.
    destruct (after_last_newline _) as [k|] eqn:Hal.
    - rewrite rt_eq. assert (Hk : k <> 0).
      { intros ->. pose proof (after_last_newline_spec (firstn (span_len is_ws s) s)) as Hsp.
        rewrite Hal in Hsp. destruct Hsp as (a & b & _ & _ & Hz). lia. }
      assert (Hks : k <= length s) by (eapply line_start_le; exact Hls).
      eapply Nat.le_trans; [apply Hgo; [left; exact Hk|exact Hks]|].
      apply Hall; [left; exact Hk|exact Hks].
    - destruct nl; [|simpl; lia].
      specialize (Hgo 0 (or_intror eq_refl) (Nat.le_0_l _)).
      rewrite Nat.sub_0_r, Nat.add_0_r in Hgo. exact Hgo.
  Qed.
End Bound.

Lemma total_bound h n b : (forall i, i <= n -> h i <= b) -> total h n <= S n * b.
Proof.
  induction n as [|n IH]; intros H; cbn [total].
  - specialize (H 0 (le_n _)). lia.
  - specialize (IH (fun i Hi => H i (le_S _ _ Hi))). specialize (H (S n) (le_n _)). lia.
Qed.

Lemma fst_one {A} (x : counted A) :
  fst (match x return counted A with (n, o) => (S n, o) end) = S (fst x).
Proof. destruct x. reflexivity. Qed.

Section Limits.
  Variable E : ext.
  Hypothesis HE : ext_ok E.
  Variable syn : syntax.
  Hypothesis Hwf : well_formed syn.

  Notation refs := (s_rules syn).

  (** ** Without recursion: polynomial *)

  Definition poly (c k m : nat) : nat := c * (m + 1) ^ k.

  Lemma pow_pos b k : 1 <= (b + 1) ^ k.
  Proof. induction k as [|k IH]; simpl; nia. Qed.

  Lemma poly_mono c c' k k' m m' : c <= c' -> k <= k' -> m <= m' -> poly c k m <= poly c' k' m'.
  Proof.
    intros Hc Hk Hm. unfold poly. apply Nat.mul_le_mono; [exact Hc|].
    eapply Nat.le_trans; [apply Nat.pow_le_mono_l with (b := m' + 1); lia|].
    apply Nat.pow_le_mono_r; lia.
  Qed.

  Definition poly_for (r : rule) : Prop :=
    exists c k, forall m f, within m (poly c k m) (rule_cost E f refs r).

  Lemma poly_all args : Forall poly_for args ->
    exists c k, forall r m f, In r args -> within m (poly c k m) (rule_cost E f refs r).
  Proof.
    induction 1 as [|r args (c & k & H) _ (c' & k' & IH)].
    - exists 0, 0. intros r m f [].
    - exists (Nat.max c c'), (Nat.max k k'). intros r' m f [<-|Hr].
      + eapply within_more; [apply H|]. apply poly_mono; lia.
      + eapply within_more; [apply IH; exact Hr|]. apply poly_mono; lia.
  Qed.

  Ltac leaf := exists 1, 0; intros m [|f] base junk s p ind Hs;
    [unfold poly; cbn; lia|]; cbn [rule_cost free]; unfold poly; cbn; lia.

  Lemma rule_poly (rank : nat -> nat) k :
    (forall i r, nth_error refs i = Some r -> rank i < k -> poly_for r) ->
    forall r, occurs syn r ->
    (forall name property j id, occurs_in (RNode name property (Some j) id) r -> rank j < k) ->
    poly_for r.
  Proof.
    intros Hlow r. induction r as [r IH] using rule_ind'. intros Ho Hm.
    assert (Hsub : forall c, In c (children r) -> poly_for c).
    { intros c Hc. apply IH; [exact Hc|eapply occurs_child; eassumption|].
      intros name property j id Hj. eapply Hm. eapply occurs_below; eassumption. }
    clear IH. destruct r; cbn [children] in Hsub; try leaf.
    - (* select *) destruct (poly_all args) as (c & k' & H); [apply Forall_forall; exact Hsub|].
      exists (S (length args * c)), k'. intros m [|f] base junk s p ind Hs; [simpl; lia|].
      cbn [rule_cost]. rewrite fst_one.
      pose proof (select_within E syn m (poly c k' m) (rule_cost E f refs) id args
        (rule_right E syn f) (fun r Hr => H r m f Hr) base junk s p ind None Hs) as Hle.
      unfold poly in *. pose proof (pow_pos m k'). nia.
    - (* fast select *) destruct (poly_all args) as (c & k' & H); [apply Forall_forall; exact Hsub|].
      exists (S (c + c)), k'. intros m [|f] base junk s p ind Hs; [simpl; lia|].
      cbn [rule_cost]. rewrite fst_one.
      pose proof (fast_within E syn m (poly c k' m) (rule_cost E f refs) table args tail id
        (rule_right E syn f) (fun r Hr => H r m f Hr) base junk s p ind Hs) as Hle.
      unfold poly in *. pose proof (pow_pos m k'). nia.
    - (* sequence *) destruct (poly_all args) as (c & k' & H); [apply Forall_forall; exact Hsub|].
      exists (S (length args * c)), k'. intros m [|f] base junk s p ind Hs; [simpl; lia|].
      cbn [rule_cost]. rewrite fst_one.
      pose proof (seq_within E HE syn m (poly c k' m) (rule_cost E f refs) args
        (rule_right E syn f) [] args eq_refl) as Hle.
      assert (Hfirst : forall before r behind, args = before ++ r :: behind ->
        Forall (may_be_empty refs) before -> within m (poly c k' m) (rule_cost E f refs r)).
      { intros before r behind Ha _. apply H. rewrite Ha. apply in_or_app. right. left. reflexivity. }
      specialize (Hle Hfirst). clear Hfirst.
      specialize (Hle (fun r m' Hr Hm' => within_less _ _ _ _ (H r m f Hr) (Nat.lt_le_incl _ _ Hm'))).
      specialize (Hle (RT s p) base junk s p ind None Hs (or_intror (Forall_nil _))).
      unfold poly in *. pose proof (pow_pos m k'). nia.
    - (* separate by *)
      destruct (poly_all [r1; r2]) as (c & k' & H); [apply Forall_forall; exact Hsub|].
      exists (S (c + c)), (S k'). intros m [|f] base junk s p ind Hs; [simpl; lia|].
      cbn [rule_cost]. rewrite fst_one. destruct Hwf as (_ & Hsep & _).
      pose proof (sep_within E HE syn (poly c k') (poly c k') m (rule_cost E f refs r1)
        (rule_cost E f refs r2) r1 r2 optional allow_trail (rule_right E syn f r1)
        (rule_right E syn f r2) (Hsep _ _ _ _ _ Ho)
        (fun i _ => H r1 i f (or_introl eq_refl))
        (fun i _ _ => H r2 i f (or_intror (or_introl eq_refl)))
        (fun i _ => poly_mono c c k' k' i (S i) (le_n _) (le_n _) (Nat.le_succ_diag_r i))
        f (RT s p) true base junk s p ind None Hs) as Hle.
      pose proof (total_bound (fun i => poly c k' i + poly c k' i) (length s)
        (poly c k' m + poly c k' m)) as Hb.
      assert (Hb' : forall i, i <= length s -> poly c k' i + poly c k' i <= poly c k' m + poly c k' m).
      { intros i Hi. pose proof (poly_mono c c k' k' i m (le_n _) (le_n _) ltac:(lia)). lia. }
      specialize (Hb Hb'). clear Hb'.
      assert (Hs' : S (length s) * (poly c k' m + poly c k' m) <=
        (m + 1) * (poly c k' m + poly c k' m)) by (apply Nat.mul_le_mono_r; lia).
      unfold poly in *. cbn [Nat.pow]. pose proof (pow_pos m k'). nia.
    - (* repeat *)
      destruct (poly_all [r]) as (c & k' & H); [apply Forall_forall; exact Hsub|].
      exists (S c), (S k'). intros m [|f] base junk s p ind Hs; [simpl; lia|].
      cbn [rule_cost]. rewrite fst_one. destruct Hwf as (Hrep & _ & _).
      pose proof (repeat_within E HE syn (poly c k') m (rule_cost E f refs r) r optional
        (rule_right E syn f r) (Hrep _ _ _ Ho) (fun i _ => H r i f (or_introl eq_refl))
        f (RT s p) true base junk s p ind None Hs) as Hle.
      pose proof (total_bound (poly c k') (length s) (poly c k' m)
        (fun i Hi => poly_mono c c k' k' i m (le_n _) (le_n _) (Nat.le_trans _ _ _ Hi Hs))) as Hb.
      assert (Hs' : S (length s) * poly c k' m <= (m + 1) * poly c k' m)
        by (apply Nat.mul_le_mono_r; lia).
      unfold poly in *. cbn [Nat.pow]. pose proof (pow_pos m k'). nia.
    - (* lines *)
      destruct (poly_all [r]) as (c & k' & H); [apply Forall_forall; exact Hsub|].
      exists (S c), (S k'). intros m [|f] base junk s p ind Hs; [simpl; lia|].
      cbn [rule_cost]. rewrite fst_one.
      assert (Hle : fst (cbind (lines_cost E (closure_cost indent (rule_cost E f refs r)) f true
          (RT s p) (LS (base ++ junk) (length base) None true ind)) (fun '(res, ls) =>
          match res with
          | inr r =>
            free (Done (PErr (ret_err (r, ExpectedNewLine id) (ls_err ls)), ls_toks ls, ls_ind ls))
          | inl t' => free (Done (POk (rt_subtract t' (RT s p)) (ls_state ls) (ls_err ls),
                                  ls_toks ls, ls_ind ls))
          end)) <= total (poly c k') (length s) + 0).
      { apply cbind_le; [|intros [[] ls] _; simpl; lia].
        eapply (lines_within E HE syn (poly c k') m _ r indent (rule_right E syn f r)
          (fun i _ => H r i f (or_introl eq_refl)) f true) with (tr := []); [|exact Hs].
        exists junk. reflexivity. }
      pose proof (total_bound (poly c k') (length s) (poly c k' m)
        (fun i Hi => poly_mono c c k' k' i m (le_n _) (le_n _) (Nat.le_trans _ _ _ Hi Hs))) as Hb.
      assert (Hs' : S (length s) * poly c k' m <= (m + 1) * poly c k' m)
        by (apply Nat.mul_le_mono_r; lia).
      unfold poly in *. cbn [Nat.pow]. pose proof (pow_pos m k'). nia.
    - (* node *)
      destruct index as [i|]; [|leaf].
      destruct (nth_error refs i) as [r|] eqn:Hi.
      2: { exists 1, 0. intros m [|f] base junk s p ind Hs; [unfold poly; simpl; lia|].
           cbn [rule_cost]. rewrite fst_one. destruct (emit _ _ _ _ _). rewrite Hi.
           unfold poly. simpl. lia. }
      destruct (Hlow i r Hi) as (c & k' & H); [eapply Hm; constructor|].
      exists (S c), k'. intros m [|f] base junk s p ind Hs; [simpl; lia|].
      cbn [rule_cost]. rewrite fst_one.
      edestruct (emit_spec property) as (junk' & He). rewrite He. clear He. rewrite Hi.
      assert (Hle : forall (K : pres * list tok * indent -> counted (pres * list tok * indent)),
        (forall x, fst (K x) = 0) ->
        fst (cbind (rule_cost E f refs r ((base ++ token property (rt_start (RT s p)) StartNode) ++ junk')
          (length (base ++ token property (rt_start (RT s p)) StartNode)) (RT s p) ind) K)
          <= poly c k' m + 0).
      { intros K HK. apply cbind_le; [apply H; exact Hs|]. intros y _. rewrite HK. lia. }
      eapply Nat.le_trans; [apply le_n_S; apply Hle|].
      + intros [[[] toks2] ind2]; [|reflexivity]. destruct (emit _ _ _ _ _). reflexivity.
      + unfold poly in *. pose proof (pow_pos m k'). nia.
    - (* optional *)
      destruct (poly_all [r]) as (c & k' & H); [apply Forall_forall; exact Hsub|].
      exists (S c), k'. intros m [|f] base junk s p ind Hs; [simpl; lia|].
      cbn [rule_cost]. rewrite fst_one.
      eapply Nat.le_trans; [apply le_n_S; eapply cbind_le with (b := 0)|].
      + apply (H r m f (or_introl eq_refl)). exact Hs.
      + intros [[[] toks2] ind2] _; simpl; lia.
      + unfold poly in *. pose proof (pow_pos m k'). nia.
    - (* not *)
      destruct (poly_all [r]) as (c & k' & H); [apply Forall_forall; exact Hsub|].
      exists (S c), k'. intros m [|f] base junk s p ind Hs; [simpl; lia|].
      cbn [rule_cost]. rewrite fst_one.
      eapply Nat.le_trans; [apply le_n_S; eapply cbind_le with (b := 0)|].
      + apply (H r m f (or_introl eq_refl)). exact Hs.
      + intros [[[] toks2] ind2] _; simpl; lia.
      + unfold poly in *. pose proof (pow_pos m k'). nia.
  Qed.

  Theorem poly_bound : no_recursion syn -> exists c k, forall text tokens ind n,
    makes_calls E syn text tokens ind n -> n <= c * (length text + 1) ^ k.
  Proof.
    intros (rank & Hrank).
    assert (Hall : forall k i r, nth_error refs i = Some r -> rank i < k -> poly_for r).
    { induction k as [|k IH]; intros i r Hi Hk; [lia|].
      apply (rule_poly rank k IH); [apply occurs_top; eapply nth_error_In; exact Hi|].
      intros name property j id Hj. specialize (Hrank _ _ _ _ _ _ Hi Hj). lia. }
    destruct (nth_error refs (length refs - 1)) as [r|] eqn:Hr.
    - destruct (Hall _ _ _ Hr (le_n _)) as (c & k & H). exists c, k.
      intros text tokens ind n (f & result & Hn). unfold parse_cost in Hn. rewrite Hr in Hn.
      apply (f_equal fst) in Hn. cbn [fst] in Hn. subst n. rewrite <- (Nat.add_0_r (c * _)).
      apply cbind_le.
      + pose proof (H (length text) f tokens [] text 0 ind (le_n _)) as Hb.
        rewrite app_nil_r in Hb. exact Hb.
      + intros [[[] toks'] ind'] _; [|simpl; lia]. destruct (_ <? _); simpl; lia.
    - exists 0, 0. intros text tokens ind n (f & result & Hn). unfold parse_cost in Hn.
      rewrite Hr in Hn. inversion Hn. lia.
  Qed.

  (** ** With recursion: exponential *)

  Fixpoint arity (r : rule) : nat :=
    match r with
    | RSelect args _ | RSequence args _ | RFastSelect _ args _ _ =>
      length args + fold_right Nat.max 0 (map arity args)
    | RSeparateBy r by_ _ _ _ => Nat.max (arity r) (arity by_)
    | RRepeat r _ _ | RLines r _ _ | ROptional r _ | RNot r _ => arity r
    | _ => 0
    end.

  Lemma arity_child r c : In c (children r) -> arity c <= arity r.
  Proof.
    destruct r; cbn [children arity]; intros Hc; try contradiction Hc;
      try (apply (in_map arity) in Hc; apply max_in in Hc; lia);
      try (destruct Hc as [<-|[]]; lia).
    destruct Hc as [<-|[<-|[]]]; lia.
  Qed.

  Lemma arity_occurs r top : occurs_in r top -> arity r <= arity top.
  Proof. induction 1 as [|r' c Hc _ IH]; [lia|]. apply arity_child in Hc. lia. Qed.

  Definition widest : nat := 6 + fold_right Nat.max 0 (map arity refs).

  Lemma occurs_widest r : occurs syn r -> 6 + arity r <= widest.
  Proof.
    intros (top & Ht & Ho). apply arity_occurs in Ho. unfold widest.
    assert (arity top <= fold_right Nat.max 0 (map arity refs))
      by (apply max_in; apply in_map; exact Ht). lia.
  Qed.

  Section Ranked.
    Variable rank : nat -> nat.
    Hypothesis Hrank : forall i r j,
      nth_error refs i = Some r -> leads_to refs r j -> rank j < rank i.

    Notation top_rank := (highest syn rank).
    Notation tall := (tallest syn).
    Notation W := widest.

    Definition step : nat := S (top_rank * tall + tall).

    Lemma W_pow a b : a <= b -> W ^ a <= W ^ b.
    Proof. intros H. apply Nat.pow_le_mono_r; [unfold widest; lia|exact H]. Qed.

    Lemma W_one a : 1 <= W ^ a.
    Proof. change 1 with (W ^ 0). apply W_pow. lia. Qed.

    (** The bound for shorter texts, and the one for texts of length [m]. *)
    Definition so_far (d m i : nat) : nat :=
      if i <? m then W ^ (step * i + (step - 1)) else W ^ d.

    Lemma so_far_sum d m n : n < m -> total (so_far d m) n <= W ^ (step * S n).
    Proof.
      induction n as [|n IH]; intros Hn; cbn [total]; unfold so_far at 1.
      - rewrite (proj2 (Nat.ltb_lt 0 m) Hn). apply W_pow. lia.
      - rewrite (proj2 (Nat.ltb_lt (S n) m) Hn). specialize (IH ltac:(lia)).
        assert (H : 2 * W ^ (step * S n + (step - 1)) <= W ^ (step * S (S n))).
        { replace (step * S (S n)) with (S (step * S n + (step - 1))) by (unfold step; lia).
          cbn [Nat.pow]. apply Nat.mul_le_mono_r. unfold widest. lia. }
        assert (H2 : W ^ (step * S n) <= W ^ (step * S n + (step - 1))) by (apply W_pow; lia).
        lia.
    Qed.

    Lemma so_far_total d m n : n <= m -> step * m <= d -> total (so_far d m) n <= 2 * W ^ d.
    Proof.
      intros Hn Hd. destruct (Nat.eq_dec n m) as [->|Hne].
      - destruct m as [|m]; cbn [total]; unfold so_far at 1.
        + cbn [Nat.ltb Nat.leb]. lia.
        + rewrite Nat.ltb_irrefl. pose proof (so_far_sum d (S m) m ltac:(lia)).
          assert (W ^ (step * S m) <= W ^ d) by (apply W_pow; exact Hd). lia.
      - pose proof (so_far_sum d m n ltac:(lia)).
        assert (W ^ (step * S n) <= W ^ d).
        { apply W_pow. eapply Nat.le_trans; [|exact Hd]. apply Nat.mul_le_mono_l. lia. }
        lia.
    Qed.

    Lemma so_far_mono d m i : step * m <= d -> i < m -> so_far d m i <= so_far d m (S i).
    Proof.
      intros Hd Hi. unfold so_far. rewrite (proj2 (Nat.ltb_lt i m) Hi).
      destruct (S i <? m) eqn:Hs; apply W_pow.
      - lia.
      - apply Nat.ltb_ge in Hs. assert (m = S i) by lia. subst m. unfold step in *. lia.
    Qed.

    Lemma total_twice h n : total (fun i => h i + h i) n = total h n + total h n.
    Proof. induction n as [|n IH]; cbn [total]; lia. Qed.

    Lemma rule_exp d : forall m k r f, k <= top_rank -> occurs syn r ->
      (forall j, j < length refs -> leads_to refs r j -> rank j < k) ->
      step * m + k * tall + height r <= d ->
      within m (W ^ d) (rule_cost E f refs r).
    Proof.
      induction d as [d IH] using lt_wf_ind. intros m k r f Hk Ho Hlead Hd.
      destruct d as [|d]; [exfalso; destruct r; cbn [height] in Hd; lia|].
      destruct f as [|f]; [intros base junk s p ind Hs; simpl; lia|].
      assert (Hsound : forall r, right_for E syn r (rule_cost E f refs r))
        by (apply rule_right).
      assert (Hfirst : forall c, In c (children r) -> tried_first refs r c ->
        within m (W ^ d) (rule_cost E f refs c)).
      { intros c Hc Ht. apply (IH d (le_n _) m k c f Hk).
        - eapply occurs_child; eassumption.
        - intros j Hj Hl. apply Hlead; [exact Hj|]. eapply leads_below; eassumption.
        - apply height_child in Hc. lia. }
      assert (Hh1 : 1 <= height r) by (destruct r; cbn [height]; lia).
      assert (Hsm : step * m <= d) by lia.
      assert (Hlater : forall c m', In c (children r) -> m' < m ->
        within m' (W ^ (step * m' + (step - 1))) (rule_cost E f refs c)).
      { intros c m' Hc Hm.
        assert (Hh : height c <= tall)
          by (apply occurs_tallest; eapply occurs_child; eassumption).
        assert (Hp : step * m' + step <= step * m) by nia.
        assert (Hst : step - 1 = top_rank * tall + tall) by (unfold step; lia).
        apply (IH (step * m' + (step - 1)) ltac:(lia) m' top_rank c f (le_n _)).
        - eapply occurs_child; eassumption.
        - intros j Hj _. apply rank_highest. exact Hj.
        - lia. }
      assert (Hso : forall c, In c (children r) -> tried_first refs r c ->
        forall i, i <= m -> within i (so_far d m i) (rule_cost E f refs c)).
      { intros c Hc Ht i Hi. unfold so_far. destruct (i <? m) eqn:Hlt.
        - apply Nat.ltb_lt in Hlt. apply Hlater; assumption.
        - apply Nat.ltb_ge in Hlt. eapply within_less; [apply Hfirst; assumption|lia]. }
      pose proof (W_one d) as HW1. pose proof (occurs_widest r Ho) as HW.
      cbn [Nat.pow].
      destruct r; cbn [rule_cost]; intros base junk s p ind Hs; rewrite fst_one;
        try (cbn [free fst]; nia).
      - cbn [arity] in HW.
        pose proof (select_within E syn m (W ^ d) (rule_cost E f refs) id args Hsound
          (fun r Hr => Hfirst r Hr (first_select refs args id r Hr)) base junk s p ind None Hs).
        nia.
      - pose proof (fast_within E syn m (W ^ d) (rule_cost E f refs) table args tail id Hsound
          (fun r Hr => Hfirst r Hr (first_fast refs table args tail id r Hr)) base junk s p ind Hs).
        nia.
      - cbn [arity] in HW.
        assert (Hle : fst (seq_cost (rule_cost E f refs) args (RT s p) (base ++ junk) (length base)
          (RT s p) ind None) <= length args * W ^ d); [|nia].
        apply (seq_within E HE syn m (W ^ d) (rule_cost E f refs) args Hsound [] args eq_refl);
          [| |exact Hs|right; constructor].
        + intros before r behind Ha Hb. apply Hfirst.
          * cbn [children]. rewrite Ha. apply in_or_app. right. left. reflexivity.
          * rewrite Ha. constructor. exact Hb.
        + intros r m' Hr Hm. eapply within_more; [apply Hlater; [exact Hr|exact Hm]|].
          apply W_pow. assert (step * m' + step <= step * m) by nia. lia.
      - destruct Hwf as (_ & Hsep & _).
        assert (Hle : fst (sep_cost f (rule_cost E f refs r1) (rule_cost E f refs r2) optional
          allow_trail (RT s p) true (base ++ junk) (length base) (RT s p) ind None)
          <= total (fun i => so_far d m i + so_far d m i) (length s)).
        { apply (sep_within E HE syn (so_far d m) (so_far d m) m _ _ r1 r2);
            [apply Hsound|apply Hsound|eapply Hsep; exact Ho| | | |exact Hs].
          - apply Hso; [left; reflexivity|constructor].
          - intros i Hi Hc. unfold so_far. destruct (i <? m) eqn:Hlt.
            + apply Nat.ltb_lt in Hlt. apply Hlater; [right; left; reflexivity|exact Hlt].
            + apply Nat.ltb_ge in Hlt. destruct Hc as [Hc|Hc]; [lia|].
              eapply within_less; [apply Hfirst; [right; left; reflexivity|constructor; exact Hc]|lia].
          - intros i Hi. apply so_far_mono; assumption. }
        rewrite total_twice in Hle. pose proof (so_far_total d m (length s) Hs Hsm). nia.
      - destruct Hwf as (Hrep & _ & _).
        assert (Hle : fst (repeat_cost f (rule_cost E f refs r) optional (RT s p) true
          (base ++ junk) (length base) (RT s p) ind None) <= total (so_far d m) (length s)).
        { apply (repeat_within E HE syn (so_far d m) m _ r); [apply Hsound|eapply Hrep; exact Ho| |exact Hs].
          apply Hso; [left; reflexivity|constructor]. }
        pose proof (so_far_total d m (length s) Hs Hsm). nia.
      - match goal with |- S (fst (cbind ?x ?k)) <= _ =>
          assert (Hle : fst (cbind x k) <= total (so_far d m) (length s) + 0) end.
        { apply cbind_le; [|intros [[] ls] _; simpl; lia].
          eapply (lines_within E HE syn (so_far d m) m _ r indent (Hsound r)) with (nl := true) (tr := []);
            [|exists junk; reflexivity|exact Hs].
          apply Hso; [left; reflexivity|constructor]. }
        pose proof (so_far_total d m (length s) Hs Hsm). nia.
      - destruct index as [i|]; [|cbn [free fst]; nia].
        edestruct (emit_spec property) as (junk' & He). rewrite He. clear He.
        destruct (nth_error refs i) as [r|] eqn:Hi; [|cbn [free fst]; nia].
        match goal with |- S (fst (cbind ?x ?k)) <= _ =>
          assert (Hle : fst (cbind x k) <= W ^ d + 0) end; [|nia].
        apply cbind_le.
        + assert (Hn : i < length refs) by (apply nth_error_Some; congruence).
          apply nth_error_In in Hi as Hin. apply occurs_top in Hin.
          assert (Hr : rank i < k) by (apply Hlead; [exact Hn|constructor]).
          apply (IH d (le_n _) m (rank i) r f); [lia|exact Hin| | |exact Hs].
          * intros j _ Hj. eapply Hrank; eassumption.
          * apply occurs_tallest in Hin. cbn [height] in Hd.
            assert (rank i * tall + tall <= k * tall).
            { rewrite <- (Nat.mul_1_l tall) at 2. rewrite <- Nat.mul_add_distr_r.
              apply Nat.mul_le_mono_r. lia. }
            lia.
        + intros [[[] toks2] ind2] _; [|simpl; lia]. destruct (emit _ _ _ _ _). simpl. lia.
      - match goal with |- S (fst (cbind ?x ?k)) <= _ =>
          assert (Hle : fst (cbind x k) <= W ^ d + 0) end; [|nia].
        apply cbind_le; [apply Hfirst; [left; reflexivity|constructor|exact Hs]|].
        intros [[[] toks2] ind2] _; simpl; lia.
      - match goal with |- S (fst (cbind ?x ?k)) <= _ =>
          assert (Hle : fst (cbind x k) <= W ^ d + 0) end; [|nia].
        apply cbind_le; [apply Hfirst; [left; reflexivity|constructor|exact Hs]|].
        intros [[[] toks2] ind2] _; simpl; lia.
    Qed.
  End Ranked.

  Theorem exp_bound : exists c, forall text tokens ind n,
    makes_calls E syn text tokens ind n -> n <= c ^ S (length text).
  Proof.
    destruct Hwf as (_ & _ & rank & Hrank).
    exists (widest ^ step rank). intros text tokens ind n (f & result & Hn).
    unfold parse_cost in Hn.
    destruct (nth_error refs (length refs - 1)) as [r|] eqn:Hr.
    - apply (f_equal fst) in Hn. cbn [fst] in Hn. subst n.
      apply nth_error_In in Hr. apply occurs_top in Hr.
      rewrite <- (Nat.add_0_r (_ ^ S _)). apply cbind_le.
      + pose proof (rule_exp rank Hrank (step rank * S (length text)) (length text)
          (highest syn rank) r f (le_n _) Hr
          (fun j Hj _ => rank_highest syn rank j Hj)) as Hb.
        pose proof (occurs_tallest syn r Hr) as Ht.
        specialize (Hb ltac:(unfold step; lia) tokens [] text 0 ind (le_n _)).
        rewrite app_nil_r in Hb. rewrite <- Nat.pow_mul_r. exact Hb.
      + intros [[[] toks'] ind'] _; [|simpl; lia]. destruct (_ <? _); simpl; lia.
    - inversion Hn. lia.
  Qed.
End Limits.
