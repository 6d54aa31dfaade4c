(** Optimisation: C21-C24. *)
From Coq Require Import List NArith Bool Arith Lia.
From Verif Require Import Base Ext Types ParseModel OptimizeModel PegSpec DataSpec PrimProofs
  PegProofs PegComplete PegFacts ApiSpec ParseProofs ParsePublic RuleSpec RuleProofs OptSpec
  SimProofs FuelProofs OptProofs.
Import ListNotations.

(** ** Fuel *)

Lemma unique_byte_mono refs f : forall g r, f <= g ->
  le_o (unique_byte f refs r) (unique_byte g refs r).
Proof.
  induction f as [|f IH]; intros g r Hg; [left; reflexivity|].
  destruct g as [|g]; [lia|]. destruct r; cbn [unique_byte]; try apply le_o_refl.
  - destruct args as [|a [|a' args]]; try apply le_o_refl. apply IH. lia.
  - destruct args as [|a args]; try apply le_o_refl. apply IH. lia.
  - destruct optional; [apply le_o_refl|]. apply IH. lia.
  - destruct optional; [apply le_o_refl|]. apply IH. lia.
  - destruct index; [|apply le_o_refl]. destruct (nth_error _ _); [|apply le_o_refl].
    apply IH. lia.
  - destruct r; try apply le_o_refl. apply IH. lia.
Qed.

Lemma unique_byte_unique refs f g r a b :
  unique_byte f refs r = Done a -> unique_byte g refs r = Done b -> a = b.
Proof.
  intros Ha Hb. destruct (Nat.le_gt_cases f g) as [H|H].
  - destruct (unique_byte_mono refs f g r H); congruence.
  - destruct (unique_byte_mono refs g f r ltac:(lia)); congruence.
Qed.

Lemma has_unique_byte_unique refs r a b :
  has_unique_byte refs r a -> has_unique_byte refs r b -> a = b.
Proof.
  intros (f & Ha) (g & Hb). pose proof (unique_byte_unique _ _ _ _ _ _ Ha Hb). congruence.
Qed.

Lemma unique_loop_mono refs args : forall f g i data up, f <= g ->
  le_o (unique_loop f refs args i data up) (unique_loop g refs args i data up).
Proof.
  induction args as [|r rest IH]; intros f g i data up Hg; cbn [unique_loop]; [apply le_o_refl|].
  destruct (255 <=? i); [apply le_o_refl|].
  apply le_o_bind; [apply unique_byte_mono; exact Hg|].
  intros [b|]; [|apply le_o_refl]. destruct (nth_error _ _); [|apply le_o_refl].
  destruct (Nat.eqb _ _); [|apply le_o_refl]. apply IH. exact Hg.
Qed.

Lemma map_o_mono {A B} (f g : A -> outcome B) l :
  (forall x, In x l -> le_o (f x) (g x)) -> le_o (map_o f l) (map_o g l).
Proof.
  induction l as [|x l IH]; intros H; simpl; [apply le_o_refl|].
  apply le_o_bind; [apply H; left; reflexivity|]. intros y.
  apply le_o_bind; [apply IH; intros z Hz; apply H; right; exact Hz|]. intros. apply le_o_refl.
Qed.

Lemma optimize_rule_mono refs f g r : f <= g ->
  le_o (optimize_rule f refs r) (optimize_rule g refs r).
Proof.
  intros Hg. induction r as [r IH] using rule_ind'.
  destruct r; cbn [optimize_rule]; try apply le_o_refl;
    try (apply le_o_bind; [apply IH; simpl; auto|intros; apply le_o_refl]).
  - apply le_o_bind; [apply unique_loop_mono; exact Hg|]. intros [table up].
    apply le_o_bind; [apply map_o_mono; exact IH|]. intros. apply le_o_refl.
  - apply le_o_bind; [apply map_o_mono; exact IH|]. intros. apply le_o_refl.
  - apply le_o_bind; [apply IH; simpl; auto|]. intros.
    apply le_o_bind; [apply IH; simpl; auto|]. intros. apply le_o_refl.
Qed.

Lemma optimize_mono f g s : f <= g -> le_o (optimize f s) (optimize g s).
Proof.
  intros Hg. unfold optimize. apply le_o_bind; [|intros; apply le_o_refl].
  apply map_o_mono. intros. apply optimize_rule_mono. exact Hg.
Qed.

Lemma optimize_returns_unique s s1 s2 :
  optimize_returns s s1 -> optimize_returns s s2 -> s1 = s2.
Proof.
  intros (f & Ha) (g & Hb). destruct (Nat.le_gt_cases f g) as [H|H].
  - destruct (optimize_mono f g s H); congruence.
  - destruct (optimize_mono g f s ltac:(lia)); congruence.
Qed.

(** ** C21 *)

Lemma table_public fuel refs args table up :
  unique_table_from_select fuel refs args = Done (table, up) ->
  length table = 256 /\ up <= 255 /\ up <= length args /\
  (forall b i, nth_error table b = Some i -> i <> 255 ->
     i < up /\ exists r, nth_error args i = Some r /\ has_unique_byte refs r (N.of_nat b)) /\
  (forall i r, i < up -> nth_error args i = Some r ->
     exists b, has_unique_byte refs r b /\ nth_error table (N.to_nat b) = Some i) /\
  (forall i j r r' b, i < up -> j < up -> nth_error args i = Some r ->
     nth_error args j = Some r' -> has_unique_byte refs r b -> has_unique_byte refs r' b ->
     i = j) /\
  (forall r, up < 255 -> nth_error args up = Some r ->
     unique_byte fuel refs r = Done None \/
     exists i r' b, i < up /\ nth_error args i = Some r' /\
       has_unique_byte refs r b /\ has_unique_byte refs r' b).
Proof.
  intros H. apply unique_table_spec in H as (taken & rest & -> & -> & (H1 & H2 & H3 & H4) & Hs).
  assert (Hn : forall i r, i < length taken -> nth_error (taken ++ rest) i = Some r ->
    nth_error taken i = Some r) by (intros i r Hi; rewrite nth_error_app1 by exact Hi; auto).
  split; [exact H1|]. split; [exact H2|]. split; [rewrite app_length; lia|]. split; [|split; [|split]].
  - intros b i Hb Hi. destruct (H4 _ _ Hb Hi) as (r & Hr & Hu).
    assert (Hlt : i < length taken) by (apply nth_error_Some; congruence).
    split; [exact Hlt|]. exists r. rewrite nth_error_app1 by exact Hlt. split; [exact Hr|].
    exists fuel. exact Hu.
  - intros i r Hi Hr. apply Hn in Hr; [|exact Hi]. destruct (H3 _ _ Hr) as (b & Hb & Ht).
    exists b. split; [exists fuel; exact Hb|exact Ht].
  - intros i j r r' b Hi Hj Hr Hr' Hb Hb'. apply Hn in Hr; [|exact Hi].
    apply Hn in Hr'; [|exact Hj].
    destruct (H3 _ _ Hr) as (b1 & Hb1 & Ht1). destruct (H3 _ _ Hr') as (b2 & Hb2 & Ht2).
    assert (b1 = b) by (eapply has_unique_byte_unique; [exists fuel; exact Hb1|exact Hb]).
    assert (b2 = b) by (eapply has_unique_byte_unique; [exists fuel; exact Hb2|exact Hb']).
    subst. congruence.
  - intros r Hu Hr. rewrite nth_error_app2, Nat.sub_diag in Hr by lia.
    destruct Hs as [->|[Hs|(r1 & rest' & -> & Hs)]]; [discriminate|lia|].
    injection Hr as ->. destruct Hs as [Hs|(b & r' & Hb & Hin & Hb')]; [left; exact Hs|right].
    apply In_nth_error in Hin as (i & Hi). exists i, r', b.
    assert (Hlt : i < length taken) by (apply nth_error_Some; congruence).
    rewrite nth_error_app1 by exact Hlt. repeat split; auto; exists fuel; assumption.
Qed.

(** ** Optimised rules *)

Lemma map_o_done {A B} (f : A -> outcome B) l l' :
  map_o f l = Done l' -> Forall2 (fun x y => f x = Done y) l l'.
Proof.
  revert l'. induction l as [|x l IH]; intros l' H; simpl in H.
  - injection H as <-. constructor.
  - destruct (f x) as [y| |] eqn:Hx; try discriminate. cbn [obind] in H.
    destruct (map_o f l) as [ys| |] eqn:Hl; try discriminate. cbn [obind] in H.
    injection H as <-. constructor; auto.
Qed.

Lemma map_o_make {A B} (f : A -> outcome B) l l' :
  Forall2 (fun x y => f x = Done y) l l' -> map_o f l = Done l'.
Proof. induction 1 as [|x y l l' H _ IH]; simpl; [reflexivity|]. rewrite H. simpl. rewrite IH. reflexivity. Qed.

Section Opt.
  Variable fuel : nat.
  Variables refs refs' : list rule.
  Hypothesis Hrefs : Forall2 (fun r r' => optimize_rule fuel refs r = Done r') refs refs'.

  Ltac binds H := repeat match type of H with
    | obind ?e _ = Done _ => let Hx := fresh "Hx" in destruct e eqn:Hx; try discriminate; cbn [obind] in H
    end.

  Lemma opt_select_cases args id r' :
    optimize_rule fuel refs (RSelect args id) = Done r' ->
    exists table up args',
      unique_table_from_select fuel refs args = Done (table, up) /\
      Forall2 (fun r r' => optimize_rule fuel refs r = Done r') args args' /\
      r' = if up <? 2 then RSelect args' id
           else if up <? length args
           then RFastSelect table (firstn up args' ++ [RSelect (skipn up args') id]) true id
           else RFastSelect table args' false id.
  Proof.
    cbn [optimize_rule]. intros H.
    destruct (unique_table_from_select fuel refs args) as [[table up]| |] eqn:Ht; try discriminate.
    cbn [obind] in H. destruct (map_o _ args) as [args'| |] eqn:Ha; try discriminate.
    cbn [obind] in H. exists table, up, args'. split; [reflexivity|].
    split; [apply map_o_done; exact Ha|].
    destruct (up <? 2); [congruence|]. destruct (up <? length args); congruence.
  Qed.

  Lemma unique_byte_opt f : forall r r', optimize_rule fuel refs r = Done r' ->
    unique_byte f refs' r' = unique_byte f refs r.
  Proof.
    induction f as [|f IH]; intros r r' Ho; [reflexivity|].
    destruct r; try (cbn [optimize_rule] in Ho; binds Ho; injection Ho as <-;
                     cbn [unique_byte]; reflexivity).
    - apply opt_select_cases in Ho as (table & up & args' & Ht & Ha & ->).
      apply table_public in Ht as (_ & _ & Hup & _).
      destruct Ha as [|a a' rest rest' Ha Hr].
      + simpl in Hup. replace up with 0 by lia. reflexivity.
      + destruct Hr as [|b b' rest rest' Hb Hr].
        * simpl in Hup. destruct up as [|[|up]]; [| |lia]; cbn; apply IH; exact Ha.
        * destruct (up <? 2); [reflexivity|]. destruct (up <? _); reflexivity.
    - cbn [optimize_rule] in Ho. binds Ho. injection Ho as <-. apply map_o_done in Hx.
      cbn [unique_byte]. destruct Hx as [|a a' rest rest' Ha _]; [reflexivity|]. apply IH. exact Ha.
    - cbn [optimize_rule] in Ho. binds Ho. injection Ho as <-.
      cbn [unique_byte]. destruct optional; [reflexivity|]. apply IH. assumption.
    - cbn [optimize_rule] in Ho. binds Ho. injection Ho as <-.
      cbn [unique_byte]. destruct optional; [reflexivity|]. apply IH. assumption.
    - injection Ho as <-. cbn [unique_byte]. destruct index as [i|]; [|reflexivity].
      pose proof (Forall2_nth _ _ _ i Hrefs) as Hi.
      destruct (nth_error refs i), (nth_error refs' i); try contradiction; [|reflexivity].
      apply IH. exact Hi.
    - cbn [optimize_rule] in Ho. binds Ho. injection Ho as <-. cbn [unique_byte].
      destruct r; try (cbn [optimize_rule] in Hx; binds Hx; injection Hx as <-; reflexivity).
      + apply opt_select_cases in Hx as (table & up & args' & Ht & Ha & ->).
        destruct (up <? 2); [reflexivity|]. destruct (up <? _); reflexivity.
      + cbn [optimize_rule] in Hx. binds Hx. injection Hx as <-. apply IH. assumption.
  Qed.

  Lemma unique_loop_opt args args' :
    Forall2 (fun r r' => optimize_rule fuel refs r = Done r') args args' ->
    forall f i data up, unique_loop f refs' args' i data up = unique_loop f refs args i data up.
  Proof.
    induction 1 as [|a a' l l' Ha _ IH]; intros f i data up; [reflexivity|].
    cbn [unique_loop]. destruct (255 <=? i); [reflexivity|].
    rewrite (unique_byte_opt f _ _ Ha). destruct (unique_byte f refs a) as [[b|]| |]; try reflexivity.
    cbn [obind]. destruct (nth_error data _); [|reflexivity]. destruct (Nat.eqb _ _); [|reflexivity].
    apply IH.
  Qed.

  Lemma optimize_again r : forall r', optimize_rule fuel refs r = Done r' ->
    optimize_rule fuel refs' r' = Done r'.
  Proof.
    induction r as [r IH] using rule_ind'. intros r' Ho.
    assert (Hargs : forall args, (forall c, In c args -> In c (children r)) ->
      forall args', Forall2 (fun r r' => optimize_rule fuel refs r = Done r') args args' ->
      map_o (optimize_rule fuel refs') args' = Done args').
    { intros args Hin args' HF. apply map_o_make.
      induction HF as [|a a' l l' Ha _ IHl]; constructor.
      - eapply IH; [|exact Ha]. apply Hin. left. reflexivity.
      - apply IHl. intros c Hc. apply Hin. right. exact Hc. }
    destruct r; try (cbn [optimize_rule] in Ho; injection Ho as <-; reflexivity);
      try (cbn [optimize_rule] in Ho; binds Ho; injection Ho as <-;
           cbn [optimize_rule]; erewrite IH by (simpl; eauto; fail); reflexivity).
    - apply opt_select_cases in Ho as (table & up & args' & Ht & Ha & ->).
      destruct (up <? 2) eqn:Hup; [|destruct (up <? length args); reflexivity].
      cbn [optimize_rule]. unfold unique_table_from_select in *.
      rewrite (unique_loop_opt _ _ Ha), Ht. cbn [obind].
      rewrite (Hargs args (fun c H => H) _ Ha). cbn [obind]. rewrite Hup. reflexivity.
    - cbn [optimize_rule] in Ho. binds Ho. injection Ho as <-. apply map_o_done in Hx.
      cbn [optimize_rule]. rewrite (Hargs args (fun c H => H) _ Hx). reflexivity.
    - cbn [optimize_rule] in Ho. binds Ho. injection Ho as <-. cbn [optimize_rule].
      rewrite (IH r1) by (simpl; auto). cbn [obind]. rewrite (IH r2) by (simpl; auto). reflexivity.
  Qed.
End Opt.

Lemma optimize_inv fuel s s' : optimize fuel s = Done s' ->
  s_names s' = s_names s /\
  Forall2 (fun r r' => optimize_rule fuel (s_rules s) r = Done r') (s_rules s) (s_rules s').
Proof.
  unfold optimize. intros H. destruct (map_o _ _) as [rules| |] eqn:Hm; try discriminate.
  injection H as <-. split; [reflexivity|]. apply map_o_done. exact Hm.
Qed.

Theorem optimize_idempotent s s' : optimize_returns s s' -> optimize_returns s' s'.
Proof.
  intros (fuel & H). exists fuel. apply optimize_inv in H as [Hn H]. unfold optimize.
  rewrite (map_o_make _ _ (s_rules s')).
  - destruct s'. reflexivity.
  - assert (Hall : forall l l',
      Forall2 (fun r r' => optimize_rule fuel (s_rules s) r = Done r') l l' ->
      Forall2 (fun x y => optimize_rule fuel (s_rules s') x = Done y) l' l').
    { induction 1; constructor; auto. eapply optimize_again; eassumption. }
    eapply Hall. exact H.
Qed.
