(** Optimisation does not add calls. *)
From Coq Require Import List NArith Bool Arith Lia.
From Verif Require Import Base Ext Types ParseModel OptimizeModel PegSpec DataSpec PrimProofs
  PegProofs PegComplete PegFacts ApiSpec ParseProofs ParsePublic RuleSpec RuleProofs OptSpec
  SimProofs FuelProofs OptProofs OptProofs2 OccursProofs OptSim OptSim2 OptPublic TotalSpec CostModel CostSpec CostPublic CallSpec CallProofs.
Import ListNotations.

Section Faster.
  Variable E : ext.
  Hypothesis HE : ext_ok E.
  Variables s s' : syntax.
  Variable fuel : nat.
  Hypothesis Hopt : optimize fuel s = Done s'.
  Hypothesis Htails : tails_fail_at_end E s.

  Notation refs := (s_rules s).
  Notation refs' := (s_rules s').
  Notation opt r r' := (optimize_rule fuel refs r = Done r').

  Definition faster (r r' : rule) : Prop :=
    r' = r \/ (opt r r' /\ forall c, occurs_in c r -> occurs s c).

  Lemma faster_orel r r' : faster r r' -> orel E refs refs' r r'.
  Proof. intros [->|[Ho Hc]]; [apply orel_refl|]. exact (proj1 (opt_orel E HE s s' fuel Hopt Htails r Hc r' Ho)). Qed.

  Lemma fasters_orel l l' : Forall2 faster l l' -> Forall2 (orel E refs refs') l l'.
  Proof. induction 1; constructor; auto using faster_orel. Qed.

  Lemma refs_orel : Forall2 (orel E refs refs') refs refs'.
  Proof. exact (proj1 (opt_refs_orel E HE s s' fuel Hopt Htails)). Qed.

  Lemma refs_faster i r : nth_error refs i = Some r -> exists r', nth_error refs' i = Some r' /\ faster r r'.
  Proof.
    intros H. pose proof (Forall2_nth _ _ _ i (opt_refs s s' fuel Hopt)) as Hi. rewrite H in Hi.
    destruct (nth_error refs' i) as [r'|]; [|contradiction]. exists r'. split; [reflexivity|]. right. split; [exact Hi|].
    intros c Hc. exists r. split; [eapply nth_error_In; exact H|exact Hc].
  Qed.

  Lemma same_reads r r' ind p t v ind' tr : faster r r' -> Forall real_char t -> reads E refs r ind p t v ind' tr ->
    exists tr', reads E refs' r' ind p t v ind' tr'.
  Proof.
    intros Hf Ht H. destruct (proj1 (replace_all E refs refs' refs_orel) _ _ _ _ _ _ _ H r' (faster_orel _ _ Hf) Ht) as (tr' & H' & _). eauto.
  Qed.

  Lemma same_line_reads r r' indented fresh ind p t v fresh' ind' tr : faster r r' -> Forall real_char t ->
    reads_line E refs r indented fresh ind p t v fresh' ind' tr -> exists tr', reads_line E refs' r' indented fresh ind p t v fresh' ind' tr'.
  Proof.
    intros Hf Ht H.
    destruct (proj2 (proj2 (proj2 (proj2 (proj2 (proj2 (replace_all E refs refs' refs_orel)))))) _ _ _ _ _ _ _ _ _ _ H r' (faster_orel _ _ Hf) Ht) as (tr' & H' & _). eauto.
  Qed.

  (** ** The parts of rules *)

  Lemma same_args l : Forall2 faster l l.
  Proof. induction l; constructor; [left; reflexivity|assumption]. Qed.

  Ltac binds H := repeat match type of H with
    | obind ?e _ = Done _ => let Hx := fresh "Hx" in destruct e eqn:Hx; try discriminate; cbn [obind] in H
    end.

  Lemma opt_sub r c c' : (forall d, occurs_in d r -> occurs s d) -> In c (children r) -> opt c c' -> faster c c'.
  Proof.
    intros Ho Hc H. right. split; [exact H|]. intros d Hd. apply Ho. eapply occurs_below; eassumption.
  Qed.

  Lemma opt_subs r args args' : (forall d, occurs_in d r -> occurs s d) -> (forall c, In c args -> In c (children r)) ->
    Forall2 (fun a b => opt a b) args args' -> Forall2 faster args args'.
  Proof. intros Ho Hin H. eapply Forall2_in; [exact H|]. intros x y Hx Hxy. eapply opt_sub; eauto. Qed.

  Lemma faster_sequence args id r' : faster (RSequence args id) r' -> exists args', r' = RSequence args' id /\ Forall2 faster args args'.
  Proof.
    intros [->|[Ho Hc]]; [exists args; split; [reflexivity|apply same_args]|].
    cbn [optimize_rule] in Ho. binds Ho. injection Ho as <-. apply map_o_done in Hx. eexists. split; [reflexivity|].
    eapply opt_subs; [exact Hc| |exact Hx]. auto.
  Qed.

  Lemma faster_separate a b o t id r' : faster (RSeparateBy a b o t id) r' -> exists a' b', r' = RSeparateBy a' b' o t id /\ faster a a' /\ faster b b'.
  Proof.
    intros [->|[Ho Hc]]; [exists a, b; split; [reflexivity|split; left; reflexivity]|].
    cbn [optimize_rule] in Ho. binds Ho. injection Ho as <-. do 2 eexists. split; [reflexivity|].
    split; eapply opt_sub; try eassumption; cbn; auto.
  Qed.

  Lemma faster_repeat a o id r' : faster (RRepeat a o id) r' -> exists a', r' = RRepeat a' o id /\ faster a a'.
  Proof.
    intros [->|[Ho Hc]]; [exists a; split; [reflexivity|left; reflexivity]|].
    cbn [optimize_rule] in Ho. binds Ho. injection Ho as <-. eexists. split; [reflexivity|]. eapply opt_sub; try eassumption; cbn; auto.
  Qed.
  Lemma faster_lines a o id r' : faster (RLines a o id) r' -> exists a', r' = RLines a' o id /\ faster a a'.
  Proof.
    intros [->|[Ho Hc]]; [exists a; split; [reflexivity|left; reflexivity]|].
    cbn [optimize_rule] in Ho. binds Ho. injection Ho as <-. eexists. split; [reflexivity|]. eapply opt_sub; try eassumption; cbn; auto.
  Qed.
  Lemma faster_optional a id r' : faster (ROptional a id) r' -> exists a', r' = ROptional a' id /\ faster a a'.
  Proof.
    intros [->|[Ho Hc]]; [exists a; split; [reflexivity|left; reflexivity]|].
    cbn [optimize_rule] in Ho. binds Ho. injection Ho as <-. eexists. split; [reflexivity|]. eapply opt_sub; try eassumption; cbn; auto.
  Qed.
  Lemma faster_not a id r' : faster (RNot a id) r' -> exists a', r' = RNot a' id /\ faster a a'.
  Proof.
    intros [->|[Ho Hc]]; [exists a; split; [reflexivity|left; reflexivity]|].
    cbn [optimize_rule] in Ho. binds Ho. injection Ho as <-. eexists. split; [reflexivity|]. eapply opt_sub; try eassumption; cbn; auto.
  Qed.

  Lemma faster_select args id r' : faster (RSelect args id) r' ->
    exists args', Forall2 faster args args' /\
    (r' = RSelect args' id \/ exists table up, unique_table_from_select fuel refs args = Done (table, up) /\ 2 <= up /\
       r' = fast table up args' id).
  Proof.
    intros [->|[Ho Hc]]; [exists args; split; [apply same_args|left; reflexivity]|].
    apply opt_select_cases in Ho as (table & up & args' & Ht & Ha & ->). exists args'. split.
    - eapply opt_subs; [exact Hc| |exact Ha]. auto.
    - destruct (Nat.ltb_spec up 2) as [Hup|Hup]; [left; reflexivity|]. right. exists table, up. split; [exact Ht|]. split; [exact Hup|].
      replace (length args) with (length args') by (symmetry; eapply Forall2_len; exact Ha). reflexivity.
  Qed.

  Lemma faster_fast table args tail id r' : faster (RFastSelect table args tail id) r' -> r' = RFastSelect table args tail id.
  Proof. intros [->|[Ho _]]; [reflexivity|]. injection Ho as <-. reflexivity. Qed.

  Lemma faster_leaf r r' : leaf_rule r -> faster r r' -> r' = r.
  Proof. intros Hl [->|[Ho _]]; [reflexivity|]. destruct r; try contradiction; injection Ho as <-; reflexivity. Qed.

  (** ** The calls *)

  Definition crel (c c' : call) : Prop :=
    match c, c' with (r, ind, p, t), (r', ind', p', t') => faster r r' /\ Forall real_char t /\ ind' = ind /\ p' = p /\ t' = t end.

  Lemma order_same args ind p t l : in_order E refs args ind p t l -> Forall real_char t -> forall args', Forall2 faster args args' ->
    exists l', in_order E refs' args' ind p t l' /\ Forall2 crel l l'.
  Proof.
    induction 1 as [|r rest ind p t ind' tr H|r rest ind p t n out ind' tr l H _ IH]; intros Ht args' Ha; inversion Ha as [|? r' ? rest' Hr Hrest]; subst.
    - exists []. split; constructor.
    - destruct (same_reads _ _ _ _ _ _ _ _ Hr Ht H) as (tr' & H'). eexists. split; [eapply order_fail; exact H'|]. constructor; [cbn; auto|constructor].
    - destruct (same_reads _ _ _ _ _ _ _ _ Hr Ht H) as (tr' & H'). destruct (IH (Forall_skipn _ _ _ Ht) _ Hrest) as (l' & Hl & Hc).
      eexists. split; [eapply order_next; eassumption|]. constructor; [cbn; auto|exact Hc].
  Qed.

  Lemma turn_same args ind p t l : in_turn E refs args ind p t l -> Forall real_char t -> forall args', Forall2 faster args args' ->
    exists l', in_turn E refs' args' ind p t l' /\ Forall2 crel l l'.
  Proof.
    induction 1 as [|r rest ind p t n out ind' tr H|r rest ind p t ind' tr l H _ IH]; intros Ht args' Ha; inversion Ha as [|? r' ? rest' Hr Hrest]; subst.
    - exists []. split; constructor.
    - destruct (same_reads _ _ _ _ _ _ _ _ Hr Ht H) as (tr' & H'). eexists. split; [eapply turn_hit; exact H'|]. constructor; [cbn; auto|constructor].
    - destruct (same_reads _ _ _ _ _ _ _ _ Hr Ht H) as (tr' & H'). destruct (IH Ht _ Hrest) as (l' & Hl & Hc).
      eexists. split; [eapply turn_next; eassumption|]. constructor; [cbn; auto|exact Hc].
  Qed.

  Lemma again_same r ind p t l : over_again E refs r ind p t l -> Forall real_char t -> forall r', faster r r' ->
    exists l', over_again E refs' r' ind p t l' /\ Forall2 crel l l'.
  Proof.
    induction 1 as [ind p t ind' tr H|ind p t n out ind' tr l H _ IH]; intros Ht r' Hr.
    - destruct (same_reads _ _ _ _ _ _ _ _ Hr Ht H) as (tr' & H'). eexists. split; [eapply again_stop; exact H'|]. constructor; [cbn; auto|constructor].
    - destruct (same_reads _ _ _ _ _ _ _ _ Hr Ht H) as (tr' & H'). destruct (IH (Forall_skipn _ _ _ Ht) _ Hr) as (l' & Hl & Hc).
      eexists. split; [eapply again_next; eassumption|]. constructor; [cbn; auto|exact Hc].
  Qed.

  Lemma turns_same r q ind p t l : by_turns E refs r q ind p t l -> Forall real_char t -> forall r' q', faster r r' -> faster q q' ->
    exists l', by_turns E refs' r' q' ind p t l' /\ Forall2 crel l l'.
  Proof.
    induction 1 as [r q ind p t ind' tr H|r q ind p t n out ind' tr l H _ IH]; intros Ht r' q' Hr Hq.
    - destruct (same_reads _ _ _ _ _ _ _ _ Hr Ht H) as (tr' & H'). eexists. split; [eapply turns_stop; exact H'|]. constructor; [cbn; auto|constructor].
    - destruct (same_reads _ _ _ _ _ _ _ _ Hr Ht H) as (tr' & H'). destruct (IH (Forall_skipn _ _ _ Ht) _ _ Hq Hr) as (l' & Hl & Hc).
      eexists. split; [eapply turns_next; eassumption|]. constructor; [cbn; auto|exact Hc].
  Qed.

  Lemma on_same r indented fresh ind p t l : on_line r indented fresh ind p t l -> Forall real_char t -> forall r', faster r r' ->
    exists l', on_line r' indented fresh ind p t l' /\ Forall2 crel l l'.
  Proof.
    intros H Ht r' Hr.
    assert (Hone : forall ind p u, Forall real_char u -> Forall2 crel [(r, ind, p, u)] [(r', ind, p, u)]).
    { intros i q u Hu. constructor; [cbn; auto|constructor]. }
    inversion H; subst.
    - eexists. split; [apply on_plain|]. apply Hone. exact Ht.
    - eexists. split; [apply on_short; assumption|]. constructor.
    - eexists. split; [eapply on_deep; eassumption|]. constructor.
    - eexists. split; [eapply on_exact; eassumption|]. apply Hone. apply Forall_skipn. exact Ht.
    - eexists. split; [eapply on_align; eassumption|]. apply Hone. repeat apply Forall_skipn. exact Ht.
  Qed.

  Lemma lines_same r indented fresh nl ind p t l : by_lines E refs r indented fresh nl ind p t l -> Forall real_char t -> forall r', faster r r' ->
    exists l', by_lines E refs' r' indented fresh nl ind p t l' /\ Forall2 crel l l'.
  Proof.
    induction 1 as [fresh nl ind p t H|fresh ind p t H H0|fresh nl ind p t k fresh' ind' tr l H H0 H1 H2|fresh nl ind p t k n out fresh' ind' tr l nl' l' H H0 H1 H2 H3 _ IH];
      intros Ht r' Hr.
    - exists []. split; [apply lines_end; assumption|constructor].
    - exists []. split; [apply lines_missing; assumption|constructor].
    - destruct (on_same _ _ _ _ _ _ _ H2 (Forall_skipn _ _ _ Ht) _ Hr) as (l' & Hl & Hc).
      destruct (same_line_reads _ _ _ _ _ _ _ _ _ _ _ Hr (Forall_skipn _ _ _ Ht) H1) as (tr' & H1').
      exists l'. split; [eapply lines_stop; eassumption|exact Hc].
    - destruct (on_same _ _ _ _ _ _ _ H2 (Forall_skipn _ _ _ Ht) _ Hr) as (l1 & Hl & Hc).
      destruct (same_line_reads _ _ _ _ _ _ _ _ _ _ _ Hr (Forall_skipn _ _ _ Ht) H1) as (tr' & H1').
      destruct (IH ltac:(repeat apply Forall_skipn; exact Ht) _ Hr) as (l2 & Hl2 & Hc2).
      exists (l1 ++ l2). split; [eapply lines_next; eassumption|]. apply Forall2_app; assumption.
  Qed.

  (** ** Their number *)

  Definition paid (c : call) (m : nat) : Prop :=
    1 <= m /\ forall c', crel c c' -> exists m', tree E refs' c' m' /\ m' <= m.
  Definition all_paid (l : list call) (m : nat) : Prop := exists ms, list_sum ms = m /\ Forall2 paid l ms.

  Lemma paid_all l ms l' : Forall2 paid l ms -> Forall2 crel l l' -> exists m', trees E refs' l' m' /\ m' <= list_sum ms.
  Proof.
    intros H. revert l'. induction H as [|c m l ms [_ Hc] _ IH]; intros l' Hl; inversion Hl as [|? c' ? l'' Hcc Hll]; subst.
    - exists 0. split; [constructor|cbn; lia].
    - destruct (Hc _ Hcc) as (m1 & Ht & H1). destruct (IH _ Hll) as (m2 & Hts & H2). exists (m1 + m2). split; [constructor; assumption|]. change (list_sum (m :: ms)) with (m + list_sum ms). lia.
  Qed.

  Lemma paid_length l ms : Forall2 paid l ms -> length l <= list_sum ms.
  Proof. induction 1 as [|c m l ms [H _] _ IH]; [cbn; lia|]. change (list_sum (m :: ms)) with (m + list_sum ms). cbn [length]. lia. Qed.

  Lemma turn_skip l1 l2 ind p t l : (forall r, In r l1 -> exists tr, reads E refs r ind p t No ind tr) -> in_turn E refs (l1 ++ l2) ind p t l ->
    exists l', l = map (fun r => (r, ind, p, t)) l1 ++ l' /\ in_turn E refs l2 ind p t l'.
  Proof.
    revert l. induction l1 as [|r l1 IH]; intros l Hf H; [exists l; split; [reflexivity|exact H]|].
    destruct (Hf r (or_introl eq_refl)) as (tr & Hr). cbn [app] in H. inversion H; subst.
    - match goal with Ha : reads _ _ r _ _ _ (Yes _ _) _ _ |- _ => destruct (reads_deterministic _ _ _ _ _ _ _ _ _ _ _ _ Hr Ha) as (Hv & _) end. discriminate.
    - match goal with Ha : reads _ _ r _ _ _ No ?i ?u |- _ => lazymatch Ha with Hr => fail | _ =>
        destruct (reads_deterministic _ _ _ _ _ _ _ _ _ _ _ _ Hr Ha) as (_ & Hi & _); subst i end end.
      destruct (IH _ (fun q Hq => Hf q (or_intror Hq)) ltac:(eassumption)) as (l' & -> & Hl). exists l'. split; [reflexivity|exact Hl].
  Qed.

  Lemma turn_reads args ind p t l : in_turn E refs args ind p t l -> exists v ind' tr, reads_first E refs args ind p t v ind' tr.
  Proof.
    induction 1 as [|r rest ind p t n out ind' tr H|r rest ind p t ind' tr l H _ (v & ind2 & tr2 & IH)].
    - do 3 eexists. apply reads_first_none.
    - do 3 eexists. eapply reads_first_yes. exact H.
    - do 3 eexists. eapply reads_first_next; eassumption.
  Qed.

  Lemma paid_app l1 l2 ms : Forall2 paid (l1 ++ l2) ms -> exists m1 m2, ms = m1 ++ m2 /\ Forall2 paid l1 m1 /\ Forall2 paid l2 m2.
  Proof.
    intros H. apply Forall2_app_inv_l in H as (m1 & m2 & H1 & H2 & ->). eauto 6.
  Qed.

  Lemma out_fails l ind p t : (forall r, In r l -> exists b, has_unique_byte refs r b /\ not_ahead b t) ->
    forall r, In r l -> exists tr, reads E refs r ind p t No ind tr.
  Proof.
    intros H r Hr. destruct (H r Hr) as (b & (f & Hb) & Hn). destruct (unique_byte_fails E HE refs f r b Hb ind p t Hn) as (tr & Htr & _). eauto.
  Qed.

  (** The select of the others. *)
  Lemma rest_paid a a' id ind p t l ms : a <> [] -> Forall2 faster a a' -> Forall real_char t -> in_turn E refs a ind p t l -> Forall2 paid l ms ->
    (exists v ind' tr, reads E refs' (RSelect a' id) ind p t v ind' tr) /\
    exists m', tree E refs' (RSelect a' id, ind, p, t) m' /\ m' <= 1 + list_sum ms.
  Proof.
    intros Hne Ha Ht Hl Hms. split.
    - destruct (turn_reads _ _ _ _ _ Hl) as (v & ind' & tr & Hf).
      destruct (proj1 (proj2 (proj2 (replace_all E refs refs' refs_orel))) _ _ _ _ _ _ _ Hf a' (fasters_orel _ _ Ha) Ht) as (tr' & Hf' & _).
      do 3 eexists. apply reads_select; [|exact Hf']. intros ->. inversion Ha; subst. contradiction.
    - destruct (turn_same _ _ _ _ _ Hl Ht _ Ha) as (l' & Hl' & Hc). destruct (paid_all _ _ _ Hms Hc) as (m' & Hm & Hle).
      exists (1 + m'). split; [|lia]. eapply tree_node; [apply tries_select; exact Hl'|exact Hm].
  Qed.

  Lemma fast_paid args args' table up id ind p t l ms : unique_table_from_select fuel refs args = Done (table, up) -> 2 <= up ->
    Forall2 faster args args' -> Forall real_char t -> in_turn E refs args ind p t l -> Forall2 paid l ms ->
    exists m', tree E refs' (fast table up args' id, ind, p, t) m' /\ m' <= 1 + list_sum ms.
  Proof.
    intros Htab Hup Ha Ht Hl Hms.
    pose proof (Forall2_len _ _ _ Ha) as Hlen.
    destruct t as [|c t].
    { exists 1. split; [|lia]. apply tree_node with (l := []) (n := 0); [|constructor].
      unfold fast. destruct (up <? length args'); apply tries_fast_end. }
    assert (Hc : real_char c) by (inversion Ht; assumption).
    rewrite (args_split args up) in Hl.
    pose proof (Forall2_firstn faster up _ _ Ha) as Hft. pose proof (Forall2_skipn faster up _ _ Ha) as Hrt.
    fold (taken args up) in Hft. fold (rest args up) in Hrt.
    pose proof (taken_length _ _ _ _ _ Htab Hup) as Htl.
    destruct (lookup refs fuel args table up Htab Hup c Hc) as [[Hn Hout]|(i & l1 & r & l2 & Hi & He & -> & Hn & Ho1 & Ho2)].
    - destruct (turn_skip _ _ _ _ _ _ (out_fails _ ind p _ (Hout t)) Hl) as (l' & -> & Hl').
      apply paid_app in Hms as (m1 & m2 & -> & Hm1 & Hm2). pose proof (paid_length _ _ Hm1) as Hp. rewrite map_length, Htl in Hp.
      rewrite list_sum_app. unfold fast. destruct (Nat.ltb_spec up (length args')) as [Hlt|Hge].
      + destruct (rest_paid _ _ id _ _ _ _ _ (rest_ne args up Hup ltac:(lia)) Hrt Ht Hl' Hm2) as [_ (m' & Hm' & Hle)].
        exists (1 + (m' + 0)). split; [|lia]. eapply tree_node; [apply tries_fast_tail; exact Hn|]. constructor; [exact Hm'|constructor].
      + exists 1. split; [|lia]. apply tree_node with (l := []) (n := 0); [apply tries_fast_none; exact Hn|constructor].
    - rewrite He, <- app_assoc in Hl. cbn [app] in Hl.
      destruct (turn_skip _ _ _ _ _ _ (out_fails _ ind p _ (Ho1 t)) Hl) as (l' & -> & Hl').
      apply paid_app in Hms as (m1 & m2 & -> & Hm1 & Hm2). pose proof (paid_length _ _ Hm1) as Hp1. rewrite map_length in Hp1.
      rewrite list_sum_app.
      rewrite He in Hft, Htl. rewrite app_length in Htl. cbn [length] in Htl.
      assert (Hcount : up <= length l1 + S (length l2)) by lia. clear Htl.
      apply Forall2_app_inv_l in Hft as (k1 & k2 & Hk1 & Hk2 & Hk).
      assert (Hcons : exists r' k3, k2 = r' :: k3 /\ faster r r') by (inversion Hk2; subst; eauto).
      destruct Hcons as (r' & k3 & -> & Hr).
      pose proof (Forall2_len _ _ _ Hk1) as Hlk.
      assert (Hnth : forall tl, nth_error (firstn up args' ++ tl) (length l1) = Some r').
      { intros tl. rewrite Hk, <- app_assoc, Hlk, nth_error_app2, Nat.sub_diag by lia. reflexivity. }
      assert (Hnth' : length args' <= up -> nth_error args' (length l1) = Some r').
      { intros Hge. rewrite <- (Hnth []), app_nil_r, firstn_all2 by exact Hge. reflexivity. }
      inversion Hl' as [|? ? ? ? ? n out i1 t1 Hy|? ? ? ? ? i1 t1 l3 Hno Hl3]; subst.
      + inversion Hm2 as [|? mr ? mrest Hpr Hpn]; subst. inversion Hpn; subst. destruct Hpr as [Hmr Hpr].
        destruct (Hpr (r', ind, p, c :: t)) as (m' & Hm' & Hle); [cbn; auto|].
        destruct (same_reads _ _ _ _ _ _ _ _ Hr Ht Hy) as (tr' & Hy').
        exists (1 + (m' + 0)). split; [|cbn [list_sum fold_right]; lia].
        unfold fast. destruct (Nat.ltb_spec up (length args')) as [Hlt|Hge]; eapply tree_node.
        * eapply tries_fast_both; [exact Hn|exact Hi|apply Hnth|eapply turn_hit; exact Hy'].
        * constructor; [exact Hm'|constructor].
        * eapply tries_fast; [exact Hn|exact Hi|apply Hnth'; exact Hge].
        * constructor; [exact Hm'|constructor].
      + inversion Hm2 as [|? mr ? mrest Hpr Hpn]; subst. destruct Hpr as [Hmr Hpr].
        destruct (Hpr (r', ind, p, c :: t)) as (m' & Hm' & Hle); [cbn; auto|].
        destruct (same_reads _ _ _ _ _ _ _ _ Hr Ht Hno) as (tr' & Hno').
        destruct (turn_skip _ _ _ _ _ _ (out_fails _ i1 p _ (Ho2 t)) Hl3) as (l4 & -> & Hl4).
        apply paid_app in Hpn as (m3 & m4 & -> & Hm3 & Hm4). pose proof (paid_length _ _ Hm3) as Hp3. rewrite map_length in Hp3.
        change (list_sum (mr :: m3 ++ m4)) with (mr + list_sum (m3 ++ m4)). rewrite list_sum_app.
        unfold fast. destruct (Nat.ltb_spec up (length args')) as [Hlt|Hge].
        * destruct (rest_paid _ _ id _ _ _ _ _ (rest_ne args up Hup ltac:(lia)) Hrt Ht Hl4 Hm4) as [(v & ind' & tr2 & Hv) (m5 & Hm5 & Hle5)].
          exists (1 + (m' + (m5 + 0))). split; [|lia]. eapply tree_node.
          -- eapply tries_fast_both; [exact Hn|exact Hi|apply Hnth|]. eapply turn_next; [exact Hno'|].
             instantiate (1 := [(RSelect (skipn up args') id, i1, p, c :: t)]).
             destruct v; [eapply turn_hit; exact Hv|eapply turn_next; [exact Hv|apply turn_nil]].
          -- constructor; [exact Hm'|]. constructor; [exact Hm5|constructor].
        * exists (1 + (m' + 0)). split; [|lia]. eapply tree_node; [eapply tries_fast; [exact Hn|exact Hi|apply Hnth'; exact Hge]|].
          constructor; [exact Hm'|constructor].
  Qed.

  Lemma one_crel r r' ind p t : faster r r' -> Forall real_char t -> Forall2 crel [(r, ind, p, t)] [(r', ind, p, t)].
  Proof. intros H Ht. constructor; [cbn; auto|constructor]. Qed.

  Lemma self_faster r : faster r r. Proof. left. reflexivity. Qed.

  Lemma all_fewer : (forall c m, tree E refs c m -> paid c m) /\ (forall l m, trees E refs l m -> all_paid l m).
  Proof.
    apply tree_mutind.
    - intros c l n Hc _ (ms & Hsum & Hms). split; [lia|].
      intros [[[r' ind'] p'] t']. destruct c as [[[r ind] p] t]. cbn [crel]. intros (Hr & Ht & -> & -> & ->). subst n.
      assert (Hdo : (exists l', tries E refs' (r', ind, p, t) l' /\ Forall2 crel l l') -> exists m', tree E refs' (r', ind, p, t) m' /\ m' <= 1 + list_sum ms).
      { intros (l' & Hl' & Hcr). destruct (paid_all _ _ _ Hms Hcr) as (m' & Hm' & Hle). exists (1 + m'). split; [|lia]. eapply tree_node; eassumption. }
      inversion Hc; subst.
      1-6: apply faster_leaf in Hr; [subst r'; apply Hdo; exists []; split; [constructor|constructor]|exact I].
      + apply faster_sequence in Hr as (args' & -> & Ha). apply Hdo.
        match goal with Hx : in_order _ _ _ _ _ _ _ |- _ => destruct (order_same _ _ _ _ _ Hx Ht _ Ha) as (l' & Hl' & Hcr) end.
        exists l'. split; [apply tries_sequence; exact Hl'|exact Hcr].
      + apply faster_select in Hr as (args' & Ha & [-> | (table & up & Htab & Hup & ->)]).
        * apply Hdo. match goal with Hx : in_turn _ _ _ _ _ _ _ |- _ => destruct (turn_same _ _ _ _ _ Hx Ht _ Ha) as (l' & Hl' & Hcr) end.
          exists l'. split; [apply tries_select; exact Hl'|exact Hcr].
        * eapply fast_paid; eassumption.
      + apply faster_fast in Hr; subst r'; apply Hdo; exists []; split; [constructor|constructor].
      + apply faster_fast in Hr; subst r'; apply Hdo; exists []; split; [constructor; assumption|constructor].
      + apply faster_fast in Hr; subst r'; apply Hdo; eexists; split; [constructor; assumption|]. apply one_crel; [apply self_faster|exact Ht].
      + apply faster_fast in Hr; subst r'; apply Hdo; eexists; split; [eapply tries_fast; eassumption|]. apply one_crel; [apply self_faster|exact Ht].
      + apply faster_fast in Hr; subst r'; apply Hdo.
        match goal with Hx : in_turn _ _ _ _ _ _ _ |- _ => destruct (turn_same _ _ _ _ _ Hx Ht _ (same_args _)) as (l' & Hl' & Hcr) end.
        exists l'. split; [eapply tries_fast_both; eassumption|exact Hcr].
      + apply faster_separate in Hr as (a' & b' & -> & Ha & Hb). apply Hdo.
        match goal with Hx : by_turns _ _ _ _ _ _ _ _ |- _ => destruct (turns_same _ _ _ _ _ _ Hx Ht _ _ Ha Hb) as (l' & Hl' & Hcr) end.
        exists l'. split; [apply tries_separate; exact Hl'|exact Hcr].
      + apply faster_repeat in Hr as (a' & -> & Ha). apply Hdo.
        match goal with Hx : over_again _ _ _ _ _ _ _ |- _ => destruct (again_same _ _ _ _ _ Hx Ht _ Ha) as (l' & Hl' & Hcr) end.
        exists l'. split; [apply tries_repeat; exact Hl'|exact Hcr].
      + apply faster_lines in Hr as (a' & -> & Ha). apply Hdo.
        match goal with Hx : by_lines _ _ _ _ _ _ _ _ _ _ |- _ => destruct (lines_same _ _ _ _ _ _ _ _ Hx Ht _ Ha) as (l' & Hl' & Hcr) end.
        exists l'. split; [apply tries_lines; exact Hl'|exact Hcr].
      + apply faster_leaf in Hr; [subst r'|exact I]. apply Hdo.
        match goal with Hx : nth_error refs _ = Some _ |- _ => destruct (refs_faster _ _ Hx) as (q & Hq & Hf) end.
        eexists. split; [apply tries_node; exact Hq|]. apply one_crel; assumption.
      + apply faster_leaf in Hr; [subst r'; apply Hdo; exists []; split; constructor|exact I].
      + apply faster_optional in Hr as (a' & -> & Ha). apply Hdo. eexists. split; [apply tries_optional|]. apply one_crel; assumption.
      + apply faster_not in Hr as (a' & -> & Ha). apply Hdo. eexists. split; [apply tries_not|]. apply one_crel; assumption.
    - exists []. split; [reflexivity|constructor].
    - intros c l n m _ Hc _ (ms & <- & Hms). exists (n :: ms). split; [reflexivity|]. constructor; assumption.
  Qed.
End Faster.
