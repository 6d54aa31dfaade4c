(** References, first bytes, tables and optimisation: C19-C24. *)
From Coq Require Import List NArith Bool Arith Lia.
From Verif Require Import Base Ext Types ParseModel OptimizeModel PegSpec DataSpec PrimProofs
  PegProofs PegComplete PegFacts ApiSpec ParseProofs ParsePublic RuleSpec RuleProofs OptSpec SimProofs.
Import ListNotations.

(** ** C19 *)

Lemma rule_ind' (P : rule -> Prop) :
  (forall r, (forall c, In c (children r) -> P c) -> P r) -> forall r, P r.
Proof.
  intros H.
  assert (Hl : forall l c, In c l -> Forall P l -> P c).
  { intros l c Hc Hf. exact (proj1 (Forall_forall P l) Hf c Hc). }
  fix IH 1. intros r. apply H. clear H.
  assert (IHs : forall l : list rule, Forall P l -> forall c, In c l -> P c)
    by (exact (fun l Hf c Hc => Hl l c Hc Hf)).
  intros c. destruct r; cbn [children]; intros Hc; try contradiction;
    try (revert c Hc; apply IHs; clear IHs Hl; induction args as [|x l IHl]; constructor;
         [apply IH|exact IHl]);
    repeat (destruct Hc as [<-|Hc]; [apply IH|]); contradiction.
Qed.

Lemma str_eqb_eq a b : str_eqb a b = true <-> a = b.
Proof.
  revert b. induction a as [|x a IH]; intros [|y b]; simpl; split; try congruence.
  - rewrite andb_true_iff, N.eqb_eq, IH. intros [-> ->]. reflexivity.
  - intros [= -> ->]. rewrite N.eqb_refl. apply IH. reflexivity.
Qed.

Lemma find_name_spec name names k :
  match find_name name names k with
  | Some i => k <= i /\ first_index names name (i - k)
  | None => ~ In name names
  end.
Proof.
  revert k. induction names as [|n names IH]; intros k; simpl; [tauto|].
  destruct (str_eqb name n) eqn:He.
  - apply str_eqb_eq in He. subst. split; [lia|]. rewrite Nat.sub_diag.
    split; [reflexivity|]. intros j Hj. lia.
  - assert (Hn : n <> name). { intros ->. assert (str_eqb name name = true) by (apply str_eqb_eq; reflexivity). congruence. }
    specialize (IH (S k)). destruct (find_name name names (S k)) as [i|].
    + destruct IH as (Hk & H1 & H2). split; [lia|].
      replace (i - k) with (S (i - S k)) by lia. split; [exact H1|].
      intros [|j] Hj; simpl; [congruence|]. apply H2. lia.
    + intros [H|H]; auto.
Qed.

Lemma Forall2_map_r {A B} (P : A -> B -> Prop) f l :
  (forall x, In x l -> P x (f x)) -> Forall2 P l (map f l).
Proof.
  induction l as [|x l IH]; intros H; constructor.
  - apply H. left. reflexivity.
  - apply IH. intros y Hy. apply H. right. exact Hy.
Qed.

Lemma update_refs_resolved names r : resolved names r (rule_update_refs names r).
Proof.
  induction r as [r IH] using rule_ind'.
  destruct r; cbn [rule_update_refs]; try (apply res_leaf; [reflexivity|congruence]).
  - apply res_select. apply Forall2_map_r. exact IH.
  - apply res_fast.
  - apply res_sequence. apply Forall2_map_r. exact IH.
  - apply res_separate; apply IH; simpl; auto.
  - apply res_repeat. apply IH. simpl. auto.
  - apply res_lines. apply IH. simpl. auto.
  - destruct index; [apply res_done|].
    pose proof (find_name_spec name names 0) as Hf.
    destruct (find_name name names 0).
    + apply res_node. rewrite Nat.sub_0_r in Hf. apply Hf.
    + apply res_unknown. exact Hf.
  - apply res_optional. apply IH. simpl. auto.
  - apply res_not. apply IH. simpl. auto.
Qed.

Lemma update_refs_again names r :
  rule_update_refs names (rule_update_refs names r) = rule_update_refs names r.
Proof.
  induction r as [r IH] using rule_ind'.
  destruct r; cbn [rule_update_refs]; try reflexivity.
  - f_equal. rewrite map_map. apply map_ext_in. exact IH.
  - f_equal. rewrite map_map. apply map_ext_in. exact IH.
  - f_equal; apply IH; simpl; auto.
  - f_equal; apply IH; simpl; auto.
  - f_equal; apply IH; simpl; auto.
  - destruct index; [reflexivity|]. cbn [rule_update_refs].
    destruct (find_name name names 0) eqn:Hf; cbn [rule_update_refs]; rewrite ?Hf; reflexivity.
  - f_equal; apply IH; simpl; auto.
  - f_equal; apply IH; simpl; auto.
Qed.

Lemma syntax_update_refs_resolved s :
  s_names (update_refs s) = s_names s /\
  Forall2 (resolved (s_names s)) (s_rules s) (s_rules (update_refs s)).
Proof.
  split; [reflexivity|]. apply Forall2_map_r. intros r _. apply update_refs_resolved.
Qed.

Lemma syntax_update_refs_again s : update_refs (update_refs s) = update_refs s.
Proof.
  unfold update_refs. simpl. f_equal. rewrite map_map. apply map_ext. apply update_refs_again.
Qed.

(** Resolution is a function of the rule. *)
Lemma first_index_unique names name i j :
  first_index names name i -> first_index names name j -> i = j.
Proof.
  intros [H1 H2] [H3 H4]. destruct (Nat.lt_trichotomy i j) as [H|[H|H]]; [|exact H|].
  - exfalso. apply (H4 i H). exact H1.
  - exfalso. apply (H2 j H). exact H3.
Qed.

Lemma resolved_unique names r : forall r1 r2, resolved names r r1 -> resolved names r r2 -> r1 = r2.
Proof.
  induction r as [r IH] using rule_ind'.
  assert (HF : forall args, (forall c, In c args -> In c (children r)) ->
    forall a b, Forall2 (resolved names) args a -> Forall2 (resolved names) args b -> a = b).
  { induction args as [|x l IHl]; intros Hin a b Ha Hb; inversion Ha; inversion Hb; subst;
      [reflexivity|]. f_equal.
    - eapply (IH x); eauto. apply Hin. left. reflexivity.
    - apply IHl; auto. intros c Hc. apply Hin. right. exact Hc. }
  intros r1 r2 H1 H2.
  destruct r; inversion H1; subst; inversion H2; subst; try reflexivity; try congruence;
    repeat match goal with
    | H : children _ = [] |- _ => simpl in H; try discriminate; subst
    | H : Forall2 _ [] _ |- _ => inversion H; subst; clear H
    | H : forall name property i id, RNode _ _ _ _ <> _ |- _ => exfalso; eapply H; reflexivity
    | H : first_index _ ?n _, H' : ~ In ?n _ |- _ =>
      exfalso; apply H'; destruct H as [H _]; eapply nth_error_In; exact H
    end; try reflexivity;
    try (f_equal; eapply IH; simpl; eauto; fail);
    try (f_equal; eapply HF; simpl; eauto; fail).
  - f_equal; (eapply IH; [|eassumption|eassumption]; simpl; auto).
  - f_equal. f_equal. eapply first_index_unique; eassumption.
Qed.

Lemma reads_unresolved E rules names name property id text tokens ind result tokens' :
  parse_returns E (Syn (rules ++ [RNode name property None id]) names) text tokens ind
    result tokens' ->
  result = Some (Rng 0 0, InvalidRule NodeNotUpdated id) /\ tokens' = tokens.
Proof.
  intros (fuel & H). unfold parse_with_indent in H. cbn [s_rules] in H.
  rewrite app_length in H. simpl length in H.
  replace (length rules + 1 - 1) with (length rules) in H by lia.
  rewrite nth_error_app2 in H by lia. rewrite Nat.sub_diag in H. cbn [nth_error] in H.
  destruct fuel; [discriminate|]. cbn in H. injection H as <- <-. auto.
Qed.

(** ** C20 *)

Definition at_start (p : nat) (tr : list perr) : Prop :=
  tr <> [] /\ Forall (fun e => fst e = Rng p 0) tr.

Section FirstByte.
  Variable E : ext.
  Hypothesis HE : ext_ok E.
  Variable refs : list rule.

  Lemma starts_with_head c text d s : starts_with (d :: s) (c :: text) -> c = d.
  Proof. intros (rest & H). simpl in H. congruence. Qed.

  Lemma unique_byte_fails fuel : forall r b, unique_byte fuel refs r = Done (Some b) ->
    forall ind p s, not_ahead b s ->
    exists tr, reads E refs r ind p s No ind tr /\ at_start p tr.
  Proof.
    induction fuel as [|fuel IH]; intros r b Hb ind p s Hs; [discriminate|].
    destruct r; cbn [unique_byte] in Hb; try discriminate.
    - destruct not; [discriminate|]. destruct text as [|c text]; [discriminate|].
      injection Hb as <-. eexists. split.
      + apply reads_tag_no. intros Hst. destruct s as [|d s].
        * destruct Hst as (rest & Hst). discriminate.
        * apply starts_with_head in Hst. subst. apply Hs. reflexivity.
      + split; [discriminate|]. repeat constructor.
    - injection Hb as <-. eexists. split.
      + apply reads_text_none. destruct (x_string E s) as [n|] eqn:Hx; [|reflexivity].
        exfalso. apply (x_string_bounds E HE) in Hx as [_ Hx].
        destruct s as [|d s]; [discriminate|]. injection Hx as ->. apply Hs. reflexivity.
      + split; [discriminate|]. repeat constructor.
    - destruct args as [|a [|a' args]]; try discriminate.
      destruct (IH _ _ Hb ind p s Hs) as (tr & Hr & Ht). exists tr. split; [|exact Ht].
      apply reads_select; [discriminate|]. rewrite <- (app_nil_r tr).
      eapply reads_first_next; [exact Hr|]. constructor.
    - destruct args as [|a args]; [discriminate|].
      destruct (IH _ _ Hb ind p s Hs) as (tr & Hr & Ht). exists tr. split; [|exact Ht].
      apply reads_sequence. apply reads_seq_no. exact Hr.
    - destruct optional; [discriminate|].
      destruct (IH _ _ Hb ind p s Hs) as (tr & Hr & Ht). exists tr. split; [|exact Ht].
      apply (reads_separate_none E refs r1 r2 false). exact Hr.
    - destruct optional; [discriminate|].
      destruct (IH _ _ Hb ind p s Hs) as (tr & Hr & Ht). exists tr. split; [|exact Ht].
      apply reads_repeat_no. exact Hr.
    - destruct index as [i|]; [|discriminate].
      destruct (nth_error refs i) as [r1|] eqn:Hi; [|discriminate].
      destruct (IH _ _ Hb ind p s Hs) as (tr & Hr & Ht). exists tr. split; [|exact Ht].
      eapply reads_node_no; eassumption.
    - destruct r; try discriminate.
      destruct (IH _ _ Hb ind p s Hs) as (tr & Hr & Ht). eexists. split.
      + eapply reads_not_no. eapply reads_not. exact Hr.
      + split; [discriminate|]. repeat constructor.
  Qed.

  Lemma unique_byte_sound r b : has_unique_byte refs r b ->
    forall ind p s, not_ahead b s -> forall base junk,
    exists fuel e junk',
      parse_rule E fuel refs r (base ++ junk) (length base) (RT s p) ind
        = Done (PErr (Rng p 0, e), base ++ junk', ind).
  Proof.
    intros (fuel & Hb) ind p s Hs base junk.
    destruct (unique_byte_fails fuel r b Hb ind p s Hs) as (tr & Hr & _ & Ht).
    apply parse_rule_complete in Hr as (N & Hr).
    destruct (Hr N (le_n N) base junk) as (res & toks' & He & [rg e] & junk' & Hbest & -> & ->).
    apply best_spec in Hbest as (older & newer & -> & _).
    apply Forall_app in Ht as [_ Ht]. inversion Ht; subst. simpl in *. subst.
    exists N, e, junk'. exact He.
  Qed.
End FirstByte.

(** ** C21 *)

Lemma set_nth_same l n x : n < length l -> nth_error (set_nth l n x) n = Some x.
Proof. revert n. induction l as [|y l IH]; intros [|n] H; simpl in *; try lia; [reflexivity|]. apply IH. lia. Qed.

Lemma set_nth_other l n m x : n <> m -> nth_error (set_nth l n x) m = nth_error l m.
Proof. revert n m. induction l as [|y l IH]; intros [|n] [|m] H; simpl; try reflexivity; try lia. apply IH. lia. Qed.

Lemma set_nth_length l n x : length (set_nth l n x) = length l.
Proof. revert n. induction l as [|y l IH]; intros [|n]; simpl; auto. Qed.

Section Table.
  Variable fuel : nat.
  Variable refs : list rule.

  Definition ub (r : rule) (b : N) : Prop := unique_byte fuel refs r = Done (Some b).

  (** What holds after the alternatives [done] were entered. *)
  Definition table_ok (done : list rule) (data : list nat) : Prop :=
    length data = 256 /\ length done <= 255 /\
    (forall i r, nth_error done i = Some r ->
       exists b, ub r b /\ nth_error data (N.to_nat b) = Some i) /\
    (forall k i, nth_error data k = Some i -> i <> 255 ->
       exists r, nth_error done i = Some r /\ ub r (N.of_nat k)).

  (** Why the loop stopped in front of [rest]. *)
  Definition stops (done rest : list rule) : Prop :=
    rest = [] \/ length done = 255 \/
    exists r rest', rest = r :: rest' /\
      (unique_byte fuel refs r = Done None \/
       exists b r', ub r b /\ In r' done /\ ub r' b).

  Lemma unique_loop_spec rest : forall done data table up,
    table_ok done data ->
    unique_loop fuel refs rest (length done) data (length done) = Done (table, up) ->
    exists more rest', rest = more ++ rest' /\ up = length (done ++ more) /\
      table_ok (done ++ more) table /\ stops (done ++ more) rest'.
  Proof.
    induction rest as [|r rest IH]; intros done data table up Hok H; cbn [unique_loop] in H.
    - injection H as <- <-. exists [], []. rewrite !app_nil_r. split; [reflexivity|]. split; [reflexivity|]. split; [exact Hok|]. left. reflexivity.
    - destruct (Nat.leb_spec 255 (length done)) as [Hd|Hd].
      + injection H as <- <-. exists [], (r :: rest). rewrite !app_nil_r.
        split; [reflexivity|]. split; [reflexivity|]. split; [exact Hok|]. right. left. destruct Hok as (_ & Hok & _). lia.
      + destruct (unique_byte fuel refs r) as [[b|]| |] eqn:Hb; try discriminate; cbn [obind] in H.
        * destruct (nth_error data (N.to_nat b)) as [x|] eqn:Hx; [|discriminate].
          destruct (Nat.eqb_spec x 255) as [->|Hne].
          -- replace (length done + 1) with (length (done ++ [r])) in H
               by (rewrite app_length; reflexivity).
             replace (S (length done)) with (length (done ++ [r])) in H
               by (rewrite app_length; simpl; lia).
             apply IH in H.
             ++ destruct H as (more & rest' & -> & -> & H1 & H2).
                exists (r :: more), rest'. rewrite <- app_assoc in *. auto.
             ++ destruct Hok as (H1 & H2 & H3 & H4).
                split; [rewrite set_nth_length; exact H1|].
                split; [rewrite app_length; simpl; lia|]. split.
                ** intros i r' Hi. destruct (Nat.lt_ge_cases i (length done)) as [Hl|Hl].
                   --- rewrite nth_error_app1 in Hi by exact Hl.
                       destruct (H3 _ _ Hi) as (b' & Hb' & Hd'). exists b'. split; [exact Hb'|].
                       rewrite set_nth_other; [exact Hd'|]. intros He. rewrite <- He in Hd'.
                       rewrite Hx in Hd'. injection Hd' as <-. lia.
                   --- rewrite nth_error_app2 in Hi by exact Hl.
                       destruct (i - length done) as [|k] eqn:Hk; [|destruct k; discriminate].
                       injection Hi as <-. exists b. split; [exact Hb|].
                       replace i with (length done) by lia. apply set_nth_same.
                       apply nth_error_Some. rewrite Hx. discriminate.
                ** intros k i Hk Hi. destruct (Nat.eq_dec (N.to_nat b) k) as [<-|Hne].
                   --- rewrite set_nth_same in Hk
                         by (apply nth_error_Some; rewrite Hx; discriminate).
                       injection Hk as <-. exists r. split.
                       +++ rewrite nth_error_app2, Nat.sub_diag by lia. reflexivity.
                       +++ rewrite N2Nat.id. exact Hb.
                   --- rewrite set_nth_other in Hk by exact Hne.
                       destruct (H4 _ _ Hk Hi) as (r' & Hr' & Hu). exists r'. split; [|exact Hu].
                       rewrite nth_error_app1; [exact Hr'|]. apply nth_error_Some. congruence.
          -- injection H as <- <-. exists [], (r :: rest). rewrite !app_nil_r.
             split; [reflexivity|]. split; [reflexivity|]. split; [exact Hok|]. right. right. exists r, rest. split; [reflexivity|].
             right. destruct Hok as (H1 & H2 & H3 & H4).
             destruct (H4 _ _ Hx Hne) as (r' & Hr' & Hu). rewrite N2Nat.id in Hu.
             exists b, r'. repeat split; auto. eapply nth_error_In. exact Hr'.
        * injection H as <- <-. exists [], (r :: rest). rewrite !app_nil_r.
          split; [reflexivity|]. split; [reflexivity|]. split; [exact Hok|]. right. right. exists r, rest. auto.
  Qed.

  Lemma nth_error_repeat {A} (x : A) n k y : nth_error (repeat x n) k = Some y -> y = x.
  Proof. revert k. induction n; intros [|k] H; simpl in H; try discriminate; [congruence|eauto]. Qed.

  Lemma unique_table_spec args table up :
    unique_table_from_select fuel refs args = Done (table, up) ->
    exists taken rest, args = taken ++ rest /\ up = length taken /\
      table_ok taken table /\ stops taken rest.
  Proof.
    intros H. apply (unique_loop_spec args [] _ table up) in H; [exact H|].
    split; [apply repeat_length|]. split; [simpl; lia|]. split.
    - intros [|i] r Hr; discriminate.
    - intros k i Hk Hi. apply nth_error_repeat in Hk. congruence.
  Qed.
End Table.
