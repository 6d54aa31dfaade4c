(** Optimisation does not change what is parsed: C22, C32. *)
From Coq Require Import List NArith Bool Arith Lia.
From Verif Require Import Base Ext Types ParseModel OptimizeModel BootstrapRules PegSpec DataSpec PrimProofs
  PegProofs PegComplete PegFacts ApiSpec ParseProofs ParsePublic RuleSpec RuleProofs OptSpec
  SimProofs FuelProofs OptProofs OptProofs2 OccursProofs OptSim OptSim2.
Import ListNotations.

Lemma stands_same E refs1 refs2 r1 r2 : stands E refs1 refs2 r1 r2 r2.
Proof. intros ind p s v ind' tr tr0 _ _ H. exists tr0. split; [exact H|apply reach_refl]. Qed.

Lemma Forall2_in {A B} (P : A -> B -> Prop) l l' :
  Forall2 P l l' -> forall (Q : A -> B -> Prop),
  (forall x y, In x l -> P x y -> Q x y) -> Forall2 Q l l'.
Proof.
  induction 1 as [|x y l l' H _ IH]; intros Q HQ; constructor.
  - apply HQ; [left; reflexivity|exact H].
  - apply IH. intros a b Ha. apply HQ. right. exact Ha.
Qed.

Lemma Forall2_flip' {A B} (P : A -> B -> Prop) l l' :
  Forall2 P l l' -> Forall2 (fun y x => P x y) l' l.
Proof. induction 1; constructor; assumption. Qed.

Lemma Forall2_firstn {A B} (P : A -> B -> Prop) n l l' :
  Forall2 P l l' -> Forall2 P (firstn n l) (firstn n l').
Proof. intros H. revert n. induction H; intros [|n]; simpl; constructor; auto. Qed.

Lemma Forall2_skipn {A B} (P : A -> B -> Prop) n l l' :
  Forall2 P l l' -> Forall2 P (skipn n l) (skipn n l').
Proof. intros H. revert n. induction H; intros [|n]; simpl; try constructor; auto. Qed.

Lemma Forall2_last {A B} (P : A -> B -> Prop) l l' : Forall2 P l l' -> forall a x, l = a ++ [x] ->
  exists b y, l' = b ++ [y] /\ P x y.
Proof.
  intros H a x ->. apply Forall2_app_inv_l in H as (l1 & l2 & _ & H & ->).
  inversion H as [|x' y l l' Hxy Hnil]; subst. inversion Hnil; subst. eauto.
Qed.

Lemma Forall2_nil_iff {A B} (P : A -> B -> Prop) l l' : Forall2 P l l' -> l = [] <-> l' = [].
Proof. intros []; split; congruence. Qed.

Lemma orel_refl E refs1 refs2 r : orel E refs1 refs2 r r.
Proof.
  induction r as [r IH] using rule_ind'.
  assert (HF : forall l, (forall c, In c l -> In c (children r)) ->
    Forall2 (orel E refs1 refs2) l l).
  { induction l as [|x l IHl]; intros Hin; constructor.
    - apply IH, Hin. left. reflexivity.
    - apply IHl. intros c Hc. apply Hin. right. exact Hc. }
  destruct r; try (apply o_leaf; exact I).
  - eapply o_select; [apply HF; auto|apply stands_same].
  - eapply o_fast; [apply HF; auto|apply stands_same].
  - apply o_sequence, HF; auto.
  - apply o_separate; apply IH; simpl; auto.
  - apply o_repeat, IH; simpl; auto.
  - apply o_lines, IH; simpl; auto.
  - apply o_optional, IH; simpl; auto.
  - apply o_not, IH; simpl; auto.
Qed.

Section Both.
  Variable E : ext.
  Hypothesis HE : ext_ok E.
  Variables s s' : syntax.
  Variable fuel : nat.
  Hypothesis Hopt : optimize fuel s = Done s'.
  Hypothesis Htails : tails_fail_at_end E s.

  Notation refs := (s_rules s).
  Notation refs' := (s_rules s').
  Notation opt r r' := (optimize_rule fuel refs r = Done r').

  Lemma opt_refs : Forall2 (fun r r' => opt r r') refs refs'.
  Proof. exact (proj2 (optimize_inv _ _ _ Hopt)). Qed.

  Lemma end_md r rs ind p ind' tr : reads E rs r ind p [] No ind' tr -> md tr = p.
  Proof. exact (reads_end_md E rs HE r ind p ind' tr). Qed.

  Lemma opt_table args args' table up :
    Forall2 (fun r r' => opt r r') args args' ->
    unique_table_from_select fuel refs args = Done (table, up) ->
    unique_table_from_select fuel refs' args' = Done (table, up).
  Proof.
    intros Ha Ht. unfold unique_table_from_select in *.
    rewrite (unique_loop_opt fuel refs refs' opt_refs _ _ Ha). exact Ht.
  Qed.

  Lemma tails args id table up : occurs s (RSelect args id) ->
    unique_table_from_select fuel refs args = Done (table, up) -> 2 <= up ->
    forall r, In r (rest args up) -> fails_at_end E refs r.
  Proof.
    intros Ho Ht Hup r Hr. eapply Htails; [|exact Hr].
    exists args, id, fuel, table, up. unfold rest. auto.
  Qed.

  Lemma stands_fast args args' id table up : occurs s (RSelect args id) ->
    Forall2 (fun r r' => opt r r') args args' ->
    unique_table_from_select fuel refs args = Done (table, up) -> 2 <= up ->
    stands E refs refs' (RSelect args id) (RSelect args' id) (fast table up args' id).
  Proof.
    intros Ho Ha Ht Hup ind p t v ind' tr tr0 Hreal H1 H0.
    destruct t as [|c t].
    - destruct (select_at_end E HE refs fuel args table up id Ht Hup ind p
                  (tails _ _ _ _ Ho Ht Hup)) as (tr1 & Hs).
      destruct (reads_deterministic _ _ _ _ _ _ _ _ _ _ _ _ H1 Hs) as (-> & -> & _).
      exists [(Rng p 0, ExpectedSomething id)]. split.
      + unfold fast. destruct (up <? length args'); apply reads_fast_end.
      + simpl. rewrite (end_md _ _ _ _ _ _ H0). unfold depth, next_offset. simpl. lia.
    - eapply select_to_fast; [exact HE|eapply opt_table; eassumption|exact Hup| |exact H0].
      inversion Hreal; assumption.
  Qed.

  Lemma stands_select args a' id table up tl : occurs s (RSelect args id) ->
    unique_table_from_select fuel refs args = Done (table, up) -> 2 <= up ->
    stands E refs' refs (RFastSelect table a' tl id) (fast table up args id) (RSelect args id).
  Proof.
    intros Ho Ht Hup ind p t v ind' tr tr0 Hreal H1 H0.
    destruct t as [|c t].
    - destruct (select_at_end E HE refs fuel args table up id Ht Hup ind p
                  (tails _ _ _ _ Ho Ht Hup)) as (tr1 & Hs).
      inversion H1; subst. exists tr1. split; [exact Hs|].
      simpl. rewrite (end_md _ _ _ _ _ _ H0), (end_md _ _ _ _ _ _ Hs). reflexivity.
    - eapply fast_to_select; [exact HE|eassumption|exact Hup| |exact H0].
      inversion Hreal; assumption.
  Qed.

  Ltac binds H := repeat match type of H with
    | obind ?e _ = Done _ => let Hx := fresh "Hx" in destruct e eqn:Hx; try discriminate; cbn [obind] in H
    end.

  Lemma opt_orel r : (forall c, occurs_in c r -> occurs s c) ->
    forall r', opt r r' -> orel E refs refs' r r' /\ orel E refs' refs r' r.
  Proof.
    induction r as [r IH] using rule_ind'. intros Hocc r' Ho.
    assert (Hsub : forall c, In c (children r) -> forall c', opt c c' ->
      orel E refs refs' c c' /\ orel E refs' refs c' c).
    { intros c Hc. apply IH; [exact Hc|]. intros d Hd. apply Hocc.
      eapply occurs_below; eassumption. }
    assert (HF : forall l l', (forall c, In c l -> In c (children r)) ->
      Forall2 (fun r r' => opt r r') l l' ->
      Forall2 (orel E refs refs') l l' /\ Forall2 (orel E refs' refs) l' l).
    { intros l l' Hin HF. split.
      - eapply Forall2_in; [exact HF|]. intros x y Hx Hxy. apply Hsub; auto.
      - apply Forall2_flip'. eapply Forall2_in; [exact HF|]. intros x y Hx Hxy. apply Hsub; auto. }
    destruct r; try (injection Ho as <-; split; apply orel_refl).
    - apply opt_select_cases in Ho as (table & up & args' & Ht & Ha & ->).
      assert (Hocc' : occurs s (RSelect args id)) by (apply Hocc, occurs_here).
      destruct (HF args args' (fun c H => H) Ha) as [H1 H2].
      destruct (Nat.ltb_spec up 2) as [Hup|Hup].
      + split; eapply o_select; eauto; apply stands_same.
      + replace (length args) with (length args') by (symmetry; eapply Forall2_len; exact Ha).
        change (orel E refs refs' (RSelect args id) (fast table up args' id) /\
                orel E refs' refs (fast table up args' id) (RSelect args id)).
        split.
        * eapply o_select; [exact H1|]. eapply stands_fast; eassumption.
        * unfold fast. pose proof (fun a' tl => stands_select args a' id table up tl Hocc' Ht Hup) as Hst.
          unfold fast in Hst. rewrite (Forall2_len _ _ _ Ha) in Hst. revert Hst.
          destruct (up <? length args'); intros Hst.
          -- eapply o_fast; [|apply Hst].
             apply Forall2_app; [apply Forall2_firstn; exact H2|]. constructor; [|constructor].
             eapply o_select; [apply Forall2_skipn; exact H2|apply stands_same].
          -- eapply o_fast; [exact H2|apply Hst].
    - cbn [optimize_rule] in Ho. binds Ho. injection Ho as <-. apply map_o_done in Hx.
      destruct (HF _ _ (fun c H => H) Hx). split; apply o_sequence; assumption.
    - cbn [optimize_rule] in Ho. binds Ho. injection Ho as <-.
      destruct (Hsub r1 ltac:(simpl; auto) _ Hx). destruct (Hsub r2 ltac:(simpl; auto) _ Hx0).
      split; apply o_separate; assumption.
    - cbn [optimize_rule] in Ho. binds Ho. injection Ho as <-.
      destruct (Hsub r ltac:(simpl; auto) _ Hx). split; apply o_repeat; assumption.
    - cbn [optimize_rule] in Ho. binds Ho. injection Ho as <-.
      destruct (Hsub r ltac:(simpl; auto) _ Hx). split; apply o_lines; assumption.
    - cbn [optimize_rule] in Ho. binds Ho. injection Ho as <-.
      destruct (Hsub r ltac:(simpl; auto) _ Hx). split; apply o_optional; assumption.
    - cbn [optimize_rule] in Ho. binds Ho. injection Ho as <-.
      destruct (Hsub r ltac:(simpl; auto) _ Hx). split; apply o_not; assumption.
  Qed.

  Lemma opt_refs_orel :
    Forall2 (orel E refs refs') refs refs' /\ Forall2 (orel E refs' refs) refs' refs.
  Proof.
    pose proof opt_refs as H.
    assert (Hc : forall x y, In x refs -> opt x y -> orel E refs refs' x y /\ orel E refs' refs y x).
    { intros x y Hx Hxy. apply opt_orel; [|exact Hxy]. intros c Hc. exists x. auto. }
    split; [|apply Forall2_flip'];
      (eapply Forall2_in; [exact H|]; intros x y Hx Hxy; apply Hc; assumption).
  Qed.

  Lemma opt_start r : start_rule s r -> exists r', start_rule s' r' /\
    orel E refs refs' r r' /\ orel E refs' refs r' r.
  Proof.
    intros (rules & Hr). destruct (Forall2_last _ _ _ opt_refs rules r Hr) as (l1 & y & He & Hxy).
    exists y. split; [exists l1; exact He|]. apply opt_orel; [|exact Hxy].
    intros c Hc. exists r. split; [rewrite Hr; apply in_or_app; right; left; reflexivity|exact Hc].
  Qed.

  Lemma opt_start' r' : start_rule s' r' -> exists r, start_rule s r /\
    orel E refs refs' r r' /\ orel E refs' refs r' r.
  Proof.
    intros Hr'. assert (Hs : refs = [] \/ exists l x, refs = l ++ [x]).
    { destruct refs as [|x l _] using rev_ind; [left; reflexivity|right; eauto]. }
    destruct Hs as [Hs|(l & x & Hs)].
    - apply (Forall2_nil_iff _ _ _ opt_refs) in Hs. destruct Hr' as (rules & Hr).
      rewrite Hs in Hr. destruct rules; discriminate.
    - destruct (opt_start x) as (r & Hr & H); [exists l; exact Hs|].
      assert (r = r') by (eapply start_rule_unique; eassumption). subst r.
      exists x. split; [exists l; exact Hs|exact H].
  Qed.

  Variable text : str.
  Hypothesis Hreal : Forall real_char text.
  Variable ind : indent.

  Lemma opt_accepts out : accepts E s ind text out <-> accepts E s' ind text out.
  Proof.
    destruct opt_refs_orel as [Hf Hb]. split; intros [r o ind' tr Hr Hv].
    - destruct (opt_start r Hr) as (r' & Hr' & Ho & _).
      destruct (proj1 (replace_all E refs refs' Hf) _ _ _ _ _ _ _ Hv r' Ho Hreal) as (tr' & Hv' & _).
      econstructor; eassumption.
    - destruct (opt_start' r Hr) as (r' & Hr' & _ & Ho).
      destruct (proj1 (replace_all E refs' refs Hb) _ _ _ _ _ _ _ Hv r' Ho Hreal) as (tr' & Hv' & _).
      econstructor; eassumption.
  Qed.

  Lemma opt_rules_nil : refs = [] <-> refs' = [].
  Proof. exact (Forall2_nil_iff _ _ _ opt_refs). Qed.

  Lemma opt_rejects tr : rejects E s ind text tr ->
    exists tr', rejects E s' ind text tr' /\ md tr = md tr'.
  Proof.
    destruct opt_refs_orel as [Hf Hb].
    intros [H0|r ind' tr0 Hr Hv|r n out ind' tr0 Hr Hv Hn].
    - eexists. split; [apply rejects_no_rules, opt_rules_nil, H0|reflexivity].
    - destruct (opt_start r Hr) as (r' & Hr' & Ho & _).
      destruct (proj1 (replace_all E refs refs' Hf) _ _ _ _ _ _ _ Hv r' Ho Hreal) as (tr' & Hv' & Hm).
      exists tr'. split; [eapply rejects_fail; eassumption|exact Hm].
    - destruct (opt_start r Hr) as (r' & Hr' & Ho & _).
      destruct (proj1 (replace_all E refs refs' Hf) _ _ _ _ _ _ _ Hv r' Ho Hreal) as (tr' & Hv' & Hm).
      eexists. split; [eapply rejects_early; eassumption|].
      rewrite !md_app. simpl in *. unfold depth, next_offset. simpl. lia.
  Qed.

  Lemma opt_rejects' tr : rejects E s' ind text tr ->
    exists tr', rejects E s ind text tr' /\ md tr = md tr'.
  Proof.
    destruct opt_refs_orel as [Hf Hb].
    intros [H0|r ind' tr0 Hr Hv|r n out ind' tr0 Hr Hv Hn].
    - eexists. split; [apply rejects_no_rules, opt_rules_nil, H0|reflexivity].
    - destruct (opt_start' r Hr) as (r' & Hr' & _ & Ho).
      destruct (proj1 (replace_all E refs' refs Hb) _ _ _ _ _ _ _ Hv r' Ho Hreal) as (tr' & Hv' & Hm).
      exists tr'. split; [eapply rejects_fail; eassumption|exact Hm].
    - destruct (opt_start' r Hr) as (r' & Hr' & _ & Ho).
      destruct (proj1 (replace_all E refs' refs Hb) _ _ _ _ _ _ _ Hv r' Ho Hreal) as (tr' & Hv' & Hm).
      eexists. split; [eapply rejects_early; eassumption|].
      rewrite !md_app. simpl in *. unfold depth, next_offset. simpl. lia.
  Qed.
End Both.

(** Rejection at a given depth, as returned by the library. *)
Lemma rejected_at E (HE : ext_ok E) s text tokens ind d :
  (exists e tokens', parse_returns E s text tokens ind (Some e) tokens' /\ next_offset (fst e) = d) <->
  (exists tr, rejects E s ind text tr /\ md tr = d).
Proof.
  split.
  - intros (e & tokens' & H & <-). apply (parse_rejects E s ind text) in H as (tr & junk & Hr & Hn & _).
    exists tr. split; [exact Hr|]. apply best_spec in Hn. rewrite md_best, Hn. reflexivity.
  - intros (tr & Hr & <-). destruct (rejects_parse E HE s ind text tokens tr Hr) as (e & tokens' & H).
    exists e, tokens'. split; [exact H|].
    apply (parse_rejects E s ind text) in H as (tr' & junk & Hr' & Hn & _).
    apply best_spec in Hn. rewrite md_best, (rejects_best E s ind text tr tr' Hr Hr'), Hn. reflexivity.
Qed.

Section Public.
  Variable E : ext.
  Hypothesis HE : ext_ok E.
  Variables s s' : syntax.
  Hypothesis Hopt : optimize_returns s s'.
  Hypothesis Htails : tails_fail_at_end E s.
  Variables (text : str) (tokens : list tok) (ind : indent).
  Hypothesis Hreal : Forall real_char text.

  Theorem optimize_accepts tokens' :
    parse_returns E s text tokens ind None tokens' <-> parse_returns E s' text tokens ind None tokens'.
  Proof.
    destruct Hopt as (fuel & Ho). rewrite !(parse_accepts E HE).
    split; intros (out & Ha & ->); exists out; (split; [|reflexivity]);
      eapply (opt_accepts E HE s s' fuel Ho Htails); eassumption.
  Qed.

  Theorem optimize_rejects d :
    (exists e tokens', parse_returns E s text tokens ind (Some e) tokens' /\ next_offset (fst e) = d) <->
    (exists e tokens', parse_returns E s' text tokens ind (Some e) tokens' /\ next_offset (fst e) = d).
  Proof.
    destruct Hopt as (fuel & Ho). rewrite !(rejected_at E HE).
    split; intros (tr & Hr & <-).
    - destruct (opt_rejects E HE s s' fuel Ho Htails text Hreal ind tr Hr) as (tr' & Hr' & Hm). eauto.
    - destruct (opt_rejects' E HE s s' fuel Ho Htails text Hreal ind tr Hr) as (tr' & Hr' & Hm). eauto.
  Qed.
End Public.

(** ** Syntaxes without tails *)

Definition no_tail (fuel : nat) (refs : list rule) (r : rule) : bool :=
  match r with
  | RSelect args _ =>
    match unique_table_from_select fuel refs args with
    | Done (_, up) => (up <? 2) || (length args <=? up)
    | _ => false
    end
  | _ => true
  end.

Lemma unique_table_unique refs args f g a b :
  unique_table_from_select f refs args = Done a ->
  unique_table_from_select g refs args = Done b -> a = b.
Proof.
  unfold unique_table_from_select. intros Ha Hb. destruct (Nat.le_gt_cases f g) as [H|H].
  - destruct (unique_loop_mono refs args f g 0 (repeat 255 256) 0 H); congruence.
  - destruct (unique_loop_mono refs args g f 0 (repeat 255 256) 0 ltac:(lia)); congruence.
Qed.

Lemma no_tails_check E fuel s :
  forallb (all_sub (no_tail fuel (s_rules s))) (s_rules s) = true -> tails_fail_at_end E s.
Proof.
  intros H rest (args & id & f & table & up & Ho & Ht & Hup & ->) r Hr.
  apply (all_rules_spec _ _ H) in Ho. simpl in Ho.
  destruct (unique_table_from_select fuel (s_rules s) args) as [[table' up']| |] eqn:He; try discriminate.
  pose proof (unique_table_unique _ _ _ _ _ _ Ht He) as [= -> ->].
  apply orb_true_iff in Ho as [Ho|Ho].
  - apply Nat.ltb_lt in Ho. lia.
  - apply Nat.leb_le in Ho. rewrite skipn_all2 in Hr by lia. destruct Hr.
Qed.

Lemma bootstrap_tails E : tails_fail_at_end E bootstrap_rules.
Proof. apply (no_tails_check E 100). vm_compute. reflexivity. Qed.

Lemma bootstrap_optimizes : exists boot, optimize_returns bootstrap_rules boot.
Proof. eexists. exists 100. vm_compute. reflexivity. Qed.

Theorem bootstrap_optimized E (HE : ext_ok E) : exists boot,
  optimize_returns bootstrap_rules boot /\
  forall text tokens ind, Forall real_char text ->
  (forall tokens', parse_returns E bootstrap_rules text tokens ind None tokens' <->
                   parse_returns E boot text tokens ind None tokens') /\
  (forall d,
    (exists e tokens', parse_returns E bootstrap_rules text tokens ind (Some e) tokens' /\
       next_offset (fst e) = d) <->
    (exists e tokens', parse_returns E boot text tokens ind (Some e) tokens' /\
       next_offset (fst e) = d)).
Proof.
  destruct bootstrap_optimizes as (boot & Hb). exists boot. split; [exact Hb|].
  intros text tokens ind Hreal. split; intros.
  - apply (optimize_accepts E HE _ _ Hb (bootstrap_tails E) text tokens ind Hreal).
  - apply (optimize_rejects E HE _ _ Hb (bootstrap_tails E) text tokens ind Hreal).
Qed.
