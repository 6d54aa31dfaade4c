(** C99: parts of a document may be read on their own. *)
From Coq Require Import Ascii String List NArith Bool Arith Lia.
From Verif Require Import Base Ext Types ParseModel OptimizeModel PegSpec DataSpec ApiSpec OptSpec ExtProofs PegFacts ParseProofs OptPublic
  ParsePublic TotalSpec TotalProofs TotalCheck ShapeSpec GrammarSpec GrammarProofs GrammarCheck GrammarPublic PlaceSpec PlaceProofs PlacePublic
  OccursProofs EditSpec EditProofs PartSpec AtEnd Examples.
Import ListNotations.
Local Open Scope string_scope.
Local Open Scope list_scope.
Local Open Scope nat_scope.

Section More.
  Variable E : ext.
  Variable s : syntax.
  Hypothesis Hv : valid s.
  Variable i : nat.
  Variable name reference : str.
  Variable id : debug_id.
  Hypothesis Hi : i < length (s_rules s).

  Local Notation refs := (s_rules s).
  Local Notation q := (RNode reference None (Some i) id).
  Local Notation s' := (documents_of s i name reference id).
  Local Notation refs' := (s_rules s ++ [RNode reference None (Some i) id]).

  Lemma old_ref n p j d : occurs s (RNode n p (Some j) d) -> nth_error refs' j = nth_error refs j.
  Proof. intros Ho. specialize (Hv _ Ho). cbn in Hv. apply nth_error_app1. exact Hv. Qed.

  Lemma occurs_old r : occurs s' r -> occurs s r \/ r = q.
  Proof.
    intros (top & Hin & Ho). cbn [documents_of s_rules] in Hin. apply in_app_or in Hin as [Hin|[<-|[]]].
    - left. exists top. split; assumption.
    - right. inversion Ho as [|? c Hc _]; [reflexivity|destruct Hc].
  Qed.

  Lemma occurs_more r : occurs s r -> occurs s' r.
  Proof. intros (top & Hin & Ho). exists top. split; [|exact Ho]. apply in_or_app. left. exact Hin. Qed.

  Lemma target_occurs j r : nth_error refs j = Some r -> occurs s r.
  Proof. intros H. apply occurs_top. eapply nth_error_In. exact H. Qed.

  Lemma empty_old : forall r, may_be_empty refs' r -> occurs s r -> may_be_empty refs r.
  Proof.
    fix IH 2. intros r H Ho. destruct H; try (econstructor; fail).
    - apply empty_sequence. assert (Hc : forall c, In c args -> occurs s c) by (intros c Hc; eapply occurs_child; [exact Ho|exact Hc]).
      clear Ho. revert args H Hc. fix IHa 2. intros args H Hc. destruct H as [|r rest H1 H2]; constructor.
      + apply IH; [exact H1|apply Hc; left; reflexivity].
      + apply IHa; [exact H2|]. intros c Hin. apply Hc. right. exact Hin.
    - eapply empty_select; [eassumption|]. apply IH; [assumption|]. eapply occurs_child; [exact Ho|assumption].
    - eapply empty_fast; [eassumption|]. apply IH; [assumption|]. eapply occurs_child; [exact Ho|assumption].
    - apply empty_repeat. apply IH; [assumption|]. eapply occurs_child; [exact Ho|left; reflexivity].
    - apply empty_separate. apply IH; [assumption|]. eapply occurs_child; [exact Ho|left; reflexivity].
    - rewrite (old_ref _ _ _ _ Ho) in H. eapply empty_node; [eassumption|]. apply IH; [assumption|]. eapply target_occurs; eassumption.
  Qed.

  Lemma empties_old args : Forall (may_be_empty refs') args -> (forall c, In c args -> occurs s c) -> Forall (may_be_empty refs) args.
  Proof. intros H Hc. rewrite Forall_forall in *. intros c Hin. apply empty_old; auto. Qed.

  Lemma tried_old r c : tried_first refs' r c -> occurs s r -> tried_first refs r c /\ occurs s c.
  Proof.
    intros H Ho. destruct H; (split; [|eapply occurs_child; [exact Ho|cbn [children]; auto using in_or_app, in_eq, in_cons]]); try (constructor; assumption).
    - apply first_sequence. apply empties_old; [assumption|]. intros c Hc. eapply occurs_child; [exact Ho|]. cbn [children]. apply in_or_app. left. exact Hc.
    - apply first_separator. apply empty_old; [assumption|]. eapply occurs_child; [exact Ho|left; reflexivity].
  Qed.

  Lemma leads_old r j : leads_to refs' r j -> occurs s r -> leads_to refs r j /\ j < length refs.
  Proof.
    induction 1 as [n p j d|r c j Ht _ IH]; intros Ho.
    - split; [constructor|]. specialize (Hv _ Ho). exact Hv.
    - destruct (tried_old _ _ Ht Ho) as [Ht' Hc]. destruct (IH Hc) as [H1 H2]. split; [|exact H2]. eapply leads_below; eassumption.
  Qed.

  Lemma begin_old r c : may_begin E refs' r c -> occurs s r -> may_begin E refs r c.
  Proof.
    induction 1 as [| | | | | |n p j d r c Hj _ IH|r r' c Hn Ht _ IH]; intros Ho; try (econstructor; eassumption).
    - rewrite (old_ref _ _ _ _ Ho) in Hj. eapply begin_node; [exact Hj|]. apply IH. eapply target_occurs; exact Hj.
    - destruct (tried_old _ _ Ht Ho) as [Ht' Hc]. eapply begin_below; [exact Hn|exact Ht'|]. apply IH. exact Hc.
  Qed.

  Lemma on_occurs r o : goes_on E s r o -> occurs s r.
  Proof.
    induction 1; try (eapply occurs_child; [eassumption|cbn [children]; auto using in_or_app, in_eq, in_cons]; fail).
    - apply start_occurs. assumption.
    - eapply target_occurs. eassumption.
  Qed.

  Lemma on_old r o : goes_on E s' r o -> o = None \/ goes_on E s r o.
  Proof.
    assert (Hk : forall r, occurs s' r -> (forall n p j d, r <> RNode n p j d) -> occurs s r).
    { intros r0 Ho Hn. apply occurs_old in Ho as [Ho| ->]; [exact Ho|destruct (Hn _ _ _ _ eq_refl)]. }
    assert (Hb : forall r0 c, begins E s' r0 c -> occurs s r0 -> begins E s r0 c) by (intros r0 c; apply begin_old).
    induction 1 as [r Hs|n p j d r o Ho Hj _ IH|before r between r' behind d c Ho Hm Hb'|before r behind d o Ho Hm _ IH|args d r o Ho Hin _ IH|
      r optional d c Ho Hb'|r optional d o Ho _ IH|r by_ optional trail d c Ho Hb'|r by_ optional trail d o Ho _ IH|r by_ optional trail d c Ho Hb'|
      r by_ optional d o Ho _ IH|r d o Ho _ IH].
    - left. reflexivity.
    - destruct IH as [-> |IH]; [left; reflexivity|]. right. pose proof (on_occurs _ _ IH) as Ho'. cbn [documents_of s_rules] in Hj.
      rewrite (old_ref _ _ _ _ Ho') in Hj. eapply on_node; eassumption.
    - right. apply Hk in Ho; [|discriminate]. eapply on_sequence_next; [exact Ho| |].
      + apply empties_old; [exact Hm|]. intros x Hx. eapply occurs_child; [exact Ho|]. cbn [children]. apply in_or_app. right. right. apply in_or_app. left. exact Hx.
      + apply Hb; [exact Hb'|]. eapply occurs_child; [exact Ho|]. cbn [children]. apply in_or_app. right. right. apply in_or_app. right. left. reflexivity.
    - destruct IH as [-> |IH]; [left; reflexivity|]. right. apply Hk in Ho; [|discriminate]. eapply on_sequence_end; [exact Ho| |exact IH].
      apply empties_old; [exact Hm|]. intros x Hx. eapply occurs_child; [exact Ho|]. cbn [children]. apply in_or_app. right. right. exact Hx.
    - destruct IH as [-> |IH]; [left; reflexivity|]. right. apply Hk in Ho; [|discriminate]. eapply on_select; eassumption.
    - right. apply Hk in Ho; [|discriminate]. eapply on_repeat_again; [exact Ho|]. apply Hb; [exact Hb'|]. eapply occurs_child; [exact Ho|left; reflexivity].
    - destruct IH as [-> |IH]; [left; reflexivity|]. right. apply Hk in Ho; [|discriminate]. eapply on_repeat_end; eassumption.
    - right. apply Hk in Ho; [|discriminate]. eapply on_separator; [exact Ho|]. apply Hb; [exact Hb'|]. eapply occurs_child; [exact Ho|right; left; reflexivity].
    - destruct IH as [-> |IH]; [left; reflexivity|]. right. apply Hk in Ho; [|discriminate]. eapply on_separate_end; eassumption.
    - right. apply Hk in Ho; [|discriminate]. eapply on_item; [exact Ho|]. apply Hb; [exact Hb'|]. eapply occurs_child; [exact Ho|left; reflexivity].
    - destruct IH as [-> |IH]; [left; reflexivity|]. right. apply Hk in Ho; [|discriminate]. eapply on_trail; eassumption.
    - destruct IH as [-> |IH]; [left; reflexivity|]. right. apply Hk in Ho; [|discriminate]. eapply on_optional; eassumption.
  Qed.

  Lemma part_valid : valid s'.
  Proof.
    intros r Ho. apply occurs_old in Ho as [Ho| ->].
    - specialize (Hv _ Ho). destruct r as [| | | | | | | | | | | |n p [j|] d| |]; try exact Hv. cbn in *. rewrite app_length. cbn. lia.
    - cbn. rewrite app_length. cbn. lia.
  Qed.

  Lemma part_formed : well_formed s -> well_formed s'.
  Proof.
    intros (W1 & W2 & rank & W3).
    assert (Hk : forall r, occurs s' r -> (forall n p j d, r <> RNode n p j d) -> occurs s r).
    { intros r0 Ho Hn. apply occurs_old in Ho as [Ho| ->]; [exact Ho|destruct (Hn _ _ _ _ eq_refl)]. }
    split; [|split].
    - intros r optional d Ho He. apply Hk in Ho; [|discriminate]. apply (W1 _ _ _ Ho). apply empty_old; [exact He|]. eapply occurs_child; [exact Ho|left; reflexivity].
    - intros r by_ optional trail d Ho [H1 H2]. apply Hk in Ho; [|discriminate]. apply (W2 _ _ _ _ _ Ho). split; apply empty_old; try assumption;
        (eapply occurs_child; [exact Ho|cbn [children]; auto using in_eq, in_cons]).
    - exists (fun j => if j <? length refs then rank j else S (rank i)). intros k r j Hk' Hl. cbn [documents_of s_rules] in Hk', Hl.
      destruct (Nat.lt_ge_cases k (length refs)) as [Hlt|Hge].
      + rewrite nth_error_app1 in Hk' by exact Hlt. destruct (leads_old _ _ Hl (target_occurs _ _ Hk')) as [Hl' Hj].
        apply Nat.ltb_lt in Hlt. rewrite Hlt. apply Nat.ltb_lt in Hj. rewrite Hj. eapply W3; eassumption.
      + rewrite nth_error_app2 in Hk' by exact Hge. destruct (k - length refs) as [|k'] eqn:Hke; [|destruct k'; discriminate]. injection Hk' as <-.
        assert (j = i) as ->. { inversion Hl as [|? c ? Ht]; subst; [reflexivity|inversion Ht]. }
        apply Nat.ltb_lt in Hi. rewrite Hi. apply Nat.ltb_ge in Hge. rewrite Hge. lia.
  Qed.

  Lemma part_clear : numbers_end E -> clear E s -> clear E s'.
  Proof.
    intros Hnum Hc r Ho. apply occurs_old in Ho as [Ho| ->]; [|exact I]. specialize (Hc r Ho).
    assert (He : forall x, In x (children r) -> empties s' x -> empties s x).
    { intros x Hx. intros H. apply empty_old; [exact H|]. eapply occurs_child; eassumption. }
    assert (Hb : forall x c, In x (children r) -> begins E s' x c -> begins E s x c).
    { intros x c Hx H. apply begin_old; [exact H|]. eapply occurs_child; eassumption. }
    assert (Hg : forall c, goes_on E s' r (Some c) -> goes_on E s r (Some c)).
    { intros c H. apply on_old in H as [H|H]; [discriminate|exact H]. }
    assert (Ha : forall x, In x (children r) -> apart E s x r -> apart E s' x r).
    { intros x Hx [H1 H2]. split; [intros H; apply H1, He; assumption|]. intros c H3 H4. apply (H2 c); [apply Hb; assumption|apply Hg; exact H4]. }
    destruct r as [o d|x [|] v p d|y o p d|y o p d|a p d|u p d|args d|tb args tl d|args d|r b o tr d|r o d|r dd d|n p ix d|r d|r d];
      cbn [decided_by_next children] in *; try exact I.
    all: try (intros c H; apply Hc, Hg; exact H).
    all: try (apply Ha; [left; reflexivity|exact Hc]).
    all: try contradiction.
    - destruct Hc as (c & rest & -> & Hc). exists c, rest. split; [reflexivity|]. intros H. apply Hc, Hg. exact H.
    - intros oc H. apply on_old in H as [-> |H]; [apply Hnum|apply Hc; exact H].
    - intros before x between x' behind ->. destruct (Hc before x between x' behind eq_refl) as [H1 H2].
      assert (I1 : In x (before ++ x :: between ++ x' :: behind)) by (apply in_or_app; right; left; reflexivity).
      assert (I2 : In x' (before ++ x :: between ++ x' :: behind)) by (apply in_or_app; right; right; apply in_or_app; right; left; reflexivity).
      split; [intros H; apply H1, He; assumption|]. intros c Hx. destruct (H2 c) as [H3 H4]; [apply Hb; assumption|].
      split; [intros H; apply H3, Hb; assumption|]. intros Hem H. apply H4; [apply He; assumption|apply Hg; exact H].
    - destruct Hc as (H1 & H2 & H3). split; [intros H; apply H1, He; [left; reflexivity|exact H]|].
      split; [apply Ha; [right; left; reflexivity|exact H2]|]. intros Hot. apply Ha; [left; reflexivity|apply H3; exact Hot].
  Qed.

  (** ** What is generated *)

  Lemma places_more_rules :
    (forall r p x ts, places E refs r p x ts -> places E refs' r p x ts) /\
    (forall args p x ts, places_all E refs args p x ts -> places_all E refs' args p x ts) /\
    (forall r k p x ts, places_times E refs r k p x ts -> places_times E refs' r k p x ts) /\
    (forall r by_ trail p x ts, places_more E refs r by_ trail p x ts -> places_more E refs' r by_ trail p x ts).
  Proof.
    apply places_mutind; intros; try (econstructor; eassumption).
    eapply at_node; [|eassumption]. rewrite nth_error_app1; [assumption|]. apply nth_error_Some. congruence.
  Qed.

  Lemma places_old :
    (forall r p x ts, places E refs' r p x ts -> occurs s r -> places E refs r p x ts) /\
    (forall args p x ts, places_all E refs' args p x ts -> Forall (occurs s) args -> places_all E refs args p x ts) /\
    (forall r k p x ts, places_times E refs' r k p x ts -> occurs s r -> places_times E refs r k p x ts) /\
    (forall r by_ trail p x ts, places_more E refs' r by_ trail p x ts -> occurs s r -> occurs s by_ -> places_more E refs r by_ trail p x ts).
  Proof.
    assert (Hch : forall r c, occurs s r -> In c (children r) -> occurs s c) by (intros; eapply occurs_child; eassumption).
    apply places_mutind; intros;
      repeat match goal with H : Forall _ (_ :: _) |- _ => inversion H; subst; clear H end;
      try (econstructor; eauto; fail).
    - apply at_sequence. match goal with H : Forall _ _ -> _ |- _ => apply H end. apply Forall_forall. intros c Hc. eapply Hch; eassumption.
    - eapply at_repeat; [|eassumption]. match goal with H : occurs s _ -> places_times _ _ _ _ _ _ _ |- _ => apply H end. eapply Hch; [eassumption|left; reflexivity].
    - match goal with Ho : occurs s (RSeparateBy _ _ _ _ _) |- _ =>
        pose proof (Hch _ _ Ho (or_introl eq_refl)); pose proof (Hch _ _ Ho (or_intror (or_introl eq_refl))) end.
      apply at_separate; auto.
    - match goal with Ho : occurs s (RNode _ _ _ _), Hj : nth_error _ _ = Some _ |- _ => rewrite (old_ref _ _ _ _ Ho) in Hj; 
        pose proof (target_occurs _ _ Hj) end.
      eapply at_node; eauto.
    - apply at_optional. match goal with H : occurs s _ -> places _ _ _ _ _ _ |- _ => apply H end. eapply Hch; [eassumption|left; reflexivity].
  Qed.
End More.
