(** Renaming does not influence what is read. *)
From Coq Require Import List NArith Bool Arith Lia.
From Verif Require Import Base Ext Types ParseModel DataSpec PegSpec ApiSpec OptProofs PegProofs ParseProofs ParsePublic RenameSpec.
Import ListNotations.

Lemma Forall2_app_one {A B} (P : A -> B -> Prop) l x l' : Forall2 P (l ++ [x]) l' ->
  exists m y, l' = m ++ [y] /\ Forall2 P l m /\ P x y.
Proof.
  intros H. apply Forall2_app_inv_l in H as (m & n & H1 & H2 & ->).
  inversion H2 as [|? y ? ? H3 H4]; subst. inversion H4; subst. exists m, y. auto.
Qed.

Lemma Forall2_app_one_r {A B} (P : A -> B -> Prop) l x l' : Forall2 P l' (l ++ [x]) ->
  exists m y, l' = m ++ [y] /\ Forall2 P m l /\ P y x.
Proof.
  intros H. apply Forall2_app_inv_r in H as (m & n & H1 & H2 & ->).
  inversion H2 as [|y ? ? ? H3 H4]; subst. inversion H4; subst. exists m, y. auto.
Qed.

Lemma Forall2_nth_l {A B} (P : A -> B -> Prop) l l' : Forall2 P l l' -> forall i x, nth_error l i = Some x ->
  exists y, nth_error l' i = Some y /\ P x y.
Proof.
  induction 1 as [|a b l l' H Hl IH]; intros [|i] x Hi; try discriminate.
  - injection Hi as <-. exists b. auto.
  - apply IH. exact Hi.
Qed.

Lemma Forall2_nth_r {A B} (P : A -> B -> Prop) l l' : Forall2 P l l' -> forall i y, nth_error l' i = Some y ->
  exists x, nth_error l i = Some x /\ P x y.
Proof.
  induction 1 as [|a b l l' H Hl IH]; intros [|i] x Hi; try discriminate.
  - injection Hi as <-. exists a. auto.
  - apply IH. exact Hi.
Qed.

(** ** A relation that can be reversed *)

Section Like.
  Variable R : option str -> option str -> Prop.
  Variable G : nat -> nat -> Prop.

  Inductive alike : rule -> rule -> Prop :=
  | al_whitespace : forall o i, alike (RWhitespace o i) (RWhitespace o i)
  | al_tag : forall t n v p p' i, R p p' -> alike (RTag t n v p i) (RTag t n v p' i)
  | al_until : forall a o p p' i, R p p' -> alike (RUntilAny a o p i) (RUntilAny a o p' i)
  | al_until_ws : forall a o p p' i, R p p' -> alike (RUntilAnyOrWs a o p i) (RUntilAnyOrWs a o p' i)
  | al_text : forall e p p' i, R p p' -> alike (RText e p i) (RText e p' i)
  | al_number : forall u p p' i, R p p' -> alike (RNumber u p i) (RNumber u p' i)
  | al_select : forall a b i, Forall2 alike a b -> alike (RSelect a i) (RSelect b i)
  | al_fast_select : forall t a b l i, Forall2 alike a b -> alike (RFastSelect t a l i) (RFastSelect t b l i)
  | al_sequence : forall a b i, Forall2 alike a b -> alike (RSequence a i) (RSequence b i)
  | al_separate_by : forall a b a' b' o t i, alike a b -> alike a' b' ->
      alike (RSeparateBy a a' o t i) (RSeparateBy b b' o t i)
  | al_repeat : forall a b o i, alike a b -> alike (RRepeat a o i) (RRepeat b o i)
  | al_lines : forall a b d i, alike a b -> alike (RLines a d i) (RLines b d i)
  | al_node : forall n n' p p' k k' i, R p p' -> G k k' ->
      alike (RNode n p (Some k) i) (RNode n' p' (Some k') i)
  | al_unresolved : forall n n' p p' i, R p p' -> alike (RNode n p None i) (RNode n' p' None i)
  | al_optional : forall a b i, alike a b -> alike (ROptional a i) (ROptional b i)
  | al_not : forall a b i, alike a b -> alike (RNot a i) (RNot b i).

  Inductive kind : (str -> metadata) -> Prop :=
  | kind_start : kind StartNode
  | kind_end : kind EndNode
  | kind_bool : forall v, kind (fun n => MBool n v)
  | kind_f64 : forall v, kind (fun n => MF64 n v)
  | kind_string : forall v, kind (fun n => MString n v).

  Inductive trel : list tok -> list tok -> Prop :=
  | trel_nil : trel [] []
  | trel_token : forall p p' r mk, R p p' -> kind mk -> trel (token p r mk) (token p' r mk)
  | trel_app : forall a a' b b', trel a a' -> trel b b' -> trel (a ++ b) (a' ++ b').

  Inductive vrel : verdict -> verdict -> Prop :=
  | vrel_no : vrel No No
  | vrel_yes : forall n out out', trel out out' -> vrel (Yes n out) (Yes n out').

  Lemma vrel_after n out out' v v' : trel out out' -> vrel v v' -> vrel (after n out v) (after n out' v').
  Proof. intros H [|m o o' Ho]; cbn; constructor. apply trel_app; assumption. Qed.
End Like.

Lemma alike_flip (R : option str -> option str -> Prop) G r : forall r', alike R G r r' ->
  alike (fun a b => R b a) (fun a b => G b a) r' r.
Proof.
  induction r as [r IH] using rule_ind'. intros r' H.
  assert (Hargs : forall a b, (forall c, In c a -> In c (children r)) -> Forall2 (alike R G) a b ->
    Forall2 (alike (fun a b => R b a) (fun a b => G b a)) b a).
  { intros a b Ha HF. induction HF as [|x y a b Hx _ IHl]; constructor.
    - apply IH; [apply Ha; left; reflexivity|exact Hx].
    - apply IHl. intros c Hc. apply Ha. right. exact Hc. }
  inversion H; subst; constructor; auto; try (apply IH; [cbn; tauto|assumption]).
Qed.

Create HintDb ren.
#[export] Hint Constructors trel kind vrel : ren.
#[export] Hint Resolve vrel_after : ren.

Section Sim.
  Variable E : ext.
  Variable R : option str -> option str -> Prop.
  Variable G : nat -> nat -> Prop.
  Variables refs refs' : list rule.
  Hypothesis Hrefs : forall k k', G k k' -> match nth_error refs k, nth_error refs' k' with
    | Some r, Some r' => alike R G r r' | None, None => True | _, _ => False end.

  Local Notation ren := (alike R G).
  Local Notation vr := (vrel R).

  Ltac step := match goal with
    | H : forall r', alike R G ?r r' -> exists v', _, H' : alike R G ?r _ |- _ =>
      destruct (H _ H') as (? & ? & ?); clear H
    | H : forall r' by', alike R G ?r r' -> alike R G ?by_ by' -> exists v', _, H' : alike R G ?r _, H'' : alike R G ?by_ _ |- _ =>
      destruct (H _ _ H' H'') as (? & ? & ?); clear H
    | H : forall args', Forall2 (alike R G) ?a args' -> exists v', _, H' : Forall2 (alike R G) ?a _ |- _ =>
      destruct (H _ H') as (? & ? & ?); clear H
    | H : vrel _ (Yes _ _) _ |- _ => inversion H; subst; clear H
    | H : vrel _ No _ |- _ => inversion H; subst; clear H
    end.

  Theorem reads_alike :
    (forall r ind p s v ind' tr, reads E refs r ind p s v ind' tr ->
      forall r', ren r r' -> exists v', vr v v' /\ reads E refs' r' ind p s v' ind' tr) /\
    (forall args ind p s v ind' tr, reads_seq E refs args ind p s v ind' tr ->
      forall args', Forall2 ren args args' -> exists v', vr v v' /\ reads_seq E refs' args' ind p s v' ind' tr) /\
    (forall args ind p s v ind' tr, reads_first E refs args ind p s v ind' tr ->
      forall args', Forall2 ren args args' -> exists v', vr v v' /\ reads_first E refs' args' ind p s v' ind' tr) /\
    (forall r ind p s k n out ind' tr, reads_many E refs r ind p s k n out ind' tr ->
      forall r', ren r r' -> exists out', trel R out out' /\ reads_many E refs' r' ind p s k n out' ind' tr) /\
    (forall r by_ trail ind p s v ind' tr, reads_more E refs r by_ trail ind p s v ind' tr ->
      forall r' by', ren r r' -> ren by_ by' -> exists v', vr v v' /\ reads_more E refs' r' by' trail ind p s v' ind' tr) /\
    (forall r indented id fresh nl ind p s v ind' tr,
      reads_lines E refs r indented id fresh nl ind p s v ind' tr ->
      forall r', ren r r' -> exists v', vr v v' /\ reads_lines E refs' r' indented id fresh nl ind p s v' ind' tr) /\
    (forall r indented fresh ind p s v fresh' ind' tr,
      reads_line E refs r indented fresh ind p s v fresh' ind' tr ->
      forall r', ren r r' -> exists v', vr v v' /\ reads_line E refs' r' indented fresh ind p s v' fresh' ind' tr).
  Proof.
    apply reads_mutind; intros;
      try match goal with H : alike _ _ ?r _ |- _ => assert_fails (is_var r); inversion H; subst; clear H end;
      try match goal with
        | H : Forall2 _ [] _ |- _ => inversion H; subst; clear H
        | H : Forall2 _ (_ :: _) _ |- _ => inversion H; subst; clear H
        end;
      repeat step;
      try (eexists; split; [|econstructor; eauto; fail]; auto with ren; fail).
    - (* select *)
      assert (Hb : b <> []) by (intros ->; match goal with H' : Forall2 _ args [] |- _ => inversion H'; congruence end).
      repeat step. eexists. split; [eassumption|]. constructor; assumption.
    - match goal with H : Forall2 _ (_ ++ _) _ |- _ => apply Forall2_app_one in H as (m & y & -> & HF & Hy) end.
      repeat step. eexists. split; [eassumption|]. eapply reads_fast_tail; eassumption.
    - match goal with H : nth_error args i = _, HF : Forall2 _ args _ |- _ =>
        destruct (Forall2_nth_l _ _ _ HF _ _ H) as (y & Hy & Hr) end.
      repeat step. eexists. split; [|eapply reads_fast; eassumption]. auto with ren.
    - match goal with H : nth_error args i = _, HF : Forall2 _ args _ |- _ =>
        destruct (Forall2_nth_l _ _ _ HF _ _ H) as (y & Hy & Hr) end.
      repeat step. eexists. split; [|eapply reads_fast_no; eassumption]. auto with ren.
    - match goal with H : nth_error _ i = _, HF : Forall2 _ _ _ |- _ =>
        destruct (Forall2_nth_l _ _ _ HF _ _ H) as (y & Hy & Hr);
        apply Forall2_app_one in HF as (m & z & -> & HF & Hz) end.
      repeat step. eexists. split; [eassumption|]. eapply reads_fast_then_tail; eassumption.
    - repeat step. eexists. split; [|eapply reads_separate_none; eassumption].
      destruct optional; auto with ren.
    - match goal with H : G ?k ?k', Hk : nth_error refs ?k = Some r |- _ =>
        specialize (Hrefs _ _ H); rewrite Hk in Hrefs;
        destruct (nth_error refs' k') as [x'|] eqn:Hx; [|destruct Hrefs] end.
      repeat step. eexists. split; [|eapply reads_node; eassumption]. auto with ren.
    - match goal with H : G ?k ?k', Hk : nth_error refs ?k = Some r |- _ =>
        specialize (Hrefs _ _ H); rewrite Hk in Hrefs;
        destruct (nth_error refs' k') as [x'|] eqn:Hx; [|destruct Hrefs] end.
      repeat step. eexists. split; [|eapply reads_node_no; eassumption]. auto with ren.
    - repeat step. eexists. split; [|eapply reads_more_trail; eassumption].
      destruct trail; auto with ren.
  Qed.
End Sim.

(** ** Renamed syntaxes are read alike *)

Lemma renamed_alike f G r : forall r', renamed f G r r' -> alike (fun p p' => p' = new_property f p) G r r'.
Proof.
  induction r as [r IH] using rule_ind'. intros r' H.
  assert (Hargs : forall a b, (forall c, In c a -> In c (children r)) -> Forall2 (renamed f G) a b ->
    Forall2 (alike (fun p p' => p' = new_property f p) G) a b).
  { intros a b Ha HF. induction HF as [|x y a b Hx _ IHl]; constructor.
    - apply IH; [apply Ha; left; reflexivity|exact Hx].
    - apply IHl. intros c Hc. apply Ha. right. exact Hc. }
  inversion H; subst; constructor; auto; try (apply IH; [cbn; tauto|assumption]).
Qed.

Lemma alike_renamed f G r : forall r', alike (fun p p' => p' = new_property f p) G r r' -> renamed f G r r'.
Proof.
  induction r as [r IH] using rule_ind'. intros r' H.
  assert (Hargs : forall a b, (forall c, In c a -> In c (children r)) ->
    Forall2 (alike (fun p p' => p' = new_property f p) G) a b -> Forall2 (renamed f G) a b).
  { intros a b Ha HF. induction HF as [|x y a b Hx _ IHl]; constructor.
    - apply IH; [apply Ha; left; reflexivity|exact Hx].
    - apply IHl. intros c Hc. apply Ha. right. exact Hc. }
  inversion H; subst; constructor; auto; try (apply IH; [cbn; tauto|assumption]).
Qed.

Lemma trel_tokens f out out' : trel (fun p p' => p' = new_property f p) out out' -> out' = new_tokens f out.
Proof.
  induction 1 as [|p p' r mk -> Hk|a a' b b' _ -> _ ->].
  - reflexivity.
  - destruct p as [n|]; [|reflexivity]. cbn [new_property].
    destruct Hk; unfold new_tokens, new_token; cbn; destruct (f n); reflexivity.
  - unfold new_tokens. rewrite flat_map_app. reflexivity.
Qed.

Lemma trel_flip R out out' : trel R out out' -> trel (fun a b => R b a) out' out.
Proof. induction 1; constructor; assumption. Qed.

Section Syntaxes.
  Variable E : ext.
  Variable f : str -> option str.
  Variable G : nat -> nat -> Prop.
  Variables s s' : syntax.
  Hypothesis Hs : renamed_syntax f G s s'.

  Let R (p p' : option str) : Prop := p' = new_property f p.

  Lemma refs_alike : forall k k', G k k' -> match nth_error (s_rules s) k, nth_error (s_rules s') k' with
    | Some r, Some r' => alike R G r r' | None, None => True | _, _ => False end.
  Proof.
    intros k k' Hk. destruct Hs as [H _]. specialize (H k k' Hk).
    destruct (nth_error (s_rules s) k), (nth_error (s_rules s') k'); auto. apply renamed_alike. exact H.
  Qed.

  Lemma refs_alike_back : forall k k', G k' k -> match nth_error (s_rules s') k, nth_error (s_rules s) k' with
    | Some r, Some r' => alike (fun a b => R b a) (fun a b => G b a) r r' | None, None => True | _, _ => False end.
  Proof.
    intros k k' Hk. pose proof (refs_alike k' k Hk) as H.
    destruct (nth_error (s_rules s) k'), (nth_error (s_rules s') k); auto. apply alike_flip. exact H.
  Qed.

  Lemma reads_forth r r' ind p t v ind' tr : renamed f G r r' -> reads E (s_rules s) r ind p t v ind' tr ->
    exists v', vrel R v v' /\ reads E (s_rules s') r' ind p t v' ind' tr.
  Proof.
    intros Hr H. eapply (reads_alike E R G); [exact refs_alike|exact H|]. apply renamed_alike. exact Hr.
  Qed.

  Lemma reads_back r r' ind p t v ind' tr : renamed f G r r' -> reads E (s_rules s') r' ind p t v ind' tr ->
    exists v', vrel R v' v /\ reads E (s_rules s) r ind p t v' ind' tr.
  Proof.
    intros Hr H. apply renamed_alike, alike_flip in Hr.
    destruct (proj1 (reads_alike E (fun a b => R b a) (fun a b => G b a) (s_rules s') (s_rules s) refs_alike_back)
      _ _ _ _ _ _ _ H _ Hr) as (v' & Hv & H').
    exists v'. split; [|exact H']. destruct Hv; constructor. apply trel_flip in H0. exact H0.
  Qed.

  Lemma start_forth r : start_rule s r -> exists r', start_rule s' r' /\ renamed f G r r'.
  Proof.
    intros Hr. destruct Hs as [_ [[H0 _]|(q & q' & H1 & H2 & H3)]].
    - destruct Hr as (l & Hr). rewrite H0 in Hr. destruct l; discriminate.
    - assert (r = q) by (eapply start_rule_unique; eassumption). subst q. eauto.
  Qed.

  Lemma start_back r' : start_rule s' r' -> exists r, start_rule s r /\ renamed f G r r'.
  Proof.
    intros Hr. destruct Hs as [_ [[_ H0]|(q & q' & H1 & H2 & H3)]].
    - destruct Hr as (l & Hr). rewrite H0 in Hr. destruct l; discriminate.
    - assert (r' = q') by (eapply start_rule_unique; eassumption). subst q'. eauto.
  Qed.

  Lemma none_iff : s_rules s = [] <-> s_rules s' = [].
  Proof.
    destruct Hs as [_ [[H0 H1]|(q & q' & (l & H1) & (l' & H2) & H3)]]; [tauto|].
    rewrite H1, H2. split; intros H; destruct l; destruct l'; discriminate.
  Qed.

  Lemma accepts_renamed ind text out' :
    accepts E s' ind text out' <-> exists out, accepts E s ind text out /\ out' = new_tokens f out.
  Proof.
    split.
    - intros [r' o' ind' tr Hr' Hv]. destruct (start_back _ Hr') as (r & Hr & Hrr).
      destruct (reads_back _ _ _ _ _ _ _ _ Hrr Hv) as (v & Hv1 & Hv2). inversion Hv1; subst.
      eexists. split; [econstructor; eassumption|]. apply trel_tokens. assumption.
    - intros (out & [r o ind' tr Hr Hv] & ->). destruct (start_forth _ Hr) as (r' & Hr' & Hrr).
      destruct (reads_forth _ _ _ _ _ _ _ _ Hrr Hv) as (v & Hv1 & Hv2). inversion Hv1; subst.
      erewrite <- trel_tokens by eassumption. econstructor; eassumption.
  Qed.

  Lemma rejects_renamed ind text tr : rejects E s' ind text tr <-> rejects E s ind text tr.
  Proof.
    split.
    - intros [H0|r' ind' tr' Hr' Hv|r' n out' ind' tr' Hr' Hv Hn].
      + apply rejects_no_rules. apply none_iff. exact H0.
      + destruct (start_back _ Hr') as (r & Hr & Hrr).
        destruct (reads_back _ _ _ _ _ _ _ _ Hrr Hv) as (v & Hv1 & Hv2). inversion Hv1; subst.
        eapply rejects_fail; eassumption.
      + destruct (start_back _ Hr') as (r & Hr & Hrr).
        destruct (reads_back _ _ _ _ _ _ _ _ Hrr Hv) as (v & Hv1 & Hv2). inversion Hv1; subst.
        eapply rejects_early; eassumption.
    - intros [H0|r' ind' tr' Hr' Hv|r' n out' ind' tr' Hr' Hv Hn].
      + apply rejects_no_rules. apply none_iff. exact H0.
      + destruct (start_forth _ Hr') as (r & Hr & Hrr).
        destruct (reads_forth _ _ _ _ _ _ _ _ Hrr Hv) as (v & Hv1 & Hv2). inversion Hv1; subst.
        eapply rejects_fail; eassumption.
      + destruct (start_forth _ Hr') as (r & Hr & Hrr).
        destruct (reads_forth _ _ _ _ _ _ _ _ Hrr Hv) as (v & Hv1 & Hv2). inversion Hv1; subst.
        eapply rejects_early; eassumption.
  Qed.
End Syntaxes.

(** Equal traces give equal errors. *)
Lemma same_rejects_same_error E s s' ind text tokens tokens2 e : ext_ok E ->
  (forall tr, rejects E s ind text tr -> rejects E s' ind text tr) ->
  (exists t, parse_returns E s text tokens ind (Some e) t) ->
  exists t, parse_returns E s' text tokens2 ind (Some e) t.
Proof.
  intros HE Hrej (t & H). apply error_is_newest_deepest in H as [(tr & Htr) Hn].
  apply Hn in Htr as Hn1. apply Hrej in Htr as Htr'.
  destruct (rejects_parse E HE s' ind text tokens2 tr Htr') as (e' & t' & H').
  exists t'. apply error_is_newest_deepest in H' as Hn'. destruct Hn' as [_ Hn'].
  replace e with e'; [exact H'|]. eapply newest_deepest_unique; [apply Hn'; exact Htr'|exact Hn1].
Qed.

Lemma parse_renamed E f G s s' : ext_ok E -> renamed_syntax f G s s' -> forall text tokens ind,
  (forall tokens', parse_returns E s' text tokens ind None tokens' <->
     exists out, parse_returns E s text tokens ind None (tokens ++ out) /\ tokens' = tokens ++ new_tokens f out) /\
  (forall e, (exists tokens', parse_returns E s' text tokens ind (Some e) tokens') <->
     (exists tokens', parse_returns E s text tokens ind (Some e) tokens')).
Proof.
  intros HE Hs text tokens ind. split.
  - intros tokens'. rewrite (parse_accepts E HE). split.
    + intros (out' & Ha & ->). apply (accepts_renamed E f G s s' Hs) in Ha as (out & Ha & ->).
      exists out. split; [|reflexivity]. apply parse_accepts; eauto.
    + intros (out & Ha & ->). apply parse_accepts in Ha as (o & Ha & Ho); [|exact HE].
      apply app_inv_head in Ho. subst o. exists (new_tokens f out). split; [|reflexivity].
      apply (accepts_renamed E f G s s' Hs). eauto.
  - intros e. split; apply same_rejects_same_error; auto; intros tr; apply (rejects_renamed E f G s s' Hs).
Qed.

(** ** Properties *)

Lemma with_properties_renamed f r : renamed f eq r (with_properties f r).
Proof.
  induction r as [r IH] using rule_ind'.
  destruct r; cbn [with_properties]; try (constructor; apply IH; cbn; tauto);
    try (constructor; apply Forall2_map_r; exact IH).
  destruct index; constructor. reflexivity.
Qed.

Lemma syntax_with_properties_renamed f s : renamed_syntax f eq s (syntax_with_properties f s).
Proof.
  split.
  - intros k k' <-. cbn [syntax_with_properties s_rules]. rewrite nth_error_map.
    destruct (nth_error (s_rules s) k); cbn; [apply with_properties_renamed|exact I].
  - cbn [syntax_with_properties s_rules]. destruct (s_rules s) as [|x l] eqn:Hl using rev_ind; [left; auto|].
    right. exists x, (with_properties f x). split; [exists l; exact Hl|]. split.
    + exists (map (with_properties f) l). cbn. rewrite Hl, map_app. reflexivity.
    + apply with_properties_renamed.
Qed.
