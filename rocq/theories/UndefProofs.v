(** References to undefined rules are like alternatives that were not written. *)
From Coq Require Import List NArith Bool Arith Lia.
From Verif Require Import Base Ext Types PegSpec DataSpec ApiSpec OptProofs PegProofs ParseProofs ParsePublic RenameProofs UndefSpec.
Import ListNotations.

(** Nothing is read by these. *)
Definition dud (r : rule) : Prop :=
  match r with RNode _ _ None _ => True | RSelect [] _ => True | _ => False end.

Inductive sim : rule -> rule -> Prop :=
| sim_refl : forall r, sim r r
| sim_dud : forall a b, dud a -> dud b -> sim a b
| sim_select : forall a b i, sim_alt a b -> sim (RSelect a i) (RSelect b i)
| sim_fast_select : forall t a b l i, sim_args a b -> sim (RFastSelect t a l i) (RFastSelect t b l i)
| sim_sequence : forall a b i, sim_args a b -> sim (RSequence a i) (RSequence b i)
| sim_separate_by : forall a b a' b' o t i, sim a b -> sim a' b' ->
    sim (RSeparateBy a a' o t i) (RSeparateBy b b' o t i)
| sim_repeat : forall a b o i, sim a b -> sim (RRepeat a o i) (RRepeat b o i)
| sim_lines : forall a b d i, sim a b -> sim (RLines a d i) (RLines b d i)
| sim_optional : forall a b i, sim a b -> sim (ROptional a i) (ROptional b i)
| sim_not : forall a b i, sim a b -> sim (RNot a i) (RNot b i)
with sim_args : list rule -> list rule -> Prop :=
| sima_nil : sim_args [] []
| sima_cons : forall x y a b, sim x y -> sim_args a b -> sim_args (x :: a) (y :: b)
with sim_alt : list rule -> list rule -> Prop :=
| simo_nil : sim_alt [] []
| simo_cons : forall x y a b, sim x y -> sim_alt a b -> sim_alt (x :: a) (y :: b)
| simo_left : forall x a b, dud x -> sim_alt a b -> sim_alt (x :: a) b
| simo_right : forall x a b, dud x -> sim_alt a b -> sim_alt a (x :: b).

Scheme sim_ind' := Minimality for sim Sort Prop
with sim_args_ind' := Minimality for sim_args Sort Prop
with sim_alt_ind' := Minimality for sim_alt Sort Prop.
Combined Scheme sim_mutind from sim_ind', sim_args_ind', sim_alt_ind'.

Lemma sim_flip : (forall a b, sim a b -> sim b a) /\ (forall a b, sim_args a b -> sim_args b a) /\
  (forall a b, sim_alt a b -> sim_alt b a).
Proof. apply sim_mutind; intros; try (constructor; assumption). Qed.

Lemma args_refl l : sim_args l l.
Proof. induction l; constructor; auto. constructor. Qed.

Lemma alt_refl l : sim_alt l l.
Proof. induction l; constructor; auto. constructor. Qed.

Lemma args_forall a b : sim_args a b <-> Forall2 sim a b.
Proof. split; induction 1; constructor; auto. Qed.

Section Sim.
  Variable E : ext.
  Variables refs refs' : list rule.
  Hypothesis Hrefs : sim_args refs refs'.

  Lemma dud_reads r ind p s v ind' tr : dud r -> reads E refs r ind p s v ind' tr -> v = No /\ ind' = ind.
  Proof.
    intros Hd H. destruct r; try destruct Hd.
    - destruct args; [|destruct Hd]. inversion H; subst; [congruence|auto].
    - destruct index; [destruct Hd|]. inversion H; subst. auto.
  Qed.

  Lemma dud_no r ind p s : dud r -> exists tr, reads E refs' r ind p s No ind tr.
  Proof.
    intros Hd. destruct r; try destruct Hd.
    - destruct args; [|destruct Hd]. eexists. apply reads_select_empty.
    - destruct index; [destruct Hd|]. eexists. apply reads_node_unresolved.
  Qed.

  (** An alternative is gone, or stands behind such that read nothing. *)
  Lemma alt_cons l b : sim_alt l b -> forall x a, l = x :: a ->
    (dud x /\ sim_alt a b) \/ exists duds y b', b = duds ++ y :: b' /\ Forall dud duds /\ sim x y /\ sim_alt a b'.
  Proof.
    induction 1 as [|x y a b Hxy Hab IH|x a b Hd Hab IH|x a b Hd Hab IH]; intros z c Hl; try discriminate.
    - injection Hl as <- <-. right. exists [], y, b. repeat split; auto.
    - injection Hl as <- <-. left. auto.
    - destruct (IH _ _ Hl) as [[H1 H2]|(duds & y & b' & -> & Hds & Hy & Hb)].
      + left. split; [exact H1|]. apply simo_right; assumption.
      + right. exists (x :: duds), y, b'. repeat split; auto.
  Qed.

  Lemma alt_nil l b : sim_alt l b -> l = [] -> Forall dud b.
  Proof.
    induction 1 as [|x y a b Hxy Hab IH|x a b Hd Hab IH|x a b Hd Hab IH]; intros Hl; try discriminate.
    - constructor.
    - constructor; [exact Hd|apply IH; exact Hl].
  Qed.

  Lemma duds_first duds b ind p s v ind' tr : Forall dud duds -> reads_first E refs' b ind p s v ind' tr ->
    exists tr', reads_first E refs' (duds ++ b) ind p s v ind' tr'.
  Proof.
    intros Hd H. induction Hd as [|x duds Hx _ (tr' & IH)]; [exists tr; exact H|].
    destruct (dud_no x ind p s Hx) as (tx & Htx). eexists. eapply reads_first_next; eassumption.
  Qed.

  Lemma select_any l i ind p s v ind' tr : reads_first E refs' l ind p s v ind' tr ->
    exists tr', reads E refs' (RSelect l i) ind p s v ind' tr'.
  Proof.
    destruct l as [|x l].
    - intros H. inversion H; subst. eexists. apply reads_select_empty.
    - intros H. exists tr. apply reads_select; [discriminate|exact H].
  Qed.

  Lemma nth_sim a b i x : sim_args a b -> nth_error a i = Some x ->
    exists y, nth_error b i = Some y /\ sim x y.
  Proof. intros H Hx. apply args_forall in H. exact (Forall2_nth_l _ _ _ H _ _ Hx). Qed.

  Ltac step := match goal with
    | H : forall r', sim ?r r' -> exists tr', _, H' : sim ?r _ |- _ =>
      destruct (H _ H') as (? & ?); clear H
    | H : forall r' by', sim ?r r' -> sim ?by_ by' -> exists tr', _, H' : sim ?r _, H'' : sim ?by_ _ |- _ =>
      destruct (H _ _ H' H'') as (? & ?); clear H
    | H : forall args', sim_args ?a args' -> exists tr', _, H' : sim_args ?a _ |- _ =>
      destruct (H _ H') as (? & ?); clear H
    | H : forall args', sim_alt ?a args' -> exists tr', _, H' : sim_alt ?a _ |- _ =>
      destruct (H _ H') as (? & ?); clear H
    end.

  (** The congruence case of [sim], if the head is known. *)
  Lemma sim_cases r r' : sim r r' -> (dud r /\ dud r') \/
    match r with
    | RSelect a i => exists b, r' = RSelect b i /\ sim_alt a b
    | RFastSelect t a l i => exists b, r' = RFastSelect t b l i /\ sim_args a b
    | RSequence a i => exists b, r' = RSequence b i /\ sim_args a b
    | RSeparateBy a a' o t i => exists b b', r' = RSeparateBy b b' o t i /\ sim a b /\ sim a' b'
    | RRepeat a o i => exists b, r' = RRepeat b o i /\ sim a b
    | RLines a d i => exists b, r' = RLines b d i /\ sim a b
    | ROptional a i => exists b, r' = ROptional b i /\ sim a b
    | RNot a i => exists b, r' = RNot b i /\ sim a b
    | _ => r' = r
    end.
  Proof.
    intros H. destruct H; try (right; eauto; fail); [|left; auto].
    right. destruct r; eauto using args_refl, alt_refl, sim_refl.
  Qed.

  Theorem reads_sim :
    (forall r ind p s v ind' tr, reads E refs r ind p s v ind' tr ->
      forall r', sim r r' -> exists tr', reads E refs' r' ind p s v ind' tr') /\
    (forall args ind p s v ind' tr, reads_seq E refs args ind p s v ind' tr ->
      forall args', sim_args args args' -> exists tr', reads_seq E refs' args' ind p s v ind' tr') /\
    (forall args ind p s v ind' tr, reads_first E refs args ind p s v ind' tr ->
      forall args', sim_alt args args' -> exists tr', reads_first E refs' args' ind p s v ind' tr') /\
    (forall r ind p s k n out ind' tr, reads_many E refs r ind p s k n out ind' tr ->
      forall r', sim r r' -> exists tr', reads_many E refs' r' ind p s k n out ind' tr') /\
    (forall r by_ trail ind p s v ind' tr, reads_more E refs r by_ trail ind p s v ind' tr ->
      forall r' by', sim r r' -> sim by_ by' -> exists tr', reads_more E refs' r' by' trail ind p s v ind' tr') /\
    (forall r indented id fresh nl ind p s v ind' tr,
      reads_lines E refs r indented id fresh nl ind p s v ind' tr ->
      forall r', sim r r' -> exists tr', reads_lines E refs' r' indented id fresh nl ind p s v ind' tr') /\
    (forall r indented fresh ind p s v fresh' ind' tr,
      reads_line E refs r indented fresh ind p s v fresh' ind' tr ->
      forall r', sim r r' -> exists tr', reads_line E refs' r' indented fresh ind p s v fresh' ind' tr').
  Proof.
    apply reads_mutind; intros;
      try match goal with H : sim ?r ?r' |- _ => assert_fails (is_var r);
        apply sim_cases in H; destruct H as [[Hd Hd']|H];
        [first [destruct Hd; fail|destruct Hd as []|idtac]|] end.
    all: try match goal with
      | H : exists b, _ |- _ => destruct H as (b' & -> & ?)
      | H : exists a b, _ |- _ => destruct H as (a' & b' & -> & ? & ?)
      | H : ?r' = _ |- _ => is_var r'; subst r'
      end.
    all: try match goal with
        | H : sim_args [] _ |- _ => inversion H; subst; clear H
        | H : sim_args (_ :: _) _ |- _ => inversion H; subst; clear H
        end.
    all: repeat step.
    all: try (eexists; econstructor; eauto; fail).
    - destruct args; [congruence|destruct Hd].
    - eapply select_any. eassumption.
    - apply dud_no. exact Hd'.
    - assert (Hb : Forall dud b') by (eapply alt_nil; [eassumption|reflexivity]).
      destruct (duds_first b' [] ind p s No ind [] Hb (reads_first_none _ _ _ _ _)) as (tr' & Hf).
      rewrite app_nil_r in Hf. exact (select_any _ _ _ _ _ _ _ _ Hf).
    - (* fast, tail *)
      match goal with H : sim_args (_ ++ _) _ |- _ => apply args_forall in H;
        apply Forall2_app_one in H as (m & y & -> & HF & Hy) end.
      repeat step. eexists. eapply reads_fast_tail; eassumption.
    - match goal with H : nth_error args i = _, HF : sim_args args _ |- _ =>
        destruct (nth_sim _ _ _ _ HF H) as (y & Hy & Hr) end.
      repeat step. eexists. eapply reads_fast; eassumption.
    - match goal with H : nth_error args i = _, HF : sim_args args _ |- _ =>
        destruct (nth_sim _ _ _ _ HF H) as (y & Hy & Hr) end.
      repeat step. eexists. eapply reads_fast_no; eassumption.
    - match goal with H : nth_error _ i = _, HF : sim_args _ _ |- _ =>
        destruct (nth_sim _ _ _ _ HF H) as (y & Hy & Hr);
        apply args_forall in HF; apply Forall2_app_one in HF as (m & z & -> & HF & Hz) end.
      repeat step. eexists. eapply reads_fast_then_tail; eassumption.
    - match goal with H : nth_error refs i = _ |- _ =>
        destruct (nth_sim _ _ _ _ Hrefs H) as (y & Hy & Hr) end.
      repeat step. eexists. eapply reads_node; eassumption.
    - match goal with H : nth_error refs i = _ |- _ =>
        destruct (nth_sim _ _ _ _ Hrefs H) as (y & Hy & Hr) end.
      repeat step. eexists. eapply reads_node_no; eassumption.
    - apply dud_no. exact Hd'.
    - match goal with H : sim_alt [] ?l |- _ => rewrite <- (app_nil_r l); apply duds_first with (tr := []);
        [eapply alt_nil; [exact H|reflexivity]|apply reads_first_none] end.
    - match goal with H : sim_alt (_ :: _) _ |- _ =>
        destruct (alt_cons _ _ H _ _ eq_refl) as [[Hx Ha]|(duds & y & b' & -> & Hds & Hy & Hb)] end.
      + match goal with H : reads E refs r _ _ _ _ _ _ |- _ => apply dud_reads in H as [? ?]; [discriminate|exact Hx] end.
      + repeat step. eapply duds_first; [exact Hds|]. eapply reads_first_yes. eassumption.
    - match goal with H : sim_alt (_ :: _) _ |- _ =>
        destruct (alt_cons _ _ H _ _ eq_refl) as [[Hx Ha]|(duds & y & b' & -> & Hds & Hy & Hb)] end.
      + match goal with H : reads E refs r _ _ _ _ _ _ |- _ => apply dud_reads in H as [_ ->]; [|exact Hx] end.
        repeat step. eexists. eassumption.
      + repeat step. eapply duds_first; [exact Hds|]. eapply reads_first_next; eassumption.
  Qed.
End Sim.

(** ** Pruned syntaxes *)

Lemma undefined_dud r : undefined r = true -> dud r.
Proof. destruct r; try discriminate. destruct index; [discriminate|]. intros _. exact I. Qed.

Lemma sim_prune r : sim r (prune r).
Proof.
  induction r as [r IH] using rule_ind'.
  assert (Hargs : forall l, (forall c, In c l -> In c (children r)) -> sim_args l (map prune l)).
  { intros l Hl. apply args_forall. induction l as [|x l IHl]; constructor.
    - apply IH, Hl. left. reflexivity.
    - apply IHl. intros c Hc. apply Hl. right. exact Hc. }
  destruct r; cbn [prune]; try (constructor; fail);
    try (constructor; first [apply IH; cbn; tauto|apply Hargs; auto]).
  - apply sim_select. cbn [children] in IH. clear Hargs. induction args as [|x args IHl]; [constructor|].
    cbn [flat_map]. destruct (undefined x) eqn:Hx.
    + apply simo_left; [apply undefined_dud; exact Hx|]. apply IHl. intros c Hc. apply IH. right. exact Hc.
    + apply simo_cons; [apply IH; left; reflexivity|]. apply IHl. intros c Hc. apply IH. right. exact Hc.
  - destruct index; [constructor|]. apply sim_dud; exact I.
Qed.

Section Pruned.
  Variable E : ext.
  Hypothesis HE : ext_ok E.
  Variable s : syntax.

  Notation s' := (prune_syntax s).

  Lemma refs_sim : sim_args (s_rules s) (s_rules s').
  Proof.
    apply args_forall. cbn [prune_syntax s_rules]. induction (s_rules s) as [|r l IH]; constructor; auto.
    apply sim_prune.
  Qed.

  Lemma start_pruned r : start_rule s r -> start_rule s' (prune r).
  Proof.
    intros (l & H). exists (map prune l). cbn [prune_syntax s_rules]. rewrite H, map_app. reflexivity.
  Qed.

  Lemma start_unpruned r : start_rule s' r -> exists q, start_rule s q /\ r = prune q.
  Proof.
    intros (l & H). cbn [prune_syntax s_rules] in H. destruct (s_rules s) as [|a m _] eqn:Hm using rev_ind.
    - destruct l; discriminate.
    - rewrite map_app in H. apply app_inj_tail in H as [_ <-]. exists a. split; [exists m; exact Hm|reflexivity].
  Qed.

  Lemma accepts_pruned ind text out : accepts E s' ind text out <-> accepts E s ind text out.
  Proof.
    split.
    - intros [r o ind' tr Hr H]. apply start_unpruned in Hr as (q & Hq & ->).
      destruct (proj1 (reads_sim E _ _ (proj1 (proj2 sim_flip) _ _ refs_sim)) _ _ _ _ _ _ _ H q
        (proj1 sim_flip _ _ (sim_prune q))) as (tr' & H').
      econstructor; eassumption.
    - intros [r o ind' tr Hr H].
      destruct (proj1 (reads_sim E _ _ refs_sim) _ _ _ _ _ _ _ H (prune r) (sim_prune r)) as (tr' & H').
      econstructor; [apply start_pruned; exact Hr|exact H'].
  Qed.

  Lemma rejects_pruned ind text :
    (exists tr, rejects E s' ind text tr) <-> (exists tr, rejects E s ind text tr).
  Proof.
    split.
    - intros (tr0 & [Hno|r ind' tr Hr H|r n o ind' tr Hr H Hn]).
      + eexists. apply rejects_no_rules. cbn [prune_syntax s_rules] in Hno. destruct (s_rules s); [reflexivity|discriminate].
      + apply start_unpruned in Hr as (q & Hq & ->).
        destruct (proj1 (reads_sim E _ _ (proj1 (proj2 sim_flip) _ _ refs_sim)) _ _ _ _ _ _ _ H q
          (proj1 sim_flip _ _ (sim_prune q))) as (tr' & H').
        eexists. eapply rejects_fail; eassumption.
      + apply start_unpruned in Hr as (q & Hq & ->).
        destruct (proj1 (reads_sim E _ _ (proj1 (proj2 sim_flip) _ _ refs_sim)) _ _ _ _ _ _ _ H q
          (proj1 sim_flip _ _ (sim_prune q))) as (tr' & H').
        eexists. eapply rejects_early; eassumption.
    - intros (tr0 & [Hno|r ind' tr Hr H|r n o ind' tr Hr H Hn]).
      + eexists. apply rejects_no_rules. cbn [prune_syntax s_rules]. rewrite Hno. reflexivity.
      + destruct (proj1 (reads_sim E _ _ refs_sim) _ _ _ _ _ _ _ H (prune r) (sim_prune r)) as (tr' & H').
        eexists. eapply rejects_fail; [apply start_pruned; exact Hr|exact H'].
      + destruct (proj1 (reads_sim E _ _ refs_sim) _ _ _ _ _ _ _ H (prune r) (sim_prune r)) as (tr' & H').
        eexists. eapply rejects_early; [apply start_pruned; exact Hr|exact H'|exact Hn].
  Qed.

  Theorem parse_pruned text tokens ind :
    (forall tokens', parse_returns E s' text tokens ind None tokens' <->
       parse_returns E s text tokens ind None tokens') /\
    ((exists e tokens', parse_returns E s' text tokens ind (Some e) tokens') <->
     (exists e tokens', parse_returns E s text tokens ind (Some e) tokens')).
  Proof.
    split.
    - intros tokens'. rewrite !(parse_accepts E HE). setoid_rewrite accepts_pruned. reflexivity.
    - split.
      + intros (e & t & H). apply error_is_newest_deepest in H as [H _]. apply rejects_pruned in H as (tr & H).
        exact (rejects_parse E HE s ind text tokens tr H).
      + intros (e & t & H). apply error_is_newest_deepest in H as [H _]. apply rejects_pruned in H as (tr & H).
        exact (rejects_parse E HE s' ind text tokens tr H).
  Qed.
End Pruned.
