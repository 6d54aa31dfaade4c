(** Origin of rules in optimised syntaxes, and in syntaxes read from a text. *)
From Coq Require Import Ascii String List NArith Bool Arith Lia.
From Verif Require Import Base Ext Types DataSpec ParseModel ApiSpec OptimizeModel OptSpec BootstrapRules ConvertModel ConvertSpec
  LibModel SyntaxSpec OptProofs OptProofs2 OccursProofs OptPublic ParsePublic OptTotal ConvertSound OriginSpec OriginProofs.
Import ListNotations.
Local Open Scope string_scope.
Local Open Scope list_scope.
Local Open Scope nat_scope.

Lemma Forall2_in_r {A B} (R : A -> B -> Prop) l l' : Forall2 R l l' ->
  forall y, In y l' -> exists x, In x l /\ R x y.
Proof.
  induction 1 as [|a a' l l' Ha _ IH]; intros y []; subst.
  - exists a. split; [left; reflexivity|exact Ha].
  - apply IH in H as (x & Hx & Hy). exists x. split; [right; exact Hx|exact Hy].
Qed.

Section Optimize.
  Variable data : list tok.
  Let P (x : rule) : Prop := fast_select x \/ comes_from data x.

  Lemma optimize_rule_origin fuel refs r : forall r', optimize_rule fuel refs r = Done r' ->
    origin data r -> forall c, occurs_in c r' -> P c.
  Proof.
    induction r as [r IH] using rule_ind'. intros r' Hopt Hin.
    assert (Hn : P r) by (right; apply Hin, occurs_here).
    assert (Hargs : forall args args', Forall2 (fun r r' => optimize_rule fuel refs r = Done r') args args' ->
      (forall c, In c args -> In c (children r)) ->
      forall c c', In c' args' -> occurs_in c c' -> P c).
    { intros args args' HF. induction HF as [|a a' l l' Ha _ IHl]; intros Hc c c' Hin'; [destruct Hin'|].
      destruct Hin' as [<-|Hin'].
      - apply (IH a (Hc _ (or_introl eq_refl)) a' Ha). intros d Hd. apply Hin.
        eapply occurs_below; [|exact Hd]. apply Hc. left. reflexivity.
      - apply IHl; [|exact Hin']. intros d Hd. apply Hc. right. exact Hd. }
    assert (Hone : forall a a', optimize_rule fuel refs a = Done a' -> In a (children r) ->
      forall c, occurs_in c a' -> P c).
    { intros a a' Ha Hc c Ho. eapply (Hargs [a] [a']); [constructor; [exact Ha|constructor]| |left; reflexivity|exact Ho].
      intros d [<-|[]]. exact Hc. }
    assert (Hhere : forall q, (forall d, In d (children q) -> forall c, occurs_in c d -> P c) ->
      P q -> forall c, occurs_in c q -> P c).
    { intros q Hd Hq c Ho. destruct Ho as [|q d Hc Ho]; [exact Hq|]. eapply Hd; eassumption. }
    destruct r; cbn [optimize_rule] in Hopt; cbn [children] in *;
      try (injection Hopt as <-; intros c Hc; right; exact (Hin c Hc)).
    - fold (optimize_rule fuel refs (RSelect args id)) in Hopt.
      apply (opt_select_cases fuel refs) in Hopt as (table & up & args' & Ht & Ha & ->).
      assert (Hall : forall d, In d args' -> forall c, occurs_in c d -> P c).
      { intros d Hd c Ho. eapply Hargs; [exact Ha|auto|exact Hd|exact Ho]. }
      destruct (up <? 2); [apply Hhere; [exact Hall|right; exact I]|].
      destruct (Nat.ltb_spec up (length args)) as [Hlt|Hge].
      + apply Hhere; [|left; exact I].
        intros d Hd. cbn [children] in Hd. apply in_app_or in Hd as [Hd|[<-|[]]].
        * apply Hall. eapply firstn_In. exact Hd.
        * apply Hhere; [|right; exact I]. intros e He. apply Hall. eapply skipn_In. exact He.
      + apply Hhere; [exact Hall|left; exact I].
    - destruct (map_o _ args) as [args'| |] eqn:Ha; try discriminate. injection Hopt as <-.
      apply map_o_done in Ha. apply Hhere; [|right; exact I]. intros d Hd c Ho.
      eapply Hargs; [exact Ha|auto|exact Hd|exact Ho].
    - destruct (optimize_rule fuel refs r1) as [a1| |] eqn:H1; try discriminate.
      destruct (optimize_rule fuel refs r2) as [a2| |] eqn:H2; try discriminate. injection Hopt as <-.
      apply Hhere; [|exact Hn]. intros d [<-|[<-|[]]].
      + apply (Hone _ _ H1). left. reflexivity.
      + apply (Hone _ _ H2). right. left. reflexivity.
    - destruct (optimize_rule fuel refs r) as [a| |] eqn:H1; try discriminate. injection Hopt as <-.
      apply Hhere; [|exact Hn]. intros d [<-|[]]. apply (Hone _ _ H1). left. reflexivity.
    - destruct (optimize_rule fuel refs r) as [a| |] eqn:H1; try discriminate. injection Hopt as <-.
      apply Hhere; [|exact Hn]. intros d [<-|[]]. apply (Hone _ _ H1). left. reflexivity.
    - destruct (optimize_rule fuel refs r) as [a| |] eqn:H1; try discriminate. injection Hopt as <-.
      apply Hhere; [|right; exact I]. intros d [<-|[]]. apply (Hone _ _ H1). left. reflexivity.
    - destruct (optimize_rule fuel refs r) as [a| |] eqn:H1; try discriminate. injection Hopt as <-.
      apply Hhere; [|right; exact I]. intros d [<-|[]]. apply (Hone _ _ H1). left. reflexivity.
  Qed.

  Lemma optimize_origin s s' : optimize_returns s s' -> (forall x, occurs s x -> comes_from data x) ->
    s_names s' = s_names s /\ forall x, occurs s' x -> P x.
  Proof.
    intros (fuel & H) Ho. unfold optimize in H. inv1 H. injection H as <-. split; [reflexivity|].
    intros y (top & Ht & Hy). cbn [s_rules] in Ht. apply map_o_done in Hx.
    apply (Forall2_in_r _ _ _ Hx) in Ht as (r & Hr & Hr').
    eapply optimize_rule_origin; [exact Hr'| |exact Hy].
    intros z Hz. apply Ho. exists r. split; assumption.
  Qed.
End Optimize.

(** ** Syntaxes read from a text *)

Theorem rules_origin E text s : rules_read E text (inl s) -> exists tokens,
  text_data E text tokens /\ Forall (says_string tokens (s2l "name")) (s_names s) /\
  forall x, occurs s x -> comes_from tokens x.
Proof.
  intros (fuel & H). unfold syntax_unoptimized in H. inv1 H. inv1 H. destruct x0 as [[e|] toks]; [discriminate|].
  inv1 H. destruct x0 as [[s1|] ig]; [|discriminate]. injection H as <-.
  exists toks. split; [exists x; split; exists fuel; assumption|].
  eapply convert_origin. exists fuel. eassumption.
Qed.

Theorem syntax_origin E text s : syntax_returns E text (inl s) -> exists tokens,
  text_data E text tokens /\ Forall (says_string tokens (s2l "name")) (s_names s) /\
  forall x, occurs s x -> fast_select x \/ comes_from tokens x.
Proof.
  intros (fuel & H). unfold lib_syntax in H. inv1 H. destruct x as [s0|e]; [|discriminate]. inv1 H. injection H as <-.
  destruct (rules_origin E text s0) as (toks & H1 & H2 & H3); [exists fuel; assumption|].
  exists toks. split; [exact H1|]. destruct (optimize_origin toks s0 x) as [H4 H5]; [exists fuel; assumption|exact H3|].
  rewrite H4. split; assumption.
Qed.

(** The only flag [allow_trail] that the built-in rules produce is [true]. *)
Lemma trail_true E text tokens : ext_ok E -> text_data E text tokens ->
  forall b, says_flag tokens (s2l "allow_trail") b -> b = true.
Proof.
  intros HE (boot & Hb & Hp) b (r & Hin).
  apply (success_made E HE) in Hp as (new & -> & Hm). cbn [app] in Hin.
  rewrite Forall_forall in Hm. apply Hm in Hin.
  assert (Hc : forall x, occurs boot x ->
    match x with RTag _ _ i (Some n) _ => negb (str_eqb n (s2l "allow_trail") && i) | _ => true end = true).
  { apply all_rules_spec.
    assert (H : exists b, optimize_returns bootstrap_rules b /\ forallb (all_sub (fun x =>
      match x with RTag _ _ i (Some n) _ => negb (str_eqb n (s2l "allow_trail") && i) | _ => true end)) (s_rules b) = true).
    { eexists. split; [exists 100; vm_compute; reflexivity|vm_compute; reflexivity]. }
    destruct H as (b' & H1 & H2). rewrite (optimize_returns_unique _ _ _ Hb H1). exact H2. }
  inversion Hin as [tag inverted n id p Ho|tag inverted n id p Ho| | | | | |]; subst; apply Hc in Ho; cbn in Ho;
    destruct inverted; try reflexivity; discriminate Ho.
Qed.

Theorem always_trailing E text s : ext_ok E -> syntax_returns E text (inl s) ->
  forall r by_ optional trail id, occurs s (RSeparateBy r by_ optional trail id) -> trail = true.
Proof.
  intros HE H r by_ optional trail id Ho. apply syntax_origin in H as (toks & H1 & _ & H3).
  apply H3 in Ho as [[]|[_ [->|Ho]]]; [reflexivity|]. eapply trail_true; eassumption.
Qed.
