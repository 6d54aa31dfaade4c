(** Equality of rules, syntaxes and meta data. *)
From Coq Require Import List NArith PArith ZArith Bool Arith Lia.
From Coq Require Import SpecFloat.
From Verif Require Import Base Ext Types DataSpec EqModel EqSpec OptProofs.
Import ListNotations.

Lemma option_eqb_eq {A} (f : A -> A -> bool) : (forall x y, f x y = true <-> x = y) ->
  forall a b, option_eqb f a b = true <-> a = b.
Proof.
  intros Hf [x|] [y|]; cbn; split; try discriminate; try reflexivity.
  - intros H. f_equal. apply Hf. exact H.
  - intros [= ->]. apply Hf. reflexivity.
Qed.

Lemma list_eqb_eq {A} (f : A -> A -> bool) l : (forall x, In x l -> forall y, f x y = true <-> x = y) ->
  forall m, list_eqb f l m = true <-> l = m.
Proof.
  induction l as [|x l IH]; intros Hf [|y m]; cbn; split; try discriminate; try reflexivity.
  - intros H. apply andb_prop in H as [H1 H2]. f_equal; [apply Hf; [left; reflexivity|exact H1]|].
    apply IH; [intros z Hz; apply Hf; right; exact Hz|exact H2].
  - intros [= <- <-]. apply andb_true_intro. split; [apply Hf; [left; reflexivity|reflexivity]|].
    apply IH; [intros z Hz; apply Hf; right; exact Hz|reflexivity].
Qed.

Lemma list_eqb_refl {A} (f : A -> A -> bool) (P : A -> Prop) l : (forall x, In x l -> f x x = true -> P x) ->
  list_eqb f l l = true -> Forall P l.
Proof.
  induction l as [|x l IH]; intros Hf H; cbn in H; constructor.
  - apply andb_prop in H as [H _]. apply Hf; [left; reflexivity|exact H].
  - apply andb_prop in H as [_ H]. apply IH; [|exact H]. intros y Hy. apply Hf. right. exact Hy.
Qed.

Ltac ands := repeat match goal with H : _ && _ = true |- _ => apply andb_prop in H as [? ?] end.
Ltac eqs := repeat match goal with
  | H : N.eqb _ _ = true |- _ => apply N.eqb_eq in H
  | H : Bool.eqb _ _ = true |- _ => apply Bool.eqb_prop in H
  | H : str_eqb _ _ = true |- _ => apply str_eqb_eq in H
  | H : option_eqb str_eqb _ _ = true |- _ => apply (option_eqb_eq _ str_eqb_eq) in H
  | H : option_eqb Nat.eqb _ _ = true |- _ => apply (option_eqb_eq _ Nat.eqb_eq) in H
  end.

(** Equal rules are the same rule. *)
Lemma rule_eqb_same r : forall r', rule_eqb r r' = true -> r = r'.
Proof.
  induction r as [r IH] using rule_ind'. intros r' H.
  assert (Hargs : forall l m, (forall c, In c l -> In c (children r)) -> list_eqb rule_eqb l m = true -> l = m).
  { induction l as [|x l IHl]; intros [|y m] Hl Hm; cbn in Hm; try discriminate; [reflexivity|].
    apply andb_prop in Hm as [H1 H2]. f_equal.
    - apply IH; [apply Hl; left; reflexivity|exact H1].
    - apply IHl; [intros c Hc; apply Hl; right; exact Hc|exact H2]. }
  destruct r, r'; cbn [rule_eqb] in H; try discriminate; ands; eqs; subst; f_equal; auto;
    try (apply Hargs; [cbn; auto|assumption]); apply IH; cbn; auto.
Qed.

Lemma rule_eqb_refl r : rule_eqb r r = true <-> no_fast r.
Proof.
  induction r as [r IH] using rule_ind'.
  assert (Hb : forall b, Bool.eqb b b = true) by (intros []; reflexivity).
  assert (Hs : forall s, str_eqb s s = true) by (intros s; apply str_eqb_eq; reflexivity).
  assert (Ho : forall p, option_eqb str_eqb p p = true) by (intros p; apply (option_eqb_eq _ str_eqb_eq); reflexivity).
  assert (Hk : forall p, option_eqb Nat.eqb p p = true) by (intros p; apply (option_eqb_eq _ Nat.eqb_eq); reflexivity).
  assert (Hl : forall l, (forall c, In c l -> In c (children r)) ->
    (list_eqb rule_eqb l l = true <-> forall c, In c l -> no_fast c)).
  { induction l as [|x l IHl]; intros Hc; cbn [list_eqb].
    - split; [intros _ c []|reflexivity].
    - rewrite andb_true_iff, (IH x (Hc x (or_introl eq_refl))), IHl by (intros c H; apply Hc; right; exact H).
      split; [intros [H1 H2] c [<-|H]; auto|]. intros H. split; [apply H; left; reflexivity|].
      intros c H'. apply H. right. exact H'. }
  assert (Hleaf : children r = [] -> (forall t a l i, r <> RFastSelect t a l i) -> no_fast r).
  { intros Hc Hf t a l i H. inversion H as [|r0 c Hin Hx]; subst; [eapply Hf; reflexivity|]. rewrite Hc in Hin. destruct Hin. }
  assert (Hnode : (forall t a l i, r <> RFastSelect t a l i) -> ((forall c, In c (children r) -> no_fast c) <-> no_fast r)).
  { intros Hf. split.
    - intros Hc t a l i H. inversion H as [|r0 c Hin Hx]; subst; [eapply Hf; reflexivity|]. eapply Hc; eassumption.
    - intros Hn c Hc t a l i H. apply (Hn t a l i). eapply occurs_below; eassumption. }
  destruct r; cbn [rule_eqb]; rewrite ?N.eqb_refl, ?Hb, ?Hs, ?Ho, ?Hk, ?andb_true_r; cbn [andb];
    try (split; [intros _; apply Hleaf; [reflexivity|congruence]|reflexivity]);
    try (rewrite <- Hnode by congruence; cbn [children]; apply Hl; cbn; auto; fail).
  - split; [discriminate|]. intros H. exfalso. apply (H table args tail id). apply occurs_here.
  - rewrite <- Hnode by congruence. cbn [children]. rewrite andb_true_iff.
    rewrite (IH r1), (IH r2) by (cbn; auto). split; [intros [H1 H2] c [<-|[<-|[]]]; assumption|].
    intros H. split; apply H; cbn; auto.
  - rewrite <- Hnode by congruence. cbn [children]. rewrite (IH r) by (cbn; auto).
    split; [intros H c [<-|[]]; assumption|]. intros H. apply H. cbn; auto.
  - rewrite <- Hnode by congruence. cbn [children]. rewrite (IH r) by (cbn; auto).
    split; [intros H c [<-|[]]; assumption|]. intros H. apply H. cbn; auto.
  - rewrite <- Hnode by congruence. cbn [children]. rewrite (IH r) by (cbn; auto).
    split; [intros H c [<-|[]]; assumption|]. intros H. apply H. cbn; auto.
  - rewrite <- Hnode by congruence. cbn [children]. rewrite (IH r) by (cbn; auto).
    split; [intros H c [<-|[]]; assumption|]. intros H. apply H. cbn; auto.
Qed.

Lemma rule_eqb_spec r r' : rule_eqb r r' = true <-> r = r' /\ no_fast r.
Proof.
  split.
  - intros H. apply rule_eqb_same in H as H'. subst r'. split; [reflexivity|]. apply rule_eqb_refl. exact H.
  - intros [<- H]. apply rule_eqb_refl. exact H.
Qed.

Lemma rules_eqb_spec l m : list_eqb rule_eqb l m = true <-> l = m /\ Forall no_fast l.
Proof.
  revert m. induction l as [|x l IH]; intros [|y m]; cbn [list_eqb]; split; try discriminate.
  - auto.
  - reflexivity.
  - intros [H _]. discriminate.
  - intros [H _]. discriminate.
  - rewrite andb_true_iff, rule_eqb_spec, IH. intros [[-> H1] [-> H2]]. auto.
  - intros [[= <- <-] H]. inversion H; subst. rewrite andb_true_iff, rule_eqb_spec, IH. auto.
Qed.

Lemma syntax_eqb_spec s s' : syntax_eqb s s' = true <->
  s = s' /\ forall table args tail id, ~ occurs s (RFastSelect table args tail id).
Proof.
  unfold syntax_eqb. rewrite andb_true_iff, rules_eqb_spec.
  rewrite (list_eqb_eq str_eqb) by (intros x _; apply str_eqb_eq).
  destruct s as [l n], s' as [l' n']. cbn [s_rules s_names]. split.
  - intros [[-> H] ->]. split; [reflexivity|]. intros t a b i (top & Ht & Ho).
    rewrite Forall_forall in H. exact (H _ Ht _ _ _ _ Ho).
  - intros [[= -> ->] H]. split; [|reflexivity]. split; [reflexivity|]. apply Forall_forall.
    intros r Hr t a b i Ho. apply (H t a b i). exists r. split; [exact Hr|exact Ho].
Qed.

Lemma f64_eqb_spec x y : f64_eqb x y = true <-> same_number x y.
Proof.
  unfold f64_eqb, SFeqb, same_number.
  destruct x as [s|s| |s m e], y as [s'|s'| |s' m' e']; cbn; try (destruct s); try (destruct s');
    cbn; try tauto; try (split; [discriminate|congruence]); try (split; [intros _; exact I|reflexivity]);
    try (split; reflexivity); try (split; [discriminate|contradiction]).
  - destruct (e ?= e')%Z eqn:He; cbn; try (split; [discriminate|intros [= _ ->]; rewrite Z.compare_refl in He; discriminate]).
    apply Z.compare_eq in He. subst e'. destruct (Pcompare m m' Eq) eqn:Hm; cbn;
      try (split; [discriminate|intros [= ->]; rewrite Pos.compare_cont_refl in Hm; discriminate]).
    apply Pos.compare_eq in Hm. subst m'. split; reflexivity.
  - destruct (e ?= e')%Z eqn:He; cbn; try (split; [discriminate|intros [= _ ->]; rewrite Z.compare_refl in He; discriminate]).
    apply Z.compare_eq in He. subst e'. destruct (Pcompare m m' Eq) eqn:Hm; cbn;
      try (split; [discriminate|intros [= ->]; rewrite Pos.compare_cont_refl in Hm; discriminate]).
    apply Pos.compare_eq in Hm. subst m'. split; reflexivity.
Qed.

Lemma metadata_eqb_spec a b : metadata_eqb a b = true <-> same_data a b.
Proof.
  destruct a, b; cbn [metadata_eqb same_data]; try (split; [discriminate|congruence]);
    rewrite ?andb_true_iff, ?str_eqb_eq, ?f64_eqb_spec.
  - split; congruence.
  - split; congruence.
  - split; [intros [-> H]; apply Bool.eqb_prop in H; congruence|].
    intros [= -> ->]. split; [reflexivity|apply Bool.eqb_reflx].
  - tauto.
  - split; [intros [-> ->]; reflexivity|]. intros [= -> ->]. auto.
Qed.

Lemma tok_eqb_spec a b : tok_eqb a b = true <-> same_tok a b.
Proof.
  unfold tok_eqb, same_tok. rewrite !andb_true_iff, !Nat.eqb_eq, metadata_eqb_spec.
  destruct a as [[o l] m], b as [[o' l'] m']. cbn. split.
  - intros [[-> ->] H]. auto.
  - intros [[= -> ->] H]. auto.
Qed.

Lemma tokens_eqb_spec l m : list_eqb tok_eqb l m = true <-> Forall2 same_tok l m.
Proof.
  revert m. induction l as [|x l IH]; intros [|y m]; cbn [list_eqb]; split; intros H; try discriminate; try constructor;
    try (inversion H; fail).
  - apply andb_prop in H as [H _]. apply tok_eqb_spec. exact H.
  - apply andb_prop in H as [_ H]. apply IH. exact H.
  - inversion H; subst. rewrite andb_true_iff, tok_eqb_spec, IH. auto.
Qed.
