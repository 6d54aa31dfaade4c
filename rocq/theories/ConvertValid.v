(** Whatever the data: a converted syntax is valid. *)
From Coq Require Import Ascii String List NArith Bool Arith Lia.
From Verif Require Import Base Ext Types DataSpec ParseModel ApiSpec OptimizeModel OptSpec ConvertModel
  LibModel ConvertSpec OptProofs TotalSpec SafeProofs OptTotal ConvertSound.
Import ListNotations.
Local Open Scope string_scope.
Local Open Scope list_scope.
Local Open Scope nat_scope.

Definition rules_good (s : syntax) : Prop :=
  length (s_rules s) = length (s_names s) /\ Forall unresolved (s_rules s).

Lemma node_loop_unresolved ss : forall fuel c id name rule_ ig c' name' rule' ig',
  node_loop fuel ss c id name rule_ ig = Done (c', name', rule', ig') ->
  all_unresolved rule_ -> all_unresolved rule'.
Proof.
  induction fuel as [|fuel IH]; intros c id name rule_ ig c' name' rule' ig' H Hu; [discriminate|].
  cbn [node_loop] in H. inv H.
  - exact Hu.
  - eapply IH; eassumption.
  - eapply IH; eassumption.
  - eapply IH; [exact H|]. apply some_unresolved.
    match goal with Hr : read_rule _ _ _ _ _ = Done _ |- _ => apply read_rule_sound in Hr as [_ Hr];
      exact (proj1 (Hr _ _ eq_refl)) end.
  - eapply IH; eassumption.
Qed.

Lemma nodes_loop_good ss : forall fuel c s ig s' ig',
  nodes_loop fuel ss c s ig = Done (Some s', ig') -> rules_good s -> rules_good s'.
Proof.
  induction fuel as [|fuel IH]; intros c s ig s' ig' H Hg; [discriminate|].
  cbn [nodes_loop] in H. inv1 H. destruct x as [res ig1]. destruct res as [[r [name rule_]]|].
  - inv H. eapply IH; [exact H|]. unfold read_node in Hx. inv Hx.
    destruct Hg as [H1 H2]. unfold syntax_push. split; cbn [s_rules s_names].
    + rewrite !app_length, H1. reflexivity.
    + apply Forall_app. split; [exact H2|]. constructor; [|constructor].
      match goal with Hl : node_loop _ _ _ _ _ _ _ = Done _ |- _ =>
        apply node_loop_unresolved in Hl; [|apply none_unresolved]; apply Hl; reflexivity end.
  - destruct (0 <? c_remaining c); [discriminate|]. injection H as <- <-. exact Hg.
Qed.

Lemma convert_unresolved data ig s ig' : convert_returns data ig (Some s) ig' ->
  exists s0, rules_good s0 /\ s = update_refs s0.
Proof.
  intros (fuel & H). unfold convert in H. inv1 H. destruct x as [c ss]. inv1 H. destruct x as [[s0|] ig1]; [|discriminate].
  injection H as <- <-. exists s0. split; [|reflexivity].
  eapply nodes_loop_good; [exact Hx0|]. split; [reflexivity|constructor].
Qed.

Lemma find_name_lt name names k i : find_name name names k = Some i -> i < k + length names.
Proof.
  revert k. induction names as [|n names IH]; intros k; simpl; [discriminate|].
  destruct (str_eqb name n); [intros [= <-]; lia|]. intros H. apply IH in H. lia.
Qed.

Lemma resolve_valid names r : unresolved r ->
  forall x, occurs_in x (rule_update_refs names r) -> indices_valid (length names) x.
Proof.
  induction r as [r IH] using rule_ind'. intros Hu x Hx.
  assert (Hn : no_index r) by (apply Hu, occurs_here).
  assert (Hc : forall c, In c (children r) -> unresolved c).
  { intros c Hc y Hy. apply Hu. eapply occurs_below; eassumption. }
  assert (Hmap : forall args, (forall c, In c args -> In c (children r)) ->
    forall y c, In c (map (rule_update_refs names) args) -> occurs_in y c -> indices_valid (length names) y).
  { intros args Hargs y c Hin Hy. apply in_map_iff in Hin as (c0 & <- & Hin).
    exact (IH c0 (Hargs _ Hin) (Hc c0 (Hargs _ Hin)) y Hy). }
  destruct r; cbn [rule_update_refs] in Hx; try contradiction;
    try (inversion Hx as [|? ? Hy Hz]; subst; [exact I|cbn in Hy; contradiction]).
  - inversion Hx as [|? c Hy Hz]; subst; [exact I|]. eapply (Hmap args); [auto|exact Hy|exact Hz].
  - inversion Hx as [|? c Hy Hz]; subst; [exact I|]. eapply (Hmap args); [auto|exact Hy|exact Hz].
  - inversion Hx as [|? c Hy Hz]; subst; [exact I|]. cbn [children] in *.
    destruct Hy as [<-|[<-|[]]]; refine (IH _ _ _ _ Hz); simpl; auto; apply Hc; simpl; auto.
  - inversion Hx as [|? c Hy Hz]; subst; [exact I|]. destruct Hy as [<-|[]].
    refine (IH _ _ _ _ Hz); simpl; auto; apply Hc; simpl; auto.
  - inversion Hx as [|? c Hy Hz]; subst; [exact I|]. destruct Hy as [<-|[]].
    refine (IH _ _ _ _ Hz); simpl; auto; apply Hc; simpl; auto.
  - cbn in Hn. destruct index; [contradiction|].
    inversion Hx as [|? c Hy Hz]; subst; [|contradiction].
    cbn [indices_valid]. destruct (find_name name names 0) eqn:Hf; [|exact I].
    apply find_name_lt in Hf. lia.
  - inversion Hx as [|? c Hy Hz]; subst; [exact I|]. destruct Hy as [<-|[]].
    refine (IH _ _ _ _ Hz); simpl; auto; apply Hc; simpl; auto.
  - inversion Hx as [|? c Hy Hz]; subst; [exact I|]. destruct Hy as [<-|[]].
    refine (IH _ _ _ _ Hz); simpl; auto; apply Hc; simpl; auto.
Qed.

Theorem convert_valid data ig s ig' : convert_returns data ig (Some s) ig' ->
  length (s_names s) = length (s_rules s) /\ valid s.
Proof.
  intros H. apply convert_unresolved in H as (s0 & [H1 H2] & ->). cbn [update_refs s_names s_rules].
  split; [rewrite map_length; congruence|].
  intros r (top & Ht & Ho). cbn [s_rules update_refs] in *. rewrite map_length, H1.
  apply in_map_iff in Ht as (r0 & <- & Hin). eapply resolve_valid; [|exact Ho].
  exact (proj1 (Forall_forall _ _) H2 _ Hin).
Qed.

Lemma map_o_length {A B} (f : A -> outcome B) l : forall l', map_o f l = Done l' -> length l' = length l.
Proof.
  induction l as [|x l IH]; intros l' H; cbn [map_o] in H; inv H; [reflexivity|].
  cbn [length]. f_equal. apply IH. reflexivity.
Qed.

Theorem lib_syntax_valid E fuel rules s : lib_syntax E fuel rules = Done (inl s) ->
  length (s_names s) = length (s_rules s) /\ valid s.
Proof.
  intros H. unfold lib_syntax in H. inv1 H. destruct x as [s0|e]; [|discriminate].
  inv1 H. injection H as <-.
  assert (H0 : length (s_names s0) = length (s_rules s0) /\ valid s0).
  { unfold syntax_unoptimized in Hx. inv1 Hx. inv1 Hx. destruct x1 as [[e|] toks]; [discriminate|].
    inv1 Hx. destruct x1 as [[s1|] ig]; [|discriminate]. injection Hx as <-.
    eapply convert_valid. exists fuel. eassumption. }
  destruct H0 as [H1 H2]. split.
  - unfold optimize in Hx0. inv Hx0. cbn [s_names s_rules]. apply map_o_length in Hx1. congruence.
  - eapply optimize_keeps_valid; [exact H2|]. exists fuel. exact Hx0.
Qed.
