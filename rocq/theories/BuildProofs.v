(** Proofs about syntaxes built step by step. *)
From Coq Require Import Ascii String List NArith Bool Arith Lia.
From Verif Require Import Base Ext Types ParseModel OptimizeModel DataSpec OptSpec PegFacts FuelProofs OptProofs OptProofs2 SyntaxProofs SimProofs BuildSpec.
Import ListNotations.
Local Open Scope list_scope.
Local Open Scope nat_scope.

(** ** Optimisation of syntaxes some of whose rules are optimised already *)

Section Parts.
  Variable F : nat.
  Variables refs refs' : list rule.
  Hypothesis Hrefs : Forall2 (fun r r' => r' = r \/ optimize_rule F refs r = Done r') refs refs'.

  Ltac binds H := repeat match type of H with
    | obind ?e _ = Done _ => let Hx := fresh "Hx" in destruct e eqn:Hx; try discriminate; cbn [obind] in H
    end.

  Lemma byte_parts f : forall r r', r' = r \/ optimize_rule F refs r = Done r' -> unique_byte f refs' r' = unique_byte f refs r.
  Proof.
    induction f as [|f IH]; intros r r' Ho; [reflexivity|].
    assert (Href : forall i, match nth_error refs' i with Some r1 => unique_byte f refs' r1 | None => Panic end =
                             match nth_error refs i with Some r1 => unique_byte f refs r1 | None => Panic end).
    { intros i. pose proof (Forall2_nth _ _ _ i Hrefs) as Hi.
      destruct (nth_error refs i), (nth_error refs' i); try contradiction; [|reflexivity]. apply IH. exact Hi. }
    destruct Ho as [->|Ho].
    { destruct r; cbn [unique_byte]; try reflexivity.
      - destruct args as [|a [|b args]]; try reflexivity. apply IH. left. reflexivity.
      - destruct args as [|a args]; try reflexivity. apply IH. left. reflexivity.
      - destruct optional; [reflexivity|]. apply IH. left. reflexivity.
      - destruct optional; [reflexivity|]. apply IH. left. reflexivity.
      - destruct index as [i|]; [|reflexivity]. apply Href.
      - destruct r; try reflexivity. apply IH. left. reflexivity. }
    destruct r; try (cbn [optimize_rule] in Ho; binds Ho; injection Ho as <-;
                     cbn [unique_byte]; reflexivity).
    - apply opt_select_cases in Ho as (table & up & args' & Ht & Ha & ->).
      apply table_public in Ht as (_ & _ & Hup & _).
      destruct Ha as [|a a' rest rest' Ha Hr].
      + simpl in Hup. replace up with 0 by lia. reflexivity.
      + destruct Hr as [|b b' rest rest' Hb Hr].
        * simpl in Hup. destruct up as [|[|up]]; [| |lia]; cbn; apply IH; right; exact Ha.
        * destruct (up <? 2); [reflexivity|]. destruct (up <? _); reflexivity.
    - cbn [optimize_rule] in Ho. binds Ho. injection Ho as <-. apply map_o_done in Hx.
      cbn [unique_byte]. destruct Hx as [|a a' rest rest' Ha _]; [reflexivity|]. apply IH. right. exact Ha.
    - cbn [optimize_rule] in Ho. binds Ho. injection Ho as <-.
      cbn [unique_byte]. destruct optional; [reflexivity|]. apply IH. right. assumption.
    - cbn [optimize_rule] in Ho. binds Ho. injection Ho as <-.
      cbn [unique_byte]. destruct optional; [reflexivity|]. apply IH. right. assumption.
    - injection Ho as <-. cbn [unique_byte]. destruct index as [i|]; [|reflexivity]. apply Href.
    - cbn [optimize_rule] in Ho. binds Ho. injection Ho as <-. cbn [unique_byte].
      destruct r; try (cbn [optimize_rule] in Hx; binds Hx; injection Hx as <-; reflexivity).
      + apply opt_select_cases in Hx as (table & up & args' & Ht & Ha & ->).
        destruct (up <? 2); [reflexivity|]. destruct (up <? _); reflexivity.
      + cbn [optimize_rule] in Hx. binds Hx. injection Hx as <-. apply IH. right. assumption.
  Qed.

  Lemma loop_parts args args' : Forall2 (fun r r' => r' = r \/ optimize_rule F refs r = Done r') args args' ->
    forall f i data up, unique_loop f refs' args' i data up = unique_loop f refs args i data up.
  Proof.
    induction 1 as [|a a' l l' Ha _ IH]; intros f i data up; [reflexivity|].
    cbn [unique_loop]. destruct (255 <=? i); [reflexivity|].
    rewrite (byte_parts f _ _ Ha). destruct (unique_byte f refs a) as [[b|]| |]; try reflexivity.
    cbn [obind]. destruct (nth_error data _); [|reflexivity]. destruct (Nat.eqb _ _); [|reflexivity].
    apply IH.
  Qed.

  Lemma same_all (l : list rule) : Forall2 (fun r r' => r' = r \/ optimize_rule F refs r = Done r') l l.
  Proof. induction l; constructor; auto. Qed.

  Lemma map_o_ext {A B} (f g : A -> outcome B) l : (forall x, In x l -> f x = g x) -> map_o f l = map_o g l.
  Proof.
    induction l as [|x l IH]; intros H; [reflexivity|]. simpl. rewrite (H x) by (left; reflexivity).
    rewrite IH; [reflexivity|]. intros y Hy. apply H. right. exact Hy.
  Qed.

  (** A rule that is not optimised yet, *)
  Lemma optimize_fresh f r : optimize_rule f refs' r = optimize_rule f refs r.
  Proof.
    induction r as [r IH] using rule_ind'. destruct r; cbn [optimize_rule]; try reflexivity;
      try (rewrite IH by (simpl; auto); reflexivity).
    - unfold unique_table_from_select. rewrite (loop_parts _ _ (same_all args)).
      rewrite (map_o_ext _ (optimize_rule f refs) args) by (intros; apply IH; assumption). reflexivity.
    - rewrite (map_o_ext _ (optimize_rule f refs) args) by (intros; apply IH; assumption). reflexivity.
    - rewrite (IH r1) by (simpl; auto). rewrite (IH r2) by (simpl; auto). reflexivity.
  Qed.

  (** and one that is. *)
  Lemma optimize_done r : forall r', optimize_rule F refs r = Done r' -> optimize_rule F refs' r' = Done r'.
  Proof.
    induction r as [r IH] using rule_ind'. intros r' Ho.
    assert (Hargs : forall args, (forall c, In c args -> In c (children r)) ->
      forall args', Forall2 (fun r r' => optimize_rule F refs r = Done r') args args' ->
      map_o (optimize_rule F refs') args' = Done args').
    { intros args Hin args' HF. apply map_o_make.
      induction HF as [|a a' l l' Ha _ IHl]; constructor.
      - eapply IH; [|exact Ha]. apply Hin. left. reflexivity.
      - apply IHl. intros c Hc. apply Hin. right. exact Hc. }
    destruct r; try (cbn [optimize_rule] in Ho; injection Ho as <-; reflexivity);
      try (cbn [optimize_rule] in Ho; binds Ho; injection Ho as <-;
           cbn [optimize_rule]; erewrite IH by (simpl; eauto; fail); reflexivity).
    - apply opt_select_cases in Ho as (table & up & args' & Ht & Ha & ->).
      destruct (up <? 2) eqn:Hup; [|destruct (up <? length args); reflexivity].
      assert (Ha' : Forall2 (fun r r' => r' = r \/ optimize_rule F refs r = Done r') args args').
      { clear - Ha. induction Ha; constructor; auto. }
      cbn [optimize_rule]. unfold unique_table_from_select in *.
      rewrite (loop_parts _ _ Ha'), Ht. cbn [obind].
      rewrite (Hargs args (fun c H => H) _ Ha). cbn [obind]. rewrite Hup. reflexivity.
    - cbn [optimize_rule] in Ho. binds Ho. injection Ho as <-. apply map_o_done in Hx.
      cbn [optimize_rule]. rewrite (Hargs args (fun c H => H) _ Hx). reflexivity.
    - cbn [optimize_rule] in Ho. binds Ho. injection Ho as <-. cbn [optimize_rule].
      rewrite (IH r1) by (simpl; auto). cbn [obind]. rewrite (IH r2) by (simpl; auto). reflexivity.
  Qed.

  Lemma optimize_parts f : F <= f -> forall l l', Forall2 (fun r r' => r' = r \/ optimize_rule F refs r = Done r') l l' ->
    map_o (optimize_rule f refs') l' = map_o (optimize_rule f refs) l.
  Proof.
    intros Hf. induction 1 as [|r r' l l' Hr _ IH]; [reflexivity|]. cbn.
    assert (He : optimize_rule f refs' r' = optimize_rule f refs r).
    { destruct Hr as [->|Hr]; [apply optimize_fresh|].
      destruct (optimize_rule_mono refs F f r Hf) as [H|H]; [congruence|]. rewrite <- H, Hr.
      apply optimize_done in Hr. destruct (optimize_rule_mono refs' F f r' Hf) as [H'|H']; [congruence|]. rewrite <- H'. exact Hr. }
    change (map_o (optimize_rule f refs') l' = map_o (optimize_rule f refs) l) in IH.
    rewrite He. fold (map_o (optimize_rule f refs')). rewrite IH. reflexivity.
  Qed.
End Parts.

Lemma optimize_returns_parts F refs refs' names s' :
  Forall2 (fun r r' => r' = r \/ optimize_rule F refs r = Done r') refs refs' ->
  optimize_returns (Syn refs' names) s' <-> optimize_returns (Syn refs names) s'.
Proof.
  intros H. assert (He : forall f, F <= f -> optimize f (Syn refs' names) = optimize f (Syn refs names)).
  { intros f Hf. unfold optimize. cbn [s_rules s_names]. rewrite (optimize_parts F refs refs' H f Hf _ _ H). reflexivity. }
  split; intros (f & Hf); exists (Nat.max F f).
  - rewrite <- He by lia. destruct (optimize_mono f (Nat.max F f) (Syn refs' names) ltac:(lia)) as [Hm|Hm]; congruence.
  - rewrite He by lia. destruct (optimize_mono f (Nat.max F f) (Syn refs names) ltac:(lia)) as [Hm|Hm]; congruence.
Qed.

(** ** More rules behind *)

Lemma byte_more refs more f : forall r b, unique_byte f refs r = Done b -> unique_byte f (refs ++ more) r = Done b.
Proof.
  induction f as [|f IH]; intros r b H; [discriminate|]. destruct r; cbn [unique_byte] in *; try exact H.
  - destruct args as [|a [|c args]]; try exact H. apply IH. exact H.
  - destruct args as [|a args]; try exact H. apply IH. exact H.
  - destruct optional; [exact H|]. apply IH. exact H.
  - destruct optional; [exact H|]. apply IH. exact H.
  - destruct index as [i|]; [|exact H]. destruct (nth_error refs i) as [r1|] eqn:Hn; [|discriminate].
    rewrite nth_error_app1 by (apply nth_error_Some; congruence). rewrite Hn. apply IH. exact H.
  - destruct r; try exact H. apply IH. exact H.
Qed.

Lemma loop_more refs more f args : forall i data up x, unique_loop f refs args i data up = Done x ->
  unique_loop f (refs ++ more) args i data up = Done x.
Proof.
  induction args as [|a args IH]; intros i data up x H; [exact H|]. cbn [unique_loop] in *. destruct (255 <=? i); [exact H|].
  destruct (unique_byte f refs a) as [b| |] eqn:Hb; try discriminate. rewrite (byte_more _ _ _ _ _ Hb). cbn [obind] in *.
  destruct b as [b|]; [|exact H]. destruct (nth_error data _); [|discriminate]. destruct (Nat.eqb _ _); [|exact H]. apply IH. exact H.
Qed.

Lemma optimize_rule_more refs more f r : forall r', optimize_rule f refs r = Done r' -> optimize_rule f (refs ++ more) r = Done r'.
Proof.
  induction r as [r IH] using rule_ind'. intros r' H.
  assert (Hargs : forall args, (forall c, In c args -> In c (children r)) -> forall args',
    map_o (optimize_rule f refs) args = Done args' -> map_o (optimize_rule f (refs ++ more)) args = Done args').
  { intros args Hin args' Ha. apply map_o_done in Ha. apply map_o_make. revert Hin. induction Ha as [|a a' l l' Ha _ IHl]; intros Hin; constructor.
    - apply IH; [|exact Ha]. apply Hin. left. reflexivity.
    - apply IHl. intros c Hc. apply Hin. right. exact Hc. }
  destruct r; cbn [optimize_rule] in *; try exact H;
    try (match type of H with obind (optimize_rule f refs ?x) _ = _ => 
      destruct (optimize_rule f refs x) as [x'| |] eqn:Hx; try discriminate; rewrite (IH x) with (r' := x') by (simpl; auto); exact H end).
  - destruct (unique_table_from_select f refs args) as [[t up]| |] eqn:Ht; try discriminate.
    unfold unique_table_from_select in *. rewrite (loop_more _ _ _ _ _ _ _ _ Ht). cbn [obind] in *.
    destruct (map_o (optimize_rule f refs) args) as [args'| |] eqn:Ha; try discriminate. rewrite (Hargs args (fun c Hc => Hc) _ Ha). exact H.
  - destruct (map_o (optimize_rule f refs) args) as [args'| |] eqn:Ha; try discriminate. rewrite (Hargs args (fun c Hc => Hc) _ Ha). exact H.
  - destruct (optimize_rule f refs r1) as [x1| |] eqn:H1; try discriminate. rewrite (IH r1) with (r' := x1) by (simpl; auto).
    cbn [obind] in *. destruct (optimize_rule f refs r2) as [x2| |] eqn:H2; try discriminate. rewrite (IH r2) with (r' := x2) by (simpl; auto). exact H.
Qed.

(** ** References *)

Notation upd := rule_update_refs.

Definition closed (r : rule) : Prop := forall name property id, ~ occurs_in (RNode name property None id) r.

Lemma closed_below r c : closed r -> In c (children r) -> closed c.
Proof. intros H Hc name property id Ho. apply (H name property id). eapply occurs_below; eassumption. Qed.

Lemma closed_all r : (forall name property id, r <> RNode name property None id) -> (forall c, In c (children r) -> closed c) -> closed r.
Proof.
  intros Hr Hc name property id Ho. inversion Ho as [Hx|r' c Hin Hx]; subst; [exact (Hr _ _ _ eq_refl)|]. exact (Hc c Hin _ _ _ Hx).
Qed.

Lemma closed_upd names r : closed r -> upd names r = r.
Proof.
  induction r as [r IH] using rule_ind'. intros H.
  assert (Hc : forall c, In c (children r) -> upd names c = c) by (intros c Hc; apply IH; [exact Hc|eapply closed_below; eassumption]).
  destruct r; cbn [rule_update_refs children] in *; try reflexivity; f_equal;
    try (apply Hc; simpl; auto);
    try (rewrite <- (map_id args) at 2; apply map_ext_in; exact Hc).
  destruct index; [reflexivity|]. exfalso. eapply H. apply occurs_here.
Qed.

Lemma find_more name ns : forall ms k i, find_name name ns k = Some i -> find_name name (ns ++ ms) k = Some i.
Proof.
  induction ns as [|n ns IH]; intros ms k i H; [discriminate|]. cbn in *. destruct (str_eqb name n); [exact H|]. apply IH. exact H.
Qed.

Lemma upd_more ns ms r : upd (ns ++ ms) (upd ns r) = upd (ns ++ ms) r.
Proof.
  induction r as [r IH] using rule_ind'. destruct r; cbn [rule_update_refs children] in *; try reflexivity; f_equal;
    try (apply IH; simpl; auto); try (rewrite map_map; apply map_ext_in; exact IH).
  destruct index; [reflexivity|]. cbn [rule_update_refs]. destruct (find_name name ns 0) as [i|] eqn:Hf; [|reflexivity].
  cbn [rule_update_refs]. rewrite (find_more _ _ _ _ _ Hf). reflexivity.
Qed.

Lemma upd_again ns r : upd ns (upd ns r) = upd ns r.
Proof. apply update_refs_again. Qed.

Lemma closed_opt f refs r : closed r -> forall r', optimize_rule f refs r = Done r' -> closed r'.
Proof.
  induction r as [r IH] using rule_ind'. intros H r' Ho.
  assert (Hc : forall c c', In c (children r) -> optimize_rule f refs c = Done c' -> closed c').
  { intros c c' Hc Hx. eapply IH; [exact Hc|eapply closed_below; eassumption|exact Hx]. }
  assert (Hargs : forall args, (forall c, In c args -> In c (children r)) -> forall args',
    Forall2 (fun r r' => optimize_rule f refs r = Done r') args args' -> forall c, In c args' -> closed c).
  { intros args Hin args' HF. induction HF as [|a a' l l' Ha _ IHl]; intros c Hx; [destruct Hx|]. destruct Hx as [<-|Hx].
    - eapply Hc; [|exact Ha]. apply Hin. left. reflexivity.
    - apply IHl; [|exact Hx]. intros d Hd. apply Hin. right. exact Hd. }
  destruct r; try (cbn [optimize_rule] in Ho; injection Ho as <-; exact H);
    try (cbn [optimize_rule] in Ho;
      match type of Ho with obind (optimize_rule f refs ?x) _ = _ => destruct (optimize_rule f refs x) as [x'| |] eqn:Hx; try discriminate end;
      injection Ho as <-; apply closed_all; [discriminate|]; intros c [<-|[]]; eapply Hc; [|exact Hx]; simpl; auto; fail).
  - apply opt_select_cases in Ho as (table & up & args' & Ht & Ha & ->). pose proof (Hargs args (fun c Hc => Hc) _ Ha) as Hall.
    destruct (up <? 2); [apply closed_all; [discriminate|exact Hall]|]. destruct (up <? length args); apply closed_all; try discriminate; try exact Hall.
    cbn [children]. intros c Hin. apply in_app_iff in Hin as [Hin|[<-|[]]].
    + apply Hall. rewrite <- (firstn_skipn up args'). apply in_app_iff. left. exact Hin.
    + apply closed_all; [discriminate|]. cbn [children]. intros d Hd. apply Hall. rewrite <- (firstn_skipn up args'). apply in_app_iff. right. exact Hd.
  - cbn [optimize_rule] in Ho. destruct (map_o _ args) as [args'| |] eqn:Ha; try discriminate. injection Ho as <-. apply map_o_done in Ha.
    apply closed_all; [discriminate|]. exact (Hargs args (fun c Hc => Hc) _ Ha).
  - cbn [optimize_rule] in Ho. destruct (optimize_rule f refs r1) as [x1| |] eqn:H1; try discriminate. cbn [obind] in Ho.
    destruct (optimize_rule f refs r2) as [x2| |] eqn:H2; try discriminate. injection Ho as <-.
    apply closed_all; [discriminate|]. intros c [<-|[<-|[]]]; [apply (Hc r1)|apply (Hc r2)]; simpl; auto.
Qed.

(** ** The invariant *)

Lemma Forall2_weaken {A B} (P Q : A -> B -> Prop) l l' : (forall a b, P a b -> Q a b) -> Forall2 P l l' -> Forall2 Q l l'.
Proof. intros H. induction 1; constructor; auto. Qed.


Definition resolved_rules (l : list (str * rule)) : list rule := map (upd (map fst l)) (map snd l).

Definition known (l : list (str * rule)) (r0 r : rule) : Prop :=
  (forall ms, upd (map fst l ++ ms) r = upd (map fst l ++ ms) r0) \/
  (exists l1 l2 f, l = l1 ++ l2 /\ Forall closed (resolved_rules l1) /\ closed (upd (map fst l1) r0) /\
     optimize_rule f (resolved_rules l1) (upd (map fst l1) r0) = Done r).

Lemma upd_closed_more ns ms r : closed (upd ns r) -> upd (ns ++ ms) r = upd ns r.
Proof. intros H. rewrite <- upd_more. apply closed_upd. exact H. Qed.

Lemma resolved_more l1 l2 : Forall closed (resolved_rules l1) -> exists more, resolved_rules (l1 ++ l2) = resolved_rules l1 ++ more.
Proof.
  intros H. exists (map (upd (map fst (l1 ++ l2))) (map snd l2)). unfold resolved_rules in *. rewrite (map_app snd), (map_app (upd _)). f_equal.
  rewrite map_app. apply map_ext_in. intros r Hr. apply upd_closed_more. rewrite Forall_forall in H. apply H. apply in_map. exact Hr.
Qed.

(** What the rules of the syntax are to the rules that were pushed. *)
Lemma known_parts l rs : Forall2 (known l) (map snd l) rs ->
  exists F, Forall2 (fun r r' => r' = r \/ optimize_rule F (resolved_rules l) r = Done r') (resolved_rules l) (map (upd (map fst l)) rs).
Proof.
  intros H. unfold resolved_rules at 2. set (l0 := map snd l) in *. clearbody l0. induction H as [|r0 r l0 rs Hr _ (F & IH)]; [exists 0; constructor|].
  destruct Hr as [Hr|(l1 & l2 & f & He & Hcl & Hc & Ho)].
  - exists F. cbn. constructor; [|exact IH]. left. specialize (Hr []). rewrite app_nil_r in Hr. exact Hr.
  - exists (Nat.max f F). cbn. constructor.
    + right. destruct (resolved_more l1 l2 Hcl) as (more & Hm). subst l. rewrite Hm. rewrite map_app.
      rewrite (closed_upd (map fst l1 ++ map fst l2) r) by (eapply closed_opt; eassumption). rewrite (upd_closed_more _ _ _ Hc).
      apply optimize_rule_more. destruct (optimize_rule_mono (resolved_rules l1) f (Nat.max f F) (upd (map fst l1) r0) ltac:(lia)) as [Hx|Hx]; congruence.
    + eapply Forall2_weaken; [|exact IH]. cbn. intros a b [->|Hab]; [left; reflexivity|]. right.
      destruct (optimize_rule_mono (resolved_rules l) F (Nat.max f F) a ltac:(lia)) as [Hx|Hx]; congruence.
Qed.

Lemma built_known s l : built s l -> s_names s = map fst l /\ Forall2 (known l) (map snd l) (s_rules s).
Proof.
  induction 1 as [|s l name r _ [Hn H]|s l _ [Hn H]|s l s' _ [Hn H] Hall Hopt].
  - split; [reflexivity|constructor].
  - split; [cbn; rewrite Hn, map_app; reflexivity|]. cbn. rewrite map_app. apply Forall2_app.
    + eapply Forall2_weaken; [|exact H]. intros r0 r1 [Hr|(l1 & l2 & f & -> & Hx)].
      * left. intros ms. rewrite map_app, <- app_assoc. apply Hr.
      * right. exists l1, (l2 ++ [(name, r)]), f. rewrite <- app_assoc. split; [reflexivity|exact Hx].
    + constructor; [|constructor]. left. reflexivity.
  - split; [exact Hn|]. cbn. rewrite Hn. clear Hn. induction H as [|r0 r1 l0 rs Hr _ IH]; [constructor|]. cbn. constructor; [|exact IH].
    destruct Hr as [Hr|(l1 & l2 & f & He & Hcl & Hc & Ho)].
    + left. intros ms. rewrite upd_more. apply Hr.
    + right. exists l1, l2, f. rewrite (closed_upd _ r1) by (eapply closed_opt; eassumption). auto.
  - destruct Hopt as (f & Hf). apply optimize_inv in Hf as [Hn' Hf]. split; [congruence|].
    assert (Hcl : Forall closed (s_rules s)).
    { apply Forall_forall. intros r Hr name property id Ho. apply (Hall name property id). exists r. split; assumption. }
    assert (Hres : Forall closed (resolved_rules l)).
    { unfold resolved_rules. set (l0 := map snd l) in *. clearbody l0. clear Hf Hall. remember (s_rules s) as rs eqn:Hrs. clear Hrs Hn Hn'. induction H as [|r0 r1 l0 rs Hr _ IH]; [constructor|]. cbn.
      inversion Hcl as [|x y Hx Hy]; subst. constructor; [|apply IH; exact Hy].
      destruct Hr as [Hr|(l1 & l2 & g & -> & _ & Hc & _)].
      - specialize (Hr []). rewrite app_nil_r in Hr. rewrite <- Hr. rewrite (closed_upd _ r1 Hx). exact Hx.
      - rewrite map_app. rewrite (upd_closed_more _ _ _ Hc). exact Hc. }
    destruct (known_parts l (s_rules s) H) as (F & HF).
    assert (Hid : map (upd (map fst l)) (s_rules s) = s_rules s).
    { rewrite <- (map_id (s_rules s)) at 2. apply map_ext_in. intros r Hr. apply closed_upd. rewrite Forall_forall in Hcl. apply Hcl. exact Hr. }
    rewrite Hid in HF. set (g := Nat.max F f).
    assert (Hg : map_o (optimize_rule g (resolved_rules l)) (resolved_rules l) = Done (s_rules s')).
    { rewrite <- (optimize_parts F _ _ HF g ltac:(unfold g; lia) _ _ HF). apply map_o_make. eapply Forall2_weaken; [|exact Hf]. cbn. intros a b Hab.
      destruct (optimize_rule_mono (s_rules s) f g a ltac:(unfold g; lia)) as [Hx|Hx]; congruence. }
    apply map_o_done in Hg. clear HF Hid Hf Hall Hn Hn' H Hcl.
    assert (Hk : forall l0 rs, Forall closed (map (upd (map fst l)) l0) ->
      Forall2 (fun x y => optimize_rule g (resolved_rules l) x = Done y) (map (upd (map fst l)) l0) rs -> Forall2 (known l) l0 rs).
    { induction l0 as [|r0 l0 IH]; intros rs Hc Hrs; inversion Hrs as [|x y xs ys Hx Hxs]; subst; constructor.
      - right. exists l, [], g. rewrite app_nil_r. inversion Hc; subst. auto.
      - apply IH; [|exact Hxs]. inversion Hc; subst; assumption. }
    apply Hk; [exact Hres|exact Hg].
Qed.

Theorem built_same s l : built s l -> forall s', optimize_returns (update_refs s) s' <-> optimize_returns (update_refs (pushed l)) s'.
Proof.
  intros H s'. destruct (built_known s l H) as [Hn Hk]. destruct (known_parts l _ Hk) as (F & HF).
  unfold update_refs, pushed. cbn [s_rules s_names]. rewrite Hn. exact (optimize_returns_parts F _ _ (map fst l) s' HF).
Qed.

Theorem resolve_early s rs ns :
  update_refs (Syn (s_rules (update_refs s) ++ rs) (s_names s ++ ns)) = update_refs (Syn (s_rules s ++ rs) (s_names s ++ ns)).
Proof.
  unfold update_refs. cbn [s_rules s_names]. f_equal. rewrite !map_app, map_map. f_equal. apply map_ext. intros r. apply upd_more.
Qed.

(** A check for [all_resolved]. *)
Fixpoint closedb (n : nat) (r : rule) : bool :=
  match n with
  | 0 => false
  | S n => match r with RNode _ _ None _ => false | _ => forallb (closedb n) (children r) end
  end.

Lemma closedb_spec n : forall r, closedb n r = true -> closed r.
Proof.
  induction n as [|n IH]; intros r H; [discriminate|]. cbn [closedb] in H. apply closed_all.
  - intros name property id ->. discriminate.
  - intros c Hc. apply IH. assert (Hf : forallb (closedb n) (children r) = true) by (destruct r; try exact H; destruct index; [exact H|discriminate]).
    rewrite forallb_forall in Hf. apply Hf. exact Hc.
Qed.

Lemma all_resolved_check n s : forallb (closedb n) (s_rules s) = true -> all_resolved s.
Proof.
  intros H name property id (top & Hin & Ho). rewrite forallb_forall in H. exact (closedb_spec n top (H top Hin) name property id Ho).
Qed.
