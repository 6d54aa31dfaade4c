(** C89: the values and entries of key-value files. *)
From Coq Require Import Ascii String List NArith Bool Arith Lia.
From Verif Require Import Base Ext Types PegSpec PegFacts PegProofs PrimProofs Examples KeySpec.
Import ListNotations.
Local Open Scope string_scope.
Local Open Scope list_scope.
Local Open Scope nat_scope.

Definition value_rule : rule :=
  RSelect [RNumber true (Some (tx "number")) 10;
           RSelect [RTag (tx "true") false false (Some (tx "bool")) 11;
                    RTag (tx "false") false true (Some (tx "bool")) 12] 13;
           RText true (Some (tx "string")) 14;
           RUntilAnyOrWs [] false (Some (tx "value")) 15] 16.

Definition comment_rule : rule :=
  RSequence [RWhitespace true 1; RTag [hash] false false None 2; RUntilAny [newline] true None 3] 4.

Definition pair_rule : rule :=
  RSequence [RWhitespace true 5; RUntilAnyOrWs [equals] false (Some (tx "key")) 6; RWhitespace true 7;
             RTag [equals] false false None 8; RWhitespace true 9; value_rule; RWhitespace true 17] 18.

Definition entry_rule : rule := RSelect [comment_rule; pair_rule] 19.

Definition key_value_syntax : syntax :=
  {| s_rules := [RLines entry_rule false 20]; s_names := [tx "document"] |}.

Lemma firstn_past {A} (a b : list A) : firstn (length a) (a ++ b) = a.
Proof. rewrite firstn_app, Nat.sub_diag, firstn_all. cbn. apply app_nil_r. Qed.
Lemma skipn_past {A} (a b : list A) : skipn (length a) (a ++ b) = b.
Proof. rewrite skipn_app, Nat.sub_diag, skipn_all. reflexivity. Qed.

Lemma longest_here (P : char -> Prop) a b : Forall P a -> in_front (fun c => ~ P c) b -> longest P (a ++ b) (length a).
Proof.
  intros Ha Hb. split; [rewrite app_length; lia|]. split; [rewrite firstn_past; exact Ha|].
  intros c Hc. rewrite nth_error_app2, Nat.sub_diag in Hc by lia.
  destruct Hb as [-> | (d & r & -> & Hd)]; [discriminate|]. injection Hc as <-. exact Hd.
Qed.

Lemma longest_back (P : char -> Prop) a b : longest P (a ++ b) (length a) -> Forall P a /\ in_front (fun c => ~ P c) b.
Proof.
  intros (_ & Ha & Hb). rewrite firstn_past in Ha. split; [exact Ha|].
  destruct b as [|c b]; [left; reflexivity|]. right. exists c, b. split; [reflexivity|].
  apply Hb. rewrite nth_error_app2, Nat.sub_diag by lia. reflexivity.
Qed.

Section Value.
  Variable E : ext.
  Hypothesis HE : ext_ok E.
  Hypothesis HL : solid_literals E.
  Variable refs : list rule.

  Notation reads := (reads E refs).

  Lemma number_fails s ind p : no_number E s -> exists tr, reads (RNumber true (Some (tx "number")) 10) ind p s No ind tr.
  Proof.
    intros Hn. destruct (x_number E true s) as [n|] eqn:Hx; [|eexists; apply reads_number_none; exact Hx].
    destruct (x_parse_number E true (firstn n s)) as [v|] eqn:Hv; [|eexists; eapply reads_number_bad; eassumption].
    exfalso. apply (Hn (firstn n s) v). exists (skipn n s). split; [symmetry; apply firstn_skipn|].
    split; [|exact Hv]. rewrite firstn_length, Nat.min_l; [exact Hx|]. apply (x_number_bounds E HE) in Hx. lia.
  Qed.

  Lemma string_fails s ind p : no_string E s -> exists tr, reads (RText true (Some (tx "string")) 14) ind p s No ind tr.
  Proof.
    intros Hn. destruct (x_string E s) as [n|] eqn:Hx; [|eexists; apply reads_text_none; exact Hx].
    destruct (x_parse_string E (firstn n s)) as [v|[r e]] eqn:Hv.
    2:{ eexists. eapply reads_text_bad; [exact Hx|left; reflexivity|exact Hv]. }
    exfalso. apply (Hn (firstn n s) v). exists (skipn n s). split; [symmetry; apply firstn_skipn|].
    split; [|exact Hv]. rewrite firstn_length, Nat.min_l; [exact Hx|]. apply (x_string_bounds E HE) in Hx. lia.
  Qed.

  Lemma number_fails_back s ind p ind' tr : reads (RNumber true (Some (tx "number")) 10) ind p s No ind' tr -> no_number E s /\ ind' = ind.
  Proof.
    intros H. inversion H; subst; (split; [|reflexivity]); intros t v (rest & -> & Hx & Hv).
    - congruence.
    - match goal with H1 : x_number E true _ = Some ?n |- _ => assert (n = length t) as -> by congruence end.
      rewrite firstn_past in *. congruence.
  Qed.

  Lemma string_fails_back s ind p ind' tr : reads (RText true (Some (tx "string")) 14) ind p s No ind' tr -> no_string E s /\ ind' = ind.
  Proof.
    intros H. inversion H; subst; (split; [|reflexivity]); intros t v (rest & -> & Hx & Hv).
    - congruence.
    - match goal with H1 : x_string E _ = Some ?n |- _ => assert (n = length t) as -> by congruence end.
      rewrite firstn_past in *. congruence.
  Qed.

  Lemma bool_fails s ind p : no_bool s -> exists tr,
    reads (RSelect [RTag (tx "true") false false (Some (tx "bool")) 11; RTag (tx "false") false true (Some (tx "bool")) 12] 13) ind p s No ind tr.
  Proof.
    intros [H1 H2]. eexists. apply reads_select; [discriminate|].
    eapply reads_first_next; [apply reads_tag_no; exact H1|].
    eapply reads_first_next; [apply reads_tag_no; exact H2|constructor].
  Qed.

  Lemma true_not_false s : starts_with s (tx "false") -> ~ starts_with s (tx "true").
  Proof. intros (r & ->) (r' & H). discriminate. Qed.

  Lemma value_yes t rest m ind p : value E t rest m -> exists out tr,
    reads value_rule ind p (t ++ rest) (Yes (length t) out) ind tr /\ map snd out = [m].
  Proof.
    intros H. destruct H as [v Hn|Hn ->|Hn ->|v Hn Hb Hs|Hn Hb Hs Hne Hw Hf].
    - destruct Hn as (r & Hr & Hx & Hv). do 2 eexists. split.
      + apply reads_select; [discriminate|]. apply reads_first_yes.
        apply (reads_number E refs true (Some (tx "number")) 10 ind p (t ++ rest) (length t) v Hx). rewrite firstn_past. exact Hv.
      + reflexivity.
    - destruct (number_fails _ ind p Hn) as (tr & Hf). do 2 eexists. split.
      + apply reads_select; [discriminate|]. eapply reads_first_next; [exact Hf|]. apply reads_first_yes.
        apply reads_select; [discriminate|]. apply reads_first_yes. apply (reads_tag E refs (tx "true")). exists rest. reflexivity.
      + reflexivity.
    - destruct (number_fails _ ind p Hn) as (tr & Hf). do 2 eexists. split.
      + apply reads_select; [discriminate|]. eapply reads_first_next; [exact Hf|]. apply reads_first_yes.
        apply reads_select; [discriminate|]. eapply reads_first_next; [apply reads_tag_no; apply true_not_false; exists rest; reflexivity|].
        apply reads_first_yes. apply (reads_tag E refs (tx "false")). exists rest. reflexivity.
      + reflexivity.
    - destruct (number_fails _ ind p Hn) as (tr & Hf). destruct (bool_fails _ ind p Hb) as (tr2 & Hf2).
      destruct Hs as (r & Hr & Hx & Hv). do 2 eexists. split.
      + apply reads_select; [discriminate|]. eapply reads_first_next; [exact Hf|]. eapply reads_first_next; [exact Hf2|]. apply reads_first_yes.
        apply (reads_text E refs true (Some (tx "string")) 14 ind p (t ++ rest) (length t) v Hx); [left; reflexivity|]. rewrite firstn_past. exact Hv.
      + reflexivity.
    - destruct (number_fails _ ind p Hn) as (tr & Hf1). destruct (bool_fails _ ind p Hb) as (tr2 & Hf2). destruct (string_fails _ ind p Hs) as (tr3 & Hf3).
      do 2 eexists. split.
      + apply reads_select; [discriminate|]. eapply reads_first_next; [exact Hf1|]. eapply reads_first_next; [exact Hf2|].
        eapply reads_first_next; [exact Hf3|]. apply reads_first_yes.
        apply (reads_until_ws E refs [] false (Some (tx "value")) 15 ind p (t ++ rest) (length t)).
        * apply longest_here; [|destruct Hf as [-> | (c & r & -> & Hc)]; [left; reflexivity|right; exists c, r; tauto]].
          eapply Forall_impl; [|exact Hw]. intros c Hc. split; [exact Hc|intros []].
        * right. destruct t; [congruence|cbn; lia].
      + rewrite firstn_past. reflexivity.
  Qed.

  Lemma first_inv r rest ind p s n out ind' tr : reads_first E refs (r :: rest) ind p s (Yes n out) ind' tr ->
    (exists tr', reads r ind p s (Yes n out) ind' tr') \/
    (exists ind1 tr1 tr2, reads r ind p s No ind1 tr1 /\ reads_first E refs rest ind1 p s (Yes n out) ind' tr2).
  Proof. intros H. inversion H; subst; eauto 6. Qed.

  Lemma select_inv args id ind p s n out ind' tr : reads (RSelect args id) ind p s (Yes n out) ind' tr ->
    reads_first E refs args ind p s (Yes n out) ind' tr.
  Proof. intros H. inversion H; subst; assumption. Qed.

  Lemma tag_fails_back text inv prop id ind p s ind' tr : reads (RTag text false inv prop id) ind p s No ind' tr -> ~ starts_with s text /\ ind' = ind.
  Proof. intros H. inversion H; subst. split; [assumption|reflexivity]. Qed.

  Lemma tag_back text inv prop id ind p t rest out ind' tr : reads (RTag text false inv prop id) ind p (t ++ rest) (Yes (length t) out) ind' tr ->
    t = text /\ ind' = ind /\ out = token prop (Rng p (length t)) (fun n => MBool n (negb inv)).
  Proof.
    intros H. inversion H; subst. match goal with HH : starts_with _ _ |- _ => destruct HH as (r & Hr) end.
    match goal with HH : _ = length t |- _ => rename HH into Hl end.
    assert (t = text) as -> by (rewrite <- (firstn_past t rest), Hr, <- Hl; apply firstn_past).
    split; [reflexivity|]. split; reflexivity.
  Qed.

  Lemma value_back t rest ind p out ind' tr : reads value_rule ind p (t ++ rest) (Yes (length t) out) ind' tr ->
    exists m, value E t rest m /\ map snd out = [m] /\ ind' = ind.
  Proof.
    intros H. apply select_inv in H. apply first_inv in H as [(t1 & H)|(i1 & t1 & t2 & Hn & H)].
    { inversion H; subst. rewrite firstn_past in *. eexists. split; [|split; reflexivity]. apply value_number.
      exists rest. split; [reflexivity|]. split; assumption. }
    apply number_fails_back in Hn as [Hn ->].
    apply first_inv in H as [(t3 & H)|(i3 & t3 & t4 & Hb & H)].
    { apply select_inv in H. apply first_inv in H as [(t4 & H)|(i4 & t4 & t5 & Hx & H)].
      - apply tag_back in H as (-> & -> & ->).
        eexists. split; [|split; reflexivity]. apply value_true; [assumption|reflexivity].
      - apply tag_fails_back in Hx as [_ ->].
        apply first_inv in H as [(t6 & H)|(i6 & t6 & t7 & _ & H)]; [|inversion H].
        apply tag_back in H as (-> & -> & ->).
        eexists. split; [|split; reflexivity]. apply value_false; [assumption|reflexivity]. }
    assert (Hnb : no_bool (t ++ rest) /\ i3 = ind).
    { inversion Hb; subst. match goal with HH : reads_first _ _ _ _ _ _ _ _ _ |- _ => rename HH into Hfi end.
      inversion Hfi; subst. match goal with HH : reads (RTag _ _ _ _ _) _ _ _ _ _ _ |- _ => apply tag_fails_back in HH; destruct HH as [Ha He]; subst end.
      match goal with HH : reads_first _ _ [_] _ _ _ _ _ _ |- _ => rename HH into Hfj end.
      inversion Hfj; subst. match goal with HH : reads (RTag _ _ _ _ _) _ _ _ _ _ _ |- _ => apply tag_fails_back in HH; destruct HH as [Hc He2]; subst end.
      match goal with HH : reads_first _ _ [] _ _ _ _ _ _ |- _ => inversion HH; subst end.
      split; [split; assumption|reflexivity]. }
    destruct Hnb as [Hnb ->]. apply first_inv in H as [(t5 & H)|(i5 & t5 & t6 & Hs & H)].
    { inversion H; subst. rewrite firstn_past in *. eexists. split; [|split; reflexivity]. apply value_string; [assumption|assumption|].
      exists rest. split; [reflexivity|]. split; assumption. }
    apply string_fails_back in Hs as [Hs ->].
    apply first_inv in H as [(t7 & H)|(i7 & t7 & t8 & _ & H)]; [|inversion H].
    inversion H; subst. rewrite firstn_past in *.
    match goal with HH : longest _ _ _ |- _ => apply longest_back in HH; destruct HH as [Hw Hf] end.
    eexists. split; [|split; reflexivity]. apply value_word; try assumption.
    - intros ->. match goal with HH : false = true \/ _ |- _ => destruct HH as [?|HH]; [discriminate|cbn in HH; lia] end.
    - eapply Forall_impl; [|exact Hw]. intros c [Hc _]. exact Hc.
    - destruct Hf as [-> | (c & r & -> & Hc)]; [left; reflexivity|right; exists c, r]. split; [reflexivity|].
      unfold white in *. destruct (is_ws c); [reflexivity|]. exfalso. apply Hc. split; [discriminate|intros []].
  Qed.

  Lemma value_solid t rest m : value E t rest m -> starts_solid t /\ ends_solid t.
  Proof.
    intros H. destruct H as [v (r & -> & Hx & _)|_ ->|_ ->|v _ _ (r & -> & Hx & _)|_ _ _ Hne Hw _].
    - apply HL in Hx. rewrite firstn_past in Hx. exact Hx.
    - split; [do 2 eexists; split; [reflexivity|discriminate]|]. exists (tx "tru"), 101%N. split; [reflexivity|discriminate].
    - split; [do 2 eexists; split; [reflexivity|discriminate]|]. exists (tx "fals"), 101%N. split; [reflexivity|discriminate].
    - apply HL in Hx. rewrite firstn_past in Hx. exact Hx.
    - split.
      + destruct t as [|c t]; [congruence|]. inversion Hw; subst. exists c, t. auto.
      + destruct (exists_last Hne) as (r & c & ->). apply Forall_app in Hw as [_ Hw]. inversion Hw; subst. exists r, c. auto.
  Qed.
End Value.
