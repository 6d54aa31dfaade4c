(** Deciding properties of all rules that occur in a syntax. *)
From Coq Require Import List NArith Bool Arith Lia.
From Verif Require Import Base Ext Types DataSpec OptProofs IdSpec.
Import ListNotations.

Fixpoint all_sub (P : rule -> bool) (r : rule) : bool :=
  P r &&
  match r with
  | RSelect args _ | RFastSelect _ args _ _ | RSequence args _ => forallb (all_sub P) args
  | RSeparateBy a b _ _ _ => all_sub P a && all_sub P b
  | RRepeat a _ _ | RLines a _ _ | ROptional a _ | RNot a _ => all_sub P a
  | _ => true
  end.

Lemma all_sub_here P r : all_sub P r = true -> P r = true.
Proof. destruct r; simpl; intros H; apply andb_true_iff in H; tauto. Qed.

Lemma all_sub_below P r c : all_sub P r = true -> In c (children r) -> all_sub P c = true.
Proof.
  destruct r; cbn [all_sub children]; intros H Hc; apply andb_true_iff in H as [_ H];
    try (destruct Hc; fail).
  - rewrite forallb_forall in H. auto.
  - rewrite forallb_forall in H. auto.
  - rewrite forallb_forall in H. auto.
  - apply andb_true_iff in H as [H1 H2]. destruct Hc as [<-|[<-|[]]]; assumption.
  - destruct Hc as [<-|[]]. assumption.
  - destruct Hc as [<-|[]]. assumption.
  - destruct Hc as [<-|[]]. assumption.
  - destruct Hc as [<-|[]]. assumption.
Qed.

Lemma all_sub_spec P r : all_sub P r = true -> forall c, occurs_in c r -> P c = true.
Proof.
  intros H c Ho. induction Ho as [|r' d Hd Ho IH]; [apply all_sub_here; exact H|].
  apply IH. eapply all_sub_below; eassumption.
Qed.

Lemma all_rules_spec P s : forallb (all_sub P) (s_rules s) = true ->
  forall c, occurs s c -> P c = true.
Proof.
  intros H c (top & Ht & Ho). rewrite forallb_forall in H.
  eapply all_sub_spec; [apply H; exact Ht|exact Ho].
Qed.

Definition is_indented (r : rule) : bool :=
  match r with RLines _ true _ => true | _ => false end.

Lemma no_indented_check s :
  forallb (all_sub (fun r => negb (is_indented r))) (s_rules s) = true -> no_indented_lines s.
Proof. intros H r id Ho. apply (all_rules_spec _ _ H) in Ho. discriminate. Qed.
