(** What a rule does at the end of a text, by inspection; so that the proviso of optimisation
    can be checked. *)
From Coq Require Import List NArith Bool Arith Lia.
From Verif Require Import Base Ext Types ParseModel OptimizeModel PegSpec DataSpec PrimProofs
  PegProofs RuleSpec RuleProofs OptSpec OptProofs OccursProofs OptPublic.
Import ListNotations.

(** [Some true]: reads nothing; [Some false]: fails; [None]: not known. *)
Fixpoint at_end (fuel : nat) (refs : list rule) (r : rule) : option bool :=
  match fuel with
  | 0 => None
  | S fuel' =>
    match r with
    | RWhitespace optional _ | RUntilAny _ optional _ _ | RUntilAnyOrWs _ optional _ _ => Some optional
    | RTag text not_ _ _ _ => Some (Bool.eqb (match text with [] => true | _ => false end) (negb not_))
    | RText _ _ _ | RNumber _ _ _ | RFastSelect _ _ _ _ => Some false
    | RSequence args _ =>
      (fix seq (l : list rule) : option bool :=
         match l with
         | [] => Some true
         | a :: l' => match at_end fuel' refs a with Some true => seq l' | o => o end
         end) args
    | RSelect args _ =>
      (fix sel (l : list rule) : option bool :=
         match l with
         | [] => Some false
         | a :: l' => match at_end fuel' refs a with Some false => sel l' | o => o end
         end) args
    | RSeparateBy a by_ optional _ _ =>
      match at_end fuel' refs a with
      | Some false => Some optional
      | Some true => match at_end fuel' refs by_ with Some false => Some true | _ => None end
      | None => None
      end
    | RRepeat a optional _ => match at_end fuel' refs a with Some false => Some optional | _ => None end
    | RLines _ _ _ => Some true
    | RNode _ _ None _ => Some false
    | RNode _ _ (Some i) _ =>
      match nth_error refs i with Some a => at_end fuel' refs a | None => None end
    | ROptional a _ => match at_end fuel' refs a with Some _ => Some true | None => None end
    | RNot a _ => match at_end fuel' refs a with Some b => Some (negb b) | None => None end
    end
  end.

Section Sound.
  Variables (E : ext) (HE : ext_ok E) (refs : list rule).

  Definition verdict_of (b : bool) (v : verdict) : Prop :=
    if b then exists out, v = Yes 0 out else v = No.

  Definition ends (r : rule) (b : bool) : Prop :=
    forall ind p, exists v ind' tr, reads E refs r ind p [] v ind' tr /\ verdict_of b v.

  Definition ends_seq (l : list rule) (b : bool) : Prop :=
    forall ind p, exists v ind' tr, reads_seq E refs l ind p [] v ind' tr /\ verdict_of b v.

  Definition ends_first (l : list rule) (b : bool) : Prop :=
    forall ind p, exists v ind' tr, reads_first E refs l ind p [] v ind' tr /\ verdict_of b v.

  Lemma no_string : x_string E [] = None.
  Proof.
    destruct (x_string E []) as [n|] eqn:H; [|reflexivity].
    destruct (x_string_bounds E HE _ _ H) as [Hb _]. cbn in Hb. lia.
  Qed.

  Lemma no_number u : x_number E u [] = None.
  Proof.
    destruct (x_number E u []) as [n|] eqn:H; [|reflexivity].
    pose proof (x_number_bounds E HE _ _ _ H) as Hb. cbn in Hb. lia.
  Qed.

  Lemma longest_end P : longest P [] 0.
  Proof. apply longest_nil. reflexivity. Qed.

  Lemma at_end_ends fuel : forall r b, at_end fuel refs r = Some b -> ends r b.
  Proof.
    induction fuel as [|fuel IH]; intros r b H; [discriminate|]. destruct r; cbn [at_end] in H.
    - injection H as <-. intros ind p. destruct optional; cbn.
      + eexists _, _, _. split; [apply (reads_whitespace E refs true id ind p [] 0 (longest_end _)); auto|eauto].
      + eexists _, _, _. split; [apply (reads_whitespace_no E refs id ind p [] (longest_end _))|reflexivity].
    - injection H as <-. intros ind p. destruct text as [|c text], not; cbn.
      + eexists _, _, _. split; [apply reads_not_tag_no; exists []; reflexivity|reflexivity].
      + eexists _, _, _. split; [apply reads_tag; exists []; reflexivity|cbn; eauto].
      + eexists _, _, _. split; [apply reads_not_tag; intros (rest & Hr); discriminate|eauto].
      + eexists _, _, _. split; [apply reads_tag_no; intros (rest & Hr); discriminate|reflexivity].
    - injection H as <-. intros ind p. destruct optional; cbn.
      + eexists _, _, _. split; [apply (reads_until E refs _ true _ _ ind p [] 0 (longest_end _)); auto|eauto].
      + eexists _, _, _. split; [apply (reads_until_no E refs _ _ _ ind p [] (longest_end _))|reflexivity].
    - injection H as <-. intros ind p. destruct optional; cbn.
      + eexists _, _, _. split; [apply (reads_until_ws E refs _ true _ _ ind p [] 0 (longest_end _)); auto|eauto].
      + eexists _, _, _. split; [apply (reads_until_ws_no E refs _ _ _ ind p [] (longest_end _))|reflexivity].
    - injection H as <-. intros ind p. eexists _, _, _. split; [apply reads_text_none, no_string|reflexivity].
    - injection H as <-. intros ind p. eexists _, _, _. split; [apply reads_number_none, no_number|reflexivity].
    - assert (Hf : ends_first args b).
      { revert H. induction args as [|a l IHl]; intros H; cbn in H.
        - injection H as <-. intros ind p. eexists _, _, _. split; [apply reads_first_none|reflexivity].
        - destruct (at_end fuel refs a) as [[|]|] eqn:Ha; try discriminate.
          + injection H as <-. intros ind p. destruct (IH _ _ Ha ind p) as (v & ind' & tr & Hr & out & ->).
            eexists _, _, _. split; [apply reads_first_yes, Hr|cbn; eauto].
          + intros ind p. destruct (IH _ _ Ha ind p) as (v & ind' & tr & Hr & ->).
            destruct (IHl H ind' p) as (v & ind2 & tr2 & Hr2 & Hv).
            eexists _, _, _. split; [eapply reads_first_next; eassumption|exact Hv]. }
      destruct args as [|a0 args0].
      { injection H as <-. intros ind p. eexists _, _, _. split; [apply reads_select_empty|reflexivity]. }
      intros ind p. destruct (Hf ind p) as (v & ind' & tr & Hr & Hv).
      eexists _, _, _. split; [apply reads_select; [ discriminate|exact Hr]|exact Hv].
    - injection H as <-. intros ind p. eexists _, _, _. split; [apply reads_fast_end|reflexivity].
    - assert (Hf : ends_seq args b).
      { revert H. induction args as [|a l IHl]; intros H; cbn in H.
        - injection H as <-. intros ind p. eexists _, _, _. split; [apply reads_seq_nil|cbn; eauto].
        - destruct (at_end fuel refs a) as [[|]|] eqn:Ha; try discriminate.
          + intros ind p. destruct (IH _ _ Ha ind p) as (v & ind' & tr & Hr & out & ->).
            destruct (IHl H ind' (p + 0)) as (v & ind2 & tr2 & Hr2 & Hv).
            eexists _, _, _. split; [eapply reads_seq_cons; eassumption|].
            destruct b; cbn in *; [destruct Hv as (out' & ->); cbn; eauto|subst; reflexivity].
          + injection H as <-. intros ind p. destruct (IH _ _ Ha ind p) as (v & ind' & tr & Hr & ->).
            eexists _, _, _. split; [apply reads_seq_no, Hr|reflexivity]. }
      intros ind p. destruct (Hf ind p) as (v & ind' & tr & Hr & Hv).
      eexists _, _, _. split; [apply reads_sequence; exact Hr|exact Hv].
    - destruct (at_end fuel refs r1) as [[|]|] eqn:H1; try discriminate.
      + destruct (at_end fuel refs r2) as [[|]|] eqn:H2; try discriminate. injection H as <-. intros ind p.
        destruct (IH _ _ H1 ind p) as (v & ind' & tr & Hr & out & ->).
        destruct (IH _ _ H2 ind' (p + 0)) as (v & ind2 & tr2 & Hr2 & ->).
        eexists _, _, _. split; [eapply reads_separate; [exact Hr|apply reads_more_stop; exact Hr2]|cbn; eauto].
      + injection H as <-. intros ind p. destruct (IH _ _ H1 ind p) as (v & ind' & tr & Hr & ->).
        eexists _, _, _. split; [apply reads_separate_none; exact Hr|destruct optional; cbn; eauto].
    - destruct (at_end fuel refs r) as [[|]|] eqn:H1; try discriminate. injection H as <-. intros ind p.
      destruct (IH _ _ H1 ind p) as (v & ind' & tr & Hr & ->). destruct optional.
      + eexists _, _, _. split; [eapply reads_repeat; [apply reads_many_stop; exact Hr|auto]|cbn; eauto].
      + eexists _, _, _. split; [apply reads_repeat_no; exact Hr|reflexivity].
    - injection H as <-. intros ind p. eexists _, _, _.
      split; [apply reads_lines_rule, reads_lines_end; constructor|cbn; eauto].
    - destruct index as [i|].
      + destruct (nth_error refs i) as [a|] eqn:Hi; [|discriminate]. intros ind p.
        destruct (IH _ _ H ind p) as (v & ind' & tr & Hr & Hv). destruct b.
        * destruct Hv as (out & ->). eexists _, _, _. split; [eapply reads_node; eassumption|cbn; eauto].
        * rewrite Hv in Hr. eexists _, _, _. split; [eapply reads_node_no; eassumption|reflexivity].
      + injection H as <-. intros ind p. eexists _, _, _. split; [apply reads_node_unresolved|reflexivity].
    - destruct (at_end fuel refs r) as [[|]|] eqn:H1; try discriminate; injection H as <-; intros ind p.
      + destruct (IH _ _ H1 ind p) as (v & ind' & tr & Hr & out & ->).
        eexists _, _, _. split; [apply reads_optional; exact Hr|cbn; eauto].
      + destruct (IH _ _ H1 ind p) as (v & ind' & tr & Hr & ->).
        eexists _, _, _. split; [apply reads_optional_none; exact Hr|cbn; eauto].
    - destruct (at_end fuel refs r) as [[|]|] eqn:H1; try discriminate; injection H as <-; intros ind p.
      + destruct (IH _ _ H1 ind p) as (v & ind' & tr & Hr & out & ->).
        eexists _, _, _. split; [eapply reads_not_no; exact Hr|reflexivity].
      + destruct (IH _ _ H1 ind p) as (v & ind' & tr & Hr & ->).
        eexists _, _, _. split; [eapply reads_not; exact Hr|cbn; eauto].
  Qed.

  Lemma at_end_fails fuel r : at_end fuel refs r = Some false -> fails_at_end E refs r.
  Proof.
    intros H ind p. destruct (at_end_ends fuel r false H ind p) as (v & ind' & tr & Hr & Hv).
    cbn in Hv. subst v. exists ind'. apply runs_reads. eauto.
  Qed.
End Sound.

(** The tail of a select, if it is optimised, consists of rules that fail at the end of a text. *)
Definition good_tail (fuel : nat) (refs : list rule) (r : rule) : bool :=
  match r with
  | RSelect args _ =>
    match unique_table_from_select fuel refs args with
    | Done (_, up) => (up <? 2) ||
      forallb (fun a => match at_end fuel refs a with Some b => negb b | None => false end) (skipn up args)
    | _ => false
    end
  | _ => true
  end.

Definition good_tails (fuel : nat) (s : syntax) : bool :=
  forallb (all_sub (good_tail fuel (s_rules s))) (s_rules s).

Lemma good_tails_check E fuel s : ext_ok E -> good_tails fuel s = true -> tails_fail_at_end E s.
Proof.
  intros HE H rest (args & id & f & table & up & Ho & Ht & Hup & ->) r Hr.
  apply (all_rules_spec _ _ H) in Ho. simpl in Ho.
  destruct (unique_table_from_select fuel (s_rules s) args) as [[table' up']| |] eqn:He; try discriminate.
  pose proof (unique_table_unique _ _ _ _ _ _ Ht He) as [= -> ->].
  apply orb_true_iff in Ho as [Ho|Ho].
  - apply Nat.ltb_lt in Ho. lia.
  - rewrite forallb_forall in Ho. specialize (Ho _ Hr). apply (at_end_fails E HE _ fuel).
    destruct (at_end fuel (s_rules s) r) as [[|]|]; [discriminate|reflexivity|discriminate].
Qed.
