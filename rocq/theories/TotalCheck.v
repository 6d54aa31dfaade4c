(** Deciding validity and well-formedness. *)
From Coq Require Import List NArith Bool Arith Lia.
From Verif Require Import Base Ext Types DataSpec TotalSpec OptProofs OccursProofs IdSpec PegFacts.
Import ListNotations.

(** ** Validity *)

Definition indices_validb (n : nat) (r : rule) : bool :=
  match r with
  | RNode _ _ (Some i) _ => i <? n
  | RFastSelect table args tail _ =>
    (256 <=? length table) &&
    forallb (fun i => Nat.eqb i 255 || (i <? length args)) table &&
    (negb tail || negb (Nat.eqb (length args) 0))
  | _ => true
  end.

Definition validb (s : syntax) : bool :=
  forallb (all_sub (indices_validb (length (s_rules s)))) (s_rules s).

Lemma indices_validb_spec n r : indices_validb n r = true -> indices_valid n r.
Proof.
  destruct r; simpl; intros H; try exact I.
  - apply andb_true_iff in H as [H Ht]. apply andb_true_iff in H as [Hl Hi].
    split; [apply Nat.leb_le; exact Hl|]. split.
    + intros i Hin. rewrite forallb_forall in Hi. apply Hi in Hin.
      apply orb_true_iff in Hin as [Hin|Hin]; [left; apply Nat.eqb_eq|right; apply Nat.ltb_lt]; exact Hin.
    + intros -> ->. discriminate.
  - destruct index; [|exact I]. apply Nat.ltb_lt. exact H.
Qed.

Lemma validb_spec s : validb s = true -> valid s.
Proof. intros H r Ho. apply indices_validb_spec. eapply all_rules_spec; eassumption. Qed.

Definition tag_real (r : rule) : bool :=
  match r with
  | RTag text _ _ _ _ => forallb (fun c => N.ltb c 1114112) text
  | _ => true
  end.

Lemma tags_realb_spec s : forallb (all_sub tag_real) (s_rules s) = true -> tags_real s.
Proof.
  intros H text not inverted property id Ho. apply (all_rules_spec _ _ H) in Ho. simpl in Ho.
  rewrite forallb_forall in Ho. apply Forall_forall. intros c Hc. apply N.ltb_lt. apply Ho. exact Hc.
Qed.

Lemma all_real text : forallb (fun c => N.ltb c 1114112) text = true ->
  Forall (fun c => real_char c) text.
Proof.
  intros H. rewrite forallb_forall in H. apply Forall_forall. intros c Hc. apply N.ltb_lt. auto.
Qed.

Definition columns_fitb (ind : indent) (text : str) : bool :=
  forallb (fun c => N.ltb c 1114112) text &&
  N.ltb (N.max 1 (i_tab_spaces ind) * N.of_nat (length text)) u32_max.

Lemma columns_fitb_spec ind text : columns_fitb ind text = true -> columns_fit ind text.
Proof.
  intros H. apply andb_true_iff in H as [H1 H2]. split; [apply all_real; exact H1|].
  apply N.ltb_lt. exact H2.
Qed.

(** ** Emptiness *)

Section Tables.
  Variable empties : list bool.

  Fixpoint emptyb (r : rule) : bool :=
    match r with
    | RWhitespace optional _ => optional
    | RTag text not _ _ _ => not || match text with [] => true | _ => false end
    | RUntilAny _ optional _ _ | RUntilAnyOrWs _ optional _ _ => optional
    | RText _ _ _ | RNumber _ _ _ => false
    | RSequence args _ => forallb emptyb args
    | RSelect args _ | RFastSelect _ args _ _ => existsb emptyb args
    | RRepeat r optional _ => optional || emptyb r
    | RSeparateBy r _ optional _ _ => optional || emptyb r
    | RLines _ _ _ | ROptional _ _ | RNot _ _ => true
    | RNode _ _ (Some i) _ => nth i empties false
    | RNode _ _ None _ => false
    end.

  (** References that may be followed first. *)
  Fixpoint firsts (r : rule) : list nat :=
    match r with
    | RSequence args _ =>
      (fix go (l : list rule) : list nat :=
         match l with
         | [] => []
         | a :: rest => firsts a ++ (if emptyb a then go rest else [])
         end) args
    | RSelect args _ | RFastSelect _ args _ _ => flat_map firsts args
    | RRepeat r _ _ | RLines r _ _ | ROptional r _ | RNot r _ => firsts r
    | RSeparateBy r by_ _ _ _ => firsts r ++ (if emptyb r then firsts by_ else [])
    | RNode _ _ (Some i) _ => [i]
    | _ => []
    end.

  Definition firsts_seq :=
    fix go (l : list rule) : list nat :=
      match l with
      | [] => []
      | a :: rest => firsts a ++ (if emptyb a then go rest else [])
      end.

  Definition loops_progress (r : rule) : bool :=
    match r with
    | RRepeat r _ _ => negb (emptyb r)
    | RSeparateBy r by_ _ _ _ => negb (emptyb r && emptyb by_)
    | _ => true
    end.

  Variable ranks : list nat.
  Variable rules : list rule.

  Definition tables_ok : bool :=
    forallb (fun '(r, e) => implb (emptyb r) e) (combine rules empties) &&
    Nat.eqb (length empties) (length rules) &&
    forallb (fun '(r, k) => forallb (fun j => nth j ranks 0 <? k) (firsts r)) (combine rules ranks) &&
    Nat.eqb (length ranks) (length rules).
End Tables.

Lemma in_combine_nth {A B} (l : list A) (m : list B) i x d : length m = length l ->
  nth_error l i = Some x -> In (x, nth i m d) (combine l m).
Proof.
  revert m i. induction l as [|a l IH]; intros [|b m] [|i] Hl H; simpl in *; try discriminate.
  - left. congruence.
  - right. apply IH; [lia|exact H].
Qed.

Section Sound.
  Variable empties : list bool.
  Variable ranks : list nat.
  Variable rules : list rule.
  Hypothesis Hok : tables_ok empties ranks rules = true.

  Lemma tables_empty i r : nth_error rules i = Some r -> emptyb empties r = true ->
    nth i empties false = true.
  Proof.
    intros Hi He. unfold tables_ok in Hok.
    apply andb_true_iff in Hok as [H _]. apply andb_true_iff in H as [H _].
    apply andb_true_iff in H as [H Hl]. apply Nat.eqb_eq in Hl.
    rewrite forallb_forall in H. specialize (H _ (in_combine_nth _ _ _ _ false Hl Hi)).
    simpl in H. rewrite He in H. destruct (nth i empties false); [reflexivity|discriminate].
  Qed.

  Lemma tables_rank i r j : nth_error rules i = Some r -> In j (firsts empties r) ->
    nth j ranks 0 < nth i ranks 0.
  Proof.
    intros Hi Hj. unfold tables_ok in Hok.
    apply andb_true_iff in Hok as [H Hl]. apply andb_true_iff in H as [_ H].
    apply Nat.eqb_eq in Hl.
    rewrite forallb_forall in H. specialize (H _ (in_combine_nth _ _ _ _ 0 Hl Hi)).
    simpl in H. rewrite forallb_forall in H. apply Nat.ltb_lt. apply H. exact Hj.
  Qed.

  Lemma emptyb_spec r : may_be_empty rules r -> emptyb empties r = true.
  Proof.
    revert r. fix IH 2. intros r H.
    destruct H as [| | | | |args id H|args id r Hin H|table args tail id r Hin H| |r o id H| 
                   |r b o t id H| |name property i id r Hi H| | ]; simpl; try reflexivity.
    - apply orb_true_r.
    - induction H as [|x l Hx Hl IHl]; [reflexivity|]. simpl. rewrite (IH _ Hx). exact IHl.
    - apply existsb_exists. exists r. split; [exact Hin|]. apply IH. exact H.
    - apply existsb_exists. exists r. split; [exact Hin|]. apply IH. exact H.
    - rewrite (IH _ H). apply orb_true_r.
    - rewrite (IH _ H). apply orb_true_r.
    - apply (tables_empty i r Hi). apply IH. exact H.
  Qed.

  Lemma firsts_seq_app before r behind j : forallb (emptyb empties) before = true ->
    In j (firsts empties r) -> In j (firsts_seq empties (before ++ r :: behind)).
  Proof.
    induction before as [|a before IH]; intros Hb Hj; simpl in *.
    - apply in_or_app. left. exact Hj.
    - apply andb_true_iff in Hb as [-> Hb]. apply in_or_app. right. apply IH; assumption.
  Qed.

  Lemma firsts_spec r j : leads_to rules r j -> In j (firsts empties r).
  Proof.
    induction 1 as [name property i id|r c j Ht _ IH]; [left; reflexivity|].
    destruct Ht as [before r behind id He|args id r Hin|table args tail id r Hin|r o id
                   |r b o t id|r b o t id He|r ind id|r id|r id]; simpl.
    - change (In j (firsts_seq empties (before ++ r :: behind))).
      apply firsts_seq_app; [|exact IH]. apply forallb_forall. intros x Hx.
      rewrite Forall_forall in He. apply emptyb_spec. auto.
    - apply in_flat_map. eauto.
    - apply in_flat_map. eauto.
    - exact IH.
    - apply in_or_app. left. exact IH.
    - rewrite (emptyb_spec _ He). apply in_or_app. right. exact IH.
    - exact IH.
    - exact IH.
    - exact IH.
  Qed.
End Sound.

(** Tables by iteration. *)
Fixpoint iterate {A} (n : nat) (f : A -> A) (x : A) : A :=
  match n with O => x | S n' => iterate n' f (f x) end.

Definition empties_of (rules : list rule) : list bool :=
  iterate (length rules) (fun t => map (emptyb t) rules) (map (fun _ => false) rules).

Definition ranks_of (empties : list bool) (rules : list rule) : list nat :=
  iterate (length rules)
    (fun t => map (fun r => S (fold_right Nat.max 0 (map (fun j => nth j t 0) (firsts empties r)))) rules)
    (map (fun _ => 1) rules).

Definition well_formedb (s : syntax) : bool :=
  let empties := empties_of (s_rules s) in
  tables_ok empties (ranks_of empties (s_rules s)) (s_rules s) &&
  forallb (all_sub (loops_progress empties)) (s_rules s).

Lemma well_formedb_spec s : well_formedb s = true -> well_formed s.
Proof.
  unfold well_formedb. intros H. apply andb_true_iff in H as [Ht Hl].
  repeat split.
  - intros r o id Ho He. apply (all_rules_spec _ _ Hl) in Ho. simpl in Ho.
    rewrite (emptyb_spec _ _ _ Ht _ He) in Ho. discriminate.
  - intros r b o t id Ho [He1 He2]. apply (all_rules_spec _ _ Hl) in Ho. simpl in Ho.
    rewrite (emptyb_spec _ _ _ Ht _ He1), (emptyb_spec _ _ _ Ht _ He2) in Ho. discriminate.
  - eexists. intros i r j Hi Hj. eapply (tables_rank _ _ _ Ht); [exact Hi|].
    eapply firsts_spec; eassumption.
Qed.
