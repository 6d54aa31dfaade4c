(** Reading what is written: rules of the built-in syntax in front of a text. *)
From Coq Require Import Ascii String List NArith Bool Arith Lia.
From Verif Require Import Base Ext Types ParseModel BootstrapRules PegSpec PrimProofs LinesProofs JsonSpec
  ConvertSpec WriteSpec TextSpec.
Import ListNotations.
Local Open Scope string_scope.
Local Open Scope list_scope.
Local Open Scope nat_scope.

Definition boot : list rule := Eval vm_compute in s_rules bootstrap_rules.

Lemma boot_rules : s_rules bootstrap_rules = boot.
Proof. vm_compute. reflexivity. Qed.

Lemma skipn_len {A} (a b : list A) : skipn (length a) (a ++ b) = b.
Proof. induction a; [reflexivity|exact IHa]. Qed.

Lemma firstn_len {A} (a b : list A) : firstn (length a) (a ++ b) = a.
Proof. induction a; [reflexivity|cbn; f_equal; exact IHa]. Qed.

(** The data without their ranges. *)
Definition metas (d : list tok) : list metadata := map snd d.

Lemma metas_app a b : metas (a ++ b) = metas a ++ metas b.
Proof. apply map_app. Qed.

Section Reading.
  Variable E : ext.
  Hypothesis HE : ext_ok E.

  Definition rd (r : rule) (p : nat) (s : str) (v : verdict) : Prop :=
    exists tr, reads E boot r indent_default p s v indent_default tr.
  Definition rdseq (rs : list rule) (p : nat) (s : str) (v : verdict) : Prop :=
    exists tr, reads_seq E boot rs indent_default p s v indent_default tr.

  (** In front of [t], when it is followed by a text that meets [ok], the rule reads [t]
      and produces data that meet [P]. Up to the ranges the data depend on nothing but [t]. *)
  Definition good (r : rule) (ok : str -> Prop) (t : str) (P : list tok -> Prop) : Prop :=
    exists m, forall p rest, ok rest ->
      exists out, rd r p (t ++ rest) (Yes (length t) out) /\ P out /\ metas out = m.
  Definition goods (rs : list rule) (ok : str -> Prop) (t : str) (P : list tok -> Prop) : Prop :=
    exists m, forall p rest, ok rest ->
      exists out, rdseq rs p (t ++ rest) (Yes (length t) out) /\ P out /\ metas out = m.

  (** The rule fails in front of [s]. *)
  Definition bad (r : rule) (s : str) : Prop := forall p, rd r p s No.
  Definition bads (rs : list rule) (s : str) : Prop := forall p, rdseq rs p s No.

  Definition none (d : list tok) : Prop := d = [].
  Definition both (P Q : list tok -> Prop) (d : list tok) : Prop :=
    exists a b, d = a ++ b /\ P a /\ Q b.

  Lemma good_weaken r (ok ok' : str -> Prop) t (P P' : list tok -> Prop) :
    good r ok t P -> (forall s, ok' s -> ok s) -> (forall d, P d -> P' d) -> good r ok' t P'.
  Proof.
    intros (m & H) Ho HP. exists m. intros p rest Hr. destruct (H p rest (Ho _ Hr)) as (out & H1 & H2 & H3). eauto.
  Qed.

  Lemma goods_weaken r (ok ok' : str -> Prop) t (P P' : list tok -> Prop) :
    goods r ok t P -> (forall s, ok' s -> ok s) -> (forall d, P d -> P' d) -> goods r ok' t P'.
  Proof.
    intros (m & H) Ho HP. exists m. intros p rest Hr. destruct (H p rest (Ho _ Hr)) as (out & H1 & H2 & H3). eauto.
  Qed.

  (** ** Sequences *)

  Lemma goods_nil ok : goods [] ok [] none.
  Proof. exists []. intros p rest _. exists []. split; [eexists; constructor|split; reflexivity]. Qed.

  Lemma goods_cons r rs ok1 ok t1 t2 P1 P2 :
    good r ok1 t1 P1 -> goods rs ok t2 P2 -> (forall rest, ok rest -> ok1 (t2 ++ rest)) ->
    goods (r :: rs) ok (t1 ++ t2) (both P1 P2).
  Proof.
    intros (m1 & H1) (m2 & H2) Hok. exists (m1 ++ m2). intros p rest Hr.
    destruct (H1 p (t2 ++ rest) (Hok _ Hr)) as (o1 & (tr1 & R1) & HP1 & Hm1).
    destruct (H2 (p + length t1) rest Hr) as (o2 & (tr2 & R2) & HP2 & Hm2).
    exists (o1 ++ o2). split; [|split; [exists o1, o2; auto|rewrite metas_app, Hm1, Hm2; reflexivity]].
    exists (tr1 ++ tr2). rewrite app_length, <- app_assoc.
    change (Yes (length t1 + length t2) (o1 ++ o2)) with (after (length t1) o1 (Yes (length t2) o2)).
    econstructor; [exact R1|]. rewrite skipn_len. exact R2.
  Qed.

  Lemma good_sequence rs id ok t P : goods rs ok t P -> good (RSequence rs id) ok t P.
  Proof.
    intros (m & H). exists m. intros p rest Hr. destruct (H p rest Hr) as (o & (tr & R) & HP).
    exists o. split; [|exact HP]. exists tr. constructor. exact R.
  Qed.

  Lemma bads_first r rs s : bad r s -> bads (r :: rs) s.
  Proof. intros H p. destruct (H p) as (tr & R). eexists. eapply reads_seq_no. exact R. Qed.

  Lemma bads_next r rs (ok : str -> Prop) t rest P : good r ok t P -> ok rest -> bads rs rest ->
    bads (r :: rs) (t ++ rest).
  Proof.
    intros (m & H) Ho Hb p. destruct (H p rest Ho) as (o & (tr & R) & _).
    destruct (Hb (p + length t)) as (tr2 & R2). eexists.
    change No with (after (length t) o No). econstructor; [exact R|]. rewrite skipn_len. exact R2.
  Qed.

  Lemma bad_sequence rs id s : bads rs s -> bad (RSequence rs id) s.
  Proof. intros H p. destruct (H p) as (tr & R). eexists. constructor. exact R. Qed.

  (** ** Leaves *)

  Lemma good_tag text inv id t : t = text ->
    good (RTag text false inv None id) (fun _ => True) t none.
  Proof.
    intros ->. exists []. intros p rest _. exists []. split; [|split; reflexivity]. eexists.
    apply (reads_tag E boot text inv None id indent_default p). exists rest. reflexivity.
  Qed.

  Lemma good_tag_prop text inv name id t : t = text ->
    good (RTag text false inv (Some name) id) (fun _ => True) t
      (fun d => exists r, d = [(r, MBool name (negb inv))]).
  Proof.
    intros ->. exists [MBool name (negb inv)]. intros p rest _. exists [(Rng p (length text), MBool name (negb inv))].
    split; [|split; [exists (Rng p (length text))|]; reflexivity]. eexists.
    apply (reads_tag E boot text inv (Some name) id indent_default p). exists rest. reflexivity.
  Qed.

  Lemma bad_tag text inv prop id s : is_prefix text s = false -> bad (RTag text false inv prop id) s.
  Proof. intros H p. eexists. apply reads_tag_no. apply is_prefix_false. exact H. Qed.

  Lemma good_not_tag text inv id (ok : str -> Prop) : (forall s, ok s -> is_prefix text s = false) ->
    good (RTag text true inv None id) ok [] none.
  Proof.
    intros H. exists []. intros p rest Hr. exists []. split; [|split; reflexivity]. eexists.
    apply (reads_not_tag E boot text inv None id indent_default p). apply is_prefix_false. apply H. exact Hr.
  Qed.

  Lemma bad_not_tag text inv prop id s : is_prefix text s = true -> bad (RTag text true inv prop id) s.
  Proof. intros H p. eexists. apply reads_not_tag_no. apply is_prefix_spec. exact H. Qed.

  (** The next character does not meet [P]. *)
  Definition stops (P : char -> Prop) (s : str) : Prop :=
    match s with [] => True | c :: _ => ~ P c end.

  Lemma stops_longest P s : stops P s -> longest P s 0.
  Proof.
    intros H. split; [apply Nat.le_0_l|]. split; [constructor|]. destruct s; intros c' Hc; inversion Hc; subst; exact H.
  Qed.

  Lemma good_white optional id w : Forall white w -> optional = true \/ w <> [] ->
    good (RWhitespace optional id) (stops white) w none.
  Proof.
    intros Hw Ho. exists []. intros p rest Hr. exists []. split; [|split; reflexivity]. eexists. constructor.
    - apply longest_of_app; [exact Hw|apply stops_longest; exact Hr].
    - destruct Ho as [Ho|Ho]; [left; exact Ho|right]. destruct w; [contradiction|cbn; lia].
  Qed.

  Lemma bad_white id s : stops white s -> bad (RWhitespace false id) s.
  Proof. intros H p. eexists. constructor. apply stops_longest. exact H. Qed.

  Lemma good_until any id t : Forall (fun c => ~ In c any) t ->
    good (RUntilAny any true None id) (stops (fun c => ~ In c any)) t none.
  Proof.
    intros Ht. exists []. intros p rest Hr. exists []. split; [|split; reflexivity]. eexists.
    apply (reads_until E boot any true None id indent_default p); [|left; reflexivity].
    apply longest_of_app; [exact Ht|apply stops_longest; exact Hr].
  Qed.

  Lemma good_name prop id n : is_name n ->
    good (RUntilAnyOrWs separators false (Some prop) id) (stops name_char) n
      (fun d => exists r, d = [(r, MString prop n)]).
  Proof.
    intros [Hne Hn]. exists [MString prop n]. intros p rest Hr. exists [(Rng p (length n), MString prop n)].
    split; [|split; [exists (Rng p (length n))|]; reflexivity]. eexists.
    assert (R := reads_until_ws E boot separators false (Some prop) id indent_default p (n ++ rest) (length n)).
    cbn [token] in R. rewrite firstn_len in R. apply R.
    - apply longest_of_app; [exact Hn|apply stops_longest; exact Hr].
    - right. destruct n; [contradiction|cbn; lia].
  Qed.

  Lemma bad_name prop id s : stops name_char s -> bad (RUntilAnyOrWs separators false prop id) s.
  Proof. intros H p. eexists. constructor. apply stops_longest. exact H. Qed.

  Lemma no_string s : hd_error s <> Some quote -> x_string E s = None.
  Proof.
    intros H. destruct (x_string E s) eqn:Hx; [|reflexivity].
    apply (x_string_bounds E HE) in Hx. destruct Hx as [_ Hx]. contradiction.
  Qed.

  Lemma bad_text b prop id s : hd_error s <> Some quote -> bad (RText b prop id) s.
  Proof. intros H p. eexists. apply reads_text_none. apply no_string. exact H. Qed.

  Lemma good_text b prop id v t : literal E v t -> b = true \/ length t <> 2 ->
    good (RText b (Some prop) id) (fun _ => True) t (fun d => exists r, d = [(r, MString prop v)]).
  Proof.
    intros (_ & H1 & H2) Hb. exists [MString prop v]. intros p rest _.
    exists [(Rng p (length t), MString prop v)].
    split; [|split; [eexists|]; reflexivity]. eexists.
    apply (reads_text E boot b (Some prop) id indent_default p); [apply H1|exact Hb|].
    rewrite firstn_len. exact H2.
  Qed.

  Lemma quoted_literal v t : string_literals_ok E -> quoted v t -> literal E v t.
  Proof.
    intros HS (c & Hc & ->). destruct (HS v c Hc) as [H1 H2]. split; [eexists; reflexivity|]. split; [|exact H2].
    intros rest. cbn [app]. rewrite <- app_assoc. cbn [app]. rewrite H1. f_equal. cbn. rewrite app_length. cbn. lia.
  Qed.

  (** ** Choices, options and references *)

  Lemma good_select pre r post id ok t P :
    good r ok t P -> (forall rest, ok rest -> Forall (fun a => bad a (t ++ rest)) pre) ->
    good (RSelect (pre ++ r :: post) id) ok t P.
  Proof.
    intros (m & H) Hpre. exists m. intros p rest Hr. destruct (H p rest Hr) as (o & (tr & R) & HP).
    exists o. split; [|exact HP]. specialize (Hpre rest Hr).
    assert (Hf : exists tr, reads_first E boot (pre ++ r :: post) indent_default p (t ++ rest)
      (Yes (length t) o) indent_default tr).
    { induction Hpre as [|a pre Ha Hpre IH].
      - eexists. apply reads_first_yes. exact R.
      - destruct IH as (tr' & IH). destruct (Ha p) as (tra & Ra). eexists. cbn [app].
        eapply reads_first_next; [exact Ra|exact IH]. }
    destruct Hf as (tr' & Hf). exists tr'. constructor; [|exact Hf]. destruct pre; discriminate.
  Qed.

  Lemma bad_select args id s : args <> [] -> Forall (fun a => bad a s) args -> bad (RSelect args id) s.
  Proof.
    intros Hne H p. assert (Hf : exists tr, reads_first E boot args indent_default p s No indent_default tr).
    { clear Hne. induction H as [|a args Ha H IH]; [eexists; constructor|].
      destruct IH as (tr' & IH). destruct (Ha p) as (tra & Ra). eexists. eapply reads_first_next; eassumption. }
    destruct Hf as (tr & Hf). exists tr. constructor; assumption.
  Qed.

  Lemma good_option r id ok t P : good r ok t P -> good (ROptional r id) ok t P.
  Proof.
    intros (m & H). exists m. intros p rest Hr. destruct (H p rest Hr) as (o & (tr & R) & HP). exists o. split; [|exact HP].
    eexists. apply reads_optional. exact R.
  Qed.

  Lemma good_option_none r id (ok : str -> Prop) : (forall rest, ok rest -> bad r rest) ->
    good (ROptional r id) ok [] none.
  Proof.
    intros H. exists []. intros p rest Hr. destruct (H rest Hr p) as (tr & R). exists []. split; [|split; reflexivity].
    eexists. eapply reads_optional_none. exact R.
  Qed.

  Lemma good_ref name i id r ok t P : nth_error boot i = Some r -> good r ok t P ->
    good (RNode name None (Some i) id) ok t P.
  Proof.
    intros Hi (m & H). exists m. intros p rest Hr. destruct (H p rest Hr) as (o & (tr & R) & HP). exists o. split; [|exact HP].
    eexists. assert (R' := reads_node E boot name None i id r indent_default p (t ++ rest) (length t) o indent_default tr Hi R).
    cbn [token app] in R'. rewrite app_nil_r in R'. exact R'.
  Qed.

  Lemma good_node name prop i id r ok t P : nth_error boot i = Some r -> good r ok t P ->
    good (RNode name (Some prop) (Some i) id) ok t (fun d => exists inner, P inner /\ node_of prop inner d).
  Proof.
    intros Hi (m & H). exists ([StartNode prop] ++ m ++ [EndNode prop]). intros p rest Hr.
    destruct (H p rest Hr) as (o & (tr & R) & HP & Hm).
    eexists. split; [eexists; apply (reads_node E boot name (Some prop) i id r indent_default p (t ++ rest) (length t) o indent_default tr Hi R)|].
    split; [exists o; split; [exact HP|]; eexists _, _; reflexivity|].
    cbn [token]. rewrite !metas_app, Hm. reflexivity.
  Qed.

  Lemma bad_node name prop i id r s : nth_error boot i = Some r -> bad r s -> bad (RNode name prop (Some i) id) s.
  Proof. intros Hi H p. destruct (H p) as (tr & R). eexists. eapply reads_node_no; eassumption. Qed.
End Reading.
