(** Texts of the meta language 1.0 are read as before. *)
From Coq Require Import Ascii String List NArith Bool Arith Lia.
From Verif Require Import Base Ext Types ParseModel BootstrapRules PegSpec PegProofs PegFacts PegComplete PrimProofs DataSpec OptProofs
  OccursProofs RenameProofs JsonSpec WriteSpec TextSpec TextProofs TextProofs2 TextProofs6 CompatSpec.
Import ListNotations.
Local Open Scope string_scope.
Local Open Scope list_scope.
Local Open Scope nat_scope.

(** Rule 20 of assets/self-syntax-1.0.txt, with the debug ids of today. *)
Definition REST : list rule := Eval vm_compute in
  match nth 20 boot (RSelect [] 0) with RSequence (_ :: _ :: _ :: l) _ => l | _ => [] end.
Definition lines10 : rule := RSequence (RTag (s2l ".l(") false false None 20002 :: REST) 20001.

Definition boot10 : list rule := Eval vm_compute in firstn 20 boot ++ lines10 :: skipn 21 boot.

(** The rules: of today or of 1.0. *)
Definition tab (b : bool) : list rule := if b then boot else boot10.

Lemma tab_nth b i r : i <> 20 -> nth_error boot i = Some r -> nth_error (tab b) i = Some r.
Proof.
  intros Hi H. destruct b; [exact H|]. cbn [tab].
  do 20 (destruct i as [|i]; [exact H|]). destruct i as [|i]; [lia|].
  do 2 (destruct i as [|i]; [exact H|]). destruct i; exact H.
Qed.

(** ** Rules that do not lead to rule 20 *)

Definition safe_index (i : nat) : bool := existsb (Nat.eqb i) [0; 1; 2; 4; 5; 6; 7; 8; 9; 13; 16; 17; 18].
Definition safe_node (r : rule) : bool :=
  match r with RNode _ _ (Some i) _ => safe_index i | _ => true end.
Definition safe (r : rule) : bool := all_sub safe_node r.
Definition G (k k' : nat) : Prop := k' = k /\ safe_index k = true.

Lemma safe_alike r : safe r = true -> alike eq G r r.
Proof.
  induction r as [r IH] using rule_ind'. intros H.
  assert (Hs : forall c, In c (children r) -> alike eq G c c).
  { intros c Hc. apply IH; [exact Hc|]. eapply all_sub_below; eassumption. }
  assert (Hargs : forall l, incl l (children r) -> Forall2 (alike eq G) l l).
  { induction l as [|a l IHl]; intros Hi; constructor; [apply Hs, Hi; left; reflexivity|apply IHl; intros x Hx; apply Hi; right; exact Hx]. }
  apply all_sub_here in H.
  destruct r as [| | | | | | | | | | | |name p [i|] id| |]; try (constructor; reflexivity); constructor;
    try reflexivity; try (apply Hargs, incl_refl); try (apply Hs; cbn; auto). split; [reflexivity|exact H].
Qed.

Lemma safe_tables b b' : forall k k', G k k' -> match nth_error (tab b) k, nth_error (tab b') k' with
    | Some r, Some r' => alike eq G r r' | None, None => True | _, _ => False end.
Proof.
  intros k k' [-> Hk]. unfold safe_index in Hk. apply existsb_exists in Hk. destruct Hk as (i & Hi & Heq). apply Nat.eqb_eq in Heq. subst i.
  cbn [In] in Hi. repeat (destruct Hi as [<-|Hi]; [destruct b, b'; cbv [tab boot boot10 nth_error]; apply safe_alike; vm_compute; reflexivity|]). destruct Hi.
Qed.

Lemma trel_eq out out' : trel eq out out' -> out' = out.
Proof. induction 1 as [|p p' r mk ->|a a' b b' _ -> _ ->]; reflexivity. Qed.

Lemma vrel_eq v v' : vrel eq v v' -> v' = v.
Proof. intros [|n out out' H]; [reflexivity|]. rewrite (trel_eq _ _ H). reflexivity. Qed.

Section Compat.
  Variable E : ext.
  Hypothesis HE : ext_ok E.
  Hypothesis HN : no_slash_number E.

  Lemma safe_reads b b' r ind p s v ind' tr : safe r = true ->
    reads E (tab b) r ind p s v ind' tr -> reads E (tab b') r ind p s v ind' tr.
  Proof.
    intros Hr H. destruct (proj1 (reads_alike E eq G _ _ (safe_tables b b')) _ _ _ _ _ _ _ H r (safe_alike r Hr)) as (v' & Hv & H').
    apply vrel_eq in Hv. subst v'. exact H'.
  Qed.

  (** ** Settings stay *)

  Definition plain_lines (r : rule) : bool := negb (match r with RLines _ true _ => true | _ => false end).
  Definition level (r : rule) : bool := all_sub plain_lines r.

  Lemma reads_level T : Forall (fun r => level r = true) T ->
    (forall r ind p s v ind' tr, reads E T r ind p s v ind' tr -> level r = true -> ind' = ind) /\
    (forall args ind p s v ind' tr, reads_seq E T args ind p s v ind' tr -> Forall (fun r => level r = true) args -> ind' = ind) /\
    (forall args ind p s v ind' tr, reads_first E T args ind p s v ind' tr -> Forall (fun r => level r = true) args -> ind' = ind) /\
    (forall r ind p s k n out ind' tr, reads_many E T r ind p s k n out ind' tr -> level r = true -> ind' = ind) /\
    (forall r by_ trail ind p s v ind' tr, reads_more E T r by_ trail ind p s v ind' tr -> level r = true -> level by_ = true -> ind' = ind) /\
    (forall r indented id fresh nl ind p s v ind' tr, reads_lines E T r indented id fresh nl ind p s v ind' tr ->
      level r = true -> indented = false -> ind' = ind) /\
    (forall r indented fresh ind p s v fresh' ind' tr, reads_line E T r indented fresh ind p s v fresh' ind' tr ->
      level r = true -> indented = false -> ind' = ind).
  Proof.
    intros HT.
    assert (Hc : forall r c, level r = true -> In c (children r) -> level c = true) by (intros; eapply all_sub_below; eassumption).
    assert (Hl : forall r l, level r = true -> children r = l -> Forall (fun r => level r = true) l)
      by (intros r l Hr <-; apply Forall_forall; intros; eapply Hc; eassumption).
    assert (HTn : forall i r, nth_error T i = Some r -> level r = true)
      by (intros i r Hn; rewrite Forall_forall in HT; eapply HT, nth_error_In, Hn).
    apply reads_mutind; intros; subst; try reflexivity; try discriminate.
    all: try (match goal with H : Forall _ (_ :: _) |- _ => inversion H; subst; clear H end).
    all: repeat (match goal with
      | H : level (RSequence ?a _) = true |- _ => pose proof (Hl _ a H eq_refl); clear H
      | H : level (RSelect ?a _) = true |- _ => pose proof (Hl _ a H eq_refl); clear H
      | H : level (RFastSelect _ ?a _ _) = true |- _ => pose proof (Hl _ a H eq_refl); clear H
      | H : level (RSeparateBy ?a ?b _ _ _) = true |- _ =>
        assert (level a = true) by (apply (Hc _ a H); simpl; auto);
        assert (level b = true) by (apply (Hc _ b H); simpl; auto); clear H
      | H : level (RRepeat ?a _ _) = true |- _ => assert (level a = true) by (apply (Hc _ a H); simpl; auto); clear H
      | H : level (ROptional ?a _) = true |- _ => assert (level a = true) by (apply (Hc _ a H); simpl; auto); clear H
      | H : level (RNot ?a _) = true |- _ => assert (level a = true) by (apply (Hc _ a H); simpl; auto); clear H
      | H : level (RLines ?a ?b _) = true |- _ =>
        assert (b = false) by (destruct b; [discriminate (all_sub_here _ _ H)|reflexivity]);
        assert (level a = true) by (apply (Hc _ a H); simpl; auto); clear H
      | H : nth_error _ _ = Some _ |- _ => apply HTn in H
      | H : Forall (fun r => level r = true) ?l, H' : nth_error ?l _ = Some ?r |- _ =>
        assert (level r = true) by (rewrite Forall_forall in H; eapply H, nth_error_In, H'); clear H'
      end).
    all: try match goal with
      | H : Forall _ (?l ++ [?r]) |- _ =>
        assert (level r = true) by (rewrite Forall_forall in H; apply H, in_or_app; right; left; reflexivity)
      end.
    all: repeat match goal with
      | H : level ?a = true -> _, H' : level ?a = true |- _ => specialize (H H')
      | H : Forall _ ?a -> _, H' : Forall _ ?a |- _ => specialize (H H')
      | H : ?b = false -> _, H' : ?b = false |- _ => specialize (H H')
      | H : false = false -> _ |- _ => specialize (H eq_refl)
      end; try congruence.
  Qed.

  Lemma tab_level b : Forall (fun r => level r = true) (tab b).
  Proof. apply Forall_forall. apply forallb_forall. destruct b; vm_compute; reflexivity. Qed.

  Lemma level_ind b r ind p s v ind' tr : level r = true -> reads E (tab b) r ind p s v ind' tr -> ind' = ind.
  Proof. intros H R. exact (proj1 (reads_level _ (tab_level b)) _ _ _ _ _ _ _ R H). Qed.

  (** ** Reading with one of the tables *)

  Definition rdt (b : bool) (r : rule) (p : nat) (s : str) (v : verdict) : Prop :=
    exists tr, reads E (tab b) r indent_default p s v indent_default tr.
  Definition rdts (b : bool) (rs : list rule) (p : nat) (s : str) (v : verdict) : Prop :=
    exists tr, reads_seq E (tab b) rs indent_default p s v indent_default tr.
  Definition rdtf (b : bool) (rs : list rule) (p : nat) (s : str) (v : verdict) : Prop :=
    exists tr, reads_first E (tab b) rs indent_default p s v indent_default tr.

  Lemma rdt_boot r p s v : rdt true r p s v <-> rd E r p s v.
  Proof. split; intros H; exact H. Qed.

  Lemma rdt_unique b r p s v w : rdt b r p s v -> rdt b r p s w -> v = w.
  Proof. intros (tr & H) (tr' & H'). exact (proj1 (reads_deterministic E _ _ _ _ _ _ _ _ _ _ _ H H')). Qed.

  Lemma rdt_safe b b' r p s v : safe r = true -> rdt b r p s v -> rdt b' r p s v.
  Proof. intros Hs (tr & H). exists tr. exact (safe_reads b b' r _ _ _ _ _ _ Hs H). Qed.

  Lemma rdt_reads b r p s v ind' tr : level r = true -> reads E (tab b) r indent_default p s v ind' tr -> rdt b r p s v.
  Proof. intros Hl H. assert (ind' = indent_default) by (eapply level_ind; eassumption). subst ind'. exists tr. exact H. Qed.

  Lemma seq_yes b r rs p s n out : level r = true -> rdts b (r :: rs) p s (Yes n out) ->
    exists n1 o1 n2 o2, n = n1 + n2 /\ out = o1 ++ o2 /\ rdt b r p s (Yes n1 o1) /\ rdts b rs (p + n1) (skipn n1 s) (Yes n2 o2).
  Proof.
    intros Hl (tr & H). inversion H; subst. match goal with X : after _ _ ?v = Yes _ _ |- _ => destruct v as [n2 o2|]; [|discriminate X]; injection X as <- <- end.
    assert (ind1 = indent_default) by (eapply level_ind; eassumption). subst ind1.
    eexists _, _, _, _. split; [reflexivity|]. split; [reflexivity|]. split; eexists; eassumption.
  Qed.

  Lemma seq_make b r rs p s n1 o1 n2 o2 : rdt b r p s (Yes n1 o1) -> rdts b rs (p + n1) (skipn n1 s) (Yes n2 o2) ->
    rdts b (r :: rs) p s (Yes (n1 + n2) (o1 ++ o2)).
  Proof.
    intros (tr1 & H1) (tr2 & H2). eexists. change (Yes (n1 + n2) (o1 ++ o2)) with (after n1 o1 (Yes n2 o2)).
    econstructor; eassumption.
  Qed.

  Lemma sequence_yes b rs id p s v : rdt b (RSequence rs id) p s v <-> rdts b rs p s v.
  Proof. split; intros (tr & H); [inversion H; subst; eexists; eassumption|eexists; constructor; exact H]. Qed.

  Lemma node_yes b name prop i id r p s n out : nth_error (tab b) i = Some r -> level r = true ->
    rdt b (RNode name prop (Some i) id) p s (Yes n out) ->
    exists o, rdt b r p s (Yes n o) /\ out = token prop (Rng p 0) StartNode ++ o ++ token prop (Rng p n) EndNode.
  Proof.
    intros Hi Hl (tr & H). inversion H; subst.
    match goal with X : nth_error _ _ = Some _, Y : reads _ _ ?r0 _ _ _ _ _ _ |- _ => assert (r0 = r) by congruence; subst r0 end.
    eexists. split; [eexists; eassumption|reflexivity].
  Qed.

  Lemma node_make b name prop i id r p s n o : nth_error (tab b) i = Some r -> rdt b r p s (Yes n o) ->
    rdt b (RNode name prop (Some i) id) p s (Yes n (token prop (Rng p 0) StartNode ++ o ++ token prop (Rng p n) EndNode)).
  Proof. intros Hi (tr & H). exists tr. econstructor; eassumption. Qed.

  Lemma node_no b name prop i id r p s : nth_error (tab b) i = Some r -> rdt b r p s No -> rdt b (RNode name prop (Some i) id) p s No.
  Proof. intros Hi (tr & H). exists tr. econstructor; eassumption. Qed.

  Lemma seq_tag_no b text inv prop id1 rs id p s : ~ starts_with s text ->
    rdt b (RSequence (RTag text false inv prop id1 :: rs) id) p s No.
  Proof. intros H. eexists. apply reads_sequence, reads_seq_no, reads_tag_no. exact H. Qed.

  Lemma tag_yes b text inv prop id p s n out : rdt b (RTag text false inv prop id) p s (Yes n out) -> starts_with s text /\ n = length text.
  Proof. intros (tr & H). inversion H; subst. auto. Qed.

  (** The first alternative that does not fail. *)
  Lemma first_yes b pre r post p s n out : Forall (fun a => rdt b a p s No) pre -> rdt b r p s (Yes n out) ->
    rdtf b (pre ++ r :: post) p s (Yes n out).
  Proof.
    intros Hp (tr & Hr). induction Hp as [|a pre (tr1 & Ha) _ (tr2 & IH)]; cbn [app].
    - exists tr. constructor. exact Hr.
    - eexists. eapply reads_first_next; eassumption.
  Qed.

  Lemma first_inv b rs p s n out : Forall (fun a => level a = true) rs -> rdtf b rs p s (Yes n out) ->
    exists pre r post, rs = pre ++ r :: post /\ Forall (fun a => rdt b a p s No) pre /\ rdt b r p s (Yes n out).
  Proof.
    induction rs as [|a rs IH]; intros Hl (tr & H); inversion Hl; subst; inversion H; subst.
    - exists [], a, rs. split; [reflexivity|]. split; [constructor|eexists; eassumption].
    - assert (ind1 = indent_default) by (eapply level_ind; eassumption). subst ind1.
      destruct (IH ltac:(assumption)) as (pre & r & post & -> & Hpre & Hr); [eexists; eassumption|].
      exists (a :: pre), r, post. split; [reflexivity|]. split; [|exact Hr]. constructor; [eexists; eassumption|exact Hpre].
  Qed.

  Lemma select_yes b rs id p s n out : rdt b (RSelect rs id) p s (Yes n out) <-> rdtf b rs p s (Yes n out).
  Proof.
    split; intros (tr & H); [inversion H; subst; eexists; eassumption|]. eexists. constructor; [|exact H].
    intros ->. inversion H.
  Qed.

  Lemma select_no b rs id p s : rs <> [] -> Forall (fun a => rdt b a p s No) rs -> rdt b (RSelect rs id) p s No.
  Proof.
    intros Hne Hp. assert (H : rdtf b rs p s No).
    { clear Hne. induction Hp as [|a rs (tr1 & Ha) _ (tr2 & IH)]; eexists; [constructor|eapply reads_first_next; eassumption]. }
    destruct H as (tr & H). eexists. constructor; [exact Hne|exact H].
  Qed.

  Lemma select_no_inv b rs id p s : Forall (fun a => level a = true) rs -> rdt b (RSelect rs id) p s No -> Forall (fun a => rdt b a p s No) rs.
  Proof.
    intros Hl (tr & H). inversion H; subst; [|constructor]. clear H.
    match goal with X : reads_first _ _ _ _ _ _ _ _ _ |- _ => revert tr X end.
    induction rs as [|a rs IH]; intros tr X; [constructor|]. inversion Hl; subst. inversion X; subst.
    assert (ind1 = indent_default) by (eapply level_ind; eassumption). subst ind1.
    constructor; [eexists; eassumption|]. destruct rs; [constructor|]. eapply IH; [assumption|discriminate|eassumption].
  Qed.
End Compat.
