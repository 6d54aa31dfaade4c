(** The data is at most linear in the length of the text. *)
From Coq Require Import List NArith Bool Arith Lia.
From Verif Require Import Base Ext Types ParseModel PegSpec PrimProofs DataSpec PegFacts TotalSpec
  OptProofs SafeProofs TotalProofs ApiSpec ParseProofs ParsePublic SizeSpec.
Import ListNotations.

(** ** Weights *)

(** Weights of rules: following [k] references, with [z] for every sub rule. *)
Fixpoint weight (refs : list rule) (z k : nat) {struct k} : rule -> nat :=
  fix w (r : rule) : nat :=
  let ws := fix ws (l : list rule) : nat := match l with [] => 0 | a :: l' => z + w a + ws l' end in
  match r with
  | RSelect args _ | RFastSelect _ args _ _ | RSequence args _ => ws args
  | RSeparateBy a b _ _ _ => 4 * z + w a + w b
  | RRepeat a _ _ | ROptional a _ | RNot a _ => w a
  | RLines a _ _ => 2 * z + w a
  | RNode _ _ (Some i) _ =>
    2 + match k with
        | S k' => match nth_error refs i with Some r' => weight refs z k' r' | None => 0 end
        | 0 => 0
        end
  | _ => 2
  end.

Fixpoint weights (refs : list rule) (z k : nat) (l : list rule) : nat :=
  match l with [] => 0 | a :: l' => z + weight refs z k a + weights refs z k l' end.

Lemma weights_eq refs z k l :
  (fix ws (l : list rule) : nat := match l with [] => 0 | a :: l' => z + weight refs z k a + ws l' end) l = weights refs z k l.
Proof. induction l as [|a l IH]; cbn [weights]; [reflexivity|]. rewrite IH. reflexivity. Qed.

Lemma weight_args refs z k args : 
  (forall id, weight refs z k (RSelect args id) = weights refs z k args) /\
  (forall table tail id, weight refs z k (RFastSelect table args tail id) = weights refs z k args) /\
  (forall id, weight refs z k (RSequence args id) = weights refs z k args).
Proof.
  rewrite <- (weights_eq refs z k args). destruct k; split; [|split| |split]; reflexivity.
Qed.

Lemma weights_in refs z k a l : In a l -> z + weight refs z k a <= weights refs z k l.
Proof. induction l as [|x l IH]; intros H; [contradiction|]. cbn. destruct H as [->|H]; [lia|]. specialize (IH H). lia. Qed.

Lemma weight_child refs z k c r : In c (children r) -> weight refs z k c <= weight refs z k r.
Proof.
  destruct (weight_args refs z k (children r)) as (H1 & H2 & H3).
  destruct r; cbn [children] in *; intros H; try contradiction.
  - rewrite H1. apply weights_in with (z := z) (refs := refs) (k := k) in H. lia.
  - rewrite H2. apply weights_in with (z := z) (refs := refs) (k := k) in H. lia.
  - rewrite H3. apply weights_in with (z := z) (refs := refs) (k := k) in H. lia.
  - destruct H as [<-|[<-|[]]]; destruct k; cbn [weight]; lia.
  - destruct H as [<-|[]]; destruct k; cbn [weight]; lia.
  - destruct H as [<-|[]]; destruct k; cbn [weight]; lia.
  - destruct H as [<-|[]]; destruct k; cbn [weight]; lia.
  - destruct H as [<-|[]]; destruct k; cbn [weight]; lia.
Qed.

Lemma weight_below refs z k c r : occurs_in c r -> weight refs z k c <= weight refs z k r.
Proof. induction 1 as [|r c' Hc _ IH]; [lia|]. pose proof (weight_child refs z k c' r Hc). lia. Qed.

Lemma weight_occurs s z k r : occurs s r -> weight (s_rules s) z k r <= weights (s_rules s) z k (s_rules s).
Proof.
  intros (top & Hin & Ho). pose proof (weight_below (s_rules s) z k _ _ Ho).
  apply weights_in with (refs := s_rules s) (z := z) (k := k) in Hin. lia.
Qed.

Section Size.
  Variable E : ext.
  Hypothesis HE : ext_ok E.
  Variable syn : syntax.
  Hypothesis Hwf : well_formed syn.
  Variable rank : nat -> nat.
  Notation refs := (s_rules syn).
  Hypothesis Hrank : forall i r j, nth_error refs i = Some r -> leads_to refs r j -> rank j < rank i.

  (** The rule leads to ranks below [k]. *)
  Definition lower (k : nat) (r : rule) : Prop := forall j, leads_to refs r j -> j < length refs -> rank j < k.

  Lemma lower_first k r c : lower k r -> tried_first refs r c -> lower k c.
  Proof. intros H Hc j Hj Hl. apply H; [|exact Hl]. eapply leads_below; eassumption. Qed.

  Lemma lower_node k name property i id r : lower k (RNode name property (Some i) id) -> nth_error refs i = Some r ->
    exists k', k = S k' /\ lower k' r.
  Proof.
    intros H Hi. assert (Hk : rank i < k) by (apply H; [apply leads_here|apply nth_error_Some; congruence]).
    destruct k as [|k]; [lia|]. exists k. split; [reflexivity|]. intros j Hj _. specialize (Hrank i r j Hi Hj). lia.
  Qed.

  Variable K : nat.
  Hypothesis HK : forall i, i < length refs -> rank i < K.

  Lemma lower_all r : lower K r.
  Proof. intros j _ Hj. apply HK. exact Hj. Qed.

  (** Constants. *)
  Definition cz := weights refs 0 K refs.
  Definition cw := weights refs cz K refs.
  Definition cr := cw + 4 * cz.
  Definition cc := cr + cw + 4 * cz + 2.

  Lemma cc_one n : 1 <= n -> cc <= cc * n.
  Proof. intros H. nia. Qed.

  (** A rule below rank [k], read with [n] characters and [m] tokens. *)
  Definition size_at (k : nat) (r : rule) (n m : nat) : Prop :=
    (n = 0 -> m <= weight refs 0 k r) /\ (1 <= n -> m + cr <= cc * n + weight refs cz k r).

  (** Any rule of the syntax. *)
  Lemma size_any r n m : occurs syn r -> size_at K r n m -> (n = 0 -> m <= cz) /\ (1 <= n -> m + 4 * cz <= cc * n).
  Proof.
    intros Ho [H0 H1]. pose proof (weight_occurs syn 0 K r Ho) as W0. pose proof (weight_occurs syn cz K r Ho) as W1.
    fold cz in W0. fold cw in W1. unfold cr in H1. split; intros Hn; [specialize (H0 Hn)|specialize (H1 Hn)]; lia.
  Qed.

  Definition sized (r : rule) (v : verdict) : Prop :=
    match v with Yes n out => occurs syn r -> forall k, lower k r -> size_at k r n (length out) | No => True end.

  (** Rules one after the other, not the first ones. *)
  Definition seq_later (args : list rule) (v : verdict) : Prop :=
    match v with Yes n out => Forall (occurs syn) args -> length out <= cc * n + length args * cz | No => True end.
  Definition seq_first (args : list rule) (v : verdict) : Prop :=
    match v with
    | Yes n out => Forall (occurs syn) args -> forall k,
        (forall before r behind, args = before ++ r :: behind -> Forall (may_be_empty refs) before -> lower k r) ->
        (n = 0 -> length out <= weights refs 0 k args) /\ (1 <= n -> length out + cr <= cc * n + weights refs cz k args)
    | No => True
    end.
  Definition first_sized (args : list rule) (v : verdict) : Prop :=
    match v with Yes n out => exists r, In r args /\ sized r v | No => True end.
  Definition many_sized (r : rule) (n : nat) (out : list tok) : Prop :=
    occurs syn r -> ~ may_be_empty refs r ->
    length out <= cc * n /\
    forall k, lower k r -> (n = 0 -> out = []) /\ (1 <= n -> length out + cr <= cc * n + weight refs cz k r).
  Definition more_sized (r by_ : rule) (v : verdict) : Prop :=
    match v with
    | Yes n out => occurs syn r -> occurs syn by_ -> ~ (may_be_empty refs r /\ may_be_empty refs by_) ->
        length out <= cc * n + cz /\
        (~ may_be_empty refs by_ -> forall k, lower k by_ ->
         (n = 0 -> out = []) /\ (1 <= n -> length out + cr <= cc * n + weight refs cz k by_ + 2 * cz))
    | No => True
    end.
  Definition lines_sized (r : rule) (nl : bool) (v : verdict) : Prop :=
    match v with
    | Yes n out => occurs syn r ->
        (nl = false -> (n = 0 -> out = []) /\ (1 <= n -> length out + cr <= cc * n)) /\
        length out <= cc * n + cz /\
        (forall k, lower k r -> (n = 0 -> length out <= weight refs 0 k r) /\
          (1 <= n -> length out + cr <= cc * n + weight refs cz k r + 2 * cz))
    | No => True
    end.

  Lemma token_length property r mk : length (token property r mk) <= 1.
  Proof. destruct property; cbn; lia. Qed.

  Lemma after_yes n out v m o : after n out v = Yes m o -> exists m' o', v = Yes m' o' /\ m = n + m' /\ o = out ++ o'.
  Proof. destruct v as [m' o'|]; intros H; [|discriminate]. injection H as <- <-. eauto. Qed.

  Lemma reads_sizes :
    (forall r ind p s v ind' tr, reads E refs r ind p s v ind' tr -> sized r v) /\
    (forall args ind p s v ind' tr, reads_seq E refs args ind p s v ind' tr -> seq_later args v /\ seq_first args v) /\
    (forall args ind p s v ind' tr, reads_first E refs args ind p s v ind' tr -> first_sized args v) /\
    (forall r ind p s k n out ind' tr, reads_many E refs r ind p s k n out ind' tr -> many_sized r n out) /\
    (forall r by_ trail ind p s v ind' tr, reads_more E refs r by_ trail ind p s v ind' tr -> more_sized r by_ v) /\
    (forall r indented id fresh nl ind p s v ind' tr, reads_lines E refs r indented id fresh nl ind p s v ind' tr -> lines_sized r nl v) /\
    (forall r indented fresh ind p s v fresh' ind' tr, reads_line E refs r indented fresh ind p s v fresh' ind' tr -> sized r v).
  Proof.
    assert (Hleaf : forall r n m, (forall z k, weight refs z k r = 2) -> m <= 1 -> forall k, size_at k r n m).
    { intros r n m Hw Hm k. split; intros Hn; rewrite Hw; [lia|]. pose proof (cc_one n Hn). unfold cc in *. lia. }
    assert (Htok : forall r n property rg mk, (forall z k, weight refs z k r = 2) -> sized r (Yes n (token property rg mk))).
    { intros r n property rg mk Hw Ho k _. apply Hleaf; [exact Hw|apply token_length]. }
    assert (Hup : forall r c v, In c (children r) -> (forall z k, weight refs z k c <= weight refs z k r) -> tried_first refs r c -> sized c v -> sized r v).
    { intros r c [n out|] Hc Hw Ht H; [|exact I]. intros Ho k Hl. destruct (H (occurs_child _ _ _ Ho Hc) k (lower_first _ _ _ Hl Ht)) as [H0 H1].
      specialize (Hw 0 k) as W0. specialize (Hw cz k) as W1. split; intros Hn; [specialize (H0 Hn)|specialize (H1 Hn)]; lia. }
    assert (Hall : forall r n out, occurs syn r -> sized r (Yes n out) -> (n = 0 -> length out <= cz) /\ (1 <= n -> length out + 4 * cz <= cc * n)).
    { intros r n out Ho H. apply (size_any r); [exact Ho|]. apply H; [exact Ho|apply lower_all]. }
    assert (Hempty : forall r ind p s n out ind' tr, reads E refs r ind p s (Yes n out) ind' tr -> ~ may_be_empty refs r -> 1 <= n).
    { intros r ind p s n out ind' tr H Hne. destruct n; [|lia]. destruct Hne. eapply reads_empty; eassumption. }
    assert (Hdeep : forall r k v, sized r v -> sized r (after k [] v)).
    { intros r k [n out|] H; [|exact I]. cbn. intros Ho q Hq. destruct (Hall _ _ _ Ho H) as [A0 A1]. destruct (H Ho q Hq) as [H0 H1].
      split; intros Hn; [assert (n = 0) by lia; auto|]. rewrite Nat.mul_add_distr_l. destruct k as [|k]; [specialize (H1 ltac:(lia)); lia|].
      pose proof (cc_one (S k) ltac:(lia)) as Hs. unfold cc at 1 in Hs. destruct n as [|n]; [specialize (A0 eq_refl); lia|]. specialize (A1 ltac:(lia)). lia. }
    assert (Hcc : cr + cw + 4 * cz + 2 <= cc) by (unfold cc; lia).
    apply reads_mutind; intros; try exact I.
    - (* white space *) intros Ho k _. apply Hleaf; [intros z [|q]; reflexivity|cbn; lia].
    - apply Htok. intros z [|k]; reflexivity.
    - apply Htok. intros z [|k]; reflexivity.
    - apply Htok. intros z [|k]; reflexivity.
    - apply Htok. intros z [|k]; reflexivity.
    - apply Htok. intros z [|k]; reflexivity.
    - apply Htok. intros z [|k]; reflexivity.
    - (* sequence *) destruct H0 as [_ H0]. destruct v as [n out|]; [|exact I]. intros Ho k Hl.
      assert (Hc : Forall (occurs syn) args) by (apply Forall_forall; intros c Hc; eapply occurs_child; [exact Ho|exact Hc]).
      destruct (H0 Hc k) as [G0 G1].
      { intros before r behind -> He. eapply lower_first; [exact Hl|]. apply first_sequence. exact He. }
      destruct (weight_args refs 0 k args) as (_ & _ & W0). destruct (weight_args refs cz k args) as (_ & _ & W1).
      split; rewrite ?W0, ?W1; assumption.
    - (* select *) destruct v as [n out|]; [|exact I]. destruct H1 as (r & Hin & Hr). eapply Hup; [exact Hin| |apply first_select; exact Hin|exact Hr].
      intros z k. apply weight_child. exact Hin.
    - (* fast select *) eapply Hup; [| |apply first_fast|eassumption]; [cbn; apply in_or_app; right; left; reflexivity| |apply in_or_app; right; left; reflexivity].
      intros z k. apply weight_child. cbn. apply in_or_app; right; left; reflexivity.
    - apply nth_error_In in H1. eapply Hup; [exact H1| |apply first_fast; exact H1|eassumption]. intros z k. apply weight_child. exact H1.
    - eapply Hup; [| |apply first_fast|eassumption]; [cbn; apply in_or_app; right; left; reflexivity| |apply in_or_app; right; left; reflexivity].
      intros z k. apply weight_child. cbn. apply in_or_app; right; left; reflexivity.
    - (* repeat *) intros Ho q Hq. assert (Hc : occurs syn r) by (eapply occurs_child; [exact Ho|left; reflexivity]).
      destruct (H0 Hc (proj1 Hwf _ _ _ Ho)) as [_ Hm]. destruct (Hm q) as [M0 M1]; [eapply lower_first; [exact Hq|apply first_repeat]|].
      pose proof (weight_child refs cz q r (RRepeat r optional id) (or_introl eq_refl)) as Hw.
      split; intros Hn; [rewrite (M0 Hn); cbn; lia|specialize (M1 Hn); lia].
    - (* lists *) destruct v as [m out'|]; [|exact I]. cbn. intros Ho q Hq.
      assert (Hc : occurs syn r) by (eapply occurs_child; [exact Ho|left; reflexivity]).
      assert (Hb : occurs syn by_) by (eapply occurs_child; [exact Ho|right; left; reflexivity]).
      assert (Hlr : lower q r) by (eapply lower_first; [exact Hq|apply first_separate]).
      destruct (H2 Hc Hb (proj1 (proj2 Hwf) _ _ _ _ _ Ho)) as [M M1]. destruct (H0 Hc q Hlr) as [R0 R1].
      assert (Hw : forall z, weight refs z q (RSeparateBy r by_ optional trail id) = 4 * z + weight refs z q r + weight refs z q by_) by (destruct q; reflexivity).
      unfold size_at. rewrite !Hw, app_length, Nat.mul_add_distr_l. destruct n as [|n].
      + pose proof (reads_empty E HE syn _ _ _ _ _ _ _ H) as He.
        assert (Hnb : ~ may_be_empty refs by_) by (intros Hbe; exact (proj1 (proj2 Hwf) _ _ _ _ _ Ho (conj He Hbe))).
        destruct (M1 Hnb q) as [N0 N1]; [eapply lower_first; [exact Hq|apply first_separator; exact He]|].
        specialize (R0 eq_refl). destruct (Hall _ _ _ Hc H0) as [A0 _]. specialize (A0 eq_refl).
        split; intros Hn; [rewrite (N0 Hn); cbn; lia|]. specialize (N1 Hn). lia.
      + specialize (R1 ltac:(lia)). split; intros Hn; [lia|]. lia.
    - destruct optional; [|exact I]. intros Ho q Hq. split; cbn; lia.
    - (* lines *) destruct v as [n out|]; [|exact I]. intros Ho q Hq.
      assert (Hc : occurs syn r) by (eapply occurs_child; [exact Ho|left; reflexivity]).
      destruct (H0 Hc) as (_ & _ & Hl). destruct (Hl q) as [L0 L1]; [eapply lower_first; [exact Hq|apply first_lines]|].
      assert (Hw : forall z, weight refs z q (RLines r indented id) = 2 * z + weight refs z q r) by (destruct q; reflexivity).
      unfold size_at. rewrite !Hw. split; intros Hn; [specialize (L0 Hn)|specialize (L1 Hn)]; lia.
    - (* references *) intros Ho q Hq. destruct (lower_node _ _ _ _ _ _ Hq H) as (q' & -> & Hr).
      assert (Hc : occurs syn r) by (exists r; split; [eapply nth_error_In; exact H|apply occurs_here]).
      destruct (H1 Hc q' Hr) as [R0 R1]. unfold size_at. cbn [weight]. rewrite H, !app_length.
      pose proof (token_length property (Rng p 0) StartNode). pose proof (token_length property (Rng p n) EndNode).
      split; intros Hn; [specialize (R0 Hn)|specialize (R1 Hn)]; lia.
    - (* optional *) eapply Hup; [left; reflexivity| |apply first_optional|eassumption]. intros z k. apply weight_child. left. reflexivity.
    - intros Ho q Hq. split; cbn; lia.
    - intros Ho q Hq. split; cbn; lia.
    - (* the sequence *) split; cbn; [lia|]. intros _ k _. split; lia.
    - split; exact I.
    - destruct H2 as [HL HF]. destruct v as [m out'|]; [|split; exact I]. cbn in HL, HF. split; cbn; rewrite app_length, Nat.mul_add_distr_l.
      + intros Ho. apply Forall_cons_iff in Ho. destruct Ho as [Ho Hr]. specialize (HL Hr). destruct (Hall _ _ _ Ho H0) as [A0 A1].
        destruct n as [|n]; [specialize (A0 eq_refl)|specialize (A1 ltac:(lia))]; lia.
      + intros Ho k Hl. apply Forall_cons_iff in Ho. destruct Ho as [Ho Hr]. specialize (HL Hr). destruct (Hall _ _ _ Ho H0) as [A0 A1].
        destruct (H0 Ho k) as [R0 R1]; [apply (Hl [] r rest eq_refl); constructor|].
        assert (Hlen : length rest * cz <= weights refs cz k rest).
        { clear. induction rest as [|a l IH]; cbn; [lia|]. lia. }
        destruct n as [|n].
        * specialize (R0 eq_refl). specialize (A0 eq_refl). pose proof (reads_empty E HE syn _ _ _ _ _ _ _ H) as He.
          destruct (HF Hr k) as [F0 F1].
          { intros before x behind -> Hb. apply (Hl (r :: before) x behind eq_refl). constructor; assumption. }
          split; intros Hn; [specialize (F0 Hn)|specialize (F1 Hn)]; lia.
        * specialize (R1 ltac:(lia)). split; intros Hn; [lia|]. lia.
    - (* the first *) exists r. split; [left; reflexivity|assumption].
    - destruct v as [n out|]; [|exact I]. destruct H2 as (r' & Hin & Hr). exists r'. split; [right; exact Hin|exact Hr].
    - (* loops *) intros _ _. split; [cbn; lia|]. intros q _. split; [reflexivity|lia].
    - intros Ho Hne. destruct (H2 Ho Hne) as [M _]. pose proof (Hempty _ _ _ _ _ _ _ _ H Hne) as Hn. destruct (Hall _ _ _ Ho H0) as [_ A1]. specialize (A1 Hn).
      rewrite app_length, Nat.mul_add_distr_l. split; [lia|]. intros q Hq. destruct (H0 Ho q Hq) as [_ R1]. specialize (R1 Hn). split; intros Hz; [lia|lia].
    - (* separators *) cbn. intros _ _ _. split; [lia|]. intros _ q _. split; [reflexivity|lia].
    - destruct trail; [|exact I]. cbn. intros Hr Hb _. destruct (Hall _ _ _ Hb H0) as [A0 A1]. split.
      + destruct n as [|n]; [specialize (A0 eq_refl)|specialize (A1 ltac:(lia))]; lia.
      + intros Hne q Hq. pose proof (Hempty _ _ _ _ _ _ _ _ H Hne) as Hn. destruct (H0 Hb q Hq) as [_ R1]. specialize (R1 Hn). split; lia.
    - destruct v as [l out2|]; [|exact I]. cbn. intros Hr Hb Hne. destruct (H4 Hr Hb Hne) as [M _]. destruct (Hall _ _ _ Hb H0) as [A0 A1]. destruct (Hall _ _ _ Hr H2) as [B0 B1].
      rewrite !app_length, !Nat.mul_add_distr_l.
      assert (Hone : 1 <= n + m).
      { destruct n as [|n]; [|lia]. destruct m as [|m]; [|lia]. destruct Hne. split; eapply reads_empty; eassumption. }
      split.
      + destruct n as [|n]; [specialize (A0 eq_refl)|specialize (A1 ltac:(lia))]; (destruct m as [|m]; [specialize (B0 eq_refl)|specialize (B1 ltac:(lia))]); lia.
      + intros Hnb q Hq. pose proof (Hempty _ _ _ _ _ _ _ _ H Hnb) as Hn. destruct (H0 Hb q Hq) as [_ R1]. specialize (R1 Hn). split; intros Hz; [lia|].
        destruct m as [|m]; [specialize (B0 eq_refl)|specialize (B1 ltac:(lia))]; lia.
    - (* lines *) cbn. intros _. split; [|split].
      + intros _. split; [reflexivity|]. intros Hn. pose proof (cc_one _ Hn). lia.
      + lia.
      + intros q _. split; [lia|]. intros Hn. pose proof (cc_one _ Hn). lia.
    - cbn. intros _. assert (Hk : nl = false -> 1 <= k) by (intros ->; inversion H0; [lia|discriminate]). split; [|split].
      + intros Hnl. split; [reflexivity|]. intros Hn. pose proof (cc_one _ Hn). lia.
      + lia.
      + intros q _. split; [lia|]. intros Hn. pose proof (cc_one _ Hn). lia.
    - destruct v as [m out'|]; [|exact I]. cbn. intros Ho. destruct (Hall _ _ _ Ho H2) as [A0 A1]. destruct (H5 Ho) as (L0 & L1 & _).
      assert (Hk : nl = false -> 1 <= k) by (intros ->; inversion H0; [lia|discriminate]).
      assert (Hnl' : n = 0 -> nl' = false).
      { intros ->. destruct nl'; [|reflexivity]. destruct (proj1 H3 eq_refl) as (a & b & Ha & _). cbn in Ha. destruct a; discriminate. }
      rewrite app_length, !Nat.mul_add_distr_l.
      assert (Hkk : 1 <= k -> cr + cw + 4 * cz + 2 <= cc * k) by (intros Hk1; pose proof (cc_one _ Hk1); lia).
      assert (Hrest : length out + length out' <= cc * n + cc * m + cz).
      { destruct n as [|n].
        - specialize (A0 eq_refl). destruct (L0 (Hnl' eq_refl)) as [N0 N1]. destruct m as [|m]; [rewrite (N0 eq_refl); cbn; lia|]. specialize (N1 ltac:(lia)). lia.
        - specialize (A1 ltac:(lia)). lia. }
      split; [|split].
      + intros Hnl. specialize (Hkk (Hk Hnl)). specialize (Hk Hnl). split; intros Hz; [lia|lia].
      + lia.
      + intros q Hq. destruct (H2 Ho q Hq) as [R0 R1]. split; intros Hz.
        * assert (n = 0) as -> by lia. assert (m = 0) as -> by lia. destruct (L0 (Hnl' eq_refl)) as [N0 _]. rewrite (N0 eq_refl). specialize (R0 eq_refl). cbn. lia.
        * destruct k as [|k]; [|specialize (Hkk ltac:(lia)); lia]. destruct n as [|n].
          -- specialize (A0 eq_refl). destruct (L0 (Hnl' eq_refl)) as [_ N1]. specialize (N1 ltac:(lia)). lia.
          -- specialize (R1 ltac:(lia)). lia.
    - (* a line *) assumption.
    - apply Hdeep. assumption.
    - apply Hdeep. assumption.
  Qed.

  Lemma parse_size text tokens ind new : parse_returns E syn text tokens ind None (tokens ++ new) -> length new <= cc * S (length text).
  Proof.
    intros H. apply (parse_accepts E HE) in H. destruct H as (out & Ha & He). apply app_inv_head in He. subst out.
    destruct Ha as [r out ind' tr Hr Hreads].
    assert (Ho : occurs syn r).
    { destruct Hr as [rules Hr]. exists r. split; [rewrite Hr; apply in_or_app; right; left; reflexivity|apply occurs_here]. }
    destruct (size_any r _ _ Ho (proj1 reads_sizes _ _ _ _ _ _ _ Hreads Ho K (lower_all r))) as [A0 A1].
    destruct (length text) as [|n]; [specialize (A0 eq_refl); unfold cc; lia|]. specialize (A1 ltac:(lia)). lia.
  Qed.
End Size.

Theorem linear_data E (HE : ext_ok E) s : well_formed s -> exists c, forall text tokens ind new,
  parse_returns E s text tokens ind None (tokens ++ new) -> length new <= c * S (length text).
Proof.
  intros Hwf. destruct Hwf as (H1 & H2 & rank & Hrank).
  assert (HK : exists K, forall i, i < length (s_rules s) -> rank i < K).
  { induction (length (s_rules s)) as [|n [K HK]]; [exists 0; lia|]. exists (S (K + rank n)). intros i Hi.
    destruct (Nat.eq_dec i n) as [->|Hn]; [lia|]. specialize (HK i ltac:(lia)). lia. }
  destruct HK as [K HK]. exists (cc s K). intros text tokens ind new H.
  apply (parse_size E HE s) with (rank := rank) (K := K) (tokens := tokens) (ind := ind); auto.
  split; [exact H1|split; [exact H2|exists rank; exact Hrank]].
Qed.

Lemma characters_app a b : characters (a ++ b) = characters a + characters b.
Proof. induction a as [|[r m] a IH]; cbn [app characters]; [reflexivity|]. destruct m; cbn; rewrite IH; lia. Qed.

Lemma placed_characters a b out : placed a b out -> a + characters out <= b.
Proof.
  induction 1 as [a b H|a b r m rest Hm Ha Hr IH|a b o n name inner rest Ha Hi IHi Hr IHr].
  - cbn. lia.
  - unfold next_offset in *. destruct m; cbn in *; try contradiction; lia.
  - cbn. rewrite characters_app. cbn. lia.
Qed.

Theorem characters_once E (HE : ext_ok E) s text tokens ind new :
  parse_returns E s text tokens ind None (tokens ++ new) -> characters new <= length text.
Proof.
  intros H. apply (success_placed E HE) in H. destruct H as (new' & He & Hp). apply app_inv_head in He. subst new'.
  apply placed_characters in Hp. lia.
Qed.
