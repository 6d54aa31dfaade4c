(** Optimisation returns for valid syntaxes without left recursion, and keeps validity. *)
From Coq Require Import List NArith Bool Arith Lia.
From Verif Require Import Base Ext Types OptimizeModel DataSpec TotalSpec OptSpec OptProofs
  OptProofs2 FuelProofs PegFacts SafeProofs.
Import ListNotations.

(** Fuel that suffices from some amount on. *)
Definition eventually {A} (f : nat -> outcome A) (P : A -> Prop) : Prop :=
  exists n a, P a /\ forall m, n <= m -> f m = Done a.

Lemma eventually_bind {A B} (f : nat -> outcome A) (g : nat -> A -> outcome B) P Q :
  eventually f P -> (forall a, P a -> eventually (fun m => g m a) Q) ->
  eventually (fun m => obind (f m) (g m)) Q.
Proof.
  intros (n & a & Pa & Hf) Hg. destruct (Hg a Pa) as (n' & b & Qb & Hb).
  exists (n + n'), b. split; [exact Qb|]. intros m Hm. rewrite Hf by lia. apply Hb. lia.
Qed.

Lemma eventually_done {A} (a : A) (P : A -> Prop) : P a -> eventually (fun _ => Done a) P.
Proof. intros H. exists 0, a. auto. Qed.

Lemma eventually_weaken {A} f (P Q : A -> Prop) :
  eventually f P -> (forall a, P a -> Q a) -> eventually f Q.
Proof. intros (n & a & Pa & Hf) H. exists n, a. auto. Qed.

Lemma eventually_map {A B} (f : nat -> A -> outcome B) l (P : B -> Prop) :
  (forall x, In x l -> eventually (fun m => f m x) P) ->
  eventually (fun m => map_o (f m) l) (fun l' => Forall P l' /\ length l' = length l).
Proof.
  induction l as [|x l IH]; intros H; cbn [map_o].
  - apply eventually_done. split; [constructor|reflexivity].
  - eapply eventually_bind; [apply H; left; reflexivity|]. intros y Hy.
    eapply eventually_bind; [apply IH; intros; apply H; right; assumption|].
    intros ys [Hys Hl]. apply eventually_done. split; [constructor; assumption|]. simpl. lia.
Qed.

Lemma firstn_In {A} (l : list A) n x : In x (firstn n l) -> In x l.
Proof. intros H. rewrite <- (firstn_skipn n l). apply in_or_app. left. exact H. Qed.

Lemma skipn_In {A} (l : list A) n x : In x (skipn n l) -> In x l.
Proof. intros H. rewrite <- (firstn_skipn n l). apply in_or_app. right. exact H. Qed.

Section OptTotal.
  Variable syn : syntax.
  Hypothesis Hvalid : valid syn.
  Hypothesis Hreal : tags_real syn.

  Definition orefs := s_rules syn.

  Definition small_byte (o : option N) : Prop :=
    match o with Some b => N.to_nat b < 256 | None => True end.

  Definition byte_decided (r : rule) : Prop :=
    eventually (fun m => unique_byte m orefs r) small_byte.

  Lemma step {A} (f : nat -> outcome A) g P : eventually f P ->
    (forall m, g (S m) = f m) -> eventually g P.
  Proof.
    intros (n & a & Pa & Hf) H. exists (S n), a. split; [exact Pa|].
    intros [|m] Hm; [lia|]. rewrite H. apply Hf. lia.
  Qed.

  Lemma step_done {A} (a : A) (g : nat -> outcome A) (P : A -> Prop) : P a ->
    (forall m, g (S m) = Done a) -> eventually g P.
  Proof.
    intros Pa H. exists 1, a. split; [exact Pa|]. intros [|m] Hm; [lia|]. apply H.
  Qed.

  Lemma byte_decided_rank k (rank : nat -> nat) :
    (forall i r, nth_error orefs i = Some r -> rank i < k -> byte_decided r) ->
    forall r, occurs syn r -> (forall j, leads_to orefs r j -> rank j < k) -> byte_decided r.
  Proof.
    intros Hlow r Ho Hlead.
    (* [unique_byte] looks through two negations at once *)
    cut (byte_decided r /\ forall c id, r = RNot c id -> byte_decided c); [tauto|].
    revert Ho Hlead. induction r as [r IH] using rule_ind'. intros Ho Hlead.
    assert (Hsub' : forall c, In c (children r) -> tried_first orefs r c ->
      byte_decided c /\ forall c' id, c = RNot c' id -> byte_decided c').
    { intros c Hc Ht. apply IH; [exact Hc|eapply occurs_child; eassumption|].
      intros j Hj. apply Hlead. eapply leads_below; eassumption. }
    assert (Hsub : forall c, In c (children r) -> tried_first orefs r c -> byte_decided c)
      by (intros; apply Hsub'; assumption).
    split.
    2: { intros c id ->. apply Hsub; [left; reflexivity|]. apply first_not. }
    pose proof (Hvalid r Ho) as Hv.
    destruct r; try (eapply step_done; [|intros; reflexivity]; exact I).
    - destruct not; [eapply step_done; [|intros; reflexivity]; exact I|].
      destruct text as [|c text]; [eapply step_done; [|intros; reflexivity]; exact I|].
      eapply step_done; [|intros; reflexivity]. simpl.
      apply utf8_first_lt. apply Hreal in Ho. inversion Ho. assumption.
    - eapply step_done; [|intros; reflexivity]. simpl. lia.
    - destruct args as [|a [|b args]]; try (eapply step_done; [|intros; reflexivity]; exact I).
      eapply step; [|intros; reflexivity].
      apply Hsub; [left; reflexivity|]. apply first_select. left. reflexivity.
    - destruct args as [|a args]; [eapply step_done; [|intros; reflexivity]; exact I|].
      eapply step; [|intros; reflexivity].
      apply Hsub; [left; reflexivity|]. apply (first_sequence _ []). constructor.
    - destruct optional; [eapply step_done; [|intros; reflexivity]; exact I|].
      eapply step; [|intros; reflexivity].
      apply Hsub; [left; reflexivity|]. apply first_separate.
    - destruct optional; [eapply step_done; [|intros; reflexivity]; exact I|].
      eapply step; [|intros; reflexivity].
      apply Hsub; [left; reflexivity|]. apply first_repeat.
    - destruct index as [i|]; [|eapply step_done; [|intros; reflexivity]; exact I].
      simpl in Hv. destruct (nth_error orefs i) as [r|] eqn:Hr.
      + eapply step; [|intros; cbn [unique_byte]; rewrite Hr; reflexivity].
        apply (Hlow i r Hr). apply Hlead. apply leads_here.
      + apply nth_error_None in Hr. unfold orefs in Hr. lia.
    - destruct r; try (eapply step_done; [|intros; reflexivity]; exact I).
      eapply step; [|intros; reflexivity].
      destruct (Hsub' _ (or_introl eq_refl) (first_not _ _ _)) as [_ Hc].
      eapply Hc. reflexivity.
  Qed.

  Lemma all_byte_decided : no_left_recursion orefs -> forall r, occurs syn r -> byte_decided r.
  Proof.
    intros (rank & Hrank) r Ho.
    assert (Hk : forall k r, occurs syn r -> (forall j, leads_to orefs r j -> rank j < k) ->
      byte_decided r).
    { induction k as [k IHk] using lt_wf_ind. intros r' Ho' Hl'.
      eapply (byte_decided_rank k rank); [|exact Ho'|exact Hl'].
      intros i ri Hi Hlt. apply (IHk (rank i) Hlt).
      - apply occurs_top. eapply nth_error_In. exact Hi.
      - intros j Hj. eapply Hrank; eassumption. }
    eapply (byte_decided_rank 1 (fun _ => 0)); [|exact Ho|intros; lia].
    intros i ri Hi _. apply (Hk (rank i)).
    - apply occurs_top. eapply nth_error_In. exact Hi.
    - intros j Hj. eapply Hrank; eassumption.
  Qed.

  Lemma loop_decided args : Forall byte_decided args -> forall i data up, length data = 256 ->
    eventually (fun m => unique_loop m orefs args i data up) (fun _ => True).
  Proof.
    induction 1 as [|r rest Hr _ IH]; intros i data up Hl; cbn [unique_loop].
    - apply eventually_done. exact I.
    - destruct (255 <=? i); [apply eventually_done; exact I|].
      eapply eventually_bind; [exact Hr|]. intros [b|] Hb; [|apply eventually_done; exact I].
      simpl in Hb. destruct (nth_error data (N.to_nat b)) as [x|] eqn:Hx.
      + destruct (Nat.eqb x 255); [|apply eventually_done; exact I].
        apply IH. rewrite set_nth_length. exact Hl.
      + apply nth_error_None in Hx. lia.
  Qed.

  Lemma rule_optimizes : no_left_recursion orefs -> forall r, occurs syn r ->
    eventually (fun m => optimize_rule m orefs r) (fun _ => True).
  Proof.
    intros Hrec r. induction r as [r IH] using rule_ind'. intros Ho.
    assert (Hsub : forall c, In c (children r) ->
      eventually (fun m => optimize_rule m orefs c) (fun _ => True)).
    { intros c Hc. apply IH; [exact Hc|]. eapply occurs_child; eassumption. }
    destruct r; cbn [optimize_rule]; try (apply eventually_done; exact I).
    - eapply eventually_bind.
      + apply (loop_decided args); [|apply repeat_length].
        apply Forall_forall. intros c Hc. apply (all_byte_decided Hrec).
        eapply occurs_child; [exact Ho|exact Hc].
      + intros [table up] _. eapply eventually_bind; [apply eventually_map; exact Hsub|].
        intros args' _. destruct (up <? 2); [apply eventually_done; exact I|].
        destruct (up <? length args); apply eventually_done; exact I.
    - eapply eventually_bind; [apply eventually_map; exact Hsub|].
      intros args' _. apply eventually_done. exact I.
    - eapply eventually_bind; [apply Hsub; left; reflexivity|]. intros a _.
      eapply eventually_bind; [apply Hsub; right; left; reflexivity|]. intros b _.
      apply eventually_done. exact I.
    - eapply eventually_bind; [apply Hsub; left; reflexivity|]. intros a _. apply eventually_done. exact I.
    - eapply eventually_bind; [apply Hsub; left; reflexivity|]. intros a _. apply eventually_done. exact I.
    - eapply eventually_bind; [apply Hsub; left; reflexivity|]. intros a _. apply eventually_done. exact I.
    - eapply eventually_bind; [apply Hsub; left; reflexivity|]. intros a _. apply eventually_done. exact I.
  Qed.

  Theorem optimizes : no_left_recursion (s_rules syn) -> exists s', optimize_returns syn s'.
  Proof.
    intros Hrec.
    assert (H : eventually (fun m => optimize m syn) (fun _ => True)).
    { unfold optimize. eapply eventually_bind.
      - apply eventually_map with (P := fun _ => True). intros r Hr. apply rule_optimizes; [exact Hrec|].
        apply occurs_top. exact Hr.
      - intros rules _. apply eventually_done. exact I. }
    destruct H as (n & s' & _ & H). exists s', n. apply H. lia.
  Qed.

  (** ** Validity is kept *)

  Lemma rule_keeps_valid fuel n r : forall r', optimize_rule fuel orefs r = Done r' ->
    (forall c, occurs_in c r -> indices_valid n c) -> forall c, occurs_in c r' -> indices_valid n c.
  Proof.
    induction r as [r IH] using rule_ind'. intros r' Hopt Hin.
    assert (Hargs : forall args args', Forall2 (fun r r' => optimize_rule fuel orefs r = Done r') args args' ->
      (forall c, In c args -> In c (children r)) ->
      forall c c', In c' args' -> occurs_in c c' -> indices_valid n c).
    { intros args args' HF. induction HF as [|a a' l l' Ha _ IHl]; intros Hc c c' Hin'; [destruct Hin'|].
      destruct Hin' as [<-|Hin'].
      - apply (IH a (Hc _ (or_introl eq_refl)) a' Ha). intros d Hd. apply Hin.
        eapply occurs_below; [|exact Hd]. apply Hc. left. reflexivity.
      - apply IHl; [|exact Hin']. intros d Hd. apply Hc. right. exact Hd. }
    assert (Hone : forall a a', optimize_rule fuel orefs a = Done a' -> In a (children r) ->
      forall c, occurs_in c a' -> indices_valid n c).
    { intros a a' Ha Hc c Ho. eapply (Hargs [a] [a']); [constructor; [exact Ha|constructor]| |left; reflexivity|exact Ho].
      intros d [<-|[]]. exact Hc. }
    assert (Hhere : forall q, (forall d, In d (children q) -> forall c, occurs_in c d -> indices_valid n c) ->
      indices_valid n q -> forall c, occurs_in c q -> indices_valid n c).
    { intros q Hd Hq c Ho. destruct Ho as [|q d Hc Ho]; [exact Hq|]. eapply Hd; eassumption. }
    destruct r; cbn [optimize_rule] in Hopt; cbn [children] in *;
      try (injection Hopt as <-; exact Hin).
    - fold (optimize_rule fuel orefs (RSelect args id)) in Hopt.
      apply (opt_select_cases fuel orefs) in Hopt as (table & up & args' & Ht & Ha & ->).
      assert (Hlen : length args' = length args) by (clear - Ha; induction Ha; simpl; congruence).
      assert (Hall : forall d, In d args' -> forall c, occurs_in c d -> indices_valid n c).
      { intros d Hd c Ho. eapply Hargs; [exact Ha|auto|exact Hd|exact Ho]. }
      apply table_public in Ht as (Htl & Hu & Hua & Htab & _).
      assert (Hent : forall i, In i table -> i = 255 \/ i < up).
      { intros i Hi. apply In_nth_error in Hi as (b & Hb).
        destruct (Nat.eq_dec i 255) as [->|Hne]; [left; reflexivity|]. right.
        apply (Htab b i Hb Hne). }
      destruct (up <? 2); [apply Hhere; [exact Hall|exact I]|].
      destruct (Nat.ltb_spec up (length args)) as [Hlt|Hge].
      + apply Hhere.
        * intros d Hd. cbn [children] in Hd. apply in_app_or in Hd as [Hd|[<-|[]]].
          -- apply Hall. eapply firstn_In. exact Hd.
          -- apply Hhere; [|exact I]. intros e He. apply Hall. eapply skipn_In. exact He.
        * simpl. split; [lia|]. split.
          -- intros i Hi. apply Hent in Hi. rewrite app_length, firstn_length_le by lia. simpl. lia.
          -- intros _ Hnil. apply app_eq_nil in Hnil as [_ Hnil]. discriminate.
      + apply Hhere; [exact Hall|]. simpl. split; [lia|]. split.
        * intros i Hi. apply Hent in Hi. lia.
        * discriminate.
    - destruct (map_o _ args) as [args'| |] eqn:Ha; try discriminate. injection Hopt as <-.
      apply map_o_done in Ha. apply Hhere; [|exact I]. intros d Hd c Ho.
      eapply Hargs; [exact Ha|auto|exact Hd|exact Ho].
    - destruct (optimize_rule fuel orefs r1) as [a1| |] eqn:H1; try discriminate.
      destruct (optimize_rule fuel orefs r2) as [a2| |] eqn:H2; try discriminate. injection Hopt as <-.
      apply Hhere; [|exact I]. intros d [<-|[<-|[]]].
      + apply (Hone _ _ H1). left. reflexivity.
      + apply (Hone _ _ H2). right. left. reflexivity.
    - destruct (optimize_rule fuel orefs r) as [a| |] eqn:H1; try discriminate. injection Hopt as <-.
      apply Hhere; [|exact I]. intros d [<-|[]]. apply (Hone _ _ H1). left. reflexivity.
    - destruct (optimize_rule fuel orefs r) as [a| |] eqn:H1; try discriminate. injection Hopt as <-.
      apply Hhere; [|exact I]. intros d [<-|[]]. apply (Hone _ _ H1). left. reflexivity.
    - destruct (optimize_rule fuel orefs r) as [a| |] eqn:H1; try discriminate. injection Hopt as <-.
      apply Hhere; [|exact I]. intros d [<-|[]]. apply (Hone _ _ H1). left. reflexivity.
    - destruct (optimize_rule fuel orefs r) as [a| |] eqn:H1; try discriminate. injection Hopt as <-.
      apply Hhere; [|exact I]. intros d [<-|[]]. apply (Hone _ _ H1). left. reflexivity.
  Qed.

  Theorem optimize_keeps_valid s' : optimize_returns syn s' -> valid s'.
  Proof.
    intros (fuel & H). unfold optimize in H.
    destruct (map_o _ (s_rules syn)) as [rules| |] eqn:Hm; try discriminate. injection H as <-.
    apply map_o_done in Hm. intros c (top & Ht & Ho). simpl in *.
    assert (Hlen : length rules = length (s_rules syn)) by (clear - Hm; induction Hm; simpl; congruence).
    rewrite Hlen.
    assert (Hex : exists r, In r (s_rules syn) /\ optimize_rule fuel orefs r = Done top).
    { fold orefs in Hm. unfold orefs in Hm at 2. clear - Hm Ht. 
      induction Hm as [|x y l l' Hx _ IH]; [destruct Ht|].
      destruct Ht as [<-|Ht]; [exists x; split; [left; reflexivity|exact Hx]|].
      destruct (IH Ht) as (r & Hr & Hr'). exists r. split; [right; exact Hr|exact Hr']. }
    destruct Hex as (r & Hr & Hopt). eapply rule_keeps_valid; [exact Hopt| |exact Ho].
    intros d Hd. apply Hvalid. exists r. split; assumption.
  Qed.
End OptTotal.
