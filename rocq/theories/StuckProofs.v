(** Optimisation runs forever exactly when a select is stuck. *)
From Coq Require Import List NArith Bool Arith Lia.
From Verif Require Import Base Ext Types OptimizeModel DataSpec TotalSpec OptSpec OptProofs
  OptProofs2 FuelProofs PegFacts SafeProofs OptTotal StuckSpec.
Import ListNotations.

Lemma starts_with_unique r a b : starts_with r a -> starts_with r b -> a = b.
Proof. intros H K. destruct H; inversion K; reflexivity. Qed.

Lemma starts_with_dec r : (exists a, starts_with r a) \/ forall a, ~ starts_with r a.
Proof.
  destruct r; try (right; intros a H; inversion H; fail).
  - destruct args as [|a [|b l]]; [right; intros x H; inversion H| |right; intros x H; inversion H].
    left. exists a. constructor.
  - destruct args as [|a l]; [right; intros x H; inversion H|]. left. exists a. constructor.
  - destruct optional; [right; intros x H; inversion H|]. left. eexists. constructor.
  - destruct optional; [right; intros x H; inversion H|]. left. eexists. constructor.
  - destruct r; try (right; intros x H; inversion H; fail). left. eexists. constructor.
Qed.

Lemma starts_with_occurs r a : starts_with r a -> occurs_in a r.
Proof.
  intros H. destruct H; try (eapply occurs_below; [left; reflexivity|apply occurs_here]).
  eapply occurs_below; [left; reflexivity|]. eapply occurs_below; [left; reflexivity|apply occurs_here].
Qed.

(** Induction along the first items. *)
Lemma item_ind (P : rule -> Prop) :
  (forall r, (forall a, starts_with r a -> P a) -> P r) -> forall r, P r.
Proof.
  intros H r. cut (P r /\ forall c id, r = RNot c id -> P c); [tauto|].
  induction r as [r IH] using rule_ind'.
  assert (Hc : forall c, In c (children r) -> P c) by (intros c Hc; apply IH; exact Hc).
  split; [|intros c id ->; apply Hc; left; reflexivity].
  apply H. intros a Ha. destruct Ha; try (apply Hc; left; reflexivity).
  destruct (IH (RNot r id) (or_introl eq_refl)) as [_ K]. eapply K. reflexivity.
Qed.

Lemma ref_dec r : (exists i, starts_with_ref r i) \/ forall i, ~ starts_with_ref r i.
Proof.
  induction r as [r IH] using item_ind. destruct (starts_with_dec r) as [[a Ha]|Hn].
  - destruct (IH a Ha) as [[i Hi]|Hi].
    + left. exists i. eapply swr_item; eassumption.
    + right. intros i H. inversion H; subst; [inversion Ha|].
      match goal with K : starts_with r _ |- _ => rewrite (starts_with_unique _ _ _ Ha K) in Hi end.
      eapply Hi. eassumption.
  - destruct r; try (right; intros i H; inversion H; subst; eapply Hn; eassumption).
    destruct index as [i|]; [left; exists i; constructor|].
    right. intros i H. inversion H; subst. eapply Hn. eassumption.
Qed.

Lemma reaches_trans refs r i ri j : reaches refs r i -> nth_error refs i = Some ri ->
  reaches refs ri j -> reaches refs r j.
Proof.
  intros H. revert ri j. induction H as [r i H|r i ri' k H Hn _ IH]; intros ri j Hi Hj.
  - eapply reaches_on; eassumption.
  - eapply reaches_on; [exact H|exact Hn|]. eapply IH; eassumption.
Qed.

Section Bytes.
  Variable refs : list rule.

  Lemma ub_item r a : starts_with r a -> forall m, unique_byte (S m) refs r = unique_byte m refs a.
  Proof. intros H m. destruct H; reflexivity. Qed.

  Lemma ub_ref r i : starts_with_ref r i -> forall ri, nth_error refs i = Some ri ->
    exists k, forall m, unique_byte m refs r =
      if m <=? k then OutOfFuel else unique_byte (m - S k) refs ri.
  Proof.
    induction 1 as [name property i id|r a i Ha _ IH]; intros ri Hi.
    - exists 0. intros [|m]; [reflexivity|]. cbn [unique_byte]. rewrite Hi. cbn.
      rewrite Nat.sub_0_r. reflexivity.
    - destruct (IH ri Hi) as (k & Hk). exists (S k). intros [|m]; [reflexivity|].
      rewrite (ub_item r a Ha), Hk. reflexivity.
  Qed.

  Lemma ub_reaches r i : reaches refs r i -> forall ri, nth_error refs i = Some ri ->
    exists k, forall m, unique_byte m refs r =
      if m <=? k then OutOfFuel else unique_byte (m - S k) refs ri.
  Proof.
    induction 1 as [r i H|r i ri' j H Hn _ IH]; intros ri Hi.
    - eapply ub_ref; eassumption.
    - destruct (IH ri Hi) as (k & Hk). destruct (ub_ref _ _ H _ Hn) as (k' & Hk').
      exists (S (k + k')). intros m. rewrite Hk', Hk.
      destruct (Nat.leb_spec m k'); destruct (Nat.leb_spec m (S (k + k')));
        destruct (Nat.leb_spec (m - S k') k); try reflexivity; try lia.
      f_equal. lia.
  Qed.

  Lemma endless_diverges r : endless refs r -> forall m, unique_byte m refs r = OutOfFuel.
  Proof.
    intros (i & ri & H & Hi & Hc) m.
    assert (Hd : forall m, unique_byte m refs ri = OutOfFuel).
    { destruct (ub_reaches _ _ Hc _ Hi) as (k & Hk). clear m. intros m.
      induction m as [m IH] using lt_wf_ind. rewrite Hk.
      destruct (Nat.leb_spec m k); [reflexivity|]. apply IH. lia. }
    destruct (ub_reaches _ _ H _ Hi) as (k & Hk). rewrite Hk, Hd. destruct (m <=? k); reflexivity.
  Qed.

  Lemma begins_byte r b : begins refs r b ->
    exists k, forall m, unique_byte m refs r = if m <=? k then OutOfFuel else Done (Some b).
  Proof.
    induction 1 as [c text inverted property id|allow property id|r a b Ha _ (k & Hk)|name property i id r b Hi _ (k & Hk)].
    - exists 0. intros [|m]; reflexivity.
    - exists 0. intros [|m]; reflexivity.
    - exists (S k). intros [|m]; [reflexivity|]. rewrite (ub_item _ _ Ha), Hk. reflexivity.
    - exists (S k). intros [|m]; [reflexivity|]. cbn [unique_byte]. rewrite Hi, Hk. reflexivity.
  Qed.

  Lemma byte_begins m : forall r b, unique_byte m refs r = Done (Some b) -> begins refs r b.
  Proof.
    induction m as [|m IH]; intros r b H; [discriminate|].
    destruct (starts_with_dec r) as [[a Ha]|Hn].
    - rewrite (ub_item _ _ Ha) in H. eapply begins_item; [exact Ha|]. apply IH. exact H.
    - destruct r; cbn [unique_byte] in H; try discriminate.
      + destruct not; [discriminate|]. destruct text as [|c text]; [discriminate|].
        injection H as <-. constructor.
      + injection H as <-. constructor.
      + destruct args as [|a [|]]; try discriminate. exfalso. eapply Hn. constructor.
      + destruct args as [|a]; try discriminate. exfalso. eapply Hn. constructor.
      + destruct optional; [discriminate|]. exfalso. eapply Hn. constructor.
      + destruct optional; [discriminate|]. exfalso. eapply Hn. constructor.
      + destruct index as [i|]; [|discriminate]. destruct (nth_error refs i) as [r|] eqn:Hi; [|discriminate].
        eapply begins_ref; [exact Hi|]. apply IH. exact H.
      + destruct r; try discriminate. exfalso. eapply Hn. constructor.
  Qed.
End Bytes.

Section Stuck.
  Variable syn : syntax.
  Hypothesis Hvalid : valid syn.
  Hypothesis Hreal : tags_real syn.

  Let refs := s_rules syn.

  Lemma occurs_trans a r : occurs_in a r -> occurs syn r -> occurs syn a.
  Proof.
    intros H. induction H as [|r c Hc _ IH]; intros Ho; [exact Ho|].
    apply IH. eapply occurs_child; eassumption.
  Qed.

  Lemma ref_occurs r i : starts_with_ref r i -> occurs syn r -> i < length refs.
  Proof.
    induction 1 as [name property i id|r a i Ha _ IH]; intros Ho.
    - exact (Hvalid _ Ho).
    - apply IH. eapply occurs_trans; [|exact Ho]. apply starts_with_occurs. exact Ha.
  Qed.

  Lemma small_unless_ref r : occurs syn r -> (forall i, ~ starts_with_ref r i) -> byte_decided syn r.
  Proof.
    induction r as [r IH] using item_ind. intros Ho Hn.
    destruct (starts_with_dec r) as [[a Ha]|Hs].
    - eapply step; [apply (IH a Ha)|intros m; apply (ub_item (orefs syn) _ _ Ha)].
      + eapply occurs_trans; [apply starts_with_occurs; exact Ha|exact Ho].
      + intros i Hi. eapply Hn. eapply swr_item; eassumption.
    - destruct r; try (eapply step_done; [|intros; reflexivity]; exact I).
      + destruct not; [eapply step_done; [|intros; reflexivity]; exact I|].
        destruct text as [|c text]; [eapply step_done; [|intros; reflexivity]; exact I|].
        eapply step_done; [|intros; reflexivity]. simpl.
        apply utf8_first_lt. apply Hreal in Ho. inversion Ho. assumption.
      + eapply step_done; [|intros; reflexivity]. simpl. lia.
      + destruct args as [|a [|]]; try (eapply step_done; [|intros; reflexivity]; exact I).
        exfalso. eapply Hs. constructor.
      + destruct args as [|a]; try (eapply step_done; [|intros; reflexivity]; exact I).
        exfalso. eapply Hs. constructor.
      + destruct optional; [eapply step_done; [|intros; reflexivity]; exact I|].
        exfalso. eapply Hs. constructor.
      + destruct optional; [eapply step_done; [|intros; reflexivity]; exact I|].
        exfalso. eapply Hs. constructor.
      + destruct index as [i|]; [|eapply step_done; [|intros; reflexivity]; exact I].
        exfalso. eapply Hn. constructor.
      + destruct r; try (eapply step_done; [|intros; reflexivity]; exact I).
        exfalso. eapply Hs. constructor.
  Qed.

  Lemma ref_decided r i ri : starts_with_ref r i -> nth_error refs i = Some ri ->
    byte_decided syn ri -> byte_decided syn r.
  Proof.
    intros H Hi (n & a & Pa & Hf). destruct (ub_ref refs r i H ri Hi) as (k & Hk).
    exists (S (k + n)), a. split; [exact Pa|]. intros m Hm. fold refs in Hk. unfold orefs. fold refs.
    rewrite Hk. destruct (Nat.leb_spec m k); [lia|]. apply Hf. lia.
  Qed.

  (** Following references, with the rules seen on the way. *)
  Lemma walk n : forall seen c rc, length refs - length seen <= n ->
    nth_error refs c = Some rc -> In c seen -> NoDup seen -> (forall j, In j seen -> j < length refs) ->
    (forall j, In j seen -> exists rj, nth_error refs j = Some rj /\ (j = c \/ reaches refs rj c)) ->
    byte_decided syn rc \/
    exists i ri, (i = c \/ reaches refs rc i) /\ nth_error refs i = Some ri /\ reaches refs ri i.
  Proof.
    induction n as [|n IH]; intros seen c rc Hn Hc Hin Hd Hlt Hseen;
      assert (Ho : occurs syn rc) by (apply occurs_top; eapply nth_error_In; exact Hc);
      (destruct (ref_dec rc) as [[i Hi]|Hi]; [|left; apply small_unless_ref; assumption]);
      pose proof (ref_occurs _ _ Hi Ho) as Hil;
      (destruct (nth_error refs i) as [ri|] eqn:Hri; [|apply nth_error_None in Hri; lia]);
      (destruct (in_dec Nat.eq_dec i seen) as [Hs|Hs];
       [right; exists i, ri; split; [right; apply reaches_ref; exact Hi|]; split; [exact Hri|];
        destruct (Hseen i Hs) as (rj & Hj & Hjc); rewrite Hri in Hj; injection Hj as <-;
        destruct Hjc as [->|Hjc];
        [rewrite Hri in Hc; injection Hc as ->; apply reaches_ref; exact Hi|];
        eapply reaches_trans; [exact Hjc|exact Hc|apply reaches_ref; exact Hi]|]).
    - exfalso.
      assert (Hl : length (i :: seen) <= length (seq 0 (length refs))).
      { apply NoDup_incl_length; [constructor; assumption|]. intros j [<-|Hj]; apply in_seq; [lia|].
        apply Hlt in Hj. lia. }
      rewrite seq_length in Hl. simpl in Hl. lia.
    - destruct (IH (i :: seen) i ri) as [Hdec|(j & rj & Hj & Hrj & Hcyc)].
      + simpl. lia.
      + exact Hri.
      + left. reflexivity.
      + constructor; assumption.
      + intros j [<-|Hj]; [exact Hil|apply Hlt; exact Hj].
      + intros j [<-|Hj]; [exists ri; split; [exact Hri|left; reflexivity]|].
        destruct (Hseen j Hj) as (rj & Hrj & Hjc). exists rj. split; [exact Hrj|]. right.
        destruct Hjc as [->|Hjc].
        * rewrite Hrj in Hc. injection Hc as ->. apply reaches_ref. exact Hi.
        * eapply reaches_trans; [exact Hjc|exact Hc|apply reaches_ref; exact Hi].
      + left. eapply ref_decided; eassumption.
      + right. exists j, rj. split; [|split; assumption]. right. destruct Hj as [->|Hj].
        * apply reaches_ref. exact Hi.
        * eapply reaches_on; eassumption.
  Qed.

  Lemma byte_or_endless r : occurs syn r -> byte_decided syn r \/ endless refs r.
  Proof.
    intros Ho. destruct (ref_dec r) as [[i Hi]|Hi]; [|left; apply small_unless_ref; assumption].
    pose proof (ref_occurs _ _ Hi Ho) as Hil.
    destruct (nth_error refs i) as [ri|] eqn:Hri; [|apply nth_error_None in Hri; lia].
    destruct (walk (length refs) [i] i ri) as [Hd|(j & rj & Hj & Hrj & Hcyc)].
    - lia.
    - exact Hri.
    - left. reflexivity.
    - constructor; [intros []|constructor].
    - intros j [<-|[]]. exact Hil.
    - intros j [<-|[]]. exists ri. split; [exact Hri|left; reflexivity].
    - left. eapply ref_decided; eassumption.
    - right. exists j, rj. split; [|split; assumption]. destruct Hj as [->|Hj].
      + apply reaches_ref. exact Hi.
      + eapply reaches_on; eassumption.
  Qed.

  (** ** Selects *)

  (** The entries of the bytes seen are set. *)
  Definition table_of (bytes : list N) (data : list nat) : Prop :=
    length data = 256 /\ forall b, N.to_nat b < 256 ->
      (nth_error data (N.to_nat b) = Some 255 <-> ~ In b bytes).

  Lemma table_start : table_of [] (repeat 255 256).
  Proof.
    split; [apply repeat_length|]. intros b Hb. split; [intros _ []|]. intros _.
    apply List.nth_error_repeat. exact Hb.
  Qed.

  Lemma table_step bytes data b i : table_of bytes data -> N.to_nat b < 256 -> i < 255 ->
    table_of (b :: bytes) (set_nth data (N.to_nat b) i).
  Proof.
    intros [Hl Ht] Hb Hi. split; [rewrite set_nth_length; exact Hl|]. intros b' Hb'.
    destruct (N.eq_dec b b') as [<-|Hne].
    - rewrite set_nth_same by lia. split; [intros [= E]; lia|]. intros H. exfalso. apply H. left. reflexivity.
    - rewrite set_nth_other by lia. rewrite Ht by exact Hb'. simpl. intuition.
  Qed.

  Lemma begins_small r b : occurs syn r -> begins refs r b -> N.to_nat b < 256.
  Proof.
    intros Ho H. induction H as [c text inverted property id|allow property id|r a b Ha _ IH|name property i id r b Hi _ IH].
    - apply utf8_first_lt. apply Hreal in Ho. inversion Ho. assumption.
    - lia.
    - apply IH. eapply occurs_trans; [apply starts_with_occurs; exact Ha|exact Ho].
    - apply IH. apply occurs_top. eapply nth_error_In. exact Hi.
  Qed.

  (** The rest of the loop is stuck. *)
  Definition stuck_from (bytes0 : list N) (i : nat) (args : list rule) : Prop :=
    exists before r behind bytes, args = before ++ r :: behind /\ i + length before < 255 /\
      Forall2 (begins refs) before bytes /\ NoDup bytes /\ (forall b, In b bytes -> ~ In b bytes0) /\
      endless refs r.

  Lemma loop_or_stuck args : (forall r, In r args -> occurs syn r) -> forall bytes0 i data up,
    table_of bytes0 data ->
    eventually (fun m => unique_loop m refs args i data up) (fun _ => True) \/
    stuck_from bytes0 i args.
  Proof.
    induction args as [|r rest IH]; intros Hocc bytes0 i data up Ht; cbn [unique_loop].
    - left. apply eventually_done. exact I.
    - destruct (Nat.leb_spec 255 i) as [Hi|Hi]; [left; apply eventually_done; exact I|].
      destruct (byte_or_endless r (Hocc _ (or_introl eq_refl))) as [Hd|He].
      2: { right. exists [], r, rest, []. split; [reflexivity|].
           split; [simpl; lia|]. split; [constructor|]. split; [constructor|].
           split; [intros b []|exact He]. }
      destruct Hd as (n & ub & Hub & Hf). fold refs in Hf. unfold orefs in Hf. fold refs in Hf.
      destruct ub as [b|].
      2: { left. exists n, (data, up). split; [exact I|]. intros m Hm. rewrite Hf by exact Hm. reflexivity. }
      simpl in Hub. pose proof Ht as [Hl He].
      destruct (nth_error data (N.to_nat b)) as [x|] eqn:Hx; [|apply nth_error_None in Hx; lia].
      destruct (Nat.eqb_spec x 255) as [->|Hne].
      2: { left. exists n, (data, up). split; [exact I|]. intros m Hm. rewrite Hf by exact Hm.
           cbn [obind]. rewrite Hx. destruct (Nat.eqb_spec x 255); [contradiction|reflexivity]. }
      destruct (IH (fun q Hq => Hocc q (or_intror Hq)) (b :: bytes0) (S i)
                  (set_nth data (N.to_nat b) i) (i + 1)) as [(n' & res & _ & Hf')|Hs].
      + apply table_step; [exact Ht|exact Hub|exact Hi].
      + left. exists (n + n'), res. split; [exact I|]. intros m Hm. rewrite Hf by lia. cbn [obind].
        rewrite Hx, Nat.eqb_refl. apply Hf'. lia.
      + right. destruct Hs as (before & q & behind & bytes & -> & Hlen & Hb & Hnd & Hnot & Hq).
        exists (r :: before), q, behind, (b :: bytes). split; [reflexivity|]. split; [|split; [|split; [|split]]].
        * simpl. lia.
        * constructor; [|exact Hb]. apply (byte_begins refs n). apply Hf. lia.
        * constructor; [|exact Hnd]. intros K. apply (Hnot b K). left. reflexivity.
        * intros b' [<-|Hb']; [apply He; [exact Hub|exact Hx]|].
          intros K. apply (Hnot b' Hb'). right. exact K.
        * exact Hq.
  Qed.

  Lemma stuck_loop before : forall bytes r behind bytes0 i data up m,
    (forall q, In q before -> occurs syn q) ->
    table_of bytes0 data -> i + length before < 255 -> Forall2 (begins refs) before bytes ->
    NoDup bytes -> (forall b, In b bytes -> ~ In b bytes0) -> endless refs r ->
    unique_loop m refs (before ++ r :: behind) i data up = OutOfFuel.
  Proof.
    induction before as [|q before IH]; intros bytes r behind bytes0 i data up m Hocc Ht Hl Hb Hnd Hnot He.
    - cbn [app unique_loop]. simpl in Hl. destruct (Nat.leb_spec 255 i); [lia|].
      rewrite (endless_diverges refs r He). reflexivity.
    - inversion Hb as [|? b ? bytes' Hq Hb']; subst. inversion Hnd as [|? ? Hni Hnd']; subst.
      cbn [app unique_loop]. simpl in Hl. destruct (Nat.leb_spec 255 i); [lia|].
      destruct (begins_byte refs q b Hq) as (k & Hk). rewrite Hk.
      destruct (m <=? k); [reflexivity|]. cbn [obind].
      assert (Hsm : N.to_nat b < 256) by (eapply begins_small; [apply Hocc; left; reflexivity|exact Hq]).
      destruct Ht as [Hlen Hent] eqn:Hte. rewrite (proj2 (Hent b Hsm)) by (apply Hnot; left; reflexivity).
      rewrite Nat.eqb_refl. apply (IH bytes' r behind (b :: bytes0)); try assumption.
      + intros p Hp. apply Hocc. right. exact Hp.
      + apply table_step; [exact Ht|exact Hsm|lia].
      + lia.
      + intros b' Hb'' [<-|K]; [contradiction|]. apply (Hnot b'); [right; exact Hb''|exact K].
  Qed.

  (** ** Rules *)

  Definition no_fast_in (r : rule) : Prop :=
    forall table args tail id, ~ occurs_in (RFastSelect table args tail id) r.

  Definition stuck_in (r : rule) : Prop :=
    exists args id, occurs_in (RSelect args id) r /\ stuck_select refs args.

  Lemma map_or_stuck {B} (f : nat -> rule -> outcome B) l (Q : Prop) :
    (forall x, In x l -> eventually (fun m => f m x) (fun _ => True) \/ Q) ->
    eventually (fun m => map_o (f m) l) (fun _ => True) \/ Q.
  Proof.
    induction l as [|x l IH]; intros H; cbn [map_o]; [left; apply eventually_done; exact I|].
    destruct (H x (or_introl eq_refl)) as [Hx|Hq]; [|right; exact Hq].
    destruct IH as [Hl|Hq]; [intros; apply H; right; assumption| |right; exact Hq]. left.
    eapply eventually_bind; [exact Hx|]. intros y _. eapply eventually_bind; [exact Hl|].
    intros ys _. apply eventually_done. exact I.
  Qed.

  Lemma rule_or_stuck r : occurs syn r -> no_fast_in r ->
    eventually (fun m => optimize_rule m refs r) (fun _ => True) \/ stuck_in r.
  Proof.
    induction r as [r IH] using rule_ind'. intros Ho Hfast.
    assert (Hsub : forall c, In c (children r) ->
      eventually (fun m => optimize_rule m refs c) (fun _ => True) \/ stuck_in r).
    { intros c Hc. destruct (IH c Hc) as [H|(args & id & Hs & Hst)].
      - eapply occurs_child; eassumption.
      - intros t a l i H. apply (Hfast t a l i). eapply occurs_below; eassumption.
      - left. exact H.
      - right. exists args, id. split; [|exact Hst]. eapply occurs_below; eassumption. }
    assert (Hone : forall c (g : rule -> rule), In c (children r) ->
      eventually (fun m => obind (optimize_rule m refs c) (fun c' => Done (g c'))) (fun _ => True) \/ stuck_in r).
    { intros c g Hc. destruct (Hsub c Hc) as [H|H]; [left|right; exact H].
      eapply eventually_bind; [exact H|]. intros a _. apply eventually_done. exact I. }
    destruct r; cbn [optimize_rule]; try (left; apply eventually_done; exact I);
      try (apply Hone; left; reflexivity).
    - destruct (loop_or_stuck args) with (bytes0 := @nil N) (i := 0) (data := repeat 255 256) (up := 0) as [Hl|Hs].
      + intros c Hc. eapply occurs_child; [exact Ho|exact Hc].
      + apply table_start.
      + destruct (map_or_stuck (fun m => optimize_rule m refs) args _ Hsub) as [Hm|Hq]; [left|right; exact Hq].
        eapply eventually_bind; [exact Hl|]. intros [table up] _. eapply eventually_bind; [exact Hm|].
        intros args' _. destruct (up <? 2); [apply eventually_done; exact I|].
        destruct (up <? length args); apply eventually_done; exact I.
      + right. exists args, id. split; [apply occurs_here|].
        destruct Hs as (before & q & behind & bytes & Ha & Hl & Hb & Hnd & _ & Hq).
        exists before, q, behind, bytes. auto.
    - destruct (map_or_stuck (fun m => optimize_rule m refs) args _ Hsub) as [Hm|Hq]; [left|right; exact Hq].
      eapply eventually_bind; [exact Hm|]. intros a _. apply eventually_done. exact I.
    - destruct (Hsub r1 (or_introl eq_refl)) as [H1|H1]; [|right; exact H1].
      destruct (Hsub r2 (or_intror (or_introl eq_refl))) as [H2|H2]; [|right; exact H2]. left.
      eapply eventually_bind; [exact H1|]. intros a _. eapply eventually_bind; [exact H2|].
      intros b _. apply eventually_done. exact I.
  Qed.

  (** ** No panic *)

  Lemma unique_byte_safe m : forall r, occurs syn r -> unique_byte m refs r <> Panic.
  Proof.
    intros r Ho H. destruct (byte_or_endless r Ho) as [(n & ub & _ & Hf)|He].
    - destruct (unique_byte_mono refs m (m + n) r) as [K|K]; [lia|congruence|].
      rewrite H in K. specialize (Hf (m + n)). unfold orefs in Hf. fold refs in Hf.
      rewrite Hf in K by lia. discriminate.
    - rewrite (endless_diverges refs r He) in H. discriminate.
  Qed.

  Lemma loop_safe args m : (forall r, In r args -> occurs syn r) -> forall bytes0 i data up,
    table_of bytes0 data -> unique_loop m refs args i data up <> Panic.
  Proof.
    intros Hocc bytes0 i data up Ht H.
    destruct (loop_or_stuck args Hocc bytes0 i data up Ht) as [(n & res & _ & Hf)|Hs].
    - destruct (unique_loop_mono refs args m (m + n) i data up) as [K|K]; [lia|congruence|].
      rewrite H in K. rewrite (Hf (m + n)) in K by lia. discriminate.
    - destruct Hs as (before & q & behind & bytes & -> & Hl & Hb & Hnd & Hnot & Hq).
      rewrite (stuck_loop before bytes q behind bytes0 i data up m) in H; try assumption; [discriminate|].
      intros p Hp. apply Hocc. apply in_or_app. left. exact Hp.
  Qed.

  Lemma map_safe {A B} (f : A -> outcome B) l : (forall x, In x l -> f x <> Panic) -> map_o f l <> Panic.
  Proof.
    induction l as [|x l IH]; intros H; cbn [map_o]; [discriminate|].
    pose proof (H x (or_introl eq_refl)). destruct (f x); cbn [obind]; try congruence.
    destruct (map_o f l) eqn:Hl; cbn [obind]; try congruence.
    exfalso. apply IH; [intros; apply H; right; assumption|reflexivity].
  Qed.

  Lemma map_stuck {A B} (f : A -> outcome B) l x : (forall x, In x l -> f x <> Panic) ->
    In x l -> f x = OutOfFuel -> map_o f l = OutOfFuel.
  Proof.
    induction l as [|y l IH]; intros H Hin Hx; [destruct Hin|]. cbn [map_o].
    pose proof (H y (or_introl eq_refl)) as Hy. destruct Hin as [->|Hin]; [rewrite Hx; reflexivity|].
    destruct (f y); cbn [obind]; try congruence.
    rewrite IH; [reflexivity|intros; apply H; right; assumption|exact Hin|exact Hx].
  Qed.

  Lemma rule_safe m r : occurs syn r -> optimize_rule m refs r <> Panic.
  Proof.
    induction r as [r IH] using rule_ind'. intros Ho.
    assert (Hsub : forall c, In c (children r) -> optimize_rule m refs c <> Panic).
    { intros c Hc. apply IH; [exact Hc|]. eapply occurs_child; eassumption. }
    assert (Hone : forall c (g : rule -> rule), In c (children r) ->
      obind (optimize_rule m refs c) (fun c' => Done (g c')) <> Panic).
    { intros c g Hc. specialize (Hsub c Hc). destruct (optimize_rule m refs c); cbn [obind]; congruence. }
    destruct r; cbn [optimize_rule]; try discriminate; try (apply Hone; left; reflexivity).
    - pose proof (loop_safe args m (fun c Hc => occurs_child _ _ _ Ho Hc) [] 0 (repeat 255 256) 0 table_start) as Hl.
      unfold unique_table_from_select. destruct (unique_loop m refs args 0 (repeat 255 256) 0) as [[table up]| |];
        cbn [obind]; try congruence.
      pose proof (map_safe (optimize_rule m refs) args Hsub) as Hm.
      destruct (map_o (optimize_rule m refs) args); cbn [obind]; try congruence.
      destruct (up <? 2); [discriminate|]. destruct (up <? length args); discriminate.
    - pose proof (map_safe (optimize_rule m refs) args Hsub) as Hm.
      destruct (map_o (optimize_rule m refs) args); cbn [obind]; congruence.
    - pose proof (Hsub r1 (or_introl eq_refl)). pose proof (Hsub r2 (or_intror (or_introl eq_refl))).
      destruct (optimize_rule m refs r1); cbn [obind]; try congruence.
      destruct (optimize_rule m refs r2); cbn [obind]; congruence.
  Qed.

  Lemma rule_stuck m r : occurs syn r -> no_fast_in r -> stuck_in r ->
    optimize_rule m refs r = OutOfFuel.
  Proof.
    intros Ho Hfast (args & id & Hs & before & q & behind & bytes & Ha & Hl & Hb & Hnd & Hq).
    revert Ho Hfast. induction Hs as [|r c Hc Hs IH]; intros Ho Hfast.
    - cbn [optimize_rule]. unfold unique_table_from_select. subst args.
      rewrite (stuck_loop before bytes q behind []); try assumption; try reflexivity.
      + intros p Hp. eapply occurs_child; [exact Ho|]. apply in_or_app. left. exact Hp.
      + apply table_start.
      + intros b _ [].
    - assert (Hoc : forall d, In d (children r) -> occurs syn d)
        by (intros d Hd; eapply occurs_child; eassumption).
      assert (Hsafe : forall d, In d (children r) -> optimize_rule m refs d <> Panic)
        by (intros d Hd; apply rule_safe, Hoc, Hd).
      assert (Hout : optimize_rule m refs c = OutOfFuel).
      { apply IH; [apply Hoc; exact Hc|]. intros t a l i H. apply (Hfast t a l i).
        eapply occurs_below; eassumption. }
      destruct r; cbn [children] in Hc; cbn [optimize_rule]; try contradiction;
        try (destruct Hc as [->|[]]; rewrite Hout; reflexivity).
      + pose proof (loop_safe args0 m Hoc [] 0 (repeat 255 256) 0 table_start) as Hls.
        unfold unique_table_from_select. destruct (unique_loop m refs args0 0 (repeat 255 256) 0) as [[table up]| |];
          cbn [obind]; try congruence.
        rewrite (map_stuck (optimize_rule m refs) args0 c Hsafe Hc Hout). reflexivity.
      + exfalso. eapply Hfast. apply occurs_here.
      + rewrite (map_stuck (optimize_rule m refs) args0 c Hsafe Hc Hout). reflexivity.
      + destruct Hc as [->|[->|[]]]; [rewrite Hout; reflexivity|].
        pose proof (Hsafe r1 (or_introl eq_refl)).
        destruct (optimize_rule m refs r1); cbn [obind]; try congruence. rewrite Hout. reflexivity.
  Qed.

  (** ** Syntaxes *)

  Hypothesis Hfresh : unoptimized syn.

  Lemma top_fresh r : In r refs -> no_fast_in r.
  Proof. intros Hr t a l i H. apply (Hfresh t a l i). exists r. split; [exact Hr|exact H]. Qed.

  Lemma returns_or_stuck : (exists s', optimize_returns syn s') \/ stuck syn.
  Proof.
    destruct (map_or_stuck (fun m => optimize_rule m refs) refs (stuck syn)) as [(n & rules & _ & Hf)|Hs].
    - intros r Hr. destruct (rule_or_stuck r) as [H|(args & id & Ho & Hs)].
      + apply occurs_top. exact Hr.
      + apply top_fresh. exact Hr.
      + left. exact H.
      + right. exists args, id. split; [exists r; split; assumption|exact Hs].
    - left. exists (Syn rules (s_names syn)), n. unfold optimize. fold refs. rewrite Hf by lia. reflexivity.
    - right. exact Hs.
  Qed.

  Lemma stuck_diverges : stuck syn -> optimize_diverges syn.
  Proof.
    intros (args & id & (top & Ht & Ho) & Hs) fuel. unfold optimize. fold refs.
    rewrite (map_stuck (optimize_rule fuel refs) refs top); [reflexivity| |exact Ht|].
    - intros r Hr. apply rule_safe. apply occurs_top. exact Hr.
    - apply rule_stuck; [apply occurs_top; exact Ht|apply top_fresh; exact Ht|].
      exists args, id. split; assumption.
  Qed.

  Theorem diverges_iff_stuck : optimize_diverges syn <-> stuck syn.
  Proof.
    split; [|exact stuck_diverges]. intros H.
    destruct returns_or_stuck as [(s' & fuel & Hs)|Hs]; [|exact Hs]. rewrite H in Hs. discriminate.
  Qed.

  Theorem returns_iff_not_stuck : (exists s', optimize_returns syn s') <-> ~ stuck syn.
  Proof.
    split.
    - intros (s' & fuel & Hs) K. rewrite (stuck_diverges K) in Hs. discriminate.
    - intros H. destruct returns_or_stuck as [Hs|Hs]; [exact Hs|contradiction].
  Qed.

  Theorem never_panics : forall fuel, optimize fuel syn <> Panic.
  Proof.
    intros fuel. unfold optimize. fold refs.
    pose proof (map_safe (optimize_rule fuel refs) refs) as H.
    destruct (map_o (optimize_rule fuel refs) refs) eqn:Hm; cbn [obind]; try discriminate.
    exfalso. apply H; [|reflexivity]. intros r Hr. apply rule_safe. apply occurs_top. exact Hr.
  Qed.
End Stuck.
