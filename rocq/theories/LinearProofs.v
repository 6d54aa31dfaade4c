(** In clear syntaxes parsing makes linearly many calls. *)
From Coq Require Import List NArith Bool Arith Lia.
From Verif Require Import Base Ext Types ParseModel PegSpec PrimProofs DataSpec PegFacts PegComplete TotalSpec
  OptProofs SafeProofs TotalProofs ApiSpec ParseProofs ParsePublic CostSpec CallSpec CallProofs GrammarSpec GrammarProofs
  SizeProofs LinearSpec.
Import ListNotations.

(** ** Weights *)

(** Weights of rules: following [k] references, with [z] for every sub rule. *)
Fixpoint work (refs : list rule) (z k : nat) {struct k} : rule -> nat :=
  fix w (r : rule) : nat :=
  let ws := fix ws (l : list rule) : nat := match l with [] => 0 | a :: l' => z + w a + ws l' end in
  match r with
  | RSelect args _ | RFastSelect _ args _ _ | RSequence args _ => S (ws args)
  | RSeparateBy a b _ _ _ => S (4 * z + w a + w b)
  | RRepeat a _ _ => S (2 * z + w a)
  | ROptional a _ | RNot a _ | RLines a _ _ => S (w a)
  | RNode _ _ (Some i) _ =>
    S (match k with
       | S k' => match nth_error refs i with Some r' => work refs z k' r' | None => 0 end
       | 0 => 0
       end)
  | _ => 1
  end.

Fixpoint works (refs : list rule) (z k : nat) (l : list rule) : nat :=
  match l with [] => 0 | a :: l' => z + work refs z k a + works refs z k l' end.

Lemma works_eq refs z k l :
  (fix ws (l : list rule) : nat := match l with [] => 0 | a :: l' => z + work refs z k a + ws l' end) l = works refs z k l.
Proof. induction l as [|a l IH]; cbn [works]; [reflexivity|]. rewrite IH. reflexivity. Qed.

Lemma work_args refs z k args :
  (forall id, work refs z k (RSelect args id) = S (works refs z k args)) /\
  (forall table tail id, work refs z k (RFastSelect table args tail id) = S (works refs z k args)) /\
  (forall id, work refs z k (RSequence args id) = S (works refs z k args)).
Proof.
  rewrite <- (works_eq refs z k args). destruct k; split; [|split| |split]; reflexivity.
Qed.

Lemma works_in refs z k a l : In a l -> z + work refs z k a <= works refs z k l.
Proof. induction l as [|x l IH]; intros H; [contradiction|]. cbn. destruct H as [->|H]; [lia|]. specialize (IH H). lia. Qed.

Lemma works_length refs z k l : length l * z <= works refs z k l.
Proof. induction l as [|a l IH]; cbn; lia. Qed.

Lemma work_child refs z k c r : In c (children r) -> S (work refs z k c) <= work refs z k r.
Proof.
  destruct (work_args refs z k (children r)) as (H1 & H2 & H3).
  destruct r; cbn [children] in *; intros H; try contradiction.
  - rewrite H1. apply works_in with (z := z) (refs := refs) (k := k) in H. lia.
  - rewrite H2. apply works_in with (z := z) (refs := refs) (k := k) in H. lia.
  - rewrite H3. apply works_in with (z := z) (refs := refs) (k := k) in H. lia.
  - destruct H as [<-|[<-|[]]]; destruct k; cbn [work]; lia.
  - destruct H as [<-|[]]; destruct k; cbn [work]; lia.
  - destruct H as [<-|[]]; destruct k; cbn [work]; lia.
  - destruct H as [<-|[]]; destruct k; cbn [work]; lia.
  - destruct H as [<-|[]]; destruct k; cbn [work]; lia.
Qed.

Lemma work_below refs z k c r : occurs_in c r -> work refs z k c <= work refs z k r.
Proof. induction 1 as [|r c' Hc _ IH]; [lia|]. pose proof (work_child refs z k c' r Hc). lia. Qed.

Lemma work_occurs s z k r : occurs s r -> work (s_rules s) z k r <= works (s_rules s) z k (s_rules s).
Proof.
  intros (top & Hin & Ho). pose proof (work_below (s_rules s) z k _ _ Ho).
  apply works_in with (refs := s_rules s) (z := z) (k := k) in Hin. lia.
Qed.

Lemma nth_skipn {A} n m (s : list A) : nth_error (skipn n s) m = nth_error s (n + m).
Proof.
  revert s. induction n as [|n IH]; intros s; [reflexivity|]. destruct s as [|a s]; [destruct m; reflexivity|]. cbn. apply IH.
Qed.

Lemma hd_nth {A} (s : list A) : hd_error s = nth_error s 0.
Proof. destruct s; reflexivity. Qed.

Lemma nth_length {A} n c (s : list A) : nth_error s n = Some c -> n < length s.
Proof. intros H. apply nth_error_Some. congruence. Qed.

Section Linear.
  Variable E : ext.
  Hypothesis HE : ext_ok E.
  Variable syn : syntax.
  Hypothesis Hclear : clear E syn.
  Hypothesis Hnot : without_lookahead syn.
  Variable rank : nat -> nat.
  Notation refs := (s_rules syn).
  Hypothesis Hrank : forall i r j, nth_error refs i = Some r -> leads_to refs r j -> rank j < rank i.
  Variable K : nat.
  Hypothesis HK : forall i, i < length refs -> rank i < K.

  Local Notation low := (lower syn rank).
  Local Notation beg := (begins E syn).
  Local Notation on := (goes_on E syn).
  Local Notation emp := (empties syn).

  Definition lz := works refs 0 K refs.
  Definition lw := works refs lz K refs.
  Definition lr := lw + 4 * lz.
  Definition lc := lr + lw + 4 * lz + 2.

  Lemma lc_one n : 1 <= n -> lc <= lc * n.
  Proof. intros H. nia. Qed.

  (** Nothing was read, at constant cost. *)
  Definition idle (r : rule) (v : verdict) (m : nat) : Prop :=
    (forall k, low k r -> m <= work refs 0 k r) /\ (v = No \/ exists out, v = Yes 0 out).
  (** What was read pays. *)
  Definition clean (r : rule) (v : verdict) (m : nat) : Prop :=
    exists n out, v = Yes n out /\ 1 <= n /\ forall k, low k r -> m + lr <= lc * n + work refs lz k r.
  (** It failed, or what follows will not fit. *)
  Definition doomed (r : rule) (s : str) (v : verdict) : Prop :=
    v = No \/ exists n out c, v = Yes n out /\ nth_error s n = Some c /\ ~ on r (Some c).
  Definition lost (r : rule) (s : str) (v : verdict) (m : nat) : Prop :=
    (exists c, hd_error s = Some c /\ beg r c) /\
    (forall k, low k r -> m <= lc * length s + work refs lz k r) /\ doomed r s v.
  Definition fine (r : rule) (s : str) (v : verdict) (m : nat) : Prop :=
    idle r v m \/ clean r v m \/ lost r s v m.

  (** Any rule of the syntax. *)
  Lemma idle_any r v m : occurs syn r -> idle r v m -> m <= lz.
  Proof.
    intros Ho [H _]. specialize (H K (lower_all _ _ _ HK r)). pose proof (work_occurs syn 0 K r Ho). fold lz in *. lia.
  Qed.
  Lemma clean_any r v m : occurs syn r -> clean r v m -> exists n out, v = Yes n out /\ 1 <= n /\ m + 4 * lz <= lc * n.
  Proof.
    intros Ho (n & out & -> & Hn & H). exists n, out. split; [reflexivity|]. split; [exact Hn|].
    specialize (H K (lower_all _ _ _ HK r)). pose proof (work_occurs syn lz K r Ho). fold lw in *. unfold lr in H. lia.
  Qed.
  Lemma lost_any r s v m : occurs syn r -> lost r s v m -> m <= lc * length s + lw.
  Proof.
    intros Ho (_ & H & _). specialize (H K (lower_all _ _ _ HK r)). pose proof (work_occurs syn lz K r Ho). fold lw in *. lia.
  Qed.

  Lemma no_lines : without_lines syn.
  Proof. exact (clear_no_lines E syn Hclear). Qed.

  Lemma read_begins r ind p s n out ind' tr : occurs syn r -> reads E refs r ind p s (Yes n out) ind' tr -> 1 <= n ->
    exists c, hd_error s = Some c /\ beg r c.
  Proof.
    intros Ho H Hn. pose proof (reads_le E HE refs _ _ _ _ _ _ _ _ H) as Hl.
    pose proof (proj1 (reads_generated E HE syn no_lines) _ _ _ _ _ _ _ H Ho) as Hg. cbn in Hg.
    destruct s as [|c s]; [cbn in Hl; lia|]. destruct n as [|n]; [lia|]. exists c. split; [reflexivity|].
    apply (proj1 (generates_begin E HE refs)) in Hg. destruct Hg as [_ Hg]. exact (Hg c _ eq_refl).
  Qed.

  (** In front of another character a rule is idle. *)
  Lemma stuck r ind p s v ind' tr m c : occurs syn r -> reads E refs r ind p s v ind' tr -> fine r s v m ->
    hd_error s = Some c -> ~ beg r c -> idle r v m.
  Proof.
    intros Ho H Hf Hc Hb. destruct Hf as [Hf|[Hf|Hf]]; [exact Hf| |].
    - destruct Hf as (n & out & -> & Hn & _). destruct (read_begins _ _ _ _ _ _ _ _ Ho H Hn) as (c' & Hc' & Hb').
      destruct Hb. congruence.
    - destruct Hf as ((c' & Hc' & Hb') & _). destruct Hb. congruence.
  Qed.

  (** ** Rules one after the other *)

  Definition seq_low (k : nat) (args : list rule) : Prop :=
    forall before r behind, args = before ++ r :: behind -> Forall emp before -> low k r.
  Definition seq_begins (args : list rule) (c : char) : Prop :=
    exists before r behind, args = before ++ r :: behind /\ Forall emp before /\ beg r c.

  Definition seq_later (args : list rule) (s : str) (v : verdict) (m : nat) : Prop :=
    forall done id, occurs syn (RSequence (done ++ args) id) ->
    (exists n out, v = Yes n out /\ m <= lc * n + length args * lz) \/
    (m <= lc * length s + lw + length args * lz /\ doomed (RSequence (done ++ args) id) s v).
  Definition seq_stuck (args : list rule) (s : str) (v : verdict) (m : nat) : Prop :=
    Forall (occurs syn) args -> forall c, hd_error s = Some c -> ~ seq_begins args c ->
    m <= length args * lz /\ (v = No \/ exists out, v = Yes 0 out /\ Forall emp args).
  Definition seq_first (args : list rule) (s : str) (v : verdict) (m : nat) : Prop :=
    forall done id, Forall emp done -> occurs syn (RSequence (done ++ args) id) ->
    ((forall k, seq_low k args -> m <= works refs 0 k args) /\ (v = No \/ exists out, v = Yes 0 out)) \/
    (exists n out, v = Yes n out /\ 1 <= n /\ forall k, seq_low k args -> m + lr <= lc * n + works refs lz k args) \/
    ((exists c, hd_error s = Some c /\ seq_begins args c) /\
     (forall k, seq_low k args -> m <= lc * length s + works refs lz k args) /\ doomed (RSequence (done ++ args) id) s v).

  (** ** Alternatives *)

  Definition alt_low (k : nat) (args : list rule) : Prop := forall r, In r args -> low k r.

  Definition alt_stuck (args : list rule) (s : str) (v : verdict) (m : nat) : Prop :=
    Forall (occurs syn) args -> forall c, hd_error s = Some c -> (forall r, In r args -> ~ beg r c) ->
    m <= length args * lz /\ (v = No \/ exists out r, v = Yes 0 out /\ In r args /\ emp r).
  Definition alt_first (args : list rule) (s : str) (v : verdict) (m : nat) : Prop :=
    forall done id, occurs syn (RSelect (done ++ args) id) ->
    ((forall k, alt_low k args -> m <= works refs 0 k args) /\ (v = No \/ exists out, v = Yes 0 out)) \/
    (exists n out, v = Yes n out /\ 1 <= n /\ forall k, alt_low k args -> m + lr <= lc * n + works refs lz k args) \/
    ((exists c r, hd_error s = Some c /\ In r args /\ beg r c) /\
     (forall k, alt_low k args -> m <= lc * length s + works refs lz k args) /\ doomed (RSelect (done ++ args) id) s v).

  (** ** Repetitions *)

  (** The rule goes on with the character, or is not followed by it. *)
  Definition off (r : rule) (s : str) (n : nat) : Prop :=
    exists c, nth_error s n = Some c /\ (beg r c \/ ~ on r (Some c)).

  Definition many_later (r : rule) (s : str) (n m : nat) : Prop :=
    m <= lc * n + lz \/ (m <= lc * length s + lw + lz /\ off r s n).
  Definition many_stuck (r : rule) (s : str) (n m : nat) : Prop :=
    forall c, hd_error s = Some c -> ~ beg r c -> n = 0 /\ m <= lz.
  Definition many_first (r : rule) (s : str) (n m : nat) : Prop :=
    (n = 0 /\ forall k, low k r -> m <= work refs 0 k r) \/
    (1 <= n /\ forall k, low k r -> m + lr <= lc * n + work refs lz k r + lz) \/
    ((exists c, hd_error s = Some c /\ beg r c) /\
     (forall k, low k r -> m <= lc * length s + work refs lz k r + lz) /\ off r s n).
  Definition many_fine (r : rule) (s : str) (n m : nat) : Prop :=
    occurs syn r -> ~ emp r -> (forall c, beg r c -> on r (Some c)) ->
    many_later r s n m /\ many_stuck r s n m /\ many_first r s n m.

  (** ** Lists *)

  Definition more_fine (r by_ : rule) (trail : bool) (s : str) (v : verdict) (m : nat) : Prop :=
    forall optional id, occurs syn (RSeparateBy r by_ optional trail id) ->
    ((exists n out, v = Yes n out /\ m <= lc * n + 2 * lz) \/
     (m <= lc * length s + lw + 2 * lz /\ doomed (RSeparateBy r by_ optional trail id) s v)) /\
    (forall c, hd_error s = Some c -> ~ beg by_ c -> m <= lz /\ exists out, v = Yes 0 out).

  Lemma doomed_after r r' n out s v : (forall c, on r (Some c) -> on r' (Some c)) ->
    doomed r' (skipn n s) v -> doomed r s (after n out v).
  Proof.
    intros Hon [->|(m & o & c & -> & Hc & Hn)]; [left; reflexivity|]. right. exists (n + m), (out ++ o), c.
    split; [reflexivity|]. split; [rewrite <- nth_skipn; exact Hc|]. intros H. apply Hn. apply Hon. exact H.
  Qed.

  Ltac agree := repeat match goal with
    | Ha : reads _ _ ?r ?i ?p ?s ?v ?i1 ?t1, Hb : reads _ _ ?r ?i ?p ?s ?v' ?i2 ?t2 |- _ =>
      lazymatch Ha with Hb => fail | _ => idtac end;
      let Hv := fresh in let Hi := fresh in
      destruct (reads_deterministic _ _ _ _ _ _ _ _ _ _ _ _ Ha Hb) as (Hv & Hi & _); clear Hb;
      try discriminate Hv; try (injection Hv; clear Hv; intros); subst i2;
      repeat match goal with Hx : ?a = ?b |- _ => is_var b; subst b | Hx : ?a = ?a |- _ => clear Hx end
    end.

  Lemma reads_fine :
    (forall r ind p s v ind' tr, reads E refs r ind p s v ind' tr -> forall m, occurs syn r -> tree E refs (r, ind, p, s) m -> fine r s v m) /\
    (forall args ind p s v ind' tr, reads_seq E refs args ind p s v ind' tr -> forall l m, Forall (occurs syn) args ->
       in_order E refs args ind p s l -> trees E refs l m ->
       seq_later args s v m /\ seq_stuck args s v m /\ seq_first args s v m) /\
    (forall args ind p s v ind' tr, reads_first E refs args ind p s v ind' tr -> forall l m, Forall (occurs syn) args ->
       in_turn E refs args ind p s l -> trees E refs l m -> alt_stuck args s v m /\ alt_first args s v m) /\
    (forall r ind p s k n out ind' tr, reads_many E refs r ind p s k n out ind' tr -> forall l m,
       over_again E refs r ind p s l -> trees E refs l m -> many_fine r s n m) /\
    (forall r by_ trail ind p s v ind' tr, reads_more E refs r by_ trail ind p s v ind' tr -> forall l m,
       by_turns E refs by_ r ind p s l -> trees E refs l m -> more_fine r by_ trail s v m) /\
    (forall r indented id fresh nl ind p s v ind' tr, reads_lines E refs r indented id fresh nl ind p s v ind' tr -> True) /\
    (forall r indented fresh ind p s v fresh' ind' tr, reads_line E refs r indented fresh ind p s v fresh' ind' tr -> True).
  Proof.
    assert (Hone : forall r ind p s m, tries E refs (r, ind, p, s) [] -> tree E refs (r, ind, p, s) m -> m = 1).
    { intros r ind p s m Ht H. inversion H; subst. match goal with Ha : tries _ _ _ ?l |- _ =>
        lazymatch Ha with Ht => fail | _ => pose proof (tries_unique E syn _ _ _ Ht Ha) as Hl; subst l end end.
      match goal with Ha : trees _ _ [] _ |- _ => inversion Ha; subst end. reflexivity. }
    assert (Hleaf : forall r s v, (forall z k, work refs z k r = 1) -> fine r s v 1).
    { intros r s v Hw. destruct v as [[|n] out|].
      - left. split; [intros k _; rewrite Hw; lia|right; eauto].
      - right. left. exists (S n), out. split; [reflexivity|]. split; [lia|]. intros k _. rewrite Hw.
        pose proof (lc_one (S n) ltac:(lia)). unfold lc in *. lia.
      - left. split; [intros k _; rewrite Hw; lia|left; reflexivity]. }
    assert (Hempty : forall r ind p s n out ind' tr, reads E refs r ind p s (Yes n out) ind' tr -> ~ emp r -> 1 <= n).
    { intros r ind p s n out ind' tr H Hne. destruct n; [|lia]. destruct Hne. eapply reads_empty; eassumption. }
    assert (Hlc : lr + lw + 4 * lz + 2 <= lc) by (unfold lc; lia).
    assert (Hlr : lr = lw + 4 * lz) by reflexivity.
    assert (Hargs : forall r, occurs syn r -> Forall (occurs syn) (children r)).
    { intros r Hr. apply Forall_forall. intros c Hc. eapply occurs_child; eassumption. }
    assert (Htree : forall c m, tree E refs c m -> exists l q, tries E refs c l /\ trees E refs l q /\ m = S q).
    { intros c m H. inversion H; subst. eauto. }
    assert (Hsingle : forall c m, trees E refs [c] m -> tree E refs c m).
    { intros c m H. inversion H; subst. match goal with Ha : trees _ _ [] _ |- _ => inversion Ha; subst end. rewrite Nat.add_0_r. assumption. }
    assert (Hnode : forall name property i id r s v q, occurs syn (RNode name property (Some i) id) -> nth_error refs i = Some r ->
      fine r s v q -> forall v', (v = No /\ v' = No) \/ (exists n out out', v = Yes n out /\ v' = Yes n out') ->
      fine (RNode name property (Some i) id) s v' (S q)).
    { intros name property i id r s v q Ho Hi Hf v' Hv'.
      assert (Hlow : forall k, low k (RNode name property (Some i) id) -> exists k', low k' r /\
        forall z, work refs z k (RNode name property (Some i) id) = S (work refs z k' r)).
      { intros k Hk. destruct (lower_node _ _ Hrank _ _ _ _ _ _ Hk Hi) as (k' & -> & Hk'). exists k'. split; [exact Hk'|].
        intros z. cbn [work]. rewrite Hi. reflexivity. }
      destruct Hf as [[A B]|[(n & out & -> & Hn & A)|((c & Hc & Hb) & A & B)]].
      - left. split.
        + intros k Hk. destruct (Hlow k Hk) as (k' & Hk' & W). rewrite W. specialize (A k' Hk'). lia.
        + destruct Hv' as [[-> ->]|(n & out & out' & -> & ->)]; [left; reflexivity|]. destruct B as [B|[o B]]; [discriminate|]. injection B as -> _. eauto.
      - destruct Hv' as [[Hv _]|(n' & o & o' & Hv & ->)]; [discriminate|]. injection Hv as <- <-. right. left. exists n, o'.
        split; [reflexivity|]. split; [exact Hn|]. intros k Hk. destruct (Hlow k Hk) as (k' & Hk' & W). rewrite W. specialize (A k' Hk'). lia.
      - right. right. split; [|split].
        + exists c. split; [exact Hc|]. eapply begin_node; eassumption.
        + intros k Hk. destruct (Hlow k Hk) as (k' & Hk' & W). rewrite W. specialize (A k' Hk'). lia.
        + destruct Hv' as [[-> ->]|(n & o & o' & -> & ->)]; [left; reflexivity|]. destruct B as [B|(n' & o2 & c' & B & Hc' & Hon)]; [discriminate|].
          injection B as <- <-. right. exists n, o', c'. split; [reflexivity|]. split; [exact Hc'|]. intros H'. apply Hon. eapply on_node; eassumption. }
    apply reads_mutind; intros; try exact I;
      try match goal with H : occurs _ (RLines _ _ _) |- _ => destruct (no_lines _ _ _ H) end;
      try match goal with H : occurs _ (RNot _ _) |- _ => destruct (Hnot _ _ H) end;
      try match goal with H : occurs _ (RFastSelect _ _ _ _) |- _ => destruct (Hclear _ H) end;
      try match goal with H : tree _ _ (?r, _, _, _) _ |- fine ?r _ _ _ =>
        apply Hone in H; [subst; apply Hleaf; intros ? [|?]; reflexivity|constructor] end.
    - (* sequences *) apply Htree in H2. destruct H2 as (l & q & Ht & Hq & ->). inversion Ht; subst.
      destruct (H0 l q (Hargs _ H1) ltac:(assumption) Hq) as (_ & _ & HF).
      destruct (work_args refs 0 0 args) as (_ & _ & _). assert (W : forall z k, work refs z k (RSequence args id) = S (works refs z k args)) by (intros z k; apply work_args).
      assert (Hlow : forall k, low k (RSequence args id) -> seq_low k args).
      { intros k Hk before r behind -> Hb. eapply lower_first; [exact Hk|]. apply first_sequence. exact Hb. }
      destruct (HF [] id (Forall_nil _) H1) as [[A B]|[(n & out & -> & Hn & A)|((c & Hc & before & r & behind & -> & Hb & Hr) & A & B)]].
      + left. split; [|exact B]. intros k Hk. rewrite W. specialize (A k (Hlow k Hk)). lia.
      + right. left. exists n, out. split; [reflexivity|]. split; [exact Hn|]. intros k Hk. rewrite W. specialize (A k (Hlow k Hk)). lia.
      + right. right. split; [|split; [|exact B]].
        * exists c. split; [exact Hc|]. eapply begin_below; [discriminate|apply first_sequence; exact Hb|exact Hr].
        * intros k Hk. rewrite W. specialize (A k (Hlow k Hk)). lia.
    - (* alternatives *) apply Htree in H3. destruct H3 as (l & q & Ht & Hq & ->). inversion Ht; subst.
      destruct (H1 l q (Hargs _ H2) ltac:(assumption) Hq) as (_ & HF).
      assert (W : forall z k, work refs z k (RSelect args id) = S (works refs z k args)) by (intros z k; apply work_args).
      assert (Hlow : forall k, low k (RSelect args id) -> alt_low k args).
      { intros k Hk r Hr. eapply lower_first; [exact Hk|]. apply first_select. exact Hr. }
      destruct (HF [] id H2) as [[A B]|[(n & out & -> & Hn & A)|((c & r & Hc & Hin & Hr) & A & B)]].
      + left. split; [|exact B]. intros k Hk. rewrite W. specialize (A k (Hlow k Hk)). lia.
      + right. left. exists n, out. split; [reflexivity|]. split; [exact Hn|]. intros k Hk. rewrite W. specialize (A k (Hlow k Hk)). lia.
      + right. right. split; [|split; [|exact B]].
        * exists c. split; [exact Hc|]. eapply begin_below; [discriminate|apply first_select; exact Hin|exact Hr].
        * intros k Hk. rewrite W. specialize (A k (Hlow k Hk)). lia.
    - (* none *) constructor.
    - (* repetitions *) apply Htree in H3. destruct H3 as (l & q & Ht & Hq & ->). inversion Ht; subst.
      pose proof (Hclear _ H2) as [Hne Hap]. assert (Hr : occurs syn r) by (eapply occurs_child; [exact H2|left; reflexivity]).
      destruct (H0 l q ltac:(assumption) Hq Hr Hne) as (_ & _ & HF); [intros c Hc; eapply on_repeat_again; eassumption|].
      assert (W : forall z k, work refs z k (RRepeat r optional id) = S (2 * z + work refs z k r)) by (intros z [|k']; reflexivity).
      assert (Hlow : forall k, low k (RRepeat r optional id) -> low k r) by (intros k' Hk; eapply lower_first; [exact Hk|apply first_repeat]).
      destruct HF as [[-> A]|[[Hn A]|((c & Hc & Hb) & A & (c' & Hc' & Hoff))]].
      + left. split; [|right; eauto]. intros k' Hk. rewrite W. specialize (A k' (Hlow k' Hk)). lia.
      + right. left. exists n, out. split; [reflexivity|]. split; [exact Hn|]. intros k' Hk. rewrite W. specialize (A k' (Hlow k' Hk)). lia.
      + right. right. split; [|split].
        * exists c. split; [exact Hc|]. eapply begin_below; [discriminate|apply first_repeat|exact Hb].
        * intros k' Hk. rewrite W. specialize (A k' (Hlow k' Hk)). lia.
        * right. exists n, out, c'. split; [reflexivity|]. split; [exact Hc'|]. destruct Hoff as [Hoff|Hoff]; [apply Hap; exact Hoff|].
          intros Hon. apply Hoff. eapply on_repeat_end; eassumption.
    - apply Htree in H2. destruct H2 as (l & q & Ht & Hq & ->). inversion Ht; subst.
      assert (Hr : occurs syn r) by (eapply occurs_child; [exact H1|left; reflexivity]).
      match goal with Ha : over_again _ _ _ _ _ _ _ |- _ => inversion Ha; subst end; agree.
      apply Hsingle in Hq. specialize (H0 q Hr Hq).
      assert (W : forall z k, work refs z k (RRepeat r false id) = S (2 * z + work refs z k r)) by (intros z [|k']; reflexivity).
      assert (Hlow : forall k, low k (RRepeat r false id) -> low k r) by (intros k' Hk; eapply lower_first; [exact Hk|apply first_repeat]).
      destruct H0 as [[A B]|[(n & out & Hv & _)|((c & Hc & Hb) & A & B)]]; [|discriminate|].
      + left. split; [|left; reflexivity]. intros k' Hk. rewrite W. specialize (A k' (Hlow k' Hk)). lia.
      + right. right. split; [|split; [|left; reflexivity]].
        * exists c. split; [exact Hc|]. eapply begin_below; [discriminate|apply first_repeat|exact Hb].
        * intros k' Hk. rewrite W. specialize (A k' (Hlow k' Hk)). lia.
    - (* lists *) apply Htree in H4. destruct H4 as (l & q & Ht & Hq & ->). inversion Ht; subst.
      match goal with Ha : by_turns _ _ _ _ _ _ _ _ |- _ => inversion Ha; subst end; agree.
      inversion Hq; subst. match goal with Ha : tree _ _ (r, _, _, _) ?a, Hb : trees _ _ _ ?b |- _ => rename a into w1; rename b into w2 end.
      assert (Hr : occurs syn r) by (eapply occurs_child; [exact H3|left; reflexivity]).
      pose proof (Hclear _ H3) as (Hne & [_ Hapb] & Hapr).
      pose proof (Hempty _ _ _ _ _ _ _ _ H Hne) as Hn.
      pose proof (reads_le E HE refs _ _ _ _ _ _ _ _ H) as Hle.
      specialize (H0 _ Hr ltac:(eassumption)). destruct (H2 _ _ ltac:(eassumption) ltac:(eassumption) optional id H3) as [HM HX].
      assert (W : forall z k, work refs z k (RSeparateBy r by_ optional trail id) = S (4 * z + work refs z k r + work refs z k by_)) by (intros z [|k']; reflexivity).
      assert (Hlow : forall k, low k (RSeparateBy r by_ optional trail id) -> low k r) by (intros k' Hk; eapply lower_first; [exact Hk|apply first_separate]).
      assert (Hlen : length s = n + length (skipn n s)) by (rewrite skipn_length; lia).
      assert (Hbeg : exists c, hd_error s = Some c /\ beg (RSeparateBy r by_ optional trail id) c).
      { destruct (read_begins _ _ _ _ _ _ _ _ Hr H Hn) as (c & Hc & Hb). exists c. split; [exact Hc|].
        eapply begin_below; [discriminate|apply first_separate|exact Hb]. }
      destruct H0 as [[A B]|[(n' & out' & Hv & _ & A)|(_ & A & B)]].
      + destruct B as [B|[o B]]; [discriminate|]. injection B as -> _. lia.
      + injection Hv as <- <-. destruct HM as [(n2 & out2 & -> & HM)|[HM HD]].
        * right. left. exists (n + n2), (out ++ out2). split; [reflexivity|]. split; [lia|]. intros k Hk. rewrite W. specialize (A k (Hlow k Hk)). nia.
        * right. right. split; [exact Hbeg|]. split; [|eapply doomed_after; [|exact HD]; auto].
          intros k Hk. rewrite W. specialize (A k (Hlow k Hk)). rewrite Hlen. nia.
      + destruct B as [B|(n' & o & c & B & Hc & Hon)]; [discriminate|]. injection B as <- <-.
        destruct (HX c) as [HX1 [out2 ->]].
        { rewrite hd_nth, nth_skipn, Nat.add_0_r. exact Hc. }
        { intros Hb. apply Hon. eapply on_separator; eassumption. }
        right. right. split; [exact Hbeg|]. split.
        * intros k Hk. rewrite W. specialize (A k (Hlow k Hk)). lia.
        * right. exists (n + 0), (out ++ out2), c. split; [reflexivity|]. rewrite Nat.add_0_r. split; [exact Hc|].
          intros H'. apply Hon. eapply on_separate_end; eassumption.
    - apply Htree in H2. destruct H2 as (l & q & Ht & Hq & ->). inversion Ht; subst.
      match goal with Ha : by_turns _ _ _ _ _ _ _ _ |- _ => inversion Ha; subst end; agree.
      apply Hsingle in Hq.
      assert (Hr : occurs syn r) by (eapply occurs_child; [exact H1|left; reflexivity]).
      pose proof (Hclear _ H1) as (Hne & [_ Hapb] & Hapr). specialize (H0 q Hr Hq).
      assert (W : forall z k, work refs z k (RSeparateBy r by_ optional trail id) = S (4 * z + work refs z k r + work refs z k by_)) by (intros z [|k']; reflexivity).
      assert (Hlow : forall k, low k (RSeparateBy r by_ optional trail id) -> low k r) by (intros k' Hk; eapply lower_first; [exact Hk|apply first_separate]).
      destruct H0 as [[A B]|[(n & out & Hv & _)|((c & Hc & Hb) & A & B)]]; [|discriminate|].
      + left. split; [|destruct optional; [right; eauto|left; reflexivity]]. intros k' Hk. rewrite W. specialize (A k' (Hlow k' Hk)). lia.
      + right. right. split; [|split].
        * exists c. split; [exact Hc|]. eapply begin_below; [discriminate|apply first_separate|exact Hb].
        * intros k' Hk. rewrite W. specialize (A k' (Hlow k' Hk)). lia.
        * destruct optional; [|left; reflexivity]. right. exists 0, [], c. split; [reflexivity|]. split; [rewrite <- hd_nth; exact Hc|].
          apply Hapr; [left; reflexivity|exact Hb].
    - (* references *) apply Htree in H3. destruct H3 as (l & q & Ht & Hq & ->). inversion Ht; subst.
      match goal with Ha : nth_error refs i = Some ?r' |- _ => lazymatch r' with r => fail | _ => rewrite H in Ha; injection Ha as <- end end.
      apply Hsingle in Hq. assert (Hr : occurs syn r) by (apply occurs_top; eapply nth_error_In; exact H).
      specialize (H1 q Hr Hq). eapply Hnode; [eassumption|eassumption|exact H1|right; eauto].
    - apply Htree in H3. destruct H3 as (l & q & Ht & Hq & ->). inversion Ht; subst.
      match goal with Ha : nth_error refs i = Some ?r' |- _ => lazymatch r' with r => fail | _ => rewrite H in Ha; injection Ha as <- end end.
      apply Hsingle in Hq. assert (Hr : occurs syn r) by (apply occurs_top; eapply nth_error_In; exact H).
      specialize (H1 q Hr Hq). eapply Hnode; [eassumption|eassumption|exact H1|left; auto].
    - (* optional rules *) apply Htree in H2. destruct H2 as (l & q & Ht & Hq & ->). inversion Ht; subst. apply Hsingle in Hq.
      assert (Hr : occurs syn r) by (eapply occurs_child; [exact H1|left; reflexivity]). specialize (H0 q Hr Hq).
      assert (W : forall z k, work refs z k (ROptional r id) = S (work refs z k r)) by (intros z [|k']; reflexivity).
      assert (Hlow : forall k, low k (ROptional r id) -> low k r) by (intros k' Hk; eapply lower_first; [exact Hk|apply first_optional]).
      destruct H0 as [[A B]|[(n' & out' & -> & Hn & A)|((c & Hc & Hb) & A & B)]].
      + left. split; [|exact B]. intros k Hk. rewrite W. specialize (A k (Hlow k Hk)). lia.
      + right. left. exists n', out'. split; [reflexivity|]. split; [exact Hn|]. intros k Hk. rewrite W. specialize (A k (Hlow k Hk)). lia.
      + right. right. split; [|split].
        * exists c. split; [exact Hc|]. eapply begin_below; [discriminate|apply first_optional|exact Hb].
        * intros k Hk. rewrite W. specialize (A k (Hlow k Hk)). lia.
        * destruct B as [B|(n' & o & c' & B & Hc' & Hon)]; [discriminate|]. right. exists n', o, c'. split; [exact B|]. split; [exact Hc'|].
          intros H'. apply Hon. eapply on_optional; eassumption.
    - apply Htree in H2. destruct H2 as (l & q & Ht & Hq & ->). inversion Ht; subst. apply Hsingle in Hq.
      assert (Hr : occurs syn r) by (eapply occurs_child; [exact H1|left; reflexivity]). specialize (H0 q Hr Hq).
      pose proof (Hclear _ H1) as [Hne Hap].
      assert (W : forall z k, work refs z k (ROptional r id) = S (work refs z k r)) by (intros z [|k']; reflexivity).
      assert (Hlow : forall k, low k (ROptional r id) -> low k r) by (intros k' Hk; eapply lower_first; [exact Hk|apply first_optional]).
      destruct H0 as [[A B]|[(n' & out' & Hv & _)|((c & Hc & Hb) & A & B)]]; [|discriminate|].
      + left. split; [|right; eauto]. intros k Hk. rewrite W. specialize (A k (Hlow k Hk)). lia.
      + right. right. split; [|split].
        * exists c. split; [exact Hc|]. eapply begin_below; [discriminate|apply first_optional|exact Hb].
        * intros k Hk. rewrite W. specialize (A k (Hlow k Hk)). lia.
        * right. exists 0, [], c. split; [reflexivity|]. split; [rewrite <- hd_nth; exact Hc|]. apply Hap. exact Hb.
    - (* the rules of a sequence *) inversion H0; subst. inversion H1; subst. split; [|split].
      + intros done id _. left. exists 0, []. split; [reflexivity|]. cbn. lia.
      + intros _ c _ _. split; [cbn; lia|]. right. exists []. split; [reflexivity|constructor].
      + intros done id _ _. left. split; [intros k _; cbn; lia|]. right. eauto.
    - inversion H2; subst; agree. apply Hsingle in H3. apply Forall_cons_iff in H1. destruct H1 as [Hr Hrest].
      specialize (H0 m Hr H3). split; [|split].
      + intros done id Ho. right. split; [|left; reflexivity].
        destruct H0 as [A|[(n & out & Hv & _)|A]]; [|discriminate|].
        * apply (idle_any _ _ _ Hr) in A. cbn. lia.
        * apply (lost_any _ _ _ _ Hr) in A. cbn. lia.
      + intros _ c Hc Hb. assert (A : idle r No m).
        { eapply stuck; [exact Hr|exact H|exact H0|exact Hc|]. intros Hb'. apply Hb. exists [], r, rest. split; [reflexivity|]. split; [constructor|exact Hb']. }
        apply (idle_any _ _ _ Hr) in A. split; [cbn; lia|left; reflexivity].
      + intros done id Hd Ho. assert (Hl : forall k, seq_low k (r :: rest) -> low k r) by (intros k Hk; apply (Hk [] r rest eq_refl); constructor).
        destruct H0 as [[A B]|[(n & out & Hv & _)|((c & Hc & Hb) & A & B)]]; [|discriminate|].
        * left. split; [|left; reflexivity]. intros k Hk. specialize (A k (Hl k Hk)). cbn. lia.
        * right. right. split; [|split; [|left; reflexivity]].
          -- exists c. split; [exact Hc|]. exists [], r, rest. split; [reflexivity|]. split; [constructor|exact Hb].
          -- intros k Hk. specialize (A k (Hl k Hk)). cbn. lia.
    - match goal with Ha : in_order _ _ (_ :: _) _ _ _ _ |- _ => inversion Ha; subst end; agree.
      match goal with Ha : trees _ _ (_ :: _) _ |- _ => inversion Ha; subst end.
      match goal with Ha : tree _ _ (r, _, _, _) ?a, Hb : trees _ _ _ ?b |- _ => rename a into w1; rename b into w2 end.
      apply Forall_cons_iff in H3. destruct H3 as [Hr Hrest].
      specialize (H0 _ Hr ltac:(eassumption)). destruct (H2 _ _ Hrest ltac:(eassumption) ltac:(eassumption)) as (HL & HX & HF).
      pose proof (reads_le E HE refs _ _ _ _ _ _ _ _ H) as Hle.
      assert (Hlen : length s = n + length (skipn n s)) by (rewrite skipn_length; lia).
      assert (Hdoom : forall done id c, occurs syn (RSequence (done ++ r :: rest) id) -> nth_error s n = Some c -> ~ on r (Some c) ->
        w2 <= length rest * lz /\ doomed (RSequence (done ++ r :: rest) id) s (after n out v)).
      { intros done id c Ho Hc Hon. destruct (HX Hrest c) as [M V].
        - rewrite hd_nth, nth_skipn, Nat.add_0_r. exact Hc.
        - intros (before & q & behind & -> & Hb & Hq). apply Hon. eapply on_sequence_next; [exact Ho|exact Hb|exact Hq].
        - split; [exact M|]. destruct V as [->|(o & -> & He)]; [left; reflexivity|]. right. exists (n + 0), (out ++ o), c.
          split; [reflexivity|]. rewrite Nat.add_0_r. split; [exact Hc|]. intros H'. apply Hon. eapply on_sequence_end; eassumption. }
      split; [|split].
      + intros done id Ho. assert (Ho' : occurs syn (RSequence ((done ++ [r]) ++ rest) id)) by (rewrite <- app_assoc; exact Ho).
        cbn [length]. destruct H0 as [A|[A|A]].
        * pose proof (idle_any _ _ _ Hr A) as Hz. destruct A as [_ [A|[o A]]]; [discriminate|]. injection A as -> _.
          destruct (HL _ _ Ho') as [(n2 & o2 & -> & B)|[B D]].
          -- left. exists (0 + n2), (out ++ o2). split; [reflexivity|]. cbn. lia.
          -- right. split; [lia|]. rewrite <- app_assoc in D. eapply doomed_after; [|exact D]. auto.
        * apply (clean_any _ _ _ Hr) in A. destruct A as (n' & o & A & Hn & Hz). injection A as <- <-.
          destruct (HL _ _ Ho') as [(n2 & o2 & -> & B)|[B D]].
          -- left. exists (n + n2), (out ++ o2). split; [reflexivity|]. nia.
          -- right. split; [rewrite Hlen; nia|]. rewrite <- app_assoc in D. eapply doomed_after; [|exact D]. auto.
        * pose proof (lost_any _ _ _ _ Hr A) as Hz. destruct A as (_ & _ & [A|(n' & o & c & A & Hc & Hon)]); [discriminate|]. injection A as <- <-.
          destruct (Hdoom done id c Ho Hc Hon) as [M D]. right. split; [lia|exact D].
      + intros _ c Hc Hb. assert (A : idle r (Yes n out) w1).
        { eapply stuck; [exact Hr|exact H|exact H0|exact Hc|]. intros Hb'. apply Hb. exists [], r, rest. split; [reflexivity|]. split; [constructor|exact Hb']. }
        pose proof (idle_any _ _ _ Hr A) as Hz. destruct A as [_ [A|[o A]]]; [discriminate|]. injection A as -> _.
        assert (He : emp r) by (eapply reads_empty; eassumption).
        destruct (HX Hrest c Hc) as [M V].
        { intros (before & q & behind & -> & Hf & Hq). apply Hb. exists (r :: before), q, behind. split; [reflexivity|]. split; [constructor; assumption|exact Hq]. }
        cbn [length]. split; [lia|]. destruct V as [->|(o2 & -> & V)]; [left; reflexivity|right]. eexists. split; [reflexivity|constructor; assumption].
      + intros done id Hd Ho. assert (Hl : forall k, seq_low k (r :: rest) -> low k r) by (intros k Hk; apply (Hk [] r rest eq_refl); constructor).
        assert (Ho' : occurs syn (RSequence ((done ++ [r]) ++ rest) id)) by (rewrite <- app_assoc; exact Ho).
        destruct H0 as [A|[A|A]].
        * pose proof (idle_any _ _ _ Hr A) as Hz. destruct A as [A [B|[o B]]]; [discriminate|]. injection B as -> _.
          assert (He : emp r) by (eapply reads_empty; eassumption).
          assert (Hl' : forall k, seq_low k (r :: rest) -> seq_low k rest).
          { intros k Hk before q behind -> Hf. apply (Hk (r :: before) q behind eq_refl). constructor; assumption. }
          destruct (HF _ id (proj2 (Forall_app _ _ _) (conj Hd (Forall_cons _ He (Forall_nil _)))) Ho')
            as [[B C]|[(n2 & o2 & -> & Hn & B)|((c & Hc & before & q & behind & -> & Hf & Hq) & B & D)]].
          -- left. split.
             ++ intros k Hk. specialize (A k (Hl k Hk)). specialize (B k (Hl' k Hk)). cbn. lia.
             ++ destruct C as [->|[o2 ->]]; [left; reflexivity|right]. eexists. reflexivity.
          -- right. left. eexists _, _. split; [reflexivity|]. split; [exact Hn|]. intros k Hk. specialize (B k (Hl' k Hk)). cbn. lia.
          -- right. right. split; [|split].
             ++ exists c. split; [exact Hc|]. exists (r :: before), q, behind. split; [reflexivity|]. split; [constructor; assumption|exact Hq].
             ++ intros k Hk. specialize (B k (Hl' k Hk)). cbn in *. lia.
             ++ rewrite <- app_assoc in D. eapply doomed_after; [|exact D]. auto.
        * destruct A as (n' & o & A & Hn & Hz). injection A as <- <-.
          destruct (HL _ _ Ho') as [(n2 & o2 & -> & B)|[B D]].
          -- right. left. exists (n + n2), (out ++ o2). split; [reflexivity|]. split; [lia|]. intros k Hk. specialize (Hz k (Hl k Hk)).
             cbn. pose proof (works_length refs lz k rest). nia.
          -- right. right. split; [|split].
             ++ destruct (read_begins _ _ _ _ _ _ _ _ Hr H Hn) as (c & Hc & Hb). exists c. split; [exact Hc|].
                exists [], r, rest. split; [reflexivity|]. split; [constructor|exact Hb].
             ++ intros k Hk. specialize (Hz k (Hl k Hk)). cbn [works]. pose proof (works_length refs lz k rest). rewrite Hlen. nia.
             ++ rewrite <- app_assoc in D. eapply doomed_after; [|exact D]. auto.
        * destruct A as ((c0 & Hc0 & Hb0) & A & [B|(n' & o & c & B & Hc & Hon)]); [discriminate|]. injection B as <- <-.
          destruct (Hdoom done id c Ho Hc Hon) as [M D]. right. right. split; [|split; [|exact D]].
          -- exists c0. split; [exact Hc0|]. exists [], r, rest. split; [reflexivity|]. split; [constructor|exact Hb0].
          -- intros k Hk. specialize (A k (Hl k Hk)). cbn [works]. pose proof (works_length refs lz k rest). lia.
    - (* the alternatives *) inversion H0; subst. inversion H1; subst. split.
      + intros _ c _ _. split; [cbn; lia|left; reflexivity].
      + intros done id _. left. split; [intros k _; cbn; lia|left; reflexivity].
    - inversion H2; subst; agree. apply Hsingle in H3. apply Forall_cons_iff in H1. destruct H1 as [Hr Hrest].
      specialize (H0 m Hr H3). split.
      + intros _ c Hc Hb. assert (A : idle r (Yes n out) m).
        { eapply stuck; [exact Hr|exact H|exact H0|exact Hc|]. apply Hb. left. reflexivity. }
        pose proof (idle_any _ _ _ Hr A) as Hz. destruct A as [_ [A|[o A]]]; [discriminate|]. injection A as -> _.
        split; [cbn; lia|]. right. exists out, r. split; [reflexivity|]. split; [left; reflexivity|]. eapply reads_empty; eassumption.
      + intros done id Ho. assert (Hl : forall k, alt_low k (r :: rest) -> low k r) by (intros k Hk; apply Hk; left; reflexivity).
        destruct H0 as [[A B]|[(n' & out' & Hv & Hn & A)|((c & Hc & Hb) & A & B)]].
        * left. split; [|exact B]. intros k Hk. specialize (A k (Hl k Hk)). cbn. lia.
        * right. left. exists n', out'. split; [exact Hv|]. split; [exact Hn|]. intros k Hk. specialize (A k (Hl k Hk)). cbn. lia.
        * right. right. split; [|split].
          -- exists c, r. split; [exact Hc|]. split; [left; reflexivity|exact Hb].
          -- intros k Hk. specialize (A k (Hl k Hk)). cbn. lia.
          -- destruct B as [B|(n' & o & c' & B & Hc' & Hon)]; [discriminate|]. right. exists n', o, c'. split; [exact B|]. split; [exact Hc'|].
             intros H'. apply Hon. eapply on_select; [exact Ho| |exact H']. apply in_or_app. right. left. reflexivity.
    - match goal with Ha : in_turn _ _ (_ :: _) _ _ _ _ |- _ => inversion Ha; subst end; agree.
      match goal with Ha : trees _ _ (_ :: _) _ |- _ => inversion Ha; subst end.
      match goal with Ha : tree _ _ (r, _, _, _) ?a, Hb : trees _ _ _ ?b |- _ => rename a into w1; rename b into w2 end.
      apply Forall_cons_iff in H3. destruct H3 as [Hr Hrest].
      specialize (H0 _ Hr ltac:(eassumption)). destruct (H2 _ _ Hrest ltac:(eassumption) ltac:(eassumption)) as (HX & HF).
      split.
      + intros _ c Hc Hb. assert (A : idle r No w1).
        { eapply stuck; [exact Hr|exact H|exact H0|exact Hc|]. apply Hb. left. reflexivity. }
        pose proof (idle_any _ _ _ Hr A) as Hz. destruct (HX Hrest c Hc) as [M V]; [intros q Hq; apply Hb; right; exact Hq|].
        cbn [length]. split; [lia|]. destruct V as [->|(o & q & -> & Hq & He)]; [left; reflexivity|]. right. exists o, q. split; [reflexivity|]. split; [right; exact Hq|exact He].
      + intros done id Ho. assert (Hl : forall k, alt_low k (r :: rest) -> low k r) by (intros k Hk; apply Hk; left; reflexivity).
        assert (Hl' : forall k, alt_low k (r :: rest) -> alt_low k rest) by (intros k Hk q Hq; apply Hk; right; exact Hq).
        assert (Ho' : occurs syn (RSelect ((done ++ [r]) ++ rest) id)) by (rewrite <- app_assoc; exact Ho).
        destruct H0 as [A|[(n' & out' & Hv & _)|((c & Hc & Hb) & A & _)]]; [|discriminate|].
        * pose proof (idle_any _ _ _ Hr A) as Hz. destruct A as [A _].
          destruct (HF _ _ Ho') as [[B C]|[(n2 & o2 & -> & Hn & B)|((c & q & Hc & Hq & Hb) & B & D)]].
          -- left. split; [|exact C]. intros k Hk. specialize (A k (Hl k Hk)). specialize (B k (Hl' k Hk)). cbn. lia.
          -- right. left. exists n2, o2. split; [reflexivity|]. split; [exact Hn|]. intros k Hk. specialize (B k (Hl' k Hk)). cbn. lia.
          -- right. right. split; [|split].
             ++ exists c, q. split; [exact Hc|]. split; [right; exact Hq|exact Hb].
             ++ intros k Hk. specialize (B k (Hl' k Hk)). cbn. lia.
             ++ rewrite <- app_assoc in D. exact D.
        * assert (Hdec : forall q, In q rest -> ~ beg q c /\ (emp q -> ~ on (RSelect (done ++ r :: rest) id) (Some c))).
          { intros q Hq. apply in_split in Hq. destruct Hq as (between & behind & ->).
            pose proof (Hclear _ Ho done r between q behind eq_refl) as [_ Hd]. apply Hd. exact Hb. }
          destruct (HX Hrest c Hc) as [M V]; [intros q Hq; apply Hdec; exact Hq|].
          right. right. split; [|split].
          -- exists c, r. split; [exact Hc|]. split; [left; reflexivity|exact Hb].
          -- intros k Hk. specialize (A k (Hl k Hk)). cbn [works]. pose proof (works_length refs lz k rest). lia.
          -- destruct V as [->|(o & q & -> & Hq & He)]; [left; reflexivity|]. right. exists 0, o, c. split; [reflexivity|].
             split; [rewrite <- hd_nth; exact Hc|]. apply (Hdec q Hq). exact He.
    - (* again and again *) inversion H1; subst; agree. apply Hsingle in H2. intros Hr Hne Hon. specialize (H0 m Hr H2).
      split; [|split].
      + destruct H0 as [A|[(n' & out' & Hv & _)|A]]; [|discriminate|].
        * apply (idle_any _ _ _ Hr) in A. left. lia.
        * pose proof (lost_any _ _ _ _ Hr A) as Hz. destruct A as ((c & Hc & Hb) & _). right. split; [lia|]. exists c. rewrite <- hd_nth. auto.
      + intros c Hc Hb. split; [reflexivity|]. eapply idle_any; [exact Hr|]. eapply stuck; eassumption.
      + destruct H0 as [[A _]|[(n' & out' & Hv & _)|((c & Hc & Hb) & A & _)]]; [|discriminate|].
        * left. split; [reflexivity|exact A].
        * right. right. split; [eauto|]. split; [intros k Hk; specialize (A k Hk); lia|]. exists c. rewrite <- hd_nth. auto.
    - match goal with Ha : over_again _ _ _ _ _ _ _ |- _ => inversion Ha; subst end; agree.
      match goal with Ha : trees _ _ (_ :: _) _ |- _ => inversion Ha; subst end.
      match goal with Ha : tree _ _ (r, _, _, _) ?a, Hb : trees _ _ _ ?b |- _ => rename a into w1; rename b into w2 end.
      intros Hr Hne Hon. specialize (H0 _ Hr ltac:(eassumption)). destruct (H2 _ _ ltac:(eassumption) ltac:(eassumption) Hr Hne Hon) as (HL & HX & _).
      pose proof (Hempty _ _ _ _ _ _ _ _ H Hne) as Hn.
      pose proof (reads_le E HE refs _ _ _ _ _ _ _ _ H) as Hle.
      assert (Hlen : length s = n + length (skipn n s)) by (rewrite skipn_length; lia).
      assert (Hoff : off r (skipn n s) m -> off r s (n + m)) by (intros (c & Hc & Ho); exists c; rewrite <- nth_skipn; auto).
      assert (Hbeg : exists c, hd_error s = Some c /\ beg r c) by (eapply read_begins; eassumption).
      assert (Hdoom : forall c, nth_error s n = Some c -> ~ on r (Some c) -> m = 0 /\ w2 <= lz).
      { intros c Hc Hno. apply (HX c); [rewrite hd_nth, nth_skipn, Nat.add_0_r; exact Hc|]. intros Hb. apply Hno. apply Hon. exact Hb. }
      split; [|split].
      + destruct H0 as [A|[A|A]].
        * destruct A as [_ [A|[o A]]]; [discriminate|]. injection A as -> _. lia.
        * apply (clean_any _ _ _ Hr) in A. destruct A as (n' & o & A & _ & Hz). injection A as <- <-.
          destruct HL as [B|[B D]]; [left; nia|]. right. split; [rewrite Hlen; nia|auto].
        * pose proof (lost_any _ _ _ _ Hr A) as Hz. destruct A as (_ & _ & [A|(n' & o & c & A & Hc & Hno)]); [discriminate|]. injection A as <- <-.
          destruct (Hdoom c Hc Hno) as [-> M]. right. split; [lia|]. exists c. rewrite Nat.add_0_r. auto.
      + intros c Hc Hb. destruct Hbeg as (c' & Hc' & Hb'). destruct Hb. congruence.
      + destruct H0 as [A|[A|A]].
        * destruct A as [_ [A|[o A]]]; [discriminate|]. injection A as -> _. lia.
        * destruct A as (n' & o & A & _ & Hz). injection A as <- <-. destruct HL as [B|[B D]].
          -- right. left. split; [lia|]. intros k' Hk. specialize (Hz k' Hk). nia.
          -- right. right. split; [exact Hbeg|]. split; [|auto]. intros k' Hk. specialize (Hz k' Hk). rewrite Hlen. nia.
        * destruct A as (_ & A & [B|(n' & o & c & B & Hc & Hno)]); [discriminate|]. injection B as <- <-.
          destruct (Hdoom c Hc Hno) as [-> M]. right. right. split; [exact Hbeg|]. split; [intros k' Hk; specialize (A k' Hk); lia|].
          exists c. rewrite Nat.add_0_r. auto.
    - (* separators *) inversion H1; subst; agree. apply Hsingle in H2. intros optional id Ho.
      assert (Hb : occurs syn by_) by (eapply occurs_child; [exact Ho|right; left; reflexivity]).
      pose proof (Hclear _ Ho) as (Hne & [Hnb Hapb] & Hapr). specialize (H0 m Hb H2). split.
      + destruct H0 as [A|[(n' & out' & Hv & _)|A]]; [|discriminate|].
        * apply (idle_any _ _ _ Hb) in A. left. exists 0, []. split; [reflexivity|lia].
        * pose proof (lost_any _ _ _ _ Hb A) as Hz. destruct A as ((c & Hc & Hbc) & _). right. split; [lia|].
          right. exists 0, [], c. split; [reflexivity|]. rewrite <- hd_nth. auto.
      + intros c Hc Hbc. split; [|eauto]. eapply idle_any; [exact Hb|]. eapply stuck; eassumption.
    - match goal with Ha : by_turns _ _ _ _ _ _ _ _ |- _ => inversion Ha; subst end; agree.
      match goal with Ha : by_turns _ _ r by_ _ _ _ _ |- _ => inversion Ha; subst end; agree.
      match goal with Ha : trees _ _ (_ :: _) _ |- _ => inversion Ha; subst end.
      match goal with Ha : trees _ _ [_] _ |- _ => apply Hsingle in Ha end.
      match goal with Ha : tree _ _ (by_, _, _, _) ?a, Hb : tree _ _ (r, _, _, _) ?b |- _ => rename a into w1; rename b into w2 end.
      intros optional id Ho.
      assert (Hb : occurs syn by_) by (eapply occurs_child; [exact Ho|right; left; reflexivity]).
      assert (Hr : occurs syn r) by (eapply occurs_child; [exact Ho|left; reflexivity]).
      pose proof (Hclear _ Ho) as (Hne & [Hnb Hapb] & Hapr).
      specialize (H0 _ Hb ltac:(eassumption)). specialize (H2 _ Hr ltac:(eassumption)).
      pose proof (Hempty _ _ _ _ _ _ _ _ H Hnb) as Hn.
      pose proof (reads_le E HE refs _ _ _ _ _ _ _ _ H) as Hle.
      assert (Hlen : length s = n + length (skipn n s)) by (rewrite skipn_length; lia).
      split.
      + destruct H0 as [A|[A|A]].
        * destruct A as [_ [A|[o A]]]; [discriminate|]. injection A as -> _. lia.
        * apply (clean_any _ _ _ Hb) in A. destruct A as (n' & o & A & _ & Hz). injection A as <- <-.
          destruct H2 as [B|[(n' & out' & Hv & _)|B]]; [|discriminate|].
          -- apply (idle_any _ _ _ Hr) in B. destruct trail.
             ++ left. exists n, out. split; [reflexivity|lia].
             ++ right. split; [rewrite Hlen; nia|left; reflexivity].
          -- pose proof (lost_any _ _ _ _ Hr B) as Hy. destruct B as ((c & Hc & Hrc) & _). right. split; [rewrite Hlen; nia|].
             destruct trail; [|left; reflexivity]. right. exists n, out, c. split; [reflexivity|].
             rewrite hd_nth, nth_skipn, Nat.add_0_r in Hc. split; [exact Hc|]. apply Hapr; [right; reflexivity|exact Hrc].
        * pose proof (lost_any _ _ _ _ Hb A) as Hz. destruct A as (_ & _ & [A|(n' & o & c & A & Hc & Hno)]); [discriminate|]. injection A as <- <-.
          assert (B : idle r No w2).
          { eapply stuck; [exact Hr|exact H1|exact H2| |].
            - rewrite hd_nth, nth_skipn, Nat.add_0_r. exact Hc.
            - intros Hbr. apply Hno. eapply on_item; eassumption. }
          apply (idle_any _ _ _ Hr) in B. right. split; [lia|]. destruct trail; [|left; reflexivity]. right. exists n, out, c.
          split; [reflexivity|]. split; [exact Hc|]. intros H'. apply Hno. eapply on_trail; eassumption.
      + intros c Hc Hbc. destruct (read_begins _ _ _ _ _ _ _ _ Hb H Hn) as (c' & Hc' & Hb'). destruct Hbc. congruence.
    - match goal with Ha : by_turns _ _ _ _ _ _ _ _ |- _ => inversion Ha; subst end; agree.
      match goal with Ha : by_turns _ _ r by_ _ _ _ _ |- _ => inversion Ha; subst end; agree.
      match goal with Ha : trees _ _ (_ :: _) _ |- _ => inversion Ha; subst end.
      match goal with Ha : trees _ _ ((r, _, _, _) :: _) _ |- _ => inversion Ha; subst end.
      match goal with Ha : tree _ _ (by_, _, _, _) ?a, Hb : tree _ _ (r, _, _, _) ?b, Hc : trees _ _ _ ?c |- _ => rename a into w1; rename b into w2; rename c into w3 end.
      intros optional id Ho.
      assert (Hb : occurs syn by_) by (eapply occurs_child; [exact Ho|right; left; reflexivity]).
      assert (Hr : occurs syn r) by (eapply occurs_child; [exact Ho|left; reflexivity]).
      pose proof (Hclear _ Ho) as (Hne & [Hnb Hapb] & Hapr).
      specialize (H0 _ Hb ltac:(eassumption)). specialize (H2 _ Hr ltac:(eassumption)).
      destruct (H4 _ _ ltac:(eassumption) ltac:(eassumption) optional id Ho) as [HM HX].
      pose proof (Hempty _ _ _ _ _ _ _ _ H Hnb) as Hn. pose proof (Hempty _ _ _ _ _ _ _ _ H1 Hne) as Hn2.
      pose proof (reads_le E HE refs _ _ _ _ _ _ _ _ H) as Hle. pose proof (reads_le E HE refs _ _ _ _ _ _ _ _ H1) as Hle2.
      assert (Hlen : length s = n + length (skipn n s)) by (rewrite skipn_length; lia).
      assert (Hlen2 : length (skipn n s) = m + length (skipn m (skipn n s))) by (rewrite (skipn_length m); lia).
      split.
      + destruct H0 as [A|[A|A]].
        * destruct A as [_ [A|[o A]]]; [discriminate|]. injection A as -> _. lia.
        * apply (clean_any _ _ _ Hb) in A. destruct A as (n' & o & A & _ & Hz). injection A as <- <-.
          destruct H2 as [B|[B|B]].
          -- destruct B as [_ [B|[o B]]]; [discriminate|]. injection B as -> _. lia.
          -- apply (clean_any _ _ _ Hr) in B. destruct B as (n' & o & B & _ & Hy). injection B as <- <-.
             destruct HM as [(n3 & o3 & -> & C)|[C D]].
             ++ left. eexists _, _. split; [reflexivity|]. nia.
             ++ right. split; [rewrite Hlen, Hlen2; nia|]. eapply doomed_after; [intros c Hc; exact Hc|]. eapply doomed_after; [intros c Hc; exact Hc|]. exact D.
          -- pose proof (lost_any _ _ _ _ Hr B) as Hy. destruct B as (_ & _ & [B|(n' & o & c & B & Hc & Hno)]); [discriminate|]. injection B as <- <-.
             destruct (HX c) as [M [o3 ->]].
             { rewrite hd_nth, nth_skipn, Nat.add_0_r. exact Hc. }
             { intros H'. apply Hno. eapply on_separator; eassumption. }
             right. split; [rewrite Hlen; nia|]. right. exists (n + (m + 0)), (out ++ out' ++ o3), c. split; [reflexivity|].
             rewrite Nat.add_0_r. split; [rewrite <- nth_skipn; exact Hc|]. intros H'. apply Hno. eapply on_separate_end; eassumption.
        * destruct A as (_ & _ & [A|(n' & o & c & A & Hc & Hno)]); [discriminate|]. injection A as <- <-.
          assert (B : idle r (Yes m out') w2).
          { eapply stuck; [exact Hr|exact H1|exact H2| |].
            - rewrite hd_nth, nth_skipn, Nat.add_0_r. exact Hc.
            - intros Hbr. apply Hno. eapply on_item; eassumption. }
          destruct B as [_ [B|[o B]]]; [discriminate|]. injection B as -> _. lia.
      + intros c Hc Hbc. destruct (read_begins _ _ _ _ _ _ _ _ Hb H Hn) as (c' & Hc' & Hb'). destruct Hbc. congruence.
  Qed.
End Linear.
