(** Comments in the meta language: nesting, and comments that are not closed. *)
From Coq Require Import Ascii String List NArith Bool Arith Lia.
From Verif Require Import Base Ext Types ParseModel OptimizeModel BootstrapRules DepthModel CostModel CostSpec PegSpec PrimProofs
  DataSpec ApiSpec OptSpec FuelProofs ParsePublic SyntaxSpec SyntaxProofs TextSpec DepthProofs CostProofs.
Import ListNotations.
Local Open Scope string_scope.
Local Open Scope list_scope.
Local Open Scope nat_scope.

Definition rule_at (i : nat) : rule := nth i (s_rules boot_computed) (RWhitespace true 0).

Definition multi : rule := Eval vm_compute in rule_at 0.
Definition tries : rule := Eval vm_compute in
  match multi with RSequence (_ :: _ :: RRepeat r _ _ :: _) _ => r | _ => multi end.

(** [/* ] [n] times. *)
Fixpoint opened (n : nat) : str :=
  match n with 0 => [] | S n' => 47%N :: 42%N :: 32%N :: opened n' end.

(** ** Counting *)

Section Count.
  Variable E : ext.
  Variable refs : list rule.

  Notation cost f := (rule_cost E f refs).

  (** The rule reads [k] characters of [s] with at least [n] calls. *)
  Definition gets (f : nat) (r : rule) (s : str) (k n : nat) : Prop :=
    forall toks st p ind, exists c st' oe toks' ind',
      cost f r toks st (RT s p) ind = (c, Done (POk (Rng p k) st' oe, toks', ind')) /\ n <= c.

  (** The rule fails in front of [s] with at least [n] calls. *)
  Definition fails (f : nat) (r : rule) (s : str) (n : nat) : Prop :=
    forall toks st p ind, exists c e toks' ind',
      cost f r toks st (RT s p) ind = (c, Done (PErr e, toks', ind')) /\ n <= c.

  Lemma gets_less f r s k n n' : gets f r s k n -> n' <= n -> gets f r s k n'.
  Proof.
    intros H Hn toks st p ind. destruct (H toks st p ind) as (c & st' & oe & toks' & ind' & He & Hc).
    exists c, st', oe, toks', ind'. split; [exact He|lia].
  Qed.

  Lemma fails_less f r s n n' : fails f r s n -> n' <= n -> fails f r s n'.
  Proof.
    intros H Hn toks st p ind. destruct (H toks st p ind) as (c & e & toks' & ind' & He & Hc).
    exists c, e, toks', ind'. split; [exact He|lia].
  Qed.

  Lemma gets_tag f text inverted property id s rest : s = text ++ rest ->
    gets (S f) (RTag text false inverted property id) s (length text) 1.
  Proof.
    intros -> toks st p ind. cbn [rule_cost parse_rule]. unfold parse_tag, rt_tag.
    assert (H : is_prefix text (text ++ rest) = true).
    { induction text as [|c text IH]; [reflexivity|]. cbn. rewrite N.eqb_refl. exact IH. }
    cbn [src off]. rewrite H. destruct (emit _ _ _ _ _) as [toks' st'].
    do 5 eexists. split; [reflexivity|lia].
  Qed.

  Lemma fails_tag f text inverted property id s : is_prefix text s = false ->
    fails (S f) (RTag text false inverted property id) s 1.
  Proof.
    intros H toks st p ind. cbn [rule_cost parse_rule]. unfold parse_tag, rt_tag. cbn [src].
    rewrite H. do 4 eexists. split; [reflexivity|lia].
  Qed.

  Lemma gets_not_tag f text inverted property id s : is_prefix text s = false ->
    gets (S f) (RTag text true inverted property id) s 0 1.
  Proof.
    intros H toks st p ind. cbn [rule_cost parse_rule]. unfold parse_tag, rt_tag. cbn [src].
    rewrite H. destruct (emit _ _ _ _ _) as [toks' st']. do 5 eexists. split; [reflexivity|lia].
  Qed.

  Lemma fails_not_tag f text inverted property id s : is_prefix text s = true ->
    fails (S f) (RTag text true inverted property id) s 1.
  Proof.
    intros H toks st p ind. cbn [rule_cost parse_rule]. unfold parse_tag, rt_tag. cbn [src].
    rewrite H. do 4 eexists. split; [reflexivity|lia].
  Qed.

  Lemma gets_until f any property id s k : span_len (fun c => negb (mem_char c any)) s = k ->
    gets (S f) (RUntilAny any true property id) s k 1.
  Proof.
    intros <- toks st p ind. cbn [rule_cost parse_rule]. unfold parse_until, rt_until_any. cbn [src off].
    rewrite andb_false_r. destruct (emit _ _ _ _ _) as [toks' st'].
    do 5 eexists. split; [reflexivity|lia].
  Qed.

  Lemma gets_white f id s k : span_len is_ws s = k -> gets (S f) (RWhitespace true id) s k 1.
  Proof.
    intros <- toks st p ind. cbn [rule_cost parse_rule]. unfold parse_whitespace, rt_whitespace. cbn [src off].
    rewrite andb_false_r. do 5 eexists. split; [reflexivity|lia].
  Qed.

  Lemma fails_number f property id s : x_number E false s = None ->
    fails (S f) (RNumber false property id) s 1.
  Proof.
    intros H toks st p ind. cbn [rule_cost parse_rule]. unfold parse_number. cbn [src].
    rewrite H. do 4 eexists. split; [reflexivity|lia].
  Qed.

  Lemma gets_node f name property i id r s k n : nth_error refs i = Some r ->
    gets f r s k n -> gets (S f) (RNode name property (Some i) id) s k n.
  Proof.
    intros Hi H toks st p ind. cbn [rule_cost]. destruct (emit _ _ _ _ _) as [toks1 st1]. rewrite Hi.
    destruct (H toks1 st1 p ind) as (c & st' & oe & toks' & ind' & He & Hc).
    unfold cbind. rewrite He. cbn [snd fst r_len].
    replace (rt_subtract (rt_consume (RT s p) k) (RT s p)) with (Rng p k)
      by (unfold rt_subtract, rt_consume; cbn [off]; f_equal; lia).
    destruct (emit property EndNode (Rng p k) toks' st') as [toks2 st2]. cbn [free fst snd].
    do 5 eexists. split; [reflexivity|lia].
  Qed.

  Lemma fails_node f name property i id r s n : nth_error refs i = Some r ->
    fails f r s n -> fails (S f) (RNode name property (Some i) id) s n.
  Proof.
    intros Hi H toks st p ind. cbn [rule_cost]. destruct (emit _ _ _ _ _) as [toks1 st1]. rewrite Hi.
    destruct (H toks1 st1 p ind) as (c & e & toks' & ind' & He & Hc).
    unfold cbind. rewrite He. cbn [snd fst free]. do 4 eexists. split; [reflexivity|lia].
  Qed.

  (** *** Sequences *)

  Inductive seq_gets (f : nat) : list rule -> str -> nat -> nat -> Prop :=
  | sg_nil : forall s, seq_gets f [] s 0 0
  | sg_cons : forall r rest s k k' n n', gets f r s k n -> seq_gets f rest (skipn k s) k' n' ->
      seq_gets f (r :: rest) s (k + k') (n + n').

  Inductive seq_fails (f : nat) : list rule -> str -> nat -> Prop :=
  | sf_here : forall r rest s n, fails f r s n -> seq_fails f (r :: rest) s n
  | sf_later : forall r rest s k n n', gets f r s k n -> seq_fails f rest (skipn k s) n' ->
      seq_fails f (r :: rest) s (n + n').

  Lemma seq_gets_loop f args s k n : seq_gets f args s k n ->
    forall s0 p0 toks st p ind oe, exists c st' oe' toks' ind',
      seq_cost (rule_cost E f refs) args (RT s0 p0) toks st (RT s p) ind oe =
        (c, Done (POk (Rng p0 (p + k - p0)) st' oe', toks', ind')) /\ n <= c.
  Proof.
    induction 1 as [s|r rest s k k' n n' Hr _ IH]; intros s0 p0 toks st p ind oe; cbn [seq_cost].
    - unfold rt_subtract. cbn [off free]. rewrite Nat.add_0_r. do 5 eexists. split; [reflexivity|lia].
    - destruct (Hr toks st p ind) as (c & st' & oe' & toks' & ind' & He & Hc).
      unfold cbind. rewrite He. cbn [snd fst r_len].
      unfold rt_consume. cbn [src off].
      destruct (IH s0 p0 toks' st' (p + k) ind' (err_update oe' oe))
        as (c2 & st2 & oe2 & toks2 & ind2 & He2 & Hc2).
      rewrite He2. cbn [fst snd]. rewrite Nat.add_assoc. do 5 eexists. split; [reflexivity|lia].
  Qed.

  Lemma gets_seq f args id s k n : seq_gets f args s k n ->
    gets (S f) (RSequence args id) s k (S n).
  Proof.
    intros H toks st p ind. cbn [rule_cost].
    destruct (seq_gets_loop f args s k n H s p toks st p ind None)
      as (c & st' & oe & toks' & ind' & He & Hc).
    rewrite He. replace (p + k - p) with k by lia. do 5 eexists. split; [reflexivity|lia].
  Qed.

  Lemma seq_fails_loop f args s n : seq_fails f args s n ->
    forall start toks st p ind oe, exists c e toks' ind',
      seq_cost (rule_cost E f refs) args start toks st (RT s p) ind oe =
        (c, Done (PErr e, toks', ind')) /\ n <= c.
  Proof.
    induction 1 as [r rest s n Hr|r rest s k n n' Hr _ IH]; intros start toks st p ind oe; cbn [seq_cost].
    - destruct (Hr toks st p ind) as (c & e & toks' & ind' & He & Hc).
      unfold cbind. rewrite He. cbn [snd fst free]. do 4 eexists. split; [reflexivity|lia].
    - destruct (Hr toks st p ind) as (c & st' & oe' & toks' & ind' & He & Hc).
      unfold cbind. rewrite He. cbn [snd fst r_len].
      unfold rt_consume. cbn [src off].
      destruct (IH start toks' st' (p + k) ind' (err_update oe' oe))
        as (c2 & e2 & toks2 & ind2 & He2 & Hc2).
      rewrite He2. cbn [fst snd]. do 4 eexists. split; [reflexivity|lia].
  Qed.

  Lemma fails_seq f args id s n : seq_fails f args s n -> fails (S f) (RSequence args id) s (S n).
  Proof.
    intros H toks st p ind. cbn [rule_cost].
    destruct (seq_fails_loop f args s n H (RT s p) toks st p ind None) as (c & e & toks' & ind' & He & Hc).
    rewrite He. do 4 eexists. split; [reflexivity|lia].
  Qed.

  (** *** Alternatives *)

  Inductive sel_gets (f : nat) : list rule -> str -> nat -> nat -> Prop :=
  | lg_here : forall r rest s k n, gets f r s k n -> sel_gets f (r :: rest) s k n
  | lg_later : forall r rest s k n n', fails f r s n -> sel_gets f rest s k n' ->
      sel_gets f (r :: rest) s k (n + n').

  Inductive sel_fails (f : nat) : list rule -> str -> nat -> Prop :=
  | lf_nil : forall s, sel_fails f [] s 0
  | lf_cons : forall r rest s n n', fails f r s n -> sel_fails f rest s n' ->
      sel_fails f (r :: rest) s (n + n').

  Lemma gets_sel f args id s k n : sel_gets f args s k n -> gets (S f) (RSelect args id) s k (S n).
  Proof.
    intros H toks st p ind. cbn [rule_cost].
    assert (Hl : forall toks ind oe, exists c st' oe' toks' ind',
      select_cost (rule_cost E f refs) args id toks st (RT s p) ind oe =
        (c, Done (POk (Rng p k) st' oe', toks', ind')) /\ n <= c).
    { clear toks ind.
      induction H as [r rest s k n Hr|r rest s k n n' Hr _ IH]; intros toks ind oe; cbn [select_cost].
      - destruct (Hr toks st p ind) as (c & st' & oe' & toks' & ind' & He & Hc).
        unfold cbind. rewrite He. cbn [snd fst r_len free]. do 5 eexists. split; [reflexivity|lia].
      - destruct (Hr toks st p ind) as (c & e & toks' & ind' & He & Hc).
        unfold cbind. rewrite He. cbn [snd fst].
        destruct (IH toks' ind' (err_update (Some e) oe)) as (c2 & st2 & oe2 & toks2 & ind2 & He2 & Hc2).
        rewrite He2. cbn [fst snd]. do 5 eexists. split; [reflexivity|lia]. }
    destruct (Hl toks ind None) as (c & st' & oe & toks' & ind' & He & Hc).
    rewrite He. do 5 eexists. split; [reflexivity|lia].
  Qed.

  Lemma fails_sel f args id s n : sel_fails f args s n -> fails (S f) (RSelect args id) s (S n).
  Proof.
    intros H toks st p ind. cbn [rule_cost].
    assert (Hl : forall toks ind oe, exists c e toks' ind',
      select_cost (rule_cost E f refs) args id toks st (RT s p) ind oe =
        (c, Done (PErr e, toks', ind')) /\ n <= c).
    { clear toks ind.
      induction H as [s|r rest s n n' Hr _ IH]; intros toks ind oe; cbn [select_cost].
      - destruct oe; do 4 eexists; (split; [reflexivity|lia]).
      - destruct (Hr toks st p ind) as (c & e & toks' & ind' & He & Hc).
        unfold cbind. rewrite He. cbn [snd fst].
        destruct (IH toks' ind' (err_update (Some e) oe)) as (c2 & e2 & toks2 & ind2 & He2 & Hc2).
        rewrite He2. cbn [fst snd]. do 4 eexists. split; [reflexivity|lia]. }
    destruct (Hl toks ind None) as (c & e & toks' & ind' & He & Hc).
    rewrite He. do 4 eexists. split; [reflexivity|lia].
  Qed.

  (** *** Repetition *)

  Inductive rep_gets (f : nat) (r : rule) : nat -> str -> nat -> nat -> Prop :=
  | rg_stop : forall l s n, fails f r s n -> rep_gets f r (S l) s 0 n
  | rg_more : forall l s k k' n n', gets f r s k n -> rep_gets f r l (skipn k s) k' n' ->
      rep_gets f r (S l) s (k + k') (n + n').

  Lemma gets_rep f r id s k n : rep_gets f r f s k n -> gets (S f) (RRepeat r true id) s k (S n).
  Proof.
    intros H toks st p ind. cbn [rule_cost].
    assert (Hl : forall l s k n, rep_gets f r l s k n -> forall s0 p0 first toks st p ind oe,
      exists c st' oe' toks' ind',
      repeat_cost l (rule_cost E f refs r) true (RT s0 p0) first toks st (RT s p) ind oe =
        (c, Done (POk (Rng p0 (p + k - p0)) st' oe', toks', ind')) /\ n <= c).
    { clear. intros l s k n H. induction H as [l s n Hr|l s k k' n n' Hr _ IH];
        intros s0 p0 first toks st p ind oe; cbn [repeat_cost].
      - destruct (Hr toks st p ind) as (c & e & toks' & ind' & He & Hc).
        unfold cbind. rewrite He. cbn [snd fst]. rewrite andb_false_r. unfold rt_subtract.
        cbn [off free fst snd]. rewrite !Nat.add_0_r. do 5 eexists. split; [reflexivity|lia].
      - destruct (Hr toks st p ind) as (c & st' & oe' & toks' & ind' & He & Hc).
        unfold cbind. rewrite He. cbn [snd fst r_len]. unfold rt_consume. cbn [src off].
        destruct (IH s0 p0 false toks' st' (p + k) ind' (err_update oe' oe))
          as (c2 & st2 & oe2 & toks2 & ind2 & He2 & Hc2).
        rewrite He2. cbn [fst snd]. rewrite Nat.add_assoc. do 5 eexists. split; [reflexivity|lia]. }
    destruct (Hl f s k n H s p true toks st p ind None) as (c & st' & oe & toks' & ind' & He & Hc).
    rewrite He. replace (p + k - p) with k by lia. do 5 eexists. split; [reflexivity|lia].
  Qed.

  (** No line: the first one is not read. *)
  Lemma gets_no_line f r id c s n : is_ws c = false -> f <> 0 -> fails f r (c :: s) n ->
    gets (S f) (RLines r false id) (c :: s) 0 n.
  Proof.
    intros Hw Hf H toks st p ind. cbn [rule_cost].
    destruct f as [|f]; [congruence|]. cbn [lines_cost src].
    change (span_len is_ws (c :: s)) with (if is_ws c then S (span_len is_ws s) else 0). rewrite Hw.
    cbn [Nat.eqb length firstn after_last_newline]. unfold closure_cost at 1. cbn [ls_toks ls_state ls_ind].
    destruct (H toks st p ind) as (x & e & toks' & ind' & He & Hc).
    change (firstn 0 (c :: s)) with (@nil char).
    unfold cbind. rewrite He. cbn [fst snd free ls_toks ls_state ls_err ls_ind]. unfold rt_subtract.
    cbn [off]. rewrite Nat.sub_diag. do 5 eexists. split; [reflexivity|lia].
  Qed.
End Count.

(** ** Comments that are not closed *)

Section Unclosed.
  Variable E : ext.
  Variable refs : list rule.
  Hypothesis Hmulti : nth_error refs 0 = Some multi.

  Notation gets := (gets E refs).
  Notation fails := (fails E refs).

  Lemma tries_end f : fails (5 + f) tries [] 1.
  Proof.
    eapply fails_less; [apply fails_sel|apply le_n_S, Nat.le_0_l].
    apply lf_cons; [|apply lf_cons; [|apply lf_cons; [|apply lf_nil]]].
    - apply fails_seq. eapply sf_later; [apply gets_not_tag; reflexivity|].
      apply sf_here. apply fails_tag. reflexivity.
    - apply fails_seq. apply sf_here. eapply fails_node; [exact Hmulti|].
      apply fails_seq. apply sf_here. apply fails_tag. reflexivity.
    - apply fails_seq. apply sf_here. apply fails_tag. reflexivity.
  Qed.

  Lemma span_opened j : span_len (fun c => negb (mem_char c [42%N; 47%N])) (32%N :: opened j) = 1.
  Proof. destruct j; reflexivity. Qed.

  Lemma unclosed_both k :
    (forall f, 5 * k + 6 <= f -> fails f multi (opened k) (2 ^ k)) /\
    (forall f l, 5 * k + 9 <= f -> 2 * k + 1 <= l ->
       exists n, 2 ^ S k <= S n /\ rep_gets E refs f tries l (opened k) (3 * k) n).
  Proof.
    induction k as [|k [IHt IHr]].
    - split.
      + intros f Hf. do 6 (destruct f as [|f]; [lia|]). cbn [opened Nat.pow].
        eapply fails_less; [apply fails_seq; apply sf_here; apply fails_tag; reflexivity|lia].
      + intros f l Hf Hl. do 9 (destruct f as [|f]; [lia|]). destruct l as [|l]; [lia|].
        exists 1. split; [simpl; lia|]. apply rg_stop. apply (tries_end (4 + f)).
    - assert (HT : forall f, 5 * S k + 6 <= f -> fails f multi (opened (S k)) (2 ^ S k)).
      { intros f Hf. do 11 (destruct f as [|f]; [lia|]). cbn [opened].
        destruct (IHr (9 + f) (9 + f)) as (n & Hn & Hrep); [lia|lia|].
        eapply fails_less; [apply fails_seq|].
        - eapply sf_later; [eapply gets_tag; reflexivity|]. cbn [length skipn].
          eapply sf_later; [apply gets_until; apply span_opened|]. cbn [skipn].
          eapply sf_later; [apply gets_rep; exact Hrep|].
          apply sf_here. apply fails_tag.
          replace (skipn (3 * k) (opened k)) with (@nil char); [reflexivity|].
          clear. induction k as [|k IH]; [reflexivity|].
          replace (3 * S k) with (3 + 3 * k) by lia. exact IH.
        - lia. }
      split; [exact HT|]. intros f l Hf Hl.
      do 9 (destruct f as [|f]; [lia|]). do 3 (destruct l as [|l]; [lia|]).
      destruct (IHr (9 + f) (S l)) as (n & Hn & Hrep); [lia|lia|].
      eexists. split.
      2: { replace (3 * S k) with (1 + (2 + 3 * k)) by lia.
           eapply rg_more; [|eapply rg_more].
           - apply gets_sel. eapply lg_later; [|eapply lg_later; [|apply lg_here]].
             + apply fails_seq. eapply sf_later; [apply gets_not_tag; reflexivity|].
               apply sf_here. apply fails_tag. reflexivity.
             + apply fails_seq. apply sf_here. eapply fails_node; [exact Hmulti|].
               apply HT. lia.
             + change 1 with (1 + (0 + 0)). apply gets_seq.
               eapply sg_cons; [eapply gets_tag; reflexivity|].
               eapply sg_cons; [apply gets_until; reflexivity|]. apply sg_nil.
           - cbn [opened skipn]. apply gets_sel. apply lg_here.
             change 2 with (0 + (1 + (1 + 0))). apply gets_seq.
             eapply sg_cons; [apply gets_not_tag; reflexivity|]. cbn [skipn].
             eapply sg_cons; [eapply gets_tag; reflexivity|].
             cbn [length skipn].
             eapply sg_cons; [apply gets_until; apply span_opened|]. apply sg_nil.
           - cbn [opened skipn]. exact Hrep. }
      cbn [Nat.pow] in *. lia.
  Qed.
End Unclosed.

Lemma opened_length n : length (opened n) = 3 * n.
Proof. induction n as [|n IH]; [reflexivity|]. cbn [opened length]. lia. Qed.

Theorem unclosed_cost E : no_slash_number E -> forall n tokens ind, exists count,
  makes_calls E boot_computed (opened n) tokens ind count /\ 2 ^ n <= count.
Proof.
  intros Hno n tokens ind. destruct n as [|n].
  { eexists. split; [exists 10; eexists; vm_compute; reflexivity|]. simpl. lia. }
  assert (Hcom : forall f, 5 * S n + 10 <= f -> fails E (s_rules boot_computed) f (rule_at 1) (opened (S n)) (2 ^ S n)).
  { intros f Hf. do 15 (destruct f as [|f]; [lia|]). change (rule_at 1) with ltac:(let r := eval vm_compute in (rule_at 1) in exact r).
    eapply fails_less; [apply fails_sel|].
    - eapply lf_cons; [|eapply lf_cons; [|apply lf_nil]].
      + eapply fails_node; [reflexivity|]. apply (unclosed_both E (s_rules boot_computed) eq_refl (S n)). lia.
      + apply fails_seq. apply sf_here. apply fails_tag. reflexivity.
    - lia. }
  assert (Hdoc : gets E (s_rules boot_computed) (5 * S n + 20) (rule_at 22) (opened (S n)) 0 (2 ^ S n)).
  { set (f := 5 * S n + 14). replace (5 * S n + 20) with (6 + f) by (unfold f; lia).
    assert (Hf : 5 * S n + 10 <= f) by (unfold f; lia). clearbody f.
    change (rule_at 22) with ltac:(let r := eval vm_compute in (rule_at 22) in exact r).
    eapply gets_less; [apply (gets_seq _ _ _ _ _ _ (0 + (0 + (0 + 0))))|].
    - eapply sg_cons; [apply gets_no_line; [reflexivity|discriminate|]|].
      + apply fails_seq. eapply sf_later; [apply gets_white; reflexivity|].
        apply sf_here. apply fails_sel. eapply lf_cons; [|eapply lf_cons; [|apply lf_nil]].
        * eapply fails_node; [reflexivity|]. destruct f as [|f]; [lia|]. apply fails_seq. apply sf_here.
          destruct f as [|f]; [lia|]. apply fails_tag. reflexivity.
        * eapply fails_node; [reflexivity|]. apply Hcom. lia.
      + cbn [skipn]. eapply sg_cons; [apply gets_no_line; [reflexivity|discriminate|]|].
        * apply fails_seq. eapply sf_later; [apply gets_white; reflexivity|].
          apply sf_here. apply fails_sel. eapply lf_cons; [|eapply lf_cons; [|apply lf_nil]].
          -- eapply fails_node; [reflexivity|]. destruct f as [|f]; [lia|]. apply fails_seq. apply sf_here.
             destruct f as [|f]; [lia|]. apply fails_number. apply Hno.
          -- eapply fails_node; [reflexivity|]. apply Hcom. lia.
        * cbn [skipn]. eapply sg_cons; [apply gets_white; reflexivity|]. apply sg_nil.
    - lia. }
  destruct (Hdoc tokens (length tokens) 0 ind) as (c & st' & oe & toks' & ind' & He & Hc).
  exists c. split; [|exact Hc].
  eexists (5 * S n + 20), _. unfold parse_cost.
  replace (nth_error (s_rules boot_computed) (length (s_rules boot_computed) - 1)) with (Some (rule_at 22)) by reflexivity.
  unfold cbind. rewrite He. cbn [fst snd]. cbn [next_offset r_off r_len opened length Nat.add Nat.ltb Nat.leb free fst snd].
  rewrite Nat.add_0_r. reflexivity.
Qed.

Lemma pow_big j : j + 1 <= 2 ^ j.
Proof. induction j as [|j IH]; [simpl; lia|]. cbn [Nat.pow]. lia. Qed.

Lemma beats c k : exists n, c * (3 * n + 1) ^ k < 2 ^ n.
Proof.
  set (j := 2 * k + c + 2). set (m := 2 * j). exists (2 ^ m).
  assert (H1 : (3 * 2 ^ m + 1) ^ k <= 2 ^ ((m + 2) * k)).
  { rewrite Nat.pow_mul_r. apply Nat.pow_le_mono_l. rewrite Nat.pow_add_r. cbn [Nat.pow].
    pose proof (pow_big m). lia. }
  assert (H2 : c < 2 ^ c) by (pose proof (pow_big c); lia).
  assert (H3 : c + (m + 2) * k <= 2 ^ m).
  { assert (H4 : (j + 1) * (j + 1) <= 2 ^ m).
    { unfold m. replace (2 * j) with (j + j) by lia. rewrite Nat.pow_add_r.
      apply Nat.mul_le_mono; apply pow_big. }
    unfold m in *. nia. }
  assert (H5 : 1 <= (3 * 2 ^ m + 1) ^ k) by (pose proof (Nat.pow_nonzero (3 * 2 ^ m + 1) k); lia).
  apply Nat.lt_le_trans with (2 ^ (c + (m + 2) * k)).
  - rewrite Nat.pow_add_r. nia.
  - apply Nat.pow_le_mono_r; [lia|exact H3].
Qed.

Theorem unclosed_many E : no_slash_number E ->
  forall boot, optimize_returns bootstrap_rules boot ->
  forall tokens ind n, exists text count, length text = 3 * n /\
    makes_calls E boot text tokens ind count /\ 2 ^ n <= count.
Proof.
  intros Hno boot Hb tokens ind n. apply boot_unique in Hb. subst boot.
  destruct (unclosed_cost E Hno n tokens ind) as (count & Hm & Hc).
  exists (opened n), count. split; [apply opened_length|]. split; assumption.
Qed.

Theorem unclosed_not_poly E : no_slash_number E ->
  forall boot, optimize_returns bootstrap_rules boot -> forall tokens ind,
  ~ exists c k, forall text n,
    makes_calls E boot text tokens ind n -> n <= c * (length text + 1) ^ k.
Proof.
  intros Hno boot Hb tokens ind (c & k & H). destruct (beats c k) as (n & Hn).
  destruct (unclosed_many E Hno boot Hb tokens ind n) as (text & count & Hl & Hm & Hc).
  specialize (H _ _ Hm). rewrite Hl in H. lia.
Qed.
