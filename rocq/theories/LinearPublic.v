(** Linearly many calls, and why not with negative lookahead. *)
From Coq Require Import Ascii String List NArith Bool Arith Lia.
From Verif Require Import Base Ext Types ParseModel PegSpec DataSpec PegFacts PegComplete TotalSpec TotalCheck TotalProofs ApiSpec ParseProofs
  ParsePublic CostModel CostSpec CostPublic CallSpec CallProofs GrammarSpec GrammarProofs GrammarCheck GrammarPublic OccursProofs
  SizeProofs LinearSpec LinearProofs ExtProofs Examples.
Import ListNotations.
Local Open Scope string_scope.
Local Open Scope list_scope.
Local Open Scope nat_scope.

Theorem linear_calls E (HE : ext_ok E) s : well_formed s -> clear E s -> without_lookahead s ->
  exists c, forall text tokens ind n, makes_calls E s text tokens ind n -> n <= c * S (length text).
Proof.
  intros (_ & _ & rank & Hrank) Hc Hn.
  assert (HK : exists K, forall i, i < length (s_rules s) -> rank i < K).
  { induction (length (s_rules s)) as [|n [K HK]]; [exists 0; lia|]. exists (S (K + rank n)). intros i Hi.
    destruct (Nat.eq_dec i n) as [->|Hni]; [lia|]. specialize (HK i ltac:(lia)). lia. }
  destruct HK as [K HK]. exists (lc s K). intros text tokens ind n H.
  pose proof (count_tree _ _ _ _ _ _ H) as Ht. destruct Ht as [_|r n Hr Ht]; [lia|].
  destruct (proj1 (count_exists E s text tokens ind) (ex_intro _ n H)) as (result & tokens' & fuel & Hp).
  apply parse_inv in Hp. destruct Hp as [(He & _)|(r' & v & ind' & tr & Hr' & Hv & _)].
  { destruct Hr as [rules Hr]. rewrite He in Hr. destruct rules; discriminate. }
  assert (r' = r) as ->.
  { destruct Hr as [a Ha], Hr' as [b Hb]. rewrite Ha in Hb. apply app_inj_tail in Hb. symmetry. apply Hb. }
  assert (Ho : occurs s r).
  { destruct Hr as [rules Hr]. exists r. split; [rewrite Hr; apply in_or_app; right; left; reflexivity|apply occurs_here]. }
  pose proof (proj1 (reads_fine E HE s Hc Hn rank Hrank K HK) _ _ _ _ _ _ _ Hv n Ho Ht) as Hf.
  assert (Hlc : lw s K + 4 * lz s K <= lc s K) by (unfold lc, lr; lia).
  destruct Hf as [A|[A|A]].
  - apply (idle_any s rank K HK _ _ _ Ho) in A. nia.
  - apply (clean_any s rank K HK _ _ _ Ho) in A. destruct A as (m & out & -> & _ & A).
    apply (reads_le E HE) in Hv. nia.
  - apply (lost_any E s rank K HK _ _ _ _ Ho) in A. nia.
Qed.

(** ** Lookahead *)

(** Brackets, and at the innermost place there is not a row of them. *)
Definition looking_rule : rule :=
  RSelect [RSequence [RTag (tx "(") false false None 1; RNode (tx "doc") None (Some 0) 2; RTag (tx ")") false false None 3] 4;
           RNot (RRepeat (RTag (tx "(") false false None 5) false 6) 7] 8.
Definition looking : syntax := Syn [looking_rule] [tx "doc"].

Lemma looking_fine : validb looking && well_formedb looking && clearb 40 number_chars looking = true.
Proof. vm_compute. reflexivity. Qed.

Definition bracket : char := 40%N.
Definition opens (k : nat) : str := repeat bracket k.

Section Looking.
  Notation refs := (s_rules looking).
  Notation rd := (reads std_ext refs).
  Notation tr_ := (tree std_ext refs).

  Lemma tag_open id ind p k : rd (RTag (tx "(") false false None id) ind p (opens (S k)) (Yes 1 []) ind [].
  Proof. apply (reads_tag std_ext refs (tx "(") false None id ind p (opens (S k))). exists (opens k). reflexivity. Qed.
  Lemma tag_end c id ind p : rd (RTag [c] false false None id) ind p [] No ind [(Rng p 0, ExpectedTag [c] id)].
  Proof. apply reads_tag_no. intros [rest H]. discriminate. Qed.

  Lemma row k : forall ind p,
    (exists n out tr, reads_many std_ext refs (RTag (tx "(") false false None 5) ind p (opens k) k n out ind tr) /\
    exists l m, over_again std_ext refs (RTag (tx "(") false false None 5) ind p (opens k) l /\ trees std_ext refs l m /\ k <= m.
  Proof.
    assert (Hone : forall ind p s, tr_ (RTag (tx "(") false false None 5, ind, p, s) 1).
    { intros ind p s. apply tree_node with (l := []) (n := 0); constructor. }
    induction k as [|k IH]; intros ind p.
    - split; [do 3 eexists; apply reads_many_stop; apply tag_end|]. do 2 eexists. split; [eapply again_stop; apply tag_end|].
      split; [apply trees_cons; [apply Hone|apply trees_nil]|]. lia.
    - destruct (IH ind (p + 1)) as [(n & out & tr & Hm) (l & m & Hl & Ht & Hk)]. split.
      + do 3 eexists. eapply reads_many_step; [apply tag_open|exact Hm].
      + do 2 eexists. split; [eapply again_next; [apply tag_open|exact Hl]|]. split; [apply trees_cons; [apply Hone|exact Ht]|]. lia.
  Qed.

  Lemma row_not k ind p : exists m, tr_ (RNot (RRepeat (RTag (tx "(") false false None 5) false 6) 7, ind, p, opens k) m /\ k <= m.
  Proof.
    destruct (row k ind p) as [_ (l & m & Hl & Ht & Hk)]. eexists. split.
    - eapply tree_node; [apply tries_not|]. apply trees_cons; [|apply trees_nil].
      eapply tree_node; [apply tries_repeat; exact Hl|exact Ht].
    - lia.
  Qed.

  Lemma row_fails k ind p : exists tr, rd (RNot (RRepeat (RTag (tx "(") false false None 5) false 6) 7) ind p (opens (S k)) No ind tr.
  Proof.
    destruct (row (S k) ind p) as [(n & out & tr & Hm) _]. eexists. eapply reads_not_no. eapply reads_repeat; [exact Hm|right; lia].
  Qed.

  Lemma looks k : forall ind p,
    (exists tr, rd looking_rule ind p (opens k) (match k with 0 => Yes 0 [] | _ => No end) ind tr) /\
    exists m, tr_ (looking_rule, ind, p, opens k) m /\ k * k <= 2 * m.
  Proof.
    assert (Hone : forall text id ind p s, tr_ (RTag text false false None id, ind, p, s) 1).
    { intros text id ind p s. apply tree_node with (l := []) (n := 0); constructor. }
    induction k as [|k IH]; intros ind p.
    - assert (Hseq : exists tr, rd (RSequence [RTag (tx "(") false false None 1; RNode (tx "doc") None (Some 0) 2; RTag (tx ")") false false None 3] 4) ind p [] No ind tr).
      { eexists. apply reads_sequence. apply reads_seq_no. apply tag_end. }
      assert (Hrow : exists tr, rd (RNot (RRepeat (RTag (tx "(") false false None 5) false 6) 7) ind p [] (Yes 0 []) ind tr).
      { eexists. eapply reads_not. apply reads_repeat_no. apply tag_end. }
      destruct Hseq as [t1 Hseq], Hrow as [t2 Hrow]. split.
      + eexists. apply reads_select; [discriminate|]. eapply reads_first_next; [exact Hseq|]. apply reads_first_yes. exact Hrow.
      + destruct (row_not 0 ind p) as (m & Hm & _). eexists. split; [|apply Nat.le_0_l].
        eapply tree_node; [apply tries_select; eapply turn_next; [exact Hseq|]; eapply turn_hit; exact Hrow|].
        apply trees_cons; [|apply trees_cons; [exact Hm|apply trees_nil]].
        eapply tree_node; [apply tries_sequence; eapply order_fail; apply tag_end|].
        apply trees_cons; [apply Hone|apply trees_nil].
    - destruct (IH ind (p + 1)) as [(tr & Hr) (m & Hm & Hk)].
      assert (Hnode : tr_ (RNode (tx "doc") None (Some 0) 2, ind, p + 1, opens k) (1 + (m + 0))).
      { eapply tree_node; [apply tries_node with (r := looking_rule); reflexivity|]. apply trees_cons; [exact Hm|apply trees_nil]. }
      assert (Hseq : exists tr, rd (RSequence [RTag (tx "(") false false None 1; RNode (tx "doc") None (Some 0) 2; RTag (tx ")") false false None 3] 4) ind p (opens (S k)) No ind tr).
      { destruct k as [|k].
        - eexists. apply reads_sequence. apply (reads_seq_cons std_ext refs _ _ ind p (opens 1) 1 [] ind [] No ind); [apply tag_open|].
          apply (reads_seq_cons std_ext refs _ _ ind (p + 1) [] 0 [] ind tr No ind).
          + apply (reads_node std_ext refs (tx "doc") None 0 2 looking_rule ind (p + 1) [] 0 []); [reflexivity|exact Hr].
          + apply reads_seq_no. apply tag_end.
        - eexists. apply reads_sequence. apply (reads_seq_cons std_ext refs _ _ ind p (opens (S (S k))) 1 [] ind [] No ind); [apply tag_open|].
          apply reads_seq_no. eapply reads_node_no; [reflexivity|exact Hr]. }
      assert (Htree : exists q, tr_ (RSequence [RTag (tx "(") false false None 1; RNode (tx "doc") None (Some 0) 2; RTag (tx ")") false false None 3] 4, ind, p, opens (S k)) q /\ S m <= q).
      { destruct k as [|k].
        - eexists. split.
          + eapply tree_node.
            * apply tries_sequence. eapply order_next; [apply tag_open|]. eapply order_next.
              -- apply (reads_node std_ext refs (tx "doc") None 0 2 looking_rule ind (p + 1) [] 0 []); [reflexivity|exact Hr].
              -- eapply order_fail. apply tag_end.
            * apply trees_cons; [apply Hone|]. apply trees_cons; [exact Hnode|]. apply trees_cons; [apply Hone|apply trees_nil].
          + lia.
        - eexists. split.
          + eapply tree_node.
            * apply tries_sequence. eapply order_next; [apply tag_open|]. eapply order_fail. eapply reads_node_no; [reflexivity|exact Hr].
            * apply trees_cons; [apply Hone|]. apply trees_cons; [exact Hnode|apply trees_nil].
          + lia. }
      destruct Hseq as [t1 Hseq], Htree as (q & Hq & Hmq). destruct (row_fails k ind p) as [t2 Hrow]. destruct (row_not (S k) ind p) as (w & Hw & Hkw).
      split.
      + eexists. apply reads_select; [discriminate|]. eapply reads_first_next; [exact Hseq|]. eapply reads_first_next; [exact Hrow|]. apply reads_first_none.
      + eexists. split.
        * eapply tree_node; [apply tries_select; eapply turn_next; [exact Hseq|]; eapply turn_next; [exact Hrow|]; apply turn_nil|].
          apply trees_cons; [exact Hq|]. apply trees_cons; [exact Hw|apply trees_nil].
        * nia.
  Qed.
End Looking.

Lemma looking_parse k : exists n, makes_calls std_ext looking (opens k) [] indent_default n /\ k * k <= 2 * n.
Proof.
  destruct (looks k indent_default 0) as [(tr & Hr) (m & Hm & Hk)]. exists m. split; [|exact Hk].
  assert (Hs : start_rule looking looking_rule) by (exists []; reflexivity).
  destruct (parse_done std_ext looking (opens k) [] indent_default _ _ _ _ Hs Hr) as (fuel & result & tokens' & Hp).
  apply (calls_tree std_ext looking (opens k) [] indent_default result tokens'); [exists fuel; exact Hp|].
  eapply text_start; [exact Hs|exact Hm].
Qed.

Theorem lookahead_quadratic : exists s, valid s /\ well_formed s /\ clear std_ext s /\
  ~ exists c, forall text tokens ind n, makes_calls std_ext s text tokens ind n -> n <= c * S (length text).
Proof.
  exists looking. pose proof looking_fine as H. apply andb_prop in H. destruct H as [H Hc]. apply andb_prop in H. destruct H as [Hv Hw].
  split; [apply validb_spec; exact Hv|]. split; [apply well_formedb_spec; exact Hw|].
  split; [exact (clearb_spec std_ext number_chars 40 _ std_numbers Hc)|].
  intros [c H]. destruct (looking_parse (2 * c + 3)) as (n & Hn & Hk). apply H in Hn.
  unfold opens in Hn. rewrite repeat_length in Hn. nia.
Qed.

(** ** The example *)

Lemma json_no_lookahead : without_lookahead json_syntax.
Proof.
  intros r id H. apply (all_rules_spec (fun q => match q with RNot _ _ => false | _ => true end) json_syntax eq_refl) in H. discriminate.
Qed.

Theorem linear_returns E (HE : ext_ok E) s : valid s -> well_formed s -> clear E s -> without_lookahead s ->
  exists c, forall text tokens ind, columns_fit ind text ->
  exists n, makes_calls E s text tokens ind n /\ n <= c * S (length text).
Proof.
  intros Hv Hw Hc Hn. destruct (linear_calls E HE s Hw Hc Hn) as [c H]. exists c. intros text tokens ind Hf.
  destruct (parse_decided E HE s Hv Hw text tokens ind Hf) as (result & tokens' & Hp).
  destruct (proj2 (count_exists E s text tokens ind) (ex_intro _ result (ex_intro _ tokens' Hp))) as (n & Hm).
  exists n. split; [exact Hm|]. exact (H _ _ _ _ Hm).
Qed.
