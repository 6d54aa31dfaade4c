(** What the uniqueness of the specifications means for the functions. *)
From Coq Require Import List NArith Bool Arith Lia.
From Verif Require Import Base Ext Types ParseModel ConvertModel JsonModel SearchModel OptimizeModel PegSpec
  DataSpec ApiSpec OptSpec ConvertSpec JsonSpec SearchSpec IdSpec WriteSpec OptProofs ParsePublic
  PegProofs PegFacts ParseProofs ConvertNodes JsonProofs2 JsonProofs3 SearchProofs.
Import ListNotations.

(** ** C05 *)

Theorem success_inside E : ext_ok E -> forall s ind text tokens tokens',
  parse_returns E s text tokens ind None tokens' ->
  exists new, tokens' = tokens ++ new /\
    Forall (fun t => next_offset (fst t) <= length text) new.
Proof.
  intros HE s ind text tokens tokens' H.
  destruct (success_placed E HE _ _ _ _ _ H) as (new & -> & Hp). exists new. split; [reflexivity|].
  eapply Forall_impl; [|exact (placed_bounds _ _ _ Hp)]. intros t [_ Ht]. exact Ht.
Qed.

Theorem success_sorted E : ext_ok E -> forall s ind text tokens tokens',
  parse_returns E s text tokens ind None tokens' ->
  exists new, tokens' = tokens ++ new /\
  forall i j t u, i <= j -> nth_error new i = Some t -> nth_error new j = Some u ->
  next_offset (fst t) <= next_offset (fst u).
Proof.
  intros HE s ind text tokens tokens' H.
  destruct (success_placed E HE _ _ _ _ _ H) as (new & -> & Hp). exists new. split; [reflexivity|].
  exact (placed_ends_sorted _ _ _ Hp).
Qed.

(** ** C19 *)

Theorem update_refs_only s rs : Forall2 (resolved (s_names s)) (s_rules s) rs ->
  update_refs s = Syn rs (s_names s).
Proof.
  intros H. destruct (syntax_update_refs_resolved s) as [Hn Hr].
  destruct (update_refs s) as [rs' ns]. cbn [s_names s_rules] in *. subst ns. f_equal.
  revert rs' Hr. induction H as [|r r1 l l1 H1 H2 IH]; intros rs' Hr; inversion Hr; subst; [reflexivity|].
  f_equal; [eapply resolved_unique; eassumption|auto].
Qed.

Lemma resolved_nodes names : forall r r', resolved names r r' ->
  forall name property i id, occurs_in (RNode name property (Some i) id) r' ->
  occurs_in (RNode name property (Some i) id) r \/ first_index names name i.
Proof.
  induction r as [r IH] using rule_ind'. intros r' H name property i id Ho.
  assert (Hlist : forall args args', children r = args -> Forall2 (resolved names) args args' ->
    forall c, In c args' -> occurs_in (RNode name property (Some i) id) c ->
    occurs_in (RNode name property (Some i) id) r \/ first_index names name i).
  { intros args args' Hc HF c Hin Hoc. subst args.
    assert (Hex : exists d, In d (children r) /\ resolved names d c).
    { clear IH H Ho Hoc. induction HF as [|d e l l' Hde HF' IHF]; [destruct Hin|]. destruct Hin as [->|Hin].
      - exists d. split; [left; reflexivity|exact Hde].
      - destruct (IHF Hin) as (d' & H1 & H2). exists d'. split; [right; exact H1|exact H2]. }
    destruct Hex as (d & Hd & Hres). destruct (IH d Hd c Hres _ _ _ _ Hoc) as [Hx|Hx]; [|auto].
    left. eapply occurs_below; eassumption. }
  inversion H; subst; try (left; exact Ho);
    try (inversion Ho as [|? c Hin Hoc]; subst; cbn [children] in Hin;
         first [destruct Hin; fail | eapply Hlist; [reflexivity| |exact Hin|exact Hoc]; repeat constructor; assumption
               | eapply Hlist; [reflexivity|eassumption|exact Hin|exact Hoc]]; fail).
  - inversion Ho as [Hq|? c Hin Hoc]; subst; [right; assumption|destruct Hin].
Qed.

Theorem update_refs_in_range s name property i id :
  occurs (update_refs s) (RNode name property (Some i) id) ->
  occurs s (RNode name property (Some i) id) \/
  (first_index (s_names s) name i /\ i < length (s_names s)).
Proof.
  intros (top & Hin & Ho). destruct (syntax_update_refs_resolved s) as [_ Hr].
  assert (Hex : exists d, In d (s_rules s) /\ resolved (s_names s) d top).
  { clear Ho. induction Hr as [|d e l l' Hde HF' IHF]; [destruct Hin|]. destruct Hin as [->|Hin].
    - exists d. split; [left; reflexivity|exact Hde].
    - destruct (IHF Hin) as (d' & H1 & H2). exists d'. split; [right; exact H1|exact H2]. }
  destruct Hex as (d & Hd & Hres). destruct (resolved_nodes _ _ _ Hres _ _ _ _ Ho) as [Hx|Hx].
  - left. exists d. split; assumption.
  - right. split; [exact Hx|]. apply nth_error_Some. rewrite (proj1 Hx). discriminate.
Qed.

(** ** C28 *)

Lemma Forall2_weaken {A B} (P Q : A -> B -> Prop) l m :
  (forall a b, P a b -> Q a b) -> Forall2 P l m -> Forall2 Q l m.
Proof. intros H. induction 1; constructor; auto. Qed.

Theorem convert_identifies data ig s ig' : nested (map snd data) -> ids_small data ->
  convert_returns data ig (Some s) ig' ->
  exists before nodes, data = before ++ concat nodes /\
    Forall2 (fun node r => exists k, numbered_as k node r /\
      NoDup (rule_ids r) /\ (forall i, In i (rule_ids r) -> (k * 1000 < i <= own_id r)%N) /\
      (rule_nodes node < 1000 -> forall i, In i (rule_ids r) -> (i / 1000 = k)%N)) nodes (s_rules s).
Proof.
  intros Hn Hs H. destruct (convert_numbers _ _ _ _ Hn Hs H) as (before & nodes & Hd & _ & HF).
  exists before, nodes. split; [exact Hd|].
  eapply Forall2_weaken; [|exact HF]. intros node r (k & Hk). exists k. split; [exact Hk|].
  destruct (numbered_ids _ _ _ Hk) as (H1 & H2 & H3). split; [exact H1|]. split; [|exact H3].
  destruct Hk as (q & q' & b & it & a & _ & _ & _ & _ & _ & Ho & _).
  exact (proj2 (ordered_ids _ _ Ho)).
Qed.

Lemma ordered_below r : forall lo c, ordered lo r -> In c (children r) -> exists lo', ordered lo' c.
Proof.
  assert (Hgo : forall id args lo c,
    (fix go (lo : N) (args : list rule) : Prop :=
       match args with [] => (lo < id)%N | a :: args' => ordered lo a /\ go (own_id a) args' end) lo args ->
    In c args -> exists lo', ordered lo' c).
  { intros id. induction args as [|a args IH]; intros lo c H Hin; [destruct Hin|].
    destruct H as [H1 H2]. destruct Hin as [->|Hin]; [eauto|]. exact (IH _ _ H2 Hin). }
  destruct r; intros lo c H Hin; cbn [ordered children] in *; try (destruct Hin; fail);
    try (eapply Hgo; eassumption).
  - destruct H as [(H1 & H2 & _)|(H1 & H2 & _)]; destruct Hin as [<-|[<-|[]]]; eauto.
  - destruct Hin as [<-|[]]. destruct H; eauto.
  - destruct Hin as [<-|[]]. destruct H; eauto.
  - destruct Hin as [<-|[]]. destruct H; eauto.
  - destruct Hin as [<-|[]]. destruct H; eauto.
Qed.

Lemma ordered_occurs x r : occurs_in x r -> forall lo, ordered lo r -> exists lo', ordered lo' x.
Proof.
  induction 1 as [|r c Hin Ho IH]; intros lo H; [eauto|].
  destruct (ordered_below _ _ _ H Hin) as (lo' & H'). exact (IH _ H').
Qed.

Theorem convert_completion data ig s ig' : nested (map snd data) -> ids_small data ->
  convert_returns data ig (Some s) ig' ->
  forall x, occurs s x -> NoDup (rule_ids x) /\ forall i, In i (rule_ids x) -> (i <= own_id x)%N.
Proof.
  intros Hn Hs H x (top & Hin & Ho). destruct (convert_numbers _ _ _ _ Hn Hs H) as (before & nodes & _ & _ & HF).
  assert (Hex : exists lo, ordered lo top).
  { clear -HF Hin. induction HF as [|d e l l' Hde HF' IHF]; [destruct Hin|]. destruct Hin as [->|Hin]; [|auto].
    destruct Hde as (k & q & q' & b & it & a & _ & _ & _ & _ & _ & Ho & _). eauto. }
  destruct Hex as (lo & Hlo). destruct (ordered_occurs _ _ Ho _ Hlo) as (lo' & Hx).
  destruct (ordered_ids _ _ Hx) as [H1 H2]. split; [exact H1|]. intros i Hi. apply H2 in Hi. lia.
Qed.

(** ** C35 *)

Theorem json_write_means E toks : nested (map snd toks) -> prints_words E (map snd toks) ->
  exists out ms, data_members E (map snd toks) ms /\ json_write E toks = Done out /\
    forall v, loose_json v (open_brace :: out ++ [close_brace]) <-> v = JObject ms.
Proof.
  intros H Hw. destruct (nested_members E _ H) as [ms Hms].
  destruct (json_write_text E (fun _ => True) word toks ms Hms) as (out & Ho & Ht); [|exact Hw|].
  { intros d s _ _ c _. left. exact I. }
  exists out, ms. split; [exact Hms|]. split; [exact Ho|]. intros v. split.
  - intros Hv. exact (text_unique _ _ _ Hv Ht).
  - intros ->. exact Ht.
Qed.

(** ** C41 *)

Theorem readers_only s name :
  (forall x, next_item (fun d v => d = MBool name v) s x -> x = search_bool s name) /\
  (forall x, next_item (fun d v => d = MF64 name v) s x -> x = search_f64 s name) /\
  (forall x, next_item (fun d v => d = MString name v) s x -> x = search_string s name) /\
  (forall x, next_item (fun d (v : unit) => d = StartNode name) s x -> x = search_node s name) /\
  (forall x, next_item (fun d (v : unit) => d = EndNode name) s x -> x = search_end_node s name).
Proof.
  split; [|split; [|split; [|split]]]; intros x H.
  - eapply next_item_unique; [|exact H|apply reader_bool]. congruence.
  - eapply next_item_unique; [|exact H|apply reader_f64]. congruence.
  - eapply next_item_unique; [|exact H|apply reader_string]. congruence.
  - eapply next_item_unique; [|exact H|apply reader_node]. intros d [] []. reflexivity.
  - eapply next_item_unique; [|exact H|apply reader_end]. intros d [] []. reflexivity.
Qed.
