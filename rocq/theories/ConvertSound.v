(** What conversion returns, on any data: rules with ordered ids, without indices. *)
From Coq Require Import Ascii String List NArith Bool Arith Lia.
From Verif Require Import Base Ext Types DataSpec ParseModel ConvertModel ConvertSpec OptProofs.
Import ListNotations.
Local Open Scope string_scope.
Local Open Scope list_scope.

(** Inversion of the monad. *)
Ltac inv1 H :=
  lazymatch type of H with
  | finish _ _ _ _ = _ => fail
  | obind ?e _ = Done _ =>
    let x := fresh "x" in let Hx := fresh "Hx" in
    destruct e as [x| |] eqn:Hx; cbn [obind] in H; [|discriminate H|discriminate H]
  | Done _ = Done _ => injection H; clear H; intros; subst
  | context [match ?x with _ => _ end] =>
    match type of x with
    | (_ * _)%type => let a := fresh "a" in let b := fresh "b" in destruct x as [a b]
    | option (_ * _) => let Hx := fresh "Hx" in destruct x as [[? ?]|] eqn:Hx
    | _ => let Hx := fresh "Hx" in destruct x eqn:Hx
    end; cbn [obind] in H; try discriminate H
  end.

Ltac inv H := repeat (inv1 H).

(** ** Ids *)

Lemma ordered_weaken r : forall lo lo', (lo' <= lo)%N -> ordered lo r -> ordered lo' r.
Proof.
  assert (Hgo : forall id args,
    (forall c, In c args -> forall lo lo', (lo' <= lo)%N -> ordered lo c -> ordered lo' c) ->
    forall lo lo', (lo' <= lo)%N ->
    (fix go (lo : N) (args : list rule) : Prop :=
       match args with
       | [] => (lo < id)%N
       | a :: args' => ordered lo a /\ go (own_id a) args'
       end) lo args ->
    (fix go (lo : N) (args : list rule) : Prop :=
       match args with
       | [] => (lo < id)%N
       | a :: args' => ordered lo a /\ go (own_id a) args'
       end) lo' args).
  { intros id [|a args] H lo lo' Hle; [lia|]. intros [H1 H2].
    split; [eapply H; [left; reflexivity|eassumption|exact H1]|exact H2]. }
  induction r as [r IH] using rule_ind'; intros lo lo' Hle.
  destruct r; cbn [ordered own_id children] in *; try (intros; lia); try (apply Hgo; assumption).
  - intros [(H1 & H2 & H3)|(H1 & H2 & H3)]; [left|right]; repeat split; auto;
      (eapply IH; [|eassumption|eassumption]; simpl; auto).
  - intros [H1 H2]. split; [|exact H2]. eapply IH; [|eassumption|eassumption]; simpl; auto.
  - intros [H1 H2]. split; [|exact H2]. eapply IH; [|eassumption|eassumption]; simpl; auto.
  - intros [H1 H2]. split; [|exact H2]. eapply IH; [|eassumption|eassumption]; simpl; auto.
  - intros [H1 H2]. split; [|exact H2]. eapply IH; [|eassumption|eassumption]; simpl; auto.
Qed.

Fixpoint chain (lo : N) (args : list rule) (hi : N) : Prop :=
  match args with
  | [] => (lo <= hi)%N
  | a :: args' => ordered lo a /\ chain (own_id a) args' hi
  end.

Lemma chain_le args : forall lo hi hi', (hi <= hi')%N -> chain lo args hi -> chain lo args hi'.
Proof.
  induction args as [|a args IH]; intros lo hi hi' Hle; cbn [chain]; [lia|].
  intros [H1 H2]. split; [exact H1|]. eapply IH; eassumption.
Qed.

Lemma chain_snoc args v : forall lo hi hi',
  chain lo args hi -> ordered hi v -> (own_id v <= hi')%N -> chain lo (args ++ [v]) hi'.
Proof.
  induction args as [|a args IH]; intros lo hi hi'; cbn [chain app].
  - intros H1 H2 H3. split; [eapply ordered_weaken; eassumption|exact H3].
  - intros [H1 H2] H3 H4. split; [exact H1|]. eapply IH; eassumption.
Qed.

Lemma chain_go id args : forall lo hi, chain lo args hi -> (hi < id)%N ->
  (fix go (lo : N) (args : list rule) : Prop :=
     match args with
     | [] => (lo < id)%N
     | a :: args' => ordered lo a /\ go (own_id a) args'
     end) lo args.
Proof.
  induction args as [|a args IH]; intros lo hi; cbn [chain]; [lia|].
  intros [H1 H2] H3. split; [exact H1|]. eapply IH; eassumption.
Qed.

(** ** Unresolved rules *)

Lemma unresolved_intro v : no_index v -> (forall c, In c (children v) -> unresolved c) -> unresolved v.
Proof.
  intros H1 H2 x Hx. destruct Hx as [|r' c Hc Hx]; [exact H1|]. exact (H2 _ Hc x Hx).
Qed.

Definition good (lo : N) (v : rule) (hi : N) : Prop :=
  unresolved v /\ ordered lo v /\ (own_id v <= hi)%N.

Definition reader_sound (rd : reader) : Prop :=
  forall c st res st', rd c st = Done (res, st') ->
  (fst st <= fst st')%N /\ forall r v, res = Some (r, v) -> good (fst st) v (fst st').

Lemma add_usize_done a b x : add_usize a b = Done x -> x = (a + b)%N.
Proof. unfold add_usize. intros H. destruct (_ <=? _)%N; [|discriminate]. congruence. Qed.

Lemma finish_sound start c st mk res st' lo :
  finish start c st mk = Done (res, st') -> (lo <= fst st)%N ->
  (forall id, (fst st < id)%N -> good lo (mk id) id) ->
  (lo <= fst st')%N /\ forall r v, res = Some (r, v) -> good lo v (fst st').
Proof.
  intros H Hlo Hmk. unfold finish in H. inv H. apply add_usize_done in Hx. subst x. cbn [fst].
  split; [lia|]. intros r v Hv. injection Hv as _ <-. apply Hmk. lia.
Qed.

Lemma leaf_good lo id (mk : N -> rule) : (forall i, children (mk i) = []) ->
  (forall i, no_index (mk i)) -> (forall i, own_id (mk i) = i) ->
  (forall lo i, (lo < i)%N -> ordered lo (mk i)) ->
  (lo < id)%N -> good lo (mk id) id.
Proof.
  intros Hc Hn Hi Ho Hlo. split; [|split].
  - apply unresolved_intro; [apply Hn|]. rewrite Hc. intros c [].
  - apply Ho. exact Hlo.
  - rewrite Hi. lia.
Qed.

Ltac leaf_case :=
  eapply finish_sound; [eassumption|cbn [fst]; lia|
    intros id Hid; cbn [fst] in *; apply leaf_good; try reflexivity;
    [intros; cbn [ordered own_id]; assumption|cbn [fst]; lia]].

Ltac none_case := injection 1 as <- <-; cbn [fst]; split; [lia|discriminate].

Lemma fail_sound (st st' : cstate) (res : option (range * rule)) :
  (fst st <= fst st')%N -> res = None ->
  (fst st <= fst st')%N /\ forall r v, res = Some (r, v) -> good (fst st) v (fst st').
Proof. intros H ->. split; [exact H|discriminate]. Qed.

Lemma read_until_sound fuel node mk ss :
  (forall any o p i, children (mk any o p i) = []) ->
  (forall any o p i, no_index (mk any o p i)) -> (forall any o p i, own_id (mk any o p i) = i) ->
  (forall any o p lo i, (lo < i)%N -> ordered lo (mk any o p i)) ->
  reader_sound (read_until fuel node mk ss).
Proof.
  intros Hc Hn Hi Ho c st res st' H. unfold read_until in H. inv H.
  - eapply finish_sound; [eassumption|cbn [fst]; lia|]. intros id Hid. cbn [fst] in *.
    apply leaf_good; auto.
  - apply fail_sound; [cbn [fst]; lia|reflexivity].
  - apply fail_sound; [lia|reflexivity].
Qed.

Lemma read_tag_sound fuel ss : reader_sound (read_tag fuel ss).
Proof.
  intros c st res st' H. unfold read_tag in H. inv H.
  - leaf_case.
  - apply fail_sound; [cbn [fst]; lia|reflexivity].
  - apply fail_sound; [lia|reflexivity].
Qed.

Lemma read_whitespace_sound : reader_sound read_whitespace.
Proof.
  intros c st res st' H. unfold read_whitespace in H.
  inv H; try (apply fail_sound; [lia|reflexivity]).
  leaf_case.
Qed.

Lemma read_text_sound fuel ss : reader_sound (read_text fuel ss).
Proof.
  intros c st res st' H. unfold read_text in H.
  inv H; try (apply fail_sound; [lia|reflexivity]). leaf_case.
Qed.

Lemma read_number_sound fuel ss : reader_sound (read_number fuel ss).
Proof.
  intros c st res st' H. unfold read_number in H.
  inv H; try (apply fail_sound; [lia|reflexivity]). leaf_case.
Qed.

Lemma read_reference_sound fuel ss : reader_sound (read_reference fuel ss).
Proof.
  intros c st res st' H. unfold read_reference in H.
  inv H; try (apply fail_sound; [cbn [fst]; lia|reflexivity]). leaf_case.
Qed.

Lemma args_loop_sound rd node : reader_sound rd -> forall fuel c args st c' args' st' lo,
  args_loop fuel rd node c args st = Done (c', args', st') ->
  Forall unresolved args -> chain lo args (fst st) ->
  Forall unresolved args' /\ chain lo args' (fst st') /\ (fst st <= fst st')%N.
Proof.
  intros Hrd. induction fuel as [|fuel IH]; intros c args st c' args' st' lo H Hu Hc; [discriminate|].
  cbn [args_loop] in H. inv H.
  - repeat split; [exact Hu|exact Hc|lia].
  - match goal with Hr : rd _ _ = Done _ |- _ => apply Hrd in Hr as [H1 H2] end.
    destruct (H2 _ _ eq_refl) as (H3 & H4 & H5).
    apply IH with (lo := lo) in H as (H6 & H7 & H8).
    + repeat split; [exact H6|exact H7|lia].
    + apply Forall_app. split; [exact Hu|]. constructor; [exact H3|constructor].
    + eapply chain_snoc; eassumption.
  - match goal with Hr : rd _ _ = Done _ |- _ => apply Hrd in Hr as [H1 H2] end.
    apply IH with (lo := lo) in H as (H6 & H7 & H8).
    + repeat split; [exact H6|exact H7|cbn [fst] in H8; lia].
    + exact Hu.
    + cbn [fst]. eapply chain_le; eassumption.
Qed.

Lemma read_args_sound fuel rd node mk : reader_sound rd ->
  (forall args i, children (mk args i) = args) ->
  (forall args i, no_index (mk args i)) -> (forall args i, own_id (mk args i) = i) ->
  (forall args lo hi i, chain lo args hi -> (hi < i)%N -> ordered lo (mk args i)) ->
  reader_sound (read_args fuel rd node mk).
Proof.
  intros Hrd Hc Hn Hi Ho c st res st' H. unfold read_args in H.
  inv H; try (apply fail_sound; [lia|reflexivity]).
  match goal with Hl : args_loop _ _ _ _ _ _ = Done _ |- _ =>
    apply (args_loop_sound rd node Hrd) with (lo := fst st) in Hl as (H1 & H2 & H3);
      [|constructor|cbn [chain]; lia] end.
  eapply finish_sound; [eassumption|lia|]. intros id Hid. split; [|split].
  - apply unresolved_intro; [apply Hn|]. rewrite Hc. apply Forall_forall. exact H1.
  - eapply Ho; eassumption.
  - rewrite Hi. lia.
Qed.

Lemma read_wrap_sound rd node mk : reader_sound rd ->
  (forall a i, children (mk a i) = [a]) ->
  (forall a i, no_index (mk a i)) -> (forall a i, own_id (mk a i) = i) ->
  (forall a lo i, ordered lo a -> (own_id a < i)%N -> ordered lo (mk a i)) ->
  reader_sound (read_wrap rd node mk).
Proof.
  intros Hrd Hc Hn Hi Ho c st res st' H. unfold read_wrap in H.
  inv H; try (apply fail_sound; [lia|reflexivity]).
  all: match goal with Hr : _ = Done (_, _) |- _ => apply Hrd in Hr as [H1 H2] end.
  2,3: apply fail_sound; [lia|reflexivity].
  destruct (H2 _ _ eq_refl) as (H3 & H4 & H5).
  eapply finish_sound; [eassumption|lia|]. intros id Hid. split; [|split].
  - apply unresolved_intro; [apply Hn|]. rewrite Hc. intros y [<-|[]]. exact H3.
  - apply Ho; [exact H4|lia].
  - rewrite Hi. lia.
Qed.

(** The two rules of a separated list. *)
Definition pair_ordered (lo : N) (by_ rule_ : option rule) (hi : N) : Prop :=
  match by_, rule_ with
  | None, None => (lo <= hi)%N
  | Some a, None | None, Some a => ordered lo a /\ (own_id a <= hi)%N
  | Some b, Some a =>
    (ordered lo a /\ ordered (own_id a) b /\ own_id b <= hi)%N \/
    (ordered lo b /\ ordered (own_id b) a /\ own_id a <= hi)%N
  end.

Lemma own_gt v : forall lo, ordered lo v -> (lo < own_id v)%N.
Proof.
  assert (Hgo : forall id args,
    (forall c, In c args -> forall lo, ordered lo c -> (lo < own_id c)%N) ->
    forall lo,
    (fix go (lo : N) (args : list rule) : Prop :=
       match args with
       | [] => (lo < id)%N
       | a :: args' => ordered lo a /\ go (own_id a) args'
       end) lo args -> (lo < id)%N).
  { induction args as [|a args IHa]; intros H lo; [tauto|]. intros [H1 H2].
    apply H in H1; [|left; reflexivity]. apply IHa in H2; [lia|]. intros c Hc. apply H. right. exact Hc. }
  induction v as [v IH] using rule_ind'; intros lo.
  destruct v; cbn [ordered own_id children] in *; try tauto; try (apply Hgo; assumption).
  - intros [(H1 & H2 & H3)|(H1 & H2 & H3)]; apply IH in H1; simpl; auto; apply IH in H2; simpl; auto; lia.
  - intros [H1 H2]. apply IH in H1; simpl; auto; lia.
  - intros [H1 H2]. apply IH in H1; simpl; auto; lia.
  - intros [H1 H2]. apply IH in H1; simpl; auto; lia.
  - intros [H1 H2]. apply IH in H1; simpl; auto; lia.
Qed.

Lemma pair_le lo by_ rule_ hi hi' : (hi <= hi')%N -> pair_ordered lo by_ rule_ hi -> pair_ordered lo by_ rule_ hi'.
Proof.
  unfold pair_ordered. intros Hle. destruct by_, rule_; intros H; intuition lia.
Qed.

Lemma pair_lo lo by_ rule_ hi : pair_ordered lo by_ rule_ hi -> (lo <= hi)%N.
Proof.
  unfold pair_ordered. destruct by_ as [b|], rule_ as [a|].
  - intros [(H1 & H2 & H3)|(H1 & H2 & H3)]; apply own_gt in H1, H2; lia.
  - intros [H1 H2]. apply own_gt in H1. lia.
  - intros [H1 H2]. apply own_gt in H1. lia.
  - tauto.
Qed.

Lemma pair_rule lo by_ rule_ hi v hi' :
  pair_ordered lo by_ rule_ hi -> ordered hi v -> (own_id v <= hi')%N ->
  pair_ordered lo by_ (Some v) hi'.
Proof.
  intros H Hv Hi. pose proof (pair_lo _ _ _ _ H) as Hlo. unfold pair_ordered in *.
  destruct by_ as [b|].
  - right. destruct rule_ as [a|].
    + destruct H as [(H1 & H2 & H3)|(H1 & H2 & H3)].
      * split; [|split; [|exact Hi]].
        -- apply own_gt in H1. eapply ordered_weaken; [|exact H2]. lia.
        -- eapply ordered_weaken; [|exact Hv]. lia.
      * split; [exact H1|split; [|exact Hi]]. apply own_gt in H2.
        eapply ordered_weaken; [|exact Hv]. lia.
    + destruct H as [H1 H2]. split; [exact H1|split; [|exact Hi]].
      eapply ordered_weaken; [|exact Hv]. lia.
  - split; [|exact Hi]. eapply ordered_weaken; [|exact Hv]. exact Hlo.
Qed.

Lemma pair_by lo by_ rule_ hi v hi' :
  pair_ordered lo by_ rule_ hi -> ordered hi v -> (own_id v <= hi')%N ->
  pair_ordered lo (Some v) rule_ hi'.
Proof.
  intros H Hv Hi. pose proof (pair_lo _ _ _ _ H) as Hlo. unfold pair_ordered in *.
  destruct rule_ as [a|].
  - left. destruct by_ as [b|].
    + destruct H as [(H1 & H2 & H3)|(H1 & H2 & H3)].
      * split; [exact H1|split; [|exact Hi]]. apply own_gt in H2.
        eapply ordered_weaken; [|exact Hv]. lia.
      * split; [|split; [|exact Hi]].
        -- apply own_gt in H1. eapply ordered_weaken; [|exact H2]. lia.
        -- eapply ordered_weaken; [|exact Hv]. lia.
    + destruct H as [H1 H2]. split; [exact H1|split; [|exact Hi]].
      eapply ordered_weaken; [|exact Hv]. lia.
  - split; [|exact Hi]. eapply ordered_weaken; [|exact Hv]. exact Hlo.
Qed.

Definition all_unresolved (o : option rule) : Prop := forall v, o = Some v -> unresolved v.

Lemma some_unresolved v : unresolved v -> all_unresolved (Some v).
Proof. intros H x Hx. injection Hx as <-. exact H. Qed.

Lemma none_unresolved : all_unresolved None.
Proof. intros x Hx. discriminate. Qed.

Lemma sep_by_loop_sound rd_by rd_rule : reader_sound rd_by -> reader_sound rd_rule ->
  forall fuel c o t by_ rule_ st c' o' t' by' rule' st' lo,
  sep_by_loop fuel rd_by rd_rule c o t by_ rule_ st = Done (c', o', t', by', rule', st') ->
  all_unresolved by_ -> all_unresolved rule_ -> pair_ordered lo by_ rule_ (fst st) ->
  all_unresolved by' /\ all_unresolved rule' /\ pair_ordered lo by' rule' (fst st') /\
  (fst st <= fst st')%N.
Proof.
  intros Hb Hr. induction fuel as [|fuel IH]; intros c o t by_ rule_ st c' o' t' by' rule' st' lo H Hub Hur Ho;
    [discriminate|].
  cbn [sep_by_loop] in H. inv H.
  - repeat split; auto; lia.
  - eapply IH; eassumption.
  - eapply IH; eassumption.
  - match goal with Hr : rd_by _ _ = Done _ |- _ => apply Hb in Hr as [H1 H2] end.
    destruct (H2 _ _ eq_refl) as (H3 & H4 & H5).
    apply IH with (lo := lo) in H as (H6 & H7 & H8 & H9).
    + repeat split; auto; lia.
    + apply some_unresolved. exact H3.
    + exact Hur.
    + eapply pair_by; eassumption.
  - match goal with Hr : rd_by _ _ = Done _ |- _ => apply Hb in Hr as [H1 _] end.
    match goal with Hrr : rd_rule _ _ = Done _ |- _ => apply Hr in Hrr as [H1' H2] end.
    destruct (H2 _ _ eq_refl) as (H3 & H4 & H5).
    apply IH with (lo := lo) in H as (H6 & H7 & H8 & H9).
    + repeat split; auto; lia.
    + exact Hub.
    + apply some_unresolved. exact H3.
    + eapply pair_rule; [eapply pair_le; [|exact Ho]; exact H1|exact H4|exact H5].
  - match goal with Hr : rd_by _ _ = Done _ |- _ => apply Hb in Hr as [H1 _] end.
    match goal with Hrr : rd_rule _ _ = Done _ |- _ => apply Hr in Hrr as [H1' _] end.
    apply IH with (lo := lo) in H as (H6 & H7 & H8 & H9).
    + cbn [fst] in *. repeat split; auto; lia.
    + exact Hub.
    + exact Hur.
    + cbn [fst]. eapply pair_le; [|exact Ho]. lia.
Qed.

Lemma read_separated_by_sound fuel rd_by rd_rule : reader_sound rd_by -> reader_sound rd_rule ->
  reader_sound (read_separated_by fuel rd_by rd_rule).
Proof.
  intros Hb Hr c st res st' H. unfold read_separated_by in H.
  inv H; try (apply fail_sound; [lia|reflexivity]).
  all: match goal with Hl : sep_by_loop _ _ _ _ _ _ _ _ _ = Done _ |- _ =>
    apply (sep_by_loop_sound rd_by rd_rule Hb Hr) with (lo := fst st) in Hl as (H1 & H2 & H3 & H4);
      [|apply none_unresolved|apply none_unresolved|cbn; lia] end.
  2,3: apply fail_sound; [lia|reflexivity].
  eapply finish_sound; [eassumption|lia|]. intros id Hid. split; [|split].
  - apply unresolved_intro; [exact I|]. cbn [children]. intros y [<-|[<-|[]]]; auto.
  - cbn [ordered]. cbn [pair_ordered] in H3. destruct H3 as [(? & ? & ?)|(? & ? & ?)]; [left|right]; repeat split; auto; lia.
  - cbn [own_id]. lia.
Qed.

Lemma read_lines_sound rd : reader_sound rd -> reader_sound (read_lines rd).
Proof.
  intros Hrd c st res st' H. unfold read_lines in H.
  inv H; try (apply fail_sound; [lia|reflexivity]).
  all: match goal with Hr : _ = Done (_, _) |- _ => apply Hrd in Hr as [H1 H2] end.
  all: try (apply fail_sound; [lia|reflexivity]).
  all: destruct (H2 _ _ eq_refl) as (H3 & H4 & H5).
  all: eapply finish_sound; [eassumption|lia|]; intros id Hid; split; [|split].
  all: try (apply unresolved_intro; [exact I|]; cbn [children]; intros y [<-|[]]; exact H3).
  all: cbn [ordered own_id]; try lia.
  all: split; [exact H4|lia].
Qed.

Lemma rep_loop_sound rd : reader_sound rd -> forall fuel c rule_ o st c' rule' o' st' lo,
  rep_loop fuel rd c rule_ o st = Done (c', rule', o', st') ->
  all_unresolved rule_ -> pair_ordered lo None rule_ (fst st) ->
  all_unresolved rule' /\ pair_ordered lo None rule' (fst st') /\ (fst st <= fst st')%N.
Proof.
  intros Hrd. induction fuel as [|fuel IH]; intros c rule_ o st c' rule' o' st' lo H Hu Ho; [discriminate|].
  cbn [rep_loop] in H. inv H.
  - repeat split; auto; lia.
  - match goal with Hr : rd _ _ = Done _ |- _ => apply Hrd in Hr as [H1 H2] end.
    destruct (H2 _ _ eq_refl) as (H3 & H4 & H5).
    apply IH with (lo := lo) in H as (H6 & H7 & H8).
    + repeat split; auto; lia.
    + apply some_unresolved. exact H3.
    + eapply pair_rule; eassumption.
  - match goal with Hr : rd _ _ = Done _ |- _ => apply Hrd in Hr as [H1 _] end.
    apply IH with (lo := lo) in H as (H6 & H7 & H8).
    + repeat split; auto; lia.
    + exact Hu.
    + eapply pair_le; eassumption.
  - match goal with Hr : rd _ _ = Done _ |- _ => apply Hrd in Hr as [H1 _] end.
    apply IH with (lo := lo) in H as (H6 & H7 & H8).
    + cbn [fst] in *. repeat split; auto; lia.
    + exact Hu.
    + eapply pair_le; eassumption.
Qed.

Lemma read_repeat_sound fuel rd : reader_sound rd -> reader_sound (read_repeat fuel rd).
Proof.
  intros Hrd c st res st' H. unfold read_repeat in H.
  inv H; try (apply fail_sound; [lia|reflexivity]).
  all: match goal with Hl : rep_loop _ _ _ _ _ _ = Done _ |- _ =>
    apply (rep_loop_sound rd Hrd) with (lo := fst st) in Hl as (H1 & H2 & H3);
      [|apply none_unresolved|cbn; lia] end.
  2,3: apply fail_sound; [lia|reflexivity].
  eapply finish_sound; [eassumption|lia|]. intros id Hid. cbn [pair_ordered] in H2. split; [|split].
  - apply unresolved_intro; [exact I|]. cbn [children]. intros y [<-|[]]; auto.
  - cbn [ordered]. destruct H2. split; [assumption|lia].
  - cbn [own_id]. lia.
Qed.

Lemma first_reader_sound rds : Forall reader_sound rds -> reader_sound (first_reader rds).
Proof.
  induction 1 as [|rd rds Hrd H IH]; intros c st res st' He; cbn [first_reader] in He; inv He.
  - apply fail_sound; [lia|reflexivity].
  - apply Hrd in Hx as [H1 H2]. split; [exact H1|]. intros r' v Hv. exact (H2 _ _ Hv).
  - apply Hrd in Hx as [H1 _]. apply IH in He as [H3 H4]. split; [lia|].
    intros r v Hv. destruct (H4 r v Hv) as (H5 & H6 & H7). split; [exact H5|].
    split; [eapply ordered_weaken; eassumption|exact H7].
Qed.

Lemma read_rule_sound ss : forall fuel property, reader_sound (read_rule fuel property ss).
Proof.
  induction fuel as [|fuel IH]; intros property c st res st' H; [discriminate|].
  cbn [read_rule] in H.
  inv1 H; [|inv H; apply fail_sound; [lia|reflexivity]].
  inv1 H. cbv zeta in H. inv1 H. destruct x0 as [res1 st1].
  match goal with Hf : first_reader ?l _ _ = Done _ |- _ =>
    assert (Hs : reader_sound (first_reader l)) end.
  { apply first_reader_sound.
    repeat (apply Forall_cons); [..|apply Forall_nil].
    - apply read_args_sound; [apply IH|reflexivity|intros; exact I|reflexivity|].
      intros args lo hi i. cbn [ordered]. apply chain_go.
    - apply read_until_sound; try reflexivity; intros; assumption.
    - apply read_until_sound; try reflexivity; intros; assumption.
    - apply read_tag_sound.
    - apply read_whitespace_sound.
    - apply read_text_sound.
    - apply read_number_sound.
    - apply read_reference_sound.
    - apply read_args_sound; [apply IH|reflexivity|intros; exact I|reflexivity|].
      intros args lo hi i. cbn [ordered]. apply chain_go.
    - apply read_wrap_sound; [apply IH|reflexivity|intros; exact I|reflexivity|].
      intros a lo i H1 H2. cbn [ordered]. tauto.
    - apply read_wrap_sound; [apply IH|reflexivity|intros; exact I|reflexivity|].
      intros a lo i H1 H2. cbn [ordered]. tauto.
    - apply read_separated_by_sound; apply IH.
    - apply read_lines_sound; apply IH.
    - apply read_repeat_sound; apply IH. }
  match goal with Hf : first_reader ?l _ _ = Done _ |- _ => apply Hs in Hf as [H1 H2] end.
  inv H; try (apply fail_sound; [lia|reflexivity]).
  split; [exact H1|]. intros q v Hv. injection Hv as _ <-. exact (H2 _ _ eq_refl).
Qed.
