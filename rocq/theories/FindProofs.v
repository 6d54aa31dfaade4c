(** C75: searching data that was parsed. *)
From Coq Require Import Ascii String List NArith Bool Arith Lia.
From Verif Require Import Base Ext Types ParseModel LibModel PegSpec ApiSpec DataSpec ParseProofs ParsePublic ModelFacts SyntaxSpec
  SearchModel SearchSpec SearchProofs FindSpec Examples.
Import ListNotations.
Local Open Scope string_scope.
Local Open Scope list_scope.
Local Open Scope nat_scope.

Lemma last_range_snoc a d : last_range (a ++ [d]) = Some (fst d).
Proof. unfold last_range. rewrite rev_app_distr. reflexivity. Qed.

Definition stands (data : list tok) (s : search) : Prop :=
  exists before, data = before ++ sr_data s /\ sr_range s = last_range before.

Lemma stands_next data s A (matches : metadata -> A -> Prop) x : stands data s -> next_item matches s x -> stands data (snd x).
Proof.
  intros (before & Hd & Hr) H. destruct H as [r d rest a He Hm|r d rest He Hm|He]; cbn [snd]; try (exists before; auto; fail).
  exists (before ++ [(r, d)]). rewrite last_range_snoc. split; [|reflexivity]. cbn [sr_data]. rewrite Hd, He, <- app_assoc. reflexivity.
Qed.

(** What a search finds. *)
Lemma search_cases w s :
  (exists before r d rest, sr_data s = before ++ (r, d) :: rest /\
     Forall (fun x : tok => ~ is_wanted w (snd x)) before /\ is_wanted w d /\
     forall T (f : search -> T + range), search_for w f s = f (Sr (Some r) rest)) \/
  (Forall (fun x : tok => ~ is_wanted w (snd x)) (sr_data s) /\
     forall T (f : search -> T + range), search_for w f s = inr (stands_at s)).
Proof.
  assert (H : forall data, (exists before r d rest, data = before ++ (r, d) :: rest /\
     Forall (fun x : tok => ~ is_wanted w (snd x)) before /\ is_wanted w d) \/ Forall (fun x : tok => ~ is_wanted w (snd x)) data).
  { induction data as [|[r d] data IH]; [right; constructor|]. destruct (test w d) eqn:Ht.
    - left. exists [], r, d, data. split; [reflexivity|]. split; [constructor|]. apply test_spec. exact Ht.
    - apply test_false in Ht. destruct IH as [(before & r' & d' & rest & -> & Hb & Hd)|IH].
      + left. exists ((r, d) :: before), r', d', rest. split; [reflexivity|]. split; [constructor; assumption|exact Hd].
      + right. constructor; assumption. }
  destruct (H (sr_data s)) as [(before & r & d & rest & He & Hb & Hd)|Hn].
  - left. exists before, r, d, rest. split; [exact He|]. split; [exact Hb|]. split; [exact Hd|].
    intros T f. exact (search_first w f s before r d rest He Hb Hd).
  - right. split; [exact Hn|]. intros T f. apply search_none. exact Hn.
Qed.

Lemma gets_stands data s : gets data s -> stands data s.
Proof.
  induction 1 as [|s name _ IH|s name _ IH|s name _ IH|s name _ IH|s name _ IH|s w s' _ IH H].
  - exists []. split; reflexivity.
  - exact (stands_next _ _ _ _ _ IH (reader_bool s name)).
  - exact (stands_next _ _ _ _ _ IH (reader_f64 s name)).
  - exact (stands_next _ _ _ _ _ IH (reader_string s name)).
  - exact (stands_next _ _ _ _ _ IH (reader_node s name)).
  - exact (stands_next _ _ _ _ _ IH (reader_end s name)).
  - destruct IH as (b0 & Hd0 & _).
    destruct (search_cases w s) as [(before & r & d & rest & He & _ & _ & Hf)|[_ Hf]]; rewrite Hf in H; [|discriminate].
    injection H as <-. exists (b0 ++ before ++ [(r, d)]). rewrite app_assoc, last_range_snoc.
    split; [|reflexivity]. cbn [sr_data]. rewrite Hd0, He, <- !app_assoc. reflexivity.
Qed.

Lemma stands_gets data s : stands data s -> gets data s.
Proof.
  destruct s as [r rest]. intros (before & Hd & Hr). cbn [sr_data sr_range] in *. revert r rest Hd Hr.
  induction before as [|[r0 d] before IH] using rev_ind; intros r rest Hd Hr.
  - cbn in Hd, Hr. subst. apply gets_new.
  - rewrite last_range_snoc in Hr. cbn [fst] in Hr. subst r. rewrite <- app_assoc in Hd. cbn [app] in Hd.
    specialize (IH (last_range before) ((r0, d) :: rest) Hd eq_refl).
    assert (Hn : forall A (m : metadata -> A -> Prop) x a, next_item m (Sr (last_range before) ((r0, d) :: rest)) x -> m d a ->
      snd x = Sr (Some r0) rest).
    { intros A m x a Hx Hm. destruct Hx as [r1 d1 rest1 a1 He _|r1 d1 rest1 He Hno|He]; cbn in He;
        [injection He as -> -> ->; reflexivity|injection He as -> -> ->; exfalso; exact (Hno a Hm)|discriminate]. }
    destruct d as [n|n|n v|n v|n v].
    + rewrite <- (Hn _ _ _ tt (reader_node _ n) eq_refl). apply gets_node. exact IH.
    + rewrite <- (Hn _ _ _ tt (reader_end _ n) eq_refl). apply gets_end_node. exact IH.
    + rewrite <- (Hn _ _ _ v (reader_bool _ n) eq_refl). apply gets_bool. exact IH.
    + rewrite <- (Hn _ _ _ v (reader_f64 _ n) eq_refl). apply gets_f64. exact IH.
    + rewrite <- (Hn _ _ _ v (reader_string _ n) eq_refl). apply gets_string. exact IH.
Qed.

(** The searches are the places between the items. *)
Theorem gets_exact data s : gets data s <->
  exists before, data = before ++ sr_data s /\ sr_range s = last_range before.
Proof. split; [apply gets_stands|apply stands_gets]. Qed.

Lemma last_range_in before r : last_range before = Some r -> exists d, In (r, d) before.
Proof.
  unfold last_range. destruct (rev before) as [|[r' d] l] eqn:H; [discriminate|]. intros [= <-]. exists d.
  rewrite (in_rev before). rewrite H. left. reflexivity.
Qed.

(** Errors are at the next item, or at the last one passed. *)
Theorem complains_at data s r : gets data s -> complains s r ->
  (exists d, hd_error (sr_data s) = Some (r, d)) \/ (exists d, In (r, d) data) \/ r = Rng 0 0.
Proof.
  intros Hg Hc. apply gets_stands in Hg as (before & Hd & Hr).
  assert (Hs : (exists d, In (stands_at s, d) data) \/ stands_at s = Rng 0 0).
  { unfold stands_at. rewrite Hr. destruct (last_range before) as [r'|] eqn:Hl; [left|right; reflexivity].
    apply last_range_in in Hl as (d & Hl). exists d. rewrite Hd. apply in_or_app. left. exact Hl. }
  assert (Hn : forall A (m : metadata -> A -> Prop) x, next_item m s x -> fst x = inr r ->
    (exists d, hd_error (sr_data s) = Some (r, d)) \/ (exists d, In (r, d) data) \/ r = Rng 0 0).
  { intros A m x Hx He. destruct Hx as [r1 d1 rest1 a1 _ _|r1 d1 rest1 Hd1 _|_]; cbn in He; [discriminate| |].
    - injection He as ->. left. exists d1. rewrite Hd1. reflexivity.
    - injection He as <-. right. exact Hs. }
  destruct Hc as [name r H|name r H|name r H|name r H|name r H|w r H].
  - exact (Hn _ _ _ (reader_bool s name) H).
  - exact (Hn _ _ _ (reader_f64 s name) H).
  - exact (Hn _ _ _ (reader_string s name) H).
  - exact (Hn _ _ _ (reader_node s name) H).
  - exact (Hn _ _ _ (reader_end s name) H).
  - destruct (search_cases w s) as [(b & r' & d & rest & _ & _ & _ & Hf)|[_ Hf]]; rewrite Hf in H; [discriminate|].
    injection H as <-. right. exact Hs.
Qed.

Theorem complains_inside E : ext_ok E -> forall s ind text data sr r,
  parse_returns E s text [] ind None data -> gets data sr -> complains sr r -> next_offset r <= length text.
Proof.
  intros HE s ind text data sr r Hp Hg Hc.
  destruct (success_inside E HE _ _ _ _ _ Hp) as (new & -> & Hi). cbn [app] in *. rewrite Forall_forall in Hi.
  destruct (complains_at _ _ _ Hg Hc) as [(d & Hd)|[(d & Hd)| ->]]; [| |cbn; lia].
  - apply gets_stands in Hg as (before & He & _). apply (Hi (r, d)). rewrite He. apply in_or_app. right.
    destruct (sr_data sr); [discriminate|]. injection Hd as ->. left. reflexivity.
  - exact (Hi _ Hd).
Qed.

(** ** Leaving a node *)

Lemma nested_split ms : nested ms -> forall a n b, ms = a ++ StartNode n :: b ->
  exists body rest, b = body ++ EndNode n :: rest /\ nested body.
Proof.
  induction 1 as [|m rest Hm _ IH|nm inner rest Hi IHi _ IHr]; intros a n b He.
  - destruct a; discriminate.
  - destruct a as [|x a]; [injection He as -> _; contradiction|]. injection He as _ He. exact (IH _ _ _ He).
  - destruct a as [|x a]; [injection He as -> <-; eauto|]. injection He as _ He.
    apply app_eq_app in He as (l & [[-> He]|[-> He]]).
    + destruct l as [|y l]; [discriminate|]. injection He as <- ->.
      destruct (IHi _ _ _ eq_refl) as (body & rest2 & -> & Hb).
      exists body, (rest2 ++ EndNode nm :: rest). split; [rewrite <- app_assoc; reflexivity|exact Hb].
    + destruct l as [|y l]; [discriminate|]. injection He as <- ->. exact (IHr _ _ _ eq_refl).
Qed.

Lemma nested_ends ms n : nested ms -> (In (StartNode n) ms <-> In (EndNode n) ms).
Proof.
  induction 1 as [|m rest Hm _ IH|nm inner rest _ IHi _ IHr]; [reflexivity| |].
  - cbn. rewrite IH. split; intros [->|H]; auto; contradiction.
  - cbn. rewrite !in_app_iff. cbn. rewrite IHi, IHr.
    split; intros [H|[H|[H|H]]]; try discriminate; try (injection H as ->); auto 6.
Qed.

Lemma enters_at data s name s1 : gets data s -> enters s name s1 ->
  exists before r tail, data = before ++ (r, StartNode name) :: tail /\ s1 = Sr (Some r) tail.
Proof.
  intros Hg He. apply gets_stands in Hg as (b0 & Hd & _). destruct He as [He|He].
  - assert (Hx := reader_node s name). rewrite He in Hx. inversion Hx as [r d rest a Hr Hm| |]; subst.
    exists b0, r, rest. rewrite <- Hr. auto.
  - destruct (search_cases (WNode name) s) as [(before & r & d & rest & Hr & _ & Hw & Hf)|[_ Hf]]; rewrite Hf in He; [|discriminate].
    injection He as <-. inversion Hw; subst. exists (b0 ++ before), r, rest. split; [|reflexivity]. rewrite Hr. apply app_assoc.
Qed.

Theorem leaving data s name s1 : nested (map snd data) -> gets data s -> enters s name s1 ->
  exists body r rest, sr_data s1 = body ++ (r, EndNode name) :: rest /\ nested (map snd body) /\
    (search_for (WEnd name) (@inl search range) s1 = inl (Sr (Some r) rest) <->
     ~ In (StartNode name) (map snd body)).
Proof.
  intros Hn Hg He. destruct (enters_at _ _ _ _ Hg He) as (before & r0 & tail & -> & ->).
  rewrite map_app in Hn. cbn [map snd] in Hn. destruct (nested_split _ Hn _ _ _ eq_refl) as (body & rest & Hb & Hnb).
  apply map_eq_app in Hb as (tb & tr & -> & <- & Hb). destruct tr as [|[r d] tr]; [discriminate|]. injection Hb as -> <-.
  exists tb, r, tr. split; [reflexivity|]. split; [exact Hnb|]. rewrite (nested_ends _ name Hnb).
  destruct (search_cases (WEnd name) (Sr (Some r0) (tb ++ (r, EndNode name) :: tr))) as
    [(b & r' & d' & rest' & Hd & Hbn & Hw & Hf)|[Hno _]].
  - rewrite Hf. cbn [sr_data] in Hd. inversion Hw; subst. split.
    + intros [= -> ->] Hin. apply in_map_iff in Hin as ([r1 d1] & Hd1 & Hin). cbn in Hd1. subst d1.
      apply app_inv_tail in Hd. rewrite Forall_forall in Hbn. apply (Hbn (r1, EndNode name)); [|constructor].
      rewrite <- Hd. exact Hin.
    + intros Hni. apply app_eq_app in Hd as (l & [[-> Hd]|[-> Hd]]).
      * destruct l as [|x l]; [cbn in Hd; injection Hd as -> ->; reflexivity|]. injection Hd as <- Hd.
        exfalso. apply Hni. rewrite map_app. apply in_or_app. right. left. reflexivity.
      * destruct l as [|x l]; [cbn in Hd; injection Hd as -> ->; reflexivity|]. injection Hd as <- Hd.
        exfalso. apply Forall_app in Hbn as [_ Hbn]. inversion Hbn as [|? ? Hx _]; subst. apply Hx. constructor.
  - exfalso. cbn [sr_data] in Hno. apply Forall_app in Hno as [_ Hno]. inversion Hno as [|? ? Hx _]; subst. apply Hx. constructor.
Qed.

Lemma left_inner : exists s data s1 r rest,
  syntax_returns std_ext list_rules (inl s) /\
  parse_returns std_ext s (tx "(().)") [] indent_default None data /\
  enters (search_new data) (tx "list") s1 /\
  search_for (WEnd (tx "list")) (@inl search range) s1 = inl (Sr (Some r) rest) /\
  r = Rng 1 2 /\ map snd rest = [EndNode (tx "list")].
Proof.
  do 5 eexists. split; [exists 200; vm_compute; reflexivity|]. split; [exists 200; vm_compute; reflexivity|].
  split; [left; vm_compute; reflexivity|]. split; [vm_compute; reflexivity|]. split; vm_compute; reflexivity.
Qed.

Lemma find_example :
  let data := [(Rng 0 0, StartNode (tx "a")); (Rng 0 1, MBool (tx "x") true); (Rng 0 2, EndNode (tx "a"));
               (Rng 2 1, MBool (tx "y") false)] in
  let s1 := Sr (Some (Rng 0 0)) (skipn 1 data) in
  nested (map snd data) /\ gets data (search_new data) /\ enters (search_new data) (tx "a") s1 /\
  search_for (WEnd (tx "a")) (@inl search range) s1 = inl (Sr (Some (Rng 0 2)) (skipn 3 data)) /\
  complains s1 (Rng 0 0) /\ complains s1 (Rng 0 1) /\
  gets data (Sr (Some (Rng 0 2)) (skipn 3 data)).
Proof.
  intros data s1.
  split. { apply (nested_node (tx "a") [MBool (tx "x") true] [MBool (tx "y") false]); repeat constructor. }
  split; [apply gets_new|]. split; [left; reflexivity|]. split; [reflexivity|].
  split; [apply (complains_for s1 (WNode (tx "b"))); reflexivity|].
  split; [apply (complains_bool s1 (tx "b")); reflexivity|].
  apply gets_exact. exists (firstn 3 data). split; reflexivity.
Qed.
