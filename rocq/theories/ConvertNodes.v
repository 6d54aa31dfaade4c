(** Conversion of well nested data: nodes and the whole. *)
From Coq Require Import Ascii String List NArith Bool Arith Lia.
From Verif Require Import Base Ext Types DataSpec ParseModel ConvertModel ConvertSpec OptProofs
  ConvertSound ConvertFuel ConvertTotal.
Import ListNotations.
Local Open Scope string_scope.
Local Open Scope list_scope.
Local Open Scope nat_scope.

Definition id_value (id : option N) : N := match id with Some n => n | None => 0%N end.

Definition rule_from (items : list (list tok)) (rl : option rule) : Prop :=
  forall v, rl = Some v -> exists before it after k, items = before ++ it :: after /\
    given_id before k /\ ordered (k * 1000) v /\
    (own_id v <= k * 1000 + N.of_nat (rule_nodes it))%N.

Lemma given_gives items k data : given_id items k -> gives_id (concat items ++ data) k.
Proof.
  intros H. destruct H as [|before it after x [r ->] _]; [left; reflexivity|].
  right. exists r, x. split; [|reflexivity]. rewrite concat_app. cbn [concat].
  apply in_or_app. left. apply in_or_app. right. left. reflexivity.
Qed.

Lemma given_more items it k : given_id items k -> (forall x, ~ is_id it x) -> given_id (items ++ [it]) k.
Proof.
  intros H Hn. destruct H as [items Hi|before it0 after x Hx Ha].
  - apply given_none. intros it' x Hin. apply in_app_or in Hin as [Hin|[<-|[]]]; auto.
  - rewrite <- app_assoc. cbn [app]. apply given_last; [exact Hx|].
    intros it' x' Hin. apply in_app_or in Hin as [Hin|[<-|[]]]; auto.
Qed.

Lemma rule_from_more items it rl : rule_from items rl -> rule_from (items ++ [it]) rl.
Proof.
  intros H v Hv. destruct (H v Hv) as (b & i & a & k & -> & H1). exists b, i, (a ++ [it]), k.
  split; [|exact H1]. rewrite <- app_assoc. reflexivity.
Qed.

Lemma gives_incl a b k : incl a b -> gives_id a k -> gives_id b k.
Proof. intros H [->|(r & x & H1 & H2)]; [left; reflexivity|right; exists r, x; auto]. Qed.

Lemma mul_thousand k : (k * 1000 <= usize_max)%N -> mul_usize k 1000 = Done (k * 1000)%N.
Proof. intros H. unfold mul_usize. destruct (N.leb_spec (k * 1000) usize_max); [reflexivity|lia]. Qed.

Lemma concat_snoc {A} (items : list (list A)) it rest : concat (items ++ [it]) ++ rest = concat items ++ it ++ rest.
Proof. rewrite concat_app. cbn [concat]. rewrite app_nil_r, <- app_assoc. reflexivity. Qed.

Lemma node_loop_ok ss : forall fuel inner r' rest o id name rl ig done,
  forest inner -> length inner < fuel -> Forall item done ->
  given_id done (id_value id) -> rule_from done rl ->
  (forall k, gives_id (concat done ++ inner) k -> (k * 1000 + N.of_nat (rule_nodes inner) <= usize_max)%N) ->
  exists name' rl' ig' items,
    node_loop fuel ss (Cv (inner ++ (r', EndNode (s2l "node")) :: rest) o) id name rl ig =
      Done (Cv rest (o + length inner + 1), name', rl', ig') /\
    inner = concat items /\ Forall item items /\ rule_from (done ++ items) rl'.
Proof.
  induction fuel as [|fuel IH]; intros inner r' rest o id name rl ig done Hf Hl Hd Hid Hrl Hu; [lia|].
  cbn [node_loop]. loop_cases Hf.
  { exists name, rl, ig, []. rewrite app_nil_r. repeat split; auto. }
  rewrite Nat.add_assoc.
  assert (Hnext : forall id name rl ig,
    given_id (done ++ [first]) (id_value id) -> rule_from (done ++ [first]) rl ->
    exists name' rl' ig' items,
      node_loop fuel ss (Cv (inner' ++ (r', EndNode (s2l "node")) :: rest) (o + length first)) id name rl ig =
        Done (Cv rest (o + length first + length inner' + 1), name', rl', ig') /\
      first ++ inner' = concat items /\ Forall item items /\ rule_from (done ++ items) rl').
  { intros id0 name0 rl0 ig0 H1 H2.
    destruct (IH inner' r' rest (o + length first) id0 name0 rl0 ig0 (done ++ [first]) Hf')
      as (name' & rl' & ig' & items & H3 & H4 & H5 & H6); auto.
    - lia.
    - apply Forall_app. auto.
    - intros k Hk. rewrite concat_snoc in Hk. specialize (Hu k Hk).
      rewrite rule_nodes_app in Hu. lia.
    - exists name', rl', ig', (first :: items). split; [exact H3|]. split; [cbn [concat]; congruence|].
      split; [constructor; assumption|]. rewrite <- app_assoc in H6. exact H6. }
  destruct (c_meta_f64 _ _) as [[q v]|] eqn:Hm.
  { destruct (meta_f64_item _ _ _ _ _ _ Hi Hm) as [-> (q0 & ->)]. rewrite update_first. cbn [obind].
    apply Hnext; [|apply rule_from_more; exact Hrl].
    cbn [id_value]. apply given_last; [exists q0; reflexivity|intros ? ? []]. }
  assert (Hno : forall x, ~ is_id first x).
  { intros x [q0 ->]. cbn in Hm. discriminate. }
  clear Hm.
  pose proof (given_more _ _ _ Hid Hno) as Hid'.
  pose proof (rule_from_more _ first _ Hrl) as Hrl'.
  string_step Hi; [apply Hnext; assumption|].
  pose proof (Hu _ (given_gives _ _ _ Hid)) as Hb. rewrite rule_nodes_app in Hb.
  fold (id_value id). rewrite mul_thousand by lia. cbn [obind].
  destruct (read_rule_ok ss fuel (s2l "rule") (or_introl eq_refl) first (inner' ++ (r', EndNode (s2l "node")) :: rest) o
    ((id_value id * 1000)%N, ig) Hi) as (res & st' & H1 & H2 & H3); [lia|cbn [fst]; lia|].
  rewrite H1. cbn [obind]. destruct res as [[q v]|].
  - rewrite (H3 _ _ eq_refl), update_first. cbn [obind]. apply Hnext; [exact Hid'|].
    apply read_rule_sound in H1 as [_ H1]. destruct (H1 _ _ eq_refl) as (_ & H5 & H6).
    intros v' Hv. injection Hv as <-. exists done, first, [], (id_value id).
    repeat split; [exact Hid|exact H5|]. cbn [fst] in *. lia.
  - rewrite skip_first by exact Hi. cbn [obind]. apply Hnext; assumption.
Qed.

Lemma read_node_ok fuel ss first rest o ig : item first -> length first <= fuel ->
  ids_small first ->
  exists res ig', read_node fuel ss (Cv (first ++ rest) o) ig = Done (res, ig') /\
    forall r name v, res = Some (r, (name, v)) -> r = Rng o (length first) /\ numbered first v.
Proof.
  intros Hi Hl Hu. unfold read_node.
  destruct (start_item first rest o (s2l "node") Hi) as [->|(r & r' & inner & -> & Hf & ->)].
  { exists None, ig. split; [reflexivity|discriminate]. }
  rewrite node_unfold, update_one, node_length in *. cbn [obind].
  destruct (node_loop_ok ss fuel inner r' rest (o + 1) None None None ig [] Hf)
    as (name & rl & ig' & items & H1 & H2 & H3 & H4).
  - lia.
  - constructor.
  - apply given_none. intros ? ? [].
  - intros v Hv. discriminate.
  - cbn [concat app]. intros k Hk. specialize (Hu k). rewrite rule_nodes_node in Hu. cbn -[N.mul] in Hu.
    apply Hu. eapply gives_incl; [|exact Hk]. intros x Hx. right. apply in_or_app. left. exact Hx.
  - rewrite H1. cbn [obind]. destruct name as [name|]; [|exists None, ig'; split; [reflexivity|discriminate]].
    destruct rl as [v|]; [|exists None, ig'; split; [reflexivity|discriminate]].
    do 2 eexists. split; [reflexivity|]. intros q n v' [= <- <- <-]. split.
    + replace (o + 1 + length inner + 1) with (o + (1 + length inner + 1)) by lia.
      apply sub_cursor.
    + destruct (H4 _ eq_refl) as (before & it & after & k & H5 & H6 & H7 & H8).
      cbn [app] in H5. subst items. apply Forall_app in H3 as [H9 H10].
      inversion H10; subst. exists k, r, r', before, it, after. repeat split; auto.
      rewrite concat_app. cbn [concat]. rewrite <- !app_assoc. reflexivity.
Qed.

Lemma ids_small_incl a b : incl a b -> rule_nodes a <= rule_nodes b -> ids_small b -> ids_small a.
Proof.
  intros H1 H2 H k Hk. specialize (H k (gives_incl _ _ _ H1 Hk)). lia.
Qed.

Lemma nodes_loop_ok ss : forall fuel toks o s ig, forest toks -> length toks < fuel -> ids_small toks ->
  exists res ig', nodes_loop fuel ss (Cv toks o) s ig = Done (res, ig') /\
    forall s', res = Some s' -> exists nodes rules, toks = concat nodes /\ Forall item nodes /\
      s_rules s' = s_rules s ++ rules /\ Forall2 numbered nodes rules.
Proof.
  induction fuel as [|fuel IH]; intros toks o s ig Hf Hl Hu; [lia|].
  cbn [nodes_loop]. destruct (forest_cases _ Hf) as [->|(first & toks' & -> & Hi & Hf')].
  - cbn. do 2 eexists. split; [reflexivity|]. intros s' [= <-]. exists [], [].
    rewrite app_nil_r. repeat split; constructor.
  - rewrite app_length in Hl. pose proof (item_length _ Hi).
    assert (Hu1 : ids_small first).
    { eapply ids_small_incl; [| |exact Hu]; [|rewrite rule_nodes_app; lia].
      intros x Hx. apply in_or_app. left. exact Hx. }
    assert (Hu2 : ids_small toks').
    { eapply ids_small_incl; [| |exact Hu]; [|rewrite rule_nodes_app; lia].
      intros x Hx. apply in_or_app. right. exact Hx. }
    destruct (read_node_ok fuel ss first toks' o ig Hi) as (res & ig1 & H1 & H2); [lia|exact Hu1|].
    rewrite H1. cbn [obind]. destruct res as [[r [name v]]|].
    + destruct (H2 _ _ _ eq_refl) as [-> Hn]. rewrite update_first. cbn [obind].
      destruct (IH toks' (o + length first) (syntax_push s name v) ig1 Hf') as (res & ig2 & H3 & H4); [lia|exact Hu2|].
      exists res, ig2. split; [exact H3|]. intros s' Hs.
      destruct (H4 s' Hs) as (nodes & rules & H5 & H6 & H7 & H8).
      exists (first :: nodes), (v :: rules). split; [cbn [concat]; congruence|].
      split; [constructor; assumption|]. split; [|constructor; assumption].
      rewrite H7. unfold syntax_push. cbn [s_rules]. rewrite <- app_assoc. reflexivity.
    + destruct (_ <? _) eqn:He; do 2 eexists; (split; [reflexivity|]); [discriminate|].
      apply Nat.ltb_ge in He. unfold c_remaining in He. cbn [c_data] in He. rewrite app_length in He. lia.
Qed.

Lemma strings_loop_ok : forall fuel toks o ss, forest toks -> length toks < fuel ->
  exists before toks' ss', toks = before ++ toks' /\ forest toks' /\
    strings_loop fuel (Cv toks o) ss = Done (Cv toks' (o + length before), ss').
Proof.
  induction fuel as [|fuel IH]; intros toks o ss Hf Hl; [lia|].
  cbn [strings_loop]. destruct (forest_cases _ Hf) as [->|(first & toks' & -> & Hi & Hf')].
  - exists [], [], ss. cbn. rewrite Nat.add_0_r. auto.
  - rewrite app_length in Hl. pose proof (item_length _ Hi).
    destruct (read_string_ok fuel first toks' o Hi) as (res & H1 & H2); [lia|].
    rewrite H1. cbn [obind]. destruct res as [[r v]|].
    + rewrite (H2 _ _ eq_refl), update_first. cbn [obind].
      destruct (IH toks' (o + length first) (ss ++ [v]) Hf') as (before & toks'' & ss' & -> & H4 & H5); [lia|].
      exists (first ++ before), toks'', ss'. rewrite <- app_assoc. split; [reflexivity|]. split; [exact H4|].
      rewrite H5. do 3 f_equal. rewrite app_length. lia.
    + exists [], (first ++ toks'), ss. rewrite Nat.add_0_r. auto.
Qed.

(** ** Ids are kept when references are resolved *)

Lemma own_id_refs names r : own_id (rule_update_refs names r) = own_id r.
Proof. destruct r; try reflexivity. cbn [rule_update_refs]. destruct index; reflexivity. Qed.

Lemma ordered_refs names r : forall lo, ordered lo r -> ordered lo (rule_update_refs names r).
Proof.
  assert (Hgo : forall id args,
    (forall c, In c args -> forall lo, ordered lo c -> ordered lo (rule_update_refs names c)) ->
    forall lo,
    (fix go (lo : N) (args : list rule) : Prop :=
       match args with
       | [] => (lo < id)%N
       | a :: args' => ordered lo a /\ go (own_id a) args'
       end) lo args ->
    (fix go (lo : N) (args : list rule) : Prop :=
       match args with
       | [] => (lo < id)%N
       | a :: args' => ordered lo a /\ go (own_id a) args'
       end) lo (map (rule_update_refs names) args)).
  { induction args as [|a args IHa]; intros H lo; [tauto|]. intros [H1 H2]. cbn [map].
    split; [apply H; [left; reflexivity|exact H1]|]. rewrite own_id_refs. apply IHa; [|exact H2].
    intros c Hc. apply H. right. exact Hc. }
  induction r as [r IH] using rule_ind'; intros lo.
  destruct r; cbn [rule_update_refs]; try tauto.
  - cbn [ordered]. apply Hgo. exact IH.
  - cbn [ordered]. apply Hgo. exact IH.
  - cbn [ordered children] in *. rewrite !own_id_refs.
    intros [(H1 & H2 & H3)|(H1 & H2 & H3)]; [left|right]; repeat split; auto; apply IH; simpl; auto.
  - cbn [ordered children] in *. rewrite !own_id_refs. intros [H1 H2]. split; [|exact H2]. apply IH; simpl; auto.
  - cbn [ordered children] in *. rewrite !own_id_refs. intros [H1 H2]. split; [|exact H2]. apply IH; simpl; auto.
  - destruct index; cbn [ordered]; rewrite ?own_id_refs; tauto.
  - cbn [ordered children] in *. rewrite !own_id_refs. intros [H1 H2]. split; [|exact H2]. apply IH; simpl; auto.
  - cbn [ordered children] in *. rewrite !own_id_refs. intros [H1 H2]. split; [|exact H2]. apply IH; simpl; auto.
Qed.

Lemma numbered_refs names node r : numbered node r -> numbered node (rule_update_refs names r).
Proof.
  intros (k & a & b & c & d & e & H1 & H2 & H3 & H4 & H5 & H6 & H7).
  exists k, a, b, c, d, e. repeat split; auto; [apply ordered_refs; exact H6|rewrite own_id_refs; exact H7].
Qed.

(** ** The whole *)

Lemma convert_total (data : list tok) ig : nested (map snd data) -> ids_small data ->
  exists fuel res ig', convert fuel data ig = Done (res, ig') /\
    forall s, res = Some s -> exists before nodes, data = before ++ concat nodes /\
      Forall item nodes /\ Forall2 numbered nodes (s_rules s).
Proof.
  intros Hn Hu. apply forest_nested in Hn. exists (S (length data)). unfold convert, c_new.
  destruct (strings_loop_ok (S (length data)) data 0 [] Hn) as (before & toks & ss & -> & Hf & H1); [lia|].
  rewrite H1. cbn [obind].
  destruct (nodes_loop_ok ss (S (length (before ++ toks))) toks (0 + length before) syntax_new ig Hf)
    as (res & ig' & H2 & H3).
  - rewrite app_length. lia.
  - eapply ids_small_incl; [| |exact Hu]; [|rewrite rule_nodes_app; lia].
    intros x Hx. apply in_or_app. right. exact Hx.
  - rewrite H2. cbn [obind]. destruct res as [s|]; do 2 eexists; (split; [reflexivity|]); [|discriminate].
    intros s' [= <-]. destruct (H3 s eq_refl) as (nodes & rules & -> & H5 & H6 & H7).
    exists before, nodes. repeat split; auto. cbn [update_refs s_rules]. rewrite H6.
    cbn [syntax_new s_rules app]. clear - H7. induction H7; constructor; [apply numbered_refs|]; assumption.
Qed.

Theorem convert_returns_nested (data : list tok) ig : nested (map snd data) -> ids_small data ->
  exists result ig', convert_returns data ig result ig'.
Proof.
  intros Hn Hu. destruct (convert_total data ig Hn Hu) as (fuel & res & ig' & H & _).
  exists res, ig', fuel. exact H.
Qed.

Theorem convert_decides data ig r1 g1 r2 g2 : convert_returns data ig r1 g1 ->
  convert_returns data ig r2 g2 -> r1 = r2 /\ g1 = g2.
Proof.
  intros [f H1] [g H2]. pose proof (convert_agree f g data ig) as H.
  rewrite H1, H2 in H. specialize (H ltac:(discriminate) ltac:(discriminate)). injection H as <- <-. auto.
Qed.

Theorem convert_no_panic (data : list tok) ig : nested (map snd data) -> ids_small data -> ~ convert_panics data ig.
Proof.
  intros Hn Hu [g Hg]. destruct (convert_total data ig Hn Hu) as (fuel & res & ig' & H & _).
  pose proof (convert_agree fuel g data ig) as Ha. rewrite H, Hg in Ha.
  specialize (Ha ltac:(discriminate) ltac:(discriminate)). discriminate.
Qed.

Theorem convert_numbers (data : list tok) ig s ig' : nested (map snd data) -> ids_small data ->
  convert_returns data ig (Some s) ig' ->
  exists before nodes, data = before ++ concat nodes /\ Forall item nodes /\
    Forall2 numbered nodes (s_rules s).
Proof.
  intros Hn Hu Hc. destruct (convert_total data ig Hn Hu) as (fuel & res & ig2 & H & H2).
  destruct (convert_decides data ig (Some s) ig' res ig2 Hc) as [He _]; [exists fuel; exact H|].
  apply H2. congruence.
Qed.

(** ** Ordered ids *)

Lemma NoDup_join {A} (a b : list A) : NoDup a -> NoDup b -> (forall x, In x a -> In x b -> False) ->
  NoDup (a ++ b).
Proof.
  induction 1 as [|x a Hx Ha IH]; intros Hb Hd; [exact Hb|]. cbn [app]. constructor.
  - intros Hin. apply in_app_or in Hin as [Hin|Hin]; [contradiction|]. apply (Hd x); [left; reflexivity|exact Hin].
  - apply IH; [exact Hb|]. intros y Hy. apply Hd. right. exact Hy.
Qed.

Lemma ordered_ids r : forall lo, ordered lo r ->
  NoDup (rule_ids r) /\ forall i, In i (rule_ids r) -> (lo < i <= own_id r)%N.
Proof.
  assert (Hgo : forall id args,
    (forall c, In c args -> forall lo, ordered lo c ->
       NoDup (rule_ids c) /\ forall i, In i (rule_ids c) -> (lo < i <= own_id c)%N) ->
    forall lo,
    (fix go (lo : N) (args : list rule) : Prop :=
       match args with
       | [] => (lo < id)%N
       | a :: args' => ordered lo a /\ go (own_id a) args'
       end) lo args ->
    NoDup (flat_map rule_ids args ++ [id]) /\
    forall i, In i (flat_map rule_ids args ++ [id]) -> (lo < i <= id)%N).
  { induction args as [|a args IHa]; intros H lo.
    - cbn. intros Hlo. split; [repeat constructor; intros []|]. intros i [<-|[]]. lia.
    - intros [H1 H2]. cbn [flat_map]. rewrite <- app_assoc.
      destruct (H a (or_introl eq_refl) lo H1) as [H3 H4].
      destruct (IHa (fun c Hc => H c (or_intror Hc)) _ H2) as [H5 H6].
      pose proof (own_gt _ _ H1) as Hgt.
      assert (Hid : (own_id a < id)%N).
      { apply (H6 id). apply in_or_app. right. left. reflexivity. }
      split.
      + apply NoDup_join; auto. intros x Hx Hy. apply H4 in Hx. apply H6 in Hy. lia.
      + intros i Hi. apply in_app_or in Hi as [Hi|Hi]; [apply H4 in Hi; lia|apply H6 in Hi; lia]. }
  assert (Hone : forall lo id (ids : list N) m, NoDup ids -> (forall i, In i ids -> (lo < i <= m)%N) -> (m < id)%N -> (lo < m)%N ->
    NoDup (ids ++ [id]) /\ forall i, In i (ids ++ [id]) -> (lo < i <= id)%N).
  { intros lo id ids m H1 H2 H3 H4. split.
    - apply NoDup_join; auto; [repeat constructor; intros []|].
      intros x Hx [<-|[]]. apply H2 in Hx. lia.
    - intros i Hi. apply in_app_or in Hi as [Hi|[<-|[]]]; [apply H2 in Hi; lia|lia]. }
  assert (Hleaf : forall lo id, (lo < id)%N -> NoDup [id] /\ forall i, In i [id] -> (lo < i <= id)%N).
  { intros lo id H. split; [repeat constructor; intros []|]. intros i [<-|[]]. lia. }
  induction r as [r IH] using rule_ind'; intros lo.
  destruct r; cbn [rule_ids ordered own_id children] in *; try (apply Hleaf); try (apply Hgo; exact IH).
  - intros [(H1 & H2 & H3)|(H1 & H2 & H3)].
    + destruct (IH r1 (or_introl eq_refl) _ H1) as [H4 H5].
      destruct (IH r2 (or_intror (or_introl eq_refl)) _ H2) as [H6 H7].
      pose proof (own_gt _ _ H1). pose proof (own_gt _ _ H2). rewrite app_assoc.
      apply Hone with (m := own_id r2); [|intros i Hi|lia..].
      * apply NoDup_join; auto. intros x Hx Hy. apply H5 in Hx. apply H7 in Hy. lia.
      * apply in_app_or in Hi as [Hi|Hi]; [apply H5 in Hi; lia|apply H7 in Hi; lia].
    + destruct (IH r1 (or_introl eq_refl) _ H2) as [H4 H5].
      destruct (IH r2 (or_intror (or_introl eq_refl)) _ H1) as [H6 H7].
      pose proof (own_gt _ _ H1). pose proof (own_gt _ _ H2). rewrite app_assoc.
      apply Hone with (m := own_id r1); [|intros i Hi|lia..].
      * apply NoDup_join; auto. intros x Hx Hy. apply H5 in Hx. apply H7 in Hy. lia.
      * apply in_app_or in Hi as [Hi|Hi]; [apply H5 in Hi; lia|apply H7 in Hi; lia].
  - intros [H1 H2]. destruct (IH r (or_introl eq_refl) _ H1) as [H3 H4].
    pose proof (own_gt _ _ H1). apply Hone with (m := own_id r); auto.
  - intros [H1 H2]. destruct (IH r (or_introl eq_refl) _ H1) as [H3 H4].
    pose proof (own_gt _ _ H1). apply Hone with (m := own_id r); auto.
  - intros [H1 H2]. destruct (IH r (or_introl eq_refl) _ H1) as [H3 H4].
    pose proof (own_gt _ _ H1). apply Hone with (m := own_id r); auto.
  - intros [H1 H2]. destruct (IH r (or_introl eq_refl) _ H1) as [H3 H4].
    pose proof (own_gt _ _ H1). apply Hone with (m := own_id r); auto.
Qed.

Theorem numbered_ids k node r : numbered_as k node r ->
  NoDup (rule_ids r) /\ (forall i, In i (rule_ids r) -> (k * 1000 < i)%N) /\
  (rule_nodes node < 1000 -> forall i, In i (rule_ids r) -> (i / 1000 = k)%N).
Proof.
  intros (q & q' & before & it & after & -> & _ & _ & _ & _ & Ho & Hm).
  destruct (ordered_ids _ _ Ho) as [Hd Hi]. split; [exact Hd|].
  split; [intros i Hin; apply Hi in Hin; lia|].
  intros Hs i Hin. apply Hi in Hin. change ((q, StartNode (s2l "node")) :: ?x) with ([(q, StartNode (s2l "node"))] ++ x) in Hs.
  rewrite !rule_nodes_app in Hs. symmetry. apply N.div_unique with (i - k * 1000)%N; lia.
Qed.
