(** Conversion of well nested data returns. *)
From Coq Require Import Ascii String List NArith Bool Arith Lia.
From Verif Require Import Base Ext Types DataSpec ParseModel ConvertModel ConvertSpec OptProofs
  ConvertSound.
Import ListNotations.
Local Open Scope string_scope.
Local Open Scope list_scope.
Local Open Scope nat_scope.

(** ** Well nested tokens *)

Inductive forest : list tok -> Prop :=
| forest_nil : forest []
| forest_leaf : forall t rest, leaf (snd t) -> forest rest -> forest (t :: rest)
| forest_node : forall r r' name inner rest, forest inner -> forest rest ->
    forest ((r, StartNode name) :: inner ++ (r', EndNode name) :: rest).

Lemma forest_app a b : forest a -> forest b -> forest (a ++ b).
Proof.
  intros Ha Hb. induction Ha as [|t rest Ht Hr IH|r r' name inner rest Hi IHi Hr IH].
  - exact Hb.
  - apply forest_leaf; [exact Ht|exact IH].
  - cbn [app]. rewrite <- app_assoc. apply forest_node; [exact Hi|exact IH].
Qed.

Lemma nested_app a b : nested a -> nested b -> nested (a ++ b).
Proof.
  intros Ha Hb. induction Ha as [|m rest Hm Hr IH|name inner rest Hi IHi Hr IH].
  - exact Hb.
  - apply nested_leaf; [exact Hm|exact IH].
  - cbn [app]. rewrite <- app_assoc. apply nested_node; [exact Hi|exact IH].
Qed.

Lemma forest_nested toks : forest toks <-> nested (map snd toks).
Proof.
  split.
  - induction 1 as [|t rest Ht Hr IH|r r' name inner rest Hi IHi Hr IH]; cbn [map snd].
    + apply nested_nil.
    + apply nested_leaf; [exact Ht|exact IH].
    + rewrite map_app. apply nested_node; [exact IHi|exact IH].
  - intros H. remember (map snd toks) as ms eqn:Hm. revert toks Hm.
    induction H as [|m rest Hl Hr IH|name inner rest Hi IHi Hr IH]; intros toks Hm.
    + destruct toks; [apply forest_nil|discriminate].
    + destruct toks as [|t toks]; [discriminate|]. injection Hm as -> ->.
      apply forest_leaf; [exact Hl|]. apply IH. reflexivity.
    + destruct toks as [|[r m] toks]; [discriminate|]. injection Hm as <- Hm.
      symmetry in Hm. apply map_eq_app in Hm as (a & b & -> & Ha & Hb).
      destruct b as [|[r' m'] b]; [discriminate|]. injection Hb as -> Hb. subst.
      apply forest_node; [apply IHi; reflexivity|apply IH; reflexivity].
Qed.

Lemma item_forest first : item first -> forest first.
Proof.
  intros H. destruct H as [t Ht|r r' name inner Hi].
  - apply forest_leaf; [exact Ht|apply forest_nil].
  - apply forest_node; [apply forest_nested; exact Hi|apply forest_nil].
Qed.

Lemma forest_cases toks : forest toks ->
  toks = [] \/ exists first rest, toks = first ++ rest /\ item first /\ forest rest.
Proof.
  intros H. destruct H as [|t rest Ht Hr|r r' name inner rest Hi Hr]; [left; reflexivity| |]; right.
  - exists [t], rest. repeat split; [|exact Hr]. apply item_leaf. exact Ht.
  - exists ((r, StartNode name) :: inner ++ [(r', EndNode name)]), rest.
    split; [|split; [|exact Hr]].
    + cbn [app]. rewrite <- app_assoc. reflexivity.
    + apply item_node. apply forest_nested. exact Hi.
Qed.

Lemma item_length first : item first -> 1 <= length first.
Proof. intros H. destruct H; cbn [length]; lia. Qed.

(** ** The cursor *)

Lemma update_first first rest o :
  c_update (Cv (first ++ rest) o) (Rng o (length first)) = Done (Cv rest (o + length first)).
Proof.
  unfold c_update, next_offset. cbn [c_off c_data r_off r_len].
  replace (o + length first <? o) with false by (symmetry; apply Nat.ltb_ge; lia).
  replace (o + length first - o) with (length first) by lia.
  rewrite app_length. replace (length first + length rest <? length first) with false
    by (symmetry; apply Nat.ltb_ge; lia).
  rewrite skipn_app, skipn_all, Nat.sub_diag. reflexivity.
Qed.

Lemma update_one t rest o :
  c_update (Cv (t :: rest) o) (Rng o 1) = Done (Cv rest (o + 1)).
Proof. exact (update_first [t] rest o). Qed.

Lemma ignore_inside inner : forest inner -> forall rest acc len, 0 < acc ->
  ignore_loop (inner ++ rest) acc len = ignore_loop rest acc (len + length inner).
Proof.
  induction 1 as [|[r m] rest Ht Hr IH|r r' name inner rest Hi IHi Hr IH]; intros rest' acc len Hacc.
  - rewrite Nat.add_0_r. reflexivity.
  - cbn [app ignore_loop length]. cbn [snd] in Ht. destruct m; try contradiction; cbn [obind];
      (destruct (Nat.eqb_spec acc 0); [lia|]; rewrite IH by exact Hacc; f_equal; lia).
  - cbn [app ignore_loop length]. cbn [obind]. destruct (Nat.eqb_spec (acc + 1) 0); [lia|].
    rewrite <- app_assoc. rewrite IHi by lia. cbn [app ignore_loop].
    destruct (Nat.eqb_spec (acc + 1) 0); [lia|]. cbn [obind].
    replace (acc + 1 - 1) with acc by lia. destruct (Nat.eqb_spec acc 0); [lia|].
    rewrite IH by exact Hacc. f_equal. rewrite app_length. cbn [length]. lia.
Qed.

Lemma ignore_item first rest o : item first ->
  c_ignore (Cv (first ++ rest) o) = Done (Rng o (length first)).
Proof.
  intros H. unfold c_ignore. cbn [c_data c_off]. destruct H as [[r m] Ht|r r' name inner Hi].
  - cbn [snd] in Ht. destruct m; try contradiction; reflexivity.
  - cbn [app ignore_loop obind Nat.add Nat.eqb]. rewrite <- app_assoc.
    rewrite ignore_inside; [|apply forest_nested; exact Hi|lia].
    cbn. rewrite app_length. cbn [length]. do 2 f_equal; lia.
Qed.

Lemma skip_first first rest o ig : item first ->
  skip_item (Cv (first ++ rest) o) ig =
  Done (Cv rest (o + length first), ig ++ [Rng o (length first)]).
Proof.
  intros H. unfold skip_item. rewrite ignore_item by exact H. cbn [obind].
  rewrite update_first. reflexivity.
Qed.

Lemma str_eqb_refl a : str_eqb a a = true.
Proof. apply str_eqb_eq. reflexivity. Qed.

Lemma end_here r name rest o : c_end_node (Cv ((r, EndNode name) :: rest) o) name = Some (Rng o 1).
Proof. unfold c_end_node. cbn [c_data c_off]. rewrite str_eqb_refl. reflexivity. Qed.

Lemma end_item first rest o name : item first -> c_end_node (Cv (first ++ rest) o) name = None.
Proof.
  intros H. unfold c_end_node. cbn [c_data]. destruct H as [[r m] Ht|r r' n inner Hi]; [|reflexivity].
  cbn [snd] in Ht. destruct m; try contradiction; reflexivity.
Qed.

Lemma start_item first rest o name : item first ->
  c_start_node (Cv (first ++ rest) o) name = None \/
  exists r r' (inner : list tok), first = (r, StartNode name) :: inner ++ [(r', EndNode name)] /\
    forest inner /\ c_start_node (Cv (first ++ rest) o) name = Some (Rng o 1).
Proof.
  intros H. unfold c_start_node. cbn [c_data c_off].
  destruct H as [[r m] Ht|r r' n inner Hi].
  - left. cbn [snd] in Ht. destruct m; try contradiction; reflexivity.
  - cbn [app]. destruct (str_eqb n name) eqn:He; [|left; reflexivity].
    right. apply str_eqb_eq in He. subst. exists r, r', inner. repeat split.
    apply forest_nested. exact Hi.
Qed.

Lemma meta_string_item first rest o name r v : item first ->
  c_meta_string (Cv (first ++ rest) o) name = Some (r, v) -> r = Rng o (length first).
Proof.
  intros H. unfold c_meta_string. cbn [c_data c_off]. destruct H as [[q m] Ht|]; [|discriminate].
  cbn [app]. destruct m; try discriminate. destruct (str_eqb _ _); [|discriminate].
  intros [= <- <-]. reflexivity.
Qed.

Lemma meta_f64_item first rest o name r v : item first ->
  c_meta_f64 (Cv (first ++ rest) o) name = Some (r, v) ->
  r = Rng o (length first) /\ exists q, first = [(q, MF64 name v)].
Proof.
  intros H. unfold c_meta_f64. cbn [c_data c_off]. destruct H as [[q m] Ht|]; [|discriminate].
  cbn [app]. destruct m; try discriminate. destruct (str_eqb _ _) eqn:He; [|discriminate].
  apply str_eqb_eq in He. subst.
  intros [= <- <-]. split; [reflexivity|]. exists q. reflexivity.
Qed.

Lemma meta_bool_item first rest o name r v : item first ->
  c_meta_bool (Cv (first ++ rest) o) name = Some (r, v) -> r = Rng o (length first).
Proof.
  intros H. unfold c_meta_bool. cbn [c_data c_off]. destruct H as [[q m] Ht|]; [|discriminate].
  cbn [app]. destruct m; try discriminate. destruct (str_eqb _ _); [|discriminate].
  intros [= <- <-]. reflexivity.
Qed.

Lemma meta_string_end t rest o name : ~ leaf (snd t) -> c_meta_string (Cv (t :: rest) o) name = None.
Proof. destruct t as [r m]. destruct m; cbn; tauto. Qed.

Lemma meta_bool_end t rest o name : ~ leaf (snd t) -> c_meta_bool (Cv (t :: rest) o) name = None.
Proof. destruct t as [r m]. destruct m; cbn; tauto. Qed.

Lemma not_leaf_end r name : ~ leaf (snd ((r, EndNode name) : tok)).
Proof. cbn. tauto. Qed.

Lemma sub_cursor d o d' n : c_subtract (Cv d' (o + n)) (Cv d o) = Rng o n.
Proof. unfold c_subtract. cbn [c_off]. f_equal. lia. Qed.

Lemma node_length r n (inner : list tok) r' n' :
  length ((r, StartNode n) :: inner ++ [(r', EndNode n')]) = 1 + length inner + 1.
Proof. cbn [length]. rewrite app_length. cbn [length]. lia. Qed.

(** What remains behind the start of a node. *)
Lemma node_unfold r n (inner : list tok) r' n' rest :
  ((r, StartNode n) :: inner ++ [(r', EndNode n')]) ++ rest =
  (r, StartNode n) :: inner ++ (r', EndNode n') :: rest.
Proof. cbn [app]. rewrite <- app_assoc. reflexivity. Qed.

(** ** Strings and sets *)

Lemma string_loop_ok : forall fuel inner r' rest o n t, forest inner -> length inner < fuel ->
  exists res, string_loop fuel (Cv (inner ++ (r', EndNode (s2l "string")) :: rest) o) n t = Done res /\
    forall c n' t', res = Some (c, n', t') -> c = Cv rest (o + length inner + 1).
Proof.
  induction fuel as [|fuel IH]; intros inner r' rest o n t Hf Hl; [lia|].
  cbn [string_loop]. destruct (forest_cases _ Hf) as [->|(first & inner' & -> & Hi & Hf')].
  - cbn [app]. rewrite !meta_string_end by apply not_leaf_end. rewrite end_here, update_one. cbn [obind].
    eexists. split; [reflexivity|]. intros c n' t' [= <- <- <-]. cbn [length]. f_equal. lia.
  - rewrite <- app_assoc. rewrite app_length in *. pose proof (item_length _ Hi).
    destruct (c_meta_string _ _) as [[r v]|] eqn:Hm.
    { rewrite (meta_string_item _ _ _ _ _ _ Hi Hm), update_first. cbn [obind].
      destruct (IH inner' r' rest (o + length first) (Some v) t Hf') as (res & H1 & H2); [lia|].
      exists res. split; [exact H1|]. intros c n' t' Hc. rewrite (H2 _ _ _ Hc). f_equal. lia. }
    clear Hm. destruct (c_meta_string _ _) as [[r v]|] eqn:Hm.
    { rewrite (meta_string_item _ _ _ _ _ _ Hi Hm), update_first. cbn [obind].
      destruct (IH inner' r' rest (o + length first) n (Some v) Hf') as (res & H1 & H2); [lia|].
      exists res. split; [exact H1|]. intros c n' t' Hc. rewrite (H2 _ _ _ Hc). f_equal. lia. }
    rewrite end_item by exact Hi. eexists. split; [reflexivity|]. discriminate.
Qed.

Lemma read_string_ok fuel first rest o : item first -> length first <= fuel ->
  exists res, read_string fuel (Cv (first ++ rest) o) = Done res /\
    forall r v, res = Some (r, v) -> r = Rng o (length first).
Proof.
  intros Hi Hl. unfold read_string.
  destruct (start_item first rest o (s2l "string") Hi) as [->|(r & r' & inner & -> & Hf & ->)].
  { exists None. split; [reflexivity|discriminate]. }
  rewrite node_unfold, update_one, node_length in *. cbn [obind].
  destruct (string_loop_ok fuel inner r' rest (o + 1) None None Hf) as (res & -> & Hc); [lia|].
  cbn [obind]. destruct res as [[[c [n|]] [t|]]|]; eexists; (split; [reflexivity|]); try discriminate.
  intros q v [= <- <-]. rewrite (Hc _ _ _ eq_refl).
  replace (o + 1 + length inner + 1) with (o + (1 + length inner + 1)) by lia. apply sub_cursor.
Qed.

Lemma set_loop_ok p ss : forall fuel inner r' rest o t, forest inner -> length inner < fuel ->
  exists res, set_loop fuel p ss (Cv (inner ++ (r', EndNode p) :: rest) o) t = Done res /\
    forall c t', res = Some (c, t') -> c = Cv rest (o + length inner + 1).
Proof.
  induction fuel as [|fuel IH]; intros inner r' rest o t Hf Hl; [lia|].
  cbn [set_loop]. destruct (forest_cases _ Hf) as [->|(first & inner' & -> & Hi & Hf')].
  - cbn [app]. rewrite end_here, update_one. cbn [obind].
    eexists. split; [reflexivity|]. intros c t' [= <- <-]. cbn [length]. f_equal. lia.
  - rewrite <- app_assoc. rewrite app_length in *. pose proof (item_length _ Hi).
    rewrite end_item by exact Hi.
    destruct (c_meta_string _ _) as [[r v]|] eqn:Hm.
    { rewrite (meta_string_item _ _ _ _ _ _ Hi Hm), update_first. cbn [obind].
      destruct (IH inner' r' rest (o + length first) (find_string v ss) Hf') as (res & H1 & H2); [lia|].
      exists res. split; [exact H1|]. intros c t' Hc. rewrite (H2 _ _ Hc). f_equal. lia. }
    clear Hm. destruct (c_meta_string _ _) as [[r v]|] eqn:Hm.
    { rewrite (meta_string_item _ _ _ _ _ _ Hi Hm), update_first. cbn [obind].
      destruct (IH inner' r' rest (o + length first) (Some v) Hf') as (res & H1 & H2); [lia|].
      exists res. split; [exact H1|]. intros c t' Hc. rewrite (H2 _ _ Hc). f_equal. lia. }
    eexists. split; [reflexivity|]. discriminate.
Qed.

Lemma read_set_ok fuel p ss first rest o : item first -> length first <= fuel ->
  exists res, read_set fuel p (Cv (first ++ rest) o) ss = Done res /\
    forall r v, res = Some (r, v) -> r = Rng o (length first).
Proof.
  intros Hi Hl. unfold read_set.
  destruct (start_item first rest o p Hi) as [->|(r & r' & inner & -> & Hf & ->)].
  { exists None. split; [reflexivity|discriminate]. }
  rewrite node_unfold, update_one, node_length in *. cbn [obind].
  destruct (set_loop_ok p ss fuel inner r' rest (o + 1) None Hf) as (res & -> & Hc); [lia|].
  cbn [obind]. destruct res as [[c [t|]]|]; eexists; (split; [reflexivity|]); try discriminate.
  intros q v [= <- <-]. rewrite (Hc _ _ eq_refl).
  replace (o + 1 + length inner + 1) with (o + (1 + length inner + 1)) by lia. apply sub_cursor.
Qed.

(** ** Loops over the items of a node *)

(** Start of the step: no item left, or an item [first]. *)
Ltac loop_cases Hf :=
  destruct (forest_cases _ Hf) as [->|(first & inner' & -> & Hi & Hf')];
  [cbn [app]; rewrite end_here, update_one; cbn [obind length]; rewrite ?Nat.add_0_r
  |rewrite <- app_assoc, ?app_length in *; pose proof (item_length _ Hi);
   rewrite end_item by exact Hi].

(** The next reading of a set, or of a leaf. *)
Ltac set_step Hi :=
  match goal with
  | |- context [read_set ?f ?p (Cv (?first ++ ?rest) ?o) ?ss] =>
    let res := fresh "res" in let H1 := fresh in let H2 := fresh in
    destruct (read_set_ok f p ss first rest o Hi) as (res & H1 & H2); [lia|];
    rewrite H1; cbn [obind]; destruct res as [[? ?]|];
    [rewrite (H2 _ _ eq_refl), update_first; cbn [obind]|]; clear H1 H2
  end.

Ltac bool_step Hi :=
  match goal with
  | |- context [c_meta_bool (Cv (?first ++ ?rest) ?o) ?n] =>
    let H := fresh in
    destruct (c_meta_bool (Cv (first ++ rest) o) n) as [[? ?]|] eqn:H;
    [rewrite (meta_bool_item _ _ _ _ _ _ Hi H), update_first; cbn [obind]|]; clear H
  end.

Ltac string_step Hi :=
  match goal with
  | |- context [c_meta_string (Cv (?first ++ ?rest) ?o) ?n] =>
    let H := fresh in
    destruct (c_meta_string (Cv (first ++ rest) o) n) as [[? ?]|] eqn:H;
    [rewrite (meta_string_item _ _ _ _ _ _ Hi H), update_first; cbn [obind]|]; clear H
  end.

Lemma until_loop_ok node ss : forall fuel inner r' rest o a op p ig, forest inner -> length inner < fuel ->
  exists a' op' p' ig', until_loop fuel node ss (Cv (inner ++ (r', EndNode node) :: rest) o) a op p ig =
    Done (Cv rest (o + length inner + 1), a', op', p', ig').
Proof.
  induction fuel as [|fuel IH]; intros inner r' rest o a op p ig Hf Hl; [lia|].
  cbn [until_loop]. loop_cases Hf; [eauto|].
  rewrite Nat.add_assoc.
  set_step Hi; [apply IH; [exact Hf'|lia]|].
  bool_step Hi; [apply IH; [exact Hf'|lia]|].
  set_step Hi; [apply IH; [exact Hf'|lia]|].
  rewrite skip_first by exact Hi. cbn [obind]. apply IH; [exact Hf'|lia].
Qed.

Lemma tag_loop_ok ss : forall fuel inner r' rest o t p n i ig, forest inner -> length inner < fuel ->
  exists t' p' n' i' ig', tag_loop fuel ss (Cv (inner ++ (r', EndNode (s2l "tag")) :: rest) o) t p n i ig =
    Done (Cv rest (o + length inner + 1), t', p', n', i', ig').
Proof.
  induction fuel as [|fuel IH]; intros inner r' rest o t p n i ig Hf Hl; [lia|].
  cbn [tag_loop]. loop_cases Hf; [do 5 eexists; reflexivity|].
  rewrite Nat.add_assoc.
  set_step Hi; [apply IH; [exact Hf'|lia]|].
  set_step Hi; [apply IH; [exact Hf'|lia]|].
  bool_step Hi; [apply IH; [exact Hf'|lia]|].
  bool_step Hi; [apply IH; [exact Hf'|lia]|].
  rewrite skip_first by exact Hi. cbn [obind]. apply IH; [exact Hf'|lia].
Qed.

Lemma flag_loop_ok node flag ss : forall fuel inner r' rest o b p ig, forest inner -> length inner < fuel ->
  exists b' p' ig', flag_loop fuel node flag ss (Cv (inner ++ (r', EndNode node) :: rest) o) b p ig =
    Done (Cv rest (o + length inner + 1), b', p', ig').
Proof.
  induction fuel as [|fuel IH]; intros inner r' rest o b p ig Hf Hl; [lia|].
  cbn [flag_loop]. loop_cases Hf; [eauto|].
  rewrite Nat.add_assoc.
  bool_step Hi; [apply IH; [exact Hf'|lia]|].
  set_step Hi; [apply IH; [exact Hf'|lia]|].
  rewrite skip_first by exact Hi. cbn [obind]. apply IH; [exact Hf'|lia].
Qed.

Lemma reference_loop_ok ss : forall fuel inner r' rest o n p ig, forest inner -> length inner < fuel ->
  exists n' p' ig', reference_loop fuel ss (Cv (inner ++ (r', EndNode (s2l "reference")) :: rest) o) n p ig =
    Done (Cv rest (o + length inner + 1), n', p', ig').
Proof.
  induction fuel as [|fuel IH]; intros inner r' rest o n p ig Hf Hl; [lia|].
  cbn [reference_loop]. loop_cases Hf; [eauto|].
  rewrite Nat.add_assoc.
  string_step Hi; [apply IH; [exact Hf'|lia]|].
  set_step Hi; [apply IH; [exact Hf'|lia]|].
  rewrite skip_first by exact Hi. cbn [obind]. apply IH; [exact Hf'|lia].
Qed.

(** ** Readers *)

(** [e] is 1 for the readers of a rule without its wrapping node. *)
Definition reader_ok (name : str) (e K : nat) (rd : reader) : Prop :=
  forall first rest o st, item first -> length first <= K ->
  (fst st + N.of_nat e + N.of_nat (rule_nodes first) <= usize_max)%N ->
  exists res st', rd (Cv (first ++ rest) o) st = Done (res, st') /\
    (fst st' <= fst st + N.of_nat e + N.of_nat (rule_nodes first))%N /\
    forall r v, res = Some (r, v) -> r = Rng o (length first).

Definition reader_off (name : str) (rd : reader) : Prop :=
  forall c st, c_start_node c name = None -> rd c st = Done (None, st).

Lemma rule_nodes_app a b : rule_nodes (a ++ b) = rule_nodes a + rule_nodes b.
Proof. unfold rule_nodes. rewrite filter_app, app_length. reflexivity. Qed.

Lemma rule_nodes_node r name inner r' :
  rule_nodes ((r, StartNode name) :: inner ++ [(r', EndNode name)]) =
  (if str_eqb name (s2l "rule") || str_eqb name (s2l "by") then 1 else 0) + rule_nodes inner.
Proof.
  change ((r, StartNode name) :: inner ++ [(r', EndNode name)])
    with ([(r, StartNode name)] ++ inner ++ [(r', EndNode name)]).
  rewrite !rule_nodes_app. unfold rule_nodes at 1 3. cbn [filter holds_rule snd length].
  destruct (_ || _); cbn [length]; lia.
Qed.

Lemma add_one n : (n + 1 <= usize_max)%N -> add_usize n 1 = Done (n + 1)%N.
Proof. intros H. unfold add_usize. destruct (N.leb_spec (n + 1) usize_max); [reflexivity|lia]. Qed.

Lemma finish_ok first rest o st mk e : (fst st + 1 <= usize_max)%N -> (fst st + 1 <= e)%N ->
  exists res st', finish (Cv (first ++ rest) o) (Cv rest (o + length first)) st mk = Done (res, st') /\
    (fst st' <= e)%N /\ forall r v, res = Some (r, v) -> r = Rng o (length first).
Proof.
  intros H He. unfold finish. rewrite add_one by exact H. cbn [obind]. do 2 eexists.
  split; [reflexivity|]. split; [exact He|]. intros r v [= <- <-]. apply sub_cursor.
Qed.

Lemma none_ok (st st' : cstate) o n e : (fst st' <= e)%N ->
  exists res st'', Done (@None (range * rule), st') = Done (res, st'') /\
    (fst st'' <= e)%N /\ forall r v, res = Some (r, v) -> r = Rng o n.
Proof. intros H. do 2 eexists. split; [reflexivity|]. split; [exact H|discriminate]. Qed.

(** Start of a reader of nodes of the name. *)
Ltac reader_cases name :=
  intros first rest o st Hi Hl Hu;
  destruct (start_item first rest o name Hi) as [->|(r & r' & inner & -> & Hf & ->)];
  [apply none_ok; [exact st|lia]|
   rewrite node_unfold, update_one; cbn [obind]; rewrite node_length in Hl].

Lemma fold_end (r : range) (inner : list tok) r' (name : str) (o : nat) :
  o + 1 + length inner + 1 = o + length ((r, StartNode name) :: inner ++ [(r', EndNode name)]).
Proof. rewrite node_length. lia. Qed.

Ltac use_finish r inner r' node o :=
  rewrite (fold_end r inner r' node o); rewrite <- (node_unfold r node);
  apply finish_ok; cbn [fst] in *; lia.

Ltac use_none st := apply none_ok; [exact st|]; cbn [fst] in *; lia.

Lemma read_until_ok fuel node mk ss : reader_ok node 1 fuel (read_until fuel node mk ss).
Proof.
  unfold read_until. reader_cases node.
  edestruct (until_loop_ok node ss fuel inner r' rest (o + 1)) as (a & op & p & ig & ->); [exact Hf|lia|].
  cbn [obind]. destruct a as [a|]; [use_finish r inner r' node o|use_none st].
Qed.

Lemma read_tag_ok fuel ss : reader_ok (s2l "tag") 1 fuel (read_tag fuel ss).
Proof.
  unfold read_tag. reader_cases (s2l "tag").
  edestruct (tag_loop_ok ss fuel inner r' rest (o + 1)) as (a & p & n & i & ig & ->); [exact Hf|lia|].
  cbn [obind]. destruct a as [a|]; [use_finish r inner r' (s2l "tag") o|use_none st].
Qed.

Lemma read_text_ok fuel ss : reader_ok (s2l "text") 1 fuel (read_text fuel ss).
Proof.
  unfold read_text. reader_cases (s2l "text").
  edestruct (flag_loop_ok (s2l "text") (s2l "allow_empty") ss fuel inner r' rest (o + 1))
    as (b & p & ig & ->); [exact Hf|lia|].
  cbn [obind]. use_finish r inner r' (s2l "text") o.
Qed.

Lemma read_number_ok fuel ss : reader_ok (s2l "number") 1 fuel (read_number fuel ss).
Proof.
  unfold read_number. reader_cases (s2l "number").
  edestruct (flag_loop_ok (s2l "number") (s2l "underscore") ss fuel inner r' rest (o + 1))
    as (b & p & ig & ->); [exact Hf|lia|].
  cbn [obind]. use_finish r inner r' (s2l "number") o.
Qed.

Lemma read_reference_ok fuel ss : reader_ok (s2l "reference") 1 fuel (read_reference fuel ss).
Proof.
  unfold read_reference. reader_cases (s2l "reference").
  edestruct (reference_loop_ok ss fuel inner r' rest (o + 1)) as (n & p & ig & ->); [exact Hf|lia|].
  cbn [obind]. destruct n as [n|]; [use_finish r inner r' (s2l "reference") o|use_none st].
Qed.

Lemma end_done inner r' node rest o : forest inner ->
  match c_end_node (Cv (inner ++ (r', EndNode node) :: rest) o) node with
  | None => True
  | Some r => inner = [] /\ r = Rng o 1
  end.
Proof.
  intros Hf. destruct (forest_cases _ Hf) as [->|(first & inner' & -> & Hi & Hf')].
  - cbn [app]. rewrite end_here. split; reflexivity.
  - rewrite <- app_assoc, end_item by exact Hi. exact I.
Qed.

Lemma read_whitespace_ok K : reader_ok (s2l "whitespace") 1 K read_whitespace.
Proof.
  unfold read_whitespace. reader_cases (s2l "whitespace").
  destruct (forest_cases _ Hf) as [->|(first & inner' & -> & Hi' & Hf')].
  - cbn [app]. rewrite meta_bool_end by apply not_leaf_end. use_none st.
  - rewrite <- app_assoc.
    destruct (c_meta_bool _ _) as [[q v]|] eqn:Hm; [|use_none st].
    rewrite (meta_bool_item _ _ _ _ _ _ Hi' Hm), update_first. cbn [obind]. clear Hm.
    pose proof (end_done inner' r' (s2l "whitespace") rest (o + 1 + length first) Hf') as He.
    destruct (c_end_node _ _); [|use_none st]. destruct He as [-> ->].
    cbn [app]. rewrite update_one. cbn [obind]. rewrite !app_nil_r in *.
    use_finish r first r' (s2l "whitespace") o.
Qed.

(** ** Readers with sub rules *)

Section Sub.
  Variable K : nat.
  Variable rd : reader.
  Hypothesis Hrd : reader_ok (s2l "rule") 0 K rd.
  Hypothesis Hoff : reader_off (s2l "rule") rd.

  Lemma args_loop_ok node : forall fuel inner r' rest o args st, forest inner -> length inner < fuel ->
    fuel <= K ->
    (fst st + N.of_nat (rule_nodes inner) <= usize_max)%N ->
    exists args' st', args_loop fuel rd node (Cv (inner ++ (r', EndNode node) :: rest) o) args st =
      Done (Cv rest (o + length inner + 1), args', st') /\
      (fst st' <= fst st + N.of_nat (rule_nodes inner))%N.
  Proof.
    induction fuel as [|fuel IH]; intros inner r' rest o args st Hf Hl HK Hu; [lia|].
    cbn [args_loop]. loop_cases Hf.
    { do 2 eexists. split; [reflexivity|]. lia. }
    rewrite rule_nodes_app in *. rewrite Nat.add_assoc.
    destruct (Hrd first (inner' ++ (r', EndNode node) :: rest) o st Hi) as (res & st1 & H1 & H2 & H3); [lia|lia|].
    rewrite H1. cbn [obind].
    assert (Hnext : forall args st2, fst st2 = fst st1 ->
      exists args' st', args_loop fuel rd node (Cv (inner' ++ (r', EndNode node) :: rest) (o + length first)) args st2 =
      Done (Cv rest (o + length first + length inner' + 1), args', st') /\
      (fst st' <= fst st + N.of_nat (rule_nodes first + rule_nodes inner'))%N).
    { intros args0 st2 He. destruct (IH inner' r' rest (o + length first) args0 st2 Hf') as (args' & st' & H4 & H5); [lia..|].
      exists args', st'. split; [exact H4|lia]. }
    destruct res as [[r v]|].
    - rewrite (H3 _ _ eq_refl), update_first. cbn [obind]. apply Hnext. reflexivity.
    - rewrite skip_first by exact Hi. cbn [obind]. apply Hnext. reflexivity.
  Qed.

  Lemma read_args_ok fuel node mk : fuel <= K -> reader_ok node 1 fuel (read_args fuel rd node mk).
  Proof.
    intros HK. unfold read_args. reader_cases node. rewrite rule_nodes_node in *.
    edestruct (args_loop_ok node fuel inner r' rest (o + 1) [] st) as (args & st' & -> & Hs); [exact Hf|lia..|].
    cbn [obind]. use_finish r inner r' node o.
  Qed.

  (** The sub rule at the cursor behind the start of a node. *)
  Lemma sub_ok inner r' node rest o st : forest inner -> length inner <= K ->
    (fst st + N.of_nat (rule_nodes inner) <= usize_max)%N ->
    exists res st', rd (Cv (inner ++ (r', EndNode node) :: rest) o) st = Done (res, st') /\
      (fst st' <= fst st + N.of_nat (rule_nodes inner))%N /\
      forall r v, res = Some (r, v) -> exists first inner', inner = first ++ inner' /\
        item first /\ forest inner' /\ r = Rng o (length first).
  Proof.
    intros Hf HK Hu. destruct (forest_cases _ Hf) as [->|(first & inner' & -> & Hi & Hf')].
    - cbn [app]. rewrite Hoff by reflexivity. do 2 eexists. split; [reflexivity|]. split; [lia|discriminate].
    - rewrite <- app_assoc. rewrite app_length, rule_nodes_app in *.
      destruct (Hrd first (inner' ++ (r', EndNode node) :: rest) o st Hi) as (res & st1 & H1 & H2 & H3); [lia|lia|].
      exists res, st1. split; [exact H1|]. split; [lia|]. intros r v Hr.
      exists first, inner'. repeat split; auto. exact (H3 _ _ Hr).
  Qed.

  Lemma read_wrap_ok node mk : reader_ok node 1 K (read_wrap rd node mk).
  Proof.
    unfold read_wrap. reader_cases node. rewrite rule_nodes_node in *.
    destruct (sub_ok inner r' node rest (o + 1) st Hf) as (res & st1 & H1 & H2 & H3); [lia|lia|].
    rewrite H1. cbn [obind]. destruct res as [[q v]|]; [|use_none st].
    destruct (H3 _ _ eq_refl) as (first & inner' & -> & Hi' & Hf' & ->).
    rewrite <- app_assoc, update_first. cbn [obind].
    pose proof (end_done inner' r' node rest (o + 1 + length first) Hf') as He.
    destruct (c_end_node _ _); [|use_none st]. destruct He as [-> ->].
    cbn [app]. rewrite update_one. cbn [obind]. rewrite !app_nil_r in *.
    use_finish r first r' node o.
  Qed.

  Lemma read_lines_ok : reader_ok (s2l "lines") 1 K (read_lines rd).
  Proof.
    unfold read_lines. reader_cases (s2l "lines"). rewrite rule_nodes_node in *.
    assert (Hmeta : exists first inner' v, inner = first ++ inner' /\ forest inner' /\
      match c_meta_bool (Cv (inner ++ (r', EndNode (s2l "lines")) :: rest) (o + 1)) (s2l "indent") with
      | Some (r, v) => do c2 <- c_update (Cv (inner ++ (r', EndNode (s2l "lines")) :: rest) (o + 1)) r; Done (c2, v)
      | None => Done (Cv (inner ++ (r', EndNode (s2l "lines")) :: rest) (o + 1), false)
      end = Done (Cv (inner' ++ (r', EndNode (s2l "lines")) :: rest) (o + 1 + length first), v)).
    { destruct (c_meta_bool _ _) as [[q v]|] eqn:Hm.
      - destruct (forest_cases _ Hf) as [->|(first & inner' & -> & Hi' & Hf')]; [discriminate|].
        rewrite <- app_assoc in *. rewrite (meta_bool_item _ _ _ _ _ _ Hi' Hm), update_first. cbn [obind].
        exists first, inner', v. auto.
      - exists [], inner, false. rewrite Nat.add_0_r. auto. }
    destruct Hmeta as (before & inner' & v & -> & Hf' & ->). cbn [obind].
    rewrite app_length in Hl. rewrite rule_nodes_app in *.
    destruct (sub_ok inner' r' (s2l "lines") rest (o + 1 + length before) st Hf') as (res & st1 & H1 & H2 & H3); [lia|lia|].
    rewrite H1. cbn [obind]. destruct res as [[q v']|]; [|use_none st].
    destruct (H3 _ _ eq_refl) as (first & inner'' & -> & Hi' & Hf'' & ->).
    rewrite <- !app_assoc, update_first. cbn [obind].
    pose proof (end_done inner'' r' (s2l "lines") rest (o + 1 + length before + length first) Hf'') as He.
    destruct (c_end_node _ _); [|use_none st]. destruct He as [-> ->].
    cbn [app]. rewrite update_one. cbn [obind]. rewrite !app_nil_r in *.
    replace (o + 1 + length before + length first + 1) with (o + 1 + length (before ++ first) + 1)
      by (rewrite app_length; lia).
    rewrite !(app_assoc before first).
    use_finish r (before ++ first) r' (s2l "lines") o.
  Qed.

  Lemma rep_loop_ok : forall fuel inner r' rest o rl op st, forest inner -> length inner < fuel ->
    fuel <= K ->
    (fst st + N.of_nat (rule_nodes inner) <= usize_max)%N ->
    exists rl' op' st', rep_loop fuel rd (Cv (inner ++ (r', EndNode (s2l "repeat")) :: rest) o) rl op st =
      Done (Cv rest (o + length inner + 1), rl', op', st') /\
      (fst st' <= fst st + N.of_nat (rule_nodes inner))%N.
  Proof.
    induction fuel as [|fuel IH]; intros inner r' rest o rl op st Hf Hl HK Hu; [lia|].
    cbn [rep_loop]. loop_cases Hf.
    { do 3 eexists. split; [reflexivity|]. lia. }
    rewrite rule_nodes_app in *. rewrite Nat.add_assoc.
    destruct (Hrd first (inner' ++ (r', EndNode (s2l "repeat")) :: rest) o st Hi) as (res & st1 & H1 & H2 & H3); [lia|lia|].
    rewrite H1. cbn [obind].
    assert (Hnext : forall rl op st2, fst st2 = fst st1 ->
      exists rl' op' st', rep_loop fuel rd (Cv (inner' ++ (r', EndNode (s2l "repeat")) :: rest) (o + length first)) rl op st2 =
      Done (Cv rest (o + length first + length inner' + 1), rl', op', st') /\
      (fst st' <= fst st + N.of_nat (rule_nodes first + rule_nodes inner'))%N).
    { intros rl0 op0 st2 He. destruct (IH inner' r' rest (o + length first) rl0 op0 st2 Hf') as (rl' & op' & st' & H4 & H5); [lia..|].
      exists rl', op', st'. split; [exact H4|lia]. }
    destruct res as [[r v]|].
    - rewrite (H3 _ _ eq_refl), update_first. cbn [obind]. apply Hnext. reflexivity.
    - bool_step Hi; [apply Hnext; reflexivity|].
      rewrite skip_first by exact Hi. cbn [obind]. apply Hnext. reflexivity.
  Qed.

  Lemma read_repeat_ok fuel : fuel <= K -> reader_ok (s2l "repeat") 1 fuel (read_repeat fuel rd).
  Proof.
    intros HK. unfold read_repeat. reader_cases (s2l "repeat"). rewrite rule_nodes_node in *.
    edestruct (rep_loop_ok fuel inner r' rest (o + 1) None None st) as (rl & op & st' & -> & Hs); [exact Hf|lia..|].
    cbn [obind]. destruct rl; [|use_none st]. destruct op; [|use_none st].
    use_finish r inner r' (s2l "repeat") o.
  Qed.

  Variable rd_by : reader.
  Hypothesis Hby : reader_ok (s2l "by") 0 K rd_by.
  Hypothesis Hoff_by : reader_off (s2l "by") rd_by.

  Lemma sep_by_loop_ok : forall fuel inner r' rest o op tr b rl st, forest inner -> length inner < fuel ->
    fuel <= K ->
    (fst st + N.of_nat (rule_nodes inner) <= usize_max)%N ->
    exists op' tr' b' rl' st', sep_by_loop fuel rd_by rd
        (Cv (inner ++ (r', EndNode (s2l "separated_by")) :: rest) o) op tr b rl st =
      Done (Cv rest (o + length inner + 1), op', tr', b', rl', st') /\
      (fst st' <= fst st + N.of_nat (rule_nodes inner))%N.
  Proof.
    induction fuel as [|fuel IH]; intros inner r' rest o op tr b rl st Hf Hl HK Hu; [lia|].
    cbn [sep_by_loop]. loop_cases Hf.
    { do 5 eexists. split; [reflexivity|]. lia. }
    rewrite rule_nodes_app in *. rewrite Nat.add_assoc.
    assert (Hnext : forall op tr b rl st2, (fst st2 <= fst st + N.of_nat (rule_nodes first))%N ->
      exists op' tr' b' rl' st', sep_by_loop fuel rd_by rd
         (Cv (inner' ++ (r', EndNode (s2l "separated_by")) :: rest) (o + length first)) op tr b rl st2 =
      Done (Cv rest (o + length first + length inner' + 1), op', tr', b', rl', st') /\
      (fst st' <= fst st + N.of_nat (rule_nodes first + rule_nodes inner'))%N).
    { intros op0 tr0 b0 rl0 st2 He.
      destruct (IH inner' r' rest (o + length first) op0 tr0 b0 rl0 st2 Hf') as (op' & tr' & b' & rl' & st' & H4 & H5); [lia..|].
      exists op', tr', b', rl', st'. split; [exact H4|lia]. }
    bool_step Hi; [apply Hnext; lia|].
    bool_step Hi; [apply Hnext; lia|].
    destruct (start_item first (inner' ++ (r', EndNode (s2l "separated_by")) :: rest) o (s2l "by") Hi)
      as [Hno|(q & q' & inside & He & Hfi & Hyes)].
    - rewrite Hoff_by by exact Hno. cbn [obind].
      destruct (Hrd first (inner' ++ (r', EndNode (s2l "separated_by")) :: rest) o st Hi) as (res & st1 & H1 & H2 & H3); [lia|lia|].
      rewrite H1. cbn [obind]. destruct res as [[r v]|].
      + rewrite (H3 _ _ eq_refl), update_first. cbn [obind]. apply Hnext. lia.
      + rewrite skip_first by exact Hi. cbn [obind]. apply Hnext. cbn [fst]. lia.
    - destruct (Hby first (inner' ++ (r', EndNode (s2l "separated_by")) :: rest) o st Hi) as (res & st1 & H1 & H2 & H3); [lia|lia|].
      rewrite H1. cbn [obind]. destruct res as [[r v]|].
      + rewrite (H3 _ _ eq_refl), update_first. cbn [obind]. apply Hnext. lia.
      + rewrite Hoff by (rewrite He; reflexivity). cbn [obind].
        rewrite skip_first by exact Hi. cbn [obind]. apply Hnext. cbn [fst]. lia.
  Qed.

  Lemma read_separated_by_ok fuel : fuel <= K ->
    reader_ok (s2l "separated_by") 1 fuel (read_separated_by fuel rd_by rd).
  Proof.
    intros HK. unfold read_separated_by. reader_cases (s2l "separated_by"). rewrite rule_nodes_node in *.
    edestruct (sep_by_loop_ok fuel inner r' rest (o + 1) None None None None st)
      as (op & tr & b & rl & st' & -> & Hs); [exact Hf|lia..|].
    cbn [obind]. destruct b; [|use_none st]. destruct rl; [|use_none st].
    use_finish r inner r' (s2l "separated_by") o.
  Qed.
End Sub.

(** ** The reader of any rule *)

Lemma first_off : forall names rds, Forall2 reader_off names rds ->
  forall c st, Forall (fun n => c_start_node c n = None) names -> first_reader rds c st = Done (None, st).
Proof.
  induction 1 as [|n rd names rds Hn H IH]; intros c st Hc; [reflexivity|].
  inversion Hc; subst. cbn [first_reader]. rewrite Hn by assumption. cbn [obind]. apply IH. assumption.
Qed.

Lemma start_other n c name r : c_start_node c name = Some r -> n <> name -> c_start_node c n = None.
Proof.
  unfold c_start_node. destruct (c_data c) as [|[q m] rest]; [discriminate|].
  destruct m; try discriminate. intros H Hn. destruct (str_eqb name0 name) eqn:He; [|discriminate].
  apply str_eqb_eq in He. subst. destruct (str_eqb name n) eqn:He; [|reflexivity].
  apply str_eqb_eq in He. congruence.
Qed.

Lemma first_ok K : forall names rds,
  Forall2 (fun n rd => reader_ok n 1 K rd /\ reader_off n rd) names rds -> NoDup names ->
  reader_ok [] 1 K (first_reader rds).
Proof.
  induction 1 as [|n rd names rds [Hn Hoff] H IH]; intros Hd first rest o st Hi Hl Hu.
  { cbn [first_reader]. apply none_ok; [exact st|lia]. }
  inversion Hd as [|? ? Hnot Hd']; subst. cbn [first_reader].
  destruct (start_item first rest o n Hi) as [Hs|(r & r' & inner & He & Hf & Hs)].
  - rewrite Hoff by exact Hs. cbn [obind]. apply IH; assumption.
  - destruct (Hn first rest o st Hi Hl Hu) as (res & st' & H1 & H2 & H3). rewrite H1. cbn [obind].
    destruct res as [x|].
    + exists (Some x), st'. auto.
    + rewrite first_off with (names := names).
      * apply none_ok; [exact st|exact H2].
      * clear - H. induction H as [|a b l l' [_ Hb] Hl IH]; constructor; auto.
      * apply Forall_forall. intros m Hm. eapply start_other; [exact Hs|]. intros ->. contradiction.
Qed.

Definition rule_kinds : list str :=
  [s2l "sequence"; s2l "until_any_or_whitespace"; s2l "until_any"; s2l "tag"; s2l "whitespace";
   s2l "text"; s2l "number"; s2l "reference"; s2l "select"; s2l "optional"; s2l "not";
   s2l "separated_by"; s2l "lines"; s2l "repeat"].

Lemma rule_kinds_distinct : NoDup rule_kinds.
Proof.
  unfold rule_kinds.
  repeat (apply NoDup_cons; [cbn [In]; intros H; repeat (destruct H as [H|H]; [discriminate H|]); exact H|]).
  apply NoDup_nil.
Qed.

Lemma read_rule_off fuel p ss : 0 < fuel -> reader_off p (read_rule fuel p ss).
Proof. intros H c st Hc. destruct fuel; [lia|]. cbn [read_rule]. rewrite Hc. reflexivity. Qed.

Lemma read_rule_ok ss : forall fuel p, p = s2l "rule" \/ p = s2l "by" ->
  reader_ok p 0 fuel (read_rule fuel p ss).
Proof.
  induction fuel as [|fuel IH]; intros p Hp.
  { intros first rest o st Hi Hl. apply item_length in Hi. lia. }
  cbn [read_rule]. cbv zeta. reader_cases p. rewrite rule_nodes_node in *.
  assert (Hcount : str_eqb p (s2l "rule") || str_eqb p (s2l "by") = true).
  { destruct Hp; subst; reflexivity. }
  rewrite Hcount in *.
  assert (Hr : reader_ok (s2l "rule") 0 fuel (read_rule fuel (s2l "rule") ss)) by (apply IH; auto).
  assert (Hb : reader_ok (s2l "by") 0 fuel (read_rule fuel (s2l "by") ss)) by (apply IH; auto).
  assert (Hro : reader_off (s2l "rule") (read_rule fuel (s2l "rule") ss)) by (apply read_rule_off; lia).
  assert (Hbo : reader_off (s2l "by") (read_rule fuel (s2l "by") ss)) by (apply read_rule_off; lia).
  match goal with |- context [first_reader ?l] => set (rds := l) end.
  assert (Hall : Forall2 (fun n rd => reader_ok n 1 fuel rd /\ reader_off n rd) rule_kinds rds).
  { unfold rule_kinds, rds.
    repeat (apply Forall2_cons; [split; [|intros c0 st0 Hc0; cbv beta delta [read_args read_until read_tag read_whitespace read_text
      read_number read_reference read_wrap read_separated_by read_lines read_repeat]; rewrite Hc0; reflexivity]|]);
      [..|apply Forall2_nil].
    - apply read_args_ok with (K := fuel); [exact Hr|lia].
    - apply read_until_ok.
    - apply read_until_ok.
    - apply read_tag_ok.
    - apply read_whitespace_ok.
    - apply read_text_ok.
    - apply read_number_ok.
    - apply read_reference_ok.
    - apply read_args_ok with (K := fuel); [exact Hr|lia].
    - apply read_wrap_ok; assumption.
    - apply read_wrap_ok; assumption.
    - apply read_separated_by_ok with (K := fuel); auto.
    - apply read_lines_ok; assumption.
    - apply read_repeat_ok with (K := fuel); auto. }
  assert (Hoffs : Forall2 reader_off rule_kinds rds).
  { clear - Hall. induction Hall as [|a b l l' [_ Hb] Hl IH]; constructor; auto. }
  destruct (forest_cases _ Hf) as [->|(first & inner' & -> & Hi' & Hf')].
  - cbn [app]. rewrite first_off with (names := rule_kinds).
    + cbn [obind]. use_none st.
    + exact Hoffs.
    + apply Forall_forall. reflexivity.
  - rewrite <- app_assoc. rewrite app_length, rule_nodes_app in *.
    destruct (first_ok fuel _ _ Hall rule_kinds_distinct first (inner' ++ (r', EndNode p) :: rest) (o + 1) st Hi')
      as (res & st' & H1 & H2 & H3); [lia|lia|].
    rewrite H1. cbn [obind]. destruct res as [[q v]|]; [|use_none st].
    rewrite (H3 _ _ eq_refl), update_first. cbn [obind].
    pose proof (end_done inner' r' p rest (o + 1 + length first) Hf') as He.
    destruct (c_end_node _ _); [|use_none st]. destruct He as [-> ->].
    cbn [app]. rewrite update_one. cbn [obind]. rewrite !app_nil_r in *.
    do 2 eexists. split; [reflexivity|]. split; [lia|]. intros q' v' [= <- <-].
    replace (o + 1 + length first + 1) with (o + (1 + length first + 1)) by lia.
    rewrite sub_cursor, node_length. reflexivity.
Qed.
