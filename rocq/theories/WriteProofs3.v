(** Written documents are read back, and every rule tree can be written. *)
From Coq Require Import Ascii String List NArith Bool Arith Lia.
From Verif Require Import Base Ext Types DataSpec IdSpec ParseModel ConvertModel ConvertSpec WriteSpec
  OptSpec OptProofs ConvertSound ConvertTotal ConvertNodes WriteProofs WriteProofs2.
Import ListNotations.
Local Open Scope string_scope.
Local Open Scope list_scope.
Local Open Scope nat_scope.

Lemma node_fields ss tail fs items : Forall2 (written ss) fs items ->
  Forall (allowed [] [] [s2l "name"] [s2l "id"]) fs -> forall fuel o id name rl ig,
  node_loop (length fs + fuel) ss (Cv (concat items ++ tail) o) id name rl ig =
  node_loop fuel ss (Cv tail (o + length (concat items)))
    (fold_left (fun acc f => match tell_num (s2l "id") None f with Some x => Some (f64_as_usize x) | None => acc end) fs id)
    (fold_left (tell_name (s2l "name")) fs name) rl ig.
Proof.
  induction 1 as [|f it fs items Hw Hws IH]; intros Hall fuel o id name rl ig.
  - cbn [length concat app Nat.add fold_left]. rewrite Nat.add_0_r. reflexivity.
  - inversion Hall as [|? ? Ha Hall']; subst. cbn [length Nat.add node_loop concat].
    rewrite <- app_assoc. rewrite end_item by (eapply written_item; exact Hw).
    pick Ha; rewrite ?(meta_f64_field _ _ _ Hw), ?(meta_string_field _ _ _ Hw); names;
      rewrite update_first; cbn [obind];
      rewrite IH by exact Hall'; cbn [fold_left tell_num tell_name]; names;
      rewrite app_length, Nat.add_assoc; reflexivity.
Qed.

Lemma fold_id fs : forall acc,
  fold_left (fun acc f => match tell_num (s2l "id") None f with Some x => Some (f64_as_usize x) | None => acc end)
    fs (option_map f64_as_usize acc) = option_map f64_as_usize (fold_left (tell_num (s2l "id")) fs acc).
Proof.
  induction fs as [|f fs IH]; intros acc; [reflexivity|]. cbn [fold_left].
  rewrite <- IH. f_equal. destruct f; try reflexivity. cbn [tell_num].
  destruct (str_eqb p (s2l "id")); reflexivity.
Qed.

Lemma read_node_back ss fuel d name r rest o ig : wnode ss d name r -> (own_id r <= usize_max)%N ->
  length d <= fuel ->
  read_node fuel ss (Cv (d ++ rest) o) ig = Done (Some (Rng o (length d), (name, r)), ig).
Proof.
  intros H Hu Hl.
  destruct H as [d fs1 fs2 before inner after name r hi k (Ha1 & items1 & -> & Hw1) Hw (Ha2 & items2 & -> & Hw2) Hname Hk Hn].
  unfold read_node. open_node Hn. rewrite !app_length in *.
  pose proof (fields_short _ _ _ Hw1). pose proof (fields_short _ _ _ Hw2).
  pose proof (proj1 (proj2 (wnested ss)) _ _ _ _ _ Hw) as Hi. pose proof (item_length _ Hi).
  destruct (proj1 (proj2 (wids ss)) _ _ _ _ _ Hw) as [Hown Hlt].
  replace fuel with (length fs1 + S (length fs2 + S (fuel - length fs1 - length fs2 - 2))) by lia.
  rewrite <- !app_assoc. rewrite (node_fields _ _ _ _ Hw1 Ha1).
  remember (S (fuel - length fs1 - length fs2 - 2)) as more eqn:Hmore.
  cbn [node_loop]. rewrite end_item by exact Hi.
  assert (Hnof : forall rest o, c_meta_f64 (Cv (inner ++ rest) o) (s2l "id") = None).
  { intros rest0 o0. inversion Hw as [? ? ? ? ? ? _ Hn']; subst. destruct Hn' as (a & b & ->). reflexivity. }
  assert (Hnos : forall rest o, c_meta_string (Cv (inner ++ rest) o) (s2l "name") = None).
  { intros rest0 o0. inversion Hw as [? ? ? ? ? ? _ Hn']; subst. destruct Hn' as (a & b & ->). reflexivity. }
  rewrite Hnof, Hnos. clear Hnof Hnos.
  change (@None N) with (option_map f64_as_usize None). rewrite fold_id.
  fold (last_num (s2l "id") fs1).
  replace (match option_map f64_as_usize (last_num (s2l "id") fs1) with Some n => n | None => 0%N end) with k
    by (rewrite Hk; destruct (last_num _ _); reflexivity).
  rewrite mul_thousand by lia. cbn [obind].
  rewrite (read_rule_back ss _ _ _ _ _ _ Hw) by lia. cbn [obind]. rewrite update_first. cbn [obind snd].
  rewrite (node_fields _ _ _ _ Hw2 Ha2). subst more. cbn [node_loop]. rewrite end_here, update_one. cbn [obind].
  rewrite <- fold_left_app. fold (last_name (s2l "name") (fs1 ++ fs2)). rewrite Hname.
  unfold c_subtract. cbn [c_off]. do 4 f_equal. f_equal. lia.
Qed.

Lemma wnode_item ss d name r : wnode ss d name r -> item d.
Proof.
  intros H. destruct H as [d fs1 fs2 before inner after name r hi k H1 Hw H2 _ _ Hn].
  eapply node_of_item; [|exact Hn]. apply forest_app; [eapply fields_forest; exact H1|].
  apply forest_app; [apply item_forest, (proj1 (proj2 (wnested ss)) _ _ _ _ _ Hw)|eapply fields_forest; exact H2].
Qed.

Lemma syntax_app names rules name r :
  syntax_push (Syn rules names) name r = Syn (rules ++ [r]) (names ++ [name]).
Proof. reflexivity. Qed.

Lemma nodes_loop_back ss : forall nds names rules fuel o n0 r0 ig,
  length names = length rules ->
  Forall2 (fun d nr => wnode ss d (fst nr) (snd nr)) nds (combine names rules) ->
  Forall (fun r => (own_id r <= usize_max)%N) rules -> length (concat nds) < fuel ->
  nodes_loop fuel ss (Cv (concat nds) o) (Syn r0 n0) ig =
  Done (Some (Syn (r0 ++ rules) (n0 ++ names)), ig).
Proof.
  induction nds as [|d nds IH]; intros names rules fuel o n0 r0 ig Hlen H Hu Hl.
  - destruct names as [|n names]; destruct rules as [|r rules]; try discriminate; [|inversion H].
    destruct fuel; [lia|]. cbn. rewrite !app_nil_r. reflexivity.
  - destruct names as [|n names]; destruct rules as [|r rules]; try discriminate; [inversion H|].
    cbn [combine] in H. inversion H as [|? ? ? ? Hd Hds]; subst. cbn [fst snd] in Hd.
    inversion Hu as [|? ? Hur Hus]; subst. cbn [concat] in *. rewrite app_length in Hl.
    pose proof (item_length _ (wnode_item _ _ _ _ Hd)).
    destruct fuel as [|fuel]; [lia|]. cbn [nodes_loop].
    rewrite (read_node_back _ _ _ _ _ _ _ _ Hd) by (assumption || lia). cbn [obind].
    rewrite update_first. cbn [obind]. rewrite syntax_app.
    rewrite IH with (names := names) (rules := rules); auto; [|lia].
    rewrite <- !app_assoc. reflexivity.
Qed.

Lemma string_loop_fields q' rest fs items : Forall2 (written []) fs items ->
  Forall (allowed [] [] [s2l "name"; s2l "text"] []) fs ->
  forall fuel o n t, length (concat items) < fuel ->
  string_loop fuel (Cv (concat items ++ (q', EndNode (s2l "string")) :: rest) o) n t =
  Done (Some (Cv rest (o + length (concat items) + 1), fold_left (tell_name (s2l "name")) fs n,
    fold_left (tell_name (s2l "text")) fs t)).
Proof.
  induction 1 as [|f it fs items Hw Hws IH]; intros Hall; fields_done fuel; cbn [string_loop].
  - cbn [concat app length fold_left]. rewrite !meta_string_end by apply not_leaf_end.
    rewrite end_here, update_one, Nat.add_0_r. reflexivity.
  - inversion Hall as [|? ? Ha Hall']; subst. specialize (IH Hall').
    pose proof (written_item _ _ _ Hw) as Hi; pose proof (item_length _ Hi).
    cbn [concat] in *; rewrite app_length in *; rewrite <- ?app_assoc.
    pick Ha; rewrite ?(meta_string_field _ _ _ Hw); names; rewrite update_first; cbn [obind];
      rewrite IH by lia; cbn [fold_left tell_name]; names; rewrite Nat.add_assoc; reflexivity.
Qed.

Lemma read_string_back fuel d s rest o : wstring d s -> length d <= fuel ->
  read_string fuel (Cv (d ++ rest) o) = Done (Some (Rng o (length d), s)).
Proof.
  intros H Hl. destruct H as [d fs inner name text (Ha & items & -> & Hw) Hn Ht Hd].
  unfold read_string. open_node Hd. rewrite (string_loop_fields _ _ _ _ Hw Ha) by lia. cbn [obind].
  fold (last_name (s2l "name") fs). fold (last_name (s2l "text") fs). rewrite Hn, Ht.
  unfold c_subtract. cbn [c_off]. do 4 f_equal. lia.
Qed.

Lemma wstring_item d s : wstring d s -> item d.
Proof.
  intros H. destruct H as [d fs inner name text Hf _ _ Hn].
  eapply node_of_item; [|exact Hn]. eapply fields_forest. exact Hf.
Qed.

Lemma strings_loop_back rest : forall sds ss0, Forall2 wstring sds ss0 ->
  (forall o, c_start_node (Cv rest o) (s2l "string") = None) ->
  forall fuel o ss, length (concat sds) < fuel ->
  strings_loop fuel (Cv (concat sds ++ rest) o) ss = Done (Cv rest (o + length (concat sds)), ss ++ ss0).
Proof.
  induction 1 as [|d s sds ss0 Hd Hds IH]; intros Hoff fuel o ss Hl.
  - cbn [concat app length]. destruct fuel; [lia|]. cbn [strings_loop]. unfold read_string. rewrite Hoff. cbn [obind].
    rewrite Nat.add_0_r, app_nil_r. reflexivity.
  - cbn [concat] in *. rewrite app_length in *. pose proof (item_length _ (wstring_item _ _ Hd)).
    destruct fuel; [lia|]. cbn [strings_loop]. rewrite <- app_assoc.
    rewrite (read_string_back _ _ _ _ _ Hd) by lia. cbn [obind]. rewrite update_first. cbn [obind].
    rewrite IH by (assumption || lia). rewrite <- app_assoc, Nat.add_assoc. reflexivity.
Qed.

Theorem document_back data names rules ig : wdocument data names rules ->
  Forall (fun r => (own_id r <= usize_max)%N) rules ->
  exists s, convert_returns data ig (Some s) ig /\ s_names s = names /\
    Forall2 (resolved names) rules (s_rules s).
Proof.
  intros H Hu. destruct H as [ss sds nds names rules Hs Hlen Hn].
  exists (update_refs (Syn rules names)). split; [|split; [reflexivity|]].
  - exists (S (length (concat sds ++ concat nds))). unfold convert, c_new.
    rewrite (strings_loop_back (concat nds) sds ss Hs).
    + cbn [obind app]. change syntax_new with (Syn [] []).
      rewrite (nodes_loop_back ss nds names rules); auto.
      rewrite app_length. lia.
    + intros o. destruct Hn as [|d nr nds l Hd _]; [reflexivity|].
      destruct Hd as [d fs1 fs2 before inner after name r hi k _ _ _ _ _ (a & b & ->)]. reflexivity.
    + rewrite app_length. lia.
  - cbn [update_refs s_rules s_names]. rewrite <- (map_id rules) at 1.
    clear. induction rules as [|r rules IH]; cbn [map]; constructor; [apply update_refs_resolved|exact IH].
Qed.

(** ** Ids without gaps *)

Lemma wexact ss :
  (forall lo d r hi, wbody ss lo d r hi ->
     hi = (lo + N.of_nat (length (rule_ids r)))%N /\ forall i, In i (rule_ids r) <-> (lo < i <= hi)%N) /\
  (forall p lo d r hi, wrule ss p lo d r hi ->
     hi = (lo + N.of_nat (length (rule_ids r)))%N /\ forall i, In i (rule_ids r) <-> (lo < i <= hi)%N) /\
  (forall lo d rs hi, wargs ss lo d rs hi ->
     hi = (lo + N.of_nat (length (flat_map rule_ids rs)))%N /\
     forall i, In i (flat_map rule_ids rs) <-> (lo < i <= hi)%N).
Proof.
  apply write_ind; intros; cbn [rule_ids own_id flat_map];
    repeat match goal with H : _ /\ _ |- _ => destruct H end;
    try (split; assumption); split;
    try (rewrite ?app_length; cbn [length]; rewrite ?app_length; cbn [length]; lia);
    intros i; rewrite ?in_app_iff; cbn [In]; rewrite ?in_app_iff; cbn [In];
    repeat match goal with H : forall i, In i _ <-> _ |- _ => rewrite H; clear H end;
    lia.
Qed.

(** ** Every rule can be written *)

Definition at0 (m : metadata) : tok := (Rng 0 0, m).
Definition node0 (name : str) (inner : list tok) : list tok :=
  at0 (StartNode name) :: inner ++ [at0 (EndNode name)].

Lemma node0_of name inner : node_of name inner (node0 name inner).
Proof. exists (Rng 0 0), (Rng 0 0). reflexivity. Qed.

Definition field0 (f : field) : list tok :=
  match f with
  | Text p v => node0 p [at0 (MString (s2l "value") v)]
  | Flag p b => [at0 (MBool p b)]
  | Name p v => [at0 (MString p v)]
  | Num p x => [at0 (MF64 p x)]
  end.

Lemma field0_written f : written [] f (field0 f).
Proof. destruct f; try constructor. eapply written_value. apply node0_of. Qed.

Lemma fields0 a b c d fs : Forall (allowed a b c d) fs -> fields [] a b c d fs (concat (map field0 fs)).
Proof.
  intros H. split; [exact H|]. exists (map field0 fs). split; [reflexivity|].
  clear. induction fs; constructor; [apply field0_written|assumption].
Qed.

Definition prop0 (p : option str) : list field :=
  match p with Some v => [Text (s2l "property") v] | None => [] end.

Ltac fields_ok := match goal with |- Forall _ (_ ++ prop0 ?p) => destruct p | _ => idtac end;
  cbn [prop0 app]; repeat constructor; cbn [allowed In]; tauto.

Lemma write_rule r : unresolved r -> forall lo, exists d r' hi, wbody [] lo d r' hi /\ like_rule any_ids r r'.
Proof.
  induction r as [r IH] using rule_ind'; intros Hun lo.
  assert (Hsub : forall c, In c (children r) -> forall p lo, exists d c' hi, wrule [] p lo d c' hi /\ like_rule any_ids c c').
  { intros c Hc p lo'. destruct (IH c Hc) with (lo := lo') as (d & c' & hi & Hw & Hl).
    - intros x Hx. apply Hun. eapply occurs_below; eassumption.
    - exists (node0 p d), c', hi. split; [|exact Hl]. econstructor; [exact Hw|apply node0_of]. }
  assert (Hargs : forall args, incl args (children r) -> forall lo, exists d args' hi,
    wargs [] lo d args' hi /\ Forall2 (like_rule any_ids) args args').
  { induction args as [|a args IHa]; intros Hi lo'; [exists [], [], lo'; split; constructor|].
    destruct (Hsub a (Hi _ (or_introl eq_refl)) (s2l "rule") lo') as (d & a' & mid & Hw & Hl).
    destruct (IHa (fun x Hx => Hi x (or_intror Hx)) mid) as (ds & args' & hi & Hws & Hls).
    exists (d ++ ds), (a' :: args'), hi. split; econstructor; eassumption. }
  clear IH.
  destruct r as [o i|t n v p i|a o p i|a o p i|e p i|u p i|args i|tb args tl i|args i|a b o t i|a o i|a ind i|n p k i|a i|a i];
    cbn [children] in *.
  - do 3 eexists. split; [eapply w_whitespace with (r := Rng 0 0), node0_of|constructor; exact I].
  - do 3 eexists. split.
    + eapply (w_tag [] _ _ ([Text (s2l "text") t; Flag (s2l "not") n; Flag (s2l "inverted") v] ++ prop0 p)).
      * apply fields0. fields_ok.
      * destruct p; reflexivity.
      * apply node0_of.
    + destruct p; constructor; exact I.
  - do 3 eexists. split.
    + eapply (w_until_any [] _ _ ([Text (s2l "any_characters") a; Flag (s2l "optional") o] ++ prop0 p)).
      * apply fields0. fields_ok.
      * destruct p; reflexivity.
      * apply node0_of.
    + destruct p; constructor; exact I.
  - do 3 eexists. split.
    + eapply (w_until_any_or_ws [] _ _ ([Text (s2l "any_characters") a; Flag (s2l "optional") o] ++ prop0 p)).
      * apply fields0. fields_ok.
      * destruct p; reflexivity.
      * apply node0_of.
    + destruct p; constructor; exact I.
  - do 3 eexists. split.
    + eapply (w_text [] _ _ ([Flag (s2l "allow_empty") e] ++ prop0 p)).
      * apply fields0. fields_ok.
      * apply node0_of.
    + destruct p; constructor; exact I.
  - do 3 eexists. split.
    + eapply (w_number [] _ _ ([Flag (s2l "underscore") u] ++ prop0 p)).
      * apply fields0. fields_ok.
      * apply node0_of.
    + destruct p; constructor; exact I.
  - destruct (Hargs args (incl_refl _) lo) as (d & args' & hi & Hw & Hl).
    do 3 eexists. split; [eapply w_select; [exact Hw|apply node0_of]|constructor; [exact I|exact Hl]].
  - exfalso. exact (Hun _ (occurs_here _)).
  - destruct (Hargs args (incl_refl _) lo) as (d & args' & hi & Hw & Hl).
    do 3 eexists. split; [eapply w_sequence; [exact Hw|apply node0_of]|constructor; [exact I|exact Hl]].
  - destruct (Hsub b (or_intror (or_introl eq_refl)) (s2l "by") lo) as (db & b' & mid & Hb & Hlb).
    destruct (Hsub a (or_introl eq_refl) (s2l "rule") mid) as (da & a' & hi & Ha & Hla).
    do 3 eexists. split.
    + eapply (w_separated_by [] _ _ [] [] [Flag (s2l "optional") o; Flag (s2l "allow_trail") t]);
        [apply fields0; constructor|apply fields0; constructor|apply fields0; fields_ok|exact Hb|exact Ha|apply node0_of].
    + constructor; assumption || exact I.
  - destruct (Hsub a (or_introl eq_refl) (s2l "rule") lo) as (da & a' & hi & Ha & Hla).
    do 3 eexists. split.
    + eapply (w_repeat [] _ _ [] [Flag (s2l "optional") o]);
        [apply fields0; constructor|exact Ha|apply fields0; fields_ok|reflexivity|apply node0_of].
    + constructor; assumption || exact I.
  - destruct (Hsub a (or_introl eq_refl) (s2l "rule") lo) as (da & a' & hi & Ha & Hla).
    do 3 eexists. split; [eapply w_lines_indent with (q := Rng 0 0); [exact Ha|apply node0_of]|constructor; assumption || exact I].
  - pose proof (Hun _ (occurs_here _)) as Hk. destruct k; [destruct Hk|].
    do 3 eexists. split.
    + eapply (w_reference [] _ _ ([Name (s2l "name") n] ++ prop0 p)).
      * apply fields0. fields_ok.
      * destruct p; reflexivity.
      * apply node0_of.
    + destruct p; constructor; exact I.
  - destruct (Hsub a (or_introl eq_refl) (s2l "rule") lo) as (da & a' & hi & Ha & Hla).
    do 3 eexists. split; [eapply w_optional; [exact Ha|apply node0_of]|constructor; assumption || exact I].
  - destruct (Hsub a (or_introl eq_refl) (s2l "rule") lo) as (da & a' & hi & Ha & Hla).
    do 3 eexists. split; [eapply w_not; [exact Ha|apply node0_of]|constructor; assumption || exact I].
Qed.

Lemma like_ids_length r r' : like_rule any_ids r r' -> length (rule_ids r') = length (rule_ids r).
Proof.
  revert r'. induction r as [r IH] using rule_ind'; intros r' H.
  assert (Hargs : forall args args', incl args (children r) -> Forall2 (like_rule any_ids) args args' ->
    length (flat_map rule_ids args') = length (flat_map rule_ids args)).
  { intros args args' Hi Hl. induction Hl as [|a a' args args' Ha Hl IHl]; [reflexivity|].
    cbn [flat_map]. rewrite !app_length, IHl by (intros x Hx; apply Hi; right; exact Hx).
    rewrite (IH a (Hi _ (or_introl eq_refl)) a' Ha). reflexivity. }
  destruct H; cbn [rule_ids children own_id] in *; rewrite ?app_length; cbn [length];
    rewrite ?app_length; cbn [length]; try reflexivity;
    try (erewrite Hargs; [reflexivity|apply incl_refl|assumption]);
    repeat match goal with Hl : like_rule any_ids _ ?b |- _ =>
      apply IH in Hl; [rewrite Hl|cbn; auto] end; reflexivity.
Qed.

Lemma rule_ids_refs names r : rule_ids (rule_update_refs names r) = rule_ids r.
Proof.
  induction r as [r IH] using rule_ind'.
  destruct r; cbn [rule_update_refs rule_ids children] in *; try reflexivity;
    try (f_equal; clear -IH; induction args as [|a args IHa]; cbn; [reflexivity|];
         rewrite IH by (left; reflexivity); f_equal; apply IHa; intros; apply IH; right; assumption);
    rewrite ?IH by (cbn; auto); try reflexivity.
  destruct index; [reflexivity|]. destruct (find_name _ _ _); reflexivity.
Qed.

Definition node_data (n : str) (x : f64) (d : list tok) : list tok :=
  node0 (s2l "node") (concat (map field0 [Name (s2l "name") n; Num (s2l "id") x]) ++ d ++ concat (map field0 [])).

Lemma write_nodes (nodes : list (str * f64 * rule)) : Forall (fun n => unresolved (snd n)) nodes ->
  exists nds rules,
    Forall2 (fun d nr => wnode [] d (fst nr) (snd nr)) nds (combine (map (fun n => fst (fst n)) nodes) rules) /\
    Forall2 (fun n r => like_rule any_ids (snd n) r /\
      let lo := (f64_as_usize (snd (fst n)) * 1000)%N in
      own_id r = (lo + N.of_nat (length (rule_ids (snd n))))%N /\
      forall i, In i (rule_ids r) <-> (lo < i <= lo + N.of_nat (length (rule_ids (snd n))))%N) nodes rules.
Proof.
  induction 1 as [|[[n x] r] nodes Hr Hrs (nds & rules & IH1 & IH2)]; [exists [], []; split; constructor|].
  cbn [snd] in Hr. destruct (write_rule r Hr (f64_as_usize x * 1000)) as (d & r' & hi & Hw & Hl).
  destruct (proj1 (wexact []) _ _ _ _ Hw) as [Hhi Hids].
  destruct (proj1 (wids []) _ _ _ _ Hw) as [Hown _].
  rewrite (like_ids_length _ _ Hl) in Hhi. subst hi.
  exists (node_data n x (node0 (s2l "rule") d) :: nds), (r' :: rules). split; cbn [map combine]; constructor; auto.
  cbn [fst snd].
  eapply (w_node [] _ [Name (s2l "name") n; Num (s2l "id") x] []);
    [apply fields0; repeat constructor; cbn; tauto|econstructor; [exact Hw|apply node0_of]|apply fields0; constructor|
     reflexivity|reflexivity|apply node0_of].
Qed.

Theorem every_rule_written (nodes : list (str * f64 * rule)) ig :
  let names := map (fun n => fst (fst n)) nodes in
  let lo n := (f64_as_usize (snd (fst n)) * 1000)%N in
  let hi n := (lo n + N.of_nat (length (rule_ids (snd n))))%N in
  Forall (fun n => unresolved (snd n)) nodes -> Forall (fun n => (hi n <= usize_max)%N) nodes ->
  exists data s, convert_returns data ig (Some s) ig /\ s_names s = names /\
    Forall2 (fun n r => (exists r1, like_rule any_ids (snd n) r1 /\ resolved names r1 r) /\
      forall i, In i (rule_ids r) <-> (lo n < i <= hi n)%N) nodes (s_rules s).
Proof.
  intros names lo hi Hun Hsmall.
  destruct (write_nodes nodes Hun) as (nds & rules & Hw & Hl).
  destruct (document_back (concat [] ++ concat nds) names rules ig) as (s & Hs & Hn & Hr).
  - eapply (w_document [] []); [constructor| |exact Hw].
    unfold names. rewrite map_length. clear -Hl. induction Hl; cbn; congruence.
  - clear -Hsmall Hl. induction Hl as [|n r nodes rules (_ & Hown & _) Hl IH]; constructor;
      inversion Hsmall; subst; [rewrite Hown; assumption|auto].
  - exists (concat [] ++ concat nds), s. split; [exact Hs|]. split; [exact Hn|].
    clearbody names. clear -Hl Hr. revert Hr. generalize (s_rules s).
    induction Hl as [|n r nodes rules (Hl & _ & Hids) Hls IH]; intros l Hr; inversion Hr; subst; constructor; auto.
    split; [exists r; split; assumption|].
    match goal with H : resolved names r ?y |- _ =>
      rewrite (resolved_unique names r y (rule_update_refs names r) H (update_refs_resolved names r)), rule_ids_refs
    end. exact Hids.
Qed.
