(** What conversion passes over: whole items, and all strings that are not defined. *)
From Coq Require Import Ascii String List NArith Bool Arith Lia.
From Verif Require Import Base Ext Types DataSpec ParseModel ConvertModel ConvertSpec OptProofs ConvertSound ConvertTotal
  SyntaxProofs TreeSpec TreeProofs TreeProofs2 TreeProofs3 TreePublic ShapeSpec IgnoreSpec IgnoreProofs IgnoreProofs2.
Import ListNotations.
Local Open Scope string_scope.
Local Open Scope list_scope.
Local Open Scope nat_scope.

(** ** Whole items *)

Definition whole (o : nat) (ms : list metadata) (r : range) : Prop :=
  exists pre x post, good x /\ ms = pre ++ flat x ++ post /\ r = Rng (o + length pre) (length (flat x)).

Lemma whole_left o a b r : whole o a r -> whole o (a ++ b) r.
Proof. intros (pre & x & post & Hx & -> & ->). exists pre, x, (post ++ b). rewrite <- !app_assoc. auto. Qed.

Lemma whole_right o a b r : whole (o + length a) b r -> whole o (a ++ b) r.
Proof. intros (pre & x & post & Hx & -> & ->). exists (a ++ pre), x, post. rewrite <- !app_assoc, app_length, Nat.add_assoc. auto. Qed.

Lemma whole_self o t r used : good t -> In r (unless used o t) -> whole o (flat t) r.
Proof.
  intros Hg H. destruct used; [destruct H|]. destruct H as [<-|[]]. exists [], t, []. rewrite app_nil_r. cbn [length app]. rewrite Nat.add_0_r. auto.
Qed.

Lemma whole_in n ks o r : whole (o + 1) (flat_map flat ks) r -> whole o (flat (Tree n ks)) r.
Proof.
  intros H. cbn [flat]. change (StartNode n :: flat_map flat ks ++ [EndNode n]) with ([StartNode n] ++ (flat_map flat ks ++ [EndNode n])).
  apply whole_right, whole_left. exact H.
Qed.

Lemma walk_whole f : forall ks o r, Forall good ks -> (forall k o r, In k ks -> In r (f o k) -> whole o (flat k) r) ->
  In r (walk f o ks) -> whole o (flat_map flat ks) r.
Proof.
  induction ks as [|k ks IH]; intros o r Hg Hf H; [destruct H|]. apply Forall_cons_iff in Hg. destruct Hg as [Hk Hg].
  rewrite walk_cons in H. cbn [flat_map]. apply in_app_or in H. destruct H as [H|H].
  - apply whole_left, Hf; [left; reflexivity|exact H].
  - apply whole_right, IH; [exact Hg| |exact H]. intros k' o' r' Hi. apply Hf. right. exact Hi.
Qed.

Lemma kind_whole ss sub kind o kids r : Forall good kids -> (forall k o r, In k kids -> In r (sub o k) -> whole o (flat k) r) ->
  In r (passed_kind ss sub kind o kids) -> whole (o + 1) (flat_map flat kids) r.
Proof.
  intros Hg Hs H. assert (Hg' := proj1 (Forall_forall _ _) Hg).
  assert (Hi : forall s k o r, In k kids -> In r (if named (s2l s) k then sub o k else []) -> whole o (flat k) r).
  { intros s k o0 r0 Hk Hr. destruct (named _ k); [apply Hs; assumption|destruct Hr]. }
  assert (Hfirst : forall k ks o r, kids = k :: ks -> In r (if named (s2l "rule") k then sub o k else []) -> whole o (flat_map flat kids) r).
  { intros k ks o0 r0 He Hr. rewrite He. cbn [flat_map]. apply whole_left, (Hi "rule"); [rewrite He; left; reflexivity|exact Hr]. }
  unfold passed_kind in H. cbv zeta in H.
  repeat match type of H with In _ (if ?b then _ else _) => destruct b end; try (destruct H; fail);
    try (eapply walk_whole; [exact Hg| |exact H]; intros k o' r' Hk Hr; rewrite ?in_app_iff in Hr;
         repeat match type of Hr with _ \/ _ => destruct Hr as [Hr|Hr] end; first [eapply whole_self; [exact (Hg' _ Hk)|exact Hr] | eapply Hi; eassumption]).
  - destruct kids as [|k ks]; [destruct H|]. eapply Hfirst; [reflexivity|exact H].
  - destruct kids as [|f ks]; [destruct H|]. destruct (is_some _) eqn:F.
    + destruct ks as [|k ks]; [destruct H|]. change (flat_map flat (f :: k :: ks)) with (flat f ++ flat k ++ flat_map flat ks).
      apply whole_right, whole_left. destruct f as [m|]; [|discriminate F]. replace (o + 1 + length (flat (Leaf m))) with (o + 2) by (cbn; lia).
      apply (Hi "rule"); [right; left; reflexivity|exact H].
    + eapply Hfirst; [reflexivity|exact H].
Qed.

Lemma rule_whole ss : forall t, good t -> forall o r, In r (passed_rule ss o t) -> whole o (flat t) r.
Proof.
  assert (Hall : forall t, (good t -> forall o r, In r (passed_rule ss o t) -> whole o (flat t) r) /\
    forall k, match t with Tree _ ks => In k ks | Leaf _ => False end -> good k -> forall o r, In r (passed_rule ss o k) -> whole o (flat k) r).
  { intros t. induction t as [m|n ks IH] using tree_ind'; [split; [intros _ o r []|intros k []]|].
    assert (IH' := proj1 (Forall_forall _ _) IH). split; [|intros k Hk Hgk; apply (proj1 (IH' k Hk) Hgk)].
    intros Hg o r H. apply good_tree in Hg. cbn [passed_rule] in H. destruct ks as [|[m|kind kids] ks]; try (destruct H; fail).
    apply Forall_cons_iff in Hg. destruct Hg as [Hk Hg]. apply good_tree in Hk. apply whole_in. cbn [flat_map]. apply whole_left, whole_in.
    eapply kind_whole; [exact Hk| |exact H]. intros k o' r' Hin Hr. assert (Hsub := proj2 (IH' _ (or_introl eq_refl)) k Hin).
    apply Hsub; [exact (proj1 (Forall_forall _ _) Hk k Hin)|exact Hr]. }
  intros t. exact (proj1 (Hall t)).
Qed.

Lemma node_whole ss t o r : good t -> In r (passed_node ss o t) -> whole o (flat t) r.
Proof.
  intros Hg H. destruct t as [m|n ks]; [destruct H|]. cbn [passed_node] in H. destruct (str_eqb _ _); [|destruct H]. apply good_tree in Hg.
  apply whole_in. eapply walk_whole; [exact Hg| |exact H]. intros k o' r' Hk Hr. assert (Hgk := proj1 (Forall_forall _ _) Hg k Hk).
  apply in_app_or in Hr. destruct Hr as [Hr|Hr]; [|eapply whole_self; eassumption].
  destruct (named _ k); [apply (rule_whole ss k Hgk _ _ Hr)|destruct Hr].
Qed.

Lemma nodes_whole ss : forall ts o r, Forall good ts -> In r (passed_nodes ss o ts) -> whole o (flat_map flat ts) r.
Proof.
  induction ts as [|t ts IH]; intros o r Hg H; [destruct H|]. apply Forall_cons_iff in Hg. destruct Hg as [Ht Hg]. cbn [passed_nodes flat_map] in *.
  apply in_app_or in H. destruct H as [H|H]; [apply whole_left, (node_whole ss); assumption|]. destruct (is_some _); [|destruct H].
  apply whole_right, IH; assumption.
Qed.

Lemma data_whole : forall ts ss o r, Forall good ts -> In r (passed_data ss o ts) -> whole o (flat_map flat ts) r.
Proof.
  induction ts as [|t ts IH]; intros ss o r Hg H; [destruct H|]. assert (Hg' := Hg). apply Forall_cons_iff in Hg. destruct Hg as [Ht Hg].
  cbn [passed_data] in H. destruct (string_of t); [|apply (nodes_whole ss); assumption]. cbn [flat_map]. apply whole_right, (IH _ _ _ Hg H).
Qed.

Theorem passes_items data ig result ig' r : nested (map snd data) -> convert_returns data ig result ig' -> In r ig' -> In r ig \/
  exists pre it post, data = pre ++ it ++ post /\ item it /\ r = Rng (length pre) (length it).
Proof.
  intros Hn H Hr. destruct (nested_trees _ Hn) as (ts & Hg & Hf). symmetry in Hf. rewrite (convert_passes data ts ig result ig' Hg Hf H) in Hr.
  apply in_app_or in Hr. destruct Hr as [Hr|Hr]; [left; exact Hr|right]. apply data_whole in Hr; [|exact Hg].
  destruct Hr as (pre & x & post & Hx & He & ->). rewrite <- Hf in He. apply map_eq_app in He. destruct He as (p & q & -> & <- & He).
  apply map_eq_app in He. destruct He as (i & q' & -> & Hi & <-). exists p, i, q'. split; [reflexivity|]. split; [exact (holds_item x i Hx Hi)|].
  rewrite map_length, <- Hi, map_length. reflexivity.
Qed.

(** ** Strings that are not defined *)

Definition ref (v : str) : tree := Leaf (MString (s2l "ref") v).

Definition defd (ss : list (str * str)) (t : tree) : Prop :=
  forall n ks v, below (Tree n (ks ++ [ref v])) [t] -> definition ss v <> None.
Definition not_ref (t : tree) : Prop := forall v, t <> ref v.

Lemma below_one x ts : below x ts -> exists t, In t ts /\ below x [t].
Proof.
  intros H. destruct H as [ts H|n ks ts H Hb]; [exists x; split; [exact H|apply below_here; left; reflexivity]|].
  exists (Tree n ks). split; [exact H|]. eapply below_in; [left; reflexivity|exact Hb].
Qed.

Lemma defd_leaf ss m : defd ss (Leaf m).
Proof.
  intros n ks v H. inversion H as [? Hi|? ? ? Hi Hb]; subst; destruct Hi as [Hi|[]]; discriminate Hi.
Qed.

Lemma defd_tree ss n ks : Forall (defd ss) ks -> Forall not_ref ks -> defd ss (Tree n ks).
Proof.
  intros Hd Hn n' ks' v H. rewrite Forall_forall in Hd, Hn. inversion H as [? Hi|? ? ? Hi Hb]; subst; destruct Hi as [Hi|[]]; injection Hi as -> ->.
  - exfalso. apply (Hn (ref v)) with (v := v); [|reflexivity]. apply in_or_app. right. left. reflexivity.
  - apply below_one in Hb. destruct Hb as (t & Hin & Hb). exact (Hd t Hin _ _ _ Hb).
Qed.

Lemma last_of_app {A} (f : tree -> option A) l x a : f x = Some a -> last_of f (l ++ [x]) = Some a.
Proof. intros H. induction l as [|y l IH]; cbn; [rewrite H; reflexivity|]. cbn in IH. rewrite IH. reflexivity. Qed.

Lemma text_defd ss nm k v0 : text_of ss nm k = Some v0 -> defd ss k /\ not_ref k.
Proof.
  destruct k as [m|n ks]; [discriminate|]. intros H. split; [|intros v; discriminate]. cbn [text_of] in H.
  destruct (str_eqb n nm); [|discriminate H]. cbn [andb] in H. destruct (forallb _ ks) eqn:F; [|discriminate H]. rewrite forallb_forall in F.
  intros n' ks' v Hb. inversion Hb as [? Hi|? ? ? Hi Hb']; subst; destruct Hi as [Hi|[]]; injection Hi as -> ->.
  - rewrite (last_of_app _ _ _ (definition ss v)) in H; [|reflexivity]. rewrite H. discriminate.
  - exfalso. apply below_one in Hb'. destruct Hb' as (t & Hin & Hb'). apply F in Hin. destruct t as [m|]; [|discriminate Hin].
    exact (defd_leaf [] m n' ks' v Hb' eq_refl).
Qed.

Lemma flag_defd ss nm k v : flag_of nm k = Some v -> defd ss k /\ not_ref k.
Proof. destruct k as [m|]; [|discriminate]. intros H. split; [apply defd_leaf|]. intros w He. injection He as ->. discriminate H. Qed.

Lemma name_defd ss k v : string_at (s2l "name") k = Some v -> defd ss k /\ not_ref k.
Proof. destruct k as [m|]; [|discriminate]. intros H. split; [apply defd_leaf|]. intros w He. injection He as ->. discriminate H. Qed.

Lemma number_defd ss nm k v : number_at nm k = Some v -> defd ss k /\ not_ref k.
Proof. destruct k as [m|]; [|discriminate]. intros H. split; [apply defd_leaf|]. intros w He. injection He as ->. discriminate H. Qed.

Lemma walk_nil f : forall ks o, walk f o ks = [] -> Forall (fun k => exists o, f o k = []) ks.
Proof.
  induction ks as [|k ks IH]; intros o H; [constructor|]. rewrite walk_cons in H. apply app_eq_nil in H. destruct H as [H1 H2].
  constructor; [exists o; exact H1|exact (IH _ H2)].
Qed.

Lemma unless_nil b o k : unless b o k = [] -> b = true.
Proof. destruct b; [reflexivity|discriminate]. Qed.

Lemma is_some_true {A} (o : option A) : is_some o = true -> exists a, o = Some a.
Proof. destruct o as [a|]; [intros _; exists a; reflexivity|discriminate]. Qed.

Definition both (ss : list (str * str)) (ks : list tree) : Prop := Forall (fun k => defd ss k /\ not_ref k) ks.

Lemma both_tree ss n ks : both ss ks -> defd ss (Tree n ks).
Proof. intros H. apply defd_tree; eapply Forall_impl; try exact H; cbn; tauto. Qed.

Lemma kind_defd ss kind kids o r : 
  (forall k o r nm, In k kids -> rule_of ss nm k = Some r -> passed_rule ss o k = [] -> defd ss k) ->
  kind_meaning ss (rule_in ss) kind kids = Some r -> passed_kind ss (passed_rule ss) kind o kids = [] -> both ss kids.
Proof.
  intros Hs Hm Hp.
  assert (Hr : forall k o r nm, In k kids -> rule_of ss nm k = Some r -> (if named nm k then passed_rule ss o k else []) = [] -> defd ss k /\ not_ref k).
  { intros k o0 r0 nm Hk Hk2 Hk3. unfold rule_of in Hk2. destruct (named nm k) eqn:E; [|discriminate Hk2]. split.
    - eapply (Hs k o0 r0 nm); [exact Hk|unfold rule_of; rewrite E; exact Hk2|exact Hk3].
    - intros w ->. discriminate E. }
  assert (Hone : forall k o mk, kids = [k] -> option_map mk (if named (s2l "rule") k then rule_in ss k else None) = Some r ->
    (if named (s2l "rule") k then passed_rule ss o k else []) = [] -> both ss kids).
  { intros k o0 mk He Hk Hk2. rewrite He. constructor; [|constructor]. destruct (if named _ k then rule_in ss k else None) as [r0|] eqn:E; [|discriminate Hk].
    apply (Hr k o0 r0 (s2l "rule")); [rewrite He; left; reflexivity|exact E|exact Hk2]. }
  unfold passed_kind in Hp. unfold kind_meaning in Hm. cbv zeta in Hp, Hm.
  Ltac items Hp Hr := apply walk_nil in Hp; apply Forall_forall; let k := fresh in let Hk := fresh in intros k Hk; rewrite Forall_forall in Hp;
    destruct (Hp k Hk) as (o' & Hu); clear Hp; repeat match type of Hu with _ ++ _ = [] => apply app_eq_nil in Hu; destruct Hu as [? Hu] end;
    apply unless_nil in Hu; repeat (apply orb_prop in Hu; destruct Hu as [Hu|Hu]); apply is_some_true in Hu; destruct Hu as [a Ha];
    first [eapply text_defd; exact Ha|eapply flag_defd; exact Ha|eapply name_defd; exact Ha|eapply Hr; eassumption].
  destruct (str_eqb kind (s2l "sequence")) eqn:?; [cbn [orb] in Hp; items Hp Hr|].
  destruct (str_eqb kind (s2l "select")) eqn:?; [cbn [orb] in Hp; items Hp Hr|]. cbn [orb] in Hp.
  destruct (str_eqb kind (s2l "until_any_or_whitespace")) eqn:?; [cbn [orb] in Hp; items Hp Hr|].
  destruct (str_eqb kind (s2l "until_any")) eqn:?; [cbn [orb] in Hp; items Hp Hr|]. cbn [orb] in Hp.
  destruct (str_eqb kind (s2l "tag")) eqn:?; [items Hp Hr|].
  destruct (str_eqb kind (s2l "whitespace")) eqn:?.
  { destruct kids as [|k [|? ?]]; try discriminate Hm. constructor; [|constructor]. destruct (flag_of _ k) eqn:F; [|discriminate Hm].
    eapply flag_defd. exact F. }
  destruct (str_eqb kind (s2l "text")) eqn:?; [items Hp Hr|].
  destruct (str_eqb kind (s2l "number")) eqn:?; [items Hp Hr|].
  destruct (str_eqb kind (s2l "reference")) eqn:?; [items Hp Hr|].
  destruct (str_eqb kind (s2l "optional")) eqn:?.
  { cbn [orb] in Hp. destruct kids as [|k [|? ?]]; try discriminate Hm. eapply Hone; [reflexivity|exact Hm|exact Hp]. }
  destruct (str_eqb kind (s2l "not")) eqn:?.
  { cbn [orb] in Hp. destruct kids as [|k [|? ?]]; try discriminate Hm. eapply Hone; [reflexivity|exact Hm|exact Hp]. }
  cbn [orb] in Hp.
  destruct (str_eqb kind (s2l "separated_by")) eqn:?; [items Hp Hr|].
  destruct (str_eqb kind (s2l "lines")) eqn:?.
  { destruct kids as [|k [|k2 [|? ?]]]; try discriminate Hm.
    - destruct (is_some _) eqn:F; [|eapply Hone; [reflexivity|exact Hm|exact Hp]]. destruct k; [discriminate Hm|discriminate F].
    - destruct (flag_of _ k) eqn:F; [|discriminate Hm]. cbn [is_some] in Hp. constructor; [eapply flag_defd; exact F|]. constructor; [|constructor].
      destruct (if named _ k2 then rule_in ss k2 else None) as [r0|] eqn:E; [|discriminate Hm].
      apply (Hr k2 (o + 2) r0 (s2l "rule")); [right; left; reflexivity|exact E|exact Hp]. }
  destruct (str_eqb kind (s2l "repeat")) eqn:?; [items Hp Hr|]. discriminate Hm.
Qed.

Lemma rule_defd ss t : forall o r, rule_in ss t = Some r -> passed_rule ss o t = [] -> defd ss t.
Proof.
  assert (Hall : forall t, (forall o r, rule_in ss t = Some r -> passed_rule ss o t = [] -> defd ss t) /\
    forall k, match t with Tree _ ks => In k ks | Leaf _ => False end -> forall o r, rule_in ss k = Some r -> passed_rule ss o k = [] -> defd ss k).
  { clear t. intros t. induction t as [m|n ks IH] using tree_ind'; [split; [discriminate|intros k []]|].
    assert (IH' := proj1 (Forall_forall _ _) IH). split; [|intros k Hk; apply (proj1 (IH' k Hk))].
    intros o r H Hp. cbn [passed_rule rule_in] in *. destruct ks as [|[m|kind kids] [|? ?]]; try discriminate H.
    apply both_tree. constructor; [|constructor]. split; [|discriminate]. apply both_tree. eapply kind_defd; [|exact H|exact Hp].
    intros k o' r' nm Hin Hk Hq. unfold rule_of in Hk. destruct (named nm k); [|discriminate Hk].
    exact (proj2 (IH' _ (or_introl eq_refl)) k Hin o' r' Hk Hq). }
  exact (proj1 (Hall t)).
Qed.

Lemma node_defd ss t o n : node_of ss t = Some n -> passed_node ss o t = [] -> defd ss t.
Proof.
  destruct t as [m|nm ks]; [discriminate|]. cbn [node_of passed_node]. destruct (str_eqb _ _); [|discriminate]. intros _ Hp.
  apply both_tree. apply walk_nil in Hp. apply Forall_forall. intros k Hk. rewrite Forall_forall in Hp. destruct (Hp k Hk) as (o' & Hu).
  apply app_eq_nil in Hu. destruct Hu as [Hi Hu]. apply unless_nil in Hu.
  repeat (apply orb_prop in Hu; destruct Hu as [Hu|Hu]); apply is_some_true in Hu; destruct Hu as [a Ha].
  - eapply number_defd. exact Ha.
  - eapply name_defd. exact Ha.
  - unfold rule_of in Ha. destruct (named _ k) eqn:E; [|discriminate Ha]. split; [exact (rule_defd ss k _ _ Ha Hi)|]. intros w ->. discriminate E.
Qed.

Lemma string_defd t d ss : string_of t = Some d -> defd ss t.
Proof.
  destruct t as [m|n ks]; [discriminate|]. cbn [string_of]. destruct (str_eqb _ _); [|discriminate]. cbn [andb]. destruct (forallb _ ks) eqn:F; [|discriminate].
  intros _. apply both_tree. apply Forall_forall. intros k Hk. rewrite forallb_forall in F. apply F in Hk. destruct k as [m|]; [|discriminate Hk].
  split; [apply defd_leaf|]. intros w He. injection He as ->. discriminate Hk.
Qed.

Lemma nodes_defd ss : forall ts o ns, all_of (node_of ss) ts = Some ns -> passed_nodes ss o ts = [] -> Forall (defd ss) ts.
Proof.
  induction ts as [|t ts IH]; intros o ns Ha Hp; [constructor|]. cbn [passed_nodes] in Hp. apply app_eq_nil in Hp. destruct Hp as [H1 H2].
  cbn in Ha. destruct (node_of ss t) eqn:E; [|discriminate Ha]. cbn [is_some] in H2. constructor; [exact (node_defd ss t o _ E H1)|].
  fold (all_of (node_of ss)) in Ha. destruct (all_of (node_of ss) ts) eqn:A; [|discriminate Ha]. exact (IH _ _ eq_refl H2).
Qed.

Lemma data_defd : forall ts ss o ns, data_meaning ss ts = Some ns -> passed_data ss o ts = [] -> Forall (defd (ss ++ strings_of ts)) ts.
Proof.
  induction ts as [|t ts IH]; intros ss o ns Hm Hp; [constructor|]. cbn [data_meaning passed_data strings_of] in *. destruct (string_of t) as [d|] eqn:E.
  - constructor; [exact (string_defd t d _ E)|]. change (ss ++ d :: strings_of ts) with (ss ++ [d] ++ strings_of ts). rewrite app_assoc.
    exact (IH _ _ _ Hm Hp).
  - rewrite app_nil_r. exact (nodes_defd ss (t :: ts) o ns Hm Hp).
Qed.

Theorem passes_undefined data ts ig s : Forall good ts -> map snd data = flat_map flat ts -> convert_returns data ig (Some s) ig ->
  forall n ks v, below (Tree n (ks ++ [Leaf (MString (s2l "ref") v)])) ts -> In v (map fst (strings_of ts)).
Proof.
  intros Hg Hd H n ks v Hb. assert (Hp := convert_passes data ts ig _ ig Hg Hd H).
  assert (Hp' : passed_data [] 0 ts = []). { apply (app_inv_head ig). rewrite app_nil_r. symmetry. exact Hp. }
  apply (convert_means data ts) in H; [|exact Hg|exact Hd]. destruct (data_meaning [] ts) as [ns|] eqn:M; [|discriminate H].
  assert (Ha := data_defd ts [] 0 ns M Hp'). apply below_one in Hb. destruct Hb as (t & Hin & Hb). rewrite Forall_forall in Ha.
  assert (Hv := Ha t Hin n ks v Hb). cbn [app] in Hv. unfold definition in Hv. destruct (find _ _) as [d|] eqn:F; [|destruct (Hv eq_refl)].
  apply find_some in F. destruct F as [F1 F2]. apply str_eqb_eq in F2. subst v. apply in_map. exact F1.
Qed.
