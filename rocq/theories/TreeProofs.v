(** Conversion is what the trees of the data mean: loops and readers. *)
From Coq Require Import Ascii String List NArith Bool Arith Lia.
From Verif Require Import Base Ext Types DataSpec ParseModel ConvertModel ConvertSpec OptProofs ConvertSound ConvertTotal
  SyntaxProofs TreeSpec.
Import ListNotations.
Local Open Scope string_scope.
Local Open Scope list_scope.
Local Open Scope nat_scope.

(** ** Trees and tokens *)

Definition holds (t : tree) (toks : list tok) : Prop := map snd toks = flat t.
Definition holds_all (ts : list tree) (toks : list tok) : Prop := map snd toks = flat_map flat ts.

Lemma good_tree n ks : good (Tree n ks) <-> Forall good ks.
Proof.
  cbn [good]. induction ks as [|k ks IH]; [split; auto|]. rewrite IH. split; [intros [H1 H2]; auto|intros H; inversion H; auto].
Qed.

Lemma tree_ind' (P : tree -> Prop) : (forall m, P (Leaf m)) -> (forall n ks, Forall P ks -> P (Tree n ks)) -> forall t, P t.
Proof.
  intros H1 H2. fix IH 1. intros [m|n ks]; [apply H1|]. apply H2. induction ks as [|k ks IHk]; constructor; [apply IH|exact IHk].
Qed.

Lemma flat_nested t : good t -> forall rest, nested rest -> nested (flat t ++ rest).
Proof.
  induction t as [m|n ks IH] using tree_ind'; intros Hg rest Hr.
  - cbn. apply nested_leaf; assumption.
  - apply good_tree in Hg. cbn [flat app]. rewrite <- app_assoc. apply nested_node; [|exact Hr].
    clear Hr rest. induction ks as [|k ks IHk]; [constructor|]. inversion IH; subst. inversion Hg; subst. cbn [flat_map]. auto.
Qed.

Lemma flat_all_nested ts : Forall good ts -> nested (flat_map flat ts).
Proof. induction 1; [constructor|]. cbn [flat_map]. apply flat_nested; assumption. Qed.

(** Every well nested data is the data of trees. *)
Lemma nested_trees ms : nested ms -> exists ts, Forall good ts /\ flat_map flat ts = ms.
Proof.
  induction 1 as [|m rest Hl Hr (ts & Hg & IH)|name inner rest Hi (ks & Hk & IHi) Hr (ts & Hg & IH)].
  - exists []. auto.
  - exists (Leaf m :: ts). split; [auto|]. cbn. rewrite IH. reflexivity.
  - exists (Tree name ks :: ts). split; [constructor; [apply good_tree; exact Hk|exact Hg]|].
    cbn. rewrite <- app_assoc, IHi, IH. reflexivity.
Qed.

Lemma holds_cons t ts toks : holds_all (t :: ts) toks -> exists first rest, toks = first ++ rest /\ holds t first /\ holds_all ts rest.
Proof. intros H. unfold holds_all in H. cbn in H. apply map_eq_app in H. destruct H as (a & b & -> & Ha & Hb). exists a, b. auto. Qed.

Lemma holds_tree n ks first : holds (Tree n ks) first -> exists r r' (inner : list tok), first = (r, StartNode n) :: inner ++ [(r', EndNode n)] /\ holds_all ks inner.
Proof.
  intros H. unfold holds in H. cbn in H. destruct first as [|[r m] first]; [discriminate|]. injection H as -> H.
  apply map_eq_app in H. destruct H as (a & b & -> & Ha & Hb). destruct b as [|[r' m'] [|]]; try discriminate. injection Hb as ->.
  exists r, r', a. auto.
Qed.

Lemma holds_leaf m first : holds (Leaf m) first -> exists r, first = [(r, m)].
Proof. intros H. destruct first as [|[r m'] [|]]; try discriminate. injection H as ->. eauto. Qed.

Lemma holds_item t first : good t -> holds t first -> item first.
Proof.
  destruct t as [m|n ks]; intros Hg H.
  - apply holds_leaf in H. destruct H as (r & ->). apply item_leaf. exact Hg.
  - apply holds_tree in H. destruct H as (r & r' & inner & -> & Hi). apply item_node. rewrite Hi. apply flat_all_nested, good_tree with (n := n), Hg.
Qed.

(** ** What the cursor sees *)

Definition at_ {A} (o n : nat) (x : option A) : option (range * A) := option_map (fun v => (Rng o n, v)) x.

Lemma bool_at t first rest o name : good t -> holds t first ->
  c_meta_bool (Cv (first ++ rest) o) name = at_ o (length first) (flag_of name t).
Proof.
  destruct t as [m|n ks]; intros Hg H.
  - apply holds_leaf in H. destruct H as (r & ->). unfold c_meta_bool. cbn. destruct m; try reflexivity. destruct (str_eqb name0 name); reflexivity.
  - apply holds_tree in H. destruct H as (r & r' & inner & -> & Hi). reflexivity.
Qed.

Lemma str_at t first rest o name : good t -> holds t first ->
  c_meta_string (Cv (first ++ rest) o) name = at_ o (length first) (string_at name t).
Proof.
  destruct t as [m|n ks]; intros Hg H.
  - apply holds_leaf in H. destruct H as (r & ->). unfold c_meta_string. cbn. destruct m; try reflexivity. destruct (str_eqb name0 name); reflexivity.
  - apply holds_tree in H. destruct H as (r & r' & inner & -> & Hi). reflexivity.
Qed.

Lemma f64_at t first rest o name : good t -> holds t first ->
  c_meta_f64 (Cv (first ++ rest) o) name = at_ o (length first) (number_at name t).
Proof.
  destruct t as [m|n ks]; intros Hg H.
  - apply holds_leaf in H. destruct H as (r & ->). unfold c_meta_f64. cbn. destruct m; try reflexivity. destruct (str_eqb name0 name); reflexivity.
  - apply holds_tree in H. destruct H as (r & r' & inner & -> & Hi). reflexivity.
Qed.

Lemma start_at t first rest o name : good t -> holds t first ->
  c_start_node (Cv (first ++ rest) o) name = if named name t then Some (Rng o 1) else None.
Proof.
  destruct t as [m|n ks]; intros Hg H.
  - apply holds_leaf in H. destruct H as (r & ->). unfold c_start_node. cbn. destruct m; try reflexivity. destruct Hg.
  - apply holds_tree in H. destruct H as (r & r' & inner & -> & Hi). reflexivity.
Qed.

Lemma end_at t first rest o name : good t -> holds t first -> c_end_node (Cv (first ++ rest) o) name = None.
Proof. intros Hg H. apply end_item. eapply holds_item; eassumption. Qed.

Lemma skip_at t first rest o ig : good t -> holds t first ->
  skip_item (Cv (first ++ rest) o) ig = Done (Cv rest (o + length first), ig ++ [Rng o (length first)]).
Proof. intros Hg H. apply skip_first. eapply holds_item; eassumption. Qed.

Lemma find_definition ss v : find_string v ss = definition ss v.
Proof. induction ss as [|[n t] ss IH]; [reflexivity|]. cbn. unfold definition in *. cbn. destruct (str_eqb n v); [reflexivity|exact IH]. Qed.

(** ** The last answer *)

Definition orelse {A} (x acc : option A) : option A := match x with Some _ => x | None => acc end.

Lemma orelse_last {A} (f : tree -> option A) t ts acc : orelse (last_of f (t :: ts)) acc = orelse (last_of f ts) (orelse (f t) acc).
Proof. cbn. destruct (last_of f ts); [reflexivity|]. destruct (f t); reflexivity. Qed.

Lemma otherwise_last {A} (f : tree -> option A) t ts acc : otherwise acc (last_of f (t :: ts)) = otherwise (otherwise acc (f t)) (last_of f ts).
Proof. cbn. destruct (last_of f ts); [reflexivity|]. destruct (f t); reflexivity. Qed.

Lemma orelse_none {A} (x : option A) : orelse x None = x.
Proof. destruct x; reflexivity. Qed.

(** An item is of one kind only. *)
Ltac excl F t :=
  destruct t as [[]|];
  cbn [flag_of string_at number_at text_of rule_of named] in F |- *; try discriminate F; try reflexivity;
  repeat match goal with |- context [str_eqb ?n ?s] => let X := fresh in destruct (str_eqb n s) eqn:X;
    [apply str_eqb_eq in X; subst; cbn in F; discriminate F|cbn [andb]] end; reflexivity.

(** First and rest of the data of a list of trees. *)
Ltac split_first Hh part inner Hf :=
  apply holds_cons in Hh; destruct Hh as (part & inner & -> & Hf & Hh); rewrite <- ?app_assoc in *.

Ltac len := rewrite ?app_length; cbn [length]; lia.

Lemma Done_inj {A} (a b : A) : Done a = Done b -> a = b.
Proof. congruence. Qed.

(** ** Strings and texts *)

Lemma string_loop_means : forall fuel ts inner r' rest o n t res, Forall good ts -> holds_all ts inner ->
  string_loop fuel (Cv (inner ++ (r', EndNode (s2l "string")) :: rest) o) n t = Done res ->
  res = if forallb (fun k => is_some (string_at (s2l "name") k) || is_some (string_at (s2l "text") k)) ts
        then Some (Cv rest (o + length inner + 1), orelse (last_of (string_at (s2l "name")) ts) n, orelse (last_of (string_at (s2l "text")) ts) t)
        else None.
Proof.
  induction fuel as [|fuel IH]; intros ts inner r' rest o n t res Hg Hh H; [discriminate|].
  cbn [string_loop] in H. destruct ts as [|x ts].
  - destruct inner; [|discriminate Hh]. cbn [app] in H.
    rewrite !meta_string_end in H by apply not_leaf_end. rewrite end_here, update_one in H. cbn [obind] in H. injection H as <-.
    cbn [forallb last_of orelse length]. rewrite Nat.add_0_r. reflexivity.
  - inversion Hg; subst. split_first Hh part inner' Hf.
    rewrite !(str_at x) in H by assumption. rewrite !orelse_last. cbn [forallb]. destruct (string_at (s2l "name") x) as [v|] eqn:F.
    + cbn [at_ option_map] in H. rewrite update_first in H. cbn [obind] in H. apply (IH ts) in H; [|assumption|assumption]. subst res.
      assert (G : string_at (s2l "text") x = None) by excl F x. rewrite G. cbn [is_some orb andb orelse].
      replace (o + length part + length inner' + 1) with (o + length (part ++ inner') + 1) by len. reflexivity.
    + cbn [at_ option_map] in H. destruct (string_at (s2l "text") x) as [v|] eqn:G.
      * cbn [at_ option_map] in H. rewrite update_first in H. cbn [obind] in H. apply (IH ts) in H; [|assumption|assumption]. subst res.
        cbn [is_some orb andb orelse]. replace (o + length part + length inner' + 1) with (o + length (part ++ inner') + 1) by len. reflexivity.
      * cbn [at_ option_map] in H. rewrite (end_at x) in H by assumption. injection H as <-. reflexivity.
Qed.

Lemma read_string_means fuel t first rest o res : good t -> holds t first ->
  read_string fuel (Cv (first ++ rest) o) = Done res -> res = at_ o (length first) (string_of t).
Proof.
  intros Hg Hh H. unfold read_string in H. rewrite (start_at t) in H by assumption. destruct t as [m|n ks]; [injection H as <-; reflexivity|].
  cbn [named string_of] in *. destruct (str_eqb n (s2l "string")) eqn:En; [|injection H as <-; reflexivity].
  apply str_eqb_eq in En. subst n. apply holds_tree in Hh. destruct Hh as (r & r' & inner & -> & Hi).
  rewrite node_unfold, update_one in H. cbn [obind andb] in *.
  destruct (string_loop _ _ _ _) as [res'| |] eqn:Hl; try discriminate. cbn [obind] in H.
  apply (string_loop_means fuel ks) in Hl; [|apply good_tree with (n := s2l "string"); exact Hg|exact Hi]. subst res'.
  destruct (forallb _ ks); [|injection H as <-; reflexivity]. rewrite !orelse_none in H.
  destruct (last_of (string_at (s2l "name")) ks); [|injection H as <-; reflexivity].
  destruct (last_of (string_at (s2l "text")) ks); [|injection H as <-; reflexivity].
  replace (o + 1 + length inner + 1) with (o + (1 + length inner + 1)) in H by lia. rewrite sub_cursor in H.
  apply Done_inj in H. subst res. unfold at_, option_map. rewrite node_length. reflexivity.
Qed.

Definition text_item (ss : list (str * str)) (k : tree) : option (option str) :=
  match string_at (s2l "ref") k with
  | Some v => Some (definition ss v)
  | None => option_map Some (string_at (s2l "value") k)
  end.

Lemma set_loop_means p ss : forall fuel ts inner r' rest o acc res, Forall good ts -> holds_all ts inner ->
  set_loop fuel p ss (Cv (inner ++ (r', EndNode p) :: rest) o) acc = Done res ->
  res = if forallb (fun k => is_some (string_at (s2l "ref") k) || is_some (string_at (s2l "value") k)) ts
        then Some (Cv rest (o + length inner + 1), otherwise acc (last_of (text_item ss) ts)) else None.
Proof.
  induction fuel as [|fuel IH]; intros ts inner r' rest o acc res Hg Hh H; [discriminate|].
  cbn [set_loop] in H. destruct ts as [|x ts].
  - destruct inner; [|discriminate Hh]. cbn [app] in H. rewrite end_here, update_one in H. cbn [obind] in H. injection H as <-.
    cbn [forallb last_of otherwise length]. rewrite Nat.add_0_r. reflexivity.
  - inversion Hg; subst. split_first Hh part inner' Hf. rewrite (end_at x) in H by assumption.
    rewrite !(str_at x) in H by assumption. rewrite otherwise_last. cbn [forallb]. destruct (string_at (s2l "ref") x) as [v|] eqn:F.
    + cbn [at_ option_map] in H. rewrite update_first in H. cbn [obind] in H. apply (IH ts) in H; [|assumption|assumption]. subst res.
      replace (text_item ss x) with (Some (definition ss v)) by (unfold text_item; rewrite F; reflexivity).
      cbn [is_some orb andb otherwise]. rewrite find_definition.
      replace (o + length part + length inner' + 1) with (o + length (part ++ inner') + 1) by len. reflexivity.
    + cbn [at_ option_map] in H. destruct (string_at (s2l "value") x) as [v|] eqn:G.
      * cbn [at_ option_map] in H. rewrite update_first in H. cbn [obind] in H. apply (IH ts) in H; [|assumption|assumption]. subst res.
        replace (text_item ss x) with (Some (Some v)) by (unfold text_item; rewrite F, G; reflexivity).
        cbn [is_some orb andb otherwise].
        replace (o + length part + length inner' + 1) with (o + length (part ++ inner') + 1) by len. reflexivity.
      * cbn [at_ option_map] in H. injection H as <-. reflexivity.
Qed.

Lemma read_set_means fuel p ss t first rest o res : good t -> holds t first ->
  read_set fuel p (Cv (first ++ rest) o) ss = Done res -> res = at_ o (length first) (text_of ss p t).
Proof.
  intros Hg Hh H. unfold read_set in H. rewrite (start_at t) in H by assumption. destruct t as [m|n ks]; [injection H as <-; reflexivity|].
  cbn [named text_of] in *. destruct (str_eqb n p) eqn:En; [|injection H as <-; reflexivity].
  apply str_eqb_eq in En. subst n. apply holds_tree in Hh. destruct Hh as (r & r' & inner & -> & Hi).
  rewrite node_unfold, update_one in H. cbn [obind andb] in *.
  destruct (set_loop _ _ _ _ _) as [res'| |] eqn:Hl; try discriminate. cbn [obind] in H.
  apply (set_loop_means p ss fuel ks) in Hl; [|apply good_tree with (n := p); exact Hg|exact Hi]. subst res'.
  destruct (forallb _ ks); [|injection H as <-; reflexivity]. change (last_of _ ks) with (last_of (text_item ss) ks).
  destruct (last_of (text_item ss) ks) as [[x|]|]; cbn [otherwise] in H; apply Done_inj in H; subst res; try reflexivity.
  replace (o + 1 + length inner + 1) with (o + (1 + length inner + 1)) by lia. rewrite sub_cursor. unfold at_, option_map. rewrite node_length. reflexivity.
Qed.
