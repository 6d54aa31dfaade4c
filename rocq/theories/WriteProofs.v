(** Written rules are read back. *)
From Coq Require Import Ascii String List NArith Bool Arith Lia.
From Verif Require Import Base Ext Types DataSpec ParseModel ConvertModel ConvertSpec WriteSpec
  OptProofs ConvertSound ConvertTotal.
Import ListNotations.
Local Open Scope string_scope.
Local Open Scope list_scope.
Local Open Scope nat_scope.

(** Decide comparisons of names. *)
Ltac names :=
  repeat match goal with
  | |- context [str_eqb (s2l ?a) (s2l ?b)] =>
    let v := eval vm_compute in (str_eqb (s2l a) (s2l b)) in
    change (str_eqb (s2l a) (s2l b)) with v; cbv match
  end.

(** ** Written data is well nested *)

Lemma node_of_item name inner d : forest inner -> node_of name inner d -> item d.
Proof. intros Hf (r & r' & ->). apply item_node. apply forest_nested. exact Hf. Qed.

Lemma leaf_forest (t : tok) : leaf (snd t) -> forest [t].
Proof. intros H. apply forest_leaf; [exact H|apply forest_nil]. Qed.

Lemma written_item ss f it : written ss f it -> item it.
Proof.
  intros H. destruct H as [p v r d Hn|p v n r d Hd Hn|p b r|p v r|p x r]; try (apply item_leaf; exact I).
  - eapply node_of_item; [|exact Hn]. apply leaf_forest. exact I.
  - eapply node_of_item; [|exact Hn]. apply leaf_forest. exact I.
Qed.

Lemma items_forest items : Forall item items -> forest (concat items).
Proof.
  induction 1 as [|it items Hi H IH]; [apply forest_nil|]. cbn [concat].
  apply forest_app; [apply item_forest; exact Hi|exact IH].
Qed.

Lemma written_items ss fs items : Forall2 (written ss) fs items -> Forall item items.
Proof. induction 1; constructor; [eapply written_item; eassumption|assumption]. Qed.

Lemma fields_forest ss a b c d fs inner : fields ss a b c d fs inner -> forest inner.
Proof.
  intros (_ & items & -> & H). apply items_forest. eapply written_items. exact H.
Qed.

Scheme wbody_ind' := Minimality for wbody Sort Prop
  with wrule_ind' := Minimality for wrule Sort Prop
  with wargs_ind' := Minimality for wargs Sort Prop.
Combined Scheme write_ind from wbody_ind', wrule_ind', wargs_ind'.

Lemma wnested ss :
  (forall lo d r hi, wbody ss lo d r hi -> item d) /\
  (forall p lo d r hi, wrule ss p lo d r hi -> item d) /\
  (forall lo d rs hi, wargs ss lo d rs hi -> forest d).
Proof.
  apply write_ind; intros;
    try match goal with Hn : node_of _ _ ?d |- item ?d => eapply node_of_item; [|exact Hn] end;
    repeat match goal with
    | Hf : fields _ _ _ _ _ _ _ |- _ => apply fields_forest in Hf
    | Hi : item _ |- _ => apply item_forest in Hi
    end;
    repeat first [assumption|apply forest_app|apply leaf_forest; exact I|apply forest_nil
                 |apply forest_leaf; [exact I|]].
Qed.

Lemma wids ss :
  (forall lo d r hi, wbody ss lo d r hi -> own_id r = hi /\ (lo < hi)%N) /\
  (forall p lo d r hi, wrule ss p lo d r hi -> own_id r = hi /\ (lo < hi)%N) /\
  (forall lo d rs hi, wargs ss lo d rs hi -> (lo <= hi)%N).
Proof. apply write_ind; intros; cbn [own_id]; try split; try reflexivity; try lia; try tauto. Qed.

(** ** Reading one field *)

Lemma find_defined ss n v : defined ss n v -> find_string n ss = Some v.
Proof.
  intros (a & b & -> & Hn). induction a as [|[m t] a IH]; cbn [app find_string].
  - rewrite str_eqb_refl. reflexivity.
  - cbn [map fst In] in Hn. destruct (str_eqb m n) eqn:He.
    + apply str_eqb_eq in He. tauto.
    + apply IH. tauto.
Qed.

Lemma meta_string_here r n v rest o p :
  c_meta_string (Cv ((r, MString n v) :: rest) o) p = if str_eqb n p then Some (Rng o 1, v) else None.
Proof. reflexivity. Qed.

Lemma read_set_field ss f it : written ss f it -> forall fuel p rest o, length it <= fuel ->
  read_set fuel p (Cv (it ++ rest) o) ss =
  Done (match f with Text q v => if str_eqb q p then Some (Rng o (length it), v) else None | _ => None end).
Proof.
  intros H fuel p rest o Hl. unfold read_set.
  destruct H as [q v r d Hn|q v n r d Hd Hn|q b r|q v r|q x r]; try reflexivity.
  - destruct Hn as (a & b & ->). cbn [app]. unfold c_start_node. cbn [c_data c_off].
    destruct (str_eqb q p) eqn:He; [|reflexivity]. apply str_eqb_eq in He. subst q.
    rewrite update_one. cbn [obind]. cbn [length app] in Hl. destruct fuel as [|[|fuel]]; [lia..|].
    cbn [set_loop]. unfold c_end_node at 1. cbn [c_data]. rewrite !meta_string_here.
    names. rewrite update_one. cbn [obind]. rewrite end_here, update_one. cbn [obind].
    f_equal. f_equal. f_equal. unfold c_subtract. cbn [c_off length app]. f_equal. lia.
  - destruct Hn as (a & b & ->). cbn [app]. unfold c_start_node. cbn [c_data c_off].
    destruct (str_eqb q p) eqn:He; [|reflexivity]. apply str_eqb_eq in He. subst q.
    rewrite update_one. cbn [obind]. cbn [length app] in Hl. destruct fuel as [|[|fuel]]; [lia..|].
    cbn [set_loop]. unfold c_end_node at 1. cbn [c_data]. rewrite !meta_string_here.
    names. rewrite update_one. cbn [obind]. rewrite end_here, update_one. cbn [obind].
    rewrite (find_defined _ _ _ Hd).
    f_equal. f_equal. f_equal. unfold c_subtract. cbn [c_off length app]. f_equal. lia.
Qed.

Lemma meta_bool_field ss f it : written ss f it -> forall p rest o,
  c_meta_bool (Cv (it ++ rest) o) p =
  match f with Flag q b => if str_eqb q p then Some (Rng o (length it), b) else None | _ => None end.
Proof.
  intros H p rest o. destruct H as [q v r d Hn|q v n r d Hd Hn|q b r|q v r|q x r]; try reflexivity;
    destruct Hn as (a & b & ->); reflexivity.
Qed.

Lemma meta_string_field ss f it : written ss f it -> forall p rest o,
  c_meta_string (Cv (it ++ rest) o) p =
  match f with Name q b => if str_eqb q p then Some (Rng o (length it), b) else None | _ => None end.
Proof.
  intros H p rest o. destruct H as [q v r d Hn|q v n r d Hd Hn|q b r|q v r|q x r]; try reflexivity;
    destruct Hn as (a & b & ->); reflexivity.
Qed.

Lemma meta_f64_field ss f it : written ss f it -> forall p rest o,
  c_meta_f64 (Cv (it ++ rest) o) p =
  match f with Num q b => if str_eqb q p then Some (Rng o (length it), b) else None | _ => None end.
Proof.
  intros H p rest o. destruct H as [q v r d Hn|q v n r d Hd Hn|q b r|q v r|q x r]; try reflexivity;
    destruct Hn as (a & b & ->); reflexivity.
Qed.

(** The allowed names of a field become concrete. *)
Ltac pick Ha :=
  match type of Ha with allowed _ _ _ _ ?f => destruct f end; cbn [allowed In] in Ha;
  repeat match type of Ha with _ \/ _ => destruct Ha as [Ha|Ha] end;
  try contradiction; subst.

(** One step of a loop over fields: split off the field, and let it be read. *)
Ltac field_step Hw Ha IH :=
  pose proof (written_item _ _ _ Hw) as Hi; pose proof (item_length _ Hi);
  cbn [concat] in *; rewrite app_length in *; rewrite <- ?app_assoc;
  rewrite end_item by exact Hi;
  pick Ha;
  repeat (first [rewrite (read_set_field _ _ _ Hw) by lia
                |rewrite (meta_bool_field _ _ _ Hw)
                |rewrite (meta_string_field _ _ _ Hw)
                |rewrite (meta_f64_field _ _ _ Hw)]; names; cbn [obind]);
  rewrite ?update_first; cbn [obind];
  rewrite IH by lia; cbn [fold_left tell_text tell_flag tell_name tell_num]; names;
  rewrite Nat.add_assoc; reflexivity.

Lemma loop_end r' node rest o :
  Cv rest (o + 1) = Cv rest (o + length (concat (@nil (list tok))) + 1) /\
  c_end_node (Cv ((r', EndNode node) :: rest) o) node = Some (Rng o 1).
Proof. cbn [concat length]. rewrite Nat.add_0_r. split; [reflexivity|apply end_here]. Qed.

Ltac fields_done fuel :=
  intros fuel; intros; destruct fuel as [|fuel]; [cbn [concat length] in *; lia|].

Lemma tag_loop_fields ss r' rest fs items : Forall2 (written ss) fs items ->
  Forall (allowed [s2l "text"; s2l "property"] [s2l "not"; s2l "inverted"] [] []) fs ->
  forall fuel o t p n i ig, length (concat items) < fuel ->
  tag_loop fuel ss (Cv (concat items ++ (r', EndNode (s2l "tag")) :: rest) o) t p n i ig =
  Done (Cv rest (o + length (concat items) + 1), fold_left (tell_text (s2l "text")) fs t,
    fold_left (tell_text (s2l "property")) fs p, fold_left (tell_flag (s2l "not")) fs n,
    fold_left (tell_flag (s2l "inverted")) fs i, ig).
Proof.
  induction 1 as [|f it fs items Hw Hws IH]; intros Hall; fields_done fuel; cbn [tag_loop].
  - cbn [concat app length fold_left]. rewrite end_here, update_one, Nat.add_0_r. reflexivity.
  - inversion Hall as [|? ? Ha Hall']; subst. specialize (IH Hall').
    field_step Hw Ha IH.
Qed.

Lemma until_loop_fields ss node r' rest fs items : Forall2 (written ss) fs items ->
  Forall (allowed [s2l "any_characters"; s2l "property"] [s2l "optional"] [] []) fs ->
  forall fuel o a op p ig, length (concat items) < fuel ->
  until_loop fuel node ss (Cv (concat items ++ (r', EndNode node) :: rest) o) a op p ig =
  Done (Cv rest (o + length (concat items) + 1), fold_left (tell_text (s2l "any_characters")) fs a,
    fold_left (tell_flag (s2l "optional")) fs op, fold_left (tell_text (s2l "property")) fs p, ig).
Proof.
  induction 1 as [|f it fs items Hw Hws IH]; intros Hall; fields_done fuel; cbn [until_loop].
  - cbn [concat app length fold_left]. rewrite end_here, update_one, Nat.add_0_r. reflexivity.
  - inversion Hall as [|? ? Ha Hall']; subst. specialize (IH Hall').
    field_step Hw Ha IH.
Qed.

Lemma text_loop_fields ss r' rest fs items : Forall2 (written ss) fs items ->
  Forall (allowed [s2l "property"] [s2l "allow_empty"] [] []) fs ->
  forall fuel o b p ig, length (concat items) < fuel ->
  flag_loop fuel (s2l "text") (s2l "allow_empty") ss (Cv (concat items ++ (r', EndNode (s2l "text")) :: rest) o) b p ig =
  Done (Cv rest (o + length (concat items) + 1), fold_left (tell_flag (s2l "allow_empty")) fs b,
    fold_left (tell_text (s2l "property")) fs p, ig).
Proof.
  induction 1 as [|f it fs items Hw Hws IH]; intros Hall; fields_done fuel; cbn [flag_loop].
  - cbn [concat app length fold_left]. rewrite end_here, update_one, Nat.add_0_r. reflexivity.
  - inversion Hall as [|? ? Ha Hall']; subst. specialize (IH Hall').
    field_step Hw Ha IH.
Qed.

Lemma number_loop_fields ss r' rest fs items : Forall2 (written ss) fs items ->
  Forall (allowed [s2l "property"] [s2l "underscore"] [] []) fs ->
  forall fuel o b p ig, length (concat items) < fuel ->
  flag_loop fuel (s2l "number") (s2l "underscore") ss (Cv (concat items ++ (r', EndNode (s2l "number")) :: rest) o) b p ig =
  Done (Cv rest (o + length (concat items) + 1), fold_left (tell_flag (s2l "underscore")) fs b,
    fold_left (tell_text (s2l "property")) fs p, ig).
Proof.
  induction 1 as [|f it fs items Hw Hws IH]; intros Hall; fields_done fuel; cbn [flag_loop].
  - cbn [concat app length fold_left]. rewrite end_here, update_one, Nat.add_0_r. reflexivity.
  - inversion Hall as [|? ? Ha Hall']; subst. specialize (IH Hall').
    field_step Hw Ha IH.
Qed.

Lemma reference_loop_fields ss r' rest fs items : Forall2 (written ss) fs items ->
  Forall (allowed [s2l "property"] [] [s2l "name"] []) fs ->
  forall fuel o n p ig, length (concat items) < fuel ->
  reference_loop fuel ss (Cv (concat items ++ (r', EndNode (s2l "reference")) :: rest) o) n p ig =
  Done (Cv rest (o + length (concat items) + 1), fold_left (tell_name (s2l "name")) fs n,
    fold_left (tell_text (s2l "property")) fs p, ig).
Proof.
  induction 1 as [|f it fs items Hw Hws IH]; intros Hall; fields_done fuel; cbn [reference_loop].
  - cbn [concat app length fold_left]. rewrite end_here, update_one, Nat.add_0_r. reflexivity.
  - inversion Hall as [|? ? Ha Hall']; subst. specialize (IH Hall').
    field_step Hw Ha IH.
Qed.
