(** Rules are read from data in which some names of strings are not defined: what these
    names stand for is marked by one text, and the parts with this text are lost. *)
From Coq Require Import Ascii String List NArith Bool Arith Lia.
From Verif Require Import Base Ext Types DataSpec IdSpec ParseModel ConvertModel ConvertSpec WriteSpec OnceProofs
  OptSpec OptProofs ConvertSound ConvertTotal ConvertNodes WriteProofs WriteProofs2 WriteProofs3.
Import ListNotations.
Local Open Scope string_scope.
Local Open Scope list_scope.
Local Open Scope nat_scope.

Section Lost.
  (** The text that marks. *)
  Variable u : str.

  Definition prune_text (o : option str) : option str :=
    match o with Some v => if str_eqb v u then None else Some v | None => None end.

  Fixpoint prune (r : rule) : option rule :=
    match r with
    | RWhitespace o id => Some (RWhitespace o id)
    | RTag t n v p id => if str_eqb t u then None else Some (RTag t n v (prune_text p) id)
    | RUntilAny a o p id => if str_eqb a u then None else Some (RUntilAny a o (prune_text p) id)
    | RUntilAnyOrWs a o p id => if str_eqb a u then None else Some (RUntilAnyOrWs a o (prune_text p) id)
    | RText e p id => Some (RText e (prune_text p) id)
    | RNumber b p id => Some (RNumber b (prune_text p) id)
    | RSelect args id => Some (RSelect (flat_map (fun a => match prune a with Some a' => [a'] | None => [] end) args) id)
    | RFastSelect t args l id => None
    | RSequence args id => Some (RSequence (flat_map (fun a => match prune a with Some a' => [a'] | None => [] end) args) id)
    | RSeparateBy a b o t id =>
      match prune a, prune b with Some a', Some b' => Some (RSeparateBy a' b' o t id) | _, _ => None end
    | RRepeat a o id => match prune a with Some a' => Some (RRepeat a' o id) | None => None end
    | RLines a i id => match prune a with Some a' => Some (RLines a' i id) | None => None end
    | RNode n p k id => Some (RNode n (prune_text p) k id)
    | ROptional a id => match prune a with Some a' => Some (ROptional a' id) | None => None end
    | RNot a id => match prune a with Some a' => Some (RNot a' id) | None => None end
    end.

  Definition prunes (args : list rule) : list rule :=
    flat_map (fun a => match prune a with Some a' => [a'] | None => [] end) args.

  Definition olike (a b : option rule) : Prop :=
    match a, b with Some x, Some y => like_rule any_ids x y | None, None => True | _, _ => False end.

  (** ** Fields that are kept *)

  Definition keeps (f : field) : bool := match f with Text _ v => negb (str_eqb v u) | _ => true end.

  Lemma keep_flag p fs : forall acc, fold_left (tell_flag p) (filter keeps fs) acc = fold_left (tell_flag p) fs acc.
  Proof.
    induction fs as [|f fs IH]; intros acc; [reflexivity|]. cbn [filter].
    destruct f as [q v|q b|q v|q x]; cbn [keeps fold_left tell_flag]; try apply IH.
    destruct (str_eqb v u); cbn [negb fold_left tell_flag]; apply IH.
  Qed.

  Lemma keep_name p fs : forall acc, fold_left (tell_name p) (filter keeps fs) acc = fold_left (tell_name p) fs acc.
  Proof.
    induction fs as [|f fs IH]; intros acc; [reflexivity|]. cbn [filter].
    destruct f as [q v|q b|q v|q x]; cbn [keeps fold_left tell_name]; try apply IH.
    destruct (str_eqb v u); cbn [negb fold_left tell_name]; apply IH.
  Qed.

  Lemma keep_text_acc p fs : once fs -> forall acc, acc = None \/ ~ In p (text_names fs) ->
    fold_left (tell_text p) (filter keeps fs) (prune_text acc) = prune_text (fold_left (tell_text p) fs acc).
  Proof.
    unfold once. induction fs as [|f fs IH]; intros Ho acc Hacc; [reflexivity|]. cbn [filter].
    destruct f as [q v|q b|q v|q x]; cbn [keeps fold_left tell_text text_names flat_map app] in *; try (apply IH; assumption).
    fold (text_names fs) in *. inversion Ho as [|? ? Hq Ho']; subst.
    destruct (str_eqb q p) eqn:He.
    - apply str_eqb_eq in He. subst q. rewrite <- IH by auto. destruct Hacc as [->|Hacc]; [|exfalso; apply Hacc; left; reflexivity].
      destruct (str_eqb v u) eqn:Hv; cbn [negb fold_left tell_text prune_text]; rewrite ?str_eqb_refl, Hv; reflexivity.
    - assert (Hacc' : acc = None \/ ~ In p (text_names fs)).
      { destruct Hacc as [H|H]; [left; exact H|right; intros Hi; apply H; right; exact Hi]. }
      destruct (str_eqb v u) eqn:Hv; cbn [negb fold_left tell_text]; rewrite ?He; apply IH; assumption.
  Qed.

  Lemma keep_text p fs : once fs -> fold_left (tell_text p) (filter keeps fs) None = prune_text (last_text p fs).
  Proof. intros H. apply (keep_text_acc p fs H None). left. reflexivity. Qed.

  (** ** Reading one field *)

  Variable ss ss' : list (str * str).
  Hypothesis Hdef : forall n v, defined ss' n v -> find_string n ss = if str_eqb v u then None else Some v.

  Definition clean (d : list tok) : Prop := Forall (fun t : tok => snd t <> MString (s2l "value") u) d.

  Lemma clean_app a b : clean (a ++ b) -> clean a /\ clean b.
  Proof. apply Forall_app. Qed.

  Lemma clean_node name inner d : node_of name inner d -> clean d -> clean inner.
  Proof.
    intros (r & r' & ->) H. inversion H as [|? ? _ H']; subst. apply clean_app in H'. exact (proj1 H').
  Qed.

  Lemma read_set_lost f it : written ss' f it -> clean it -> forall fuel p rest o, length it <= fuel ->
    read_set fuel p (Cv (it ++ rest) o) ss =
    Done (match f with
          | Text q v => if str_eqb q p then if str_eqb v u then None else Some (Rng o (length it), v) else None
          | _ => None
          end).
  Proof.
    intros H Hc fuel p rest o Hl. unfold read_set.
    destruct H as [q v r d Hn|q v n r d Hd Hn|q b r|q v r|q x r]; try reflexivity.
    - apply (clean_node _ _ _ Hn) in Hc as Hc'. inversion Hc' as [|? ? Hv _]; subst. cbn [snd] in Hv.
      replace (str_eqb v u) with false.
      2:{ symmetry. destruct (str_eqb v u) eqn:He; [|reflexivity]. apply str_eqb_eq in He. subst. contradiction. }
      destruct Hn as (a & b & ->). cbn [app]. unfold c_start_node. cbn [c_data c_off].
      destruct (str_eqb q p) eqn:He; [|reflexivity]. apply str_eqb_eq in He. subst q.
      rewrite update_one. cbn [obind]. cbn [length app] in Hl. destruct fuel as [|[|fuel]]; [lia..|].
      cbn [set_loop]. unfold c_end_node at 1. cbn [c_data]. rewrite !meta_string_here.
      names. rewrite update_one. cbn [obind]. rewrite end_here, update_one. cbn [obind].
      f_equal. f_equal. f_equal. unfold c_subtract. cbn [c_off length app]. f_equal. lia.
    - destruct Hn as (a & b & ->). cbn [app]. unfold c_start_node. cbn [c_data c_off].
      destruct (str_eqb q p) eqn:He; [|reflexivity]. apply str_eqb_eq in He. subst q.
      rewrite update_one. cbn [obind]. cbn [length app] in Hl. destruct fuel as [|[|fuel]]; [lia..|].
      cbn [set_loop]. unfold c_end_node at 1. cbn [c_data]. rewrite !meta_string_here.
      names. rewrite update_one. cbn [obind]. rewrite end_here, update_one. cbn [obind].
      rewrite (Hdef _ _ Hd). destruct (str_eqb v u); [reflexivity|].
      f_equal. f_equal. f_equal. unfold c_subtract. cbn [c_off length app]. f_equal. lia.
  Qed.

  (** One step of a loop over fields: the field is read, or it is lost and skipped. *)
  Ltac lost_step Hw Hc Ha IH :=
    pose proof (written_item _ _ _ Hw) as Hi; pose proof (item_length _ Hi);
    cbn [concat] in *; rewrite app_length in *; rewrite <- ?app_assoc;
    rewrite end_item by exact Hi;
    pick Ha; cbn [filter keeps];
    repeat (first [rewrite (read_set_lost _ _ Hw Hc) by lia
                  |rewrite (meta_bool_field _ _ _ Hw)
                  |rewrite (meta_string_field _ _ _ Hw)
                  |rewrite (meta_f64_field _ _ _ Hw)]; names; cbn [obind]);
    try match goal with |- context [str_eqb ?v u] => destruct (str_eqb v u) eqn:?; cbn [negb] end;
    repeat (first [rewrite (read_set_lost _ _ Hw Hc) by lia
                  |rewrite (meta_bool_field _ _ _ Hw)
                  |rewrite (meta_string_field _ _ _ Hw)
                  |rewrite (meta_f64_field _ _ _ Hw)]; names; repeat match goal with H : str_eqb _ u = _ |- _ => progress rewrite H end; cbn [obind]);
    rewrite ?(skip_first _ _ _ _ Hi), ?update_first; cbn [obind];
    cbn [fold_left tell_text tell_flag tell_name tell_num]; names;
    rewrite Nat.add_assoc; apply IH; try assumption; lia.

  Lemma tag_loop_lost r' rest fs items : Forall2 (written ss') fs items -> clean (concat items) ->
    Forall (allowed [s2l "text"; s2l "property"] [s2l "not"; s2l "inverted"] [] []) fs ->
    forall fuel o t p n i ig, length (concat items) < fuel -> exists ig',
    tag_loop fuel ss (Cv (concat items ++ (r', EndNode (s2l "tag")) :: rest) o) t p n i ig =
    Done (Cv rest (o + length (concat items) + 1), fold_left (tell_text (s2l "text")) (filter keeps fs) t,
      fold_left (tell_text (s2l "property")) (filter keeps fs) p, fold_left (tell_flag (s2l "not")) (filter keeps fs) n,
      fold_left (tell_flag (s2l "inverted")) (filter keeps fs) i, ig').
  Proof.
    induction 1 as [|f it fs items Hw Hws IH]; intros Hcl Hall; fields_done fuel; cbn [tag_loop].
    - exists ig. cbn [concat app length fold_left filter]. rewrite end_here, update_one, Nat.add_0_r. reflexivity.
    - inversion Hall as [|? ? Ha Hall']; subst. cbn [concat] in Hcl. apply clean_app in Hcl. destruct Hcl as [Hc Hcs].
      lost_step Hw Hc Ha IH.
  Qed.

  Lemma until_loop_lost node r' rest fs items : Forall2 (written ss') fs items -> clean (concat items) ->
    Forall (allowed [s2l "any_characters"; s2l "property"] [s2l "optional"] [] []) fs ->
    forall fuel o a op p ig, length (concat items) < fuel -> exists ig',
    until_loop fuel node ss (Cv (concat items ++ (r', EndNode node) :: rest) o) a op p ig =
    Done (Cv rest (o + length (concat items) + 1), fold_left (tell_text (s2l "any_characters")) (filter keeps fs) a,
      fold_left (tell_flag (s2l "optional")) (filter keeps fs) op, fold_left (tell_text (s2l "property")) (filter keeps fs) p, ig').
  Proof.
    induction 1 as [|f it fs items Hw Hws IH]; intros Hcl Hall; fields_done fuel; cbn [until_loop].
    - exists ig. cbn [concat app length fold_left filter]. rewrite end_here, update_one, Nat.add_0_r. reflexivity.
    - inversion Hall as [|? ? Ha Hall']; subst. cbn [concat] in Hcl. apply clean_app in Hcl. destruct Hcl as [Hc Hcs].
      lost_step Hw Hc Ha IH.
  Qed.

  Lemma text_loop_lost r' rest fs items : Forall2 (written ss') fs items -> clean (concat items) ->
    Forall (allowed [s2l "property"] [s2l "allow_empty"] [] []) fs ->
    forall fuel o b p ig, length (concat items) < fuel -> exists ig',
    flag_loop fuel (s2l "text") (s2l "allow_empty") ss (Cv (concat items ++ (r', EndNode (s2l "text")) :: rest) o) b p ig =
    Done (Cv rest (o + length (concat items) + 1), fold_left (tell_flag (s2l "allow_empty")) (filter keeps fs) b,
      fold_left (tell_text (s2l "property")) (filter keeps fs) p, ig').
  Proof.
    induction 1 as [|f it fs items Hw Hws IH]; intros Hcl Hall; fields_done fuel; cbn [flag_loop].
    - exists ig. cbn [concat app length fold_left filter]. rewrite end_here, update_one, Nat.add_0_r. reflexivity.
    - inversion Hall as [|? ? Ha Hall']; subst. cbn [concat] in Hcl. apply clean_app in Hcl. destruct Hcl as [Hc Hcs].
      lost_step Hw Hc Ha IH.
  Qed.

  Lemma number_loop_lost r' rest fs items : Forall2 (written ss') fs items -> clean (concat items) ->
    Forall (allowed [s2l "property"] [s2l "underscore"] [] []) fs ->
    forall fuel o b p ig, length (concat items) < fuel -> exists ig',
    flag_loop fuel (s2l "number") (s2l "underscore") ss (Cv (concat items ++ (r', EndNode (s2l "number")) :: rest) o) b p ig =
    Done (Cv rest (o + length (concat items) + 1), fold_left (tell_flag (s2l "underscore")) (filter keeps fs) b,
      fold_left (tell_text (s2l "property")) (filter keeps fs) p, ig').
  Proof.
    induction 1 as [|f it fs items Hw Hws IH]; intros Hcl Hall; fields_done fuel; cbn [flag_loop].
    - exists ig. cbn [concat app length fold_left filter]. rewrite end_here, update_one, Nat.add_0_r. reflexivity.
    - inversion Hall as [|? ? Ha Hall']; subst. cbn [concat] in Hcl. apply clean_app in Hcl. destruct Hcl as [Hc Hcs].
      lost_step Hw Hc Ha IH.
  Qed.

  Lemma reference_loop_lost r' rest fs items : Forall2 (written ss') fs items -> clean (concat items) ->
    Forall (allowed [s2l "property"] [] [s2l "name"] []) fs ->
    forall fuel o n p ig, length (concat items) < fuel -> exists ig',
    reference_loop fuel ss (Cv (concat items ++ (r', EndNode (s2l "reference")) :: rest) o) n p ig =
    Done (Cv rest (o + length (concat items) + 1), fold_left (tell_name (s2l "name")) (filter keeps fs) n,
      fold_left (tell_text (s2l "property")) (filter keeps fs) p, ig').
  Proof.
    induction 1 as [|f it fs items Hw Hws IH]; intros Hcl Hall; fields_done fuel; cbn [reference_loop].
    - exists ig. cbn [concat app length fold_left filter]. rewrite end_here, update_one, Nat.add_0_r. reflexivity.
    - inversion Hall as [|? ? Ha Hall']; subst. cbn [concat] in Hcl. apply clean_app in Hcl. destruct Hcl as [Hc Hcs].
      lost_step Hw Hc Ha IH.
  Qed.

  (** ** Rules without sub rules *)

  (** From the data [rd] reads what is left of the rule, and gives out at most [n] ids. *)
  Definition reads_lost (rd : reader) (d : list tok) (r : rule) (n : N) : Prop :=
    forall rest o lo ig, (lo + n <= usize_max)%N -> exists res hi ig',
      rd (Cv (d ++ rest) o) (lo, ig) = Done (option_map (fun r1 => (Rng o (length d), r1)) res, (hi, ig')) /\
      olike (prune r) res /\ (lo <= hi <= lo + n)%N.

  Ltac close_lost q inner q' node o :=
    cbn [obind fst snd]; rewrite (fold_end q inner q' node o); rewrite <- (node_unfold q node);
    rewrite finish_back by assumption; rewrite node_length.

  Lemma read_tag_lost fuel d fs inner text id : once fs -> clean d ->
    fields ss' [s2l "text"; s2l "property"] [s2l "not"; s2l "inverted"] [] [] fs inner ->
    last_text (s2l "text") fs = Some text -> node_of (s2l "tag") inner d -> length d <= fuel ->
    reads_lost (read_tag fuel ss) d (RTag text (value_or false (last_flag (s2l "not") fs))
                      (value_or false (last_flag (s2l "inverted") fs)) (last_text (s2l "property") fs) id) 1.
  Proof.
    intros Ho Hc (Ha & items & -> & Hw) Ht Hn Hl rest o lo ig Hu. apply (clean_node _ _ _ Hn) in Hc. unfold read_tag. open_node Hn. cbn [fst snd].
    destruct (tag_loop_lost q' rest fs items Hw Hc Ha fuel (o + 1) None None None None ig) as (ig' & ->); [lia|]. cbn [obind].
    rewrite !keep_text, !keep_flag, Ht by exact Ho. fold (last_flag (s2l "not") fs) (last_flag (s2l "inverted") fs).
    cbn [prune_text prune]. destruct (str_eqb text u).
    - exists None, lo, ig'. split; [reflexivity|]. split; [exact I|lia].
    - close_lost q (concat items) q' (s2l "tag") o. eexists (Some _), _, _. split; [reflexivity|].
      split; [constructor; exact I|lia].
  Qed.

  Lemma read_until_lost fuel node mk d fs inner any r : once fs -> clean d ->
    fields ss' [s2l "any_characters"; s2l "property"] [s2l "optional"] [] [] fs inner ->
    last_text (s2l "any_characters") fs = Some any -> node_of node inner d -> length d <= fuel ->
    (forall id, olike (prune r) (if str_eqb any u then None else
      Some (mk any (value_or false (last_flag (s2l "optional") fs)) (prune_text (last_text (s2l "property") fs)) id))) ->
    reads_lost (read_until fuel node mk ss) d r 1.
  Proof.
    intros Ho Hc (Ha & items & -> & Hw) Ht Hn Hl Hr rest o lo ig Hu. apply (clean_node _ _ _ Hn) in Hc. unfold read_until. open_node Hn. cbn [fst snd].
    destruct (until_loop_lost node q' rest fs items Hw Hc Ha fuel (o + 1) None None None ig) as (ig' & ->); [lia|]. cbn [obind].
    rewrite !keep_text, !keep_flag, Ht by exact Ho. fold (last_flag (s2l "optional") fs).
    cbn [prune_text]. destruct (str_eqb any u).
    - exists None, lo, ig'. split; [reflexivity|]. split; [exact (Hr 0%N)|lia].
    - close_lost q (concat items) q' node o. eexists (Some _), _, _. split; [reflexivity|].
      split; [apply Hr|lia].
  Qed.

  Lemma read_text_lost fuel d fs inner id : once fs -> clean d ->
    fields ss' [s2l "property"] [s2l "allow_empty"] [] [] fs inner ->
    node_of (s2l "text") inner d -> length d <= fuel ->
    reads_lost (read_text fuel ss) d
      (RText (value_or true (last_flag (s2l "allow_empty") fs)) (last_text (s2l "property") fs) id) 1.
  Proof.
    intros Ho Hc (Ha & items & -> & Hw) Hn Hl rest o lo ig Hu. apply (clean_node _ _ _ Hn) in Hc. unfold read_text. open_node Hn. cbn [fst snd].
    destruct (text_loop_lost q' rest fs items Hw Hc Ha fuel (o + 1) None None ig) as (ig' & ->); [lia|]. cbn [obind].
    rewrite !keep_text, !keep_flag by exact Ho.
    close_lost q (concat items) q' (s2l "text") o. eexists (Some _), _, _. split; [reflexivity|].
    split; [constructor; exact I|lia].
  Qed.

  Lemma read_number_lost fuel d fs inner id : once fs -> clean d ->
    fields ss' [s2l "property"] [s2l "underscore"] [] [] fs inner ->
    node_of (s2l "number") inner d -> length d <= fuel ->
    reads_lost (read_number fuel ss) d
      (RNumber (value_or false (last_flag (s2l "underscore") fs)) (last_text (s2l "property") fs) id) 1.
  Proof.
    intros Ho Hc (Ha & items & -> & Hw) Hn Hl rest o lo ig Hu. apply (clean_node _ _ _ Hn) in Hc. unfold read_number. open_node Hn. cbn [fst snd].
    destruct (number_loop_lost q' rest fs items Hw Hc Ha fuel (o + 1) None None ig) as (ig' & ->); [lia|]. cbn [obind].
    rewrite !keep_text, !keep_flag by exact Ho.
    close_lost q (concat items) q' (s2l "number") o. eexists (Some _), _, _. split; [reflexivity|].
    split; [constructor; exact I|lia].
  Qed.

  Lemma read_reference_lost fuel d fs inner name id : once fs -> clean d ->
    fields ss' [s2l "property"] [] [s2l "name"] [] fs inner -> last_name (s2l "name") fs = Some name ->
    node_of (s2l "reference") inner d -> length d <= fuel ->
    reads_lost (read_reference fuel ss) d (RNode name (last_text (s2l "property") fs) None id) 1.
  Proof.
    intros Ho Hc (Ha & items & -> & Hw) Ht Hn Hl rest o lo ig Hu. apply (clean_node _ _ _ Hn) in Hc. unfold read_reference. open_node Hn. cbn [fst snd].
    destruct (reference_loop_lost q' rest fs items Hw Hc Ha fuel (o + 1) None None ig) as (ig' & ->); [lia|]. cbn [obind].
    rewrite !keep_text, !keep_name by exact Ho. fold (last_name (s2l "name") fs). rewrite Ht.
    close_lost q (concat items) q' (s2l "reference") o. eexists (Some _), _, _. split; [reflexivity|].
    split; [constructor; exact I|lia].
  Qed.

  Lemma read_whitespace_lost d r b id : node_of (s2l "whitespace") [(r, MBool (s2l "optional") b)] d ->
    reads_lost read_whitespace d (RWhitespace b id) 1.
  Proof.
    intros Hn rest o lo ig Hu. exists (Some (RWhitespace b (lo + 1)%N)), (lo + 1)%N, ig.
    split; [eapply read_whitespace_back; eassumption|]. split; [constructor; exact I|lia].
  Qed.

  (** ** Rules with sub rules *)

  Lemma uitem p lo d r hi : urule ss' p lo d r hi -> item d.
  Proof. intros H. apply (proj1 (proj2 (once_write ss'))) in H. exact (proj1 (proj2 (wnested ss')) _ _ _ _ _ H). Qed.

  Lemma uids p lo d r hi : urule ss' p lo d r hi -> (lo < hi)%N.
  Proof. intros H. apply (proj1 (proj2 (once_write ss'))) in H. exact (proj2 (proj1 (proj2 (wids ss')) _ _ _ _ _ H)). Qed.

  Lemma uargs_ids lo d rs hi : uargs ss' lo d rs hi -> (lo <= hi)%N.
  Proof. intros H. apply (proj2 (proj2 (once_write ss'))) in H. exact (proj2 (proj2 (wids ss')) _ _ _ _ H). Qed.

  Section Sub.
    Variable K : nat.
    Variable rd : reader.
    Hypothesis Hoff : reader_off (s2l "rule") rd.
    Hypothesis Hrd : forall lo d r hi, urule ss' (s2l "rule") lo d r hi -> clean d -> length d <= K ->
      reads_lost rd d r (hi - lo).

    Lemma args_loop_lost node q' rest lo' d rs hi' : uargs ss' lo' d rs hi' -> clean d ->
      forall fuel o args lo ig, length d < fuel -> length d <= K -> (lo + (hi' - lo') <= usize_max)%N ->
      exists rs1 hi ig',
      args_loop fuel rd node (Cv (d ++ (q', EndNode node) :: rest) o) args (lo, ig) =
      Done (Cv rest (o + length d + 1), args ++ rs1, (hi, ig')) /\
      Forall2 (like_rule any_ids) (prunes rs) rs1 /\ (lo <= hi <= lo + (hi' - lo'))%N.
    Proof.
      induction 1 as [lo'|lo' d r mid ds rs hi' Hw Hws IH]; intros Hc fuel o args lo ig Hl HK Hu.
      - exists [], lo, ig. destruct fuel; [lia|]. cbn [args_loop app length]. rewrite end_here, update_one. cbn [obind].
        rewrite Nat.add_0_r, app_nil_r. split; [reflexivity|]. split; [constructor|lia].
      - apply clean_app in Hc. destruct Hc as [Hc Hcs].
        rewrite app_length in *. destruct fuel; [lia|]. cbn [args_loop]. rewrite <- app_assoc.
        pose proof (uitem _ _ _ _ _ Hw) as Hi. pose proof (uids _ _ _ _ _ Hw) as Hlt. pose proof (uargs_ids _ _ _ _ Hws) as Hle.
        pose proof (item_length _ Hi). rewrite end_item by exact Hi.
        destruct (Hrd _ _ _ _ Hw Hc ltac:(lia) (ds ++ (q', EndNode node) :: rest) o lo ig ltac:(lia)) as (res & hi1 & ig1 & -> & Hres & Hhi).
        cbn [obind]. destruct res as [r1|]; cbn [option_map].
        + rewrite update_first. cbn [obind].
          destruct (IH Hcs fuel (o + length d) (args ++ [r1]) hi1 ig1 ltac:(lia) ltac:(lia) ltac:(lia)) as (rs1 & hi & ig' & -> & Hrs & Hh).
          exists (r1 :: rs1), hi, ig'. rewrite <- app_assoc. cbn [app]. rewrite Nat.add_assoc. split; [reflexivity|].
          split; [|lia]. unfold prunes. cbn [flat_map]. unfold olike in Hres. destruct (prune r); [|contradiction].
          cbn [app]. constructor; [exact Hres|exact Hrs].
        + cbn [snd fst]. rewrite (skip_first _ _ _ _ Hi). cbn [obind].
          destruct (IH Hcs fuel (o + length d) args hi1 (ig1 ++ [Rng o (length d)]) ltac:(lia) ltac:(lia) ltac:(lia)) as (rs1 & hi & ig' & -> & Hrs & Hh).
          exists rs1, hi, ig'. rewrite Nat.add_assoc. split; [reflexivity|].
          split; [|lia]. unfold prunes. cbn [flat_map]. unfold olike in Hres. destruct (prune r); [contradiction|]. exact Hrs.
    Qed.

    Lemma read_args_lost fuel node mk d inner args lo' hi' id : clean d ->
      uargs ss' lo' inner args hi' -> node_of node inner d -> length d <= fuel -> length d <= K ->
      (mk = RSequence \/ mk = RSelect) ->
      reads_lost (read_args fuel rd node mk) d (mk args id) (hi' + 1 - lo').
    Proof.
      intros Hc Hw Hn Hl HK Hmk rest o lo ig Hu. apply (clean_node _ _ _ Hn) in Hc. pose proof (uargs_ids _ _ _ _ Hw) as Hle.
      unfold read_args. open_node Hn.
      destruct (args_loop_lost node q' rest lo' inner args hi' Hw Hc fuel (o + 1) [] lo ig ltac:(lia) ltac:(lia) ltac:(lia)) as
        (rs1 & hi & ig' & -> & Hrs & Hh).
      cbn [app]. assert (Hh2 : (hi + 1 <= usize_max)%N) by lia.
      cbn [obind fst snd]. rewrite (fold_end q inner q' node o). rewrite <- (node_unfold q node).
      rewrite finish_back by exact Hh2. rewrite node_length.
      eexists (Some _), _, _. split; [reflexivity|]. split; [|lia].
      destruct Hmk as [-> | ->]; (constructor; [exact I|exact Hrs]).
    Qed.

    Lemma read_wrap_lost node mk d inner r lo' hi' id : clean d ->
      urule ss' (s2l "rule") lo' inner r hi' -> node_of node inner d -> length d <= K ->
      (mk = ROptional \/ mk = RNot) ->
      reads_lost (read_wrap rd node mk) d (mk r id) (hi' + 1 - lo').
    Proof.
      intros Hc Hw Hn HK Hmk rest o lo ig Hu. apply (clean_node _ _ _ Hn) in Hc. pose proof (uids _ _ _ _ _ Hw) as Hlt.
      unfold read_wrap. open_node Hn.
      destruct (Hrd _ _ _ _ Hw Hc ltac:(lia) ((q', EndNode node) :: rest) (o + 1) lo ig ltac:(lia)) as (res & hi1 & ig1 & -> & Hres & Hhi).
      cbn [obind]. destruct res as [r1|]; cbn [option_map].
      - rewrite update_first. cbn [obind]. rewrite end_here, update_one. assert (Hh2 : (hi1 + 1 <= usize_max)%N) by lia.
        cbn [obind fst snd]. rewrite (fold_end q inner q' node o). rewrite <- (node_unfold q node).
        rewrite finish_back by exact Hh2. rewrite node_length.
        eexists (Some _), _, _. split; [reflexivity|]. split; [|lia]. unfold olike in Hres. destruct (prune r) as [r0|] eqn:Hp; [|contradiction].
        destruct Hmk as [-> | ->]; cbn [prune]; rewrite Hp; (constructor; [exact I|exact Hres]).
      - exists None, hi1, ig1. split; [reflexivity|]. split; [|lia]. unfold olike in Hres. destruct (prune r) as [r0|] eqn:Hp; [contradiction|].
        destruct Hmk as [-> | ->]; cbn [prune]; rewrite Hp; exact I.
    Qed.

    Lemma lines_lost (inner pre d : list tok) i r lo' hi' id : clean d ->
      (pre = [] /\ i = false \/ exists p, pre = [(p, MBool (s2l "indent") i)]) ->
      urule ss' (s2l "rule") lo' inner r hi' -> node_of (s2l "lines") (pre ++ inner) d -> length d <= K ->
      reads_lost (read_lines rd) d (RLines r i id) (hi' + 1 - lo').
    Proof.
      intros Hc Hpre Hw Hn HK rest o lo ig Hu. apply (clean_node _ _ _ Hn) in Hc. apply clean_app in Hc. destruct Hc as [_ Hc].
      pose proof (uids _ _ _ _ _ Hw) as Hlt.
      unfold read_lines. open_node Hn.
      assert (Hm : (match c_meta_bool (Cv ((pre ++ inner) ++ (q', EndNode (s2l "lines")) :: rest) (o + 1)) (s2l "indent") with
                           | Some (r, v) => do c2 <- c_update (Cv ((pre ++ inner) ++ (q', EndNode (s2l "lines")) :: rest) (o + 1)) r; Done (c2, v)
                           | None => Done (Cv ((pre ++ inner) ++ (q', EndNode (s2l "lines")) :: rest) (o + 1), false)
                           end) = Done (Cv (inner ++ (q', EndNode (s2l "lines")) :: rest) (o + 1 + length pre), i)).
      { destruct Hpre as [[-> ->]|(p & ->)].
        - cbn [app length]. rewrite Nat.add_0_r. inversion Hw as [? ? ? ? ? ? _ Hn']; subst. destruct Hn' as (a & b & ->). reflexivity.
        - cbn [app length]. unfold c_meta_bool. cbn [c_data c_off]. names. rewrite update_one. reflexivity. }
      rewrite Hm. clear Hm. cbn [obind]. rewrite app_length in *.
      destruct (Hrd _ _ _ _ Hw Hc ltac:(lia) ((q', EndNode (s2l "lines")) :: rest) (o + 1 + length pre) lo ig ltac:(lia)) as (res & hi1 & ig1 & -> & Hres & Hhi).
      cbn [obind]. destruct res as [r1|]; cbn [option_map].
      - rewrite update_first. cbn [obind]. rewrite end_here, update_one. assert (Hh2 : (hi1 + 1 <= usize_max)%N) by lia.
        cbn [obind]. unfold finish. cbn [fst snd]. rewrite add_one by exact Hh2. cbn [obind].
        unfold c_subtract. cbn [c_off].
        replace (o + 1 + length pre + length inner + 1 - o) with (1 + (length pre + length inner) + 1) by lia.
        eexists (Some _), _, _. split; [reflexivity|]. split; [|lia]. unfold olike in Hres. destruct (prune r) as [r0|] eqn:Hp; [|contradiction].
        cbn [prune]; rewrite Hp; (constructor; [exact I|exact Hres]).
      - exists None, hi1, ig1. split; [reflexivity|]. split; [|lia]. unfold olike in Hres. destruct (prune r) as [r0|] eqn:Hp; [contradiction|].
        cbn [prune]; rewrite Hp; exact I.
    Qed.

    Lemma urule_no_bool p lo d r hi n rest o : urule ss' p lo d r hi -> c_meta_bool (Cv (d ++ rest) o) n = None.
    Proof. intros H. inversion H as [? ? ? ? ? ? _ Hn]; subst. destruct Hn as (a & b & ->). reflexivity. Qed.

    Lemma read_repeat_lost fuel d fs before inner r lo' hi' b id : clean d ->
      fields ss' [] [s2l "optional"] [] [] fs before -> urule ss' (s2l "rule") lo' inner r hi' ->
      last_flag (s2l "optional") fs = Some b -> node_of (s2l "repeat") (before ++ inner) d ->
      length d <= fuel -> length d <= K ->
      reads_lost (read_repeat fuel rd) d (RRepeat r b id) (hi' + 1 - lo').
    Proof.
      intros Hc (Ha & items & -> & Hw) Hr Hb Hn Hl HK rest o lo ig Hu. apply (clean_node _ _ _ Hn) in Hc. apply clean_app in Hc. destruct Hc as [_ Hc].
      pose proof (uids _ _ _ _ _ Hr) as Hlt. unfold read_repeat. open_node Hn. rewrite !app_length in *.
      pose proof (fields_short _ _ _ Hw). pose proof (uitem _ _ _ _ _ Hr) as Hi. pose proof (item_length _ Hi).
      replace fuel with (length fs + S (S (fuel - length fs - 2))) by lia.
      rewrite <- !app_assoc. rewrite (rep_flags ss' rd Hoff _ _ _ Hw Ha). cbn [rep_loop]. rewrite end_item by exact Hi.
      destruct (Hrd _ _ _ _ Hr Hc ltac:(lia) ((q', EndNode (s2l "repeat")) :: rest) (o + 1 + length (concat items)) lo ig ltac:(lia)) as (res & hi1 & ig1 & -> & Hres & Hhi).
      cbn [obind]. destruct res as [r1|]; cbn [option_map].
      - rewrite update_first. cbn [obind]. rewrite end_here, update_one. cbn [obind].
        fold (last_flag (s2l "optional") fs). rewrite Hb. assert (Hh2 : (hi1 + 1 <= usize_max)%N) by lia.
        unfold finish. cbn [fst snd]. rewrite add_one by exact Hh2. cbn [obind]. unfold c_subtract. cbn [c_off].
        match goal with |- context [Rng o ?x] => replace x with (1 + (length (concat items) + length inner) + 1) by lia end.
        eexists (Some _), _, _. split; [reflexivity|]. split; [|lia]. unfold olike in Hres. destruct (prune r) as [r0|] eqn:Hp; [|contradiction].
        cbn [prune]; rewrite Hp; (constructor; [exact I|exact Hres]).
      - rewrite (urule_no_bool _ _ _ _ _ _ _ _ Hr). cbn [fst snd]. rewrite (skip_first _ _ _ _ Hi). cbn [obind]. rewrite end_here, update_one. cbn [obind].
        eexists None, _, _. split; [reflexivity|]. split; [|lia]. unfold olike in Hres. destruct (prune r) as [r0|] eqn:Hp; [contradiction|].
        cbn [prune]; rewrite Hp; exact I.
    Qed.

    Variable rd_by : reader.
    Hypothesis Hoff_by : reader_off (s2l "by") rd_by.
    Hypothesis Hby : forall lo d r hi, urule ss' (s2l "by") lo d r hi -> clean d -> length d <= K ->
      reads_lost rd_by d r (hi - lo).

    Lemma start_differs p q lo d r hi rest o : urule ss' p lo d r hi -> p <> q -> c_start_node (Cv (d ++ rest) o) q = None.
    Proof.
      intros H Hpq. inversion H as [? ? ? ? ? ? _ Hn]; subst. destruct Hn as (a & b & ->). cbn [app]. unfold c_start_node. cbn [c_data].
      destruct (str_eqb p q) eqn:He; [|reflexivity]. apply str_eqb_eq in He. contradiction.
    Qed.

    Lemma sep_by_lost fuel lo' d r hi' rest o op tr b rl lo ig : urule ss' (s2l "by") lo' d r hi' -> clean d -> length d <= K ->
      (lo + (hi' - lo') <= usize_max)%N -> exists res hi ig',
      sep_by_loop (S fuel) rd_by rd (Cv (d ++ rest) o) op tr b rl (lo, ig) =
      sep_by_loop fuel rd_by rd (Cv rest (o + length d)) op tr (match res with Some x => Some x | None => b end) rl (hi, ig') /\
      olike (prune r) res /\ (lo <= hi <= lo + (hi' - lo'))%N.
    Proof.
      intros Hw Hc HK Hu. pose proof (uitem _ _ _ _ _ Hw) as Hi.
      cbn [sep_by_loop]. rewrite end_item by exact Hi. rewrite !(urule_no_bool _ _ _ _ _ _ _ _ Hw).
      destruct (Hby _ _ _ _ Hw Hc HK rest o lo ig Hu) as (res & hi & ig' & -> & Hres & Hhi). cbn [obind].
      destruct res as [r1|]; cbn [option_map].
      - rewrite update_first. cbn [obind]. exists (Some r1), hi, ig'. split; [reflexivity|]. split; assumption.
      - rewrite Hoff by (eapply start_differs; [exact Hw|discriminate]). cbn [obind snd fst]. rewrite (skip_first _ _ _ _ Hi). cbn [obind].
        eexists None, hi, _. split; [reflexivity|]. split; assumption.
    Qed.

    Lemma sep_rule_lost fuel lo' d r hi' rest o op tr b rl lo ig : urule ss' (s2l "rule") lo' d r hi' -> clean d -> length d <= K ->
      (lo + (hi' - lo') <= usize_max)%N -> exists res hi ig',
      sep_by_loop (S fuel) rd_by rd (Cv (d ++ rest) o) op tr b rl (lo, ig) =
      sep_by_loop fuel rd_by rd (Cv rest (o + length d)) op tr b (match res with Some x => Some x | None => rl end) (hi, ig') /\
      olike (prune r) res /\ (lo <= hi <= lo + (hi' - lo'))%N.
    Proof.
      intros Hw Hc HK Hu. pose proof (uitem _ _ _ _ _ Hw) as Hi.
      cbn [sep_by_loop]. rewrite end_item by exact Hi. rewrite !(urule_no_bool _ _ _ _ _ _ _ _ Hw).
      rewrite Hoff_by by (eapply start_differs; [exact Hw|discriminate]). cbn [obind snd fst].
      destruct (Hrd _ _ _ _ Hw Hc HK rest o lo ig Hu) as (res & hi & ig' & -> & Hres & Hhi). cbn [obind].
      destruct res as [r1|]; cbn [option_map].
      - rewrite update_first. cbn [obind]. exists (Some r1), hi, ig'. split; [reflexivity|]. split; assumption.
      - cbn [snd fst]. rewrite (skip_first _ _ _ _ Hi). cbn [obind].
        eexists None, hi, _. split; [reflexivity|]. split; assumption.
    Qed.

    Lemma read_separated_by_lost fuel d fs before by_d rule_d by_ r lo' mid hi' id : clean d ->
      fields ss' [] [s2l "optional"; s2l "allow_trail"] [] [] fs before ->
      urule ss' (s2l "by") lo' by_d by_ mid -> urule ss' (s2l "rule") mid rule_d r hi' ->
      node_of (s2l "separated_by") (before ++ by_d ++ rule_d) d -> length d <= fuel -> length d <= K ->
      reads_lost (read_separated_by fuel rd_by rd) d (RSeparateBy r by_ (value_or true (last_flag (s2l "optional") fs))
        (value_or true (last_flag (s2l "allow_trail") fs)) id) (hi' + 1 - lo').
    Proof.
      intros Hc (Ha & items & -> & Hw) Hb Hr Hn Hl HK rest o lo ig Hu.
      apply (clean_node _ _ _ Hn) in Hc. apply clean_app in Hc. destruct Hc as [_ Hc]. apply clean_app in Hc. destruct Hc as [Hcb Hcr].
      pose proof (uids _ _ _ _ _ Hr). pose proof (uids _ _ _ _ _ Hb).
      unfold read_separated_by. open_node Hn. rewrite !app_length in *.
      pose proof (fields_short _ _ _ Hw). pose proof (item_length _ (uitem _ _ _ _ _ Hr)). pose proof (item_length _ (uitem _ _ _ _ _ Hb)).
      replace fuel with (length fs + S (S (S (fuel - length fs - 3)))) by lia.
      rewrite <- !app_assoc. rewrite (sep_flags ss' rd rd_by _ _ _ Hw Ha).
      edestruct sep_by_lost as (res1 & hi1 & ig1 & -> & Hres1 & Hh1); [exact Hb|exact Hcb|lia| |]; [eapply N.le_trans; [|exact Hu]; lia|].
      edestruct sep_rule_lost as (res2 & hi2 & ig2 & -> & Hres2 & Hh2); [exact Hr|exact Hcr|lia| |]; [eapply N.le_trans; [|exact Hu]; lia|].
      cbn [sep_by_loop]. rewrite end_here, update_one. cbn [obind]. cbn [prune].
      unfold olike in Hres1, Hres2. destruct (prune r) as [r0|], res2 as [r1|]; try contradiction;
        destruct (prune by_) as [b0|], res1 as [b1|]; try contradiction;
        try (eexists None, _, _; split; [reflexivity|]; split; [exact I|lia]).
      assert (Hs : (hi2 + 1 <= usize_max)%N) by lia.
      unfold finish. cbn [fst snd]. rewrite add_one by exact Hs. cbn [obind]. unfold c_subtract. cbn [c_off].
      match goal with |- context [Rng o ?x] => replace x with (1 + (length (concat items) + (length by_d + length rule_d)) + 1) by lia end.
      eexists (Some _), _, _. split; [reflexivity|]. split; [|lia]. constructor; [exact I|assumption|assumption].
    Qed.
  End Sub.

  (** ** The reader of any rule *)

  Lemma first_nth_lost c st n rd q x st' : c_start_node c n = Some q -> rd c st = Done (x, st') ->
    forall i names rds, Forall2 reader_off names rds -> NoDup names ->
    nth_error names i = Some n -> nth_error rds i = Some rd ->
    first_reader rds c st = Done (x, st').
  Proof.
    intros Hs Hrd. induction i as [|i IH]; intros names rds H Hd Hn Hr.
    - destruct H as [|a b names rds Hab H]; [discriminate|]. cbn in Hn, Hr. injection Hn as ->. injection Hr as ->.
      cbn [first_reader]. rewrite Hrd. cbn [obind]. destruct x as [x|]; [reflexivity|].
      inversion Hd as [|? ? Hni _]; subst. clear -H Hni Hs. revert st'. induction H as [|a b names rds Hab H IH]; intros st'; [reflexivity|].
      cbn [first_reader]. rewrite Hab; [cbn [obind]; apply IH; intros Hi; apply Hni; right; exact Hi|].
      eapply start_other; [exact Hs|]. intros ->. apply Hni. left. reflexivity.
    - destruct H as [|a b names rds Hab H]; [discriminate|]. cbn in Hn, Hr. inversion Hd; subst.
      cbn [first_reader]. rewrite Hab.
      + cbn [obind]. eapply IH; eassumption.
      + eapply start_other; [exact Hs|]. intros ->. apply nth_error_In in Hn. contradiction.
  Qed.

  Ltac at_kind Hwith inner i :=
    match goal with Hn : node_of ?n _ inner |- _ =>
      refine (Hwith n i _ (fun rest o => node_of_start n _ inner rest o Hn) eq_refl eq_refl _) end.
  Ltac one_id := match goal with |- reads_lost _ _ _ (?l + 1 - ?l) => replace (l + 1 - l)%N with 1%N by lia end.

  Lemma read_rule_lost : forall fuel p lo' d r hi', urule ss' p lo' d r hi' -> clean d -> length d <= fuel ->
    reads_lost (read_rule fuel p ss) d r (hi' - lo').
  Proof.
    induction fuel as [|fuel IH]; intros p lo' d r hi' Hw Hc Hl rest o lo ig Hu.
    { apply uitem in Hw. apply item_length in Hw. lia. }
    inversion Hw as [? ? inner ? ? ? Hb Hn]; subst. apply (clean_node _ _ _ Hn) in Hc. cbn [read_rule]. cbv zeta. open_node Hn.
    assert (Hro : forall p, reader_off p (read_rule fuel p ss)).
    { intros p0. apply read_rule_off. apply (proj1 (once_write ss')) in Hb. apply (proj1 (wnested ss')) in Hb. apply item_length in Hb. lia. }
    match goal with |- context [first_reader ?l] => set (rds := l) end.
    assert (Hoffs : Forall2 reader_off rule_kinds rds).
    { unfold rule_kinds, rds.
      repeat (apply Forall2_cons; [intros c0 st0 Hc0; cbv beta delta [read_args read_until read_tag read_whitespace read_text
        read_number read_reference read_wrap read_separated_by read_lines read_repeat]; rewrite Hc0; reflexivity|]);
        apply Forall2_nil. }
    assert (Hwith : forall n i rd, (forall rest o, c_start_node (Cv (inner ++ rest) o) n = Some (Rng o 1)) ->
      nth_error rule_kinds i = Some n -> nth_error rds i = Some rd -> reads_lost rd inner r (hi' - lo') ->
      exists res hi ig', first_reader rds (Cv (inner ++ (q', EndNode p) :: rest) (o + 1)) (lo, ig) =
        Done (option_map (fun r1 => (Rng (o + 1) (length inner), r1)) res, (hi, ig')) /\
        olike (prune r) res /\ (lo <= hi <= lo + (hi' - lo'))%N).
    { intros n i rd Hs Hni Hri Hrd. destruct (Hrd ((q', EndNode p) :: rest) (o + 1) lo ig Hu) as (res & hi & ig' & He & Hres & Hh).
      exists res, hi, ig'. split; [|split; assumption].
      exact (first_nth_lost _ _ n rd _ _ _ (Hs _ _) He i _ _ Hoffs rule_kinds_distinct Hni Hri). }
    assert (Hfirst : exists res hi ig', first_reader rds (Cv (inner ++ (q', EndNode p) :: rest) (o + 1)) (lo, ig) =
      Done (option_map (fun r1 => (Rng (o + 1) (length inner), r1)) res, (hi, ig')) /\
      olike (prune r) res /\ (lo <= hi <= lo + (hi' - lo'))%N).
    { clear Hu. inversion Hb; subst.
      - at_kind Hwith inner 4. one_id. eapply read_whitespace_lost; eassumption.
      - at_kind Hwith inner 3. one_id. eapply read_tag_lost; try eassumption; lia.
      - at_kind Hwith inner 2. one_id. eapply read_until_lost; try eassumption; try lia. intros id. cbn [prune]. destruct (str_eqb any u); [exact I|constructor; exact I].
      - at_kind Hwith inner 1. one_id. eapply read_until_lost; try eassumption; try lia. intros id. cbn [prune]. destruct (str_eqb any u); [exact I|constructor; exact I].
      - at_kind Hwith inner 5. one_id. eapply read_text_lost; try eassumption; lia.
      - at_kind Hwith inner 6. one_id. eapply read_number_lost; try eassumption; lia.
      - at_kind Hwith inner 7. one_id. eapply read_reference_lost; try eassumption; lia.
      - at_kind Hwith inner 0. eapply read_args_lost with (K := fuel); try eassumption; try lia; [intros; eapply IH; eassumption|left; reflexivity].
      - at_kind Hwith inner 8. eapply read_args_lost with (K := fuel); try eassumption; try lia; [intros; eapply IH; eassumption|right; reflexivity].
      - at_kind Hwith inner 9. eapply read_wrap_lost with (K := fuel); try eassumption; try lia; [intros; eapply IH; eassumption|left; reflexivity].
      - at_kind Hwith inner 10. eapply read_wrap_lost with (K := fuel); try eassumption; try lia; [intros; eapply IH; eassumption|right; reflexivity].
      - at_kind Hwith inner 12. eapply lines_lost with (K := fuel) (pre := []); try eassumption; try lia;
          [intros; eapply IH; eassumption|left; split; reflexivity].
      - at_kind Hwith inner 12. eapply lines_lost with (K := fuel) (pre := [_]); try eassumption; try lia;
          [intros; eapply IH; eassumption|right; eexists; reflexivity].
      - at_kind Hwith inner 13. eapply read_repeat_lost with (K := fuel); try eassumption; try lia; [apply Hro|intros; eapply IH; eassumption].
      - at_kind Hwith inner 11. eapply read_separated_by_lost with (K := fuel); try eassumption; try lia;
          [apply Hro|intros; eapply IH; eassumption|apply Hro|intros; eapply IH; eassumption]. }
    destruct Hfirst as (res & hi & ig' & -> & Hres & Hh). cbn [obind]. destruct res as [r1|]; cbn [option_map].
    - rewrite update_first. cbn [obind]. rewrite end_here, update_one. cbn [obind].
      replace (o + 1 + length inner + 1) with (o + (1 + length inner + 1)) by lia. rewrite sub_cursor.
      exists (Some r1), hi, ig'. split; [reflexivity|]. split; assumption.
    - exists None, hi, ig'. split; [reflexivity|]. split; assumption.
  Qed.
End Lost.

(** ** Nodes *)

Section Nodes.
  Variable u : str.
  Variable ss ss' : list (str * str).
  Hypothesis Hdef : forall n v, defined ss' n v -> find_string n ss = if str_eqb v u then None else Some v.

  Lemma unode_item d name r : unode ss' d name r -> item d.
  Proof. intros H. apply once_node in H. eapply wnode_item. exact H. Qed.

  Lemma read_node_lost fuel d name r rest o ig : unode ss' d name r -> clean u d -> (own_id r <= usize_max)%N ->
    length d <= fuel -> exists res ig',
    read_node fuel ss (Cv (d ++ rest) o) ig = Done (option_map (fun r1 => (Rng o (length d), (name, r1))) res, ig') /\
    olike (prune u r) res.
  Proof.
    intros H Hc Hu Hl.
    destruct H as [d fs before inner name r hi k (Ha & items & -> & Hw) Hr Hname Hk Hn].
    apply (clean_node _ _ _ _ Hn) in Hc. apply clean_app in Hc. destruct Hc as [_ Hc].
    unfold read_node. open_node Hn. rewrite !app_length in *.
    pose proof (fields_short _ _ _ Hw). pose proof (uitem _ _ _ _ _ _ Hr) as Hi. pose proof (item_length _ Hi).
    pose proof (proj1 (proj2 (once_write ss')) _ _ _ _ _ Hr) as Hr'.
    destruct (proj1 (proj2 (wids ss')) _ _ _ _ _ Hr') as [Hown Hlt].
    replace fuel with (length fs + S (S (fuel - length fs - 2))) by lia.
    rewrite <- !app_assoc.
    remember (S (fuel - length fs - 2)) as more eqn:Hmore.
    assert (Hnf : forall fs items, Forall2 (written ss') fs items -> Forall (allowed [] [] [s2l "name"] [s2l "id"]) fs ->
      forall tail fuel o id name rl ig,
      node_loop (length fs + fuel) ss (Cv (concat items ++ tail) o) id name rl ig =
      node_loop fuel ss (Cv tail (o + length (concat items)))
        (fold_left (fun acc f => match tell_num (s2l "id") None f with Some x => Some (f64_as_usize x) | None => acc end) fs id)
        (fold_left (tell_name (s2l "name")) fs name) rl ig).
    { clear. induction 1 as [|f it fs items Hw Hws IH]; intros Hall tail fuel o id name rl ig.
      - cbn [length concat app Nat.add fold_left]. rewrite Nat.add_0_r. reflexivity.
      - inversion Hall as [|? ? Ha Hall']; subst. cbn [length Nat.add node_loop concat].
        rewrite <- app_assoc. rewrite end_item by (eapply written_item; exact Hw).
        pick Ha; rewrite ?(meta_f64_field _ _ _ Hw), ?(meta_string_field _ _ _ Hw); names;
          rewrite update_first; cbn [obind];
          rewrite IH by exact Hall'; cbn [fold_left tell_num tell_name]; names;
          rewrite app_length, Nat.add_assoc; reflexivity. }
    rewrite (Hnf fs items Hw Ha). clear Hnf. cbn [node_loop]. rewrite end_item by exact Hi.
    assert (Hnof : forall rest o, c_meta_f64 (Cv (inner ++ rest) o) (s2l "id") = None).
    { intros rest0 o0. inversion Hr as [? ? ? ? ? ? _ Hn']; subst. destruct Hn' as (a & b & ->). reflexivity. }
    assert (Hnos : forall rest o, c_meta_string (Cv (inner ++ rest) o) (s2l "name") = None).
    { intros rest0 o0. inversion Hr as [? ? ? ? ? ? _ Hn']; subst. destruct Hn' as (a & b & ->). reflexivity. }
    rewrite Hnof, Hnos. clear Hnof Hnos.
    change (@None N) with (option_map f64_as_usize None). rewrite fold_id.
    fold (last_num (s2l "id") fs).
    replace (match option_map f64_as_usize (last_num (s2l "id") fs) with Some n => n | None => 0%N end) with k
      by (rewrite Hk; destruct (last_num _ _); reflexivity).
    rewrite mul_thousand by lia. cbn [obind].
    destruct (read_rule_lost u ss ss' Hdef more _ _ _ _ _ Hr Hc ltac:(lia) ((q', EndNode (s2l "node")) :: rest)
      (o + 1 + length (concat items)) (k * 1000)%N ig ltac:(lia)) as (res & hi1 & ig1 & -> & Hres & _).
    cbn [obind]. fold (last_name (s2l "name") fs). rewrite Hname. exists res. destruct res as [r1|]; cbn [option_map].
    - rewrite update_first. cbn [obind snd]. subst more. cbn [node_loop]. rewrite end_here, update_one. cbn [obind].
      exists ig1. split; [|exact Hres]. unfold c_subtract. cbn [c_off]. do 4 f_equal. f_equal. lia.
    - cbn [snd]. rewrite (skip_first _ _ _ _ Hi). cbn [obind]. subst more. cbn [node_loop]. rewrite end_here, update_one. cbn [obind].
      eexists. split; [reflexivity|exact Hres].
  Qed.

  (** The nodes up to the first one that has lost its rule. *)
  Lemma nodes_loop_lost : forall nds nodes fuel o n0 r0 ig,
    Forall2 (fun d (nr : str * rule) => unode ss' d (fst nr) (snd nr)) nds nodes -> clean u (concat nds) ->
    Forall (fun nr : str * rule => (own_id (snd nr) <= usize_max)%N) nodes -> length (concat nds) < fuel ->
    exists ig',
    (exists ps rules, map (fun nr => prune u (snd nr)) nodes = map Some ps /\ Forall2 (like_rule any_ids) ps rules /\
       nodes_loop fuel ss (Cv (concat nds) o) (Syn r0 n0) ig = Done (Some (Syn (r0 ++ rules) (n0 ++ map fst nodes)), ig')) \/
    (In None (map (fun nr => prune u (snd nr)) nodes) /\
       nodes_loop fuel ss (Cv (concat nds) o) (Syn r0 n0) ig = Done (None, ig')).
  Proof.
    induction nds as [|d nds IH]; intros nodes fuel o n0 r0 ig H Hc Hu Hl.
    - inversion H; subst. destruct fuel; [lia|]. exists ig. left. exists [], []. cbn. rewrite !app_nil_r. auto.
    - inversion H as [|? [n r] ? nodes' Hd Hds]; subst. cbn [fst snd] in Hd.
      inversion Hu as [|? ? Hur Hus]; subst. cbn [fst snd] in Hur. cbn [concat] in *. apply clean_app in Hc. destruct Hc as [Hcd Hcs]. rewrite app_length in Hl.
      pose proof (item_length _ (unode_item _ _ _ Hd)) as Hlen.
      destruct fuel as [|fuel]; [lia|]. cbn [nodes_loop].
      destruct (read_node_lost fuel d n r (concat nds) o ig Hd Hcd Hur ltac:(lia)) as (res & ig1 & -> & Hres). cbn [obind].
      destruct res as [r1|]; cbn [option_map].
      + rewrite update_first. cbn [obind]. rewrite syntax_app. cbn [map fst snd].
        unfold olike in Hres. destruct (prune u r) as [r'|]; [|contradiction].
        destruct (IH nodes' fuel (o + length d) (n0 ++ [n]) (r0 ++ [r1]) ig1 Hds Hcs Hus ltac:(lia)) as (ig' & [(ps & rules & Hp & Hlk & He)|(Hin & He)]);
          exists ig'; rewrite He.
        * left. exists (r' :: ps), (r1 :: rules). rewrite Hp. split; [reflexivity|]. split; [constructor; assumption|].
          rewrite <- !app_assoc. reflexivity.
        * right. split; [right; exact Hin|reflexivity].
      + exists ig1. right. cbn [map fst snd]. unfold olike in Hres. destruct (prune u r) as [r'|]; [contradiction|]. split; [left; reflexivity|].
        unfold c_remaining. cbn [c_data]. rewrite app_length. destruct (Nat.ltb_spec 0 (length d + length (concat nds))); [reflexivity|lia].
  Qed.

  Theorem convert_lost sds nds nodes ig : Forall2 wstring sds ss ->
    Forall2 (fun d (nr : str * rule) => unode ss' d (fst nr) (snd nr)) nds nodes -> clean u (concat nds) ->
    Forall (fun nr : str * rule => (own_id (snd nr) <= usize_max)%N) nodes -> exists ig',
    (exists ps s, map (fun nr => prune u (snd nr)) nodes = map Some ps /\
       convert_returns (concat sds ++ concat nds) ig (Some s) ig' /\ s_names s = map fst nodes /\
       Forall2 (fun p r => exists r1, like_rule any_ids p r1 /\ resolved (map fst nodes) r1 r) ps (s_rules s)) \/
    (In None (map (fun nr => prune u (snd nr)) nodes) /\ convert_returns (concat sds ++ concat nds) ig None ig').
  Proof.
    intros Hs Hn Hc Hu.
    destruct (nodes_loop_lost nds nodes (S (length (concat sds ++ concat nds))) (0 + length (concat sds)) [] [] ig Hn Hc Hu) as (ig' & Hres);
      [rewrite app_length; lia|].
    exists ig'.
    assert (Hconv : convert (S (length (concat sds ++ concat nds))) (concat sds ++ concat nds) ig =
      do (res, ig) <- nodes_loop (S (length (concat sds ++ concat nds))) ss (Cv (concat nds) (0 + length (concat sds))) (Syn [] []) ig;
      match res with Some s => Done (Some (update_refs s), ig) | None => Done (None, ig) end).
    { unfold convert, c_new. rewrite (strings_loop_back (concat nds) sds ss Hs).
      - reflexivity.
      - intros o. destruct Hn as [|d nr nds' l Hd _]; [reflexivity|].
        destruct Hd as [d fs before inner name r hi k _ _ _ _ (a & b & ->)]. reflexivity.
      - rewrite app_length. lia. }
    destruct Hres as [(ps & rules & Hp & Hlk & He)|(Hin & He)]; rewrite He in Hconv; cbn [obind app] in Hconv.
    - left. exists ps, (update_refs (Syn rules (map fst nodes))). split; [exact Hp|]. split; [eexists; exact Hconv|].
      split; [reflexivity|]. cbn [update_refs s_rules s_names]. generalize (map fst nodes) as names. intros names. clear -Hlk.
      induction Hlk as [|p r ps rules Hl Hls IH]; cbn [map]; constructor; [|exact IH].
      exists r. split; [exact Hl|apply update_refs_resolved].
    - right. split; [exact Hin|]. eexists. exact Hconv.
  Qed.
End Nodes.
