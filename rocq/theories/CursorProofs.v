(** Proofs about the cursor over meta data. *)
From Coq Require Import Ascii String List NArith ZArith Bool Arith Lia.
From Verif Require Import Base Ext Types DataSpec PegFacts ParseProofs ParsePublic ParseModel ConvertModel ConvertSpec CursorSpec ConvertTotal.
Import ListNotations.
Local Open Scope list_scope.
Local Open Scope nat_scope.

(** ** Spans of placed data *)

Fixpoint depth (toks : list tok) : Z :=
  match toks with
  | [] => 0
  | (_, StartNode _) :: rest => 1 + depth rest
  | (_, EndNode _) :: rest => -1 + depth rest
  | _ :: rest => depth rest
  end%Z.

Lemma depth_app a b : depth (a ++ b) = (depth a + depth b)%Z.
Proof. induction a as [|[r m] a IH]; cbn [app depth]; [lia|]. destruct m; rewrite IH; lia. Qed.

Lemma leaf_depth r m rest : leaf m -> depth ((r, m) :: rest) = depth rest.
Proof. destruct m; cbn; tauto. Qed.

(** No prefix of nested data closes more than it opens. *)
Lemma forest_depth toks : forest toks -> depth toks = 0%Z /\
  forall a b, toks = a ++ b -> (0 <= depth a)%Z.
Proof.
  induction 1 as [|[r m] rest Ht Hr [IH0 IH]|r r' name inner rest Hi [IHi0 IHi] Hr [IH0 IH]].
  - split; [reflexivity|]. intros a b H. destruct a; [cbn; lia|discriminate].
  - cbn [snd] in Ht. split; [rewrite leaf_depth; assumption|].
    intros [|t a] b H; [cbn; lia|]. injection H as <- H. rewrite leaf_depth by exact Ht. eapply IH. exact H.
  - split.
    + cbn [depth]. rewrite depth_app. cbn [depth]. lia.
    + intros [|t a] b H; [cbn; lia|]. injection H as <- H. cbn [depth].
      apply app_eq_app in H as (l & [[-> H]|[-> H]]).
      * pose proof (IHi a l eq_refl). lia.
      * rewrite depth_app, IHi0. destruct l as [|t l]; [cbn; lia|]. injection H as <- H.
        cbn [depth]. pose proof (IH l b H). lia.
Qed.

Lemma placed_forest a b out : placed a b out -> forest out.
Proof.
  induction 1; [apply forest_nil|apply forest_leaf; assumption|].
  apply forest_node; assumption.
Qed.

Lemma split_end inner inner' (t t' : tok) rest rest' : forest inner -> forest inner' ->
  (exists r n, t = (r, EndNode n)) -> (exists r n, t' = (r, EndNode n)) ->
  inner ++ t :: rest = inner' ++ t' :: rest' -> inner = inner' /\ t = t' /\ rest = rest'.
Proof.
  intros Hi Hi' (r & n & ->) (r' & n' & ->) H.
  destruct (forest_depth _ Hi) as [H0 Hp]. destruct (forest_depth _ Hi') as [H0' Hp'].
  apply app_eq_app in H as (l & [[-> H]|[-> H]]).
  - destruct l as [|x l]; [rewrite app_nil_r in *; cbn [app] in H; injection H as <- <- <-; auto|].
    injection H as <- H. pose proof (Hp (inner' ++ [(r', EndNode n')]) l) as Hx.
    rewrite <- app_assoc in Hx. specialize (Hx eq_refl). rewrite depth_app in Hx. cbn [depth] in Hx. lia.
  - destruct l as [|x l]; [rewrite app_nil_r in *; cbn [app] in H; injection H as <- <- <-; auto|].
    injection H as <- H. pose proof (Hp' (inner ++ [(r, EndNode n)]) l) as Hx.
    rewrite <- app_assoc in Hx. specialize (Hx eq_refl). rewrite depth_app in Hx. cbn [depth] in Hx. lia.
Qed.

Lemma placed_span a b d : placed a b d -> forall x span y, d = x ++ span ++ y -> forest span ->
  exists a' b', placed a' b' span.
Proof.
  intros H.
  (* first the spans at the front *)
  assert (Hfront : forall a b d, placed a b d -> forall span y, d = span ++ y -> forest span ->
    exists b', placed a b' span).
  { clear. induction 1 as [a b Hab|a b r m rest Hm Ha Hr IH|a b o n name inner rest Ha Hi IHi Hr IH];
      intros span y Hd Hf.
    - symmetry in Hd. apply app_eq_nil in Hd as [-> _]. exists b. constructor. exact Hab.
    - destruct Hf as [|t sp Ht Hsp|r1 r2 nm inn sp Hin Hsp].
      + exists a. constructor. lia.
      + injection Hd as <- Hd. destruct (IH _ _ Hd Hsp) as (b' & Hb). exists b'. constructor; assumption.
      + injection Hd as -> -> _. destruct Hm.
    - destruct Hf as [|t sp Ht Hsp|r1 r2 nm inn sp Hin Hsp].
      + exists a. constructor. lia.
      + injection Hd as <- _. destruct Ht.
      + cbn [app] in Hd. injection Hd as <- <- Hd. rewrite <- app_assoc in Hd. cbn [app] in Hd.
        apply split_end in Hd as (<- & [= <-] & Hd); [|eapply placed_forest; eassumption|exact Hin|eauto|eauto].
        destruct (IH _ _ Hd Hsp) as (b' & Hb). exists b'. constructor; assumption. }
  induction H as [a b Hab|a b r m rest Hm Ha Hr IH|a b o n name inner rest Ha Hi IHi Hr IH];
    intros x span y Hd Hf.
  - symmetry in Hd. apply app_eq_nil in Hd as [-> Hd]. apply app_eq_nil in Hd as [-> _].
    exists a, b. constructor. exact Hab.
  - destruct x as [|t x]; [|injection Hd as <- Hd; eapply IH; eassumption].
    exists a. eapply Hfront; [|exact Hd|exact Hf]. constructor; eassumption.
  - destruct x as [|t x].
    + exists a. eapply Hfront; [|exact Hd|exact Hf]. constructor; eassumption.
    + injection Hd as <- Hd. apply app_eq_app in Hd as (l & [[-> Hd]|[-> Hd]]).
      * (* the span starts inside of the node *)
        apply app_eq_app in Hd as (l' & [[-> Hd]|[-> Hd]]).
        -- destruct l' as [|t l'].
           { rewrite app_nil_r in *. eapply (IHi x l []); [rewrite app_nil_r; reflexivity|exact Hf]. }
           injection Hd as <- Hd. exfalso.
           destruct (forest_depth _ Hf) as [_ Hp]. specialize (Hp (l ++ [(Rng o n, EndNode name)]) l').
           rewrite <- app_assoc in Hp. specialize (Hp eq_refl).
           destruct (forest_depth _ (placed_forest _ _ _ Hi)) as [H0 Hpi]. specialize (Hpi x l eq_refl).
           rewrite depth_app in *. cbn [depth] in Hp. lia.
        -- eapply (IHi x span l'); [reflexivity|exact Hf].
      * destruct l as [|t l].
        -- destruct span as [|t span]; [exists 0, 0; constructor; lia|]. injection Hd as <- Hd.
           exfalso. destruct (forest_depth _ Hf) as [_ Hp]. specialize (Hp [(Rng o n, EndNode name)] span eq_refl).
           cbn in Hp. lia.
        -- injection Hd as <- Hd. eapply IH; eassumption.
Qed.

Lemma placed_last a b d t : placed a b (d ++ [t]) -> forall x, In x (d ++ [t]) ->
  next_offset (fst x) <= next_offset (fst t).
Proof.
  intros H x Hx. apply In_nth_error in Hx as [i Hi].
  assert (i < length (d ++ [t])) by (apply nth_error_Some; congruence).
  rewrite app_length in *. cbn [length] in *.
  eapply (placed_ends_sorted _ _ _ H i (length d)); [lia|exact Hi|].
  rewrite nth_error_app2, Nat.sub_diag by lia. reflexivity.
Qed.

Lemma placed_first a b t d : placed a b (t :: d) -> forall x, In x (t :: d) -> r_off (fst t) <= r_off (fst x).
Proof.
  intros H x Hx.
  assert (Hp : placed (r_off (fst t)) b (t :: d)).
  { inversion H; subst; cbn [fst r_off]; constructor; auto; lia. }
  apply placed_bounds in Hp. rewrite Forall_forall in Hp. apply Hp in Hx. lia.
Qed.

Theorem source_span a b x span y o : placed a b (x ++ span ++ y) -> nested (map snd span) -> span <> [] ->
  exists r, c_source (Cv y (o + length span)) (Cv (span ++ y) o) = Done (Some r) /\ hull (map fst span) r.
Proof.
  intros Hp Hn Hne. destruct (placed_span _ _ _ Hp x span y eq_refl (proj2 (forest_nested _) Hn)) as (a' & b' & Hs).
  destruct span as [|t d] eqn:Hd; [contradiction|].
  destruct (exists_last Hne) as (d' & u & Hl).
  pose proof (placed_first _ _ _ _ Hs) as Hfirst. rewrite Hl in Hs. pose proof (placed_last _ _ _ _ Hs) as Hlast.
  unfold c_source. cbn [c_data c_off].
  replace (length ((t :: d) ++ y) =? 0) with false by (symmetry; apply Nat.eqb_neq; cbn; lia).
  replace (o + length (t :: d) <=? o) with false by (symmetry; apply Nat.leb_gt; cbn; lia).
  cbn [orb]. replace (o + length (t :: d) - o - 1) with (length d') by (rewrite Hl, app_length; cbn; lia).
  replace (nth_error ((t :: d) ++ y) (length d')) with (Some u)
    by (rewrite Hl, <- app_assoc, nth_error_app2, Nat.sub_diag by lia; reflexivity).
  cbn [nth_error app].
  assert (Hu : In u (t :: d)) by (rewrite Hl; apply in_or_app; right; left; reflexivity).
  assert (Ht : In t (t :: d)) by (left; reflexivity).
  pose proof (Hfirst u Hu) as Hle. rewrite <- Hl in Hlast. pose proof (Hlast t Ht) as Hle'.
  replace (next_offset (fst u) <? r_off (fst t)) with false
    by (symmetry; apply Nat.ltb_ge; unfold next_offset in *; lia).
  eexists. split; [reflexivity|].
  assert (Hend : next_offset (Rng (r_off (fst t)) (next_offset (fst u) - r_off (fst t))) = next_offset (fst u)).
  { unfold next_offset in *. cbn. lia. }
  split; [|split].
  - intros q Hq. apply in_map_iff in Hq as (z & <- & Hz). rewrite Hend. split; [apply Hfirst, Hz|apply Hlast, Hz].
  - exists (fst t). split; [apply in_map; exact Ht|reflexivity].
  - exists (fst u). split; [apply in_map; exact Hu|symmetry; exact Hend].
Qed.

Theorem source_nothing c : c_source c c = Done None.
Proof. unfold c_source. rewrite Nat.leb_refl, orb_true_r. reflexivity. Qed.

(** ** Moving the cursor *)

Theorem update_moves c r c' : c_update c r = Done c' ->
  c_off c <= c_off c' /\ c_off c' = next_offset r /\
  c_data c = firstn (c_off c' - c_off c) (c_data c) ++ c_data c' /\
  c_off c' + c_remaining c' = c_off c + c_remaining c.
Proof.
  unfold c_update, c_remaining. destruct (Nat.ltb_spec (next_offset r) (c_off c)); [discriminate|].
  destruct (Nat.ltb_spec (length (c_data c)) (next_offset r - c_off c)); [discriminate|].
  intros [= <-]. cbn [c_off c_data]. rewrite firstn_skipn, skipn_length. repeat split; lia.
Qed.

Theorem update_returns c r : c_off c <= next_offset r <= c_off c + c_remaining c ->
  exists c', c_update c r = Done c'.
Proof.
  unfold c_update, c_remaining. intros H.
  destruct (Nat.ltb_spec (next_offset r) (c_off c)); [lia|].
  destruct (Nat.ltb_spec (length (c_data c)) (next_offset r - c_off c)); [lia|]. eauto.
Qed.

Theorem update_panics c r : ~ (c_off c <= next_offset r <= c_off c + c_remaining c) ->
  c_update c r = Panic.
Proof.
  unfold c_update, c_remaining. intros H.
  destruct (Nat.ltb_spec (next_offset r) (c_off c)); [reflexivity|].
  destruct (Nat.ltb_spec (length (c_data c)) (next_offset r - c_off c)); [reflexivity|]. lia.
Qed.

(** ** One item *)

Theorem readers_next toks o name :
  (forall r, c_start_node (Cv toks o) name = Some r <-> r = Rng o 1 /\ exists q rest, toks = (q, StartNode name) :: rest) /\
  (forall r, c_end_node (Cv toks o) name = Some r <-> r = Rng o 1 /\ exists q rest, toks = (q, EndNode name) :: rest) /\
  (forall r v, c_meta_string (Cv toks o) name = Some (r, v) <-> r = Rng o 1 /\ exists q rest, toks = (q, MString name v) :: rest) /\
  (forall r v, c_meta_f64 (Cv toks o) name = Some (r, v) <-> r = Rng o 1 /\ exists q rest, toks = (q, MF64 name v) :: rest) /\
  (forall r v, c_meta_bool (Cv toks o) name = Some (r, v) <-> r = Rng o 1 /\ exists q rest, toks = (q, MBool name v) :: rest).
Proof.
  unfold c_start_node, c_end_node, c_meta_string, c_meta_f64, c_meta_bool. cbn [c_data c_off].
  refine (conj _ (conj _ (conj _ (conj _ _)))); intros r; try intros v; split;
    try (intros (-> & q & rest & ->); rewrite str_eqb_refl; reflexivity);
    (destruct toks as [|[q m] toks]; [discriminate|]; destruct m; try discriminate;
     destruct (str_eqb _ name) eqn:He; [|discriminate]; apply OptProofs.str_eqb_eq in He; subst;
     intros [= <-]; subst; split; [reflexivity|eauto]).
Qed.

Theorem ignore_one toks o r : nested (map snd toks) -> toks <> [] ->
  c_ignore (Cv toks o) = Done r ->
  exists first rest, toks = first ++ rest /\ item first /\ nested (map snd rest) /\ r = Rng o (length first).
Proof.
  intros H Hne Hr. apply forest_nested in H.
  destruct (forest_cases _ H) as [->|(first & rest & -> & Hf & Hrest)]; [contradiction|].
  rewrite ignore_item in Hr by exact Hf. injection Hr as <-.
  exists first, rest. split; [reflexivity|]. split; [exact Hf|]. split; [apply forest_nested; exact Hrest|reflexivity].
Qed.
