(** C100: items of lists may be added and taken out. *)
From Coq Require Import Ascii String List NArith Bool Arith Lia.
From Verif Require Import Base Ext Types ParseModel OptimizeModel PegSpec DataSpec ApiSpec OptSpec ExtProofs PegFacts ParseProofs OptPublic
  ParsePublic TotalSpec TotalProofs TotalCheck ShapeSpec GrammarSpec GrammarProofs GrammarCheck GrammarPublic PlaceSpec PlaceProofs PlacePublic
  OccursProofs EditSpec EditProofs ItemsSpec ItemsProofs DataCheck AtEnd Examples.
Import ListNotations.
Local Open Scope string_scope.
Local Open Scope list_scope.
Local Open Scope nat_scope.

Lemma list_child r c l : list_of r c l -> In c (children r).
Proof. intros H. inversion H; subst; cbn [children]; first [assumption|left; reflexivity]. Qed.

Theorem items_replaced E : ext_ok E -> strings_end E -> forall s, valid s -> well_formed s -> clear E s ->
  forall name, only_items s name ->
  forall text tokens ind new before o inner n after,
  parse_returns E s text tokens ind None (tokens ++ new) -> node_at new before name o inner n after ->
  exists r c l, occurs s r /\ list_of r c l /\ gives_node name c /\
    places E (s_rules s) c o (firstn n (skipn o text)) ((Rng o 0, StartNode name) :: inner ++ [(Rng o n, EndNode name)]) /\
    forall w us, places E (s_rules s) l o w us -> columns_fit ind (edited o n w text) ->
    exists after', Forall2 (adjusted o n (length w)) after after' /\
      parse_returns E s (edited o n w text) tokens ind None (tokens ++ before ++ us ++ after').
Proof.
  intros HE Hs s Hv Hw Hc name Honly text tokens ind new before o inner n after H Hn.
  destruct (has_start E s _ _ _ _ HE H) as (start & Hr).
  pose proof (parse_placed E HE s (clear_no_lines E s Hc) start Hr text tokens ind new H) as Hp.
  assert (Hin : In start (s_rules s)) by (destruct Hr as [rules ->]; apply in_or_app; right; left; reflexivity).
  destruct (not_self E s name _ _ _ _ (proj1 Honly _ Hin) (proj1 (places_swap E s name Honly) _ _ _ _ Hp (start_occurs _ _ Hr)) _ _ _ _ _ Hn) as
    (r & c & l & a & mid & z & (K1 & K1' & K1'') & K2 & K3 & K4 & K5 & K6).
  exists r, c, l. do 3 (split; [assumption|]). cbn [Nat.add] in K3. rewrite K3, K4 in *. unfold edited.
  assert (Ha : firstn (length a) text = a) by (rewrite K2, firstn_app, Nat.sub_diag, firstn_all, firstn_O, app_nil_r; reflexivity).
  assert (Hb : skipn (length a) text = mid ++ z) by (rewrite K2, skipn_app, Nat.sub_diag, skipn_all; reflexivity).
  assert (Hz : skipn (length a + length mid) text = z).
  { rewrite K2, app_assoc, <- app_length, skipn_app, Nat.sub_diag, skipn_all. reflexivity. }
  assert (Hm : firstn (length mid) (skipn (length a) text) = mid) by (rewrite Hb, firstn_app, Nat.sub_diag, firstn_all, firstn_O, app_nil_r; reflexivity).
  rewrite Hm, Ha, Hz. split; [exact K5|]. intros w us Hws Hf. destruct (K6 w us Hws) as (after' & K8 & K9).
  exists after'. split; [exact K8|]. apply (clear_placed E HE Hs s Hv Hw Hc start Hr _ ind Hf). exact K9.
Qed.

Lemma repeated_items s name : only_repeated s name -> only_items s name.
Proof.
  intros [Ht H]. split; [exact Ht|]. split.
  - intros r by_ optional trail id Ho Hg. destruct (H _ by_ Ho (or_intror (or_introl eq_refl)) Hg) as (o' & id' & Heq). discriminate.
  - intros r c Ho Hc Hg. destruct (H _ _ Ho Hc Hg) as (optional & id & ->). eexists. apply list_repeat.
Qed.

Lemma adjusted_behind o n m t t' : adjusted o n (n + m) t t' -> adjusted (o + n) 0 m t t'.
Proof.
  intros [Hs [[Hl Heq]|(H1 & H2 & H3 & Heq)]]; split; auto.
  - left. split; [lia|]. rewrite Heq. f_equal. lia.
  - right. split; [lia|]. split; [lia|]. split; [exact H3|]. rewrite Heq. f_equal. lia.
Qed.

Lemma forall2_impl {A} (P Q : A -> A -> Prop) l l' : (forall x y, P x y -> Q x y) -> Forall2 P l l' -> Forall2 Q l l'.
Proof. intros H. induction 1; constructor; auto. Qed.

Lemma node_length E s text tokens ind new before name o inner n after : ext_ok E -> clear E s ->
  parse_returns E s text tokens ind None (tokens ++ new) -> node_at new before name o inner n after ->
  exists reference i id r, occurs s (RNode reference (Some name) (Some i) id) /\ nth_error (s_rules s) i = Some r /\ o + n <= length text /\
    places E (s_rules s) r o (firstn n (skipn o text)) inner.
Proof.
  intros HE Hc H Hn. destruct (has_start E s _ _ _ _ HE H) as (start & Hr).
  pose proof (parse_placed E HE s (clear_no_lines E s Hc) start Hr text tokens ind new H) as Hp.
  destruct (proj1 (places_edit E s) _ _ _ _ Hp (start_occurs _ _ Hr) _ _ _ _ _ _ Hn) as
    (reference & i & id & r & a & mid & z & K1 & K2 & K3 & K4 & K5 & K6 & _).
  exists reference, i, id, r. split; [exact K1|]. split; [exact K2|]. cbn [Nat.add] in K4. rewrite K4, K5 in *.
  split; [rewrite K3, !app_length; lia|].
  assert (Hm : firstn (length mid) (skipn (length a) text) = mid).
  { rewrite K3, skipn_app, Nat.sub_diag, skipn_all. cbn [app skipn]. rewrite firstn_app, Nat.sub_diag, firstn_all, firstn_O, app_nil_r. reflexivity. }
  rewrite Hm. exact K6.
Qed.

Lemma edited_behind o n y (text : str) : edited (o + n) 0 y text = edited o n (firstn n (skipn o text) ++ y) text.
Proof.
  unfold edited. rewrite Nat.add_0_r, <- app_assoc. 
  rewrite <- (firstn_skipn o text) at 1. rewrite firstn_app.
  destruct (Nat.le_gt_cases o (length text)) as [Hl|Hl].
  - rewrite firstn_length_le by exact Hl. rewrite firstn_firstn, Nat.min_r by lia. replace (o + n - o) with n by lia. rewrite <- app_assoc. reflexivity.
  - rewrite (firstn_all2 (n := o)) by lia. rewrite firstn_all2 by lia. rewrite (skipn_all2 (n := o)) by lia. rewrite !firstn_nil, app_nil_r. reflexivity.
Qed.

Theorem item_inserted E : ext_ok E -> strings_end E -> forall s, valid s -> well_formed s -> clear E s ->
  forall name i, only_repeated s name -> names_rule s name i ->
  forall text tokens ind new before o inner n after, parse_returns E s text tokens ind None (tokens ++ new) -> node_at new before name o inner n after ->
  forall text2 tokens2 ind2 new2 before2 o2 inner2 n2 after2,
  parse_returns E s text2 tokens2 ind2 None (tokens2 ++ new2) -> node_at new2 before2 name o2 inner2 n2 after2 ->
  let y := firstn n2 (skipn o2 text2) in columns_fit ind (edited (o + n) 0 y text) ->
  exists data after', inner2 = moved_by o2 data /\ length y = n2 /\ Forall2 (adjusted (o + n) 0 n2) after after' /\
    parse_returns E s (edited (o + n) 0 y text) tokens ind None
      (tokens ++ before ++ ((Rng o 0, StartNode name) :: inner ++ [(Rng o n, EndNode name)]) ++
       ((Rng (o + n) 0, StartNode name) :: moved_by (o + n) data ++ [(Rng (o + n) n2, EndNode name)]) ++ after').
Proof.
  intros HE Hs s Hv Hw Hc name i Honly Hname text tokens ind new before o inner n after H Hn text2 tokens2 ind2 new2 before2 o2 inner2 n2 after2 H2 Hn2 y Hf.
  destruct (items_replaced E HE Hs s Hv Hw Hc name (repeated_items _ _ Honly) _ _ _ _ _ _ _ _ _ H Hn) as (r & c & l & A1 & A2 & A3 & A4 & A5).
  destruct (node_length E s _ _ _ _ _ _ _ _ _ _ HE Hc H Hn) as (_ & _ & _ & _ & _ & _ & L1 & _).
  destruct (node_length E s _ _ _ _ _ _ _ _ _ _ HE Hc H2 Hn2) as (rf & j & jd & q & B1 & B2 & L2 & B3).
  assert (Hly : length y = n2) by (unfold y; rewrite firstn_length, skipn_length; lia).
  assert (Hlm : length (firstn n (skipn o text)) = n) by (rewrite firstn_length, skipn_length; lia).
  destruct (proj1 (places_back E (s_rules s) o2) _ _ _ _ B3 0 ltac:(lia)) as (data & -> & K0).
  pose proof (proj1 (places_moved E (s_rules s) (o + n)) _ _ _ _ K0) as Ko. rewrite Nat.add_0_r in Ko. fold y in Ko. clearbody y.
  assert (Hoc : occurs s c) by (eapply occurs_child; [exact A1|exact (list_child _ _ _ A2)]).
  destruct A3 as (ref & index & id & ->).
  assert (Hix : index = Some j).
  { inversion A4; subst. f_equal. rewrite (Hname _ _ _ Hoc), (Hname _ _ _ B1). reflexivity. }
  subst index. pose proof (at_node E (s_rules s) ref (Some name) j id q (o + n) y _ B2 Ko) as Hy. cbn [token app] in Hy. rewrite Hly in Hy.
  assert (Hrep : exists optional d, r = RRepeat (RNode ref (Some name) (Some j) id) optional d).
  { apply (proj2 Honly); [exact A1|exact (list_child _ _ _ A2)|eexists _, _, _; reflexivity]. }
  destruct Hrep as (optional & d & ->). inversion A2; subst; clear A2.
  rewrite edited_behind in Hf. rewrite edited_behind. set (x := firstn n (skipn o text)) in *.
  destruct (A5 (x ++ y ++ []) (((Rng o 0, StartNode name) :: inner ++ [(Rng o n, EndNode name)]) ++
    ((Rng (o + n) 0, StartNode name) :: moved_by (o + n) data ++ [(Rng (o + n) (length y), EndNode name)]) ++ [])) as (after' & C1 & C2).
  - eapply at_repeat; [|right; apply Nat.lt_0_succ]. apply at_times_S; [exact A4|]. rewrite Hlm. apply at_times_S; [exact Hy|constructor].
  - rewrite app_nil_r. exact Hf.
  - rewrite app_nil_r in C1, C2. exists data, after'. split; [reflexivity|]. split; [reflexivity|]. split.
    + eapply forall2_impl; [|exact C1]. intros t0 t1 Ht. rewrite app_length, Hlm in Ht. apply adjusted_behind. exact Ht.
    + rewrite app_nil_r in C2. rewrite <- (app_assoc _ _ after') in C2. exact C2.
Qed.

Lemma optional_items s name : only_optional s name -> only_items s name.
Proof.
  intros [Ht H]. split; [exact Ht|]. split.
  - intros r by_ optional trail id Ho Hg. destruct (H _ by_ Ho (or_intror (or_introl eq_refl)) Hg) as (id' & [Heq|Heq]); discriminate.
  - intros r c Ho Hc Hg. destruct (H _ _ Ho Hc Hg) as (id & [-> | ->]); eexists; [apply list_repeat|apply list_optional].
Qed.

Theorem item_removed E : ext_ok E -> strings_end E -> forall s, valid s -> well_formed s -> clear E s ->
  forall name, only_optional s name ->
  forall text tokens ind new before o inner n after, parse_returns E s text tokens ind None (tokens ++ new) -> node_at new before name o inner n after ->
  columns_fit ind (edited o n [] text) ->
  exists after', Forall2 (adjusted o n 0) after after' /\
    parse_returns E s (edited o n [] text) tokens ind None (tokens ++ before ++ after').
Proof.
  intros HE Hs s Hv Hw Hc name Hopt text tokens ind new before o inner n after H Hn Hf.
  destruct (items_replaced E HE Hs s Hv Hw Hc name (optional_items _ _ Hopt) _ _ _ _ _ _ _ _ _ H Hn) as (r & c & l & A1 & A2 & A3 & _ & A5).
  assert (Hin : In c (children r)) by exact (list_child _ _ _ A2).
  assert (Hno : places E (s_rules s) l o [] []).
  { destruct (proj2 Hopt r c A1 Hin A3) as (id & [-> | ->]); inversion A2; subst; [eapply at_repeat; [constructor|left; reflexivity]|apply at_optional_none]. }
  destruct (A5 [] [] Hno Hf) as (after' & C1 & C2). exists after'. split; [exact C1|exact C2].
Qed.

Theorem items_optimized E : ext_ok E -> strings_end E -> forall s s', valid s -> well_formed s -> clear E s ->
  optimize_returns s s' -> tails_fail_at_end E s -> forall name, only_items s name ->
  forall text tokens ind new before o inner n after, Forall real_char text ->
  parse_returns E s' text tokens ind None (tokens ++ new) -> node_at new before name o inner n after ->
  exists r c l, occurs s r /\ list_of r c l /\ gives_node name c /\
    places E (s_rules s) c o (firstn n (skipn o text)) ((Rng o 0, StartNode name) :: inner ++ [(Rng o n, EndNode name)]) /\
    forall w us, places E (s_rules s) l o w us -> columns_fit ind (edited o n w text) ->
    exists after', Forall2 (adjusted o n (length w)) after after' /\
      parse_returns E s' (edited o n w text) tokens ind None (tokens ++ before ++ us ++ after').
Proof.
  intros HE Hs s s' Hv Hw Hc Ho Ht name Honly text tokens ind new before o inner n after Hreal H Hn.
  apply (optimize_accepts E HE s s' Ho Ht text tokens ind Hreal) in H.
  destruct (items_replaced E HE Hs s Hv Hw Hc name Honly _ _ _ _ _ _ _ _ _ H Hn) as (r & c & l & A1 & A2 & A3 & A4 & A5).
  exists r, c, l. do 4 (split; [assumption|]). intros w us Hws Hf. destruct (A5 w us Hws Hf) as (after' & C1 & C2).
  exists after'. split; [exact C1|]. apply (optimize_accepts E HE s s' Ho Ht _ tokens ind (proj1 Hf)). exact C2.
Qed.

(** ** Checking it *)

Definition gives_nodeb (name : str) (c : rule) : bool :=
  match c with RNode _ (Some q) _ _ => if list_eq_dec N.eq_dec q name then true else false | _ => false end.

Lemma gives_nodeb_spec name c : gives_node name c -> gives_nodeb name c = true.
Proof. intros (rf & i & id & ->). cbn. destruct (list_eq_dec N.eq_dec name name) as [_|Hn]; [reflexivity|destruct (Hn eq_refl)]. Qed.

Definition only_itemsb (s : syntax) (name : str) : bool :=
  forallb (fun r => negb (gives_nodeb name r) && all_sub (fun r =>
    match r with
    | RRepeat _ _ _ | ROptional _ _ | RSelect _ _ | RFastSelect _ _ _ _ => true
    | RSeparateBy _ by_ _ _ _ => negb (gives_nodeb name by_)
    | _ => forallb (fun c => negb (gives_nodeb name c)) (children r)
    end) r) (s_rules s).

Lemma only_itemsb_spec s name : only_itemsb s name = true -> only_items s name.
Proof.
  unfold only_itemsb. rewrite forallb_forall. intros H.
  assert (Hsub : forall r, occurs s r -> match r with RRepeat _ _ _ | ROptional _ _ | RSelect _ _ | RFastSelect _ _ _ _ => true | RSeparateBy _ by_ _ _ _ => negb (gives_nodeb name by_)
    | _ => forallb (fun c => negb (gives_nodeb name c)) (children r) end = true).
  { intros r (top & Hin & Ho). specialize (H top Hin). apply andb_true_iff in H as [_ H]. apply (all_sub_spec _ _ H) in Ho. exact Ho. }
  split; [|split].
  - intros r Hin Hg. specialize (H r Hin). apply gives_nodeb_spec in Hg. rewrite Hg in H. discriminate.
  - intros r by_ optional trail id Ho Hg. apply Hsub in Ho. apply gives_nodeb_spec in Hg. rewrite Hg in Ho. discriminate.
  - intros r c Ho Hc Hg. apply Hsub in Ho. apply gives_nodeb_spec in Hg. destruct r; cbn [children] in *;
      try (rewrite forallb_forall in Ho; specialize (Ho c Hc); rewrite Hg in Ho; discriminate); try contradiction.
    + eexists. apply list_select. exact Hc.
    + eexists. apply list_fast. exact Hc.
    + destruct Hc as [<-|[<-|[]]]; [eexists; apply list_separate|]. rewrite Hg in Ho. discriminate.
    + destruct Hc as [<-|[]]. eexists. apply list_repeat.
    + destruct Hc as [<-|[]]. eexists. apply list_optional.
Qed.

(** With [all], the repetitions must be optional. *)
Definition only_repeatedb (all : bool) (s : syntax) (name : str) : bool :=
  forallb (fun r => negb (gives_nodeb name r) && all_sub (fun r =>
    match r with
    | RRepeat _ optional _ => negb all || optional
    | _ => forallb (fun c => negb (gives_nodeb name c)) (children r)
    end) r) (s_rules s).

Lemma only_repeatedb_spec all s name : only_repeatedb all s name = true ->
  (forall r, In r (s_rules s) -> ~ gives_node name r) /\
  (forall r c, occurs s r -> In c (children r) -> gives_node name c -> exists optional id, r = RRepeat c optional id /\ negb all || optional = true).
Proof.
  unfold only_repeatedb. rewrite forallb_forall. intros H. split.
  - intros r Hin Hg. specialize (H r Hin). apply gives_nodeb_spec in Hg. rewrite Hg in H. discriminate.
  - intros r c (top & Hin & Ho) Hc Hg. specialize (H top Hin). apply andb_true_iff in H as [_ H]. apply (all_sub_spec _ _ H) in Ho.
    apply gives_nodeb_spec in Hg. destruct r; cbn [children] in *; try contradiction;
      try (rewrite forallb_forall in Ho; specialize (Ho c Hc); rewrite Hg in Ho; discriminate).
    destruct Hc as [<-|[]]. eauto.
Qed.

Lemma repeated_check s name : only_repeatedb false s name = true -> only_repeated s name.
Proof.
  intros H. apply only_repeatedb_spec in H as [Ht H]. split; [exact Ht|]. intros r c Ho Hc Hg.
  destruct (H _ _ Ho Hc Hg) as (optional & id & -> & _). eauto.
Qed.

Lemma optional_check s name : only_repeatedb true s name = true -> only_optional s name.
Proof.
  intros H. apply only_repeatedb_spec in H as [Ht H]. split; [exact Ht|]. intros r c Ho Hc Hg.
  destruct (H _ _ Ho Hc Hg) as (optional & id & -> & K). cbn in K. subst optional. eauto.
Qed.

(** ** What it needs *)

(** [0 w = {"ab" "a"}
     1 doc = [.r!(w:"w") "b"]] *)
Definition greedy : syntax :=
  Syn [RSelect [t (tx "ab") 1; t (tx "a") 2] 3;
       RSequence [RRepeat (RNode (tx "w") (Some (tx "w")) (Some 0) 4) false 5; t (tx "b") 6] 7] [tx "w"; tx "doc"].

Lemma greedy_refuted : exists s name i text new before o inner n after text2 new2 before2 o2 inner2 n2 after2 e left_,
  valid s /\ well_formed s /\ without_lines s /\ only_repeated s name /\ names_rule s name i /\
  parse_returns std_ext s text [] indent_default None new /\ node_at new before name o inner n after /\
  parse_returns std_ext s text2 [] indent_default None new2 /\ node_at new2 before2 name o2 inner2 n2 after2 /\
  parse_returns std_ext s (edited (o + n) 0 (firstn n2 (skipn o2 text2)) text) [] indent_default (Some e) left_.
Proof.
  set (w := tx "w"). set (data := [(Rng 0 0, StartNode w); (Rng 0 1, EndNode w); (Rng 1 0, StartNode w); (Rng 1 2, EndNode w)]).
  exists greedy, w, 0, (tx "aabb"), data, [(Rng 0 0, StartNode w); (Rng 0 1, EndNode w)], 1, [], 2, [].
  exists (tx "aabb"), data, [], 0, [], 1, [(Rng 1 0, StartNode w); (Rng 1 2, EndNode w)].
  eexists. eexists. split; [apply validb_spec; vm_compute; reflexivity|]. split; [apply well_formedb_spec; vm_compute; reflexivity|].
  split; [intros r indented id (top & Hin & Ho); cbn in Hin; destruct Hin as [<-|[<-|[]]]; apply (all_sub_spec (fun q => match q with RLines _ _ _ => false | _ => true end)) in Ho; try reflexivity; discriminate|].
  split; [apply repeated_check; vm_compute; reflexivity|]. split; [apply names_ruleb_spec; vm_compute; reflexivity|].
    split; [exists 50; vm_compute; reflexivity|]. split; [split; [reflexivity|constructor]|].
    split; [exists 50; vm_compute; reflexivity|]. split; [split; [reflexivity|constructor]|].
    exists 50. vm_compute. reflexivity.
Qed.

(** ** Items of lists with separators *)

Lemma separated_items s name by_ : only_separated s name by_ -> only_items s name.
Proof.
  intros (Ht & Hb & H). split; [exact Ht|]. split.
  - intros r by' optional trail id Ho Hg. destruct (H _ by' Ho (or_intror (or_introl eq_refl)) Hg) as (o' & t' & id' & Heq). injection Heq; intros; subst. contradiction.
  - intros r c Ho Hc Hg. destruct (H _ _ Ho Hc Hg) as (optional & trail & id & ->). eexists. apply list_separate.
Qed.

Theorem item_separated E : ext_ok E -> strings_end E -> forall s, valid s -> well_formed s -> clear E s ->
  forall name i by_, only_separated s name by_ -> names_rule s name i ->
  forall text tokens ind new before o inner n after, parse_returns E s text tokens ind None (tokens ++ new) -> node_at new before name o inner n after ->
  forall text2 tokens2 ind2 new2 before2 o2 inner2 n2 after2,
  parse_returns E s text2 tokens2 ind2 None (tokens2 ++ new2) -> node_at new2 before2 name o2 inner2 n2 after2 ->
  forall b bs, places E (s_rules s) by_ (o + n) b bs ->
  let y := firstn n2 (skipn o2 text2) in let p := o + n + length b in columns_fit ind (edited (o + n) 0 (b ++ y) text) ->
  exists data after', inner2 = moved_by o2 data /\ length y = n2 /\ Forall2 (adjusted (o + n) 0 (length b + n2)) after after' /\
    parse_returns E s (edited (o + n) 0 (b ++ y) text) tokens ind None
      (tokens ++ before ++ ((Rng o 0, StartNode name) :: inner ++ [(Rng o n, EndNode name)]) ++ bs ++
       ((Rng p 0, StartNode name) :: moved_by p data ++ [(Rng p n2, EndNode name)]) ++ after').
Proof.
  intros HE Hs s Hv Hw Hc name i by_ Honly Hname text tokens ind new before o inner n after H Hn text2 tokens2 ind2 new2 before2 o2 inner2 n2 after2 H2 Hn2 b bs Hb y p Hf.
  destruct (items_replaced E HE Hs s Hv Hw Hc name (separated_items _ _ _ Honly) _ _ _ _ _ _ _ _ _ H Hn) as (r & c & l & A1 & A2 & A3 & A4 & A5).
  destruct (node_length E s _ _ _ _ _ _ _ _ _ _ HE Hc H Hn) as (_ & _ & _ & _ & _ & _ & L1 & _).
  destruct (node_length E s _ _ _ _ _ _ _ _ _ _ HE Hc H2 Hn2) as (rf & j & jd & q & B1 & B2 & L2 & B3).
  assert (Hly : length y = n2) by (unfold y; rewrite firstn_length, skipn_length; lia).
  assert (Hlm : length (firstn n (skipn o text)) = n) by (rewrite firstn_length, skipn_length; lia).
  destruct (proj1 (places_back E (s_rules s) o2) _ _ _ _ B3 0 ltac:(lia)) as (data & -> & K0).
  pose proof (proj1 (places_moved E (s_rules s) p) _ _ _ _ K0) as Ko. rewrite Nat.add_0_r in Ko. fold y in Ko. clearbody y.
  assert (Hoc : occurs s c) by (eapply occurs_child; [exact A1|exact (list_child _ _ _ A2)]).
  destruct A3 as (ref & index & id & ->).
  assert (Hix : index = Some j).
  { clear - A4 Hname Hoc B1. inversion A4; subst. f_equal. rewrite (Hname _ _ _ Hoc), (Hname _ _ _ B1). reflexivity. }
  subst index. pose proof (at_node E (s_rules s) ref (Some name) j id q p y _ B2 Ko) as Hy. cbn [token app] in Hy. rewrite Hly in Hy.
  assert (Hrep : exists optional trail d, r = RSeparateBy (RNode ref (Some name) (Some j) id) by_ optional trail d).
  { apply (proj2 (proj2 Honly)); [exact A1|exact (list_child _ _ _ A2)|eexists _, _, _; reflexivity]. }
  destruct Hrep as (optional & trail & d & ->).
  assert (Hl : l = RSeparateBy (RNode ref (Some name) (Some j) id) by_ false false d) by (clear - A2; inversion A2; reflexivity).
  subst l. rewrite edited_behind in Hf. rewrite edited_behind. set (x := firstn n (skipn o text)) in *.
  destruct (A5 (x ++ b ++ y ++ []) (((Rng o 0, StartNode name) :: inner ++ [(Rng o n, EndNode name)]) ++ bs ++
    ((Rng p 0, StartNode name) :: moved_by p data ++ [(Rng p n2, EndNode name)]) ++ [])) as (after' & C1 & C2).
  - apply at_separate; [exact A4|]. rewrite Hlm. apply at_more_item; [exact Hb|exact Hy|constructor].
  - rewrite app_nil_r. exact Hf.
  - rewrite app_nil_r in C1, C2. exists data, after'. split; [reflexivity|]. split; [exact Hly|]. split.
    + eapply forall2_impl; [|exact C1]. intros t0 t1 Ht. rewrite !app_length, Hlm, Hly in Ht. apply adjusted_behind. exact Ht.
    + rewrite app_nil_r in C2. rewrite <- !app_assoc in C2. exact C2.
Qed.

(** ** Examples *)

(** The item `yz=20;` put behind `x=1;` in `x=1;x=1;`, and the first item taken out. *)
Lemma entries_items :
  (valid entries /\ well_formed entries /\ clear std_ext entries) /\ only_repeated entries (tx "entry") /\ names_rule entries (tx "entry") 0 /\
  only_optional entries (tx "entry") /\
  let text := tx "x=1;x=1;" in let first := entry_at 0 (tx "x") 1 one 4 in
  parse_returns std_ext entries text [] indent_default None (first ++ entry_at 4 (tx "x") 1 one 4) /\
  node_at (first ++ entry_at 4 (tx "x") 1 one 4) [] (tx "entry") 0 [(Rng 0 1, MString (tx "key") (tx "x")); (Rng 2 1, MF64 (tx "value") one)] 4
    (entry_at 4 (tx "x") 1 one 4) /\
  edited 4 0 (tx "yz=20;") text = tx "x=1;yz=20;x=1;" /\
  parse_returns std_ext entries (tx "x=1;yz=20;x=1;") [] indent_default None
    (first ++ entry_at 4 (tx "yz") 2 twenty 6 ++ entry_at 10 (tx "x") 1 one 4) /\
  edited 0 4 [] text = tx "x=1;" /\
  parse_returns std_ext entries (tx "x=1;") [] indent_default None first.
Proof.
  split; [exact (fine_clear _ (proj1 entries_fine))|]. split; [apply repeated_check; vm_compute; reflexivity|].
  split; [apply names_ruleb_spec; vm_compute; reflexivity|]. split; [apply optional_check; vm_compute; reflexivity|]. cbv zeta.
  split; [exists 100; vm_compute; reflexivity|]. split; [split; [reflexivity|apply nestedb_spec; reflexivity]|].
  split; [reflexivity|]. split; [exists 100; vm_compute; reflexivity|]. split; [reflexivity|exists 100; vm_compute; reflexivity].
Qed.

(** [0 item = ["<" .$:"v" ">"]
     1 doc = ["[" .s?(",") (item:"item") "]"]] *)
Definition shelf : syntax :=
  Syn [RSequence [t (tx "<") 1; RNumber false (Some (tx "v")) 2; t (tx ">") 3] 4;
       RSequence [t (tx "[") 5; RSeparateBy (RNode (tx "item") (Some (tx "item")) (Some 0) 6) (t (tx ",") 7) true true 8; t (tx "]") 9] 10] [tx "item"; tx "doc"].

Definition item_at (p n : nat) (v : f64) : list tok :=
  [(Rng p 0, StartNode (tx "item")); (Rng (p + 1) n, MF64 (tx "v") v); (Rng p (n + 2), EndNode (tx "item"))].

(** The item `<20>` put behind `<1>` in `[<1>,]`. *)
Lemma shelf_items :
  (valid shelf /\ well_formed shelf /\ clear std_ext shelf) /\ only_separated shelf (tx "item") (t (tx ",") 7) /\ names_rule shelf (tx "item") 0 /\
  parse_returns std_ext shelf (tx "[<1>,]") [] indent_default None (item_at 1 1 one) /\
  node_at (item_at 1 1 one) [] (tx "item") 1 [(Rng 2 1, MF64 (tx "v") one)] 3 [] /\
  places std_ext (s_rules shelf) (t (tx ",") 7) 4 (tx ",") [] /\
  edited 4 0 (tx "," ++ tx "<20>")%list (tx "[<1>,]") = tx "[<1>,<20>,]" /\
  parse_returns std_ext shelf (tx "[<1>,<20>,]") [] indent_default None (item_at 1 1 one ++ item_at 5 2 twenty).
Proof.
  split; [apply fine_clear; vm_compute; reflexivity|].
  set (f := fun r => match r with
    | RSeparateBy _ (RTag text false false None id) _ _ _ => (if list_eq_dec N.eq_dec text (tx ",") then true else false) && (id =? 7)%N
    | _ => forallb (fun c => negb (gives_nodeb (tx "item") c)) (children r) end).
  assert (Hf : forall r, occurs shelf r -> f r = true).
  { intros r (top & Hin & Ho). cbn in Hin. destruct Hin as [<-|[<-|[]]]; apply (all_sub_spec f) in Ho; try (vm_compute; reflexivity); exact Ho. }
  split; [split; [|split]|].
  - intros r Hin Hg. apply gives_nodeb_spec in Hg. cbn in Hin. destruct Hin as [<-|[<-|[]]]; discriminate.
  - intros Hg. apply gives_nodeb_spec in Hg. discriminate.
  - intros r c Ho Hc Hg. apply Hf in Ho. pose proof (gives_nodeb_spec _ _ Hg) as Hb.
    assert (Hno : forallb (fun c => negb (gives_nodeb (tx "item") c)) (children r) = true -> False).
    { intros K. rewrite forallb_forall in K. specialize (K c Hc). rewrite Hb in K. discriminate. }
    destruct r as [| | | | | | | | |r by_ optional trail id| | | | |]; try (destruct (Hno Ho)); try contradiction.
    destruct by_ as [|text [] [] [] id0| | | | | | | | | | | | |]; try (destruct (Hno Ho)).
    cbn [f] in Ho. apply andb_true_iff in Ho as [Ho1 Ho2]. apply N.eqb_eq in Ho2. subst id0.
    destruct (list_eq_dec N.eq_dec text (tx ",")) as [->|]; [|discriminate].
    destruct Hc as [<-|[<-|[]]]; [eauto|discriminate].
  - split; [apply names_ruleb_spec; vm_compute; reflexivity|]. split; [exists 100; vm_compute; reflexivity|].
    split; [split; [reflexivity|apply nestedb_spec; reflexivity]|]. split; [exact (at_tag _ _ (tx ",") false None 7 4)|].
    split; [reflexivity|exists 100; vm_compute; reflexivity].
Qed.

(** The array in `[1,[]]` replaced by another alternative of a value. *)
Lemma json_items :
  (valid json_syntax /\ well_formed json_syntax /\ clear std_ext json_syntax) /\ only_items json_syntax (tx "array") /\ exists one,
  parse_returns std_ext json_syntax (tx "[1,[]]") [] indent_default None (target_data one) /\
  node_at (target_data one) [arr 0; (Rng 1 1, MF64 (tx "num") one)] (tx "array") 3 [] 2 [rra 0 6] /\
  edited 3 2 (tx "true") (tx "[1,[]]") = tx "[1,true]" /\
  parse_returns std_ext json_syntax (tx "[1,true]") [] indent_default None
    [arr 0; (Rng 1 1, MF64 (tx "num") one); (Rng 3 4, MBool (tx "bool") true); rra 0 8].
Proof.
  split; [exact json_clear|]. split; [apply only_itemsb_spec; vm_compute; reflexivity|]. eexists.
  split; [exists 200; vm_compute; reflexivity|]. split; [split; [reflexivity|constructor]|].
  split; [reflexivity|exists 200; vm_compute; reflexivity].
Qed.
