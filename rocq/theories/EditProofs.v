(** C97: nodes may be replaced by others of the same rule. *)
From Coq Require Import Ascii String List NArith Bool Arith Lia.
From Verif Require Import Base Ext Types ParseModel OptimizeModel PegSpec DataSpec ApiSpec OptSpec ExtProofs PegFacts ParseProofs OptPublic
  ParsePublic TotalSpec TotalProofs TotalCheck ShapeSpec GrammarSpec GrammarProofs GrammarCheck GrammarPublic PlaceSpec PlaceProofs PlacePublic
  JsonSpec JsonProofs3 LeftProofs2 EditSpec OccursProofs DataCheck AtEnd Examples.
Import ListNotations.
Local Open Scope string_scope.
Local Open Scope list_scope.
Local Open Scope nat_scope.

(** ** Where a node is *)

Lemma places_nested E refs :
  (forall r p x ts, places E refs r p x ts -> nested (map snd ts)) /\
  (forall args p x ts, places_all E refs args p x ts -> nested (map snd ts)) /\
  (forall r k p x ts, places_times E refs r k p x ts -> nested (map snd ts)) /\
  (forall r by_ trail p x ts, places_more E refs r by_ trail p x ts -> nested (map snd ts)).
Proof.
  apply places_mutind; intros; rewrite ?map_app; auto using nested_nil, nested_app.
  all: try (destruct property; cbn; repeat constructor; fail).
  destruct property as [name'|]; cbn [token map snd app]; [|rewrite app_nil_r; assumption].
  apply (nested_node name' (map snd ts) []); [assumption|constructor].
Qed.

(** A node of [a ++ b] is in [a] or in [b]. *)
Lemma node_split a b before name o inner n after : nested (map snd a) -> node_at (a ++ b) before name o inner n after ->
  (exists after1, node_at a before name o inner n after1 /\ after = after1 ++ b) \/
  (exists before2, before = a ++ before2 /\ node_at b before2 name o inner n after).
Proof.
  intros Ha [H Hi].
  assert (Hc : forall x y : list tok, a = before ++ (Rng o 0, StartNode name) :: x -> inner = x ++ y -> False).
  { intros x y -> ->. pose proof (nested_balanced _ Ha) as Hb. rewrite map_app in Ha.
    pose proof (nested_prefix _ Ha _ _ eq_refl) as Hp. rewrite map_app in Hi. pose proof (nested_prefix _ Hi _ _ eq_refl) as Hq.
    rewrite map_app, opened_app', closed_app' in Hb. cbn [map snd opened closed] in Hb. lia. }
  apply app_split in H as [(l & Hl & H)|(l & Hl & H)].
  - right. exists l. split; [exact Hl|]. split; [exact H|exact Hi].
  - destruct l as [|t l].
    { right. exists []. rewrite app_nil_r in *. split; [symmetry; exact Hl|]. split; [symmetry; exact H|exact Hi]. }
    injection H as <- H. apply app_split in H as [(l' & -> & H)|(l' & -> & H)].
    + destruct l' as [|t l']; [destruct (Hc inner []); [rewrite Hl, app_nil_r; reflexivity|rewrite app_nil_r; reflexivity]|].
      injection H as <- ->. left. exists l'. split; [|reflexivity]. split; [exact Hl|exact Hi].
    + destruct (Hc l l'); [exact Hl|reflexivity].
Qed.

Section Edit.
  Variable E : ext.
  Variable syn : syntax.
  Notation refs := (s_rules syn).

  (** A node of the data [ts] of the text [x] at [p] may be replaced, such that [G] holds of the text and the data. *)
  Definition edit_ok (p : nat) (x : str) (ts : list tok) (G : str -> list tok -> Prop) : Prop :=
    forall before name o inner n after, node_at ts before name o inner n after ->
    exists reference i id r a mid z, occurs syn (RNode reference (Some name) (Some i) id) /\ nth_error refs i = Some r /\
      x = a ++ mid ++ z /\ o = p + length a /\ n = length mid /\ places E refs r o mid inner /\
      forall y inner', places E refs r o y inner' -> exists after', Forall2 (adjusted o n (length y)) after after' /\
        G (a ++ y ++ z) (before ++ (Rng o 0, StartNode name) :: inner' ++ (Rng o (length y), EndNode name) :: after').

  Lemma edit_mono p x ts (G G' : str -> list tok -> Prop) : (forall x' ts', G x' ts' -> G' x' ts') -> edit_ok p x ts G -> edit_ok p x ts G'.
  Proof.
    intros HG H before name o inner n after Hn. destruct (H _ _ _ _ _ _ Hn) as (reference & i & id & r & a & mid & z & H1 & H2 & H3 & H4 & H5 & H6 & H7).
    exists reference, i, id, r, a, mid, z. do 6 (split; [assumption|]). intros y inner' Hy. destruct (H7 y inner' Hy) as (after' & H8 & H9). eauto.
  Qed.

  Lemma edit_leaf p x ts G : (forall r name, ~ In (r, StartNode name) ts) -> edit_ok p x ts G.
  Proof. intros H before name o inner n after [-> _]. destruct (H (Rng o 0) name). apply in_or_app. right. left. reflexivity. Qed.

  Lemma adjusted_moved o n m d ts : o + n <= d -> Forall2 (adjusted o n m) (moved_by d ts) (moved_by (d - n + m) ts).
  Proof.
    intros H. unfold moved_by. induction ts as [|t ts IH]; cbn [map]; constructor; [|exact IH].
    split; [reflexivity|]. left. cbn [fst r_off r_len]. split; [lia|]. f_equal. lia.
  Qed.

  Lemma edit_app p x ts y ts0 (G1 : str -> list tok -> Prop) (G2 : nat -> str -> list tok -> Prop) (G : str -> list tok -> Prop) :
    nested (map snd ts) -> G1 x ts -> (forall q, G2 q y (moved_by q ts0)) ->
    edit_ok p x ts G1 -> edit_ok (p + length x) y (moved_by (p + length x) ts0) (G2 (p + length x)) ->
    (forall x' u y' u', G1 x' u -> G2 (p + length x') y' u' -> G (x' ++ y') (u ++ u')) ->
    edit_ok p (x ++ y) (ts ++ moved_by (p + length x) ts0) G.
  Proof.
    intros Hne H1 H2 E1 E2 HG before name o inner n after Hn.
    apply node_split in Hn as [(after1 & Hn & ->)|(before2 & -> & Hn)]; [| |exact Hne].
    - destruct (E1 _ _ _ _ _ _ Hn) as (reference & i & id & r & a & mid & z & K1 & K2 & K3 & K4 & K5 & K6 & K7).
      exists reference, i, id, r, a, mid, (z ++ y). split; [exact K1|]. split; [exact K2|]. split; [rewrite K3, <- !app_assoc; reflexivity|].
      do 3 (split; [assumption|]). intros y' inner' Hy. destruct (K7 y' inner' Hy) as (after' & K8 & K9).
      assert (Hl : p + length (a ++ y' ++ z) = p + length x - n + length y') by (rewrite K3, K5, !app_length; lia).
      exists (after' ++ moved_by (p + length (a ++ y' ++ z)) ts0). split.
      + apply Forall2_app; [exact K8|]. rewrite Hl. apply adjusted_moved. rewrite K3, !app_length. lia.
      + pose proof (HG _ _ _ _ K9 (H2 (p + length (a ++ y' ++ z)))) as HH.
        rewrite <- !app_assoc in HH. cbn [app] in HH. rewrite <- !app_assoc in HH. cbn [app] in HH. exact HH.
    - destruct (E2 _ _ _ _ _ _ Hn) as (reference & i & id & r & a & mid & z & K1 & K2 & K3 & K4 & K5 & K6 & K7).
      exists reference, i, id, r, (x ++ a), mid, z. split; [exact K1|]. split; [exact K2|]. split; [rewrite K3, <- !app_assoc; reflexivity|].
      split; [rewrite app_length; lia|]. do 2 (split; [assumption|]). intros y' inner' Hy. destruct (K7 y' inner' Hy) as (after' & K8 & K9).
      exists after'. split; [exact K8|]. rewrite <- !app_assoc. apply HG; assumption.
  Qed.

  Lemma token_leaf property rg (f : str -> metadata) : (forall n, leaf (f n)) -> forall r name, ~ In (r, StartNode name) (token property rg f).
  Proof. intros Hf r name. destruct property as [q|]; [|intros []]. intros [H|[]]. injection H as _ H. specialize (Hf q). rewrite H in Hf. exact Hf. Qed.

  (** A node and what is in it. *)
  Lemma edit_node p x ts nm reference i id r : occurs syn (RNode reference (Some nm) (Some i) id) -> nth_error refs i = Some r ->
    places E refs r p x ts -> edit_ok p x ts (places E refs r p) ->
    edit_ok p x ((Rng p 0, StartNode nm) :: ts ++ [(Rng p (length x), EndNode nm)]) (places E refs (RNode reference (Some nm) (Some i) id) p).
  Proof.
    intros Ho Hi Hp IH before name o inner n after [H Hin]. pose proof (proj1 (places_nested E refs) _ _ _ _ Hp) as Hne.
    assert (Hmk : forall y u, places E refs r p y u -> places E refs (RNode reference (Some nm) (Some i) id) p y
      ((Rng p 0, StartNode nm) :: u ++ [(Rng p (length y), EndNode nm)])).
    { intros y u Hy. exact (at_node E refs reference (Some nm) i id r p y u Hi Hy). }
    destruct before as [|t before]; cbn [app] in H.
    - injection H as <- <- H.
      assert (Hx : inner = ts /\ n = length x /\ after = []).
      { apply app_split in H as [(m & -> & H)|(m & -> & H)].
        - destruct m as [|t m]; [injection H as <- <-; rewrite app_nil_r; auto|]. destruct m; discriminate.
        - destruct m as [|t m]; [injection H as -> ->; rewrite app_nil_r; auto|]. injection H as <- H. exfalso.
          rewrite map_app in Hne. cbn [map snd] in Hne.
          assert (Hne' : nested ((map snd inner ++ [EndNode nm]) ++ map snd m)) by (rewrite <- app_assoc; exact Hne).
          pose proof (nested_prefix _ Hne' _ _ eq_refl) as Hq. pose proof (nested_balanced _ Hin) as Hb.
          rewrite opened_app', closed_app' in Hq. cbn [opened closed] in Hq. lia. }
      destruct Hx as (-> & -> & ->). exists reference, i, id, r, [], x, []. split; [exact Ho|]. split; [exact Hi|].
      split; [rewrite app_nil_r; reflexivity|]. split; [cbn; lia|]. split; [reflexivity|]. split; [exact Hp|].
      intros y inner' Hy. exists []. split; [constructor|]. cbn [app]. rewrite app_nil_r. apply Hmk. exact Hy.
    - injection H as <- H.
      destruct (node_split ts [(Rng p (length x), EndNode nm)] before name o inner n after Hne (conj H Hin)) as [(after1 & Hn & ->)|(b2 & _ & Hn & _)].
      + destruct (IH _ _ _ _ _ _ Hn) as (rf & j & id' & r' & a & mid & z & K1 & K2 & K3 & K4 & K5 & K6 & K7).
        exists rf, j, id', r', a, mid, z. do 6 (split; [assumption|]). intros y inner' Hy. destruct (K7 y inner' Hy) as (after' & K8 & K9).
        exists (after' ++ [(Rng p (length (a ++ y ++ z)), EndNode nm)]). split.
        * apply Forall2_app; [exact K8|]. constructor; [|constructor]. split; [reflexivity|]. right. cbn [fst snd r_off r_len].
          rewrite K3, K5, !app_length. split; [lia|]. split; [lia|]. split; [eexists; reflexivity|]. f_equal. lia.
        * apply Hmk in K9. rewrite <- !app_assoc in K9. cbn [app] in K9. rewrite <- !app_assoc in K9. cbn [app] in K9 |- *. exact K9.
      + destruct b2 as [|t [|t2 b2]]; discriminate.
  Qed.

  Lemma places_edit :
    (forall r p x ts, places E refs r p x ts -> occurs syn r -> edit_ok p x ts (places E refs r p)) /\
    (forall args p x ts, places_all E refs args p x ts -> Forall (occurs syn) args -> edit_ok p x ts (places_all E refs args p)) /\
    (forall r k p x ts, places_times E refs r k p x ts -> occurs syn r -> edit_ok p x ts (places_times E refs r k p)) /\
    (forall r by_ trail p x ts, places_more E refs r by_ trail p x ts -> occurs syn r -> occurs syn by_ ->
       edit_ok p x ts (places_more E refs r by_ trail p)).
  Proof.
    destruct (places_nested E refs) as (N1 & N2 & N3 & N4).
    assert (B : forall (d : nat), _) by (intros d; exact (places_back E refs d)).
    assert (M : forall (d : nat), _) by (intros d; exact (places_moved E refs d)).
    assert (B1 : forall r p x ts, places E refs r p x ts -> exists ts0, ts = moved_by p ts0 /\ forall q, places E refs r q x (moved_by q ts0)).
    { intros r p x ts H. destruct (proj1 (B p) _ _ _ _ H 0 ltac:(lia)) as (ts0 & -> & H0). exists ts0. split; [reflexivity|].
      intros q. pose proof (proj1 (M q) _ _ _ _ H0) as H1. rewrite Nat.add_0_r in H1. exact H1. }
    assert (B2 : forall args p x ts, places_all E refs args p x ts -> exists ts0, ts = moved_by p ts0 /\ forall q, places_all E refs args q x (moved_by q ts0)).
    { intros r p x ts H. destruct (proj1 (proj2 (B p)) _ _ _ _ H 0 ltac:(lia)) as (ts0 & -> & H0). exists ts0. split; [reflexivity|].
      intros q. pose proof (proj1 (proj2 (M q)) _ _ _ _ H0) as H1. rewrite Nat.add_0_r in H1. exact H1. }
    assert (B3 : forall r k p x ts, places_times E refs r k p x ts -> exists ts0, ts = moved_by p ts0 /\ forall q, places_times E refs r k q x (moved_by q ts0)).
    { intros r k p x ts H. destruct (proj1 (proj2 (proj2 (B p))) _ _ _ _ _ H 0 ltac:(lia)) as (ts0 & -> & H0). exists ts0. split; [reflexivity|].
      intros q. pose proof (proj1 (proj2 (proj2 (M q))) _ _ _ _ _ H0) as H1. rewrite Nat.add_0_r in H1. exact H1. }
    assert (B4 : forall r by_ trail p x ts, places_more E refs r by_ trail p x ts -> exists ts0, ts = moved_by p ts0 /\ forall q, places_more E refs r by_ trail q x (moved_by q ts0)).
    { intros r by_ trail p x ts H. destruct (proj2 (proj2 (proj2 (B p))) _ _ _ _ _ _ H 0 ltac:(lia)) as (ts0 & -> & H0). exists ts0. split; [reflexivity|].
      intros q. pose proof (proj2 (proj2 (proj2 (M q))) _ _ _ _ _ _ H0) as H1. rewrite Nat.add_0_r in H1. exact H1. }
    clear B M.
    apply places_mutind; intros.
    all: try (apply edit_leaf; first [intros ? ? []|apply token_leaf; intros; exact I]; fail).
    - (* sequence *) eapply edit_mono; [intros; apply at_sequence; eassumption|]. apply H0. apply Forall_forall. intros q Hq. eapply occurs_child; [eassumption|exact Hq].
    - eapply edit_mono; [intros; eapply at_select; eassumption|]. apply H1. eapply occurs_child; [eassumption|exact H].
    - eapply edit_mono; [intros; eapply at_fast; eassumption|]. apply H1. eapply occurs_child; [eassumption|exact H].
    - eapply edit_mono; [intros; eapply at_repeat; eassumption|]. apply H0. eapply occurs_child; [eassumption|left; reflexivity].
    - (* list *) destruct (B4 _ _ _ _ _ _ H1) as (ts0 & -> & Hm).
      eapply (edit_app p x ts y ts0 (places E refs r p) (places_more E refs r by_ trail)); [eapply N1; eassumption|assumption|exact Hm| | |].
      + apply H0. eapply occurs_child; [eassumption|left; reflexivity].
      + apply H2; (eapply occurs_child; [eassumption|]); [left|right; left]; reflexivity.
      + intros. apply at_separate; assumption.
    - (* node *) assert (Ho : occurs syn r) by (exists r; split; [eapply nth_error_In; eassumption|apply occurs_here]).
      destruct property as [nm|]; cbn [token app].
      + eapply edit_node; try eassumption. apply H1. exact Ho.
      + rewrite app_nil_r. eapply edit_mono; [|apply H1; exact Ho]. intros x' u Hu.
        pose proof (at_node E refs name None i id r p x' u H Hu) as Hx. cbn [token app] in Hx. rewrite app_nil_r in Hx. exact Hx.
    - eapply edit_mono; [intros; apply at_optional; eassumption|]. apply H0. eapply occurs_child; [eassumption|left; reflexivity].
    - (* all *) match goal with G : Forall _ (_ :: _) |- _ => inversion G; subst; clear G end. destruct (B2 _ _ _ _ H1) as (ts0 & -> & Hm).
      eapply (edit_app p x ts y ts0 (places E refs r p) (places_all E refs rest)); [eapply N1; eassumption|assumption|exact Hm|auto|auto|].
      intros. apply at_all_cons; assumption.
    - (* times *) destruct (B3 _ _ _ _ _ H1) as (ts0 & -> & Hm).
      eapply (edit_app p x ts y ts0 (places E refs r p) (places_times E refs r k)); [eapply N1; eassumption|assumption|exact Hm|auto|auto|].
      intros. apply at_times_S; assumption.
    - (* more *) eapply edit_mono; [intros; apply at_more_trail; eassumption|]. auto.
    - set (G2 := fun q yz us => exists y z u u', yz = y ++ z /\ us = u ++ u' /\ places E refs r q y u /\ places_more E refs r by_ trail (q + length y) z u').
      destruct (B1 _ _ _ _ H1) as (t1 & -> & Hm1). destruct (B4 _ _ _ _ _ _ H3) as (t2 & -> & Hm2).
      assert (Hmm : forall q, G2 q (y ++ z) (moved_by q (t1 ++ moved_by (length y) t2))).
      { intros q. exists y, z, (moved_by q t1), (moved_by (q + length y) t2). split; [reflexivity|]. split; [|split; [apply Hm1|apply Hm2]].
        rewrite moved_app. f_equal. unfold moved_by. rewrite map_map. apply map_ext. intros t0. cbn [fst snd r_off r_len]. rewrite Nat.add_assoc. reflexivity. }
      replace (moved_by (p + length x) t1 ++ moved_by (p + length x + length y) t2) with (moved_by (p + length x) (t1 ++ moved_by (length y) t2)).
      2:{ rewrite moved_app. f_equal. unfold moved_by. rewrite map_map. apply map_ext. intros t0. cbn [fst snd r_off r_len]. rewrite Nat.add_assoc. reflexivity. }
      eapply (edit_app p x ts (y ++ z) _ (places E refs by_ p) G2); [eapply N1; eassumption|assumption|exact Hmm|auto| |].
      + replace (moved_by (p + length x) (t1 ++ moved_by (length y) t2)) with (moved_by (p + length x) t1 ++ moved_by (p + length x + length y) t2).
        2:{ rewrite moved_app. f_equal. unfold moved_by. rewrite map_map. apply map_ext. intros t0. cbn [fst snd r_off r_len]. rewrite Nat.add_assoc. reflexivity. }
        eapply (edit_app (p + length x) y (moved_by (p + length x) t1) z t2 (places E refs r (p + length x)) (places_more E refs r by_ trail));
          [eapply N1; eassumption|assumption|exact Hm2|auto|auto|].
        intros x' u y' u' Hx Hy. exists x', y', u, u'. auto.
      + intros x' u y' u' Hx (y1 & z1 & u1 & u2 & -> & -> & Hy & Hz). eapply at_more_item; eassumption.
  Qed.
End Edit.

Lemma has_start E s text tokens ind tokens' : ext_ok E -> parse_returns E s text tokens ind None tokens' -> exists r, start_rule s r.
Proof. intros HE Hp. apply (parse_accepts E HE) in Hp. destruct Hp as (out & Ha & _). destruct Ha as [q out ind' tr Hq _]. eauto. Qed.

Theorem replaced E : ext_ok E -> strings_end E -> forall s, valid s -> well_formed s -> clear E s ->
  forall text tokens ind new before name o inner n after,
  parse_returns E s text tokens ind None (tokens ++ new) -> node_at new before name o inner n after ->
  exists reference i id r, occurs s (RNode reference (Some name) (Some i) id) /\ nth_error (s_rules s) i = Some r /\
    places E (s_rules s) r o (firstn n (skipn o text)) inner /\
    forall y inner', places E (s_rules s) r o y inner' -> columns_fit ind (edited o n y text) ->
    exists after', Forall2 (adjusted o n (length y)) after after' /\
      parse_returns E s (edited o n y text) tokens ind None
        (tokens ++ before ++ (Rng o 0, StartNode name) :: inner' ++ (Rng o (length y), EndNode name) :: after').
Proof.
  intros HE Hs s Hv Hw Hc text tokens ind new before name o inner n after H Hn.
  destruct (has_start E s _ _ _ _ HE H) as (start & Hr).
  pose proof (parse_placed E HE s (clear_no_lines E s Hc) start Hr text tokens ind new H) as Hp.
  destruct (proj1 (places_edit E s) _ _ _ _ Hp (start_occurs _ _ Hr) _ _ _ _ _ _ Hn) as
    (reference & i & id & r & a & mid & z & K1 & K2 & K3 & K4 & K5 & K6 & K7).
  exists reference, i, id, r. split; [exact K1|]. split; [exact K2|]. cbn [Nat.add] in K4. rewrite K4, K5 in *. unfold edited.
  assert (Ha : firstn (length a) text = a) by (rewrite K3, firstn_app, Nat.sub_diag, firstn_all, firstn_O, app_nil_r; reflexivity).
  assert (Hb : skipn (length a) text = mid ++ z) by (rewrite K3, skipn_app, Nat.sub_diag, skipn_all; reflexivity).
  assert (Hz : skipn (length a + length mid) text = z).
  { rewrite K3, app_assoc, <- app_length, skipn_app, Nat.sub_diag, skipn_all. reflexivity. }
  assert (Hm : firstn (length mid) (skipn (length a) text) = mid) by (rewrite Hb, firstn_app, Nat.sub_diag, firstn_all, firstn_O, app_nil_r; reflexivity).
  rewrite Hm, Ha, Hz. split; [exact K6|]. intros y inner' Hy Hf. destruct (K7 y inner' Hy) as (after' & K8 & K9).
  exists after'. split; [exact K8|]. apply (clear_placed E HE Hs s Hv Hw Hc start Hr _ ind Hf). exact K9.
Qed.

Theorem pasted E : ext_ok E -> strings_end E -> forall s, valid s -> well_formed s -> clear E s ->
  forall name i, names_rule s name i ->
  forall text tokens ind new before o inner n after, parse_returns E s text tokens ind None (tokens ++ new) -> node_at new before name o inner n after ->
  forall text2 tokens2 ind2 new2 before2 o2 inner2 n2 after2,
  parse_returns E s text2 tokens2 ind2 None (tokens2 ++ new2) -> node_at new2 before2 name o2 inner2 n2 after2 ->
  let y := firstn n2 (skipn o2 text2) in columns_fit ind (edited o n y text) ->
  exists data after', inner2 = moved_by o2 data /\ length y = n2 /\ Forall2 (adjusted o n n2) after after' /\
    parse_returns E s (edited o n y text) tokens ind None
      (tokens ++ before ++ (Rng o 0, StartNode name) :: moved_by o data ++ (Rng o n2, EndNode name) :: after').
Proof.
  intros HE Hs s Hv Hw Hc name i Hname text tokens ind new before o inner n after H Hn text2 tokens2 ind2 new2 before2 o2 inner2 n2 after2 H2 Hn2 y Hf.
  destruct (replaced E HE Hs s Hv Hw Hc _ _ _ _ _ _ _ _ _ _ H Hn) as (ref1 & i1 & id1 & r1 & A1 & A2 & _ & A4).
  destruct (has_start E s _ _ _ _ HE H2) as (start & Hr).
  pose proof (parse_placed E HE s (clear_no_lines E s Hc) start Hr text2 tokens2 ind2 new2 H2) as Hp.
  destruct (proj1 (places_edit E s) _ _ _ _ Hp (start_occurs _ _ Hr) _ _ _ _ _ _ Hn2) as
    (ref2 & i2 & id2 & r2 & a & mid & z & K1 & K2 & K3 & K4 & K5 & K6 & _).
  assert (Hy : y = mid).
  { unfold y. cbn [Nat.add] in K4. rewrite K4, K5, K3, skipn_app, Nat.sub_diag, skipn_all. cbn [app skipn].
    rewrite firstn_app, Nat.sub_diag, firstn_all, firstn_O, app_nil_r. reflexivity. }
  rewrite (Hname _ _ _ A1) in A2. rewrite (Hname _ _ _ K1), A2 in K2. injection K2 as <-.
  destruct (proj1 (places_back E (s_rules s) o2) _ _ _ _ K6 0 ltac:(lia)) as (data & -> & K0).
  pose proof (proj1 (places_moved E (s_rules s) o) _ _ _ _ K0) as Ko. rewrite Nat.add_0_r in Ko. rewrite <- Hy in Ko.
  destruct (A4 y _ Ko Hf) as (after' & A5 & A6). exists data, after'. rewrite Hy in A5, A6 |- *. rewrite <- K5 in A5, A6 |- *.
  split; [reflexivity|]. split; [reflexivity|]. split; [exact A5|exact A6].
Qed.

Theorem pasted_optimized E : ext_ok E -> strings_end E -> forall s s', valid s -> well_formed s -> clear E s ->
  optimize_returns s s' -> tails_fail_at_end E s -> forall name i, names_rule s name i ->
  forall text tokens ind new before o inner n after, Forall real_char text ->
  parse_returns E s' text tokens ind None (tokens ++ new) -> node_at new before name o inner n after ->
  forall text2 tokens2 ind2 new2 before2 o2 inner2 n2 after2, Forall real_char text2 ->
  parse_returns E s' text2 tokens2 ind2 None (tokens2 ++ new2) -> node_at new2 before2 name o2 inner2 n2 after2 ->
  let y := firstn n2 (skipn o2 text2) in columns_fit ind (edited o n y text) ->
  exists data after', inner2 = moved_by o2 data /\ length y = n2 /\ Forall2 (adjusted o n n2) after after' /\
    parse_returns E s' (edited o n y text) tokens ind None
      (tokens ++ before ++ (Rng o 0, StartNode name) :: moved_by o data ++ (Rng o n2, EndNode name) :: after').
Proof.
  intros HE Hs s s' Hv Hw Hc Ho Ht name i Hname text tokens ind new before o inner n after Hreal H Hn
    text2 tokens2 ind2 new2 before2 o2 inner2 n2 after2 Hreal2 H2 Hn2 y Hf.
  apply (optimize_accepts E HE s s' Ho Ht text tokens ind Hreal) in H.
  apply (optimize_accepts E HE s s' Ho Ht text2 tokens2 ind2 Hreal2) in H2.
  destruct (pasted E HE Hs s Hv Hw Hc name i Hname _ _ _ _ _ _ _ _ _ H Hn _ _ _ _ _ _ _ _ _ H2 Hn2 Hf) as (data & after' & K1 & K2 & K3 & K4).
  exists data, after'. do 3 (split; [assumption|]). apply (optimize_accepts E HE s s' Ho Ht _ tokens ind (proj1 Hf)). exact K4.
Qed.

(** ** A syntax whose names have one rule each *)

Definition names_ruleb (s : syntax) (name : str) (i : nat) : bool :=
  forallb (all_sub (fun r => match r with RNode _ (Some q) (Some j) _ => if list_eq_dec N.eq_dec q name then j =? i else true | _ => true end)) (s_rules s).

Lemma names_ruleb_spec s name i : names_ruleb s name i = true -> names_rule s name i.
Proof.
  intros H reference j id (top & Hin & Ho). unfold names_ruleb in H. rewrite forallb_forall in H. specialize (H top Hin).
  apply (all_sub_spec _ _ H) in Ho. destruct (list_eq_dec N.eq_dec name name) as [_|Hne]; [|destruct (Hne eq_refl)]. apply Nat.eqb_eq. exact Ho.
Qed.

(** [0 w = {"ab" "a"}
     1 doc = {[w:"w" ";"] [w:"w" "bc"]}] *)
Definition unclear : syntax :=
  Syn [RSelect [t (tx "ab") 1; t (tx "a") 2] 3;
       RSelect [RSequence [RNode (tx "w") (Some (tx "w")) (Some 0) 4; t (tx ";") 5] 6;
                RSequence [RNode (tx "w") (Some (tx "w")) (Some 0) 7; t (tx "bc") 8] 9] 10] [tx "w"; tx "doc"].

Lemma unclear_refuted : exists s name i text new before o inner n after text2 new2 before2 o2 inner2 n2 after2 e left_,
  valid s /\ well_formed s /\ without_lines s /\ names_rule s name i /\
  parse_returns std_ext s text [] indent_default None new /\ node_at new before name o inner n after /\
  parse_returns std_ext s text2 [] indent_default None new2 /\ node_at new2 before2 name o2 inner2 n2 after2 /\
  parse_returns std_ext s (edited o n (firstn n2 (skipn o2 text2)) text) [] indent_default (Some e) left_.
Proof.
  exists unclear, (tx "w"), 0, (tx "abbc"), [(Rng 0 0, StartNode (tx "w")); (Rng 0 2, EndNode (tx "w"))], [], 0, [], 2, [].
  exists (tx "a;"), [(Rng 0 0, StartNode (tx "w")); (Rng 0 1, EndNode (tx "w"))], [], 0, [], 1, [].
  eexists. eexists. split; [apply validb_spec; vm_compute; reflexivity|]. split; [apply well_formedb_spec; vm_compute; reflexivity|].
  split; [intros r indented id (top & Hin & Ho); cbn in Hin; destruct Hin as [<-|[<-|[]]]; apply (all_sub_spec (fun q => match q with RLines _ _ _ => false | _ => true end)) in Ho; try reflexivity; discriminate|].
  split; [apply names_ruleb_spec; vm_compute; reflexivity|].
  split; [exists 50; vm_compute; reflexivity|]. split; [split; [reflexivity|constructor]|].
  split; [exists 50; vm_compute; reflexivity|]. split; [split; [reflexivity|constructor]|].
  exists 50. vm_compute. reflexivity.
Qed.

(** ** An array of one JSON document in another one *)

Lemma json_names : names_rule json_syntax (tx "array") 0.
Proof. apply names_ruleb_spec. vm_compute. reflexivity. Qed.

Definition arr (o : nat) : tok := (Rng o 0, StartNode (tx "array")).
Definition rra (o n : nat) : tok := (Rng o n, EndNode (tx "array")).

(** [[1,[]]] *)
Definition target_data (one : f64) : list tok := [arr 0; (Rng 1 1, MF64 (tx "num") one); arr 3; rra 3 2; rra 0 6].

Lemma json_pasted : exists one,
  parse_returns std_ext json_syntax (tx "[1,[]]") [] indent_default None (target_data one) /\
  node_at (target_data one) [arr 0; (Rng 1 1, MF64 (tx "num") one)] (tx "array") 3 [] 2 [rra 0 6] /\
  exists data, parse_returns std_ext json_syntax (tx "[true,[false]]") [] indent_default None data /\
  node_at data [arr 0; (Rng 1 4, MBool (tx "bool") true)] (tx "array") 6 [(Rng 7 5, MBool (tx "bool") false)] 7 [rra 0 14] /\
  edited 3 2 (firstn 7 (skipn 6 (tx "[true,[false]]"))) (tx "[1,[]]") = tx "[1,[false]]" /\
  parse_returns std_ext json_syntax (tx "[1,[false]]") [] indent_default None
    [arr 0; (Rng 1 1, MF64 (tx "num") one); arr 3; (Rng 4 5, MBool (tx "bool") false); rra 3 7; rra 0 11].
Proof.
  eexists. split; [exists 200; vm_compute; reflexivity|].
  split; [split; [reflexivity|constructor]|]. eexists. split; [exists 200; vm_compute; reflexivity|].
  split; [split; [reflexivity|apply nestedb_spec; reflexivity]|]. split; [reflexivity|].
  exists 200. vm_compute. reflexivity.
Qed.
