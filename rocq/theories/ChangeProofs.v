(** C103: values may be changed. *)
From Coq Require Import Ascii String List NArith Bool Arith Lia.
From Verif Require Import Base Ext Types ParseModel OptimizeModel PegSpec DataSpec ApiSpec OptSpec ExtProofs PegFacts ParseProofs OptPublic
  ParsePublic TotalSpec TotalProofs TotalCheck ShapeSpec GrammarSpec GrammarProofs GrammarCheck GrammarPublic PlaceSpec PlaceProofs PlacePublic
  OccursProofs EditSpec EditProofs ExchangeProofs ChangeSpec JsonModel JsonSpec JsonProofs2 JsonProofs3 LeftProofs2 DataCheck AtEnd Examples.
Import ListNotations.
Local Open Scope string_scope.
Local Open Scope list_scope.
Local Open Scope nat_scope.

(** An item of [a ++ b] is in [a] or in [b]. *)
Lemma item_split (a b before after : list tok) t : a ++ b = before ++ t :: after ->
  (exists after1, a = before ++ t :: after1 /\ after = after1 ++ b) \/ (exists before2, before = a ++ before2 /\ b = before2 ++ t :: after).
Proof.
  intros H. apply app_split in H as [(l & Hl & H)|(l & Hl & H)]; [right; exists l; split; assumption|].
  destruct l as [|u l]; [right; exists []; rewrite app_nil_r in *; split; [symmetry; exact Hl|symmetry; exact H]|].
  injection H as <- H. left. exists l. split; assumption.
Qed.

Section Change.
  Variable E : ext.
  Variable syn : syntax.
  Notation refs := (s_rules syn).

  (** A value of the data [ts] of the text [x] at [p] may be changed, such that [G] holds of the text and the data. *)
  Definition change_ok (p : nat) (x : str) (ts : list tok) (G : str -> list tok -> Prop) : Prop :=
    forall before t after, ts = before ++ t :: after -> leaf (snd t) ->
    exists r a mid z, occurs syn r /\ value_rule (value_name (snd t)) r /\
      x = a ++ mid ++ z /\ fst t = Rng (p + length a) (length mid) /\ places E refs r (p + length a) mid [t] /\
      forall y t', places E refs r (p + length a) y [t'] -> exists after', Forall2 (adjusted (p + length a) (length mid) (length y)) after after' /\
        G (a ++ y ++ z) (before ++ t' :: after').

  Lemma change_mono p x ts (G G' : str -> list tok -> Prop) : (forall x' ts', G x' ts' -> G' x' ts') -> change_ok p x ts G -> change_ok p x ts G'.
  Proof.
    intros HG H before t after Ht Hl. destruct (H _ _ _ Ht Hl) as (r & a & mid & z & H1 & H2 & H3 & H4 & H5 & H6).
    exists r, a, mid, z. do 5 (split; [assumption|]). intros y t' Hy. destruct (H6 y t' Hy) as (after' & H7 & H8). eauto.
  Qed.

  Lemma change_none p x G : change_ok p x [] G.
  Proof. intros before t after H. destruct before; discriminate. Qed.

  (** The rule of the value itself. *)
  Lemma change_here r property p x (f : str -> metadata) : occurs syn r ->
    (forall n, property = Some n -> value_rule (value_name (f n)) r) ->
    places E refs r p x (token property (Rng p (length x)) f) ->
    change_ok p x (token property (Rng p (length x)) f) (places E refs r p).
  Proof.
    intros Ho Hv H before t after Ht Hl. destruct property as [n|]; cbn [token] in *; [|destruct before; discriminate].
    destruct before as [|u before]; [|destruct before; discriminate]. injection Ht as <- <-.
    exists r, [], x, []. cbn [snd fst length app] in *. rewrite Nat.add_0_r, app_nil_r. split; [exact Ho|]. split; [apply Hv; reflexivity|].
    split; [reflexivity|]. split; [reflexivity|]. split; [exact H|]. intros y t' Hy. exists []. split; [constructor|]. rewrite app_nil_r. exact Hy.
  Qed.

  Lemma change_app p x ts y ts0 (G1 : str -> list tok -> Prop) (G2 : nat -> str -> list tok -> Prop) (G : str -> list tok -> Prop) :
    G1 x ts -> (forall q, G2 q y (moved_by q ts0)) ->
    change_ok p x ts G1 -> change_ok (p + length x) y (moved_by (p + length x) ts0) (G2 (p + length x)) ->
    (forall x' u y' u', G1 x' u -> G2 (p + length x') y' u' -> G (x' ++ y') (u ++ u')) ->
    change_ok p (x ++ y) (ts ++ moved_by (p + length x) ts0) G.
  Proof.
    intros H1 H2 E1 E2 HG before t after Ht Hl.
    apply item_split in Ht as [(after1 & Ht & ->)|(before2 & -> & Ht)].
    - destruct (E1 _ _ _ Ht Hl) as (r & a & mid & z & K1 & K2 & K3 & K4 & K5 & K6).
      exists r, a, mid, (z ++ y). split; [exact K1|]. split; [exact K2|]. split; [rewrite K3, <- !app_assoc; reflexivity|].
      do 2 (split; [assumption|]). intros y' t' Hy. destruct (K6 y' t' Hy) as (after' & K8 & K9).
      assert (Hq : p + length (a ++ y' ++ z) = p + length x - length mid + length y') by (rewrite K3, !app_length; lia).
      exists (after' ++ moved_by (p + length (a ++ y' ++ z)) ts0). split.
      + apply Forall2_app; [exact K8|]. rewrite Hq. apply adjusted_moved. rewrite K3, !app_length. lia.
      + pose proof (HG _ _ _ _ K9 (H2 (p + length (a ++ y' ++ z)))) as HH.
        rewrite <- !app_assoc in HH. cbn [app] in HH. exact HH.
    - destruct (E2 _ _ _ Ht Hl) as (r & a & mid & z & K1 & K2 & K3 & K4 & K5 & K6).
      assert (Hq : p + length (x ++ a) = p + length x + length a) by (rewrite app_length; lia).
      exists r, (x ++ a), mid, z. split; [exact K1|]. split; [exact K2|]. split; [rewrite K3, <- !app_assoc; reflexivity|].
      rewrite Hq. do 2 (split; [assumption|]). intros y' t' Hy. destruct (K6 y' t' Hy) as (after' & K8 & K9).
      exists after'. split; [exact K8|]. rewrite <- !app_assoc. apply HG; assumption.
  Qed.

  Lemma change_node p x ts nm reference i id r : nth_error refs i = Some r ->
    change_ok p x ts (places E refs r p) ->
    change_ok p x ((Rng p 0, StartNode nm) :: ts ++ [(Rng p (length x), EndNode nm)]) (places E refs (RNode reference (Some nm) (Some i) id) p).
  Proof.
    intros Hi IH before t after H Hl.
    assert (Hmk : forall y u, places E refs r p y u -> places E refs (RNode reference (Some nm) (Some i) id) p y
      ((Rng p 0, StartNode nm) :: u ++ [(Rng p (length y), EndNode nm)])).
    { intros y u Hy. exact (at_node E refs reference (Some nm) i id r p y u Hi Hy). }
    destruct before as [|u before]; cbn [app] in H; [injection H as <- _; destruct Hl|]. injection H as <- H.
    apply item_split in H as [(after1 & Ht & ->)|(b2 & _ & Ht)].
    - destruct (IH _ _ _ Ht Hl) as (r' & a & mid & z & K1 & K2 & K3 & K4 & K5 & K6).
      exists r', a, mid, z. do 5 (split; [assumption|]). intros y t' Hy. destruct (K6 y t' Hy) as (after' & K8 & K9).
      exists (after' ++ [(Rng p (length (a ++ y ++ z)), EndNode nm)]). split.
      + apply Forall2_app; [exact K8|]. constructor; [|constructor]. split; [reflexivity|]. right. cbn [fst snd r_off r_len].
        rewrite K3, !app_length. split; [lia|]. split; [lia|]. split; [eexists; reflexivity|]. f_equal. lia.
      + apply Hmk in K9. rewrite <- !app_assoc in K9. cbn [app] in K9 |- *. exact K9.
    - destruct b2 as [|u b2]; [injection Ht as <- _; destruct Hl|destruct b2; discriminate].
  Qed.

  Lemma places_change :
    (forall r p x ts, places E refs r p x ts -> occurs syn r -> change_ok p x ts (places E refs r p)) /\
    (forall args p x ts, places_all E refs args p x ts -> Forall (occurs syn) args -> change_ok p x ts (places_all E refs args p)) /\
    (forall r k p x ts, places_times E refs r k p x ts -> occurs syn r -> change_ok p x ts (places_times E refs r k p)) /\
    (forall r by_ trail p x ts, places_more E refs r by_ trail p x ts -> occurs syn r -> occurs syn by_ ->
       change_ok p x ts (places_more E refs r by_ trail p)).
  Proof.
    assert (B : forall (d : nat), _) by (intros d; exact (places_back E refs d)).
    assert (M : forall (d : nat), _) by (intros d; exact (places_moved E refs d)).
    assert (B1 : forall r p x ts, places E refs r p x ts -> exists ts0, ts = moved_by p ts0 /\ forall q, places E refs r q x (moved_by q ts0)).
    { intros r p x ts H. destruct (proj1 (B p) _ _ _ _ H 0 ltac:(lia)) as (ts0 & -> & H0). exists ts0. split; [reflexivity|].
      intros q. pose proof (proj1 (M q) _ _ _ _ H0) as H1. rewrite Nat.add_0_r in H1. exact H1. }
    assert (B2 : forall args p x ts, places_all E refs args p x ts -> exists ts0, ts = moved_by p ts0 /\ forall q, places_all E refs args q x (moved_by q ts0)).
    { intros r p x ts H. destruct (proj1 (proj2 (B p)) _ _ _ _ H 0 ltac:(lia)) as (ts0 & -> & H0). exists ts0. split; [reflexivity|].
      intros q. pose proof (proj1 (proj2 (M q)) _ _ _ _ H0) as H1. rewrite Nat.add_0_r in H1. exact H1. }
    assert (B3 : forall r k p x ts, places_times E refs r k p x ts -> exists ts0, ts = moved_by p ts0 /\ forall q, places_times E refs r k q x (moved_by q ts0)).
    { intros r k p x ts H. destruct (proj1 (proj2 (proj2 (B p))) _ _ _ _ _ H 0 ltac:(lia)) as (ts0 & -> & H0). exists ts0. split; [reflexivity|].
      intros q. pose proof (proj1 (proj2 (proj2 (M q))) _ _ _ _ _ H0) as H1. rewrite Nat.add_0_r in H1. exact H1. }
    assert (B4 : forall r by_ trail p x ts, places_more E refs r by_ trail p x ts -> exists ts0, ts = moved_by p ts0 /\ forall q, places_more E refs r by_ trail q x (moved_by q ts0)).
    { intros r by_ trail p x ts H. destruct (proj2 (proj2 (proj2 (B p))) _ _ _ _ _ _ H 0 ltac:(lia)) as (ts0 & -> & H0). exists ts0. split; [reflexivity|].
      intros q. pose proof (proj2 (proj2 (proj2 (M q))) _ _ _ _ _ _ H0) as H1. rewrite Nat.add_0_r in H1. exact H1. }
    clear B M.
    apply places_mutind; intros.
    all: try (apply change_none; fail).
    1-6: apply change_here; [assumption|intros n ->; reflexivity|]; try (constructor; assumption); try (econstructor; eassumption).
    - (* sequence *) eapply change_mono; [intros; apply at_sequence; eassumption|]. apply H0. apply Forall_forall. intros q Hq. eapply occurs_child; [eassumption|exact Hq].
    - eapply change_mono; [intros; eapply at_select; eassumption|]. apply H1. eapply occurs_child; [eassumption|exact H].
    - eapply change_mono; [intros; eapply at_fast; eassumption|]. apply H1. eapply occurs_child; [eassumption|exact H].
    - eapply change_mono; [intros; eapply at_repeat; eassumption|]. apply H0. eapply occurs_child; [eassumption|left; reflexivity].
    - (* list *) destruct (B4 _ _ _ _ _ _ H1) as (ts0 & -> & Hm).
      eapply (change_app p x ts y ts0 (places E refs r p) (places_more E refs r by_ trail)); [assumption|exact Hm| | |].
      + apply H0. eapply occurs_child; [eassumption|left; reflexivity].
      + apply H2; (eapply occurs_child; [eassumption|]); [left|right; left]; reflexivity.
      + intros. apply at_separate; assumption.
    - (* node *) assert (Ho : occurs syn r) by (exists r; split; [eapply nth_error_In; eassumption|apply occurs_here]).
      destruct property as [nm|]; cbn [token app].
      + eapply change_node; try eassumption. apply H1. exact Ho.
      + rewrite app_nil_r. eapply change_mono; [|apply H1; exact Ho]. intros x' u Hu.
        pose proof (at_node E refs name None i id r p x' u H Hu) as Hx. cbn [token app] in Hx. rewrite app_nil_r in Hx. exact Hx.
    - eapply change_mono; [intros; apply at_optional; eassumption|]. apply H0. eapply occurs_child; [eassumption|left; reflexivity].
    - (* all *) match goal with G : Forall _ (_ :: _) |- _ => inversion G; subst; clear G end. destruct (B2 _ _ _ _ H1) as (ts0 & -> & Hm).
      eapply (change_app p x ts y ts0 (places E refs r p) (places_all E refs rest)); [assumption|exact Hm|auto|auto|].
      intros. apply at_all_cons; assumption.
    - (* times *) destruct (B3 _ _ _ _ _ H1) as (ts0 & -> & Hm).
      eapply (change_app p x ts y ts0 (places E refs r p) (places_times E refs r k)); [assumption|exact Hm|auto|auto|].
      intros. apply at_times_S; assumption.
    - (* more *) eapply change_mono; [intros; apply at_more_trail; eassumption|]. auto.
    - set (G2 := fun q yz us => exists y z u u', yz = y ++ z /\ us = u ++ u' /\ places E refs r q y u /\ places_more E refs r by_ trail (q + length y) z u').
      destruct (B1 _ _ _ _ H1) as (t1 & -> & Hm1). destruct (B4 _ _ _ _ _ _ H3) as (t2 & -> & Hm2).
      assert (Hmm : forall q, G2 q (y ++ z) (moved_by q (t1 ++ moved_by (length y) t2))).
      { intros q. exists y, z, (moved_by q t1), (moved_by (q + length y) t2). split; [reflexivity|]. split; [|split; [apply Hm1|apply Hm2]].
        rewrite moved_app. f_equal. unfold moved_by. rewrite map_map. apply map_ext. intros t0. cbn [fst snd r_off r_len]. rewrite Nat.add_assoc. reflexivity. }
      assert (Hj : moved_by (p + length x) t1 ++ moved_by (p + length x + length y) t2 = moved_by (p + length x) (t1 ++ moved_by (length y) t2)).
      { rewrite moved_app. f_equal. unfold moved_by. rewrite map_map. apply map_ext. intros t0. cbn [fst snd r_off r_len]. rewrite Nat.add_assoc. reflexivity. }
      rewrite Hj. eapply (change_app p x ts (y ++ z) _ (places E refs by_ p) G2); [assumption|exact Hmm|auto| |].
      + rewrite <- Hj.
        eapply (change_app (p + length x) y (moved_by (p + length x) t1) z t2 (places E refs r (p + length x)) (places_more E refs r by_ trail));
          [assumption|exact Hm2|auto|auto|].
        intros x' u y' u' Hx Hy. exists x', y', u, u'. auto.
      + intros x' u y' u' Hx (y1 & z1 & u1 & u2 & -> & -> & Hy & Hz). eapply at_more_item; eassumption.
  Qed.
End Change.

Theorem changed E : ext_ok E -> strings_end E -> forall s, valid s -> well_formed s -> clear E s ->
  forall text tokens ind before o n d after,
  parse_returns E s text tokens ind None (tokens ++ before ++ (Rng o n, d) :: after) -> leaf d ->
  exists r, occurs s r /\ value_rule (value_name d) r /\ places E (s_rules s) r o (firstn n (skipn o text)) [(Rng o n, d)] /\
    forall y t, places E (s_rules s) r o y [t] -> columns_fit ind (edited o n y text) ->
    exists after', Forall2 (adjusted o n (length y)) after after' /\
      parse_returns E s (edited o n y text) tokens ind None (tokens ++ before ++ t :: after').
Proof.
  intros HE Hs s Hv Hw Hc text tokens ind before o n d after H Hl.
  destruct (has_start E s _ _ _ _ HE H) as (start & Hr).
  pose proof (parse_placed E HE s (clear_no_lines E s Hc) start Hr text tokens ind _ H) as Hp.
  destruct (proj1 (places_change E s) _ _ _ _ Hp (start_occurs _ _ Hr) _ _ _ eq_refl Hl) as (r & a & mid & z & K1 & K2 & K3 & K4 & K5 & K6).
  cbn [fst snd Nat.add] in *. injection K4 as -> ->. exists r. split; [exact K1|]. split; [exact K2|].
  destruct (edit_parts a mid z) as (P1 & P2 & P3). rewrite <- K3 in P1, P2, P3. unfold edited. rewrite P1, P2, P3. split; [exact K5|].
  intros y t Hy Hf. destruct (K6 y t Hy) as (after' & K8 & K9). exists after'. split; [exact K8|].
  apply (clear_placed E HE Hs s Hv Hw Hc start Hr _ ind Hf). exact K9.
Qed.

Theorem changed_number E : ext_ok E -> strings_end E -> forall s, valid s -> well_formed s -> clear E s ->
  forall name underscore, only_numbers s name underscore ->
  forall text tokens ind before o n v after,
  parse_returns E s text tokens ind None (tokens ++ before ++ (Rng o n, MF64 name v) :: after) ->
  forall y w, numeral E underscore y w -> columns_fit ind (edited o n y text) ->
  exists after', Forall2 (adjusted o n (length y)) after after' /\
    parse_returns E s (edited o n y text) tokens ind None (tokens ++ before ++ (Rng o (length y), MF64 name w) :: after').
Proof.
  intros HE Hs s Hv Hw Hc name underscore Hn text tokens ind before o n v after H y w [(rest & Hy) Hz] Hf.
  destruct (changed E HE Hs s Hv Hw Hc _ _ _ _ _ _ _ _ H I) as (r & K1 & K2 & _ & K4). destruct (Hn r K1 K2) as (id & ->).
  apply K4; [|exact Hf]. exact (at_number E (s_rules s) underscore (Some name) id o y rest w Hy Hz).
Qed.

Theorem changed_literal E : ext_ok E -> strings_end E -> forall s, valid s -> well_formed s -> clear E s ->
  forall name, only_literals s name ->
  forall text tokens ind before o n v after,
  parse_returns E s text tokens ind None (tokens ++ before ++ (Rng o n, MString name v) :: after) ->
  forall y w, literal E y w -> columns_fit ind (edited o n y text) ->
  exists after', Forall2 (adjusted o n (length y)) after after' /\
    parse_returns E s (edited o n y text) tokens ind None (tokens ++ before ++ (Rng o (length y), MString name w) :: after').
Proof.
  intros HE Hs s Hv Hw Hc name Hn text tokens ind before o n v after H y w [(rest & Hy) Hz] Hf.
  destruct (changed E HE Hs s Hv Hw Hc _ _ _ _ _ _ _ _ H I) as (r & K1 & K2 & _ & K4). destruct (Hn r K1 K2) as (id & ->).
  apply K4; [|exact Hf]. exact (at_text E (s_rules s) true (Some name) id o y rest w Hy (or_introl eq_refl) Hz).
Qed.

Theorem changed_written E : ext_ok E -> strings_end E -> string_literals_ok E -> forall s, valid s -> well_formed s -> clear E s ->
  forall name, only_literals s name ->
  forall text tokens ind before o n v after,
  parse_returns E s text tokens ind None (tokens ++ before ++ (Rng o n, MString name v) :: after) ->
  forall w, let y := write_string w in columns_fit ind (edited o n y text) ->
  exists after', Forall2 (adjusted o n (length y)) after after' /\
    parse_returns E s (edited o n y text) tokens ind None (tokens ++ before ++ (Rng o (length y), MString name w) :: after').
Proof.
  intros HE Hs Hq s Hv Hw Hc name Hn text tokens ind before o n v after H w y Hf.
  apply (changed_literal E HE Hs s Hv Hw Hc name Hn _ _ _ _ _ _ _ _ H); [|exact Hf].
  destruct (Hq w _ (written_text w)) as [H1 H2]. split; [|exact H2]. exists [].
  assert (Hlen : length (write_string w) = length (flat_map write_char w) + 2).
  { unfold write_string. cbn [app length]. rewrite app_length. cbn [length]. lia. }
  unfold y. rewrite Hlen, app_nil_r. exact (H1 []).
Qed.

Theorem changed_optimized E : ext_ok E -> strings_end E -> forall s s', valid s -> well_formed s -> clear E s ->
  optimize_returns s s' -> tails_fail_at_end E s ->
  forall text tokens ind before o n d after, Forall real_char text ->
  parse_returns E s' text tokens ind None (tokens ++ before ++ (Rng o n, d) :: after) -> leaf d ->
  exists r, occurs s r /\ value_rule (value_name d) r /\ places E (s_rules s) r o (firstn n (skipn o text)) [(Rng o n, d)] /\
    forall y t, places E (s_rules s) r o y [t] -> columns_fit ind (edited o n y text) ->
    exists after', Forall2 (adjusted o n (length y)) after after' /\
      parse_returns E s' (edited o n y text) tokens ind None (tokens ++ before ++ t :: after').
Proof.
  intros HE Hs s s' Hv Hw Hc Ho Ht text tokens ind before o n d after Hreal H Hl.
  apply (optimize_accepts E HE s s' Ho Ht text tokens ind Hreal) in H.
  destruct (changed E HE Hs s Hv Hw Hc _ _ _ _ _ _ _ _ H Hl) as (r & K1 & K2 & K3 & K4).
  exists r. do 3 (split; [assumption|]). intros y t Hy Hf. destruct (K4 y t Hy Hf) as (after' & K5 & K6). exists after'. split; [exact K5|].
  apply (optimize_accepts E HE s s' Ho Ht _ tokens ind (proj1 Hf)). exact K6.
Qed.

(** ** What it needs *)

(** [1 doc = {["1" "x"] [.$:"n" "x"]}] *)
Definition special_one : syntax :=
  Syn [RSelect [RSequence [t (tx "1") 1; t (tx "x") 2] 3; RSequence [RNumber false (Some (tx "n")) 4; t (tx "x") 5] 6] 7] [tx "doc"].

Definition only_numbersb (s : syntax) (name : str) (underscore : bool) : bool :=
  forallb (all_sub (fun r => match r with
    | RNumber u (Some q) _ => if list_eq_dec N.eq_dec q name then Bool.eqb u underscore else true
    | RTag _ _ _ (Some q) _ | RUntilAny _ _ (Some q) _ | RUntilAnyOrWs _ _ (Some q) _ | RText _ (Some q) _ =>
      if list_eq_dec N.eq_dec q name then false else true
    | _ => true end)) (s_rules s).

Lemma only_numbersb_spec s name underscore : only_numbersb s name underscore = true -> only_numbers s name underscore.
Proof.
  intros H r (top & Hin & Ho) Hv. unfold only_numbersb in H. rewrite forallb_forall in H. specialize (H top Hin). apply (all_sub_spec _ _ H) in Ho.
  destruct r; try contradiction; destruct property; try contradiction; cbn in Hv; subst; cbn in Ho;
    (match type of Ho with context[list_eq_dec ?a ?b ?c] => destruct (list_eq_dec a b c) as [_|Hne]; [|destruct (Hne eq_refl)] end); try discriminate.
  apply Bool.eqb_prop in Ho. subst. eexists. reflexivity.
Qed.

Lemma special_refuted : exists s name text o n v y w,
  valid s /\ well_formed s /\ without_lines s /\ only_numbers s name false /\
  parse_returns std_ext s text [] indent_default None [(Rng o n, MF64 name v)] /\ numeral std_ext false y w /\
  columns_fit indent_default (edited o n y text) /\
  parse_returns std_ext s (edited o n y text) [] indent_default None [].
Proof.
  exists special_one, (tx "n"), (tx "2x"), 0, 1. eexists. exists (tx "1"). eexists.
  split; [apply validb_spec; vm_compute; reflexivity|]. split; [apply well_formedb_spec; vm_compute; reflexivity|].
  split; [intros r indented id (top & Hin & Ho); cbn in Hin; destruct Hin as [<-|[]]; apply (all_sub_spec (fun q => match q with RLines _ _ _ => false | _ => true end)) in Ho; try reflexivity; discriminate|].
  split; [apply only_numbersb_spec; vm_compute; reflexivity|]. split; [exists 50; vm_compute; reflexivity|].
  split; [split; [exists []; vm_compute; reflexivity|vm_compute; reflexivity]|]. split; [apply columns_fitb_spec; vm_compute; reflexivity|].
  exists 50. vm_compute. reflexivity.
Qed.

Lemma json_numbers : only_numbers json_syntax (tx "num") false.
Proof. apply only_numbersb_spec. vm_compute. reflexivity. Qed.

Lemma json_changed : exists one twenty,
  parse_returns std_ext json_syntax (tx "[1,[]]") [] indent_default None ([arr 0] ++ (Rng 1 1, MF64 (tx "num") one) :: [arr 3; rra 3 2; rra 0 6]) /\
  numeral std_ext false (tx "20") twenty /\ columns_fit indent_default (edited 1 1 (tx "20") (tx "[1,[]]")) /\
  edited 1 1 (tx "20") (tx "[1,[]]") = tx "[20,[]]" /\
  parse_returns std_ext json_syntax (tx "[20,[]]") [] indent_default None ([arr 0] ++ (Rng 1 2, MF64 (tx "num") twenty) :: [arr 4; rra 4 2; rra 0 7]).
Proof.
  eexists. eexists. split; [exists 200; vm_compute; reflexivity|]. split; [split; [exists []; vm_compute; reflexivity|vm_compute; reflexivity]|].
  split; [apply columns_fitb_spec; vm_compute; reflexivity|]. split; [reflexivity|]. exists 200. vm_compute. reflexivity.
Qed.

Definition only_literalsb (s : syntax) (name : str) : bool :=
  forallb (all_sub (fun r => match r with
    | RText allow_empty (Some q) _ => if list_eq_dec N.eq_dec q name then allow_empty else true
    | RTag _ _ _ (Some q) _ | RUntilAny _ _ (Some q) _ | RUntilAnyOrWs _ _ (Some q) _ | RNumber _ (Some q) _ =>
      if list_eq_dec N.eq_dec q name then false else true
    | _ => true end)) (s_rules s).

Lemma only_literalsb_spec s name : only_literalsb s name = true -> only_literals s name.
Proof.
  intros H r (top & Hin & Ho) Hv. unfold only_literalsb in H. rewrite forallb_forall in H. specialize (H top Hin). apply (all_sub_spec _ _ H) in Ho.
  destruct r; try contradiction; destruct property; try contradiction; cbn in Hv; subst; cbn in Ho;
    (match type of Ho with context[list_eq_dec ?a ?b ?c] => destruct (list_eq_dec a b c) as [_|Hne]; [|destruct (Hne eq_refl)] end); try discriminate.
  subst. eexists. reflexivity.
Qed.

Lemma json_literals : only_literals json_syntax (tx "str").
Proof. apply only_literalsb_spec. vm_compute. reflexivity. Qed.

(** A string in an array gets a quote inside. *)
Lemma json_changed_literal :
  parse_returns std_ext json_syntax (tx "[""ab""]") [] indent_default None ([arr 0] ++ (Rng 1 4, MString (tx "str") (tx "ab")) :: [rra 0 6]) /\
  literal std_ext (tx """x\""y""") (tx "x""y") /\ columns_fit indent_default (edited 1 4 (tx """x\""y""") (tx "[""ab""]")) /\
  edited 1 4 (tx """x\""y""") (tx "[""ab""]") = tx "[""x\""y""]" /\
  parse_returns std_ext json_syntax (tx "[""x\""y""]") [] indent_default None ([arr 0] ++ (Rng 1 6, MString (tx "str") (tx "x""y")) :: [rra 0 8]).
Proof.
  split; [exists 200; vm_compute; reflexivity|]. split; [split; [exists []; vm_compute; reflexivity|vm_compute; reflexivity]|].
  split; [apply columns_fitb_spec; vm_compute; reflexivity|]. split; [reflexivity|]. exists 200. vm_compute. reflexivity.
Qed.
