(** C103: values may be changed into other alternatives. *)
From Coq Require Import Ascii String List NArith Bool Arith Lia.
From Verif Require Import Base Ext Types ParseModel OptimizeModel PegSpec DataSpec ApiSpec OptSpec ExtProofs PegFacts ParseProofs OptPublic
  ParsePublic TotalSpec TotalProofs TotalCheck ShapeSpec GrammarSpec GrammarProofs GrammarCheck GrammarPublic PlaceSpec PlaceProofs PlacePublic
  OccursProofs EditSpec EditProofs ExchangeProofs ChangeSpec ChangeProofs JsonSpec JsonProofs3 LeftProofs2 DataCheck AtEnd Examples.
Import ListNotations.
Local Open Scope string_scope.
Local Open Scope list_scope.
Local Open Scope nat_scope.

Lemma value_rule_dec name r : value_rule name r \/ ~ value_rule name r.
Proof.
  destruct r; try (right; exact (fun H => H)); destruct property as [q|]; try (right; exact (fun H => H)); cbn;
    destruct (list_eq_dec N.eq_dec q name); auto.
Qed.

(** A value rule gives one value, of its whole text. *)
Lemma value_rule_whole E refs name r p x ts : value_rule name r -> places E refs r p x ts ->
  exists d, ts = [(Rng p (length x), d)] /\ leaf d /\ value_name d = name.
Proof.
  intros Hv H. destruct H; try contradiction; destruct property as [q|]; try contradiction; cbn in Hv; subst q;
    (eexists; split; [reflexivity|]; split; [exact I|reflexivity]).
Qed.

Section Alter.
  Variable E : ext.
  Variable syn : syntax.
  Notation refs := (s_rules syn).
  Variable name : str.
  Variable alts : list rule.
  Variable aid : debug_id.
  Hypothesis Honly : only_alternatives syn name alts aid.

  (** The value may be replaced by what any alternative reads. *)
  Definition alter_ok (p : nat) (x : str) (ts : list tok) (G : str -> list tok -> Prop) : Prop :=
    forall before t after, ts = before ++ t :: after -> leaf (snd t) -> value_name (snd t) = name ->
    exists a mid z, x = a ++ mid ++ z /\ fst t = Rng (p + length a) (length mid) /\
      forall y us, places E refs (RSelect alts aid) (p + length a) y us ->
      exists after', Forall2 (adjusted (p + length a) (length mid) (length y)) after after' /\ G (a ++ y ++ z) (before ++ us ++ after').

  Lemma alter_mono p x ts (G G' : str -> list tok -> Prop) : (forall x' ts', G x' ts' -> G' x' ts') -> alter_ok p x ts G -> alter_ok p x ts G'.
  Proof.
    intros HG H before t after Ht Hl Hn. destruct (H _ _ _ Ht Hl Hn) as (a & mid & z & H1 & H2 & H3).
    exists a, mid, z. do 2 (split; [assumption|]). intros y us Hy. destruct (H3 y us Hy) as (after' & H4 & H5). eauto.
  Qed.

  Lemma alter_none p x G : alter_ok p x [] G.
  Proof. intros before t after H. destruct before; discriminate. Qed.

  (** A value of another name. *)
  Lemma alter_leaf r property p x rg (f : str -> metadata) G : ~ value_rule name r ->
    (forall n, property = Some n -> value_rule (value_name (f n)) r) -> alter_ok p x (token property rg f) G.
  Proof.
    intros Hv Hr before t after Ht Hl Hn. destruct property as [n|]; cbn [token] in *; [|destruct before; discriminate].
    destruct before as [|u before]; [|destruct before; discriminate]. injection Ht as <- <-. cbn [snd] in Hn.
    destruct Hv. rewrite <- Hn. apply Hr. reflexivity.
  Qed.

  Lemma alter_app p x ts y ts0 (G1 : str -> list tok -> Prop) (G2 : nat -> str -> list tok -> Prop) (G : str -> list tok -> Prop) :
    G1 x ts -> (forall q, G2 q y (moved_by q ts0)) ->
    alter_ok p x ts G1 -> alter_ok (p + length x) y (moved_by (p + length x) ts0) (G2 (p + length x)) ->
    (forall x' u y' u', G1 x' u -> G2 (p + length x') y' u' -> G (x' ++ y') (u ++ u')) ->
    alter_ok p (x ++ y) (ts ++ moved_by (p + length x) ts0) G.
  Proof.
    intros H1 H2 E1 E2 HG before t after Ht Hl Hn.
    apply item_split in Ht as [(after1 & Ht & ->)|(before2 & -> & Ht)].
    - destruct (E1 _ _ _ Ht Hl Hn) as (a & mid & z & K3 & K4 & K6).
      exists a, mid, (z ++ y). split; [rewrite K3, <- !app_assoc; reflexivity|].
      split; [assumption|]. intros y' us Hy. destruct (K6 y' us Hy) as (after' & K8 & K9).
      assert (Hq : p + length (a ++ y' ++ z) = p + length x - length mid + length y') by (rewrite K3, !app_length; lia).
      exists (after' ++ moved_by (p + length (a ++ y' ++ z)) ts0). split.
      + apply Forall2_app; [exact K8|]. rewrite Hq. apply adjusted_moved. rewrite K3, !app_length. lia.
      + pose proof (HG _ _ _ _ K9 (H2 (p + length (a ++ y' ++ z)))) as HH. rewrite <- !app_assoc in HH. exact HH.
    - destruct (E2 _ _ _ Ht Hl Hn) as (a & mid & z & K3 & K4 & K6).
      assert (Hq : p + length (x ++ a) = p + length x + length a) by (rewrite app_length; lia).
      exists (x ++ a), mid, z. split; [rewrite K3, <- !app_assoc; reflexivity|].
      rewrite Hq. split; [assumption|]. intros y' us Hy. destruct (K6 y' us Hy) as (after' & K8 & K9).
      exists after'. split; [exact K8|]. rewrite <- !app_assoc. apply HG; assumption.
  Qed.

  Lemma alter_node p x ts nm reference i id r : nth_error refs i = Some r ->
    alter_ok p x ts (places E refs r p) ->
    alter_ok p x ((Rng p 0, StartNode nm) :: ts ++ [(Rng p (length x), EndNode nm)]) (places E refs (RNode reference (Some nm) (Some i) id) p).
  Proof.
    intros Hi IH before t after H Hl Hn.
    assert (Hmk : forall y u, places E refs r p y u -> places E refs (RNode reference (Some nm) (Some i) id) p y
      ((Rng p 0, StartNode nm) :: u ++ [(Rng p (length y), EndNode nm)])).
    { intros y u Hy. exact (at_node E refs reference (Some nm) i id r p y u Hi Hy). }
    destruct before as [|u before]; cbn [app] in H; [injection H as <- _; destruct Hl|]. injection H as <- H.
    apply item_split in H as [(after1 & Ht & ->)|(b2 & _ & Ht)].
    - destruct (IH _ _ _ Ht Hl Hn) as (a & mid & z & K3 & K4 & K6).
      exists a, mid, z. do 2 (split; [assumption|]). intros y us Hy. destruct (K6 y us Hy) as (after' & K8 & K9).
      exists (after' ++ [(Rng p (length (a ++ y ++ z)), EndNode nm)]). split.
      + apply Forall2_app; [exact K8|]. constructor; [|constructor]. split; [reflexivity|]. right. cbn [fst snd r_off r_len].
        rewrite K3, !app_length. split; [lia|]. split; [lia|]. split; [eexists; reflexivity|]. f_equal. lia.
      + apply Hmk in K9. rewrite <- !app_assoc in K9. cbn [app] in K9 |- *. exact K9.
    - destruct b2 as [|u b2]; [injection Ht as <- _; destruct Hl|destruct b2; discriminate].
  Qed.

  Definition plain (r : rule) : Prop := occurs syn r /\ ~ value_rule name r.

  Lemma plain_child r c : plain r -> In c (children r) -> (forall args id, r <> RSelect args id) -> plain c.
  Proof.
    intros [Ho _] Hc Hr. split; [eapply occurs_child; eassumption|]. intros Hv. apply (Hr alts aid). apply (proj2 Honly r c Ho Hc Hv).
  Qed.

  Lemma plain_top i r : nth_error refs i = Some r -> plain r.
  Proof.
    intros H. apply nth_error_In in H. split; [exists r; split; [exact H|apply occurs_here]|]. apply (proj1 Honly). exact H.
  Qed.

  Lemma places_alter :
    (forall r p x ts, places E refs r p x ts -> plain r -> alter_ok p x ts (places E refs r p)) /\
    (forall args p x ts, places_all E refs args p x ts -> Forall plain args -> alter_ok p x ts (places_all E refs args p)) /\
    (forall r k p x ts, places_times E refs r k p x ts -> plain r -> alter_ok p x ts (places_times E refs r k p)) /\
    (forall r by_ trail p x ts, places_more E refs r by_ trail p x ts -> plain r -> plain by_ ->
       alter_ok p x ts (places_more E refs r by_ trail p)).
  Proof.
    assert (B : forall (d : nat), _) by (intros d; exact (places_back E refs d)).
    assert (M : forall (d : nat), _) by (intros d; exact (places_moved E refs d)).
    assert (B1 : forall r p x ts, places E refs r p x ts -> exists ts0, ts = moved_by p ts0 /\ forall q, places E refs r q x (moved_by q ts0)).
    { intros r p x ts H. destruct (proj1 (B p) _ _ _ _ H 0 ltac:(lia)) as (ts0 & -> & H0). exists ts0. split; [reflexivity|].
      intros q. pose proof (proj1 (M q) _ _ _ _ H0) as H1. rewrite Nat.add_0_r in H1. exact H1. }
    assert (B2 : forall args p x ts, places_all E refs args p x ts -> exists ts0, ts = moved_by p ts0 /\ forall q, places_all E refs args q x (moved_by q ts0)).
    { intros r p x ts H. destruct (proj1 (proj2 (B p)) _ _ _ _ H 0 ltac:(lia)) as (ts0 & -> & H0). exists ts0. split; [reflexivity|].
      intros q. pose proof (proj1 (proj2 (M q)) _ _ _ _ H0) as H1. rewrite Nat.add_0_r in H1. exact H1. }
    assert (B3 : forall r k p x ts, places_times E refs r k p x ts -> exists ts0, ts = moved_by p ts0 /\ forall q, places_times E refs r k q x (moved_by q ts0)).
    { intros r k p x ts H. destruct (proj1 (proj2 (proj2 (B p))) _ _ _ _ _ H 0 ltac:(lia)) as (ts0 & -> & H0). exists ts0. split; [reflexivity|].
      intros q. pose proof (proj1 (proj2 (proj2 (M q))) _ _ _ _ _ H0) as H1. rewrite Nat.add_0_r in H1. exact H1. }
    assert (B4 : forall r by_ trail p x ts, places_more E refs r by_ trail p x ts -> exists ts0, ts = moved_by p ts0 /\ forall q, places_more E refs r by_ trail q x (moved_by q ts0)).
    { intros r by_ trail p x ts H. destruct (proj2 (proj2 (proj2 (B p))) _ _ _ _ _ _ H 0 ltac:(lia)) as (ts0 & -> & H0). exists ts0. split; [reflexivity|].
      intros q. pose proof (proj2 (proj2 (proj2 (M q))) _ _ _ _ _ _ H0) as H1. rewrite Nat.add_0_r in H1. exact H1. }
    clear B M.
    apply places_mutind; intros.
    all: try (apply alter_none; fail).
    1-6: match goal with Hp : plain ?r |- _ => apply (alter_leaf r); [exact (proj2 Hp)|intros n ->; reflexivity] end.
    - (* sequence *) eapply alter_mono; [intros; apply at_sequence; eassumption|]. apply H0. apply Forall_forall. intros q Hq.
      eapply plain_child; [eassumption|exact Hq|discriminate].
    - (* select *) destruct (value_rule_dec name r) as [Hv|Hv].
      + pose proof (proj2 Honly _ _ (proj1 H2) H Hv) as Hsel. injection Hsel as -> ->.
        destruct (value_rule_whole E refs name r p x ts Hv H0) as (d & -> & Hl & Hn). intros before t after Ht _ _.
        destruct before as [|u before]; [|destruct before; discriminate]. injection Ht as <- <-.
        exists [], x, []. cbn [length fst app]. rewrite Nat.add_0_r, app_nil_r. split; [reflexivity|]. split; [reflexivity|].
        intros y us Hy. exists []. split; [constructor|]. rewrite !app_nil_r. exact Hy.
      + eapply alter_mono; [intros; eapply at_select; eassumption|]. apply H1. split; [|exact Hv]. eapply occurs_child; [exact (proj1 H2)|exact H].
    - eapply alter_mono; [intros; eapply at_fast; eassumption|]. apply H1. eapply plain_child; [eassumption|exact H|discriminate].
    - eapply alter_mono; [intros; eapply at_repeat; eassumption|]. apply H0. eapply plain_child; [eassumption|left; reflexivity|discriminate].
    - (* list *) destruct (B4 _ _ _ _ _ _ H1) as (ts0 & -> & Hm).
      eapply (alter_app p x ts y ts0 (places E refs r p) (places_more E refs r by_ trail)); [assumption|exact Hm| | |].
      + apply H0. eapply plain_child; [eassumption|left; reflexivity|discriminate].
      + apply H2; (eapply plain_child; [eassumption| |discriminate]); [left|right; left]; reflexivity.
      + intros. apply at_separate; assumption.
    - (* node *) pose proof (plain_top _ _ H) as Ho.
      destruct property as [nm|]; cbn [token app].
      + eapply alter_node; try eassumption. apply H1. exact Ho.
      + rewrite app_nil_r. eapply alter_mono; [|apply H1; exact Ho]. intros x' u Hu.
        pose proof (at_node E refs name0 None i id r p x' u H Hu) as Hx. cbn [token app] in Hx. rewrite app_nil_r in Hx. exact Hx.
    - eapply alter_mono; [intros; apply at_optional; eassumption|]. apply H0. eapply plain_child; [eassumption|left; reflexivity|discriminate].
    - (* all *) match goal with G : Forall _ (_ :: _) |- _ => inversion G; subst; clear G end. destruct (B2 _ _ _ _ H1) as (ts0 & -> & Hm).
      eapply (alter_app p x ts y ts0 (places E refs r p) (places_all E refs rest)); [assumption|exact Hm|auto|auto|].
      intros. apply at_all_cons; assumption.
    - (* times *) destruct (B3 _ _ _ _ _ H1) as (ts0 & -> & Hm).
      eapply (alter_app p x ts y ts0 (places E refs r p) (places_times E refs r k)); [assumption|exact Hm|auto|auto|].
      intros. apply at_times_S; assumption.
    - (* more *) eapply alter_mono; [intros; apply at_more_trail; eassumption|]. auto.
    - set (G2 := fun q yz us => exists y z u u', yz = y ++ z /\ us = u ++ u' /\ places E refs r q y u /\ places_more E refs r by_ trail (q + length y) z u').
      destruct (B1 _ _ _ _ H1) as (t1 & -> & Hm1). destruct (B4 _ _ _ _ _ _ H3) as (t2 & -> & Hm2).
      assert (Hmm : forall q, G2 q (y ++ z) (moved_by q (t1 ++ moved_by (length y) t2))).
      { intros q. exists y, z, (moved_by q t1), (moved_by (q + length y) t2). split; [reflexivity|]. split; [|split; [apply Hm1|apply Hm2]].
        rewrite moved_app. f_equal. unfold moved_by. rewrite map_map. apply map_ext. intros t0. cbn [fst snd r_off r_len]. rewrite Nat.add_assoc. reflexivity. }
      assert (Hj : moved_by (p + length x) t1 ++ moved_by (p + length x + length y) t2 = moved_by (p + length x) (t1 ++ moved_by (length y) t2)).
      { rewrite moved_app. f_equal. unfold moved_by. rewrite map_map. apply map_ext. intros t0. cbn [fst snd r_off r_len]. rewrite Nat.add_assoc. reflexivity. }
      rewrite Hj. eapply (alter_app p x ts (y ++ z) _ (places E refs by_ p) G2); [assumption|exact Hmm|auto| |].
      + rewrite <- Hj.
        eapply (alter_app (p + length x) y (moved_by (p + length x) t1) z t2 (places E refs r (p + length x)) (places_more E refs r by_ trail));
          [assumption|exact Hm2|auto|auto|].
        intros x' u y' u' Hx Hy. exists x', y', u, u'. auto.
      + intros x' u y' u' Hx (y1 & z1 & u1 & u2 & -> & -> & Hy & Hz). eapply at_more_item; eassumption.
  Qed.
End Alter.

Theorem altered E : ext_ok E -> strings_end E -> forall s, valid s -> well_formed s -> clear E s ->
  forall name args id, only_alternatives s name args id ->
  forall text tokens ind before o n d after,
  parse_returns E s text tokens ind None (tokens ++ before ++ (Rng o n, d) :: after) -> leaf d -> value_name d = name ->
  forall y ts, places E (s_rules s) (RSelect args id) o y ts -> columns_fit ind (edited o n y text) ->
  exists after', Forall2 (adjusted o n (length y)) after after' /\
    parse_returns E s (edited o n y text) tokens ind None (tokens ++ before ++ ts ++ after').
Proof.
  intros HE Hs s Hv Hw Hc name args id Honly text tokens ind before o n d after H Hl Hn y ts Hy Hf.
  destruct (has_start E s _ _ _ _ HE H) as (start & Hr).
  pose proof (parse_placed E HE s (clear_no_lines E s Hc) start Hr text tokens ind _ H) as Hp.
  assert (Hpl : plain s name start).
  { destruct Hr as (rules & Hr). apply (plain_top s name args id Honly (length rules)). rewrite Hr, nth_error_app2, Nat.sub_diag by lia. reflexivity. }
  destruct (proj1 (places_alter E s name args id Honly) _ _ _ _ Hp Hpl _ _ _ eq_refl Hl Hn) as (a & mid & z & K3 & K4 & K6).
  cbn [fst snd Nat.add] in *. injection K4 as -> ->. destruct (edit_parts a mid z) as (P1 & P2 & P3). rewrite <- K3 in P1, P2, P3.
  unfold edited in *. rewrite P1, P3 in *. destruct (K6 y ts Hy) as (after' & K8 & K9). exists after'. split; [exact K8|].
  apply (clear_placed E HE Hs s Hv Hw Hc start Hr _ ind Hf). exact K9.
Qed.

Theorem altered_optimized E : ext_ok E -> strings_end E -> forall s s', valid s -> well_formed s -> clear E s ->
  optimize_returns s s' -> tails_fail_at_end E s -> forall name args id, only_alternatives s name args id ->
  forall text tokens ind before o n d after, Forall real_char text ->
  parse_returns E s' text tokens ind None (tokens ++ before ++ (Rng o n, d) :: after) -> leaf d -> value_name d = name ->
  forall y ts, places E (s_rules s) (RSelect args id) o y ts -> columns_fit ind (edited o n y text) ->
  exists after', Forall2 (adjusted o n (length y)) after after' /\
    parse_returns E s' (edited o n y text) tokens ind None (tokens ++ before ++ ts ++ after').
Proof.
  intros HE Hs s s' Hv Hw Hc Ho Ht name args id Honly text tokens ind before o n d after Hreal H Hl Hn y ts Hy Hf.
  apply (optimize_accepts E HE s s' Ho Ht text tokens ind Hreal) in H.
  destruct (altered E HE Hs s Hv Hw Hc name args id Honly _ _ _ _ _ _ _ _ H Hl Hn y ts Hy Hf) as (after' & K5 & K6). exists after'. split; [exact K5|].
  apply (optimize_accepts E HE s s' Ho Ht _ tokens ind (proj1 Hf)). exact K6.
Qed.

(** ** The values of JSON *)

Definition json_values : list rule := match nth_error json_rules 2 with Some (RSelect args _) => args | _ => [] end.

Definition value_ruleb (name : str) (r : rule) : bool :=
  match r with
  | RTag _ _ _ (Some q) _ | RUntilAny _ _ (Some q) _ | RUntilAnyOrWs _ _ (Some q) _ | RText _ (Some q) _ | RNumber _ (Some q) _ =>
    if list_eq_dec N.eq_dec q name then true else false
  | _ => false
  end.

Lemma value_ruleb_false name r : value_ruleb name r = false -> ~ value_rule name r.
Proof.
  intros H Hv. destruct r; try contradiction; destruct property; try contradiction; cbn in Hv; subst; cbn in H;
    (match type of H with context[list_eq_dec ?a ?b ?c] => destruct (list_eq_dec a b c) as [_|Hne]; [discriminate|destruct (Hne eq_refl)] end).
Qed.

Definition no_value_below (name : str) (r : rule) : bool := forallb (fun c => negb (value_ruleb name c)) (children r).

Lemma no_value_below_spec name r c : no_value_below name r = true -> In c (children r) -> ~ value_rule name c.
Proof.
  intros H Hc. unfold no_value_below in H. rewrite forallb_forall in H. specialize (H c Hc). apply negb_true_iff in H. apply value_ruleb_false. exact H.
Qed.

Lemma json_alternatives : only_alternatives json_syntax (tx "bool") json_values 208.
Proof.
  split.
  - intros r Hin. cbn in Hin. destruct Hin as [<-|[<-|[<-|[<-|[]]]]]; intros [].
  - intros r c (top & Hin & Ho) Hc Hv. change (In top json_rules) in Hin.
    assert (Hno : forall top', all_sub (no_value_below (tx "bool")) top' = true -> occurs_in r top' -> False).
    { intros top' Ha Hi. apply (all_sub_spec _ _ Ha) in Hi. exact (no_value_below_spec _ _ _ Hi Hc Hv). }
    unfold json_rules in Hin. destruct Hin as [<-|[<-|[<-|[<-|[]]]]].
    + exfalso. refine (Hno _ _ Ho). vm_compute. reflexivity.
    + exfalso. refine (Hno _ _ Ho). vm_compute. reflexivity.
    + inversion Ho as [|? d Hd Hi]; subst; [reflexivity|]. exfalso. cbn [children] in Hd.
      repeat (destruct Hd as [<-|Hd]; [refine (Hno _ _ Hi); vm_compute; reflexivity|]). destruct Hd.
    + exfalso. refine (Hno _ _ Ho). vm_compute. reflexivity.
Qed.

(** [true] is changed into [false] in an array. *)
Lemma json_altered :
  parse_returns std_ext json_syntax (tx "[true,null]") [] indent_default None
    ([arr 0] ++ (Rng 1 4, MBool (tx "bool") true) :: [(Rng 6 4, MBool (tx "null") true); rra 0 11]) /\
  places std_ext (s_rules json_syntax) (RSelect json_values 208) 1 (tx "false") [(Rng 1 5, MBool (tx "bool") false)] /\
  columns_fit indent_default (edited 1 4 (tx "false") (tx "[true,null]")) /\
  edited 1 4 (tx "false") (tx "[true,null]") = tx "[false,null]" /\
  parse_returns std_ext json_syntax (tx "[false,null]") [] indent_default None
    ([arr 0] ++ (Rng 1 5, MBool (tx "bool") false) :: [(Rng 7 4, MBool (tx "null") true); rra 0 12]).
Proof.
  split; [exists 200; vm_compute; reflexivity|].
  split. { apply (at_select _ _ json_values 208 (RTag (tx "false") false true (Some (tx "bool")) 206)); [cbn; tauto|].
    exact (at_tag std_ext _ (tx "false") true (Some (tx "bool")) 206 1). }
  split; [apply columns_fitb_spec; vm_compute; reflexivity|]. split; [reflexivity|]. exists 200. vm_compute. reflexivity.
Qed.
