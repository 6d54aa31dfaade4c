(** The optimised build converts data of which the checked build may not, because the numbers
    of nodes are too large. It reads the same rules as the checked build does with small
    numbers in their place, but for debug ids. *)
From Coq Require Import Ascii String List NArith ZArith Bool Arith Lia.
From Verif Require Import Base Ext Types DataSpec ParseModel ConvertModel IdSpec ReleaseConvert ReleaseSpec ReleaseProofs.
Import ListNotations.
Local Open Scope string_scope.
Local Open Scope list_scope.
Local Open Scope nat_scope.

Notation liket := but_numbers.

Definition likec (c d : conv) : Prop := c_off c = c_off d /\ Forall2 liket (c_data c) (c_data d).

(** What the second returns, the first returns alike. *)
Definition sim {A B} (R : A -> B -> Prop) (a : outcome A) (b : outcome B) : Prop :=
  forall y, b = Done y -> exists x, a = Done x /\ R x y.

Definition both {A B C D} (R : A -> B -> Prop) (S : C -> D -> Prop) (x : A * C) (y : B * D) : Prop :=
  R (fst x) (fst y) /\ S (snd x) (snd y).

Definition opt {A B} (R : A -> B -> Prop) (x : option A) (y : option B) : Prop :=
  match x, y with
  | Some a, Some b => R a b
  | None, None => True
  | _, _ => False
  end.

Lemma sim_done {A B} (R : A -> B -> Prop) x y : R x y -> sim R (Done x) (Done y).
Proof. intros H z [= <-]. exists x. split; [reflexivity|exact H]. Qed.

Lemma sim_fuel {A B} (R : A -> B -> Prop) a : sim R a OutOfFuel.
Proof. intros z [=]. Qed.

Lemma sim_bind {A B C D} (R : A -> B -> Prop) (S : C -> D -> Prop) a b f g :
  sim R a b -> (forall x y, R x y -> sim S (f x) (g y)) -> sim S (obind a f) (obind b g).
Proof.
  intros Hab Hfg z Hz. destruct b as [y| |]; cbn in Hz; try discriminate.
  destruct (Hab y eq_refl) as (x & -> & Hx). cbn. exact (Hfg x y Hx z Hz).
Qed.

Lemma start_like c d n : likec c d -> c_start_node c n = c_start_node d n.
Proof.
  destruct c as [c o], d as [d o']. intros [Ho Hd]. cbn in *. subst o'. unfold c_start_node. cbn.
  inversion Hd as [|[ra a] [rb b] l l' [H1 H2] Hl]; subst; [reflexivity|]. cbn in *. destruct a, b; try discriminate H2; try reflexivity. inversion H2. reflexivity.
Qed.

Lemma end_like c d n : likec c d -> c_end_node c n = c_end_node d n.
Proof.
  destruct c as [c o], d as [d o']. intros [Ho Hd]. cbn in *. subst o'. unfold c_end_node. cbn.
  inversion Hd as [|[ra a] [rb b] l l' [H1 H2] Hl]; subst; [reflexivity|]. cbn in *. destruct a, b; try discriminate H2; try reflexivity. inversion H2. reflexivity.
Qed.

Lemma string_like c d n : likec c d -> c_meta_string c n = c_meta_string d n.
Proof.
  destruct c as [c o], d as [d o']. intros [Ho Hd]. cbn in *. subst o'. unfold c_meta_string. cbn.
  inversion Hd as [|[ra a] [rb b] l l' [H1 H2] Hl]; subst; [reflexivity|]. cbn in *. destruct a, b; try discriminate H2; try reflexivity. inversion H2. reflexivity.
Qed.

Lemma bool_like c d n : likec c d -> c_meta_bool c n = c_meta_bool d n.
Proof.
  destruct c as [c o], d as [d o']. intros [Ho Hd]. cbn in *. subst o'. unfold c_meta_bool. cbn.
  inversion Hd as [|[ra a] [rb b] l l' [H1 H2] Hl]; subst; [reflexivity|]. cbn in *. destruct a, b; try discriminate H2; try reflexivity. inversion H2. reflexivity.
Qed.

Lemma f64_like c d n : likec c d -> opt (both eq (fun _ _ => True)) (c_meta_f64 c n) (c_meta_f64 d n).
Proof.
  destruct c as [c o], d as [d o']. intros [Ho Hd]. cbn in *. subst o'. unfold c_meta_f64. cbn.
  inversion Hd as [|[ra a] [rb b] l l' [H1 H2] Hl]; subst; [exact I|]. cbn in *. destruct a, b; try discriminate H2; try exact I.
  cbn in *. subst. destruct (str_eqb _ _); [|exact I]. split; [reflexivity|exact I].
Qed.

Lemma remaining_like c d : likec c d -> c_remaining c = c_remaining d.
Proof. intros [_ H]. unfold c_remaining. induction H; cbn; congruence. Qed.

Lemma subtract_like c d c0 d0 : likec c d -> likec c0 d0 -> c_subtract c c0 = c_subtract d d0.
Proof. intros [H _] [H0 _]. unfold c_subtract. rewrite H, H0. reflexivity. Qed.

Lemma update_like c d r : likec c d -> sim likec (c_update c r) (c_update d r).
Proof.
  intros H. pose proof (remaining_like c d H) as Hl. unfold c_remaining in Hl. destruct H as [Ho Hd]. unfold c_update. rewrite Ho, Hl.
  destruct (_ <? _); [intros ? [=]|]. destruct (_ <? _); [intros ? [=]|]. apply sim_done. split; [reflexivity|]. cbn.
  clear Hl Ho. generalize (next_offset r - c_off d) as k. intros k. revert k.
  induction Hd as [|a b l l' Hab Hd IH]; intros [|k]; cbn; try constructor; try assumption. apply IH.
Qed.

Lemma ignore_like l l' : Forall2 liket l l' -> forall acc len, sim eq (ignore_loop_r l (Z.of_nat acc) len) (ignore_loop l' acc len).
Proof.
  intros H acc len y Hy. assert (He : ignore_loop_r l (Z.of_nat acc) len = ignore_loop_r l' (Z.of_nat acc) len).
  { clear Hy y. generalize (Z.of_nat acc) as z. revert len. clear acc.
    induction H as [|[ra a] [rb b] l l' [H1 H2] Hl IH]; intros len z; [reflexivity|]. cbn in *. destruct a, b; try discriminate H2; rewrite ?IH; reflexivity. }
  rewrite He. destruct (ignore_loop_d l' acc len) as [Hp|Hp]; rewrite Hy in Hp; [discriminate|]. exists y. split; [congruence|reflexivity].
Qed.

Lemma skip_like c d ig : likec c d -> sim (both likec eq) (skip_item_r c ig) (skip_item d ig).
Proof.
  intros H. unfold skip_item, skip_item_r, c_ignore, c_ignore_r. eapply (sim_bind eq).
  - eapply sim_bind; [apply (ignore_like _ _ (proj2 H) 0 0)|]. intros x y ->. apply sim_done. rewrite (proj1 H). reflexivity.
  - intros x y ->. eapply sim_bind; [apply update_like; exact H|]. intros x z Hx. apply sim_done. split; [exact Hx|reflexivity].
Qed.

Definition likes (a b : cstate) : Prop := snd a = snd b.
Definition liker : rule -> rule -> Prop := like_rule any_ids.
Definition likeo : option (range * rule) * cstate -> option (range * rule) * cstate -> Prop := both (opt (both eq liker)) likes.

Definition sim_reader (P Q : reader) : Prop := forall c d st st', likec c d -> likes st st' -> sim likeo (P c st) (Q d st').

Lemma finish_like c d c0 d0 st st' mk mk' : likec c d -> likec c0 d0 -> likes st st' -> (forall i j, liker (mk i) (mk' j)) ->
  sim likeo (finish_r c0 c st mk) (finish d0 d st' mk').
Proof.
  intros H H0 Hs Hm y Hy. unfold finish, add_usize in Hy. destruct (_ <=? _)%N; [|discriminate]. cbn in Hy. inversion Hy; subst.
  eexists. split; [reflexivity|]. split; [split|exact Hs]; cbn; [apply subtract_like; assumption|apply Hm].
Qed.

(** Uses what is known of a pair of results. *)
Ltac open :=
  intros;
  repeat (match goal with
    | x : (_ * _)%type |- _ => destruct x
    | H : both _ _ ?x ?y |- _ => destruct H as [?H ?H]
    | H : likeo ?x ?y |- _ => destruct H as [?H ?H]
    | H : opt _ ?x ?y |- _ => destruct x; destruct y; cbn [opt] in H; [| destruct H | destruct H |]
    end; cbn [fst snd] in *); subst.

Ltac like_step :=
  match goal with
  | H : likec ?c ?d |- context [c_start_node ?c ?n] => rewrite (start_like c d n H)
  | H : likec ?c ?d |- context [c_end_node ?c ?n] => rewrite (end_like c d n H)
  | H : likec ?c ?d |- context [c_meta_string ?c ?n] => rewrite (string_like c d n H)
  | H : likec ?c ?d |- context [c_meta_bool ?c ?n] => rewrite (bool_like c d n H)
  | H : likec ?c ?d, H0 : likec ?c0 ?d0 |- context [c_subtract ?c ?c0] => rewrite (subtract_like c d c0 d0 H H0)
  | H : likec ?c ?d |- context [c_remaining ?c] => rewrite (remaining_like c d H)
  end.

Ltac fin := cbn [fst snd opt] in *;
  repeat first
    [ assumption | reflexivity | exact I
    | match goal with
      | |- both _ _ _ _ => split; cbn [fst snd]
      | |- likeo _ _ => split; cbn [fst snd]
      | |- opt _ _ _ => progress cbn [opt]
      | |- likes _ _ => unfold likes in *; cbn [fst snd] in *; congruence
      end ].

Ltac simt IH :=
  repeat first
    [ apply sim_fuel
    | like_step
    | eapply sim_bind; [apply update_like; eassumption|open]
    | eapply sim_bind; [apply skip_like; eassumption|open]
    | eapply sim_bind; [solve [eapply IH; fin]|open]
    | solve [eapply IH; fin]
    | match goal with
      | H : likes ?a ?b |- context [snd ?a] => rewrite (H : snd a = snd b)
      | H : sim_reader ?P ?Q |- sim _ (obind (?P ?c ?s) _) (obind (?Q ?d ?s') _) => eapply sim_bind; [apply H; eassumption|open]
      | |- sim _ (match ?x with _ => _ end) (match ?x with _ => _ end) => destruct x; open
      end ].

Lemma set_loop_like p ss : forall f c d t, likec c d -> sim (opt (both likec eq)) (set_loop f p ss c t) (set_loop f p ss d t).
Proof.
  induction f as [|f IH]; intros c d t H; [apply sim_fuel|]. cbn [set_loop]. simt IH; apply sim_done; fin.
Qed.

Lemma read_set_like f p c d ss : likec c d -> sim eq (read_set f p c ss) (read_set f p d ss).
Proof.
  intros H. unfold read_set. simt (set_loop_like p ss f); apply sim_done; fin.
Qed.

Lemma string_loop_like : forall f c d n t, likec c d -> sim (opt (both (both likec eq) eq)) (string_loop f c n t) (string_loop f d n t).
Proof.
  induction f as [|f IH]; intros c d n t H; [apply sim_fuel|]. cbn [string_loop]. simt IH; apply sim_done; fin.
Qed.

Lemma read_string_like f c d : likec c d -> sim eq (read_string f c) (read_string f d).
Proof. intros H. unfold read_string. simt (string_loop_like f); apply sim_done; fin. Qed.

Ltac sett f :=
  match goal with
  | H : likec ?c ?d |- sim _ (obind (read_set f ?p ?c ?ss) _) _ => eapply sim_bind; [apply (read_set_like f p c d ss H)|open]
  end.

Lemma until_loop_like node ss : forall f c d a o p ig, likec c d ->
  sim (both (both (both (both likec eq) eq) eq) eq) (until_loop_r f node ss c a o p ig) (until_loop f node ss d a o p ig).
Proof.
  induction f as [|f IH]; intros c d a o p ig H; [apply sim_fuel|]. cbn [until_loop until_loop_r].
  repeat first [sett f|simt IH]; apply sim_done; fin.
Qed.

Lemma any_any i j : any_ids i j.
Proof. exact I. Qed.

Lemma read_until_like f node mk ss : (forall a o p i j, liker (mk a o p i) (mk a o p j)) -> sim_reader (read_until_r f node mk ss) (read_until f node mk ss).
Proof.
  intros Hm c d st st' H Hs. unfold read_until, read_until_r. simt (until_loop_like node ss f); try (apply sim_done; fin).
  apply finish_like; fin. intros. apply Hm.
Qed.

Lemma tag_loop_like ss : forall f c d t p n i ig, likec c d ->
  sim (both (both (both (both (both likec eq) eq) eq) eq) eq) (tag_loop_r f ss c t p n i ig) (tag_loop f ss d t p n i ig).
Proof.
  induction f as [|f IH]; intros c d t p n i ig H; [apply sim_fuel|]. cbn [tag_loop tag_loop_r].
  repeat first [sett f|simt IH]; apply sim_done; fin.
Qed.

Lemma read_tag_like f ss : sim_reader (read_tag_r f ss) (read_tag f ss).
Proof.
  intros c d st st' H Hs. unfold read_tag, read_tag_r. simt (tag_loop_like ss f); try (apply sim_done; fin).
  apply finish_like; fin. intros. constructor. exact I.
Qed.

Lemma read_whitespace_like : sim_reader read_whitespace_r read_whitespace.
Proof.
  intros c d st st' H Hs. unfold read_whitespace, read_whitespace_r. simt I; try (apply sim_done; fin).
  apply finish_like; fin. intros. constructor. exact I.
Qed.

Lemma flag_loop_like node flag ss : forall f c d b p ig, likec c d ->
  sim (both (both (both likec eq) eq) eq) (flag_loop_r f node flag ss c b p ig) (flag_loop f node flag ss d b p ig).
Proof.
  induction f as [|f IH]; intros c d b p ig H; [apply sim_fuel|]. cbn [flag_loop flag_loop_r].
  repeat first [sett f|simt IH]; apply sim_done; fin.
Qed.

Lemma read_text_like f ss : sim_reader (read_text_r f ss) (read_text f ss).
Proof.
  intros c d st st' H Hs. unfold read_text, read_text_r.
  repeat first [simt (flag_loop_like (s2l "text") (s2l "allow_empty") ss f)]; try (apply sim_done; fin).
  apply finish_like; fin. intros. constructor. exact I.
Qed.

Lemma read_number_like f ss : sim_reader (read_number_r f ss) (read_number f ss).
Proof.
  intros c d st st' H Hs. unfold read_number, read_number_r.
  simt (fun n g => flag_loop_like n g ss f); try (apply sim_done; fin).
  apply finish_like; fin. intros. constructor. exact I.
Qed.

Lemma reference_loop_like ss : forall f c d n p ig, likec c d ->
  sim (both (both (both likec eq) eq) eq) (reference_loop_r f ss c n p ig) (reference_loop f ss d n p ig).
Proof.
  induction f as [|f IH]; intros c d n p ig H; [apply sim_fuel|]. cbn [reference_loop reference_loop_r].
  repeat first [sett f|simt IH]; apply sim_done; fin.
Qed.

Lemma read_reference_like f ss : sim_reader (read_reference_r f ss) (read_reference f ss).
Proof.
  intros c d st st' H Hs. unfold read_reference, read_reference_r. simt (reference_loop_like ss f); try (apply sim_done; fin).
  apply finish_like; fin. intros. constructor. exact I.
Qed.

Lemma args_loop_like P Q node : sim_reader P Q -> forall f c d args args' st st', likec c d -> Forall2 liker args args' -> likes st st' ->
  sim (both (both likec (Forall2 liker)) likes) (args_loop_r f P node c args st) (args_loop f Q node d args' st').
Proof.
  intros HP. induction f as [|f IH]; intros c d args args' st st' H Ha Hs; [apply sim_fuel|]. cbn [args_loop args_loop_r].
  simt IH; try (apply sim_done; fin).
  apply IH; fin. apply Forall2_app; [assumption|constructor; [assumption|constructor]].
Qed.

Lemma read_args_like P Q f node mk : sim_reader P Q -> (forall a b i j, Forall2 liker a b -> liker (mk a i) (mk b j)) ->
  sim_reader (read_args_r f P node mk) (read_args f Q node mk).
Proof.
  intros HP Hm c d st st' H Hs. unfold read_args, read_args_r.
  repeat first [eapply sim_bind; [apply (args_loop_like P Q node HP f); [eassumption|constructor|exact Hs]|open]|simt I]; try (apply sim_done; fin).
  apply finish_like; fin. intros. apply Hm. assumption.
Qed.

Lemma read_wrap_like P Q node mk : sim_reader P Q -> (forall a b i j, liker a b -> liker (mk a i) (mk b j)) ->
  sim_reader (read_wrap_r P node mk) (read_wrap Q node mk).
Proof.
  intros HP Hm c d st st' H Hs. unfold read_wrap, read_wrap_r. simt I; try (apply sim_done; fin).
  apply finish_like; fin. intros. apply Hm. assumption.
Qed.

Lemma sep_by_loop_like P Q P' Q' : sim_reader P Q -> sim_reader P' Q' -> forall f c d o t b b' r r' st st', likec c d ->
  opt liker b b' -> opt liker r r' -> likes st st' ->
  sim (both (both (both (both (both likec eq) eq) (opt liker)) (opt liker)) likes)
    (sep_by_loop_r f P P' c o t b r st) (sep_by_loop f Q Q' d o t b' r' st').
Proof.
  intros HP HP'. induction f as [|f IH]; intros c d o t b b' r r' st st' H Hb Hr Hs; [apply sim_fuel|].
  cbn [sep_by_loop sep_by_loop_r]. simt IH; try (apply sim_done; fin).
Qed.

Lemma read_separated_by_like P Q P' Q' f : sim_reader P Q -> sim_reader P' Q' ->
  sim_reader (read_separated_by_r f P P') (read_separated_by f Q Q').
Proof.
  intros HP HP' c d st st' H Hs. unfold read_separated_by, read_separated_by_r.
  repeat first [eapply sim_bind; [apply (sep_by_loop_like P Q P' Q' HP HP' f); [eassumption|exact I|exact I|exact Hs]|open]|simt I];
    try (apply sim_done; fin); apply finish_like; fin; intros; constructor; try assumption; exact I.
Qed.

Lemma read_lines_like P Q : sim_reader P Q -> sim_reader (read_lines_r P) (read_lines Q).
Proof.
  intros HP c d st st' H Hs. unfold read_lines, read_lines_r. simt I; try (apply sim_done; fin).
  eapply (sim_bind (both likec eq)); [simt I; apply sim_done; fin|]. open. simt I; try (apply sim_done; fin);
    apply finish_like; fin; intros; constructor; try assumption; exact I.
Qed.

Lemma rep_loop_like P Q : sim_reader P Q -> forall f c d r r' o st st', likec c d -> opt liker r r' -> likes st st' ->
  sim (both (both (both likec (opt liker)) eq) likes) (rep_loop_r f P c r o st) (rep_loop f Q d r' o st').
Proof.
  intros HP. induction f as [|f IH]; intros c d r r' o st st' H Hr Hs; [apply sim_fuel|].
  cbn [rep_loop rep_loop_r]. simt IH; try (apply sim_done; fin).
Qed.

Lemma read_repeat_like P Q f : sim_reader P Q -> sim_reader (read_repeat_r f P) (read_repeat f Q).
Proof.
  intros HP c d st st' H Hs. unfold read_repeat, read_repeat_r.
  repeat first [eapply sim_bind; [apply (rep_loop_like P Q HP f); [eassumption|exact I|exact Hs]|open]|simt I];
    try (apply sim_done; fin); apply finish_like; fin; intros; constructor; try assumption; exact I.
Qed.

Lemma first_reader_like ps qs : Forall2 sim_reader ps qs -> sim_reader (first_reader ps) (first_reader qs).
Proof.
  intros HF. induction HF as [|p q ps qs Hp _ IH]; intros c d st st' H Hs; cbn [first_reader]; [apply sim_done; fin|].
  eapply sim_bind; [apply Hp; eassumption|]. open; [apply sim_done; fin|apply IH; assumption].
Qed.

Lemma read_rule_like ss : forall f property, sim_reader (read_rule_r f property ss) (read_rule f property ss).
Proof.
  induction f as [|f IH]; intros property c d st st' H Hs; [apply sim_fuel|]. cbn [read_rule read_rule_r].
  like_step. destruct (c_start_node d property) as [r|]; [|apply sim_done; fin].
  eapply sim_bind; [apply update_like; eassumption|]. intros c1 d1 H1.
  eapply sim_bind.
  - apply first_reader_like; [|exact H1|exact Hs].
    repeat (constructor; [first
      [apply read_args_like; [apply IH|intros; constructor; [exact I|assumption]]
      |apply read_until_like; intros; constructor; exact I|apply read_tag_like|apply read_whitespace_like|apply read_text_like|apply read_number_like
      |apply read_reference_like|apply read_wrap_like; [apply IH|intros; constructor; [exact I|assumption]]
      |apply read_separated_by_like; apply IH|apply read_lines_like; apply IH
      |apply read_repeat_like; apply IH]|]). constructor.
  - open; simt I; apply sim_done; fin.
Qed.

Lemma node_loop_like ss : forall f c d id id' name r r' ig, likec c d -> opt liker r r' ->
  sim (both (both (both likec eq) (opt liker)) eq) (node_loop_r f ss c id name r ig) (node_loop f ss d id' name r' ig).
Proof.
  induction f as [|f IH]; intros c d id id' name r r' ig H Hr; [apply sim_fuel|]. cbn [node_loop node_loop_r].
  like_step. destruct (c_end_node d (s2l "node")); [simt I; apply sim_done; fin|].
  pose proof (f64_like c d (s2l "id") H) as Hf. destruct (c_meta_f64 c _) as [[rg x]|], (c_meta_f64 d _) as [[rg' x']|]; cbn [opt] in Hf; try contradiction.
  - destruct Hf as [Hf _]. cbn in Hf. subst. simt IH.
  - clear Hf. simt IH.
    all: intros z Hz; unfold mul_usize in Hz; destruct (_ <=? _)%N; [|discriminate]; cbn [obind] in Hz; revert z Hz;
      cbn [mul_usize_r obind];
      match goal with |- forall z, ?b = Done z -> exists x, ?a = Done x /\ ?R x z => change (sim R a b) end;
      (eapply sim_bind; [apply read_rule_like; [exact H|reflexivity]|]); open; simt IH.
Qed.

Lemma read_node_like f ss c d ig : likec c d -> sim (both (opt (both eq (both eq liker))) eq) (read_node_r f ss c ig) (read_node f ss d ig).
Proof.
  intros H. unfold read_node, read_node_r.
  repeat first [eapply sim_bind; [apply (node_loop_like ss f); [eassumption|exact I]|open]|simt I]; apply sim_done; fin.
Qed.

Definition like_rules (s s' : syntax) : Prop := s_names s = s_names s' /\ Forall2 liker (s_rules s) (s_rules s').

Lemma nodes_loop_like ss : forall f c d s s' ig, likec c d -> like_rules s s' ->
  sim (both (opt like_rules) eq) (nodes_loop_r f ss c s ig) (nodes_loop f ss d s' ig).
Proof.
  induction f as [|f IH]; intros c d s s' ig H Hs; [apply sim_fuel|]. cbn [nodes_loop nodes_loop_r].
  eapply sim_bind; [apply (read_node_like f ss c d ig H)|]. intros [[[r [n v]]|] i] [[[r' [n' v']]|] i'] [Hx Hi]; cbn [fst snd opt] in *;
    try contradiction; subst.
  - destruct Hx as [H0 H1]. cbn in H0, H1. subst. eapply sim_bind; [apply update_like; exact H|]. intros. apply IH; [assumption|].
    destruct H1 as [H1 H2]. cbn in H1, H2. subst n'. unfold syntax_push. destruct Hs as [Hn Hr]. split; cbn; [rewrite Hn; reflexivity|].
    apply Forall2_app; [exact Hr|]. constructor; [exact H2|constructor].
  - like_step. destruct (_ <? _); apply sim_done; fin.
Qed.

Lemma strings_loop_like : forall f c d ss, likec c d -> sim (both likec eq) (strings_loop f c ss) (strings_loop f d ss).
Proof.
  induction f as [|f IH]; intros c d ss H; [apply sim_fuel|]. cbn [strings_loop].
  eapply sim_bind; [apply (read_string_like f c d H)|]. intros x y ->. simt IH; apply sim_done; fin.
Qed.
