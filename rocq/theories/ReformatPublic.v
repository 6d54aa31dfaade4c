(** C98: white space may be changed. *)
From Coq Require Import Ascii String List NArith Bool Arith Lia.
From Verif Require Import Base Ext Types ParseModel OptimizeModel PegSpec DataSpec ApiSpec OptSpec ExtProofs PegFacts ParseProofs OptPublic
  ParsePublic TotalSpec TotalProofs TotalCheck ShapeSpec GrammarSpec GrammarProofs GrammarCheck GrammarPublic PlaceSpec PlaceProofs PlacePublic
  OccursProofs EditSpec EditProofs ReformatSpec ReformatProofs AtEnd Examples.
Import ListNotations.
Local Open Scope string_scope.
Local Open Scope list_scope.
Local Open Scope nat_scope.

Theorem reformatted E : ext_ok E -> strings_end E -> forall s, valid s -> well_formed s -> clear E s -> stores_text s ->
  forall text tokens ind new o n w, parse_returns E s text tokens ind None (tokens ++ new) ->
  white_run text o n -> uncovered o new -> w <> [] -> Forall white w -> columns_fit ind (edited o n w text) ->
  exists new', parse_returns E s (edited o n w text) tokens ind None (tokens ++ new') /\
    map snd new' = map snd new /\ Forall2 (respaced o n (length w)) new new'.
Proof.
  intros HE Hs s Hv Hw Hc Hst text tokens ind new o n w H Hr Hu Hw0 Hww Hf.
  destruct (has_start E s _ _ _ _ HE H) as (start & Hstart). pose proof (clear_no_lines E s Hc) as Hno.
  pose proof H as H'. apply (parse_accepts E HE) in H'. destruct H' as (out & Ha & He). apply app_inv_head in He. subst out.
  destruct Ha as [q out ind' tr Hq Hreads].
  pose proof (one_start s _ _ Hstart Hq) as ->.
  pose proof (proj1 (reads_spaced E HE s Hno Hst) _ _ _ _ _ _ _ Hreads (start_occurs _ _ Hstart)) as Hsp.
  assert (Ho : o < length text).
  { destruct Hr as [Hn (Hl & _)]. rewrite skipn_length in Hl. lia. }
  destruct (Hsp o n Ho Hr Hu) as [Hle Hx]. destruct (Hx w Hw0 Hww) as (new' & K1 & K2). rewrite firstn_all in K2.
  exists new'. split; [|split; [|exact K1]].
  - apply (clear_placed E HE Hs s Hv Hw Hc start Hstart _ ind Hf). exact K2.
  - clear - K1. induction K1 as [|t t' l l' Ht _ IH]; [reflexivity|]. cbn [map]. f_equal; [|exact IH]. destruct Ht as [[_ ->]|[Ht _]]; [reflexivity|exact Ht].
Qed.

Theorem reformatted_optimized E : ext_ok E -> strings_end E -> forall s s', valid s -> well_formed s -> clear E s -> stores_text s ->
  optimize_returns s s' -> tails_fail_at_end E s ->
  forall text tokens ind new o n w, Forall real_char text -> parse_returns E s' text tokens ind None (tokens ++ new) ->
  white_run text o n -> uncovered o new -> w <> [] -> Forall white w -> columns_fit ind (edited o n w text) ->
  exists new', parse_returns E s' (edited o n w text) tokens ind None (tokens ++ new') /\
    map snd new' = map snd new /\ Forall2 (respaced o n (length w)) new new'.
Proof.
  intros HE Hs s s' Hv Hw Hc Hst Hop Ht text tokens ind new o n w Hreal H Hr Hu Hw0 Hww Hf.
  apply (optimize_accepts E HE s s' Hop Ht text tokens ind Hreal) in H.
  destruct (reformatted E HE Hs s Hv Hw Hc Hst _ _ _ _ _ _ _ H Hr Hu Hw0 Hww Hf) as (new' & K1 & K2 & K3).
  exists new'. split; [|split; assumption]. apply (optimize_accepts E HE s s' Hop Ht _ tokens ind (proj1 Hf)). exact K1.
Qed.

(** ** Checked *)

Definition stores_ruleb (r : rule) : bool :=
  match r with
  | RTag text _ _ _ _ => forallb (fun c => negb (is_ws c)) text
  | RUntilAny _ _ None _ | RText _ None _ | RNumber _ None _ => false
  | _ => true
  end.

Lemma stores_check s : forallb (all_sub stores_ruleb) (s_rules s) = true -> stores_text s.
Proof.
  intros H. pose proof (all_rules_spec _ _ H) as Hr. repeat split.
  - intros text not_ inverted property id Ho. apply Hr in Ho. cbn [stores_ruleb] in Ho. rewrite forallb_forall in Ho. apply Forall_forall.
    intros c Hc Hw. specialize (Ho c Hc). unfold white in Hw. rewrite Hw in Ho. discriminate.
  - intros any optional property id Ho ->. apply Hr in Ho. discriminate.
  - intros any property id Ho ->. apply Hr in Ho. discriminate.
  - intros any property id Ho ->. apply Hr in Ho. discriminate.
Qed.

Definition run_check (text : str) (o n : nat) : bool :=
  (0 <? n) && (n <=? length (skipn o text)) && forallb is_ws (firstn n (skipn o text)) &&
  match nth_error (skipn o text) n with Some c => negb (is_ws c) | None => true end.

Lemma run_check_spec text o n : run_check text o n = true -> white_run text o n.
Proof.
  unfold run_check. rewrite !andb_true_iff. intros (((H1 & H2) & H3) & H4). apply Nat.ltb_lt in H1. apply Nat.leb_le in H2.
  split; [exact H1|]. split; [exact H2|]. split.
  - rewrite forallb_forall in H3. apply Forall_forall. exact H3.
  - intros c Hc Hw. rewrite Hc in H4. unfold white in Hw. rewrite Hw in H4. discriminate.
Qed.

(** ** What it needs *)

(** [1 doc = {[.._("\n")!:"x" .w! "b"] ["a" .w! "b"]}], with line breaks as separators *)
Definition two_ways : syntax :=
  Syn [RSelect [RSequence [RUntilAny [newline] false (Some (tx "x")) 1; RWhitespace false 2; t (tx "b") 3] 4;
                RSequence [t (tx "a") 5; RWhitespace false 6; t (tx "b") 7] 8] 9] [tx "doc"].

Lemma unclear_spaces : exists s text o n w new new', valid s /\ well_formed s /\ without_lines s /\ stores_text s /\
  parse_returns std_ext s text [] indent_default None new /\ white_run text o n /\ uncovered o new /\ w <> [] /\ Forall white w /\
  columns_fit indent_default (edited o n w text) /\
  parse_returns std_ext s (edited o n w text) [] indent_default None new' /\ map snd new' <> map snd new.
Proof.
  exists two_ways, (tx "a b"), 1, 1, [newline]. eexists. eexists.
  split; [apply validb_spec; vm_compute; reflexivity|]. split; [apply well_formedb_spec; vm_compute; reflexivity|].
  split.
  { intros r indented id Ho. apply (all_rules_spec (fun q => match q with RLines _ _ _ => false | _ => true end)) in Ho; [discriminate|reflexivity]. }
  split; [apply stores_check; reflexivity|]. split; [exists 50; vm_compute; reflexivity|]. split; [apply run_check_spec; reflexivity|].
  split; [intros q []|]. split; [discriminate|]. split; [repeat constructor|]. split; [apply columns_fitb_spec; vm_compute; reflexivity|].
  split; [exists 50; vm_compute; reflexivity|]. discriminate.
Qed.

(** [1 doc = "a b"] *)
Definition white_token : syntax := Syn [t (tx "a b") 1] [tx "doc"].

Lemma tokens_spaces : exists s text o n w new e left_, valid s /\ well_formed s /\ clear std_ext s /\
  parse_returns std_ext s text [] indent_default None new /\ white_run text o n /\ uncovered o new /\ w <> [] /\ Forall white w /\
  columns_fit indent_default (edited o n w text) /\
  parse_returns std_ext s (edited o n w text) [] indent_default (Some e) left_.
Proof.
  exists white_token, (tx "a b"), 1, 1, [newline]. eexists. eexists. eexists.
  destruct (fine_clear white_token) as (Hv & Hw & Hc); [vm_compute; reflexivity|]. do 3 (split; [assumption|]).
  split; [exists 50; vm_compute; reflexivity|]. split; [apply run_check_spec; reflexivity|].
  split; [intros q []|]. split; [discriminate|]. split; [repeat constructor|]. split; [apply columns_fitb_spec; vm_compute; reflexivity|].
  exists 50; vm_compute; reflexivity.
Qed.

(** ** JSON *)

Lemma json_stores : stores_text json_syntax.
Proof. apply stores_check. vm_compute. reflexivity. Qed.

Lemma json_reformatted : exists new new',
  parse_returns std_ext json_syntax (tx "[true, [false ]]") [] indent_default None new /\
  white_run (tx "[true, [false ]]") 6 1 /\ uncovered 6 new /\
  edited 6 1 [newline; tab] (tx "[true, [false ]]") = tx "[true," ++ [newline; tab] ++ tx "[false ]]" /\
  columns_fit indent_default (tx "[true," ++ [newline; tab] ++ tx "[false ]]") /\
  parse_returns std_ext json_syntax (tx "[true," ++ [newline; tab] ++ tx "[false ]]") [] indent_default None new' /\
  new = [arr 0; (Rng 1 4, MBool (tx "bool") true); arr 7; (Rng 8 5, MBool (tx "bool") false); rra 7 8; rra 0 16] /\
  new' = [arr 0; (Rng 1 4, MBool (tx "bool") true); arr 8; (Rng 9 5, MBool (tx "bool") false); rra 8 8; rra 0 17].
Proof.
  eexists. eexists. split; [exists 300; vm_compute; reflexivity|]. split; [apply run_check_spec; reflexivity|].
  split.
  { intros q Hq Hl. cbn [In] in Hq. repeat (destruct Hq as [<-|Hq]; [cbn in Hl |- *; first [destruct Hl; fail|lia]|]). destruct Hq. }
  split; [reflexivity|]. split; [apply columns_fitb_spec; vm_compute; reflexivity|]. split; [exists 300; vm_compute; reflexivity|]. split; reflexivity.
Qed.
