(** What can be relied on in an optimised build. *)
From Coq Require Import Ascii String List NArith ZArith Bool Arith Lia.
From Verif Require Import Base Ext Types ParseModel OptimizeModel ConvertModel HandlerModel BootstrapRules LibModel LoadModel JsonModel
  DataSpec ApiSpec OptSpec IdSpec TotalSpec ConvertSpec SyntaxSpec LoadSpec JsonSpec TotalProofs SafeProofs FuelProofs OptProofs OptProofs2 ConvertFuel ConvertNodes
  ConvertValid ParsePublic SyntaxProofs SyntaxProofs2 MeaningProofs TreePublic JsonProofs2 JsonProofs3 Examples
  ReleaseConvert ReleaseModel ReleaseSpec ReleaseProofs ReleaseFuel ReleaseIds ReleaseSafe.
Import ListNotations.
Local Open Scope string_scope.
Local Open Scope list_scope.
Local Open Scope nat_scope.

(** ** Parsing *)

Theorem release_parse_same E s text tokens ind :
  (forall r t, parse_returns E s text tokens ind r t -> release_parses E s text tokens ind r t) /\
  (parse_diverges E s text tokens ind -> release_parse_diverges E s text tokens ind) /\
  (~ parse_panics E s text tokens ind -> ~ release_parse_panics E s text tokens ind /\
     forall r t, release_parses E s text tokens ind r t -> parse_returns E s text tokens ind r t).
Proof.
  pose proof (fun f => parse_with_indent_d E f s text tokens ind) as H. split; [|split].
  - intros r t (f & Hf). exists f. destruct (H f) as [Hp|Hp]; congruence.
  - intros Hd f. destruct (H f) as [Hp|Hp]; specialize (Hd f); congruence.
  - intros Hn. split.
    + intros (f & Hf). destruct (H f) as [Hp|Hp]; [|rewrite Hf in Hp]; apply Hn; exists f; exact Hp.
    + intros r t (f & Hf). exists f. destruct (H f) as [Hp|Hp]; [exfalso; apply Hn; exists f; exact Hp|congruence].
Qed.

Theorem release_parse_valid E s : valid s -> forall text tokens ind, columns_fit ind text -> forall r t,
  release_parses E s text tokens ind r t <-> parse_returns E s text tokens ind r t.
Proof.
  intros Hv text tokens ind Hf r t. destruct (release_parse_same E s text tokens ind) as (H1 & _ & H2).
  split; [apply H2; apply parse_safe; assumption|apply H1].
Qed.

Theorem release_parse_unique E s text tokens ind r1 t1 r2 t2 :
  release_parses E s text tokens ind r1 t1 -> release_parses E s text tokens ind r2 t2 -> r1 = r2 /\ t1 = t2.
Proof.
  intros (f & Hf) (g & Hg). assert (H : Done (r1, t1) = Done (r2, t2)).
  { apply (parse_with_indent_r_fuel E f g s text tokens ind); [exact Hf|discriminate|exact Hg|discriminate]. }
  inversion H. split; reflexivity.
Qed.

(** ** Conversion *)

Theorem release_convert_same data ig :
  (forall r g, convert_returns data ig r g -> release_converts data ig r g) /\
  (convert_diverges data ig -> release_convert_diverges data ig) /\
  (~ convert_panics data ig -> ~ release_convert_panics data ig /\
     forall r g, release_converts data ig r g -> convert_returns data ig r g).
Proof.
  pose proof (fun f => convert_d f data ig) as H. split; [|split].
  - intros r t (f & Hf). exists f. destruct (H f) as [Hp|Hp]; congruence.
  - intros Hd f. destruct (H f) as [Hp|Hp]; specialize (Hd f); congruence.
  - intros Hn. split.
    + intros (f & Hf). destruct (H f) as [Hp|Hp]; [|rewrite Hf in Hp]; apply Hn; exists f; exact Hp.
    + intros r t (f & Hf). exists f. destruct (H f) as [Hp|Hp]; [exfalso; apply Hn; exists f; exact Hp|congruence].
Qed.

Lemma refs_like names a b : like_rule any_ids a b -> like_rule any_ids (rule_update_refs names a) (rule_update_refs names b).
Proof. intros H. apply zero_like. rewrite !zero_refs. rewrite (like_zero _ _ H). reflexivity. Qed.

Theorem release_numbers data data' ig result ig' : Forall2 but_numbers data data' -> convert_returns data' ig result ig' ->
  exists result', release_converts data ig result' ig' /\ but_ids result' result.
Proof.
  intros H (f & Hf). unfold convert in Hf.
  assert (Hs : sim (both but_ids eq) (convert_r f data ig) (convert f data' ig)).
  { unfold convert, convert_r. eapply sim_bind; [apply (strings_loop_like f); split; [reflexivity|exact H]|].
    intros [c ss] [d ss'] [Hc Hss]. cbn [fst snd] in *. subst ss'.
    eapply sim_bind; [apply (nodes_loop_like ss f c d syntax_new syntax_new ig Hc); split; [reflexivity|constructor]|].
    intros [[s|] g] [[s'|] g'] [Hx Hg]; cbn [fst snd opt] in *; try contradiction; subst g'; apply sim_done; split; cbn; try exact I; try reflexivity.
    destruct Hx as [Hn Hr]. split; [exact Hn|]. rewrite Hn. clear - Hr. induction Hr; cbn; constructor; [apply refs_like; assumption|assumption]. }
  destruct (Hs (result, ig') Hf) as ((result', g) & Hx & [H1 H2]). cbn in H1, H2. subst g. exists result'. split; [exists f; exact Hx|exact H1].
Qed.

(** Numbers put to zero. *)
Definition zero_number (t : tok) : tok :=
  match snd t with
  | MF64 n _ => (fst t, MF64 n (SpecFloat.S754_zero false))
  | _ => t
  end.

Lemma zero_but data : Forall2 but_numbers data (map zero_number data).
Proof. induction data as [|[r d] data IH]; cbn; constructor; [|exact IH]. destruct d; split; reflexivity. Qed.

Lemma zero_nested data : nested (map snd data) -> nested (map snd (map zero_number data)).
Proof.
  assert (H : forall ms, nested ms -> nested (map (fun m => match m with MF64 n _ => MF64 n (SpecFloat.S754_zero false) | x => x end) ms)).
  { induction 1 as [|m rest Hm H IH|name inner rest H1 IH1 H2 IH2]; [constructor| |].
    - cbn [map]. apply nested_leaf; [destruct m; exact Hm|exact IH].
    - cbn [map]. rewrite map_app. cbn [map]. apply nested_node; assumption. }
  intros Hn. apply H in Hn. rewrite map_map in Hn |- *. erewrite map_ext; [exact Hn|]. intros [r d]. destruct d; reflexivity.
Qed.

Lemma zero_small data : (N.of_nat (length data) <= usize_max)%N -> ids_small (map zero_number data).
Proof.
  intros Hl k Hk. assert (k = 0%N).
  { destruct Hk as [->|(r & x & Hin & ->)]; [reflexivity|]. apply in_map_iff in Hin as ([q d] & Hd & _). destruct d; cbn in Hd; try discriminate.
    inversion Hd. reflexivity. }
  subst k. assert (rule_nodes (map zero_number data) <= length data).
  { unfold rule_nodes. rewrite <- (map_length zero_number data). generalize (map zero_number data) as l. intros l.
    induction l as [|a l IHl]; cbn; [lia|]. destruct (holds_rule a); cbn; lia. }
  lia.
Qed.

Theorem release_convert_total data ig : nested (map snd data) -> (N.of_nat (length data) <= usize_max)%N ->
  (exists result ig', release_converts data ig result ig') /\ ~ release_convert_panics data ig.
Proof.
  intros Hn Hl. destruct (convert_returns_nested (map zero_number data) ig (zero_nested _ Hn) (zero_small _ Hl)) as (res & ig' & Hc).
  destruct (release_numbers _ _ _ _ _ (zero_but data) Hc) as (res' & (f & Hf) & _). split; [exists res', ig', f; exact Hf|].
  intros (g & Hg). assert (H : convert_r f data ig = convert_r g data ig) by (apply convert_r_agree; congruence). congruence.
Qed.

(** ** Reading a syntax *)

Theorem release_reading_total E : ext_ok E -> forall text, columns_fit indent_default text ->
  (forall tokens, text_data E text tokens -> (N.of_nat (length tokens) <= usize_max)%N) ->
  (exists result, release_reads E text result) /\ ~ release_reading_panics E text.
Proof.
  intros HE text Hfit Hsmall. destruct boot_fine as [Hv Hw].
  assert (Hex : exists result, release_reads E text result).
  { destruct (parse_decided E HE boot_computed Hv Hw text [] indent_default Hfit) as (res & tokens & Hp).
    pose proof (proj1 (release_parse_same E boot_computed text [] indent_default) _ _ Hp) as (fp & Hpr).
    destruct res as [e|].
    - exists (inr e), (Nat.max 100 fp). unfold syntax_unoptimized_r.
      destruct (optimize_mono 100 (Nat.max 100 fp) bootstrap_rules) as [Ho|Ho];
        [apply Nat.le_max_l|rewrite boot_optimized in Ho; discriminate|]. rewrite <- Ho, boot_optimized. cbn [obind]. unfold parse_r.
      destruct (parse_with_indent_r_mono E fp (Nat.max 100 fp) boot_computed text [] indent_default) as [Hq|Hq];
        [apply Nat.le_max_r|congruence|]. rewrite <- Hq, Hpr. reflexivity.
    - assert (Hd : text_data E text tokens).
      { exists boot_computed. split; [exists 100; exact boot_optimized|exact Hp]. }
      assert (Hn : nested (map snd tokens)).
      { destruct (success_nested E HE _ _ _ _ _ Hp) as (new & -> & Hn). exact Hn. }
      destruct (release_convert_total tokens [] Hn (Hsmall _ Hd)) as [(r & ig & fc & Hc) _].
      exists (match r with Some s => inl s | None => inr conversion_error end), (Nat.max 100 (Nat.max fp fc)). unfold syntax_unoptimized_r.
      destruct (optimize_mono 100 (Nat.max 100 (Nat.max fp fc)) bootstrap_rules ltac:(lia)) as [Ho|Ho];
        [rewrite boot_optimized in Ho; discriminate|]. rewrite <- Ho, boot_optimized. cbn [obind]. unfold parse_r.
      destruct (parse_with_indent_r_mono E fp (Nat.max 100 (Nat.max fp fc)) boot_computed text [] indent_default ltac:(lia)) as [Hq|Hq]; [congruence|].
      rewrite <- Hq, Hpr. cbn [obind].
      destruct (convert_r_mono fc (Nat.max 100 (Nat.max fp fc)) tokens [] ltac:(lia)) as [Hz|Hz]; [congruence|].
      rewrite <- Hz, Hc. cbn [obind]. destruct r; reflexivity. }
  split; [exact Hex|]. destruct Hex as (r & f & Hf). intros (g & Hg).
  assert (H : syntax_unoptimized_r E f text = syntax_unoptimized_r E g text).
  { apply (agree (fun n => syntax_unoptimized_r E n text)); [intros m n; apply syntax_unoptimized_r_mono|congruence|congruence]. }
  congruence.
Qed.

Theorem release_syntax_same E text result : syntax_returns E text result -> release_syntax E text result.
Proof. intros (f & Hf). exists f. destruct (lib_syntax_d E f text) as [H|H]; congruence. Qed.

Theorem release_loads_same E sy da result : loads E sy da result -> release_loads E sy da result.
Proof. intros (f & Hf). exists f. destruct (load_d E f sy da) as [H|H]; congruence. Qed.

Theorem release_loads_unique E sy da r1 r2 : release_loads E sy da r1 -> release_loads E sy da r2 -> r1 = r2.
Proof.
  intros (f & Hf) (g & Hg). assert (H : load_syntax_data_r E f sy da = load_syntax_data_r E g sy da).
  { apply (agree (fun n => load_syntax_data_r E n sy da)); [intros m n; apply load_r_mono|congruence|congruence]. }
  congruence.
Qed.

(** ** JSON *)

Lemma write_loop_same E data : forall i first depth out text, (N.of_nat depth + N.of_nat (length data) <= u32_max)%N ->
  write_loop E data i first depth out = Done text -> write_loop_r E data i first (N.of_nat depth) out = text.
Proof.
  induction data as [|d data IH]; intros i first depth out text Hl H; [inversion H; reflexivity|].
  cbn [write_loop write_loop_r length] in *. destruct (is_end d) eqn:He; cbn [andb] in H.
  - destruct depth as [|depth]; [discriminate|]. cbn [Nat.eqb] in H.
    replace (sub_u32_r (N.of_nat (S depth)) 1) with (N.of_nat depth).
    2: { unfold sub_u32_r. replace (N.of_nat (S depth) + (u32_max + 1) - 1)%N with (N.of_nat depth + 1 * (u32_max + 1))%N by lia.
         rewrite N.mod_add by discriminate. symmetry. apply N.mod_small. lia. }
    rewrite Nat2N.id. replace (S depth - 1) with depth in H by lia.
    assert (Hs : is_start d = false) by (unfold is_end, is_start in *; destruct (snd d); congruence).
    rewrite Hs in *. apply IH; [lia|exact H].
  - rewrite Nat2N.id. destruct (is_start d) eqn:Hs.
    + replace (add_u32_r (N.of_nat depth) 1) with (N.of_nat (S depth)).
      2: { unfold add_u32_r. rewrite N.mod_small by lia. lia. }
      apply IH; [lia|exact H].
    + apply IH; [lia|exact H].
Qed.

Lemma write_loop_grows E data : forall i first depth out, length out <= length (write_loop_r E data i first depth out).
Proof.
  induction data as [|d data IH]; intros i first depth out; [apply le_n|]. cbn [write_loop_r]. eapply Nat.le_trans; [|apply IH].
  rewrite !app_length. destruct (negb first && negb (is_end d)); [rewrite app_length; lia|]. destruct (Nat.eqb i 0); [lia|rewrite app_length; lia].
Qed.

Lemma write_loop_wraps E data : forall i first depth out, (N.of_nat depth + N.of_nat (length data) <= u32_max)%N ->
  write_loop E data i first depth out = Panic ->
  (u32_max <= N.of_nat (length (write_loop_r E data i first (N.of_nat depth) out)))%N.
Proof.
  induction data as [|d data IH]; intros i first depth out Hl H; [discriminate|].
  cbn [write_loop write_loop_r length] in *. destruct (is_end d) eqn:He; cbn [andb] in H.
  - destruct depth as [|depth]; cbn [Nat.eqb] in H.
    + clear H. change (sub_u32_r (N.of_nat 0) 1) with u32_max.
      match goal with |- (_ <= N.of_nat (length (write_loop_r E data ?i ?f ?d ?o)))%N => pose proof (write_loop_grows E data i f d o) as Hg end.
      rewrite !app_length, repeat_length in Hg. lia.
    + replace (sub_u32_r (N.of_nat (S depth)) 1) with (N.of_nat depth).
      2: { unfold sub_u32_r. replace (N.of_nat (S depth) + (u32_max + 1) - 1)%N with (N.of_nat depth + 1 * (u32_max + 1))%N by lia.
           rewrite N.mod_add by discriminate. symmetry. apply N.mod_small. lia. }
      rewrite Nat2N.id. replace (S depth - 1) with depth in H by lia.
      assert (Hs : is_start d = false) by (unfold is_end, is_start in *; destruct (snd d); congruence).
      rewrite Hs in *. apply IH; [lia|exact H].
  - rewrite Nat2N.id. destruct (is_start d) eqn:Hs.
    + replace (add_u32_r (N.of_nat depth) 1) with (N.of_nat (S depth)).
      2: { unfold add_u32_r. rewrite N.mod_small by lia. lia. }
      apply IH; [lia|exact H].
    + apply IH; [lia|exact H].
Qed.

Lemma starts_few data : length (filter is_start data) + length (filter is_end data) <= length data.
Proof. induction data as [|[r d] data IH]; [apply le_n|]. cbn. destruct d; cbn; lia. Qed.

Lemma json_write_r_eq E data : (2 * N.of_nat (length data) <= u32_max)%N ->
  let starts := length (filter is_start data) in
  let ends := length (filter is_end data) in
  json_write_r E data = write_loop_r E data 0 true (N.of_nat (Nat.max starts ends - Nat.min starts ends)) [] ++ [newline].
Proof.
  intros Hl starts ends. unfold json_write_r. fold starts ends. pose proof (starts_few data) as Hs. fold starts ends in Hs.
  rewrite !N.mod_small by lia. f_equal. f_equal. lia.
Qed.

Theorem release_json_same E data : (2 * N.of_nat (length data) <= u32_max)%N ->
  (forall text, json_write E data = Done text -> json_write_r E data = text) /\
  (json_write E data = Panic -> (u32_max <= N.of_nat (length (json_write_r E data)))%N).
Proof.
  intros Hl. pose proof (starts_few data) as Hs. rewrite (json_write_r_eq E data Hl). unfold json_write.
  set (starts := length (filter is_start data)) in *. set (ends := length (filter is_end data)) in *. split.
  - intros text H. destruct (write_loop E data 0 true (Nat.max starts ends - Nat.min starts ends) []) as [t| |] eqn:Hw; try discriminate.
    cbn in H. inversion H. f_equal. eapply write_loop_same; [|exact Hw]. lia.
  - intros H. destruct (write_loop E data 0 true (Nat.max starts ends - Nat.min starts ends) []) as [t| |] eqn:Hw; try discriminate.
    rewrite app_length. pose proof (write_loop_wraps E data 0 true (Nat.max starts ends - Nat.min starts ends) [] ltac:(lia) Hw). lia.
Qed.

(** ** Data that is not nested *)

Theorem unopened_hangs ig : release_convert_diverges unopened ig.
Proof.
  assert (H : forall fuel ss ig, node_loop_r fuel ss (Cv [] 2) None None None ig = OutOfFuel).
  { induction fuel as [|fuel IH]; intros ss ig'; [reflexivity|]. cbn [node_loop_r].
    change (c_end_node (Cv [] 2) (s2l "node")) with (@None range). cbv iota.
    change (c_meta_f64 (Cv [] 2) (s2l "id")) with (@None (range * f64)). cbv iota.
    change (c_meta_string (Cv [] 2) (s2l "name")) with (@None (range * str)). cbv iota.
    change (mul_usize_r 0 1000) with (Done 0%N). cbn [obind].
    destruct fuel as [|fuel]; [reflexivity|].
    change (read_rule_r (S fuel) (s2l "rule") ss (Cv [] 2) (0%N, ig')) with
      (Done (@None (range * rule), (0%N, ig'))). cbn [obind snd].
    change (skip_item_r (Cv [] 2) ig') with (Done (Cv [] 2, ig' ++ [Rng 2 0])). cbn [obind].
    apply IH. }
  assert (H1 : forall fuel ss ig, node_loop_r fuel ss (Cv (skipn 1 unopened) 1) None None None ig = OutOfFuel).
  { intros [|fuel] ss ig'; [reflexivity|]. cbn [node_loop_r].
    change (c_end_node (Cv (skipn 1 unopened) 1) (s2l "node")) with (@None range). cbv iota.
    change (c_meta_f64 (Cv (skipn 1 unopened) 1) (s2l "id")) with (@None (range * f64)). cbv iota.
    change (c_meta_string (Cv (skipn 1 unopened) 1) (s2l "name")) with (@None (range * str)). cbv iota.
    change (mul_usize_r 0 1000) with (Done 0%N). cbn [obind].
    destruct fuel as [|fuel]; [reflexivity|].
    change (read_rule_r (S fuel) (s2l "rule") ss (Cv (skipn 1 unopened) 1) (0%N, ig')) with
      (Done (@None (range * rule), (0%N, ig'))). cbn [obind snd].
    change (skip_item_r (Cv (skipn 1 unopened) 1) ig') with (Done (Cv (@nil tok) 2, ig' ++ [Rng 1 1])). cbn [obind].
    apply H. }
  intros [|[|fuel]]; [reflexivity..|]. unfold convert_r.
  change (strings_loop (S (S fuel)) (c_new unopened) []) with (Done (c_new unopened, @nil (str * str))).
  cbn [obind nodes_loop_r]. unfold read_node_r.
  change (c_start_node (c_new unopened) (s2l "node")) with (Some (Rng 0 1)). cbv iota.
  change (c_update (c_new unopened) (Rng 0 1)) with (Done (Cv (skipn 1 unopened) 1)). cbn [obind].
  rewrite H1. reflexivity.
Qed.
