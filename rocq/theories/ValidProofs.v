(** Which data is written as valid JSON. *)
From Coq Require Import Ascii String List NArith Bool Arith Lia.
From Verif Require Import Base Ext Types ParseModel PegSpec RuleSpec DataSpec ApiSpec ParseProofs ParsePublic JsonModel JsonSpec
  JsonProofs JsonProofs2 JsonProofs3 ValidSpec.
Import ListNotations.
Local Open Scope list_scope.

(** ** Valid documents *)

Lemma ws_writable c : json_ws c -> writable c.
Proof. intros H. unfold json_ws in H. cbn in H. unfold writable. cbn. destruct H as [<-|[<-|[<-|[<-|[]]]]]; try tauto. left. discriminate. Qed.

Lemma all_ws_writable w : Forall json_ws w -> Forall writable w.
Proof. apply Forall_impl. exact ws_writable. Qed.

Lemma digit_writable c : digit c -> writable c.
Proof. unfold digit, writable. intros. left. lia. Qed.

Lemma bare_ge c : (32 <= c)%N -> writable c.
Proof. left. assumption. Qed.

Ltac wr := repeat match goal with
  | |- Forall _ [] => apply Forall_nil
  | |- Forall _ (_ :: _) => apply Forall_cons
  | |- Forall _ (_ ++ _) => apply Forall_app
  | |- _ /\ _ => split
  end; try assumption; try (left; discriminate).

Lemma chars_writable s t : chars_text not_control s t -> Forall writable t.
Proof.
  induction 1 as [|c s t Hq Hb Hr _ IH|e c s t He _ IH]; [constructor|constructor; [left; exact Hr|exact IH]|].
  constructor; [left; discriminate|]. constructor; [|exact IH].
  cbn in He. repeat destruct He as [He|He]; try contradiction; injection He as <- _; left; discriminate.
Qed.

Lemma int_writable w : json_int w -> Forall writable w.
Proof. intros [|c u Hc _ Hu]; wr; [apply digit_writable; exact Hc|]. eapply Forall_impl; [exact digit_writable|exact Hu]. Qed.

Lemma fraction_writable w : json_fraction w -> Forall writable w.
Proof. intros [|u _ Hu]; wr. eapply Forall_impl; [exact digit_writable|exact Hu]. Qed.

Lemma exponent_writable w : json_exponent w -> Forall writable w.
Proof.
  intros [|e sign u He Hs _ Hu]; wr.
  - cbn in He. destruct He as [<-|[<-|[]]]; left; discriminate.
  - cbn in Hs. destruct Hs as [<-|[<-|[<-|[]]]]; wr.
  - eapply Forall_impl; [exact digit_writable|exact Hu].
Qed.

Lemma number_writable w : json_number w -> Forall writable w.
Proof.
  intros [sign i f e Hs Hi Hf He]. apply Forall_app. split; [cbn in Hs; destruct Hs as [<-|[<-|[]]]; wr|].
  apply Forall_app. split; [apply int_writable; exact Hi|]. apply Forall_app. split; [apply fraction_writable; exact Hf|apply exponent_writable; exact He].
Qed.

Lemma valid_writable :
  (forall v t, json_text not_control json_number v t -> Forall writable t) /\
  (forall ms t, members_text not_control json_number ms t -> Forall writable t) /\
  (forall k v t, member_text not_control json_number k v t -> Forall writable t).
Proof.
  apply (json_text_mutind not_control json_number (fun _ t => Forall writable t) (fun _ t => Forall writable t) (fun _ _ t => Forall writable t)).
  - intros s t Ht. apply chars_writable in Ht. wr.
  - vm_compute. repeat constructor; discriminate.
  - vm_compute. repeat constructor; discriminate.
  - intros w Hw. apply number_writable. exact Hw.
  - intros w Hw. apply all_ws_writable in Hw. wr.
  - intros ms t _ Ht. wr.
  - intros k v m _ Hm. exact Hm.
  - intros k v m ms t _ Hm _ Ht. wr.
  - intros k t v tv a b c d Ha Hb Hc Hd Hk _ Hv. apply all_ws_writable in Ha, Hb, Hc, Hd. apply chars_writable in Hk. wr.
Qed.

(** The numbers in a value. *)
Inductive has_number (w : str) : json -> Prop :=
| hn_here : has_number w (JNumber w)
| hn_in : forall k v ms, In (k, v) ms -> has_number w v -> has_number w (JObject ms).

Lemma valid_numbers :
  (forall v t, json_text not_control json_number v t -> forall w, has_number w v -> json_number w) /\
  (forall ms t, members_text not_control json_number ms t -> forall k v w, In (k, v) ms -> has_number w v -> json_number w) /\
  (forall k v t, member_text not_control json_number k v t -> forall w, has_number w v -> json_number w).
Proof.
  apply (json_text_mutind not_control json_number (fun v _ => forall w, has_number w v -> json_number w)
    (fun ms _ => forall k v w, In (k, v) ms -> has_number w v -> json_number w) (fun _ v _ => forall w, has_number w v -> json_number w)).
  - intros s t _ w H. inversion H.
  - intros w H. inversion H.
  - intros w H. inversion H.
  - intros u Hu w H. inversion H; subst. exact Hu.
  - intros u _ w H. inversion H as [|k v ms Hin]; subst. destruct Hin.
  - intros ms t _ IH w H. inversion H as [|k v ms' Hin Hw]; subst. exact (IH k v w Hin Hw).
  - intros k v m _ IH k' v' w [He|[]] Hw. injection He as <- <-. exact (IH w Hw).
  - intros k v m ms t _ IHm _ IHt k' v' w [He|Hin] Hw; [injection He as <- <-; exact (IHm w Hw)|exact (IHt k' v' w Hin Hw)].
  - intros k t v tv a b c d _ _ _ _ _ _ IH w Hw. exact (IH w Hw).
Qed.

Lemma members_numbers E data ms : data_members E data ms -> forall d x, In d data -> In x (item_numbers d) ->
  exists k v, In (k, v) ms /\ has_number (x_fmt_f64 E x) v.
Proof.
  induction 1 as [|name b rest ms _ IH|name y rest ms _ IH|name s rest ms _ IH|name inner rest ms ms' _ IHi _ IHr]; intros d x Hd Hx.
  - destruct Hd.
  - destruct Hd as [<-|Hd]; [destruct Hx|]. destruct (IH d x Hd Hx) as (k & v & Hin & Hw). exists k, v. split; [right; exact Hin|exact Hw].
  - destruct Hd as [<-|Hd].
    + destruct Hx as [<-|[]]. exists name, (JNumber (x_fmt_f64 E y)). split; [left; reflexivity|constructor].
    + destruct (IH d x Hd Hx) as (k & v & Hin & Hw). exists k, v. split; [right; exact Hin|exact Hw].
  - destruct Hd as [<-|Hd]; [destruct Hx|]. destruct (IH d x Hd Hx) as (k & v & Hin & Hw). exists k, v. split; [right; exact Hin|exact Hw].
  - destruct Hd as [<-|Hd]; [destruct Hx|]. apply in_app_or in Hd as [Hd|[<-|Hd]]; [|destruct Hx|].
    + destruct (IHi d x Hd Hx) as (k & v & Hin & Hw). exists name, (JObject ms). split; [left; reflexivity|]. econstructor; eassumption.
    + destruct (IHr d x Hd Hx) as (k & v & Hin & Hw). exists k, v. split; [right; exact Hin|exact Hw].
Qed.

(** ** What is written contains the strings *)

Lemma write_char_back c : Forall writable (write_char c) -> writable c.
Proof.
  unfold write_char. intros H.
  destruct (N.eqb_spec c 92); [subst; left; discriminate|]. destruct (N.eqb_spec c 34); [subst; left; discriminate|].
  destruct (N.eqb_spec c 10); [subst; right; cbn; tauto|]. destruct (N.eqb_spec c 13); [subst; right; cbn; tauto|].
  destruct (N.eqb_spec c 9); [subst; right; cbn; tauto|]. inversion H; assumption.
Qed.

Lemma write_string_back s : Forall writable (write_string s) -> Forall writable s.
Proof.
  unfold write_string. intros H. apply Forall_app in H as [_ H]. apply Forall_app in H as [H _].
  induction s as [|c s IH]; [constructor|]. cbn [flat_map] in H. apply Forall_app in H as [Hc Hs]. constructor; [apply write_char_back; exact Hc|auto].
Qed.

Lemma write_item_back E d : Forall writable (write_item E d) -> forall s, In s (item_strings d) -> Forall writable s.
Proof.
  intros H s Hs. destruct d; cbn [item_strings write_item] in *.
  - destruct Hs as [<-|[]]. apply Forall_app in H as [H _]. apply write_string_back. exact H.
  - destruct Hs.
  - destruct Hs as [<-|[]]. apply Forall_app in H as [H _]. apply write_string_back. exact H.
  - destruct Hs as [<-|[]]. apply Forall_app in H as [H _]. apply write_string_back. exact H.
  - apply Forall_app in H as [H1 H]. apply Forall_app in H as [_ H2]. destruct Hs as [<-|[<-|[]]]; apply write_string_back; assumption.
Qed.

Lemma write_loop_back E toks : forall i first indent out out', write_loop E toks i first indent out = Done out' ->
  Forall writable out' -> Forall writable out /\ forall d, In d (map snd toks) -> Forall writable (write_item E d).
Proof.
  induction toks as [|d toks IH]; intros i first indent out out' H Hw.
  - injection H as <-. split; [exact Hw|intros d []].
  - cbn [write_loop] in H. destruct (is_end d && Nat.eqb indent 0); [discriminate|].
    apply IH in H as [H1 H2]; [|exact Hw]. apply Forall_app in H1 as [H1 Hi]. apply Forall_app in H1 as [H1 _]. split.
    + destruct (negb first && negb (is_end d)); [apply Forall_app in H1 as [H1 _]; exact H1|].
      destruct (Nat.eqb i 0); [exact H1|apply Forall_app in H1 as [H1 _]; exact H1].
    + intros d' [<-|Hd']; [exact Hi|apply H2; exact Hd'].
Qed.

Theorem valid_exact E toks out : nested (map snd toks) -> prints_words E (map snd toks) -> json_write E toks = Done out ->
  (written_valid out <-> strings_writable (map snd toks) /\ numbers_printable E (map snd toks)).
Proof.
  intros Hn Hp Ho. split.
  - intros (v & Hv). split.
    + intros d s Hd Hs. pose proof (proj1 valid_writable _ _ Hv) as Hw. apply Forall_cons_iff in Hw as [_ Hw].
      apply Forall_app in Hw as [Hw _]. unfold json_write in Ho.
      destruct (write_loop E toks 0 true _ []) as [o| |] eqn:Hl; try discriminate. cbn [obind] in Ho. injection Ho as <-.
      apply Forall_app in Hw as [Hw _]. destruct (write_loop_back E toks _ _ _ _ _ Hl Hw) as [_ Hall]. eapply write_item_back; eauto.
    + intros d x Hd Hx. destruct (nested_members E _ Hn) as (ms & Hms).
      destruct (json_write_text E anyc word toks ms Hms) as (o & Ho' & Ht); [intros ? ? _ _ ? _; left; exact I|exact Hp|].
      rewrite Ho in Ho'. injection Ho' as <-. pose proof (text_unique _ _ _ (valid_loose _ _ Hv) Ht). subst v.
      destruct (members_numbers E _ _ Hms d x Hd Hx) as (k & v & Hin & Hw). eapply (proj1 valid_numbers); [exact Hv|]. econstructor; eassumption.
  - intros [Hs Hx]. destruct (json_write_valid E toks Hn Hs Hx) as (o & ms & _ & Ho' & Hv). rewrite Ho in Ho'. injection Ho' as <-. eexists. exact Hv.
Qed.

(** ** What parsing gives *)

Lemma in_under text r c : In c (under text r) -> In c text.
Proof.
  unfold under. intros H. rewrite <- (firstn_skipn (r_off r) text). apply in_or_app. right.
  rewrite <- (firstn_skipn (r_len r) (skipn (r_off r) text)). apply in_or_app. left. exact H.
Qed.

Lemma made_writable E s text t : plain_literals E -> Forall writable text -> ~ In backslash text ->
  (forall name, gives_name s name -> Forall writable name) -> made_by E s text t ->
  forall w, In w (item_strings (snd t)) -> Forall writable w.
Proof.
  intros HE Ht Hb Hn Hm w Hw. rewrite Forall_forall in Ht.
  assert (Hu : forall r, Forall writable (under text r)) by (intros r; apply Forall_forall; intros c Hc; apply Ht; eapply in_under; exact Hc).
  assert (Hname : forall name r, occurs s r -> property_of r = Some name -> Forall writable name) by (intros name r Ho Hr; apply Hn; exists r; auto).
  destruct Hm; cbn [snd item_strings] in Hw.
  - destruct Hw as [<-|[]]. eapply Hname; [eassumption|reflexivity].
  - destruct Hw as [<-|[]]. eapply Hname; [eassumption|reflexivity].
  - destruct Hw as [<-|[<-|[]]]; [eapply Hname; [eassumption|reflexivity]|apply Hu].
  - destruct Hw as [<-|[<-|[]]]; [eapply Hname; [eassumption|reflexivity]|apply Hu].
  - destruct Hw as [<-|[<-|[]]]; [eapply Hname; [eassumption|reflexivity]|].
    apply Forall_forall. intros c Hc. apply Ht. eapply in_under. eapply HE; [eassumption| |exact Hc].
    intros Hi. apply Hb. eapply in_under. exact Hi.
  - destruct Hw as [<-|[]]. eapply Hname; [eassumption|reflexivity].
  - destruct Hw as [<-|[]]. eapply Hname; [eassumption|reflexivity].
  - destruct Hw.
Qed.

Theorem parsed_valid E : ext_ok E -> plain_literals E -> forall s text ind toks out,
  parse_returns E s text [] ind None toks -> json_write E toks = Done out ->
  Forall writable text -> ~ In backslash text -> (forall name, gives_name s name -> Forall writable name) ->
  numbers_printable E (map snd toks) -> written_valid out.
Proof.
  intros HE HL s text ind toks out Hp Ho Ht Hb Hn Hx.
  destruct (success_nested E HE s ind text [] toks Hp) as (new & He & Hne). cbn in He. subst new.
  destruct (success_made E HE s ind text [] toks Hp) as (new & He & Hma). cbn in He. subst new.
  destruct (json_write_valid E toks Hne) as (o & ms & _ & Ho' & Hv).
  - intros d w Hd Hw. apply in_map_iff in Hd as (t & <- & Hin). rewrite Forall_forall in Hma. eapply made_writable; eauto.
  - exact Hx.
  - rewrite Ho in Ho'. injection Ho' as <-. eexists. exact Hv.
Qed.

(** The stand-in for [read_token] has plain literals. *)
Lemma std_unescape_plain n : forall s k acc v, length s <= n -> std_unescape s k acc = inl v -> ~ In backslash s ->
  forall c, In c v -> In c s \/ In c acc.
Proof.
  induction n as [|n IH]; intros s k acc v Hn H Hb c Hc.
  - destruct s; [|cbn in Hn; lia]. injection H as <-. right. apply in_rev. exact Hc.
  - destruct s as [|d [|e s]].
    + injection H as <-. right. apply in_rev. exact Hc.
    + injection H as <-. right. apply in_rev. exact Hc.
    + destruct (N.eqb_spec d backslash) as [->|Hd]; [destruct Hb; left; reflexivity|]. rewrite std_unescape_cons in H by exact Hd.
      apply IH with (c := c) in H; [|cbn in Hn |- *; lia|intros Hi; apply Hb; right; exact Hi|exact Hc].
      destruct H as [H|[<-|H]]; [left; right; exact H|left; left; reflexivity|right; exact H].
Qed.

Lemma std_plain_literals : plain_literals std_ext.
Proof.
  intros t v H Hb c Hc. cbn in H. unfold std_parse_string in H. destruct t as [|d t]; [injection H as <-; destruct Hc|].
  destruct (std_unescape_plain (length t) t 1 [] v (le_n _) H) with (c := c) as [Hi|[]]; [intros Hi; apply Hb; right; exact Hi|exact Hc|right; exact Hi].
Qed.

(** ** A backspace written with printable characters *)

Definition named_text : syntax := Syn [RText false (Some (s2l "v")) 0%N] [s2l "doc"].
Definition backspace_text : str := [34; 92; 98; 34]%N.

Theorem printable_invalid E : ext_ok E -> string_literals_ok E -> exists s text toks out,
  (forall name, gives_name s name -> Forall printable name) /\ Forall printable text /\
  parse_returns E s text [] indent_default None toks /\ json_write E toks = Done out /\ ~ written_valid out.
Proof.
  intros HE HL. exists named_text, backspace_text, [(Rng 0 4, MString (s2l "v") [8%N])].
  destruct (HL [8%N] [92; 98]%N) as [Hs Hp]; [apply (chars_escape _ 98%N 8%N); [cbn; tauto|constructor]|].
  eexists. split; [|split; [|split; [|split; [reflexivity|]]]].
  - intros name (r & (top & [<-|[]] & Ho) & Hr). inversion Ho as [|r' c Hc Hi]; subst; [|destruct Hc]. injection Hr as <-.
    vm_compute. repeat constructor; discriminate.
  - vm_compute. repeat constructor; discriminate.
  - apply (parse_accepts E HE). eexists. split; [|reflexivity].
    specialize (Hs []). cbn [app length Nat.add] in Hs.
    econstructor; [exists []; reflexivity|].
    refine (reads_text E _ false (Some (s2l "v")) 0%N indent_default 0 backspace_text 4 [8%N] Hs _ Hp). right. discriminate.
  - intros Hv. apply (valid_exact E [(Rng 0 4, MString (s2l "v") [8%N])]) in Hv as [Hv _]; [| | |reflexivity].
    + specialize (Hv _ [8%N] (or_introl eq_refl) (or_intror (or_introl eq_refl))). inversion Hv as [|? ? H _]; subst.
      destruct H as [H|H]; [apply H; reflexivity|]. cbn in H. repeat destruct H as [H|H]; try discriminate H; destruct H.
    + apply nested_leaf; [exact I|constructor].
    + intros d x [<-|[]] [].
Qed.
