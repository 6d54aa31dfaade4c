(** Writing to a destination that may fail: what the public functions do. *)
From Coq Require Import Ascii String List NArith Bool Arith Lia.
From Verif Require Import Base Ext Types JsonModel HandlerModel IoModel DataSpec JsonSpec IoSpec
  JsonProofs3 ReportProofs IoProofs IoUtf8.
Import ListNotations.
Local Open Scope string_scope.
Local Open Scope list_scope.
Local Open Scope nat_scope.

Lemma json_io E data : ~ over_closed (map snd data) ->
  exists out, json_write E data = Done out /\
    forall W ioerr put, writes W ioerr put (json_write_to W ioerr put E data) (bytes out) Fine.
Proof.
  intros H. pose proof (tells_json E data) as G. cbv zeta in G.
  destruct (json_write E data) as [out| |] eqn:Hj.
  - exists out. split; [reflexivity|]. exact G.
  - destruct H. apply (json_write_panics E). exact Hj.
  - destruct G.
Qed.

Lemma json_io_panic E data : over_closed (map snd data) ->
  exists before, forall W ioerr put,
    writes W ioerr put (json_write_to W ioerr put E data) (bytes before) Crashed.
Proof.
  intros H. apply (json_write_panics E) in H. pose proof (tells_json E data) as G. cbv zeta in G.
  rewrite H in G. exact G.
Qed.

Lemma handler_write_returns E lines e : exists out, handler_write E lines e = Done out.
Proof.
  destruct e as [rg e]. unfold handler_write. cbv zeta.
  match goal with |- context [report_loop _ _ _ _ ?x] =>
    destruct (report_loop_done lines rg 0 false x) as (res & H1 & _) end.
  eauto.
Qed.

Lemma report_io E lines e : exists out, handler_write E lines e = Done out /\
  forall W ioerr put, writes W ioerr put (handler_write_to W ioerr put E lines e) (bytes out) Fine.
Proof.
  pose proof (tells_write E lines e) as G. cbv zeta in G.
  destruct (handler_write_returns E lines e) as [out Hm]. rewrite Hm in G. eauto.
Qed.

Lemma message_io lines rg msg : exists out, handler_write_msg lines rg msg = Done out /\
  forall W ioerr put, writes W ioerr put (write_msg_to W ioerr put lines rg msg) (bytes out) Fine.
Proof.
  pose proof (tells_msg lines rg msg) as G. cbv zeta in G.
  destruct (write_msg_returns lines rg msg) as [more Hm]. rewrite Hm in G. eauto.
Qed.

(** With [unwrap] an error of the destination becomes a panic. *)
Lemma unwrap_io W ioerr put m whole : writes W ioerr put m whole Fine ->
  forall w w' r, unwrap W ioerr m w = (w', r) ->
    (r = Fine /\ takes W ioerr put w whole w') \/
    (r = Crashed /\ exists e, stops W ioerr put w whole e w').
Proof.
  intros H w w' r. unfold unwrap. destruct (m w) as [w1 r1] eqn:H1.
  destruct (H _ _ _ H1) as [[-> Ht]|(e & -> & Hs)]; intros G; injection G as <- <-; eauto.
Qed.

Lemma takes_counted W ioerr put taken : keeps_count W ioerr put taken ->
  forall w s w', takes W ioerr put w s w' -> taken w' = taken w ++ s.
Proof.
  intros [Hok _] w s w'. induction 1 as [w|w s w1 t w2 Hp _ IH].
  - symmetry. apply app_nil_r.
  - rewrite IH, (Hok _ _ _ Hp), app_assoc. reflexivity.
Qed.

Lemma counted_io W ioerr put taken : keeps_count W ioerr put taken ->
  forall m whole fine, writes W ioerr put m whole fine ->
  forall w w' r, m w = (w', r) ->
    (r = fine /\ taken w' = taken w ++ whole) \/
    (exists e p q, r = Failed e /\ whole = p ++ q /\ taken w' = taken w ++ p).
Proof.
  intros Hk m whole fine Hm w w' r H.
  destruct (Hm _ _ _ H) as [[-> Ht]|(e & -> & before & piece & behind & w1 & -> & Ht & Hp)].
  - left. split; [reflexivity|]. eapply takes_counted; eassumption.
  - right. destruct (proj2 Hk _ _ _ _ Hp) as (p & q & -> & Hw).
    exists e, (before ++ p), (q ++ behind). split; [reflexivity|].
    split; [rewrite <- !app_assoc; reflexivity|].
    rewrite Hw, (takes_counted _ _ _ _ Hk _ _ _ Ht), app_assoc. reflexivity.
Qed.

Lemma vec_counts ioerr : keeps_count (list N) ioerr vec_put (fun w => w).
Proof. split; intros; unfold vec_put in *; congruence. Qed.

(** A vector takes everything. *)
Lemma vec_io ioerr m whole fine : writes (list N) ioerr vec_put m whole fine ->
  forall w, m w = (w ++ whole, fine).
Proof.
  intros H w. destruct (m w) as [w' r] eqn:Hm.
  destruct (H _ _ _ Hm) as [[-> Ht]|(e & -> & before & piece & behind & w1 & _ & _ & Hp)].
  - f_equal. exact (takes_counted _ _ _ _ (vec_counts ioerr) _ _ _ Ht).
  - discriminate.
Qed.

(** ** The report consists of characters of the text and of the message. *)

Lemma s2l_scalar s : string_value (s2l s).
Proof.
  induction s as [|a s IH]; [constructor|]. constructor; [|exact IH].
  left. pose proof (N_ascii_bounded a). unfold scalar. lia.
Qed.

Lemma fmt_N_scalar n : string_value (fmt_N n).
Proof.
  unfold fmt_N. generalize (S (N.to_nat (N.log2 n))). intros f.
  assert (H : forall f n acc, string_value acc -> string_value (dec_digits f n acc)).
  { clear. induction f as [|f IH]; intros n acc H; [exact H|]. cbn [dec_digits]. cbv zeta.
    assert (H1 : string_value ((48 + n mod 10)%N :: acc)).
    { constructor; [|exact H]. left. pose proof (N.mod_lt n 10). lia. }
    destruct (n <? 10)%N; [exact H1|apply IH; exact H1]. }
  apply H. constructor.
Qed.

Lemma app_scalar a b : string_value a -> string_value b -> string_value (a ++ b).
Proof. intros Ha Hb. apply Forall_app. auto. Qed.

Lemma firstn_scalar n a : string_value a -> string_value (firstn n a).
Proof. intros H. rewrite <- (firstn_skipn n a) in H. apply Forall_app in H. apply H. Qed.

Lemma skipn_scalar n a : string_value a -> string_value (skipn n a).
Proof. intros H. rewrite <- (firstn_skipn n a) in H. apply Forall_app in H. apply H. Qed.

Lemma one_scalar c : (c < 128)%N -> string_value [c].
Proof. intros H. constructor; [left; lia|constructor]. Qed.

Lemma pointer_scalar s : string_value (map pointer_char s).
Proof.
  induction s as [|c s IH]; constructor; [|exact IH]. unfold pointer_char.
  destruct (N.eqb c tab); left; reflexivity.
Qed.

Definition lines_scalar (lines : list (range * str)) : Prop :=
  Forall (fun l => string_value (snd l)) lines.

Ltac scal := repeat first
  [ apply app_scalar | apply s2l_scalar | apply fmt_N_scalar | apply pointer_scalar
  | apply one_scalar; reflexivity | assumption ].

Lemma report_loop_scalar lines rg : lines_scalar lines -> forall i printed out t,
  string_value out -> report_loop lines rg i printed out = Done t -> string_value t.
Proof.
  induction 1 as [|[r text] lines Hl _ IH]; intros i printed out t Ho; cbn [report_loop].
  - intros H. injection H as <-. exact Ho.
  - destruct (ends_intersect rg r) as [x|]; [|apply IH; exact Ho].
    destruct (r_off x <? r_off r); [apply IH; exact Ho|]. cbv zeta.
    destruct (_ <? _); [discriminate|]. cbn [snd] in Hl.
    destruct printed; apply IH; scal; apply firstn_scalar, skipn_scalar; exact Hl.
Qed.

Lemma print_lines_scalar lines : lines_scalar lines -> forall i, string_value (print_lines lines i).
Proof.
  induction 1 as [|[r text] lines Hl _ IH]; intros i; [constructor|]. cbn [print_lines snd] in *.
  scal. apply IH.
Qed.

Lemma split_scalar s : string_value s -> Forall string_value (split_lines s).
Proof.
  induction 1 as [|c s Hc Hs IH]; [repeat constructor|]. cbn [split_lines].
  destruct (N.eqb c newline); [constructor; [constructor|exact IH]|].
  destruct (split_lines s) as [|l ls]; [constructor; [constructor; [exact Hc|constructor]|constructor]|].
  inversion IH; subst. constructor; [constructor; assumption|assumption].
Qed.

Lemma new_scalar text : string_value text -> lines_scalar (handler_new text).
Proof.
  intros H. apply split_scalar in H. unfold handler_new. generalize 0.
  induction H as [|l ls Hl _ IH]; intros n; constructor; [exact Hl|apply IH].
Qed.

Lemma handler_write_scalar E lines e t : lines_scalar lines -> string_value (fmt_error E (snd e)) ->
  handler_write E lines e = Done t -> string_value t.
Proof.
  intros Hl He. destruct e as [rg error]. unfold handler_write. cbv zeta. cbn [snd] in He.
  apply report_loop_scalar; [exact Hl|].
  assert (H0 : string_value (s2l "Error " ++ fmt_error E error ++ [newline])) by scal.
  destruct error; try exact H0. destruct (first_line lines rg 0) as [n|]; [|exact H0].
  apply app_scalar; [exact H0|]. apply print_lines_scalar. unfold lines_scalar.
  set (p := prev_line _ _ _). clearbody p.
  rewrite <- (firstn_skipn n lines) in Hl. apply Forall_app in Hl. destruct Hl as [Hl _].
  rewrite <- (firstn_skipn p (firstn n lines)) in Hl. apply Forall_app in Hl. apply Hl.
Qed.

(** The [unwrap]s of the [_errstr] functions do not fail. *)
Lemma errstr_io E text e : string_value text -> string_value (fmt_error E (snd e)) ->
  errstr E text e = error_report E text e.
Proof.
  intros Ht He. unfold errstr, error_report.
  destruct (report_io E (handler_new text) e) as (out & Ho & H).
  rewrite (vec_io _ _ _ _ (H (list N) Empty_set vec_put)), Ho. cbn [app].
  rewrite from_utf8_bytes; [reflexivity|].
  apply (handler_write_scalar E (handler_new text) e); [apply new_scalar; exact Ht|exact He|exact Ho].
Qed.
