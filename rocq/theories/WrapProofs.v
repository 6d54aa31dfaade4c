(** The functions that only call another one: [parse_errstr], [json::print] and
    [ParseErrorHandler::error]. *)
From Coq Require Import List NArith Bool Arith.
From Verif Require Import Base Ext Types ParseModel LibModel JsonModel HandlerModel IoModel DataSpec
  JsonSpec ApiSpec ReportSpec IoSpec ReportProofs IoPublic.
Import ListNotations.

Lemma errstr_default_ok E s text tokens tokens' :
  (exists fuel, parse_errstr E fuel s text tokens = Done (None, tokens')) <->
  (exists fuel, parse E fuel s text tokens = Done (None, tokens')).
Proof. exact (errstr_ok E s text tokens indent_default tokens'). Qed.

Lemma errstr_default_err E s text tokens w tokens' :
  (exists fuel, parse_errstr E fuel s text tokens = Done (Some w, tokens')) <->
  (exists e, (exists fuel, parse E fuel s text tokens = Done (Some e, tokens')) /\
     error_report E text e = Done w).
Proof. exact (errstr_err E s text tokens indent_default w tokens'). Qed.

Lemma errstr_default_panic E s text tokens :
  (exists fuel, parse_errstr E fuel s text tokens = Panic) <->
  (exists fuel, parse E fuel s text tokens = Panic).
Proof. exact (errstr_panic E s text tokens indent_default). Qed.

Lemma errstr_default E s text tokens :
  (forall tokens',
    (exists fuel, parse_errstr E fuel s text tokens = Done (None, tokens')) <->
    (exists fuel, parse E fuel s text tokens = Done (None, tokens'))) /\
  (forall w tokens',
    (exists fuel, parse_errstr E fuel s text tokens = Done (Some w, tokens')) <->
    (exists e, (exists fuel, parse E fuel s text tokens = Done (Some e, tokens')) /\
       error_report E text e = Done w)) /\
  ((exists fuel, parse_errstr E fuel s text tokens = Panic) <->
   (exists fuel, parse E fuel s text tokens = Panic)).
Proof.
  exact (conj (errstr_default_ok E s text tokens)
    (conj (errstr_default_err E s text tokens) (errstr_default_panic E s text tokens))).
Qed.

Lemma print_io E data : ~ over_closed (map snd data) ->
  exists out, json_write E data = Done out /\
    forall W ioerr put w w' r, json_print W ioerr put E data w = (w', r) ->
      (r = Fine /\ takes W ioerr put w (bytes out) w') \/
      (r = Crashed /\ exists e, stops W ioerr put w (bytes out) e w').
Proof.
  intros H. destruct (json_io E data H) as (out & Ho & Hw). exists out. split; [exact Ho|].
  intros W ioerr put. exact (unwrap_io W ioerr put _ _ (Hw W ioerr put)).
Qed.

Lemma print_io_panic E data : over_closed (map snd data) ->
  forall W ioerr put w w' r, json_print W ioerr put E data w = (w', r) -> r = Crashed.
Proof.
  intros H W ioerr put w w' r. destruct (json_io_panic E data H) as (before & Hw).
  unfold json_print, unwrap. destruct (json_write_to W ioerr put E data w) as [w1 r1] eqn:H1.
  destruct (Hw W ioerr put _ _ _ H1) as [[-> _]|(e & -> & _)]; intros G; injection G as _ <-; reflexivity.
Qed.

Lemma error_io E lines e : exists out, handler_write E lines e = Done out /\
  forall W ioerr put w w' r, handler_error W ioerr put E lines e w = (w', r) ->
    (r = Fine /\ takes W ioerr put w (bytes out) w') \/
    (r = Crashed /\ exists e', stops W ioerr put w (bytes out) e' w').
Proof.
  destruct (report_io E lines e) as (out & Ho & Hw). exists out. split; [exact Ho|].
  intros W ioerr put. exact (unwrap_io W ioerr put _ _ (Hw W ioerr put)).
Qed.
