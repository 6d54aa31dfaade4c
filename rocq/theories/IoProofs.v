(** Writing to a destination that may fail. *)
From Coq Require Import Ascii String List NArith Bool Arith Lia.
From Verif Require Import Base Ext Types JsonModel HandlerModel IoModel IoSpec.
Import ListNotations.
Local Open Scope string_scope.
Local Open Scope list_scope.
Local Open Scope nat_scope.

Lemma bytes_app a b : bytes (a ++ b) = bytes a ++ bytes b.
Proof. apply flat_map_app. Qed.

Section Writer.
  Variables W ioerr : Type.
  Variable put : W -> list N -> W * option ioerr.

  Notation takes := (takes W ioerr put).
  Notation stops := (stops W ioerr put).
  Notation print := (print W ioerr put).
  Notation next := (next W ioerr).

  (** The program writes the text, and then ends as [fine]. *)
  Definition says (m : io W ioerr) (t : str) (fine : written ioerr) : Prop :=
    writes W ioerr put m (bytes t) fine.

  Lemma takes_app w a w1 b w2 : takes w a w1 -> takes w1 b w2 -> takes w (a ++ b) w2.
  Proof.
    induction 1 as [w|w s w1 t w3 Hp _ IH]; intros Hb; [exact Hb|].
    rewrite <- app_assoc. econstructor; [exact Hp|auto].
  Qed.

  Lemma says_print s : says (print s) s Fine.
  Proof.
    intros w w' r. unfold IoModel.print. destruct (put w (bytes s)) as [w1 [e|]] eqn:Hp;
      intros H; injection H as <- <-.
    - right. exists e. split; [reflexivity|]. exists [], (bytes s), [], w.
      rewrite app_nil_r. split; [reflexivity|]. split; [constructor|exact Hp].
    - left. split; [reflexivity|]. rewrite <- (app_nil_r (bytes s)).
      econstructor; [exact Hp|constructor].
  Qed.

  Lemma says_done : says (done W ioerr) [] Fine.
  Proof. intros w w' r H. injection H as <- <-. left. split; [reflexivity|constructor]. Qed.

  Lemma says_crash : says (crash W ioerr) [] Crashed.
  Proof. intros w w' r H. injection H as <- <-. left. split; [reflexivity|constructor]. Qed.

  Lemma says_next m k a b fine : says m a Fine -> says k b fine -> says (next m k) (a ++ b) fine.
  Proof.
    intros Hm Hk w w' r. unfold IoModel.next. destruct (m w) as [w1 r1] eqn:H1.
    destruct (Hm _ _ _ H1) as [[-> Ht]|(e & -> & Hs)].
    - intros H2. destruct (Hk _ _ _ H2) as [[-> Ht2]|(e & -> & Hs)].
      + left. split; [reflexivity|]. rewrite bytes_app. eapply takes_app; eassumption.
      + right. exists e. split; [reflexivity|].
        destruct Hs as (before & piece & behind & w2 & Hw & Hb & Hp).
        exists (bytes a ++ before), piece, behind, w2. rewrite bytes_app, Hw, app_assoc.
        split; [reflexivity|]. split; [eapply takes_app; eassumption|exact Hp].
    - intros H. injection H as <- <-. right. exists e. split; [reflexivity|].
      destruct Hs as (before & piece & behind & w2 & Hw & Hb & Hp).
      exists before, piece, (behind ++ bytes b), w2. rewrite bytes_app, Hw, <- !app_assoc.
      split; [reflexivity|]. split; assumption.
  Qed.

  Lemma says_each {A} (f : A -> io W ioerr) (g : A -> str) l k b fine :
    (forall x, says (f x) (g x) Fine) -> says k b fine ->
    says (each W ioerr f l k) (flat_map g l ++ b) fine.
  Proof.
    intros Hf Hk. induction l as [|x l IH]; [exact Hk|]. cbn [each fold_right flat_map].
    rewrite <- app_assoc. apply says_next; [apply Hf|exact IH].
  Qed.

  Lemma says_string v : says (write_string_to W ioerr put v) (write_string v) Fine.
  Proof.
    unfold write_string_to, write_string. apply says_next; [apply says_print|].
    apply says_each; [intros c; apply says_print|apply says_print].
  Qed.

  Variable E : ext.

  Lemma says_item d : says (write_item_to W ioerr put E d) (write_item E d) Fine.
  Proof.
    destruct d; cbn [write_item_to write_item]; try (apply says_print);
      (apply says_next; [apply says_string|]); try apply says_print.
    apply says_next; [apply says_print|apply says_string].
  Qed.

  Lemma flat_space n m : flat_map (fun _ : nat => [space]) (seq m n) = repeat space n.
  Proof. revert m. induction n as [|n IH]; intros m; [reflexivity|]. cbn. rewrite IH. reflexivity. Qed.

  Lemma flat_one {A} (f : A -> char) l : flat_map (fun x => [f x]) l = map f l.
  Proof. induction l as [|x l IH]; [reflexivity|]. cbn. rewrite IH. reflexivity. Qed.

  Lemma says_copy (f : char -> char) l k b fine : says k b fine ->
    says (each W ioerr (fun c => print [f c]) l k) (map f l ++ b) fine.
  Proof. intros Hk. rewrite <- flat_one. apply says_each; [intros; apply says_print|exact Hk]. Qed.

  Lemma says_same l k b fine : says k b fine ->
    says (each W ioerr (fun c => print [c]) l k) (l ++ b) fine.
  Proof. intros Hk. rewrite <- (map_id l) at 2. apply (says_copy (fun c => c)). exact Hk. Qed.

  Lemma says_lines lines : forall i k b fine, says k b fine ->
    says (print_lines_to W ioerr put lines i k) (print_lines lines i ++ b) fine.
  Proof.
    induction lines as [|[r text] lines IH]; intros i k b fine Hk; [exact Hk|].
    cbn [print_lines_to print_lines].
    replace ((fmt_nat (i + 1) ++ s2l ": " ++ text ++ [newline] ++ print_lines lines (S i)) ++ b)
      with ((fmt_nat (i + 1) ++ s2l ": " ++ text ++ [newline]) ++ print_lines lines (S i) ++ b)
      by (rewrite <- !app_assoc; reflexivity).
    apply says_next; [apply says_print|]. apply IH. exact Hk.
  Qed.

End Writer.

(** A program for any destination. *)
Definition program := forall W ioerr, (W -> list N -> W * option ioerr) -> io W ioerr.

Definition tells (m : program) (t : str) (ok : bool) : Prop :=
  forall W ioerr put, says W ioerr put (m W ioerr put) t (if ok then Fine else Crashed).

Section WithExt.
  Variable E : ext.

  Lemma tells_loop data : forall i first indent out,
    let m : program := fun W ioerr put =>
      write_loop_to W ioerr put E data i first indent (print W ioerr put [newline]) in
    match write_loop E data i first indent out with
    | Done t => exists t', t = out ++ t' /\ tells m (t' ++ [newline]) true
    | Panic => exists t', tells m t' false
    | OutOfFuel => False
    end.
  Proof.
    induction data as [|d data IH]; intros i first indent out m; unfold m; cbn [write_loop write_loop_to].
    - exists []. split; [symmetry; apply app_nil_r|]. intros W ioerr put. apply says_print.
    - destruct (is_end d && Nat.eqb indent 0); [exists []; intros W ioerr put; apply says_crash|].
      set (ind1 := if is_end d then indent - 1 else indent).
      set (sep := if negb first && negb (is_end d) then s2l "," ++ [newline]
                  else if Nat.eqb i 0 then [] else [newline]).
      assert (Hsep : forall W ioerr put,
        says W ioerr put (if negb first && negb (is_end d) then print W ioerr put (s2l "," ++ [newline])
         else if Nat.eqb i 0 then done W ioerr else print W ioerr put [newline]) sep Fine).
      { intros W ioerr put. unfold sep. destruct (_ && _); [apply says_print|].
        destruct (Nat.eqb i 0); [apply says_done|apply says_print]. }
      set (out' := ((if negb first && negb (is_end d) then out ++ s2l "," ++ [newline]
          else if Nat.eqb i 0 then out else out ++ [newline]) ++ repeat space ind1) ++ write_item E (snd d)).
      assert (Hout : out' = out ++ sep ++ repeat space ind1 ++ write_item E (snd d)).
      { unfold out', sep. destruct (_ && _); [rewrite <- !app_assoc; reflexivity|].
        destruct (Nat.eqb i 0); rewrite <- !app_assoc; reflexivity. }
      specialize (IH (S i) (is_start d) (if is_start d then S ind1 else ind1) out'). cbv zeta in IH.
      destruct (write_loop E data _ _ _ out') as [t| |]; [| |exact IH].
      + destruct IH as (t' & -> & Ht). exists (sep ++ repeat space ind1 ++ write_item E (snd d) ++ t').
        split; [rewrite Hout, <- !app_assoc; reflexivity|]. rewrite <- !app_assoc.
        intros W ioerr put. specialize (Ht W ioerr put).
        apply says_next; [apply Hsep|]. rewrite <- (flat_space ind1 0).
        apply says_each; [intros; apply says_print|].
        apply says_next; [apply says_item|exact Ht].
      + destruct IH as (t' & Ht). exists (sep ++ repeat space ind1 ++ write_item E (snd d) ++ t').
        intros W ioerr put. specialize (Ht W ioerr put).
        apply says_next; [apply Hsep|]. rewrite <- (flat_space ind1 0).
        apply says_each; [intros; apply says_print|].
        apply says_next; [apply says_item|exact Ht].
  Qed.

  Lemma tells_json data :
    let m : program := fun W ioerr put => json_write_to W ioerr put E data in
    match json_write E data with
    | Done t => tells m t true
    | Panic => exists t, tells m t false
    | OutOfFuel => False
    end.
  Proof.
    cbv zeta. unfold json_write, json_write_to.
    match goal with |- context [write_loop E data 0 true ?n []] => set (ind := n) end.
    pose proof (tells_loop data 0 true ind []) as H. cbv zeta in H.
    destruct (write_loop E data 0 true ind []) as [t| |]; cbn [obind]; [|exact H|exact H].
    destruct H as (t' & -> & H). exact H.
  Qed.

  Lemma tells_report lines rg : forall i printed out,
    let m : program := fun W ioerr put => report_loop_to W ioerr put lines rg i printed in
    match report_loop lines rg i printed out with
    | Done t => exists t', t = out ++ t' /\ tells m t' true
    | Panic => exists t', tells m t' false
    | OutOfFuel => False
    end.
  Proof.
    induction lines as [|[r text] lines IH]; intros i printed out m; unfold m; cbn [report_loop report_loop_to].
    - exists []. split; [symmetry; apply app_nil_r|intros W ioerr put; apply says_done].
    - destruct (ends_intersect rg r) as [x|]; [|apply IH].
      destruct (r_off x <? r_off r); [apply IH|].
      set (j := r_off x - r_off r). set (s := if 75 <? j then j - 50 else 0).
      set (e := Nat.min (s + 100) (r_len r)).
      set (pos := fmt_nat (i + 1) ++ s2l "," ++ fmt_nat (j + 1) ++ s2l ": ").
      destruct (e <? s).
      { exists (pos ++ []). intros W ioerr put. apply says_next; [apply says_print|apply says_crash]. }
      destruct printed.
      + specialize (IH (S i) true (out ++ pos ++ firstn (e - s) (skipn s text) ++ [newline])).
        cbv zeta in IH.
        destruct (report_loop lines rg (S i) true _) as [t| |]; [| |exact IH].
        * destruct IH as (t' & -> & Ht). exists (pos ++ firstn (e - s) (skipn s text) ++ [newline] ++ t').
          split; [rewrite <- !app_assoc; reflexivity|].
          intros W ioerr put. specialize (Ht W ioerr put).
          apply says_next; [apply says_print|].
          apply says_same. apply says_next; [apply says_print|exact Ht].
        * destruct IH as (t' & Ht). exists (pos ++ firstn (e - s) (skipn s text) ++ [newline] ++ t').
          intros W ioerr put. specialize (Ht W ioerr put).
          apply says_next; [apply says_print|].
          apply says_same. apply says_next; [apply says_print|exact Ht].
      + specialize (IH (S i) true ((out ++ pos ++ firstn (e - s) (skipn s text) ++ [newline]) ++ pos ++
          map pointer_char (firstn (j - s) (skipn s text)) ++ s2l "^" ++ [newline])).
        cbv zeta in IH.
        destruct (report_loop lines rg (S i) true _) as [t| |]; [| |exact IH].
        * destruct IH as (t' & -> & Ht).
          exists (pos ++ firstn (e - s) (skipn s text) ++ [newline] ++ pos ++
            map pointer_char (firstn (j - s) (skipn s text)) ++ (s2l "^" ++ [newline]) ++ t').
          split; [rewrite <- !app_assoc; reflexivity|].
          intros W ioerr put. specialize (Ht W ioerr put).
          apply says_next; [apply says_print|].
          apply says_same. apply says_next; [apply says_print|].
          apply says_next; [apply says_print|].
          apply says_copy. apply says_next; [apply says_print|exact Ht].
        * destruct IH as (t' & Ht).
          exists (pos ++ firstn (e - s) (skipn s text) ++ [newline] ++ pos ++
            map pointer_char (firstn (j - s) (skipn s text)) ++ (s2l "^" ++ [newline]) ++ t').
          intros W ioerr put. specialize (Ht W ioerr put).
          apply says_next; [apply says_print|].
          apply says_same. apply says_next; [apply says_print|].
          apply says_next; [apply says_print|].
          apply says_copy. apply says_next; [apply says_print|exact Ht].
  Qed.

  Lemma tells_msg lines rg msg :
    let m : program := fun W ioerr put => write_msg_to W ioerr put lines rg msg in
    match handler_write_msg lines rg msg with
    | Done t => tells m t true
    | Panic => exists t, tells m t false
    | OutOfFuel => False
    end.
  Proof.
    cbv zeta. unfold handler_write_msg, write_msg_to.
    pose proof (tells_report lines rg 0 false (msg ++ [newline])) as H. cbv zeta in H.
    destruct (report_loop _ _ _ _ _) as [t| |]; [| |exact H].
    - destruct H as (t' & -> & H). intros W ioerr put. apply says_next; [apply says_print|apply H].
    - destruct H as (t' & H). exists ((msg ++ [newline]) ++ t'). intros W ioerr put. apply says_next; [apply says_print|apply H].
  Qed.

  Lemma tells_write lines e :
    let m : program := fun W ioerr put => handler_write_to W ioerr put E lines e in
    match handler_write E lines e with
    | Done t => tells m t true
    | Panic => exists t, tells m t false
    | OutOfFuel => False
    end.
  Proof.
    destruct e as [rg error]. cbv zeta. unfold handler_write, handler_write_to. cbv zeta.
    set (out := s2l "Error " ++ fmt_error E error ++ [newline]).
    assert (Hgen : forall ls p,
      match report_loop lines rg 0 false (out ++ print_lines ls p) with
      | Done t => tells (fun W ioerr put => next W ioerr (print W ioerr put out) (print_lines_to W ioerr put ls p (report_loop_to W ioerr put lines rg 0 false))) t true
      | Panic => exists t, tells (fun W ioerr put => next W ioerr (print W ioerr put out) (print_lines_to W ioerr put ls p (report_loop_to W ioerr put lines rg 0 false))) t false
      | OutOfFuel => False
      end).
    { intros ls p. pose proof (tells_report lines rg 0 false (out ++ print_lines ls p)) as H. cbv zeta in H.
      destruct (report_loop _ _ _ _ _) as [t| |]; [| |exact H].
      - destruct H as (t' & -> & H). rewrite <- app_assoc.
        intros W ioerr put. apply says_next; [apply says_print|]. apply says_lines. apply H.
      - destruct H as (t' & H). exists (out ++ print_lines ls p ++ t').
        intros W ioerr put. apply says_next; [apply says_print|]. apply says_lines. apply H. }
    pose proof (Hgen [] 0) as H0. cbn [print_lines print_lines_to] in H0. rewrite app_nil_r in H0.
    destruct error; try exact H0. destruct (first_line lines rg 0) as [n|]; [apply Hgen|exact H0].
  Qed.
End WithExt.
