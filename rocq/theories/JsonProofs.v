(** Writing JSON. *)
From Coq Require Import Ascii String List NArith Bool Arith Lia.
From Verif Require Import Base Ext Types JsonModel JsonSpec DataSpec.
Import ListNotations.
Local Open Scope list_scope.

(** ** Strings *)

Lemma write_char_text raw c s t :
  raw c \/ In c [10; 13; 9]%N -> chars_text raw s t ->
  chars_text raw (c :: s) (write_char c ++ t).
Proof.
  intros Hc Ht. unfold write_char.
  destruct (N.eqb_spec c 92) as [->|H1]; [apply chars_escape; [simpl; tauto|exact Ht]|].
  destruct (N.eqb_spec c 34) as [->|H2]; [apply chars_escape; [simpl; tauto|exact Ht]|].
  destruct (N.eqb_spec c 10) as [->|H3]; [apply chars_escape; [simpl; tauto|exact Ht]|].
  destruct (N.eqb_spec c 13) as [->|H4]; [apply chars_escape; [simpl; tauto|exact Ht]|].
  destruct (N.eqb_spec c 9) as [->|H5]; [apply chars_escape; [simpl; tauto|exact Ht]|].
  apply chars_raw; [exact H2|exact H1| |exact Ht].
  destruct Hc as [Hc|Hc]; [exact Hc|]. simpl in Hc. intuition congruence.
Qed.

Lemma write_string_text raw s :
  (forall c, In c s -> raw c \/ In c [10; 13; 9]%N) ->
  chars_text raw s (flat_map write_char s).
Proof.
  induction s as [|c s IH]; intros H; [constructor|]. cbn [flat_map].
  apply write_char_text; [apply H; left; reflexivity|]. apply IH. intros d Hd. apply H. right. exact Hd.
Qed.

(** ** Layout *)

Fixpoint value_layout (depth : nat) (v : json) : str :=
  match v with
  | JString s => write_string s
  | JBool b => fmt_bool b
  | JNumber w => w
  | JObject ms =>
    let lines :=
      (fix go (ms : list (str * json)) : str :=
         match ms with
         | [] => []
         | [(k, v)] =>
           repeat space (S depth) ++ write_string k ++ [colon] ++ value_layout (S depth) v
         | (k, v) :: rest =>
           repeat space (S depth) ++ write_string k ++ [colon] ++ value_layout (S depth) v
             ++ [comma; newline] ++ go rest
         end) in
    [open_brace; newline] ++ lines ms ++ (match ms with [] => [] | _ => [newline] end)
      ++ repeat space depth ++ [close_brace]
  end.

Definition line_layout (depth : nat) (k : str) (v : json) : str :=
  repeat space depth ++ write_string k ++ [colon] ++ value_layout depth v.

Fixpoint lines_layout (depth : nat) (ms : list (str * json)) : str :=
  match ms with
  | [] => []
  | [(k, v)] => line_layout depth k v
  | (k, v) :: rest => line_layout depth k v ++ [comma; newline] ++ lines_layout depth rest
  end.

Lemma object_layout depth ms :
  value_layout depth (JObject ms)
  = [open_brace; newline] ++ lines_layout (S depth) ms ++
    (match ms with [] => [] | _ => [newline] end) ++ repeat space depth ++ [close_brace].
Proof.
  cbn [value_layout]. do 3 f_equal.
  clear. induction ms as [|[k v] [|p ms] IH]; [reflexivity|reflexivity|].
  change (lines_layout (S depth) ((k, v) :: p :: ms))
    with (line_layout (S depth) k v ++ [comma; newline] ++ lines_layout (S depth) (p :: ms)).
  rewrite <- IH. unfold line_layout. rewrite <- !app_assoc. reflexivity.
Qed.

(** Behind something else a line break is needed, and a comma behind an item. *)
Definition separator (i : nat) (first : bool) : str :=
  if first then (if Nat.eqb i 0 then [] else [newline]) else [comma; newline].

Definition no_members {A} (ms : list A) : bool := match ms with [] => true | _ => false end.

Lemma lines_layout_cons depth k v ms :
  lines_layout depth ((k, v) :: ms)
  = line_layout depth k v ++ (if no_members ms then [] else [comma; newline] ++ lines_layout depth ms).
Proof. destruct ms; cbn [lines_layout no_members]; [rewrite app_nil_r|]; reflexivity. Qed.

Section Write.
  Variable E : ext.

  Lemma write_leaf d rest i first depth out : leaf (snd d) ->
    write_loop E (d :: rest) i first depth out
    = write_loop E rest (S i) false depth
        (out ++ separator i first ++ repeat space depth ++ write_item E (snd d)).
  Proof.
    destruct d as [r [n|n|n b|n x|n s]]; intros H; try destruct H; cbn -[repeat];
      unfold separator; destruct first, i; cbn -[repeat]; rewrite <- ?app_assoc; reflexivity.
  Qed.

  Lemma write_start d name rest i first depth out : snd d = StartNode name ->
    write_loop E (d :: rest) i first depth out
    = write_loop E rest (S i) true (S depth)
        (out ++ separator i first ++ repeat space depth ++ write_string name ++ [colon; open_brace]).
  Proof.
    destruct d as [r d]. simpl. intros ->. cbn -[repeat].
    unfold separator; destruct first, i; cbn -[repeat]; rewrite <- ?app_assoc; reflexivity.
  Qed.

  Lemma write_end d name rest i first depth out : snd d = EndNode name ->
    write_loop E (d :: rest) (S i) first (S depth) out
    = write_loop E rest (S (S i)) false depth
        (out ++ [newline] ++ repeat space depth ++ [close_brace]).
  Proof.
    destruct d as [r d]. simpl. intros ->. cbn -[repeat].
    rewrite andb_false_r, Nat.sub_0_r. cbn -[repeat]. rewrite <- !app_assoc. reflexivity.
  Qed.

  Lemma write_members : forall data ms, data_members E data ms ->
    forall toks, map snd toks = data -> forall rest i first depth out,
    write_loop E (toks ++ rest) i first depth out
    = if no_members ms then write_loop E rest i first depth out
      else write_loop E rest (i + length toks) false depth
             (out ++ separator i first ++ lines_layout depth ms).
  Proof.
    assert (Hrest : forall (toks : list tok) ms k v i first depth out rest t,
      (forall rest i first depth out,
        write_loop E (toks ++ rest) i first depth out
        = if no_members ms then write_loop E rest i first depth out
          else write_loop E rest (i + length toks) false depth
                 (out ++ separator i first ++ lines_layout depth ms)) ->
      t = line_layout depth k v ->
      (no_members ms = true -> toks = []) ->
      write_loop E (toks ++ rest) (S i) false depth (out ++ separator i first ++ t)
      = write_loop E rest (i + length ((Rng 0 0, EndNode []) :: toks)) false depth
          (out ++ separator i first ++ lines_layout depth ((k, v) :: ms))).
    { intros toks ms k v i first depth out rest t IH -> Hnil. rewrite IH, lines_layout_cons.
      destruct (no_members ms).
      - rewrite (Hnil eq_refl). simpl. rewrite app_nil_r, Nat.add_1_r. reflexivity.
      - simpl length. rewrite Nat.add_succ_r. unfold separator at 2. rewrite <- !app_assoc. reflexivity. }
    assert (Hnil : forall data ms, data_members E data ms -> forall toks : list tok,
      map snd toks = data -> no_members ms = true -> toks = []).
    { intros d m H toks Ht Hm. destruct H; try discriminate.
      destruct toks; [reflexivity|discriminate]. }

    induction 1 as [|name b rest0 ms Hr IH|name x rest0 ms Hr IH|name s rest0 ms Hr IH
                   |name inner rest0 ms ms' Hi IHi Hr IHr]; intros toks Ht rest i first depth out.
    - destruct toks; [reflexivity|discriminate].
    - destruct toks as [|d toks]; [discriminate|]. injection Ht as Hd Ht. cbn [app].
      rewrite write_leaf by (rewrite Hd; exact I). rewrite Hd.
      erewrite Hrest; [reflexivity|apply IH; exact Ht|reflexivity|eapply Hnil; eassumption].
    - destruct toks as [|d toks]; [discriminate|]. injection Ht as Hd Ht. cbn [app].
      rewrite write_leaf by (rewrite Hd; exact I). rewrite Hd.
      erewrite Hrest; [reflexivity|apply IH; exact Ht|reflexivity|eapply Hnil; eassumption].
    - destruct toks as [|d toks]; [discriminate|]. injection Ht as Hd Ht. cbn [app].
      rewrite write_leaf by (rewrite Hd; exact I). rewrite Hd.
      erewrite Hrest; [reflexivity|apply IH; exact Ht|reflexivity|eapply Hnil; eassumption].
    - destruct toks as [|d toks]; [discriminate|]. injection Ht as Hd Ht.
      apply map_eq_app in Ht as (ti & t2 & -> & Hti & Ht2).
      destruct t2 as [|e tr]; [discriminate|]. injection Ht2 as He Htr.
      cbn [app]. rewrite (write_start d name) by exact Hd.
      rewrite <- app_assoc. rewrite (IHi ti Hti). cbn [app no_members].
      assert (Hend : forall j o, write_loop E (e :: tr ++ rest) (S j) (no_members ms) (S depth) o
        = write_loop E (tr ++ rest) (S (S j)) false depth
            (o ++ [newline] ++ repeat space depth ++ [close_brace])).
      { intros j o. apply (write_end e name). exact He. }
      specialize (IHr tr Htr).
      destruct ms as [|m0 ms0].
      + cbn [no_members] in *. rewrite Hend, IHr.
        rewrite (Hnil _ _ Hi ti Hti eq_refl).
        rewrite lines_layout_cons. unfold line_layout at 1. rewrite object_layout.
        destruct (no_members ms') eqn:Hms'.
        * rewrite (Hnil _ _ Hr tr Htr Hms'). cbn [length app lines_layout].
          replace (i + 2) with (S (S i)) by lia.
          rewrite <- ?app_assoc. cbn [app]. rewrite <- ?app_assoc. reflexivity.
        * cbn [length app]. replace (S (S i) + length tr) with (i + S (S (length tr))) by lia.
          unfold separator at 2. cbn [lines_layout app].
          rewrite <- ?app_assoc. cbn [app]. rewrite <- ?app_assoc. reflexivity.
      + cbn [no_members] in *. change (S i + length ti) with (S (i + length ti)). rewrite Hend, IHr.
        rewrite lines_layout_cons. unfold line_layout at 1. rewrite object_layout.
        destruct (no_members ms') eqn:Hms'.
        * rewrite (Hnil _ _ Hr tr Htr Hms'). cbn [length app]. rewrite app_length. cbn [length].
          replace (S (S (i + length ti))) with (i + S (length ti + 1)) by lia.
          change (separator (S i) true) with [newline].
          repeat (progress (rewrite <- ?app_assoc, ?app_nil_r; cbn [app])). reflexivity.
        * cbn [length app]. rewrite app_length. cbn [length].
          replace (S (S (i + length ti)) + length tr) with (i + S (length ti + S (length tr))) by lia.
          change (separator (S i) true) with [newline]. unfold separator at 2.
          repeat (progress (rewrite <- ?app_assoc, ?app_nil_r; cbn [app])). reflexivity.
  Qed.
End Write.
