(** Model of src/search/src/lib.rs: the search API. An error is its range; the wording of
    the [Conversion] errors is not modelled. *)
From Coq Require Import Ascii String List NArith Bool Arith.
From Verif Require Import Base Ext Types.
Import ListNotations.

(** src/search/src/lib.rs:11-17 [Search]. *)
Record search := Sr { sr_range : option range; sr_data : list tok }.

(** src/search/src/lib.rs:21-26 [Search::new]. *)
Definition search_new (data : list tok) : search := Sr None data.

(** [self.range.unwrap_or(Range::empty(0))]. *)
Definition search_pos (s : search) : range :=
  match sr_range s with Some r => r | None => Rng 0 0 end.

Section For.
  Context {T : Type}.
  (** The closure, with its result. *)
  Variable f : search -> T + range.

  (** The loop shared by the five [for_*] functions; [p] is the test of the item. *)
  Fixpoint for_loop (p : metadata -> bool) (err : range) (data : list tok) : T + range :=
    match data with
    | [] => inr err
    | d :: rest =>
      if p (snd d) then f (Sr (Some (fst d)) rest) else for_loop p err rest
    end.

  (** src/search/src/lib.rs:30-63 [for_string]. *)
  Definition for_string (s : search) (name val : str) : T + range :=
    for_loop (fun d => match d with
                       | MString n v => str_eqb n name && str_eqb v val
                       | _ => false
                       end) (search_pos s) (sr_data s).

  (** src/search/src/lib.rs:67-100 [for_f64]. *)
  Definition for_f64 (s : search) (name : str) (val : f64) : T + range :=
    for_loop (fun d => match d with
                       | MF64 n v => str_eqb n name && f64_eqb v val
                       | _ => false
                       end) (search_pos s) (sr_data s).

  (** src/search/src/lib.rs:104-137 [for_bool]. *)
  Definition for_bool (s : search) (name : str) (val : bool) : T + range :=
    for_loop (fun d => match d with
                       | MBool n v => str_eqb n name && Bool.eqb v val
                       | _ => false
                       end) (search_pos s) (sr_data s).

  (** src/search/src/lib.rs:141-171 [for_node]. *)
  Definition for_node (s : search) (name : str) : T + range :=
    for_loop (fun d => match d with
                       | StartNode n => str_eqb n name
                       | _ => false
                       end) (search_pos s) (sr_data s).

  (** src/search/src/lib.rs:175-205 [for_end_node]. *)
  Definition for_end_node (s : search) (name : str) : T + range :=
    for_loop (fun d => match d with
                       | EndNode n => str_eqb n name
                       | _ => false
                       end) (search_pos s) (sr_data s).
End For.

(** The shape shared by the five readers; returns the new [self] as well. *)
Definition read_next {A} (s : search) (p : metadata -> option A) : (A + range) * search :=
  match sr_data s with
  | [] => (inr (search_pos s), s)
  | d :: rest =>
    match p (snd d) with
    | Some v => (inl v, Sr (Some (fst d)) rest)
    | None => (inr (fst d), s)
    end
  end.

(** src/search/src/lib.rs:208-231 [bool]. *)
Definition search_bool (s : search) (name : str) : (bool + range) * search :=
  read_next s (fun d => match d with
                        | MBool n v => if str_eqb n name then Some v else None
                        | _ => None
                        end).

(** src/search/src/lib.rs:234-257 [f64]. *)
Definition search_f64 (s : search) (name : str) : (f64 + range) * search :=
  read_next s (fun d => match d with
                        | MF64 n v => if str_eqb n name then Some v else None
                        | _ => None
                        end).

(** src/search/src/lib.rs:260-286 [string]. *)
Definition search_string (s : search) (name : str) : (str + range) * search :=
  read_next s (fun d => match d with
                        | MString n v => if str_eqb n name then Some v else None
                        | _ => None
                        end).

(** src/search/src/lib.rs:289-312 [node]. *)
Definition search_node (s : search) (name : str) : (unit + range) * search :=
  read_next s (fun d => match d with
                        | StartNode n => if str_eqb n name then Some tt else None
                        | _ => None
                        end).

(** src/search/src/lib.rs:315-338 [end_node]. *)
Definition search_end_node (s : search) (name : str) : (unit + range) * search :=
  read_next s (fun d => match d with
                        | EndNode n => if str_eqb n name then Some tt else None
                        | _ => None
                        end).
