(** Basic vocabulary shared by the model: characters, strings, ranges, outcomes. *)
From Coq Require Import Ascii String List NArith Bool Arith.
Import ListNotations.

(** A Rust [char] (a Unicode scalar value). Simplification: any [N]; theorems that need
    scalar values say so with [valid_char]. *)
Definition char := N.

(** A Rust [String]/[&str] as the list of its characters.
    Byte lengths and first bytes are computed by [utf8_len] and [utf8_first] in [Ext]. *)
Definition str := list char.

(** ASCII string literals. *)
Fixpoint s2l (s : string) : str :=
  match s with
  | EmptyString => []
  | String a s' => N_of_ascii a :: s2l s'
  end.

Fixpoint str_eqb (a b : str) : bool :=
  match a, b with
  | [], [] => true
  | x :: a', y :: b' => N.eqb x y && str_eqb a' b'
  | _, _ => false
  end.

(** Crate [range]: [Range<T>] without its data. Simplification: unbounded naturals. *)
Record range := Rng { r_off : nat; r_len : nat }.

(** Crate [range]: [Range::next_offset]. *)
Definition next_offset (r : range) : nat := r_off r + r_len r.

(** Crate [range]: [Range::empty]. *)
Definition empty_range (o : nat) : range := Rng o 0.

(** Crate [range]: [Range<T>] with data ([wrap]). *)
Definition ranged (A : Type) : Type := (range * A)%type.

(** Result of running a piece of Rust code: it returns, it panics, or the fuel given
    to the model did not suffice. *)
Inductive outcome (A : Type) : Type :=
| Done (a : A)
| Panic
| OutOfFuel.
Arguments Done {A} _.
Arguments Panic {A}.
Arguments OutOfFuel {A}.

Definition obind {A B} (o : outcome A) (f : A -> outcome B) : outcome B :=
  match o with
  | Done a => f a
  | Panic => Panic
  | OutOfFuel => OutOfFuel
  end.

Notation "'do' p <- e ; k" := (obind e (fun p => k))
  (at level 200, p pattern, e at level 100, k at level 200).

Definition omap {A B} (f : A -> B) (o : outcome A) : outcome B :=
  match o with
  | Done a => Done (f a)
  | Panic => Panic
  | OutOfFuel => OutOfFuel
  end.

(** Largest values of the machine integers that the code uses. *)
Definition u32_max : N := 4294967295.
Definition usize_max : N := 18446744073709551615.

(** [a + b] on [u32]; overflow is a panic (debug profile). *)
Definition add_u32 (a b : N) : outcome N :=
  if N.leb (a + b) u32_max then Done (a + b)%N else Panic.

(** [a + b] and [a * b] on [usize]; overflow is a panic (debug profile). *)
Definition add_usize (a b : N) : outcome N :=
  if N.leb (a + b) usize_max then Done (a + b)%N else Panic.
Definition mul_usize (a b : N) : outcome N :=
  if N.leb (a * b) usize_max then Done (a * b)%N else Panic.
