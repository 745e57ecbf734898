(** * SpecNum: numbers, dimensions and character boundaries, stated without the
    code that reads them. *)

From Coq Require Import Ascii String List NArith ZArith Bool Floats.SpecFloat.
From Verif Require Import Base Float32 Event.
Import ListNotations.
Open Scope N_scope.

(** A decimal digit. *)
Definition digit (c : char) : Prop := 48 <= c <= 57.
Definition digits (s : str) : Prop := Forall digit s.

(** The integer written by a string of digits. *)
Definition decimal_of (s : str) : Z :=
  fold_left (fun z c => (10 * z + (Z.of_N c - 48))%Z) s 0%Z.

(** A run of digits, dots and commas. *)
Definition numeric (c : char) : Prop := c = 46 \/ c = 44 \/ digit c.

(** The text does not start with a character satisfying [P]. *)
Definition not_next (P : char -> Prop) (s : str) : Prop :=
  match s with [] => True | c :: _ => ~ P c end.

(** Signs and white space before a number; an odd number of [-] makes it
    negative. *)
Definition sign (c : char) : Prop := c = 45 \/ c = 43 \/ is_ws c = true.

Fixpoint negative (s : str) : bool :=
  match s with
  | [] => false
  | c :: s' => if c =? 45 then negb (negative s') else negative s'
  end.

(** The TeX units. *)
Definition units : list (str * dim_unit) := map (fun p => (lit (fst p), snd p)) [
  ("em"%string, UEm); ("ex"%string, UEx); ("mu"%string, UMu); ("pt"%string, UPt); ("pc"%string, UPc);
  ("in"%string, UIn); ("bp"%string, UBp); ("cm"%string, UCm); ("mm"%string, UMm); ("dd"%string, UDd);
  ("cc"%string, UCc); ("sp"%string, USp)].

(** The [f32] nearest to an integer, with a sign; zero has a sign too. *)
Definition f32_signed (neg : bool) (z : Z) : f32 :=
  if neg then (if (z =? 0)%Z then S754_zero true else f32_of_Z (- z)) else f32_of_Z z.

(** [i] bytes are the bytes of the first characters of [s]. *)
Definition boundary (s : str) (i : N) : Prop := exists a b, s = (a ++ b)%list /\ blen a = i.
