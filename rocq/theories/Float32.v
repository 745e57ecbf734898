(** * Float32: the [f32] arithmetic and [Display for f32] used by /repo.

    [f32] is IEEE binary32: the operations of Coq's [SpecFloat] at precision 24
    and maximal exponent 128 (computable, no axioms). *)

From Coq Require Import List NArith ZArith Bool Floats.SpecFloat.
From Verif Require Import Base.
Import ListNotations.
Open Scope Z_scope.

(** [f32]. (src/event.rs:720-726) *)
Definition f32 := spec_float.
Definition prec32 : Z := 24.
Definition emax32 : Z := 128.

Definition f32_add (a b : f32) : f32 := SFadd prec32 emax32 a b.
Definition f32_mul (a b : f32) : f32 := SFmul prec32 emax32 a b.
Definition f32_div (a b : f32) : f32 := SFdiv prec32 emax32 a b.
Definition f32_of_Z (z : Z) : f32 := binary_normalize prec32 emax32 z 0 false.

(** A decimal literal [num / 10^k] of the source. The quotient of two exactly
    representable numbers is correctly rounded, as the literal is. *)
Definition f32_lit (num : Z) (k : Z) : f32 := f32_div (f32_of_Z num) (f32_of_Z (10 ^ k)).

(** Equality test on the datatype, used only by examples. *)
Definition f32_eqb (a b : f32) : bool :=
  match a, b with
  | S754_zero s, S754_zero s' => Bool.eqb s s'
  | S754_infinity s, S754_infinity s' => Bool.eqb s s'
  | S754_nan, S754_nan => true
  | S754_finite s m e, S754_finite s' m' e' => Bool.eqb s s' && Pos.eqb m m' && Z.eqb e e'
  | _, _ => false
  end.

(** ** Shortest decimal representation ([core::fmt::float], [flt2dec::strategy::dragon]). *)

(** Least [k] such that the upper end of the rounding interval does not exceed
    [10^k] (exceeding allowed by equality when the end is not included). *)
Fixpoint find_k (fuel : nat) (incl : bool) (hi scale : Z) (k : Z) : Z :=
  match fuel with
  | O => k
  | S f =>
      let (h, s) := if 0 <=? k then (hi, scale * 10 ^ k) else (hi * 10 ^ (- k), scale) in
      if (if incl then s <=? h else s <? h) then find_k f incl hi scale (k + 1) else k
  end.

(** Digit generation of the shortest format; a binary32 needs at most 9 digits. *)
Fixpoint gen_digits (fuel : nat) (incl : bool) (mant minus plus scale : Z) : list Z * bool :=
  match fuel with
  | O => ([], false)
  | S f =>
      let d := mant / scale in
      let m := mant mod scale in
      let down := if incl then m <=? minus else m <? minus in
      let up := if incl then scale <=? m + plus else scale <? m + plus in
      if down || up then ([d], up && (negb down || (scale <=? 2 * m)))
      else let (ds, r) := gen_digits f incl (10 * m) (10 * minus) (10 * plus) scale in
           (d :: ds, r)
  end.

(** [round_up]: add one to the last digit, propagating carries; [true] when all
    digits were 9 and the exponent grows by one. Least significant digit first. *)
Fixpoint incr_rev (ds : list Z) : list Z * bool :=
  match ds with
  | [] => ([], true)
  | d :: r => if d =? 9 then let (r', c) := incr_rev r in (0 :: r', c) else (d + 1 :: r, false)
  end.

(** Digits [ds] and exponent [k]: the value is 0.d1d2... * 10^k. *)
Definition shortest (m : positive) (e : Z) : list Z * Z :=
  let incl := Z.even (Zpos m) in
  let '(mant, minus, plus, ex) :=
    if Zpos m =? 2 ^ 23 then (4 * Zpos m, 1, 2, e - 2) else (2 * Zpos m, 1, 1, e - 1) in
  let '(mant, minus, plus, scale) :=
    if ex <? 0 then (mant, minus, plus, 2 ^ (- ex))
    else (mant * 2 ^ ex, minus * 2 ^ ex, plus * 2 ^ ex, 1) in
  let k := find_k 120 incl (mant + plus) scale (-60) in
  let '(mant, minus, plus, scale) :=
    if 0 <=? k then (mant, minus, plus, scale * 10 ^ k)
    else (mant * 10 ^ (- k), minus * 10 ^ (- k), plus * 10 ^ (- k), scale) in
  let (ds, up) := gen_digits 20 incl (10 * mant) (10 * minus) (10 * plus) scale in
  if up then
    let (r, c) := incr_rev (rev ds) in
    if c then (1 :: rev r, k + 1) else (rev r, k)
  else (ds, k).

Definition digit_char (d : Z) : char := Z.to_N (48 + d).

(** [digits_to_dec_str] with no minimal number of fraction digits. *)
Definition dec_str (ds : list Z) (k : Z) : str :=
  let cs := map digit_char ds in
  let n := Z.of_nat (length ds) in
  if k <=? 0 then (lit "0." ++ repeat 48%N (Z.to_nat (- k)) ++ cs)%list
  else if k <? n then (firstn (Z.to_nat k) cs ++ 46%N :: skipn (Z.to_nat k) cs)%list
  else (cs ++ repeat 48%N (Z.to_nat (k - n)))%list.

Definition sign_str (s : bool) : str := if s then [45%N] else [].

(** [Display for f32]. (used at src/event.rs:792, src/mathml.rs) *)
Definition f32_display (x : f32) : str :=
  match x with
  | S754_nan => lit "NaN"
  | S754_infinity s => (sign_str s ++ lit "inf")%list
  | S754_zero s => (sign_str s ++ lit "0")%list
  | S754_finite s m e => let (ds, k) := shortest m e in (sign_str s ++ dec_str ds k)%list
  end.

(** Sanity of the printer on literals of the code base (tests/out). *)
Example disp1 : f32_display (f32_div (f32_lit 3 0) (f32_lit 18 0)) = lit "0.16666667".
Proof. vm_compute. reflexivity. Qed.
Example disp2 : f32_display (f32_lit 24 1) = lit "2.4".
Proof. vm_compute. reflexivity. Qed.
Example disp3 : f32_display (f32_of_Z 3) = lit "3".
Proof. vm_compute. reflexivity. Qed.
Example disp4 : f32_display (f32_div (f32_lit 72 0) (f32_lit 7227 2)) = lit "0.99626404".
Proof. vm_compute. reflexivity. Qed.
