(** * SpecDimension: the lengths of CSS, stated with rational numbers. *)

From Coq Require Import Ascii String List NArith ZArith QArith Qpower Qabs Bool Floats.SpecFloat.
From Verif Require Import Base Float32 Event SpecNum.
Import ListNotations.
Open Scope list_scope.
Open Scope Q_scope.

(** The number a decimal stands for. *)
Inductive unsigned : str -> Q -> Prop :=
| U_integer : forall a, a <> [] -> digits a -> unsigned a (inject_Z (decimal_of a))
| U_fraction : forall a b, a <> [] -> b <> [] -> digits a -> digits b ->
    unsigned (a ++ 46%N :: b) (inject_Z (decimal_of (a ++ b)) * (10 # 1) ^ (- Z.of_nat (length b))).

Inductive decimal : str -> Q -> Prop :=
| D_plus : forall t q, unsigned t q -> decimal t q
| D_minus : forall t q, unsigned t q -> decimal (45%N :: t) (- q).

(** The number an [f32] stands for. *)
Definition signed (s : bool) (q : Q) : Q := if s then - q else q.
Definition value (x : f32) : Q :=
  match x with S754_finite s m e => signed s (inject_Z (Zpos m) * (2 # 1) ^ e) | _ => 0 end.

(** The finite numbers of the format: 24 binary digits, exponents from -149 to 104. *)
Definition finite (x : f32) : Prop :=
  match x with
  | S754_zero _ => True
  | S754_finite _ m e => (Zpos m < 2 ^ 24 /\ -149 <= e <= 104 /\ (2 ^ 23 <= Zpos m \/ e = -149))%Z
  | _ => False
  end.

(** The documentation of [Dimension]: CSS unit, and how many of them there are in
    the TeX unit. (src/event.rs:735-751) *)
Definition css (u : dim_unit) : str * Q :=
  match u with
  | UEm => (lit "em", 1)
  | UMu => (lit "em", 1 # 18)
  | UEx => (lit "ex", 1)
  | UMm => (lit "mm", 1)
  | UCm => (lit "cm", 1)
  | UIn => (lit "in", 1)
  | UBp => (lit "pt", 1)
  | UPt => (lit "pt", 7200 # 7227)
  | UPc => (lit "pc", 7200 # 7227)
  | USp => (lit "pt", 100 # (65536 * 7227))
  | UDd => (lit "pt", (1238 * 7200) # (1157 * 7227))
  | UCc => (lit "pt", (12 * 1238 * 7200) # (1157 * 7227))
  end.

(** A number as it is written in front of a TeX unit: a comma is as good as a
    point, and there need be no digits before or after it. *)
Inductive number : str -> Q -> Prop :=
| N_integer : forall a, a <> [] -> digits a -> number a (inject_Z (decimal_of a))
| N_fraction : forall a p b, p = 46%N \/ p = 44%N -> digits a -> digits b ->
    number (a ++ p :: b) (inject_Z (decimal_of (a ++ b)) * (10 # 1) ^ (- Z.of_nat (length b))).
