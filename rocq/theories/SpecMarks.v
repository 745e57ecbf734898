(** * SpecMarks: the rows of the environments that are open after a stream of
    events. A mark or a new line belongs to the innermost environment, whatever
    groups are open inside it. *)

From Coq Require Import List NArith.
From Verif Require Import Base Float32 Event SpecEvent SpecGrammar.
Import ListNotations.
Open Scope N_scope.

(** Changes the count of the innermost group that has rows. *)
Fixpoint in_row (f : N -> N) (S : list (grouping * N)) : list (grouping * N) :=
  match S with
  | [] => []
  | (g, k) :: S' => match marks g with Some _ => (g, f k) :: S' | None => (g, k) :: in_row f S' end
  end.

(** The innermost group that has rows, with the marks of the current row. *)
Fixpoint innermost (S : list (grouping * N)) : option (grouping * N) :=
  match S with
  | [] => None
  | (g, k) :: S' => match marks g with Some _ => Some (g, k) | None => innermost S' end
  end.

Definition row_step (S : list (grouping * N)) (e : event) : list (grouping * N) :=
  match e with
  | EvBegin g => (g, 0) :: S
  | EvEnd => tl S
  | EvFlow EFAlignment => in_row (fun k => k + 1) S
  | EvFlow (EFNewLine _ _) => in_row (fun _ => 0) S
  | _ => S
  end.

Definition rows (l : list event) : list (grouping * N) := fold_left row_step l [].

(** Every mark is one that the environment still allows in this row. *)
Definition marks_allowed (l : list event) : Prop :=
  forall a b, l = (a ++ EvFlow EFAlignment :: b)%list ->
  exists g k m, innermost (rows a) = Some (g, k) /\ marks g = Some m /\ k < m.

(** Every new line is in an environment. *)
Definition lines_allowed (l : list event) : Prop :=
  forall a sp hl b, l = (a ++ EvFlow (EFNewLine sp hl) :: b)%list -> innermost (rows a) <> None.
