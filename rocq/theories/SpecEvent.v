(** * SpecEvent: the documented shape of event streams, as a checker.

    The invariants of the documentation of [Event] (src/event.rs:18-98), read
    from left to right. An element is a content, a space, a state change, a
    group, or a [Visual] or [Script] event with the elements it requires; flow
    events belong directly to an environment that allows them. *)

From Coq Require Import List NArith Bool.
From Verif Require Import Base Float32 Event.
Import ListNotations.
Open Scope N_scope.

Definition is_col (c : array_col) : bool := match c with ACColumn _ => true | ACSep _ => false end.

(** The number of alignment marks a row of the environment may have; [None] for
    groups that are not environments. *)
Definition marks (g : grouping) : option N :=
  match g with
  | GNormal | GLeftRight _ _ => None
  | GArray cols => Some (N.of_nat (length (filter is_col cols)) - 1)
  | GMatrix _ | GAlign _ | GAligned => Some 65535
  | GCases _ | GSplit => Some 1
  | GAlignat n _ | GAlignedat n => Some (n * 2 - 1)
  | GEquation _ | GSubArray _ | GGather _ | GGathered | GMultline => Some 0
  end.

(** The elements that follow. (src/event.rs:158-192) *)
Definition visual_arity (v : visual) : nat :=
  match v with VSqrt | VNegation => 1 | VRoot | VFraction _ => 2 end.
Definition script_arity (t : script_type) : nat :=
  match t with STSub | STSup => 2 | STSubSup => 3 end.

(** What is open, the innermost first: a group (whether only state changes were
    seen in it; for an environment the marks in this row and those allowed), or
    elements that are still required. *)
Inductive frame := Body (start : bool) (row : option (N * N)) | Need (n : nat).

(** One more element has been completed. *)
Fixpoint done (F : list frame) : option (list frame) :=
  match F with
  | Body _ r :: F' => Some (Body false r :: F')
  | Need (S (S n)) :: F' => Some (Need (S n) :: F')
  | Need (S O) :: F' => done F'
  | _ => None
  end.

Definition open (F : list frame) (f : frame) : option (list frame) :=
  match done F with Some _ => Some (f :: F) | None => None end.

Definition feed (F : list frame) (e : event) : option (list frame) :=
  match e with
  | EvContent _ | EvSpace _ _ _ => done F
  | EvState _ => match F with Body s r :: F' => Some (Body s r :: F') | _ => done F end
  | EvBegin g => open F (Body true (option_map (fun m => (0, m)) (marks g)))
  | EvEnd => match F with Body _ _ :: F' => done F' | _ => None end
  | EvVisual v => open F (Need (visual_arity v))
  | EvScript t _ => open F (Need (script_arity t))
  | EvFlow f =>
      match F with
      | Body s (Some (c, m)) :: F' =>
          match f with
          | EFAlignment => if c <? m then Some (Body false (Some (c + 1, m)) :: F') else None
          | EFNewLine _ _ => Some (Body false (Some (0, m)) :: F')
          | EFStartLines _ => if s then Some (Body false (Some (c, m)) :: F') else None
          end
      | _ => None
      end
  end.

Fixpoint feeds (F : list frame) (l : list event) : option (list frame) :=
  match l with
  | [] => Some F
  | e :: l' => match feed F e with Some F' => feeds F' l' | None => None end
  end.

Definition start_frames : list frame := [Body true None].

(** A prefix of a stream that satisfies the invariants so far. *)
Definition well_begun (l : list event) : Prop := exists F, feeds start_frames l = Some F.

(** A complete stream that satisfies the invariants. *)
Definition well_formed (l : list event) : Prop := exists b, feeds start_frames l = Some [Body b None].

(** The depth of groups, which must not become negative. *)
Fixpoint depth (d : nat) (l : list event) : option nat :=
  match l with
  | [] => Some d
  | EvBegin _ :: l' => depth (S d) l'
  | EvEnd :: l' => match d with O => None | S d' => depth d' l' end
  | _ :: l' => depth d l'
  end.
