(** * SpecStream: conditions on the streams given to the renderer.

    Written without reference to the renderer. *)

From Coq Require Import List NArith ZArith Bool SpecFloat.
From Verif Require Import Base Float32 Event SpecEvent.
Import ListNotations.
Open Scope N_scope.

(** ** Values of the types of the code *)

(** The bounds every binary32 satisfies; infinities, zeros and NaN satisfy them. *)
Definition f32_ok (x : f32) : Prop :=
  match x with S754_finite _ m e => (Zpos m <= 2 ^ 24)%Z /\ (e <= 104)%Z | _ => True end.

Definition dim_ok (d : option dimension) : Prop :=
  match d with Some d => f32_ok (dvalue d) | None => True end.

(** Every character is a character of Rust. *)
Definition content_valid (c : content) : Prop :=
  match c with
  | CText s | CNumber s | CFunction s => valid_str s
  | COrdinary c _ | CLargeOp c _ | CBinaryOp c _ | CDelimiter c _ _ | CPunctuation c => valid_char c = true
  | CRelation c d _ => valid_char c = true /\ match d with Some d => valid_char d = true | None => True end
  end.

(** ** Text that need not be escaped *)

Definition text_char (c : char) : bool := negb ((c =? 60) || (c =? 38)).
Definition text_ok (s : str) : bool := forallb text_char s.

(** A text that starts or ends with white space. *)
Definition blank_side (s : str) : bool :=
  match s with c :: _ => is_ws c | [] => false end || match rev s with c :: _ => is_ws c | [] => false end.

(** [None]: any characters at all. [Some false]: no [<] and no [&] outside
    running text. [Some true]: also no white space at the sides of running text,
    which the renderer writes as [&nbsp;], unknown to readers of XML, and no
    enlarged delimiter, for which it leaves out the space before [minsize]. *)
Definition content_clean (st : option bool) (c : content) : bool :=
  match st with
  | None => true
  | Some st =>
      match c with
      | CText s => negb st || negb (blank_side s)
      | CNumber s | CFunction s => text_ok s
      | COrdinary c _ | CLargeOp c _ | CBinaryOp c _ | CPunctuation c => text_char c
      | CDelimiter c size _ => text_char c && (negb st || negb (match size with Some _ => true | None => false end))
      | CRelation c d _ => text_char c && match d with Some d => text_char d | None => true end
      end
  end.
Definition delim_clean (st : option bool) (d : option char) : bool :=
  match st, d with Some _, Some c => text_char c | _, _ => true end.

(** ** One event *)

(** Values of the right types, arrays with a column, at most 32767 pairs of
    columns, and clean text. Where the text is looked at, a space has a width:
    without one the renderer leaves out the name of the element. *)
Definition fine (st : option bool) (e : event) : Prop :=
  match e with
  | EvContent c => content_valid c /\ content_clean st c = true
  | EvBegin (GLeftRight l r) => delim_clean st l = true /\ delim_clean st r = true
  | EvBegin (GArray cols) => existsb is_col cols = true
  | EvBegin (GAlignat n _ | GAlignedat n) => n <= 32767
  | EvVisual (VFraction d) => dim_ok d
  | EvSpace w h d => (st = None \/ w <> None) /\ dim_ok w /\ dim_ok h /\ dim_ok d
  | EvFlow (EFNewLine d _) => dim_ok d
  | _ => True
  end.

(** ** One element where one is required *)

(** No function and no state change stands as a child of a visual or a script:
    the renderer writes several elements for the one, and none for the other. *)
Definition steady1 (F : list frame) (e : event) : bool :=
  match F with
  | Need _ :: _ => match e with EvContent (CFunction _) | EvState _ => false | _ => true end
  | _ => true
  end.
Fixpoint steady (F : list frame) (l : list event) : bool :=
  match l with
  | [] => true
  | e :: l' => steady1 F e && match feed F e with Some F' => steady F' l' | None => true end
  end.
