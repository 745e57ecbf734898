(** * SpecMacro: macro definitions and their use, stated without the code. *)

From Coq Require Import List NArith ZArith Bool.
From Verif Require Import Base SpecLex SpecNum.
Import ListNotations.
Open Scope N_scope.

Definition letter (c : char) : Prop := 65 <= c <= 90 \/ 97 <= c <= 122.
Definition white (c : char) : Prop := is_ws c = true.

(** The name of a control sequence: letters, or one other character. *)
Definition cs_name (n : str) : Prop :=
  (n <> [] /\ Forall letter n) \/ exists c, n = [c] /\ ~ letter c.

(** [named s n r]: the text [s] is the control sequence [n] without its
    backslash, the white space after it, and the rest [r]. *)
Inductive named : str -> str -> str -> Prop :=
| named_word : forall n w r, n <> [] -> Forall letter n -> Forall white w ->
    not_next letter (w ++ r) -> not_next white r -> named (n ++ w ++ r) n r
| named_symbol : forall c w r, ~ letter c -> Forall white w -> not_next white r -> named (c :: w ++ r) [c] r.

(** [argument s a r]: the text [s] starts with the argument [a] of a command, as
    it is inserted in the text of a macro, and continues with [r]: a group, a
    character or a control sequence. *)
Inductive argument : str -> str -> str -> Prop :=
| arg_group : forall w g r, Forall white w -> balanced 123 125 g ->
    argument (w ++ 123 :: g ++ 125 :: r) (123 :: g ++ [125]) r
| arg_char : forall b c r, blank b -> ~ white c -> c <> 37 -> c <> 92 -> c <> 123 ->
    argument (b ++ c :: r) [c] r
| arg_cs : forall b s n r, blank b -> named s n r -> argument (b ++ 92 :: s) (92 :: n) r.

(** The arguments of a macro whose parameters are undelimited ([None]) or
    delimited by a text. *)
Inductive arguments : list (option str) -> str -> list str -> str -> Prop :=
| args_nil : forall s, arguments [] s [] s
| args_plain : forall ps s a r1 l r, argument s a r1 -> arguments ps r1 l r -> arguments (None :: ps) s (a :: l) r
| args_delimited : forall suf ps s a r1 l r, suf <> [] -> delimited suf s a r1 -> arguments ps r1 l r ->
    arguments (Some suf :: ps) s (a :: l) r.

(** The arguments of a macro whose parameter text ends with [#]: an opening brace
    comes after its last delimiter, ends the last argument if this one has no
    delimiter of its own, and stays in the text that follows. [closed a]: an
    argument without braces, whose control sequences are complete. *)
Inductive closed : str -> Prop :=
| closed_nil : closed []
| closed_char : forall c a, c <> 92 -> c <> 37 -> c <> 123 -> c <> 125 -> closed a -> closed (c :: a)
| closed_escape : forall c a, c <> 123 -> c <> 125 -> closed a -> closed (92 :: c :: a).

Inductive brace_arguments : list (option str) -> str -> list str -> str -> Prop :=
| brace_none : forall r, brace_arguments [] (123 :: r) [] (123 :: r)
| brace_plain : forall ps s l a r, arguments ps s l (a ++ 123 :: r) -> closed a ->
    brace_arguments (ps ++ [None]) s (l ++ [a]) (123 :: r)
| brace_delimited : forall ps suf s l a r, suf <> [] -> arguments ps s l (a ++ suf ++ 123 :: r) -> closed a ->
    delimited (suf ++ [123]) (a ++ suf ++ 123 :: r) a r ->
    brace_arguments (ps ++ [Some suf]) s (l ++ [a]) (123 :: r).

(** The same without a delimiter before the brace. *)
Definition undelimited (sufs : list str) : Prop := last sufs [] = [].

(** The replacement text with the arguments put in. *)
Inductive substitutes (args : list str) : str -> str -> Prop :=
| sub_nil : substitutes args [] []
| sub_char : forall c rep out, c <> 35 -> substitutes args rep out -> substitutes args (c :: rep) (c :: out)
| sub_hash : forall rep out, substitutes args rep out -> substitutes args (35 :: 35 :: rep) (35 :: out)
| sub_param : forall c i a rep out, c = 48 + i -> 1 <= i <= 9 -> nth_error args (N.to_nat (i - 1)) = Some a ->
    substitutes args rep out -> substitutes args (35 :: c :: rep) (a ++ out).

(** A replacement text that refers only to the parameters 1 to [n]. *)
Inductive replacement (n : N) : str -> Prop :=
| rep_nil : replacement n []
| rep_char : forall c rep, c <> 35 -> replacement n rep -> replacement n (c :: rep)
| rep_hash : forall rep, replacement n rep -> replacement n (35 :: 35 :: rep)
| rep_param : forall c i rep, c = 48 + i -> 1 <= i <= n -> i <= 9 -> replacement n rep -> replacement n (35 :: c :: rep).

(** The parameters [#i], [#i+1], ..., each with the text that follows it. *)
Fixpoint parameters (i : N) (sufs : list str) : str :=
  match sufs with
  | [] => []
  | s :: sufs' => 35 :: 48 + i :: s ++ parameters (i + 1) sufs'
  end.

Definition delimiter (s : str) : option str := match s with [] => None | _ => Some s end.
