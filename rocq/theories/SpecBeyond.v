(** * SpecBeyond: the texts of which SpecFormula and SpecFault say nothing.

    [beyond h s]: the text [s] starts with something that neither is a nucleus
    by the rules of SpecFormula nor wrong by those of SpecFault, for one of the
    reasons listed here; [h] is as there. What comes before it
    is right, whatever the contents of its groups are. *)

From Coq Require Import Ascii String List NArith ZArith Bool.
From Verif Require Import Base Float32 Event Tables Prim PrimTable Lex PrimFacts SpecLex SpecNum SpecFormula SpecFault.
Import ListNotations.
Open Scope N_scope.
Open Scope list_scope.

(** The definitions, and some other commands. *)
Definition other_commands : list str := map lit
  ["buildrel"; "begingroup"; "def"; "let"; "futurelet"; "newcommand"; "renewcommand"; "providecommand"]%string.

(** A number with a unit, also without digits or too large. *)
Inductive some_length : str -> Prop :=
| SL_integer : forall sg ds w u d, Forall sign sg -> digits ds -> white w -> In (u, d) units -> some_length (sg ++ ds ++ w ++ u)
| SL_fraction : forall sg ds p fs w u d, Forall sign sg -> digits ds -> p = 46 \/ p = 44 -> digits fs -> white w -> In (u, d) units ->
    some_length (sg ++ ds ++ p :: fs ++ w ++ u).

(** A length whose number is none or too large, or that is followed by white space
    beyond ASCII. *)
Inductive bad_length : str -> Prop :=
| BL_number : forall x, some_length x -> (forall d, ~ dimension_text x d) -> bad_length x
| BL_wide : forall x d c, dimension_text x d -> is_ws c = true -> 128 <= c -> bad_length (x ++ [c]).

(** A length and one or two words for stretching. *)
Inductive glue_start : str -> Prop :=
| GS_plus : forall x d w, dimension_text x d -> white w -> glue_start (x ++ w ++ lit "plus")
| GS_minus : forall x d w, dimension_text x d -> white w -> glue_start (x ++ w ++ lit "minus")
| GS_both : forall x d w y d' w', dimension_text x d -> white w -> dimension_text y d' -> white w' ->
    glue_start (x ++ w ++ lit "plus" ++ y ++ w' ++ lit "minus").

(** What comes before the length of a command: nothing, or a brace. *)
Definition lead (cs o : str) : Prop := o = [] /\ cs <> lit "hspace" \/ exists w, white w /\ o = w ++ [123].

(** [doubtful_length cs x]: the text [x] is the length, or more, of the command
    [\cs], and nothing is said of it. *)
Inductive doubtful_length : str -> str -> Prop :=
| DL_length : forall cs x, In cs (lit "hspace" :: map fst spaces) -> bad_length x -> doubtful_length cs x
| DL_stretch : forall cs q x, In cs [lit "hspace"; lit "hskip"; lit "mskip"] -> glue_start q -> bad_length x -> doubtful_length cs (q ++ x)
| DL_more : forall x d p m z, glue_text x d p m z -> balanced 123 125 x -> ~ white z -> doubtful_length (lit "hspace") (x ++ [125]).

(** Nothing is said of [\char] followed by [x]. *)
Inductive doubtful_code : str -> Prop :=
| DN_wide_character : forall c, 128 <= c -> is_ws c = false -> doubtful_code [c]
| DN_large : forall x z, figures x z -> (2 ^ 64 <= z)%Z -> doubtful_code x
| DN_not_octal : forall ds c, Forall octal_digit ds -> c = 56 \/ c = 57 -> doubtful_code (39 :: ds ++ [c])
| DN_wide : forall x z c, figures x z -> is_ws c = true -> 128 <= c -> doubtful_code (x ++ [c]).

(** Nothing is said of [\Space] if its lengths are followed by anything, and of it
    and [\genfrac], if the number of a length is none or too large, or the length
    is followed by white space beyond ASCII. *)
Inductive doubtful_part : bool -> str -> Prop :=
| DP_length : forall m x, bad_length x -> doubtful_part m x
| DP_more : forall x d c, dimension_text x d -> c <> 125 -> doubtful_part true (x ++ [c]).

(** [n] lengths in braces. *)
Inductive lengths : nat -> str -> str -> Prop :=
| LG_none : forall s, lengths O s s
| LG_one : forall n w x d s r, white w -> dimension_text x d -> lengths n s r -> lengths (S n) (w ++ 123 :: x ++ 125 :: s) r.

(** The text starts with an operator that has limits and no arguments. *)
Definition operator_first (s : str) : Prop := exists b cs t r c, s = b ++ t /\ blank b /\ control cs t r /\ In (cs, c) commands /\
  c_limits c <> no_limits /\ c_args c = [].

(** [beyond_env name s]: nothing is said of the arguments that the text [s] has
    after [\begin{name}]. *)
Inductive beyond_env : str -> str -> Prop :=
| BE_matrix : forall name w s, In name (map fst starred_matrices) -> white w -> unclosed [91] [93] s -> In 37 s ->
    beyond_env name (w ++ 91 :: s)
| BE_columns : forall name w a cols s, In name [lit "array"; lit "darray"] -> white w -> columns a cols ->
    65535 <= N.of_nat (column_count cols) -> beyond_env name (w ++ 123 :: a ++ s)
| BE_sign : forall name w c s, In name (map fst pair_environments) -> white w -> number_sign c -> beyond_env name (w ++ 123 :: c :: s)
| BE_number : forall name w c x r, In name (map fst pair_environments) -> white w -> balanced 123 125 (c :: x) -> digit c ->
    ~ (digits (c :: x) /\ (decimal_of (c :: x) <= 32767)%Z) -> beyond_env name (w ++ 123 :: (c :: x) ++ 125 :: r).

(** The commands that only stand between elements. *)
Definition between : list str := lit "relax" :: lit "color" :: newline_commands ++ map fst switches.

(** The commands whose first argument is a colour. *)
Definition colour_commands : list str := [lit "color"; lit "textcolor"; lit "colorbox"; lit "fcolorbox"].

Section Beyond.
Let KN : Known := anything.
Existing Instance KN.

Inductive beyond : bool -> str -> Prop :=
| B_command : forall h b cs t r, blank b -> control cs t r -> In cs other_commands -> beyond h (b ++ t)
| B_environment : forall h b t w name s, blank b -> control (lit "begin") t (w ++ 123 :: name ++ 125 :: s) -> white w ->
    beyond_env name s -> beyond h (b ++ t)
| B_length : forall h b cs t o x r, blank b -> control cs t (o ++ x ++ r) -> lead cs o -> doubtful_length cs x -> beyond h (b ++ t)
| B_code : forall h b t x r, blank b -> control (lit "char") t (x ++ r) -> doubtful_code x -> beyond h (b ++ t)
| B_limits : forall b cs t s c, blank b -> control cs t s -> In (cs, c) commands -> c_limits c <> no_limits -> beyond true (b ++ t)
| B_operator : forall b cs t s, blank b -> control cs t s -> In cs [lit "operatorname"; lit "mathop"; lit "sideset"] -> beyond true (b ++ t)
| B_switch : forall b cs t r, blank b -> control cs t r -> In cs (lit "color" :: map fst switches) -> beyond true (b ++ t)
| B_colour : forall h b cs t w x r, blank b -> In cs colour_commands ->
    control cs t (w ++ 123 :: x ++ 125 :: r) -> white w -> balanced 123 125 x -> (forall o, lex_color x <> Ok o) -> beyond h (b ++ t)
| B_frame : forall h b t w x w' x' r, blank b ->
    control (lit "fcolorbox") t (w ++ 123 :: x ++ 125 :: w' ++ 123 :: x' ++ 125 :: r) -> white w -> white w' ->
    balanced 123 125 x -> balanced 123 125 x' -> (forall o, lex_color x' <> Ok o) -> beyond h (b ++ t)
| B_box : forall h b t w x b' c r, blank b -> control (lit "colorbox") t (w ++ 123 :: x ++ 125 :: b' ++ c :: r) -> white w ->
    balanced 123 125 x -> blank b' -> is_ws c = false -> c <> 37 -> c <> 92 -> ~ starts 123 (b' ++ c :: r) -> beyond h (b ++ t)
| B_frame_text : forall h b t w x w' x' b' c r, blank b ->
    control (lit "fcolorbox") t (w ++ 123 :: x ++ 125 :: w' ++ 123 :: x' ++ 125 :: b' ++ c :: r) -> white w -> white w' ->
    balanced 123 125 x -> balanced 123 125 x' -> blank b' -> is_ws c = false -> c <> 37 -> c <> 92 ->
    ~ starts 123 (b' ++ c :: r) -> beyond h (b ++ t)
| B_text : forall h b cs t b' c r, blank b -> control cs t (b' ++ c :: r) -> takes_text cs -> blank b' -> is_ws c = false ->
    c <> 37 -> c <> 92 -> ~ starts 123 (b' ++ c :: r) -> beyond h (b ++ t)
| B_option : forall h b cs t w s, blank b -> control cs t (w ++ 91 :: s) -> In cs (lit "sqrt" :: map fst xarrows) -> white w ->
    unclosed [91] [93] s -> In 37 s -> beyond h (b ++ t)
| B_argument : forall h b cs t s c, blank b -> control cs t s -> In (cs, c) commands -> beyond_argument h (c_args c) s -> beyond h (b ++ t)
| B_sqrt : forall h b cs t s, blank b -> control cs t s -> In cs (lit "sqrt" :: map fst xarrows) -> ~ starts 91 s -> beyond true s -> beyond h (b ++ t)
| B_root : forall h b cs t w i s, blank b -> control cs t (w ++ 91 :: i ++ 93 :: s) -> In cs (lit "sqrt" :: map fst xarrows) -> white w ->
    balanced 91 93 i -> beyond true s -> beyond h (b ++ t)
| B_coloured : forall h b t w x c s, blank b -> control (lit "textcolor") t (w ++ 123 :: x ++ 125 :: s) -> white w ->
    balanced 123 125 x -> colour x c -> beyond true s -> beyond h (b ++ t)
| B_class : forall h b cs t b' cs' t' r, blank b -> control cs t (b' ++ t') -> In cs class_names -> blank b' -> control cs' t' r ->
    beyond true (b' ++ t') -> beyond h (b ++ t)
| B_strut : forall h b t s n w x r, blank b -> control (lit "Space") t s -> (n < 3)%nat -> lengths n s (w ++ 123 :: x ++ r) -> white w ->
    doubtful_part true x -> beyond h (b ++ t)
| B_frac_bar : forall h b t s1 o s2 c w x r, blank b -> control (lit "genfrac") t s1 -> frac_delimiter s1 o s2 ->
    frac_delimiter s2 c (w ++ 123 :: x ++ r) -> white w -> doubtful_part false x -> beyond h (b ++ t)
| B_frac_parts : forall h b t s1 o s2 c w x bar s2' sty s3, blank b -> control (lit "genfrac") t s1 -> frac_delimiter s1 o s2 ->
    frac_delimiter s2 c (w ++ 123 :: x ++ 125 :: s2') -> white w -> frac_bar x bar -> frac_style s2' sty s3 ->
    beyond_argument true [Whole; Whole] s3 -> beyond h (b ++ t)
| B_sideset : forall b t s s1 s2, blank b -> control (lit "sideset") t s -> one_argument s s1 -> one_argument s1 s2 ->
    ~ operator_first s2 -> beyond true s2 -> beyond false (b ++ t)
with beyond_argument : bool -> list akind -> str -> Prop :=
| BA_here : forall h ks s, beyond true s -> beyond_argument h (Whole :: ks) s
| BA_later : forall h ks s es s', nucleus true s es no_limits s' -> beyond_argument h ks s' -> beyond_argument h (Whole :: ks) s
| BA_inside : forall h ks s, ~ starts 123 s -> beyond h s -> beyond_argument h (Inside :: ks) s
| BA_limits : forall h ks s es l s', ~ starts 123 s -> nucleus h s es l s' -> l <> no_limits -> beyond_argument h (Inside :: ks) s
| BA_between : forall ks b cs t r, blank b -> control cs t r -> In cs between -> beyond_argument false (Inside :: ks) (b ++ t)
| BA_script : forall ks b c r, blank b -> c = 94 \/ c = 95 \/ c = 38 -> beyond_argument false (Inside :: ks) (b ++ c :: r).

Inductive beyond_scripts : str -> Prop :=
| BS_first : forall w c s, white w -> script_mark c -> beyond true s -> beyond_scripts (w ++ c :: s)
| BS_second : forall w c s a c' s', white w -> script_mark c -> nucleus true s a no_limits (c' :: s') -> script_mark c' -> c' <> c ->
    beyond true s' -> beyond_scripts (w ++ c :: s).

Definition scripted (s : str) : Prop := starts 94 s \/ starts 95 s.

(** The text [s] starts with something of which nothing is said. *)
Inductive unsaid : str -> Prop :=
| U_nucleus : forall s, beyond false s -> unsaid s
| U_scripts : forall s es l s' p s'', nucleus false s es l s' -> placed l s' p s'' -> beyond_scripts s'' -> unsaid s
| U_orphan : forall b c s, blank b -> script_mark c -> beyond_scripts (c :: s) -> unsaid (b ++ c :: s)
| U_relax : forall b t r, blank b -> control (lit "relax") t r -> scripted r -> unsaid (b ++ t)
| U_mark : forall b s, blank b -> scripted s -> unsaid (b ++ 38 :: s)
| U_space : forall b cs t w s, blank b -> In cs newline_commands -> control cs t (w ++ 91 :: s) -> white w ->
    (forall x d r, s = x ++ 93 :: r -> ~ dimension_text x d) -> unsaid (b ++ t)
| U_row : forall b cs t s d s1 ls s2, blank b -> In cs newline_commands -> control cs t s -> row_space s d s1 -> lines s1 ls s2 ->
    scripted s2 -> unsaid (b ++ t).

End Beyond.

(** ** Parts of texts *)

(** [g] is a part of [s], and does not end within the name of a command. *)
Definition part (g s : str) : Prop := exists a c, s = a ++ g ++ c /\ not_next letter c.

(** ** Doubtful texts *)

(** The commands of which something is said only where they are no arguments:
    operators with limits, and what stands between elements. *)
Definition shy_names : list str :=
  map fst (filter (fun p => match c_limits (snd p) with (false, None) => false | _ => true end) commands) ++
  lit "operatorname" :: lit "mathop" :: lit "sideset" :: lit "relax" :: lit "color" :: map fst switches.

(** Those of them that are doubtful after the sides of [\sideset], too. *)
Definition shy_bases : list str :=
  map fst (filter (fun p => match c_limits (snd p), c_args (snd p) with (false, None), _ => false | _, [] => false | _, _ => true end) commands) ++
  lit "operatorname" :: lit "mathop" :: lit "sideset" :: lit "relax" :: lit "color" :: map fst switches.

(** The commands that do not end with their names. *)
Definition composite_names : list str :=
  map fst (filter (fun p => match c_args (snd p) with [] => false | _ => true end) commands) ++
  lit "sqrt" :: lit "left" :: lit "middle" :: lit "begin" :: lit "textcolor" :: map fst xarrows ++ map fst text_commands ++ map fst sizes ++
  map fst classes ++ [lit "colorbox"; lit "fcolorbox"; lit "substack"; lit "kern"; lit "mkern"; lit "hskip"; lit "mskip"; lit "hspace"; lit "char"; lit "Space"; lit "genfrac"].

(** An argument as it is written: a group, a character, or a command. *)
Inductive item : str -> Prop :=
| T_group : forall b g, blank b -> balanced 123 125 g -> item (b ++ 123 :: g ++ [125])
| T_char : forall b c, blank b -> is_ws c = false -> c <> 37 -> c <> 92 -> c <> 123 -> item (b ++ [c])
| T_letters : forall b cs, blank b -> cs <> [] -> Forall letter cs -> item (b ++ 92 :: cs)
| T_sign : forall b c, blank b -> ~ letter c -> item (b ++ [92; c]).

(** After [x], an argument is expected. *)
Inductive opening : str -> Prop :=
| Q_script : forall c, script_mark c -> opening [c]
| Q_first : forall cs c, In (cs, c) commands -> c_args c <> [] -> opening (92 :: cs)
| Q_second : forall cs c i, In (cs, c) commands -> c_args c = [Whole; Whole] -> item i -> opening (92 :: cs ++ i)
| Q_sqrt : forall cs, In cs (lit "sqrt" :: map fst xarrows) -> opening (92 :: cs)
| Q_colour : forall w x, white w -> balanced 123 125 x -> opening (lit "\textcolor" ++ w ++ 123 :: x ++ [125])
| Q_root : forall cs w i, In cs (lit "sqrt" :: map fst xarrows) -> white w -> balanced 91 93 i -> opening (92 :: cs ++ w ++ 91 :: i ++ [93])
| Q_class : forall cs, In cs class_names -> opening (92 :: cs).

(** After [x], a text is expected. *)
Inductive boxing : str -> Prop :=
| BX_box : forall w x, white w -> balanced 123 125 x -> boxing (lit "\colorbox" ++ w ++ 123 :: x ++ [125])
| BX_frame : forall w x w' x', white w -> white w' -> balanced 123 125 x -> balanced 123 125 x' ->
    boxing (lit "\fcolorbox" ++ w ++ 123 :: x ++ 125 :: w' ++ 123 :: x' ++ [125]).

(** [after_arguments n s r]: after [n] arguments, the text [s] goes on with [r]. *)
Inductive after_arguments : nat -> str -> str -> Prop :=
| AA_none : forall s, after_arguments O s s
| AA_one : forall n s s1 r, one_argument s s1 -> after_arguments n s1 r -> after_arguments (S n) s r.

Definition row_starts : list str := lit "relax" :: lit "hline" :: lit "hdashline" :: newline_commands.

(** Doubtful texts that end with the name of a command, *)
Inductive doubtful_command : str -> Prop :=
| DC_name : forall cs, In cs other_commands -> doubtful_command (92 :: cs)
| DC_shy : forall x b cs, opening x -> blank b -> In cs shy_names -> doubtful_command (x ++ b ++ 92 :: cs)
| DC_composite : forall cs c b cs', In (cs, c) commands -> c_args c = [Whole; Whole] -> blank b -> In cs' composite_names ->
    doubtful_command (92 :: cs ++ b ++ 92 :: cs')
| DC_part : forall s b cs, after_arguments 4 s (b ++ 92 :: cs) -> not_next letter s -> blank b -> In cs (shy_names ++ composite_names) ->
    doubtful_command (lit "\genfrac" ++ s)
| DC_second_part : forall s i b cs, after_arguments 4 s (i ++ b ++ 92 :: cs) -> not_next letter s -> item i -> blank b -> In cs shy_names ->
    doubtful_command (lit "\genfrac" ++ s)
| DC_base : forall s b cs, after_arguments 2 s (b ++ 92 :: cs) -> not_next letter s -> blank b -> In cs shy_bases ->
    doubtful_command (lit "\sideset" ++ s).

(** and others. *)
Inductive doubtful : str -> Prop :=
| DF_matrix : forall name w x, In name (map fst starred_matrices) -> white w -> ~ In 37 x -> ~ In 93 x \/ In 91 x \/ In 92 x ->
    doubtful (123 :: name ++ 125 :: w ++ 91 :: x ++ [37])
| DF_columns : forall name w a cols, In name [lit "array"; lit "darray"] -> white w -> columns a cols ->
    65535 <= N.of_nat (column_count cols) -> doubtful (123 :: name ++ 125 :: w ++ 123 :: a)
| DF_sign : forall name w c, In name (map fst pair_environments) -> white w -> number_sign c -> doubtful (123 :: name ++ 125 :: w ++ [123; c])
| DF_number : forall name w c x, In name (map fst pair_environments) -> white w -> balanced 123 125 (c :: x) -> digit c ->
    ~ (digits (c :: x) /\ (decimal_of (c :: x) <= 32767)%Z) -> doubtful (123 :: name ++ 125 :: w ++ 123 :: (c :: x) ++ [125])
| DF_length : forall cs o x, lead cs o -> doubtful_length cs x -> not_next letter (o ++ x) -> doubtful (92 :: cs ++ o ++ x)
| DF_code : forall w x, white w -> doubtful_code x -> doubtful (lit "\char" ++ w ++ x)
| DF_bar : forall s w x, after_arguments 2 s (w ++ 123 :: x) -> not_next letter s -> white w -> doubtful_part false x -> doubtful (lit "\genfrac" ++ s)
| DF_strut : forall n s w x, (n < 3)%nat -> after_arguments n s (w ++ 123 :: x) -> not_next letter s -> white w -> doubtful_part true x ->
    doubtful (lit "\Space" ++ s)
| DF_space : forall cs w, In cs newline_commands -> white w -> doubtful (92 :: cs ++ w ++ [91])
| DF_option : forall cs w x, In cs (lit "sqrt" :: map fst xarrows) -> white w -> ~ In 37 x -> ~ In 93 x \/ In 91 x \/ In 92 x ->
    doubtful (92 :: cs ++ w ++ 91 :: x ++ [37])
| DF_text : forall cs b c, takes_text cs -> blank b -> is_ws c = false -> c <> 37 -> c <> 92 -> c <> 123 \/ ~ white b -> not_next letter (b ++ [c]) ->
    doubtful (92 :: cs ++ b ++ [c])
| DF_box : forall x b c, boxing x -> blank b -> is_ws c = false -> c <> 37 -> c <> 92 -> c <> 123 \/ ~ white b -> doubtful (x ++ b ++ [c])
| DF_frame : forall w x w' x', white w -> white w' -> balanced 123 125 x -> balanced 123 125 x' -> (forall o, lex_color x' <> Ok o) ->
    doubtful (lit "\fcolorbox" ++ w ++ 123 :: x ++ 125 :: w' ++ 123 :: x' ++ [125])
| DF_colour : forall cs w x, In cs colour_commands -> white w -> balanced 123 125 x -> (forall o, lex_color x <> Ok o) ->
    doubtful (92 :: cs ++ w ++ 123 :: x ++ [125])
| DF_font : forall cs b c, In cs (map fst fonts) -> blank b -> c = 94 \/ c = 95 \/ c = 38 -> doubtful (92 :: cs ++ b ++ [c])
| DF_font_row : forall cs b cs', In cs (map fst fonts) -> blank b -> In cs' newline_commands -> doubtful (92 :: cs ++ b ++ 92 :: cs')
| DF_mark : forall w c, white w -> script_mark c -> doubtful (38 :: w ++ [c])
| DF_row : forall cs w c, In cs row_starts -> white w -> script_mark c -> doubtful (92 :: cs ++ w ++ [c]).

(** Nothing doubtful occurs in the text. *)
Definition plain (t : str) : Prop := (forall x, contains x t -> ~ doubtful x) /\ (forall x, part x t -> ~ doubtful_command x).
