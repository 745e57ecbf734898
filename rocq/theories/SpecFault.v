(** * SpecFault: texts that are not formulas, and the error each deserves.

    [wrong al h s e]: what the text [s] starts with cannot be the nucleus of a
    formula, for the reason [e]; [h] tells that it should be an argument, [al]
    how many alignment marks the row has and may have, if rows make sense. The
    meanings of the parts that are right are those of SpecFormula. *)

From Coq Require Import Ascii String List NArith ZArith Bool.
From Verif Require Import Base Float32 Event Tables Prim PrimTable Lex SpecLex SpecNum SpecFormula.
Import ListNotations.
Open Scope N_scope.
Open Scope list_scope.

(** The names that mean something: those of the table of commands, the
    delimiters, and the control space. *)
Definition supported (cs : str) : Prop :=
  In cs (map fst prim_table) \/ In cs (map fst cs_delims) \/ Forall (fun c => is_ws c = true) cs.

Definition environment_names : list str :=
  map fst environments ++ map fst starred_matrices ++ [lit "array"; lit "darray"; lit "subarray"] ++ map fst pair_environments.

(** No alignment mark is allowed here. *)
Definition no_mark (al : option (N * N)) : Prop := match al with Some (k, m) => m <= k | None => True end.

(** The end of the text. *)
Inductive nothing_left : str -> Prop :=
| NL_blank : forall b, blank b -> nothing_left b
| NL_comment : forall b t, blank b -> ~ In 10 t -> nothing_left (b ++ 37 :: t).

Definition unclosed (o c : str) (s : str) : Prop := ~ exists g r, enclosed o c s g r.

Definition script_mark (c : char) : Prop := c = 94 \/ c = 95.
Definition double_script (c : char) : error := if c =? 95 then EDoubleSubscript else EDoubleSuperscript.

(** No delimiter can be read. *)
Inductive no_delimiter : str -> error -> Prop :=
| ND_end : forall s, nothing_left s -> no_delimiter s EToken
| ND_backslash : forall b, blank b -> no_delimiter (b ++ [92]) EEmptyControlSequence
| ND_other : forall s, (forall c ty r, ~ delimiter s c ty r) -> ~ nothing_left s -> (forall b, blank b -> s <> b ++ [92]) ->
    no_delimiter s EDelimiter.

(** No argument in braces can be read. *)
Inductive no_group : str -> error -> Prop :=
| NG_end : forall s, nothing_left s -> no_group s EToken
| NG_backslash : forall b, blank b -> no_group (b ++ [92]) EEmptyControlSequence
| NG_open : forall w s, white w -> unclosed [123] [125] s -> no_group (w ++ 123 :: s) (EUnbalancedGroup (Some GKNormal))
| NG_char : forall b c r, blank b -> is_ws c = false -> c <> 37 -> c <> 92 -> ~ starts 123 (b ++ c :: r) -> no_group (b ++ c :: r) EArgument
| NG_command : forall b cs t r, blank b -> control cs t r -> no_group (b ++ t) EArgument.

(** No argument can be read at all. *)
Inductive no_argument : str -> error -> Prop :=
| NA_end : forall s, nothing_left s -> no_argument s EToken
| NA_backslash : forall b, blank b -> no_argument (b ++ [92]) EEmptyControlSequence
| NA_open : forall w s, white w -> unclosed [123] [125] s -> no_argument (w ++ 123 :: s) (EUnbalancedGroup (Some GKNormal)).

(** No text can be read: a command is none. *)
Inductive no_text : str -> error -> Prop :=
| NT_argument : forall s e, no_argument s e -> no_text s e
| NT_command : forall b cs t r, blank b -> control cs t r -> no_text (b ++ t) EControlSequenceAsArgument.

(** The commands that tell the class of their argument. *)
Definition class_names : list str := lit "mathop" :: map fst classes.

(** The commands whose argument is taken as text. *)
Definition takes_text (cs : str) : Prop := In cs (lit "operatorname" :: map fst text_commands).

(** The environments whose kind the error tells. *)
Definition kinds : list (str * gkind) := map (fun p => (lit (fst p), snd p))
  [("matrix"%string, GKMatrix MtNormal false); ("matrix*"%string, GKMatrix MtNormal true);
   ("smallmatrix"%string, GKMatrix MtSmall false);
   ("pmatrix"%string, GKMatrix MtParens false); ("pmatrix*"%string, GKMatrix MtParens true);
   ("bmatrix"%string, GKMatrix MtBrackets false); ("bmatrix*"%string, GKMatrix MtBrackets true);
   ("vmatrix"%string, GKMatrix MtVertical false); ("vmatrix*"%string, GKMatrix MtVertical true);
   ("Vmatrix"%string, GKMatrix MtDoubleVertical false); ("Vmatrix*"%string, GKMatrix MtDoubleVertical true);
   ("Bmatrix"%string, GKMatrix MtBraces false); ("Bmatrix*"%string, GKMatrix MtBraces true);
   ("cases"%string, GKCases true false); ("dcases"%string, GKCases true true);
   ("rcases"%string, GKCases false false); ("drcases"%string, GKCases false true);
   ("equation"%string, GKEquation true); ("equation*"%string, GKEquation false);
   ("align"%string, GKAlign true); ("align*"%string, GKAlign false); ("aligned"%string, GKAligned);
   ("gather"%string, GKGather true); ("gather*"%string, GKGather false); ("gathered"%string, GKGathered);
   ("multline"%string, GKMultline); ("split"%string, GKSplit); ("subarray"%string, GKSubArray);
   ("array"%string, GKArray false); ("darray"%string, GKArray true);
   ("alignat"%string, GKAlignat true); ("alignat*"%string, GKAlignat false); ("alignedat"%string, GKAlignedat)].

(** A number may start with these, besides digits. *)
Definition number_sign (c : char) : Prop := c = 34 \/ c = 39 \/ c = 96 \/ 128 <= c.

(** [no_env_args name s e]: after [\begin{name}], the text [s] has no
    arguments that make an environment. *)
Inductive no_env_args : str -> str -> error -> Prop :=
| NE_group : forall name s e, In name ([lit "array"; lit "darray"; lit "subarray"] ++ map fst pair_environments) -> no_group s e ->
    no_env_args name s e
| NE_option : forall name w x r, In name (map fst starred_matrices) -> white w -> balanced 91 93 x -> ~ In x (map fst alignments) ->
    no_env_args name (w ++ 91 :: x ++ 93 :: r) EArgument
| NE_column : forall name w a cols c y r, In name [lit "array"; lit "darray"] -> white w -> balanced 123 125 (a ++ c :: y) ->
    columns a cols -> N.of_nat (column_count cols) < 65535 -> ~ In c (map fst column_chars) ->
    no_env_args name (w ++ 123 :: (a ++ c :: y) ++ 125 :: r) EArgument
| NE_no_columns : forall name w x cols r, In name [lit "array"; lit "darray"] -> white w -> columns x cols -> column_count cols = O ->
    no_env_args name (w ++ 123 :: x ++ 125 :: r) EArrayNoColumns
| NE_alignment : forall w x r, white w -> balanced 123 125 x -> ~ In x (map fst alignments) ->
    no_env_args (lit "subarray") (w ++ 123 :: x ++ 125 :: r) EArgument
| NE_pairs : forall name w x r, In name (map fst pair_environments) -> white w -> balanced 123 125 x ->
    not_next (fun c => digit c \/ number_sign c) x -> no_env_args name (w ++ 123 :: x ++ 125 :: r) ENumber.

(** [no_length s]: after a number, which may have no digits, the text [s] has no
    unit. *)
Definition no_unit (x : str) : Prop := not_next (fun c => is_ws c = true) x /\ forall u d, In (u, d) units -> firstn 2 x <> u.

Inductive no_length : str -> Prop :=
| NL_integer : forall sg ds w x, Forall sign sg -> digits ds -> white w -> (ds = [] -> not_next sign (w ++ x)) ->
    not_next (fun c => digit c \/ c = 46 \/ c = 44) (w ++ x) -> no_unit x -> no_length (sg ++ ds ++ w ++ x)
| NL_fraction : forall sg ds p fs w x, Forall sign sg -> digits ds -> p = 46 \/ p = 44 -> digits fs -> white w ->
    not_next digit (w ++ x) -> no_unit x -> no_length (sg ++ ds ++ p :: fs ++ w ++ x).

(** A length with a word for stretching and no length after it. *)
Inductive short_glue : str -> Prop :=
| SG_plus : forall x d s s1 y, dimension_text x d -> spaced s s1 -> goes_on (lit "plus") s1 y -> no_length y -> short_glue (x ++ s)
| SG_minus : forall x d s s1 p s2 y, dimension_text x d -> spaced s s1 -> stretch (lit "plus") s1 p s2 -> goes_on (lit "minus") s2 y -> no_length y ->
    short_glue (x ++ s).

(** [strut_fault n s e]: the text [s] has no [n] lengths in braces. *)
Definition for_length (e : error) : error := match e with EArgument => EDimensionArgument | _ => e end.

Inductive strut_fault : nat -> str -> error -> Prop :=
| SF_group : forall n s e, no_group s e -> strut_fault (S n) s (for_length e)
| SF_unit : forall n w x r, white w -> balanced 123 125 x -> no_length x -> strut_fault (S n) (w ++ 123 :: x ++ 125 :: r) EDimensionUnit
| SF_next : forall n w x d r e, white w -> dimension_text x d -> strut_fault n r e -> strut_fault (S n) (w ++ 123 :: x ++ 125 :: r) e.

(** What is wrong with the text after [\sideset] before its base. *)
Inductive sides_fault : str -> error -> Prop :=
| SD_first : forall s e, no_argument s e -> sides_fault s e
| SD_second : forall s s1 e, one_argument s s1 -> no_argument s1 e -> sides_fault s e.

(** [\genfrac]: a delimiter, its bar and its style. Delimiters in braces are not taken. *)
Inductive no_frac_delimiter : str -> error -> Prop :=
| NF_argument : forall s e, no_argument s e -> no_frac_delimiter s e
| NF_other : forall s, ~ starts 123 s -> no_delimiter s EDelimiter -> no_frac_delimiter s EDelimiter
| NF_braces : forall w x r, white w -> balanced 123 125 x -> x <> [] -> no_frac_delimiter (w ++ 123 :: x ++ 125 :: r) EDelimiter.

Inductive no_frac_bar : str -> error -> Prop :=
| NR_group : forall s e, no_group s e -> no_frac_bar s (for_length e)
| NR_unit : forall w x r, white w -> balanced 123 125 x -> x <> [] -> no_length x -> no_frac_bar (w ++ 123 :: x ++ 125 :: r) EDimensionUnit
| NR_more : forall w x d y z r, white w -> dimension_text x d -> balanced 123 125 (x ++ y) -> spaced y z -> z <> [] ->
    no_frac_bar (w ++ 123 :: (x ++ y) ++ 125 :: r) EDimensionArgument.

Inductive no_frac_style : str -> error -> Prop :=
| NS_argument : forall s e, no_argument s e -> no_frac_style s e
| NS_command : forall b cs t r, blank b -> control cs t r -> no_frac_style (b ++ t) EArgument
| NS_char : forall b c r, blank b -> is_ws c = false -> c <> 37 -> c <> 92 -> c <> 123 \/ ~ white b -> ~ In [c] (map fst frac_styles) ->
    no_frac_style (b ++ c :: r) EArgument
| NS_braces : forall w x r, white w -> balanced 123 125 x -> ~ In x (map fst frac_styles) ->
    no_frac_style (w ++ 123 :: x ++ 125 :: r) EArgument.

Inductive genfrac_fault : str -> error -> Prop :=
| GF_open : forall s e, no_frac_delimiter s e -> genfrac_fault s e
| GF_close : forall s o s1 e, frac_delimiter s o s1 -> no_frac_delimiter s1 e -> genfrac_fault s e
| GF_bar : forall s o s1 c s2 e, frac_delimiter s o s1 -> frac_delimiter s1 c s2 -> no_frac_bar s2 e -> genfrac_fault s e
| GF_style : forall s o s1 c w x bar s2 e, frac_delimiter s o s1 -> frac_delimiter s1 c (w ++ 123 :: x ++ 125 :: s2) -> white w ->
    frac_bar x bar -> no_frac_style s2 e -> genfrac_fault s e.

(** Nothing is asked of the contents of groups: an element that is wrong is
    reported before what is inside its groups is looked at. *)
Definition anything : Known := fun _ _ _ => True.

Section Fault.
Context {KN : Known}.
Variable al : option (N * N).

Inductive wrong : bool -> str -> error -> Prop :=
| W_end : forall s, nothing_left s -> wrong true s EToken
| W_backslash : forall h b, blank b -> wrong h (b ++ [92]) EEmptyControlSequence
| W_shift : forall h b r, blank b -> wrong h (b ++ 36 :: r) EMathShift
| W_hash : forall h b r, blank b -> wrong h (b ++ 35 :: r) EHashSign
| W_close : forall h b r, blank b -> wrong h (b ++ 125 :: r) (EUnbalancedGroup None)
| W_open : forall h b s, blank b -> unclosed [123] [125] s ->
    wrong h (b ++ 123 :: s) (EUnbalancedGroup (Some GKNormal))
| W_mark : forall h b r, blank b -> h = true \/ no_mark al -> wrong h (b ++ 38 :: r) EAlignment
| W_script : forall b c r, blank b -> script_mark c -> wrong true (b ++ c :: r) EScriptAsArgument
| W_row : forall h b cs t r, blank b -> In cs newline_commands -> control cs t r -> h = true \/ al = None ->
    wrong h (b ++ t) ENewLine
| W_unbalanced : forall h b cs t r, blank b -> In cs [lit "right"; lit "end"; lit "endgroup"] -> control cs t r ->
    wrong h (b ++ t) (EUnbalancedGroup None)
| W_unknown : forall h b cs t r, blank b -> control cs t r -> ~ supported cs -> wrong h (b ++ t) EUnknownPrimitive
| W_relax : forall b t r, blank b -> control (lit "relax") t r -> wrong true (b ++ t) ERelax
| W_command : forall h b cs t s c e, blank b -> control cs t s -> In (cs, c) commands -> wrong_argument h (c_args c) s e ->
    wrong h (b ++ t) e
| W_sqrt : forall h b t s e, blank b -> control (lit "sqrt") t s -> ~ starts 91 s -> wrong true s e -> wrong h (b ++ t) e
| W_root : forall h b t w i s e, blank b -> control (lit "sqrt") t (w ++ 91 :: i ++ 93 :: s) -> white w ->
    balanced 91 93 i -> wrong true s e -> wrong h (b ++ t) e
| W_xarrow : forall h b cs t c s e, blank b -> control cs t s -> In (cs, c) xarrows -> ~ starts 91 s ->
    wrong true s e -> wrong h (b ++ t) e
| W_xarrow_below : forall h b cs t c w i s e, blank b -> control cs t (w ++ 91 :: i ++ 93 :: s) -> In (cs, c) xarrows ->
    white w -> balanced 91 93 i -> wrong true s e -> wrong h (b ++ t) e
| W_text_command : forall h b cs t b' cs' t' r, blank b -> control cs t (b' ++ t') -> takes_text cs -> blank b' -> control cs' t' r ->
    wrong h (b ++ t) EControlSequenceAsArgument
| W_text_end : forall h b cs t s, blank b -> control cs t s -> takes_text cs -> nothing_left s -> wrong h (b ++ t) EToken
| W_text_backslash : forall h b cs t b', blank b -> control cs t (b' ++ [92]) -> takes_text cs -> blank b' ->
    wrong h (b ++ t) EEmptyControlSequence
| W_text_open : forall h b cs t w s, blank b -> control cs t (w ++ 123 :: s) -> takes_text cs -> white w -> unclosed [123] [125] s ->
    wrong h (b ++ t) (EUnbalancedGroup (Some GKNormal))
| W_colour : forall h b cs t w x r, blank b -> In cs [lit "color"; lit "textcolor"; lit "colorbox"] ->
    control cs t (w ++ 123 :: x ++ 125 :: r) -> white w -> balanced 123 125 x -> lex_color x = Ok None ->
    wrong h (b ++ t) EUnknownColor
| W_coloured : forall h b t w x c s e, blank b -> control (lit "textcolor") t (w ++ 123 :: x ++ 125 :: s) -> white w ->
    balanced 123 125 x -> colour x c -> wrong true s e -> wrong h (b ++ t) e
| W_delimiter : forall h b cs t s e, blank b -> control cs t s -> In cs (lit "left" :: lit "middle" :: map fst sizes) ->
    not_next (eq 46) s \/ cs <> lit "left" -> no_delimiter s e -> wrong h (b ++ t) e
| W_left : forall h b t s o s', blank b -> control (lit "left") t s -> delimiter_opt s o s' ->
    unclosed (lit "\left") (lit "\right") s' -> wrong h (b ++ t) (EUnbalancedGroup (Some GKLeftRight))
| W_right : forall h b t s o s1 g s2 e, blank b -> control (lit "left") t s -> delimiter_opt s o s1 ->
    enclosed (lit "\left") (lit "\right") s1 g s2 -> not_next (eq 46) s2 -> no_delimiter s2 e -> wrong h (b ++ t) e
| W_no_group : forall h b cs t s e, blank b -> control cs t s ->
    In cs [lit "begin"; lit "color"; lit "textcolor"; lit "colorbox"; lit "fcolorbox"] -> no_group s e -> wrong h (b ++ t) e
| W_environment : forall h b t w name s, blank b -> control (lit "begin") t (w ++ 123 :: name ++ 125 :: s) -> white w ->
    balanced 123 125 name -> ~ In name environment_names -> wrong h (b ++ t) EEnvironment
| W_env_open : forall h b t w name s e s1 ls s2 k, blank b -> control (lit "begin") t (w ++ 123 :: name ++ 125 :: s) -> white w ->
    env_args name s e s1 -> lines s1 ls s2 -> unclosed (begin_of name) (end_of name) s2 -> In (name, k) kinds ->
    wrong h (b ++ t) (EUnbalancedGroup (Some k))
| W_unit : forall h b cs g t w x y d r, blank b -> In (cs, (g, true)) spaces -> control cs t (w ++ 123 :: (x ++ y) ++ 125 :: r) -> white w ->
    dimension_text x d -> trailing y -> dunit d <> UMu -> wrong h (b ++ t) EMathUnit
| W_unit_bare : forall h b cs g t x d s r, blank b -> In (cs, (g, true)) spaces -> control cs t (x ++ s) -> dimension_text x d -> spaced s r ->
    dunit d <> UMu -> (g = true -> not_next (fun c => is_ws c = true) r /\ no_stretch r) -> wrong h (b ++ t) EMathUnit
| W_glue_unit : forall h b cs t w x d p m z r, blank b -> In (cs, (true, true)) spaces -> control cs t (w ++ 123 :: x ++ 125 :: r) -> white w ->
    balanced 123 125 x -> glue_text x d p m z -> white z -> ~ in_mu d p m -> wrong h (b ++ t) EMathUnit
| W_glue_unit_bare : forall h b cs t s d p m r, blank b -> In (cs, (true, true)) spaces -> control cs t s -> glue_text s d p m r ->
    ~ in_mu d p m -> wrong h (b ++ t) EMathUnit
| W_no_unit : forall h b cs g mu t w x r, blank b -> In (cs, (g, mu)) spaces -> control cs t (w ++ 123 :: x ++ 125 :: r) -> white w ->
    balanced 123 125 x -> no_length x \/ g = true /\ short_glue x -> wrong h (b ++ t) EDimensionUnit
| W_no_unit_bare : forall h b cs g mu t s, blank b -> In (cs, (g, mu)) spaces -> control cs t s -> ~ starts 123 s ->
    no_length s \/ g = true /\ short_glue s -> wrong h (b ++ t) EDimensionUnit
| W_no_unit_hspace : forall h b t w x r, blank b -> control (lit "hspace") t (w ++ 123 :: x ++ 125 :: r) -> white w ->
    balanced 123 125 x -> no_length x \/ short_glue x -> wrong h (b ++ t) EDimensionUnit
| W_hspace : forall h b t s e, blank b -> control (lit "hspace") t s -> no_group s e ->
    wrong h (b ++ t) (match e with EArgument => EDimensionArgument | _ => e end)
| W_length_open : forall h b cs k t w s, blank b -> In (cs, k) spaces -> control cs t (w ++ 123 :: s) -> white w ->
    unclosed [123] [125] s -> wrong h (b ++ t) (EUnbalancedGroup (Some GKNormal))
| W_long_length : forall h b cs g mu t w x d y z r, blank b -> In (cs, (g, mu)) spaces ->
    control cs t (w ++ 123 :: (x ++ y) ++ 125 :: r) -> white w -> dimension_text x d -> balanced 123 125 (x ++ y) ->
    spaced y z -> ~ white z -> (g = true -> not_next (fun c => is_ws c = true) z /\ no_stretch z) ->
    wrong h (b ++ t) EDimensionArgument
| W_long_glue : forall h b cs mu t w x d p m z r, blank b -> In (cs, (true, mu)) spaces ->
    control cs t (w ++ 123 :: x ++ 125 :: r) -> white w -> balanced 123 125 x -> glue_text x d p m z -> ~ white z ->
    wrong h (b ++ t) EDimensionArgument
| W_char_code : forall h b t s z r, blank b -> control (lit "char") t s -> code_text s z r -> (255 < z < 2 ^ 64)%Z ->
    wrong h (b ++ t) EInvalidCharNumber
| W_char_mark : forall h b t s, blank b -> control (lit "char") t s -> s = [96] \/ s = [96; 92] -> wrong h (b ++ t) ENumber
| W_char_wide : forall h b t m c r, blank b -> control (lit "char") t (m ++ c :: r) -> m = [96] \/ m = [96; 92] -> 128 <= c ->
    wrong h (b ++ t) ECharacterNumber
| W_char_none : forall h b t s, blank b -> control (lit "char") t s -> not_next (fun c => digit c \/ number_sign c) s ->
    wrong h (b ++ t) ENumber
| W_class : forall h b cs t s e, blank b -> control cs t s -> In cs class_names -> no_argument s e -> wrong h (b ++ t) e
| W_class_command : forall h b cs t b' cs' t' r e, blank b -> control cs t (b' ++ t') -> In cs class_names -> blank b' ->
    control cs' t' r -> wrong true (b' ++ t') e -> wrong h (b ++ t) e
| W_substack : forall h b t s, blank b -> control (lit "substack") t s -> ~ starts 123 s -> wrong h (b ++ t) EGroupArgument
| W_substack_open : forall h b t w s, blank b -> control (lit "substack") t (w ++ 123 :: s) -> white w -> unclosed [123] [125] s ->
    wrong h (b ++ t) (EUnbalancedGroup (Some GKNormal))
| W_box_text : forall h b t w x c s e, blank b -> control (lit "colorbox") t (w ++ 123 :: x ++ 125 :: s) -> white w ->
    balanced 123 125 x -> colour x c -> no_text s e -> wrong h (b ++ t) e
| W_frame_group : forall h b t w x s e, blank b -> control (lit "fcolorbox") t (w ++ 123 :: x ++ 125 :: s) -> white w ->
    balanced 123 125 x -> no_group s e -> wrong h (b ++ t) e
| W_frame_colour : forall h b t w x w' x' s, blank b ->
    control (lit "fcolorbox") t (w ++ 123 :: x ++ 125 :: w' ++ 123 :: x' ++ 125 :: s) -> white w -> white w' ->
    balanced 123 125 x -> balanced 123 125 x' ->
    lex_color x = Ok None \/ (exists c, colour x c) /\ lex_color x' = Ok None -> wrong h (b ++ t) EUnknownColor
| W_frame_text : forall h b t w x c w' x' c' s e, blank b ->
    control (lit "fcolorbox") t (w ++ 123 :: x ++ 125 :: w' ++ 123 :: x' ++ 125 :: s) -> white w -> white w' ->
    balanced 123 125 x -> balanced 123 125 x' -> colour x c -> colour x' c' -> no_text s e -> wrong h (b ++ t) e
| W_option : forall h b cs t w s, blank b -> control cs t (w ++ 91 :: s) -> In cs (lit "sqrt" :: map fst xarrows) -> white w ->
    unclosed [91] [93] s -> ~ In 37 s -> wrong h (b ++ t) EToken
| W_env_args : forall h b t w name s e, blank b -> control (lit "begin") t (w ++ 123 :: name ++ 125 :: s) -> white w ->
    no_env_args name s e -> wrong h (b ++ t) e
| W_env_option : forall h b t w name w' s k, blank b -> control (lit "begin") t (w ++ 123 :: name ++ 125 :: w' ++ 91 :: s) -> white w -> white w' ->
    In name (map fst starred_matrices) -> unclosed [91] [93] s -> ~ In 37 s -> In (name, k) kinds ->
    wrong h (b ++ t) (EUnbalancedGroup (Some k))
| W_strut : forall h b t s e, blank b -> control (lit "Space") t s -> strut_fault 3 s e -> wrong h (b ++ t) e
| W_sides : forall h b t s e, blank b -> control (lit "sideset") t s -> sides_fault s e -> wrong h (b ++ t) e
| W_sideset : forall h b t s s1 s2 e, blank b -> control (lit "sideset") t s -> one_argument s s1 -> one_argument s1 s2 ->
    wrong true s2 e -> wrong h (b ++ t) e
| W_genfrac : forall h b t s e, blank b -> control (lit "genfrac") t s -> genfrac_fault s e -> wrong h (b ++ t) e
| W_genfrac_parts : forall h b t s1 o s2 c w x bar s2' sty s3 e, blank b -> control (lit "genfrac") t s1 ->
    frac_delimiter s1 o s2 -> frac_delimiter s2 c (w ++ 123 :: x ++ 125 :: s2') ->
    white w -> frac_bar x bar -> frac_style s2' sty s3 -> wrong_argument true [Whole; Whole] s3 e -> wrong h (b ++ t) e
with wrong_argument : bool -> list akind -> str -> error -> Prop :=
| WA_here : forall h ks s e, wrong true s e -> wrong_argument h (Whole :: ks) s e
| WA_later : forall h ks s es s' e, nucleus true s es no_limits s' -> wrong_argument h ks s' e ->
    wrong_argument h (Whole :: ks) s e
| WA_inside : forall h ks s e, ~ starts 123 s -> wrong h s e -> wrong_argument h (Inside :: ks) s e
| WA_inside_end : forall h ks s, nothing_left s -> wrong_argument h (Inside :: ks) s EToken
| WA_inside_open : forall h ks w s, white w -> unclosed [123] [125] s ->
    wrong_argument h (Inside :: ks) (w ++ 123 :: s) (EUnbalancedGroup (Some GKNormal)).

(** What is wrong with the scripts after a nucleus. *)
Inductive wrong_scripts : str -> error -> Prop :=
| WS_first : forall w c s e, white w -> script_mark c -> wrong true s e -> wrong_scripts (w ++ c :: s) e
| WS_second : forall w c s a c' s' e, white w -> script_mark c -> nucleus true s a no_limits (c' :: s') -> script_mark c' -> c' <> c ->
    wrong true s' e -> wrong_scripts (w ++ c :: s) e
| WS_double : forall w c s a s', white w -> script_mark c -> nucleus true s a no_limits (c :: s') ->
    wrong_scripts (w ++ c :: s) (double_script c)
| WS_triple : forall w c s a c' s' b c'' s'', white w -> script_mark c -> nucleus true s a no_limits (c' :: s') ->
    script_mark c' -> c' <> c -> nucleus true s' b no_limits (c'' :: s'') -> script_mark c'' ->
    wrong_scripts (w ++ c :: s) (double_script c'').

(** The text [s] starts with something that is wrong. *)
Inductive fault : str -> error -> Prop :=
| X_nucleus : forall s e, wrong false s e -> fault s e
| X_scripts : forall s es l s' p s'' e, nucleus false s es l s' -> placed l s' p s'' -> wrong_scripts s'' e -> fault s e
| X_orphan : forall b c s e, blank b -> script_mark c -> wrong_scripts (c :: s) e -> fault (b ++ c :: s) e.

End Fault.
