(** * SpecFormula: what a formula means, stated without the parser.

    Relations between texts and the events a user expects for them. They read
    the text from left to right: [nucleus _ s es _ r] is to be read "the text
    [s] starts with something that means [es], and [r] follows". Nothing here
    mentions the instruction stack, the buffer, slices or the state of the
    parser. The names of plain symbols ([\alpha], [\leq], ...) and of colours
    are taken from the tables as data; every other command is listed here. *)

From Coq Require Import Ascii String List NArith ZArith Bool.
From Verif Require Import Base Float32 Event Tables Prim PrimTable Lex SpecLex SpecNum.
Import ListNotations.
Open Scope N_scope.
Open Scope list_scope.

(** ** Texts *)

Definition white (w : str) : Prop := forallb is_ws w = true.

(** After white space, the text starts with [c]. *)
Definition starts (c : char) (s : str) : Prop := exists w r, white w /\ s = w ++ c :: r.

Definition letter (c : char) : Prop := 65 <= c <= 90 \/ 97 <= c <= 122.

(** [control cs t r]: the text [t] is the command [\cs], the white space after
    it, and [r]. The name of a command is one character or all the letters
    there are. *)
Definition control (cs t r : str) : Prop :=
  exists w, t = 92 :: cs ++ w ++ r /\ white w /\ not_next (fun c => is_ws c = true) r /\
    ((cs <> [] /\ Forall letter cs /\ not_next letter (w ++ r)) \/
     (exists c, cs = [c] /\ ~ letter c)).

(** ** Characters *)

Definition digit_char (c : char) : bool := (48 <=? c) && (c <=? 57).

(** The characters with a syntactic role: backslash, percent, scripts, [$], [#],
    [&], braces, digits. *)
Definition special (c : char) : bool :=
  existsb (N.eqb c) [92; 37; 95; 94; 36; 35; 38; 123; 125] || digit_char c || is_ws c.

Definition ord (c : char) : event := EvContent (COrdinary c false).
Definition bin (c : char) : event := EvContent (CBinaryOp c false).
Definition rel (c : char) : event := EvContent (CRelation c None false).
Definition delim (c : char) (ty : delim_type) : event := EvContent (CDelimiter c None ty).
Definition punct (c : char) : event := EvContent (CPunctuation c).

(** The printable characters of ASCII that are neither letters, digits nor
    special. The hyphen and the asterisk become the minus sign and the
    asterisk operator, the apostrophe becomes a prime. *)
Definition ascii_meaning : list (char * event) := [
  (33, ord 33); (34, ord 34); (39, ord 8242); (40, delim 40 DOpen); (41, delim 41 DClose);
  (42, bin 8727); (43, bin 43); (44, punct 44); (45, bin 8722); (46, punct 46); (47, bin 47);
  (58, rel 58); (59, punct 59); (60, rel 60); (61, rel 61); (62, rel 62); (63, ord 63);
  (64, ord 64); (91, delim 91 DOpen); (93, delim 93 DClose); (96, ord 96); (124, ord 124);
  (126, EvContent (CText (lit "&nbsp;")))].

(** Other characters are of the class the tables give them, ordinary if none
    does. *)
Definition char_meaning (c : char) : event :=
  match find (fun p => fst p =? c) ascii_meaning with
| Some (_, e) => e
| None =>
    if is_binary c then bin c
    else if is_relation c then rel c
    else match assoc_char c char_delims with
         | Some DFence => ord c
         | Some ty => delim c ty
         | None => ord c
         end
  end.

(** ** Commands *)

(** Where scripts go: whether [\limits] and [\nolimits] are understood, and the
    position of scripts, when it is not on the right. *)
Definition limits := (bool * option script_pos)%type.
Definition no_limits : limits := (false, None).
Definition movable : limits := (true, Some SPMovable).

(** An argument of which the braces make a group, or one of which they do not. *)
Inductive akind := Whole | Inside.

(** A command of fixed arity: its arguments, and what it means: events and the
    meanings of the arguments. *)
Inductive piece := E (e : event) | A (i : nat).
Record command := mkCommand { c_args : list akind; c_body : list piece; c_limits : limits }.

Definition fill (ess : list (list event)) (b : list piece) : list event :=
  flat_map (fun p => match p with E e => [e] | A i => nth i ess [] end) b.

Definition above : event := EvScript STSup SPAboveBelow.
Definition below : event := EvScript STSub SPAboveBelow.

Definition fn (name : string) (l : limits) : command :=
  mkCommand [] [E (EvContent (CFunction (lit name)))] l.
Definition functions : list (str * command) :=
  map (fun n => (lit n, fn n no_limits))
    ["arccos"; "cos"; "csc"; "exp"; "ker"; "sinh"; "arcsin"; "cosh"; "deg"; "lg"; "ln"; "arctan";
     "cot"; "det"; "hom"; "log"; "sec"; "tan"; "arg"; "coth"; "dim"; "sin"; "tanh"; "sgn"]%string ++
  map (fun n => (lit n, fn n movable)) ["lim"; "Pr"; "sup"; "max"; "inf"; "gcd"; "min"]%string ++
  [(lit "liminf", fn "lim inf" movable); (lit "limsup", fn "lim sup" movable)].

Definition op (c : char) (l : limits) : command :=
  mkCommand [] [E (EvContent (CLargeOp c false))] l.
Definition large_operators : list (str * command) :=
  map (fun p => (lit (fst p), op (snd p) movable))
    [("sum"%string, 8721); ("prod"%string, 8719); ("coprod"%string, 8720); ("bigvee"%string, 8897);
     ("bigwedge"%string, 8896); ("bigcup"%string, 8899); ("bigcap"%string, 8898); ("biguplus"%string, 10756);
     ("bigoplus"%string, 10753); ("bigotimes"%string, 10754); ("bigodot"%string, 10752);
     ("bigsqcup"%string, 10758); ("bigsqcap"%string, 10757); ("bigtimes"%string, 10761); ("intop"%string, 8747)] ++
  map (fun p => (lit (fst p), op (snd p) (true, Some SPRight)))
    [("int"%string, 8747); ("iint"%string, 8748); ("iiint"%string, 8749); ("iiiint"%string, 10764);
     ("intcap"%string, 10777); ("intcup"%string, 10778); ("oint"%string, 8750); ("varointclockwise"%string, 8754);
     ("intclockwise"%string, 8753); ("oiint"%string, 8751); ("pointint"%string, 10773); ("rppolint"%string, 10770);
     ("scpolint"%string, 10771); ("oiiint"%string, 8752); ("intlarhk"%string, 10775); ("sqint"%string, 10774);
     ("intx"%string, 10776); ("intbar"%string, 10765); ("intBar"%string, 10766); ("fint"%string, 10767)] ++
  [(lit "smallint", mkCommand [] [E (EvContent (CLargeOp 8747 true))] (true, None))].

(** An accent is a superscript above its argument, an underscript a subscript
    below it; those of brace shape put further scripts above and below too. *)
Definition acc (place : event) (c : char) (stretchy : bool) (l : limits) : command :=
  mkCommand [Whole] [E place; A 0; E (EvContent (COrdinary c stretchy))] l.
Definition brace_like_limits : limits := (false, Some SPAboveBelow).
Definition accents : list (str * command) :=
  map (fun p => (lit (fst p), acc above (snd p) false no_limits))
    [("acute"%string, 180); ("bar"%string, 8254); ("overline"%string, 8254); ("breve"%string, 728);
     ("check"%string, 711); ("dot"%string, 729); ("ddot"%string, 168); ("grave"%string, 96); ("hat"%string, 94);
     ("tilde"%string, 126); ("vec"%string, 8594); ("mathring"%string, 730)] ++
  map (fun p => (lit (fst p), acc above (snd p) true no_limits))
    [("overleftarrow"%string, 8592); ("overrightarrow"%string, 8594); ("Overrightarrow"%string, 8658);
     ("overleftrightarrow"%string, 8596); ("overleftharpoon"%string, 8636); ("overrightharpoon"%string, 8640);
     ("widecheck"%string, 711); ("widehat"%string, 94); ("widetilde"%string, 126); ("wideparen"%string, 9180);
     ("overparen"%string, 9180)] ++
  map (fun p => (lit (fst p), acc above (snd p) true brace_like_limits))
    [("overgroup"%string, 9184); ("overbrace"%string, 9182); ("overbracket"%string, 9140)] ++
  map (fun p => (lit (fst p), acc below (snd p) true no_limits))
    [("underbar"%string, 95); ("underline"%string, 95); ("underleftarrow"%string, 8592);
     ("underrightarrow"%string, 8594); ("underleftrightarrow"%string, 8596)] ++
  map (fun p => (lit (fst p), acc below (snd p) true brace_like_limits))
    [("undergroup"%string, 9185); ("underbrace"%string, 9183); ("underparen"%string, 9181);
     ("underbracket"%string, 9141)].

(** Fractions: the numerator comes first. *)
Definition zero_em : dimension := mkDim (f32_of_Z 0) UEm.
Definition frac_body (bar : option dimension) : list piece := [E (EvVisual (VFraction bar)); A 0; A 1].
Definition styled_frac (s : style) : command :=
  mkCommand [Whole; Whole] ([E (EvBegin GNormal); E (EvState (SCStyle s))] ++ frac_body None ++ [E EvEnd]) no_limits.
Definition binomial (s : list piece) : command :=
  mkCommand [Whole; Whole] (E (EvBegin (GLeftRight (Some 40) (Some 41))) :: s ++ frac_body (Some zero_em) ++ [E EvEnd]) no_limits.
Definition fractions : list (str * command) :=
  [(lit "frac", mkCommand [Whole; Whole] (frac_body None) no_limits);
   (lit "cfrac", styled_frac SDisplay); (lit "dfrac", styled_frac SDisplay); (lit "tfrac", styled_frac SText);
   (lit "binom", binomial []); (lit "dbinom", binomial [E (EvState (SCStyle SDisplay))]);
   (lit "tbinom", binomial [E (EvState (SCStyle SText))])].

(** The second argument is the base. *)
Definition stacks : list (str * command) :=
  [(lit "overset", mkCommand [Whole; Whole] [E above; A 1; A 0] no_limits);
   (lit "stackrel", mkCommand [Whole; Whole] [E above; A 1; A 0] no_limits);
   (lit "underset", mkCommand [Whole; Whole] [E below; A 1; A 0] no_limits)].

(** A font applies to its argument and to nothing else. *)
Definition in_font (f : option font) : command :=
  mkCommand [Inside] [E (EvBegin GNormal); E (EvState (SCFont f)); A 0; E EvEnd] no_limits.
Definition fonts : list (str * command) :=
  flat_map (fun p => map (fun n => (lit n, in_font (snd p))) (fst p))
    [(["mathbf"; "symbf"; "mathbfup"; "symbfup"]%string, Some FBold); (["boldsymbol"]%string, Some FBoldSymbol);
     (["mathcal"; "symcal"]%string, Some FScript); (["mathit"; "symit"]%string, Some FItalic);
     (["mathrm"; "symrm"; "mathup"; "symup"]%string, Some FUpRight);
     (["mathsf"; "symsf"; "mathsfup"; "symsfup"]%string, Some FSansSerif);
     (["mathtt"; "symtt"]%string, Some FMonospace); (["mathbb"; "symbb"]%string, Some FDoubleStruck);
     (["mathbbit"; "symbbit"]%string, Some FDoubleStruckItalic); (["mathfrak"; "symfrak"]%string, Some FFraktur);
     (["mathbfcal"; "symbfcal"]%string, Some FBoldScript); (["mathsfit"; "symsfit"]%string, Some FSansSerifItalic);
     (["mathbfit"; "symbfit"]%string, Some FBoldItalic); (["mathbffrak"; "symbffrak"]%string, Some FBoldFraktur);
     (["mathbfsfup"; "symbfsfup"]%string, Some FBoldSansSerif);
     (["mathbfsfit"; "symbfsfit"]%string, Some FSansSerifBoldItalic); (["mathnormal"; "symnormal"]%string, None)].

Definition others : list (str * command) :=
  [(lit "not", mkCommand [Whole] [E (EvVisual VNegation); A 0] no_limits);
   (lit "cancel", mkCommand [Whole] [E (EvVisual VNegation); A 0] no_limits);
   (lit "surd", mkCommand [] [E (EvVisual VSqrt);
    E (EvSpace (Some zero_em) (Some (mkDim (f32_div (f32_of_Z 7) (f32_of_Z 10)) UEm)) None)] no_limits);
   (lit "pmod", mkCommand [Whole] [E (EvSpace (Some (mkDim (f32_of_Z 1) UEm)) None None); E (EvBegin GNormal);
    E (delim 40 DOpen); E (EvContent (CFunction (lit "mod"))); A 0; E EvEnd; E (delim 41 DClose)] no_limits)].

Definition commands : list (str * command) :=
  functions ++ large_operators ++ accents ++ fractions ++ stacks ++ fonts ++ others.

(** The commands that only stand for one symbol, as data. *)
Definition symbol (cs : str) (e : event) : Prop := lookup_prim cs = PSimple e.

(** [\text] and its variants. *)
Definition text_commands : list (str * option font) :=
  [(lit "text", None); (lit "textrm", Some FUpRight); (lit "textbf", Some FBold); (lit "textit", Some FItalic);
   (lit "textsf", Some FSansSerif); (lit "texttt", Some FMonospace)].
Definition text_meaning (f : option font) (x : str) : list event :=
  match f with
| None => [EvContent (CText x)]
| Some _ => [EvBegin GNormal; EvState (SCFont f); EvContent (CText x); EvEnd]
  end.

Definition xarrows : list (str * char) := [(lit "xleftarrow", 8592); (lit "xrightarrow", 8594)].

(** The class commands on one character. *)
Definition classes : list (str * (char -> event)) :=
  [(lit "mathord", ord); (lit "mathbin", bin); (lit "mathrel", rel); (lit "mathopen", fun c => delim c DOpen);
   (lit "mathclose", fun c => delim c DClose); (lit "mathpunct", punct); (lit "mathinner", ord)].

(** Font, style and colour changes to the end of the group. *)
Definition switches : list (str * state_change) :=
  [(lit "bf", SCFont (Some FBold)); (lit "cal", SCFont (Some FScript)); (lit "it", SCFont (Some FItalic));
   (lit "rm", SCFont (Some FUpRight)); (lit "sf", SCFont (Some FSansSerif)); (lit "tt", SCFont (Some FMonospace));
   (lit "displaystyle", SCStyle SDisplay); (lit "textstyle", SCStyle SText);
   (lit "scriptstyle", SCStyle SScript); (lit "scriptscriptstyle", SCStyle SScriptScript)].

Definition colour (t : str) (c : rgb) : Prop := lex_color t = Ok (Some c).

(** ** Delimiters *)

(** [delimiter s c ty r]: the text [s] starts with the delimiter [c]. *)
Inductive delimiter : str -> char -> delim_type -> str -> Prop :=
| D_char : forall b c ty r, blank b -> In (c, ty) char_delims -> delimiter (b ++ c :: r) c ty r
| D_command : forall b cs t c ty r, blank b -> control cs t r -> In (cs, (c, ty)) cs_delims ->
    delimiter (b ++ t) c ty r.

(** A delimiter, or a dot for none. *)
Inductive delimiter_opt : str -> option char -> str -> Prop :=
| DO_dot : forall r, delimiter_opt (46 :: r) None r
| DO_some : forall s c ty r, not_next (eq 46) s -> delimiter s c ty r -> delimiter_opt s (Some c) r.

Definition sizes : list (str * delim_size) :=
  flat_map (fun p => map (fun n => (lit n, snd p)) (fst p))
    [(["big"; "bigl"; "bigr"; "bigm"]%string, DBig); (["Big"; "Bigl"; "Bigr"; "Bigm"]%string, DBIG);
     (["bigg"; "biggl"; "biggr"; "biggm"]%string, DBigg); (["Bigg"; "Biggl"; "Biggr"; "Biggm"]%string, DBIGG)].

(** ** Dimensions *)

(** An integer below 2^24, or one followed by a dot or a comma and at most seven
    digits, with a unit. *)
Inductive dimension_text : str -> dimension -> Prop :=
| DT_integer : forall sg ds w u un, Forall sign sg -> digits ds -> ds <> [] ->
    (decimal_of ds < 2 ^ 24)%Z -> white w -> In (u, un) units ->
    dimension_text (sg ++ ds ++ w ++ u) (mkDim (f32_signed (negative sg) (decimal_of ds)) un)
| DT_fraction : forall sg ds p fs w u un, Forall sign sg -> digits ds -> digits fs -> p = 46 \/ p = 44 ->
    (decimal_of ds < 2 ^ 24)%Z -> (decimal_of fs < 2 ^ 24)%Z -> (List.length fs <= 7)%nat -> white w -> In (u, un) units ->
    dimension_text (sg ++ ds ++ p :: fs ++ w ++ u)
      (mkDim (f32_mul (f32_of_Z (if negative sg then -1 else 1)%Z)
        (f32_add (f32_of_Z (decimal_of ds))
           (f32_div (f32_of_Z (decimal_of fs)) (f32_of_Z (10 ^ Z.of_nat (List.length fs)))))) un).

(** A length takes one white space character with it, *)
Definition spaced (s r : str) : Prop :=
  s = r /\ not_next (fun c => is_ws c = true) r \/ exists c, is_ws c = true /\ c < 128 /\ s = c :: r.
(** and in braces more may follow. *)
Definition trailing (y : str) : Prop := exists z, spaced y z /\ white z.

(** Octal digits and hexadecimal digits, the latter in upper case, and the numbers
    they write. *)
Definition octal_digit (c : char) : Prop := 48 <= c <= 55.
Definition hexadecimal_digit (c : char) : Prop := digit c \/ 65 <= c <= 70.
Definition octal_of (s : str) : Z := fold_left (fun z c => (8 * z + (Z.of_N c - 48))%Z) s 0%Z.
Definition hexadecimal_of (s : str) : Z :=
  fold_left (fun z c => (16 * z + (Z.of_N c - (if N.leb c 57 then 48 else 55)))%Z) s 0%Z.

(** [figures x z]: [x] writes the number [z]. A quotation mark is followed by a
    hexadecimal number, an apostrophe by an octal one; as in TeX, no digits after
    such a sign are zero. *)
Inductive figures : str -> Z -> Prop :=
| F_decimal : forall ds, digits ds -> ds <> [] -> figures ds (decimal_of ds)
| F_octal : forall ds, Forall octal_digit ds -> figures (39 :: ds) (octal_of ds)
| F_hexadecimal : forall ds, Forall hexadecimal_digit ds -> figures (34 :: ds) (hexadecimal_of ds).

(** A digit that would belong to the figures [x]. *)
Definition next_figure (x : str) (c : char) : Prop := match x with 34 :: _ => hexadecimal_digit c | _ => digit c end.

(** [code_text s z r]: the text [s] starts with the number [z] of a character, and
    goes on with [r]. A grave accent is followed by the character itself, or by a
    backslash and the character. *)
Inductive code_text : str -> Z -> str -> Prop :=
| CT_figures : forall x z s r, figures x z -> not_next (next_figure x) s -> spaced s r -> code_text (x ++ s) z r
| CT_character : forall c r, c < 128 -> c <> 92 -> code_text (96 :: c :: r) (Z.of_N c) r
| CT_escaped : forall c r, c < 128 -> code_text (96 :: 92 :: c :: r) (Z.of_N c) r.

(** The commands for horizontal space: whether the dimension may stretch, and
    whether its unit must be the mathematical one. *)
Definition spaces : list (str * (bool * bool)) :=
  [(lit "kern", (false, false)); (lit "mkern", (false, true)); (lit "hskip", (true, false)); (lit "mskip", (true, true))].

(** The text does not start with a word of TeX's stretchable spaces. *)
Definition no_stretch (s : str) : Prop := forall r, s <> lit "plus" ++ r /\ s <> lit "minus" ++ r.

(** After white space, the text goes on with the word [kw] and the text [x]. *)
Definition goes_on (kw s x : str) : Prop := exists w, white w /\ s = w ++ kw ++ x.

(** A length that stretches and shrinks: [1pt plus 2pt minus 1pt], either part
    being optional. The last argument is the text that follows. *)
Inductive stretch (kw : str) : str -> option dimension -> str -> Prop :=
| Stretch_none : forall s, (forall x, ~ goes_on kw s x) -> stretch kw s None s
| Stretch_some : forall s x d y r, goes_on kw s (x ++ y) -> dimension_text x d -> spaced y r -> stretch kw s (Some d) r.

Inductive glue_text : str -> dimension -> option dimension -> option dimension -> str -> Prop :=
| Glue_text : forall x d s s1 p s2 m r, dimension_text x d -> spaced s s1 -> stretch (lit "plus") s1 p s2 -> stretch (lit "minus") s2 m r ->
    glue_text (x ++ s) d p m r.

Definition in_mu (d : dimension) (p m : option dimension) : Prop :=
  dunit d = UMu /\ (forall x, p = Some x \/ m = Some x -> dunit x = UMu).

(** ** Arguments that are not used *)

(** A group in braces, a character or a control sequence. After a comment, a brace
    is no more than a character. *)
Inductive one_argument : str -> str -> Prop :=
| OA_group : forall w g r, white w -> balanced 123 125 g -> one_argument (w ++ 123 :: g ++ 125 :: r) r
| OA_char : forall b c r, blank b -> is_ws c = false -> c <> 37 -> c <> 92 -> c <> 123 \/ ~ white b -> one_argument (b ++ c :: r) r
| OA_control : forall b cs t r, blank b -> control cs t r -> one_argument (b ++ t) r.

(** ** [\genfrac] *)

(** Nothing in braces, or a delimiter without braces. *)
Inductive frac_delimiter : str -> option char -> str -> Prop :=
| FD_none : forall w r, white w -> frac_delimiter (w ++ 123 :: 125 :: r) None r
| FD_some : forall s c ty r, ~ starts 123 s -> delimiter s c ty r -> frac_delimiter s (Some c) r.

Definition frac_bar (t : str) (bar : option dimension) : Prop :=
  t = [] /\ bar = None \/ exists x y d, t = x ++ y /\ dimension_text x d /\ spaced y [] /\ bar = Some d.

Definition frac_styles : list (str * option style) :=
  [([], None); ([48], Some SDisplay); ([49], Some SText); ([50], Some SScript); ([51], Some SScriptScript)].

Inductive frac_style : str -> option style -> str -> Prop :=
| FS_group : forall w y sty r, white w -> In (y, sty) frac_styles -> frac_style (w ++ 123 :: y ++ 125 :: r) sty r
| FS_digit : forall b c sty r, blank b -> In ([c], sty) frac_styles -> frac_style (b ++ c :: r) sty r.

(** Delimiters make a group of the fraction, a style makes one if they do not. *)
Definition genfrac_meaning (o c : option char) (bar : option dimension) (s : option style) (num den : list event) : list event :=
  let frac := EvVisual (VFraction bar) :: num ++ den in
  match o, c, s with
  | None, None, None => frac
  | None, None, Some s => EvBegin GNormal :: EvState (SCStyle s) :: frac ++ [EvEnd]
  | _, _, None => EvBegin (GLeftRight o c) :: frac ++ [EvEnd]
  | _, _, Some s => EvBegin (GLeftRight o c) :: EvState (SCStyle s) :: frac ++ [EvEnd]
  end.

(** ** Environments *)

(** An environment: what it opens, the number of alignment marks per row, the
    style of its cells, and delimiters around it. *)
Record env := mkEnvironment {
  v_group : grouping; v_marks : N; v_style : option style; v_around : option (char * char) }.

Definition any_marks : N := 65535.
Definition environments : list (str * env) := map (fun p => (lit (fst p), snd p))
  [("matrix"%string, mkEnvironment (GMatrix CACenter) any_marks None None);
   ("smallmatrix"%string, mkEnvironment (GMatrix CACenter) any_marks (Some SText) None);
   ("pmatrix"%string, mkEnvironment (GMatrix CACenter) any_marks None (Some (40, 41)));
   ("bmatrix"%string, mkEnvironment (GMatrix CACenter) any_marks None (Some (91, 93)));
   ("vmatrix"%string, mkEnvironment (GMatrix CACenter) any_marks None (Some (124, 124)));
   ("Vmatrix"%string, mkEnvironment (GMatrix CACenter) any_marks None (Some (8214, 8214)));
   ("Bmatrix"%string, mkEnvironment (GMatrix CACenter) any_marks None (Some (123, 125)));
   ("cases"%string, mkEnvironment (GCases true) 1 None None);
   ("dcases"%string, mkEnvironment (GCases true) 1 (Some SDisplay) None);
   ("rcases"%string, mkEnvironment (GCases false) 1 None None);
   ("drcases"%string, mkEnvironment (GCases false) 1 (Some SDisplay) None);
   ("equation"%string, mkEnvironment (GEquation true) 0 None None);
   ("equation*"%string, mkEnvironment (GEquation false) 0 None None);
   ("align"%string, mkEnvironment (GAlign true) any_marks None None);
   ("align*"%string, mkEnvironment (GAlign false) any_marks None None);
   ("aligned"%string, mkEnvironment GAligned any_marks None None);
   ("gather"%string, mkEnvironment (GGather true) 0 None None);
   ("gather*"%string, mkEnvironment (GGather false) 0 None None);
   ("gathered"%string, mkEnvironment GGathered 0 None None);
   ("multline"%string, mkEnvironment GMultline 0 None None);
   ("split"%string, mkEnvironment GSplit 1 None None)].

Definition starred_matrices : list (str * option (char * char)) := map (fun p => (lit (fst p), snd p))
  [("matrix*"%string, None); ("pmatrix*"%string, Some (40, 41)); ("bmatrix*"%string, Some (91, 93));
   ("vmatrix*"%string, Some (124, 124)); ("Vmatrix*"%string, Some (8214, 8214)); ("Bmatrix*"%string, Some (123, 125))].

Definition alignments : list (str * col_align) := [(lit "l", CALeft); (lit "c", CACenter); (lit "r", CARight)].

Definition column_chars : list (char * array_col) :=
  [(108, ACColumn CALeft); (99, ACColumn CACenter); (114, ACColumn CARight); (124, ACSep LSolid); (58, ACSep LDashed)].
Definition columns (t : str) (cols : list array_col) : Prop := Forall2 (fun c x => In (c, x) column_chars) t cols.
Definition column_count (cols : list array_col) : nat :=
  List.length (filter (fun x => match x with ACColumn _ => true | ACSep _ => false end) cols).

(** The environments whose argument is the number of pairs of columns. *)
Definition pair_environments : list (str * (N -> grouping)) :=
  [(lit "alignat", fun p => GAlignat p true); (lit "alignat*", fun p => GAlignat p false);
   (lit "alignedat", fun p => GAlignedat p)].

(** [env_args name s e r]: after [\begin{name}], the text [s] has the arguments
    that make the environment [e], and [r] follows. *)
Inductive env_args : str -> str -> env -> str -> Prop :=
| EA_plain : forall name e s, In (name, e) environments -> env_args name s e s
| EA_starred : forall name d s, In (name, d) starred_matrices -> ~ starts 91 s ->
    env_args name s (mkEnvironment (GMatrix CACenter) any_marks None d) s
| EA_starred_aligned : forall name d w t a r, In (name, d) starred_matrices -> white w -> In (t, a) alignments ->
    env_args name (w ++ 91 :: t ++ 93 :: r) (mkEnvironment (GMatrix a) any_marks None d) r
| EA_array : forall w t cols r n, white w -> columns t cols -> column_count cols = S n -> N.of_nat n < 65534 ->
    env_args (lit "array") (w ++ 123 :: t ++ 125 :: r)
    (mkEnvironment (GArray cols) (N.of_nat n) None None) r
| EA_darray : forall w t cols r n, white w -> columns t cols -> column_count cols = S n -> N.of_nat n < 65534 ->
    env_args (lit "darray") (w ++ 123 :: t ++ 125 :: r)
    (mkEnvironment (GArray cols) (N.of_nat n) (Some SDisplay) None) r
| EA_subarray : forall w t a r, white w -> In (t, a) alignments ->
    env_args (lit "subarray") (w ++ 123 :: t ++ 125 :: r) (mkEnvironment (GSubArray a) 0 None None) r
| EA_pairs : forall name g w ds p r, In (name, g) pair_environments -> white w -> digits ds -> ds <> [] ->
    decimal_of ds = Z.of_N p -> p <= 32767 ->
    env_args name (w ++ 123 :: ds ++ 125 :: r) (mkEnvironment (g p) (2 * p - 1) None None) r.

(** Horizontal lines at the start of a row. *)
Definition hline : str := lit "\hline".
Definition hdashline : str := lit "\hdashline".
Inductive lines : str -> list line -> str -> Prop :=
| L_none : forall s, (forall w r, white w -> s <> w ++ hline ++ r /\ s <> w ++ hdashline ++ r) -> lines s [] s
| L_solid : forall w s ls r, white w -> lines s ls r -> lines (w ++ hline ++ s) (LSolid :: ls) r
| L_dashed : forall w s ls r, white w -> lines s ls r -> lines (w ++ hdashline ++ s) (LDashed :: ls) r.

Definition begin_of (name : str) : str := lit "\begin{" ++ name ++ lit "}".
Definition end_of (name : str) : str := lit "\end{" ++ name ++ lit "}".

(** The events around the content of an environment. *)
Definition env_events (e : env) (ls : list line) (es : list event) : list event :=
  match v_around e with Some (l, r) => [EvBegin (GLeftRight (Some l) (Some r))] | None => [] end ++
  [EvBegin (v_group e)] ++
  match v_style e with Some s => [EvState (SCStyle s)] | None => [] end ++
  match ls with [] => [] | _ => [EvFlow (EFStartLines ls)] end ++
  es ++ [EvEnd] ++
  match v_around e with Some _ => [EvEnd] | None => [] end.

(** ** Numbers *)

(** A number starts with a digit. *)
Definition number (n : str) : Prop :=
  Forall numeric n /\ (exists c m, n = c :: m /\ digit c).

(** It extends as far as possible, but a dot or comma at its end is punctuation;
    only the last one of several. *)
Definition after_number (n r : str) : Prop :=
  (exists c m, n = m ++ [c] /\ digit c) /\ not_next numeric r \/
  exists p r', (p = 46 \/ p = 44) /\ r = p :: r' /\ not_next numeric r'.

(** ** Scripts *)

(** [\limits] and [\nolimits], the last one wins. *)
Inductive modifiers : script_pos -> str -> script_pos -> str -> Prop :=
| M_none : forall p s, (forall w r, white w -> s <> w ++ lit "\limits" ++ r /\ s <> w ++ lit "\nolimits" ++ r) ->
    modifiers p s p s
| M_limits : forall p w s p' r, white w -> modifiers SPAboveBelow s p' r -> modifiers p (w ++ lit "\limits" ++ s) p' r
| M_nolimits : forall p w s p' r, white w -> modifiers SPRight s p' r -> modifiers p (w ++ lit "\nolimits" ++ s) p' r.

(** The position of the scripts of a nucleus, and the text after the modifiers. *)
Definition placed (l : limits) (s : str) (p : script_pos) (r : str) : Prop :=
  let p0 := match snd l with Some p => p | None => SPRight end in
  if fst l then modifiers p0 s p r else p = p0 /\ r = s.

Definition no_script (s : str) : Prop := not_next (fun c => c = 94 \/ c = 95) s.

(** ** Rows *)

(** [\\] with its optional space and the lines of the next row. *)
Definition newline_commands : list str := [[92]; lit "cr"].
Inductive row_space : str -> option dimension -> str -> Prop :=
| RS_none : forall s, ~ starts 91 s -> row_space s None s
| RS_some : forall w t d r, white w -> dimension_text t d -> row_space (w ++ 91 :: t ++ 93 :: r) (Some d) r.

(** ** Nuclei, their scripts, and formulas

    [over x es]: the text between [\buildrel] and [\over]. [nucleus h s es l r]: [h] tells that the nucleus is an argument: then a
    number is one digit. [scripts p es s es' r]: the nucleus meaning [es] is
    followed by the text [s]. [formula al s es]: the text [s] means [es]; [al] is the number of alignment
    marks already in the row and the number allowed, if rows make sense.

    The rules may refer to texts whose meaning is known otherwise; [known] says
    which. Without such texts, the rules alone give the meaning. *)

Class Known := known : option (N * N) -> str -> list event -> Prop.
Definition nothing_known : Known := fun _ _ _ => False.

Section Meaning.
Context {KN : Known}.

Inductive nucleus : bool -> str -> list event -> limits -> str -> Prop :=
| N_char : forall h b c r, blank b -> special c = false -> nucleus h (b ++ c :: r) [char_meaning c] no_limits r
| N_number : forall b n r, blank b -> number n -> after_number n r ->
    nucleus false (b ++ n ++ r) [EvContent (CNumber n)] no_limits r
| N_digit : forall b c r, blank b -> digit c -> nucleus true (b ++ c :: r) [EvContent (CNumber [c])] no_limits r
| N_group : forall h b g es r, blank b -> balanced 123 125 g -> formula None g es ->
    nucleus h (b ++ 123 :: g ++ 125 :: r) (EvBegin GNormal :: es ++ [EvEnd]) no_limits r
| N_symbol : forall h b cs t e r, blank b -> control cs t r -> symbol cs e ->
    nucleus h (b ++ t) [e] no_limits r
| N_command : forall h b cs t s c ess r, blank b -> control cs t s -> In (cs, c) commands ->
    arguments h (c_args c) s ess r -> nucleus h (b ++ t) (fill ess (c_body c)) (c_limits c) r
| N_sqrt : forall h b t s es r, blank b -> control (lit "sqrt") t s -> ~ starts 91 s ->
    nucleus true s es no_limits r -> nucleus h (b ++ t) (EvVisual VSqrt :: es) no_limits r
| N_root : forall h b t w i es' s es r, blank b -> control (lit "sqrt") t (w ++ 91 :: i ++ 93 :: s) -> white w ->
    balanced 91 93 i -> formula None i es' -> nucleus true s es no_limits r ->
    nucleus h (b ++ t) (EvVisual VRoot :: es ++ es') no_limits r
| N_xarrow : forall h b cs t c s es r, blank b -> control cs t s -> In (cs, c) xarrows -> ~ starts 91 s ->
    nucleus true s es no_limits r -> nucleus h (b ++ t) (above :: rel c :: es) no_limits r
| N_xarrow_below : forall h b cs t c w i es' s es r, blank b -> control cs t (w ++ 91 :: i ++ 93 :: s) ->
    In (cs, c) xarrows -> white w -> balanced 91 93 i -> formula None i es' -> nucleus true s es no_limits r ->
    nucleus h (b ++ t) (EvScript STSubSup SPAboveBelow :: rel c :: EvBegin GNormal :: es' ++ EvEnd :: es) no_limits r
| N_text : forall h b cs t f w x r, blank b -> control cs t (w ++ 123 :: x ++ 125 :: r) -> In (cs, f) text_commands ->
    white w -> balanced 123 125 x -> nucleus h (b ++ t) (text_meaning f x) no_limits r
| N_operator : forall h b t w x r, blank b -> control (lit "operatorname") t (w ++ 123 :: x ++ 125 :: r) ->
    white w -> balanced 123 125 x -> nucleus h (b ++ t) [EvContent (CFunction x)] (true, None) r
| N_class_char : forall h b cs t k w x c y r, blank b -> control cs t (w ++ 123 :: x ++ c :: y ++ 125 :: r) ->
    In (cs, k) classes -> white w -> white x -> white y -> is_ws c = false -> balanced 123 125 (x ++ c :: y) ->
    nucleus h (b ++ t) [k c] no_limits r
| N_class_group : forall h b cs t k w g es r, blank b -> control cs t (w ++ 123 :: g ++ 125 :: r) ->
    In (cs, k) classes -> white w -> balanced 123 125 g ->
    (forall x c y, white x -> white y -> is_ws c = false -> g <> x ++ c :: y) -> formula None g es ->
    nucleus h (b ++ t) (EvBegin GNormal :: EvBegin GNormal :: es ++ [EvEnd; EvEnd]) no_limits r
| N_left : forall h b t s o g s' c es r, blank b -> control (lit "left") t s -> delimiter_opt s o (g ++ lit "\right" ++ s') ->
    enclosed (lit "\left") (lit "\right") (g ++ lit "\right" ++ s') g s' -> delimiter_opt s' c r -> formula None g es ->
    nucleus h (b ++ t) (EvBegin (GLeftRight o c) :: es ++ [EvEnd]) no_limits r
| N_sized : forall h b cs t z s c ty r, blank b -> control cs t s -> In (cs, z) sizes -> delimiter s c ty r ->
    nucleus h (b ++ t) [EvContent (CDelimiter c (Some z) ty)] no_limits r
| N_middle : forall h b t s c ty r, blank b -> control (lit "middle") t s -> delimiter s c ty r ->
    nucleus h (b ++ t) [EvContent (CDelimiter c (Some DBig) DFence)] no_limits r
| N_env : forall h b t w name s e s1 ls s2 g es r, blank b -> control (lit "begin") t (w ++ 123 :: name ++ 125 :: s) ->
    white w -> env_args name s e s1 -> lines s1 ls s2 -> enclosed (begin_of name) (end_of name) s2 g r ->
    formula (Some (0, v_marks e)) g es -> nucleus h (b ++ t) (env_events e ls es) no_limits r
| N_substack : forall h b t w g es r, blank b -> control (lit "substack") t (w ++ 123 :: g ++ 125 :: r) -> white w ->
    balanced 123 125 g -> formula (Some (0, 0)) g es ->
    nucleus h (b ++ t) (EvBegin (GSubArray CACenter) :: es ++ [EvEnd]) no_limits r
| N_textcolor : forall h b t w x c s es r, blank b -> control (lit "textcolor") t (w ++ 123 :: x ++ 125 :: s) -> white w ->
    balanced 123 125 x -> colour x c -> nucleus true s es no_limits r ->
    nucleus h (b ++ t) (EvBegin GNormal :: EvState (SCColor c CTText) :: es ++ [EvEnd]) no_limits r
| N_colorbox : forall h b t w x c w' y r, blank b ->
    control (lit "colorbox") t (w ++ 123 :: x ++ 125 :: w' ++ 123 :: y ++ 125 :: r) -> white w -> white w' ->
    balanced 123 125 x -> balanced 123 125 y -> colour x c ->
    nucleus h (b ++ t) [EvBegin GNormal; EvState (SCColor c CTBackground); EvContent (CText y); EvEnd] no_limits r
| N_fcolorbox : forall h b t w x c w' x' c' w'' y r, blank b ->
    control (lit "fcolorbox") t (w ++ 123 :: x ++ 125 :: w' ++ 123 :: x' ++ 125 :: w'' ++ 123 :: y ++ 125 :: r) ->
    white w -> white w' -> white w'' -> balanced 123 125 x -> balanced 123 125 x' -> balanced 123 125 y ->
    colour x c -> colour x' c' ->
    nucleus h (b ++ t) [EvBegin GNormal; EvState (SCColor c CTBorder); EvState (SCColor c' CTBackground);
      EvContent (CText y); EvEnd] no_limits r
| N_space : forall h b cs g mu t x d s r, blank b -> In (cs, (g, mu)) spaces -> control cs t (x ++ s) -> dimension_text x d ->
    spaced s r -> (mu = true -> dunit d = UMu) -> (g = true -> not_next (fun c => is_ws c = true) r /\ no_stretch r) ->
    nucleus h (b ++ t) [EvSpace (Some d) None None] no_limits r
| N_space_braced : forall h b cs g mu t w x y d r, blank b -> In (cs, (g, mu)) spaces ->
    control cs t (w ++ 123 :: (x ++ y) ++ 125 :: r) -> white w -> dimension_text x d -> trailing y -> (mu = true -> dunit d = UMu) ->
    nucleus h (b ++ t) [EvSpace (Some d) None None] no_limits r
| N_hspace : forall h b t w x y d r, blank b -> control (lit "hspace") t (w ++ 123 :: (x ++ y) ++ 125 :: r) -> white w ->
    dimension_text x d -> trailing y -> nucleus h (b ++ t) [EvSpace (Some d) None None] no_limits r
| N_glue : forall h b cs mu t s d p m r, blank b -> In (cs, (true, mu)) spaces -> control cs t s -> glue_text s d p m r ->
    (mu = true -> in_mu d p m) -> nucleus h (b ++ t) [EvSpace (Some d) None None] no_limits r
| N_glue_braced : forall h b cs mu t w x d p m z r, blank b -> In (cs, (true, mu)) spaces ->
    control cs t (w ++ 123 :: x ++ 125 :: r) -> white w -> balanced 123 125 x -> glue_text x d p m z -> white z -> (mu = true -> in_mu d p m) ->
    nucleus h (b ++ t) [EvSpace (Some d) None None] no_limits r
| N_hspace_glue : forall h b t w x d p m z r, blank b -> control (lit "hspace") t (w ++ 123 :: x ++ 125 :: r) -> white w ->
    balanced 123 125 x -> glue_text x d p m z -> white z -> nucleus h (b ++ t) [EvSpace (Some d) None None] no_limits r
| N_strut : forall h b t w x d w' x' d' w'' x'' d'' r, blank b ->
    control (lit "Space") t (w ++ 123 :: x ++ 125 :: w' ++ 123 :: x' ++ 125 :: w'' ++ 123 :: x'' ++ 125 :: r) ->
    white w -> white w' -> white w'' -> dimension_text x d -> dimension_text x' d' -> dimension_text x'' d'' ->
    nucleus h (b ++ t) [EvSpace (Some d) (Some d') (Some d'')] no_limits r
| N_dots : forall h b t r, blank b -> control (lit "dots") t r ->
    nucleus h (b ++ t) [ord (match r with c :: _ => if (c =? 46) || (c =? 44) then 8230 else 8943 | [] => 8943 end)]
      no_limits r
| N_char_code : forall h b t s p r, blank b -> control (lit "char") t s -> code_text s (Z.of_N p) r -> p <= 255 ->
    nucleus h (b ++ t) [ord p] no_limits r
| N_mathop_char : forall h b t w x c y r, blank b -> control (lit "mathop") t (w ++ 123 :: x ++ c :: y ++ 125 :: r) ->
    white w -> white x -> white y -> is_ws c = false -> balanced 123 125 (x ++ c :: y) ->
    nucleus h (b ++ t) [EvContent (CLargeOp c false)] movable r
| N_mathop_group : forall h b t w g r, blank b -> control (lit "mathop") t (w ++ 123 :: g ++ 125 :: r) ->
    white w -> balanced 123 125 g -> (forall x c y, white x -> white y -> is_ws c = false -> g <> x ++ c :: y) ->
    nucleus h (b ++ t) [EvContent (CFunction g)] movable r
| N_genfrac : forall h b t s1 o s2 c w x bar s2' sty s3 es1 s4 es2 r, blank b -> control (lit "genfrac") t s1 ->
    frac_delimiter s1 o s2 -> frac_delimiter s2 c (w ++ 123 :: x ++ 125 :: s2') ->
    white w -> frac_bar x bar -> frac_style s2' sty s3 ->
    nucleus true s3 es1 no_limits s4 -> nucleus true s4 es2 no_limits r ->
    nucleus h (b ++ t) (genfrac_meaning o c bar sty es1 es2) no_limits r
| N_sideset : forall h b t s s1 s2 es l r, blank b -> control (lit "sideset") t s -> one_argument s s1 -> one_argument s1 s2 ->
    nucleus true s2 es l r -> nucleus h (b ++ t) es l r
| N_buildrel : forall h b t s x es1 s' es2 r, blank b -> control (lit "buildrel") t s -> delimited (lit "\over") s x s' ->
    over x es1 -> nucleus true s' es2 no_limits r ->
    nucleus h (b ++ t) (EvScript STSup SPAboveBelow :: es2 ++ es1) no_limits r
| N_class_bare : forall h b cs t k b' c r, blank b -> control cs t (b' ++ c :: r) -> In (cs, k) classes -> blank b' ->
    is_ws c = false -> c <> 37 -> c <> 92 -> ~ starts 123 (b' ++ c :: r) -> nucleus h (b ++ t) [k c] no_limits r
| N_class_command : forall h b cs t k b' cs' t' r' es r, blank b -> control cs t (b' ++ t') -> In (cs, k) classes -> blank b' ->
    control cs' t' r' -> nucleus true (b' ++ t') es no_limits r ->
    nucleus h (b ++ t) (EvBegin GNormal :: es ++ [EvEnd]) no_limits r
| N_mathop_bare : forall h b t b' c r, blank b -> control (lit "mathop") t (b' ++ c :: r) -> blank b' ->
    is_ws c = false -> c <> 37 -> c <> 92 -> ~ starts 123 (b' ++ c :: r) ->
    nucleus h (b ++ t) [EvContent (CLargeOp c false)] movable r
| N_mathop_command : forall h b t b' cs' t' r' es r, blank b -> control (lit "mathop") t (b' ++ t') -> blank b' ->
    control cs' t' r' -> nucleus true (b' ++ t') es no_limits r ->
    nucleus h (b ++ t) (EvBegin GNormal :: es ++ [EvEnd]) movable r
with over : str -> list event -> Prop :=
| O_group : forall w g es w', white w -> balanced 123 125 g -> formula None g es -> white w' ->
    over (w ++ 123 :: g ++ 125 :: w') (EvBegin GNormal :: es ++ [EvEnd])
| O_char : forall b c w, blank b -> special c = false -> white w -> over (b ++ c :: w) [char_meaning c]
| O_symbol : forall b cs t e w, blank b -> control cs t w -> symbol cs e -> white w -> over (b ++ t) [e]
with arguments : bool -> list akind -> str -> list (list event) -> str -> Prop :=
| A_nil : forall h s, arguments h [] s [] s
| A_whole : forall h ks s es s' ess r, nucleus true s es no_limits s' -> arguments h ks s' ess r ->
    arguments h (Whole :: ks) s (es :: ess) r
| A_inside : forall h ks w g es s' ess r, white w -> balanced 123 125 g -> formula None g es -> arguments h ks s' ess r ->
    arguments h (Inside :: ks) (w ++ 123 :: g ++ 125 :: s') (es :: ess) r
| A_token : forall h ks s es s' ess r, ~ starts 123 s -> nucleus h s es no_limits s' -> arguments h ks s' ess r ->
    arguments h (Inside :: ks) s (es :: ess) r

with scripts : script_pos -> list event -> str -> list event -> str -> Prop :=
| S_none : forall p es s, ~ starts 94 s -> ~ starts 95 s -> scripts p es s es s
| S_sub : forall p es w s a r, white w -> nucleus true s a no_limits r -> no_script r ->
    scripts p es (w ++ 95 :: s) (EvScript STSub p :: es ++ a) r
| S_sup : forall p es w s a r, white w -> nucleus true s a no_limits r -> no_script r ->
    scripts p es (w ++ 94 :: s) (EvScript STSup p :: es ++ a) r
| S_sub_sup : forall p es w s a s' b r, white w -> nucleus true s a no_limits (94 :: s') ->
    nucleus true s' b no_limits r -> no_script r ->
    scripts p es (w ++ 95 :: s) (EvScript STSubSup p :: es ++ a ++ b) r
| S_sup_sub : forall p es w s a s' b r, white w -> nucleus true s a no_limits (95 :: s') ->
    nucleus true s' b no_limits r -> no_script r ->
    scripts p es (w ++ 94 :: s) (EvScript STSubSup p :: es ++ b ++ a) r

with element : str -> list event -> str -> Prop :=
| I_nucleus : forall s es l s' p s'' es' r, nucleus false s es l s' -> placed l s' p s'' ->
    scripts p es s'' es' r -> element s es' r
| I_orphan : forall b s c s' es r, blank b -> s = c :: s' -> c = 94 \/ c = 95 ->
    scripts SPRight [EvBegin GNormal; EvEnd] s es r -> element (b ++ s) es r
| I_switch : forall b cs t x r, blank b -> control cs t r -> In (cs, x) switches -> element (b ++ t) [EvState x] r
| I_color : forall b t w x c r, blank b -> control (lit "color") t (w ++ 123 :: x ++ 125 :: r) -> white w ->
    balanced 123 125 x -> colour x c -> element (b ++ t) [EvState (SCColor c CTText)] r
| I_relax : forall b t r, blank b -> control (lit "relax") t r -> ~ starts 94 r -> ~ starts 95 r -> element (b ++ t) [] r

with formula : option (N * N) -> str -> list event -> Prop :=
| F_known : forall al s es, known al s es -> formula al s es
| F_end : forall al b, blank b -> formula al b []
| F_end_comment : forall al b t, blank b -> ~ In 10 t -> formula al (b ++ 37 :: t) []
| F_element : forall al s es r es', element s es r -> formula al r es' -> formula al s (es ++ es')
| F_mark : forall k m b s es, blank b -> k < m -> ~ starts 94 s -> ~ starts 95 s -> formula (Some (k + 1, m)) s es ->
    formula (Some (k, m)) (b ++ 38 :: s) (EvFlow EFAlignment :: es)
| F_row : forall k m b cs t s d s1 ls s2 es, blank b -> In cs newline_commands -> control cs t s ->
    row_space s d s1 -> lines s1 ls s2 -> ~ starts 94 s2 -> ~ starts 95 s2 -> formula (Some (0, m)) s2 es ->
    formula (Some (k, m)) (b ++ t) (EvFlow (EFNewLine d ls) :: es).

End Meaning.
