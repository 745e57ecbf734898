(** * Lex: the lexers of src/parser/lex.rs.

    Every lexer works on the text left to read and returns its result and the
    text left, also when it fails. *)

From Coq Require Import List NArith ZArith Bool Floats.SpecFloat.
From Verif Require Import Base Float32 Event Tables.
Import ListNotations.
Open Scope N_scope.
Open Scope sm_scope.

(** [Token]: a character token keeps the text that starts with it, as
    [CharToken] does. (src/parser.rs:375-405) *)
Inductive token :=
| TCs (name : str)
| TChr (ctx : str).

(** [char::from(CharToken)]; the context is never empty. (src/parser.rs:401-405) *)
Definition ctx_char (ctx : str) : char := match ctx with c :: _ => c | [] => 0 end.

(** [Argument]. (src/parser.rs:407-411) *)
Inductive argument :=
| AToken (t : token)
| AGroup (content : str).

(** [usize::MAX + 1]: 64-bit targets. *)
Definition usize_limit : N := 18446744073709551616.

(** ** Groups *)

(** Where [group_content] is: reading, skipping the [n] characters left of an
    opening or closing string just seen, or inside a comment. *)
Inductive gmode := MNorm | MSkip (n : nat) | MCom.

(** What it finds: content and rest; the text ended (the input is emptied); a
    comment without end of line (the input is left alone). *)
Inductive gres := GFound (content rest : str) | GEof | GNoNl.

Definition gcons (c : char) (r : gres) : gres :=
  match r with GFound a b => GFound (c :: a) b | _ => r end.

Definition skip_mode (n : nat) : gmode := match n with O => MNorm | _ => MSkip n end.

(** The loop of [group_content]. Simplified: the byte loop is done character by
    character (the delimiters are ASCII, so no match can start inside a
    character), and the [u32] depth cannot overflow. (src/parser/lex.rs:65-105) *)
Fixpoint gscan (st en : str) (m : gmode) (esc : bool) (depth : N) (s : str) : gres :=
  match m with
  | MSkip n =>
      match s with
      | [] => GEof
      | c :: s' => gcons c (gscan st en (skip_mode (n - 1)) esc depth s')
      end
  | MCom =>
      match s with
      | [] => GNoNl
      | c :: s' => gcons c (gscan st en (if c =? 10 then MNorm else MCom) esc depth s')
      end
  | MNorm =>
      if negb esc && (depth =? 0) && starts_with en s then
        GFound [] (match strip_prefix en s with Some r => r | None => [] end)
      else if negb (has_bytes (blen en) s) then GEof
      else match s with
           | [] => GEof
           | c :: s' =>
               if negb esc && starts_with st s then
                 gcons c (gscan st en (skip_mode (length st - 1)) esc (depth + 1) s')
               else if negb esc && starts_with en s then
                 gcons c (gscan st en (skip_mode (length en - 1)) esc (depth - 1) s')
               else if c =? 92 then gcons c (gscan st en MNorm (negb esc) depth s')
               else if (c =? 37) && negb esc then gcons c (gscan st en MCom esc depth s')
               else gcons c (gscan st en MNorm false depth s')
           end
  end.

(** [group_content]. (src/parser/lex.rs:65-105) *)
Definition group_content (k : gkind) : lexer str := fun s =>
  match gscan (opening_str k) (closing_str k) MNorm false 0 s with
  | GFound a r => (Ok a, r)
  | GEof => (Err (EUnbalancedGroup (Some k)), [])
  | GNoNl => (Err (EUnbalancedGroup (Some k)), s)
  end.

(** ** Text up to a suffix *)

Inductive cmode := CNorm | CSkip (n : nat) | CCom.
Inductive cres := CFound (content rest : str) | CEof | CGroup | CIndexPanic.

Definition ccons (c : char) (r : cres) : cres :=
  match r with CFound a b => CFound (c :: a) b | _ => r end.

Definition cskip (n : nat) : cmode := match n with O => CNorm | _ => CSkip n end.

(** The loop of [content_with_suffix]; [escaped] short-circuits the bound check,
    so that [bytes[index]] is out of range after a final backslash. [CGroup]: a
    nested group is not closed. (src/parser/lex.rs:108-139) *)
Fixpoint cscan (suf : str) (m : cmode) (esc : bool) (s : str) : cres :=
  match m with
  | CSkip n =>
      match s with
      | [] => CEof
      | c :: s' => ccons c (cscan suf (cskip (n - 1)) esc s')
      end
  | CCom =>
      match s with
      | [] => CEof
      | c :: s' => ccons c (cscan suf (if c =? 10 then CNorm else CCom) esc s')
      end
  | CNorm =>
      if esc then
        match s with
        | [] => CIndexPanic
        | c :: s' => ccons c (cscan suf CNorm false s')
        end
      else if negb (has_bytes (blen suf) s) then CEof
      else if starts_with suf s then
        CFound [] (match strip_prefix suf s with Some r => r | None => [] end)
      else match s with
           | [] => CIndexPanic
           | c :: s' =>
               if c =? 92 then ccons c (cscan suf CNorm true s')
               else if c =? 37 then ccons c (cscan suf CCom false s')
               else if c =? 123 then
                 match gscan (opening_str GKNormal) (closing_str GKNormal) MNorm false 0 s' with
                 | GFound a _ => ccons c (cscan suf (cskip (length a + 1)) false s')
                 | _ => CGroup
                 end
               else ccons c (cscan suf CNorm false s')
           end
  end.

(** [content_with_suffix]. (src/parser/lex.rs:108-139) *)
Definition content_with_suffix (suf : str) : lexer str := fun s =>
  match cscan suf CNorm false s with
  | CFound a r => (Ok a, r)
  | CEof => (Err EMacroSuffixNotFound, [])
  | CGroup => (Err (EUnbalancedGroup (Some GKNormal)), s)
  | CIndexPanic => (Panic PIndex, s)
  end.

(** ** Tokens *)

(** [rhs_control_sequence]. (src/parser/lex.rs:213-229) *)
Definition rhs_control_sequence : lexer str := fun s =>
  match s with
  | [] => (Err EEmptyControlSequence, s)
  | c :: s' =>
      if is_alpha c then let (a, b) := span_while is_alpha s in (Ok a, trim_start b)
      else (Ok [c], trim_start s')
  end.

(** Leading white space and comments, skipped by the recursion of [token];
    [com]: inside a comment. (src/parser/lex.rs:464-476) *)
Fixpoint skip_blank (com : bool) (s : str) : str :=
  match s with
  | [] => []
  | c :: s' =>
      if com then skip_blank (negb (c =? 10)) s'
      else if is_ws c then skip_blank false s'
      else if c =? 37 then skip_blank true s'
      else s
  end.

(** [token]. (src/parser/lex.rs:463-484) *)
Definition lex_token : lexer token := fun s =>
  match skip_blank false s with
  | [] => (Err EToken, [])
  | c :: s' =>
      if c =? 92 then
        match rhs_control_sequence s' with
        | (Ok cs, r) => (Ok (TCs cs), r)
        | (Err e, r) => (Err e, r)
        | (Panic p, r) => (Panic p, r)
        | (Fuel, r) => (Fuel, r)
        end
      else (Ok (TChr (c :: s')), s')
  end.

(** [control_sequence]. (src/parser/lex.rs:177-189) *)
Definition control_sequence : lexer str := fun s =>
  match s with
  | [] => (Err EEmptyControlSequence, s)
  | c :: s' => if c =? 92 then rhs_control_sequence s' else (Err EControlSequence, s)
  end.

(** [argument]. (src/parser/lex.rs:32-40) *)
Definition lex_argument : lexer argument := fun s =>
  match strip_char 123 (trim_start s) with
  | Some r => (do a <- group_content GKNormal ; ret (AGroup a)) r
  | None => (do t <- lex_token ; ret (AToken t)) s
  end.

(** [optional_argument]: never fails, but drops the input read when the group
    is not closed. (src/parser/lex.rs:42-50) *)
Definition optional_argument : lexer (option str) := fun s =>
  match strip_char 91 (trim_start s) with
  | Some r =>
      match group_content GKOptional r with
      | (Ok a, r') => (Ok (Some a), r')
      | (_, r') => (Ok None, r')
      end
  | None => (Ok None, s)
  end.

(** [brace_argument]. (src/parser/lex.rs:52-59) *)
Definition brace_argument : lexer str := fun s =>
  match strip_char 123 (trim_start s) with
  | Some r => group_content GKNormal r
  | None => (Err EGroupArgument, s)
  end.

(** [token_to_delim]. (src/parser/tables.rs:183-188) *)
Definition token_to_delim (t : token) : option (char * delim_type) :=
  match t with
  | TCs cs => control_sequence_delimiter_map cs
  | TChr ctx => char_delimiter_map (ctx_char ctx)
  end.

(** [delimiter]. (src/parser/lex.rs:145-148) *)
Definition lex_delimiter : lexer (char * delim_type) :=
  do t <- lex_token ;
  match token_to_delim t with Some d => ret d | None => fail EDelimiter end.

(** ** Definitions *)

(** First of the two characters the parameter text may not contain.
    (src/parser/lex.rs:17-23) *)
Fixpoint bad_param_char (s : str) : option char :=
  match s with
  | [] => None
  | c :: s' => if (c =? 37) || (c =? 125) then Some c else bad_param_char s'
  end.

(** [definition]: name, parameter text, replacement text. (src/parser/lex.rs:13-29) *)
Definition lex_definition : lexer (str * str * str) :=
  do cs <- control_sequence ;
  do s <- get ;
  match split_once_char 123 s with
  | None => fail EMissingExpansion
  | Some (ptext, rest) =>
      match bad_param_char ptext with
      | Some c => fail (if c =? 37 then ECommentInParamText else EBracesInParamText)
      | None =>
          put rest ;;
          do rep <- group_content GKNormal ;
          ret (cs, ptext, rep)
      end
  end.

(** [futurelet_assignment]: name, second token, the text before both tokens.
    (src/parser/lex.rs:154-162) *)
Definition futurelet_assignment : lexer (str * token * str) :=
  do cs <- control_sequence ;
  do before <- get ;
  do _ <- lex_token ;
  do t <- lex_token ;
  ret (cs, t, before).

(** [let_assignment]. (src/parser/lex.rs:167-174) *)
Definition let_assignment : lexer (str * token) :=
  do cs <- control_sequence ;
  do s <- get ;
  match strip_char 61 (trim_start s) with Some r => put r | None => ret tt end ;;
  do t <- lex_token ;
  ret (cs, t).

(** ** Repeated keywords *)

(** The loop of [limit_modifiers]; every round removes at least seven
    characters, so the length of the text bounds the rounds.
    (src/parser/lex.rs:191-208) *)
Fixpoint limit_loop (fuel : nat) (out : option bool) (s : str) : option bool * str :=
  match fuel with
  | O => (out, s)
  | S f =>
      match strip_prefix (lit "\limits") (trim_start s) with
      | Some r => limit_loop f (Some true) r
      | None =>
          match strip_prefix (lit "\nolimits") (trim_start s) with
          | Some r => limit_loop f (Some false) r
          | None => (out, s)
          end
      end
  end.

(** [limit_modifiers]. (src/parser/lex.rs:191-208) *)
Definition limit_modifiers : lexer (option bool) := fun s =>
  let (o, r) := limit_loop (S (length s)) None s in (Ok o, r).

(** The loop of [horizontal_lines]. (src/parser/lex.rs:502-520) *)
Fixpoint hlines_loop (fuel : nat) (s : str) : list line * str :=
  match fuel with
  | O => ([], s)
  | S f =>
      match strip_prefix (lit "\hline") (trim_start s) with
      | Some r => let (ls, r') := hlines_loop f r in (LSolid :: ls, r')
      | None =>
          match strip_prefix (lit "\hdashline") (trim_start s) with
          | Some r => let (ls, r') := hlines_loop f r in (LDashed :: ls, r')
          | None => ([], s)
          end
      end
  end.

(** [horizontal_lines]. (src/parser/lex.rs:502-520) *)
Definition horizontal_lines : lexer (list line) := fun s =>
  let (ls, r) := hlines_loop (S (length s)) s in (Ok ls, r).

(** ** Numbers *)

(** [one_optional_space]: removes one byte after having seen a white space
    character, which panics when that character is longer.
    (src/parser/lex.rs:450-458) *)
Definition one_optional_space : lexer bool := fun s =>
  match s with
  | [] => (Ok false, s)
  | c :: s' =>
      if is_ws c then (if clen c =? 1 then (Ok true, s') else (Panic PBoundary, s))
      else (Ok false, s)
  end.

(** [number * base + digit] on [usize], along a list of digits; [None] on overflow. *)
Fixpoint fold_digits (base acc : N) (ds : list N) : option N :=
  match ds with
  | [] => Some acc
  | d :: ds' =>
      let v := acc * base + d in
      if v <? usize_limit then fold_digits base v ds' else None
  end.

Definition digit_val (c : char) : N := c - 48.

(** [char::to_digit(16)] on the characters [hexadecimal] accepts. *)
Definition hex_val (c : char) : N := if is_digit c then c - 48 else c - 55.

(** The characters read by [hexadecimal]: ASCII alphanumeric and below 'G'.
    (src/parser/lex.rs:372) *)
Definition is_hex_upper (c : char) : bool :=
  (is_digit c || is_alpha c) && (c <? 71).

(** Reads the longest run of digits of a base; then one optional space.
    Shared by [decimal], [octal] and [hexadecimal]. (src/parser/lex.rs:369-447) *)
Definition number_run (f : char -> bool) (val : char -> N) (base : N) : lexer N := fun s =>
  let (ds, r) := span_while f s in
  match fold_digits base 0 (map val ds) with
  | None => (Panic POverflow, r)
  | Some n => (do _ <- one_optional_space ; ret n) r
  end.

(** [decimal]. (src/parser/lex.rs:418-431) *)
Definition decimal : lexer N := number_run is_digit digit_val 10.
(** [octal]: reads every decimal digit. (src/parser/lex.rs:434-447) *)
Definition octal : lexer N := number_run is_digit digit_val 8.
(** [hexadecimal]. (src/parser/lex.rs:369-383) *)
Definition hexadecimal : lexer N := number_run is_hex_upper hex_val 16.

(** [unsigned_integer]. (src/parser/lex.rs:325-350) *)
Definition unsigned_integer : lexer N := fun s =>
  match s with
  | [] => (Err ENumber, s)
  | c :: s1 =>
      if is_digit c then decimal s
      else if negb (clen c =? 1) then (Panic PBoundary, s)
      else if c =? 96 then
        match s1 with
        | [] => (Err ENumber, s1)
        | b :: s2 =>
            if b =? 92 then
              match s2 with
              | [] => (Err ENumber, s2)
              | b' :: s3 => if b' <? 128 then (Ok b', s3) else (Err ECharacterNumber, s2)
              end
            else if b <? 128 then (Ok b, s2) else (Err ECharacterNumber, s1)
        end
      else if c =? 39 then octal s1
      else if c =? 34 then hexadecimal s1
      else (Err ENumber, s1)
  end.

Definition is_sign (c : char) : bool := (c =? 45) || (c =? 43) || is_ws c.

(** [signs]: [true] when the number of minus signs is odd. (src/parser/lex.rs:353-366) *)
Definition signs : lexer bool := fun s =>
  let (a, b) := span_while is_sign s in
  (Ok (Nat.odd (length (filter (fun c => c =? 45) a))), trim_start b).

(** Digits accumulated in [f32]. (src/parser/lex.rs:389-397, 400-410) *)
Definition f32_digits (ds : str) : f32 :=
  fold_left (fun n c => f32_add (f32_mul n (f32_of_Z 10)) (f32_of_Z (Z.of_N (digit_val c))))
            ds (S754_zero false).

Definition f32_pow10 (ds : str) : f32 :=
  fold_left (fun n _ => f32_mul n (f32_of_Z 10)) ds (f32_of_Z 1).

(** [floating_point]. (src/parser/lex.rs:386-415) *)
Definition floating_point : lexer f32 :=
  do neg <- signs ;
  do s <- get ;
  let (ds, r) := span_while is_digit s in
  let number := f32_digits ds in
  let signum := f32_of_Z (if neg then (-1)%Z else 1%Z) in
  match r with
  | c :: r1 =>
      if (c =? 46) || (c =? 44) then
        let (fs, r2) := span_while is_digit r1 in
        put r2 ;;
        ret (f32_mul signum (f32_add number (f32_div (f32_digits fs) (f32_pow10 fs))))
      else put r ;; ret (f32_mul signum number)
  | [] => put r ;; ret (f32_mul signum number)
  end.

(** The unit names. (src/parser/lex.rs:291-305) *)
Definition unit_table : list (str * dim_unit) := [
  (lit "em", UEm); (lit "ex", UEx); (lit "pt", UPt); (lit "pc", UPc); (lit "in", UIn);
  (lit "bp", UBp); (lit "cm", UCm); (lit "mm", UMm); (lit "dd", UDd); (lit "cc", UCc);
  (lit "sp", USp); (lit "mu", UMu)].

(** [dimension_unit]. Two bytes are looked at; units are ASCII, so two
    characters. (src/parser/lex.rs:288-311) *)
Definition dimension_unit : lexer dim_unit := fun s =>
  let t := trim_start s in
  match t with
  | a :: b :: r =>
      match assoc_str [a; b] unit_table with
      | Some u => (do _ <- one_optional_space ; ret u) r
      | None => (Err EDimensionUnit, t)
      end
  | _ => (Err EDimensionUnit, t)
  end.

(** [dimension]. (src/parser/lex.rs:264-268) *)
Definition lex_dimension : lexer dimension :=
  do v <- floating_point ; do u <- dimension_unit ; ret (mkDim v u).

(** [Glue]. (src/event.rs:717) *)
Definition glue := (dimension * option dimension * option dimension)%type.

Definition glue_part (kw : str) : lexer (option dimension) :=
  do s <- get ;
  match strip_prefix kw (trim_start s) with
  | Some r => put r ;; do d <- lex_dimension ; ret (Some d)
  | None => ret None
  end.

(** [glue]. (src/parser/lex.rs:232-243) *)
Definition lex_glue : lexer glue :=
  do d <- lex_dimension ;
  do p <- glue_part (lit "plus") ;
  do m <- glue_part (lit "minus") ;
  ret (d, p, m).

(** Runs a lexer on a separate text, keeping the current one: the code's
    [lexer(&mut inner)] on a local string. *)
Definition run_on {A} (l : lexer A) (inner : str) : lexer (A * str) := fun s =>
  match l inner with
  | (Ok a, r) => (Ok (a, r), s)
  | (Err e, _) => (Err e, s)
  | (Panic p, _) => (Panic p, s)
  | (Fuel, _) => (Fuel, s)
  end.

(** [dimension_or_braced] and [glue_or_braced]. (src/parser/lex.rs:249-285) *)
Definition or_braced {A} (l : lexer A) : lexer A :=
  do s <- get ;
  match strip_char 123 (trim_start s) with
  | Some _ =>
      do inner <- brace_argument ;
      do r <- run_on l inner ;
      if is_nil (trim_start (snd r)) then ret (fst r) else fail EDimensionArgument
  | None => l
  end.

Definition dimension_or_braced : lexer dimension := or_braced lex_dimension.
Definition glue_or_braced : lexer glue := or_braced lex_glue.

(** ** Colours *)

Definition hex_digit (c : char) : option N :=
  if is_digit c then Some (c - 48)
  else if (65 <=? c) && (c <=? 70) then Some (c - 55)
  else if (97 <=? c) && (c <=? 102) then Some (c - 87)
  else None.

Fixpoint hex_digits (acc : N) (s : str) : option N :=
  match s with
  | [] => Some acc
  | c :: s' => match hex_digit c with Some d => hex_digits (acc * 16 + d) s' | None => None end
  end.

(** [u8::from_str_radix(s, 16)] on a string of two bytes: a plus sign is
    accepted before the digits. (src/parser/lex.rs:489) *)
Definition u8_from_hex (s : str) : option N :=
  match s with
  | [] => None
  | c :: [] => hex_digit c
  | c :: s' => if c =? 43 then hex_digits 0 s' else hex_digits 0 s
  end.

(** [color]; byte slicing may panic. (src/parser/lex.rs:486-500) *)
Definition lex_color (s : str) : res (option rgb) :=
  match strip_char 35 s with
  | Some h =>
      if blen h =? 6 then
        match split_bytes 2 h with
        | None => Panic PBoundary
        | Some (a, h1) =>
            match u8_from_hex a with
            | None => Ok None
            | Some r =>
                match split_bytes 2 h1 with
                | None => Panic PBoundary
                | Some (b, h2) =>
                    match u8_from_hex b with
                    | None => Ok None
                    | Some g =>
                        match u8_from_hex h2 with
                        | None => Ok None
                        | Some bl => Ok (Some (r, g, bl))
                        end
                    end
                end
            end
        end
      else Ok None
  | None =>
      match dvipsnames_color s with
      | Some c => Ok (Some c)
      | None => Ok (primitive_color s)
      end
  end.

(** [str::parse::<u8>]: an optional plus sign, digits, at most 255.
    (src/parser/primitives.rs:2252-2254) *)
Fixpoint dec_digits (acc : N) (s : str) : option N :=
  match s with
  | [] => Some acc
  | c :: s' => if is_digit c then let v := acc * 10 + digit_val c in
                 if v <? 256 then dec_digits v s' else None
               else None
  end.

Definition parse_u8 (s : str) : option N :=
  match s with
  | [] => None
  | c :: s' => if c =? 43 then (if is_nil s' then None else dec_digits 0 s') else dec_digits 0 s
  end.
