(** * Spans: [SpanStack] of src/parser.rs and src/parser/error.rs. *)

From Coq Require Import List NArith ZArith Bool.
From Verif Require Import Base Float32 Event.
Import ListNotations.
Open Scope N_scope.

(** ** UTF-8 *)

(** The bytes of a character ([char::encode_utf8]). *)
Definition utf8_char (c : char) : list N :=
  if c <? 128 then [c]
  else if c <? 2048 then [192 + c / 64; 128 + c mod 64]
  else if c <? 65536 then [224 + c / 4096; 128 + c / 64 mod 64; 128 + c mod 64]
  else [240 + c / 262144; 128 + c / 4096 mod 64; 128 + c / 64 mod 64; 128 + c mod 64].

(** [str::as_bytes]. (src/parser/error.rs:250) *)
Definition utf8 (s : str) : list N := flat_map utf8_char s.

(** [(b as i8) >= -0x40]: the byte starts a character. (src/parser/error.rs:252) *)
Definition starts_char (b : N) : bool := (b <? 128) || (192 <=? b).

(** [Iterator::rposition]. (src/parser/error.rs:250) *)
Fixpoint rposition (f : N -> bool) (l : list N) : option N :=
  match l with
  | [] => None
  | b :: l' =>
      match rposition f l' with
      | Some i => Some (i + 1)
      | None => if f b then Some 0 else None
      end
  end.

(** [floor_char_boundary]; [None] stands for the undefined behaviour of
    [unwrap_unchecked]. (src/parser/error.rs:245-258) *)
Definition floor_char_boundary (s : str) (index : N) : option N :=
  if blen s <=? index then Some (blen s)
  else
    let lower := index - 3 in
    let window := firstn (N.to_nat (index + 1 - lower)) (skipn (N.to_nat lower) (utf8 s)) in
    match rposition starts_char window with
    | Some i => Some (lower + i)
    | None => None
    end.

(** ** The stack of expansions *)

(** [ExpansionSpan]. (src/parser.rs:513-527) *)
Record espan := mkSpan {
  x_full : slice;      (* full_expansion, a whole allocation *)
  x_len : N;           (* expansion_length *)
  x_start : N;         (* call_site_in_origin.start *)
  x_end : N            (* call_site_in_origin.end *)
}.

(** [SpanStack]; the newest expansion first. (src/parser.rs:451-459) *)
Record spans := mkSpans {
  s_input : str;       (* input: allocation 0 *)
  s_exp : list espan;  (* expansions *)
  s_total : N          (* total_expansion_bytes *)
}.

(** The pointer lies in the allocation, its end included. Pointers are compared
    by address in the code; here two different allocations never contain a
    common address. (src/parser.rs:491-492) *)
Definition ptr_in (p full : slice) : bool :=
  (sbase p =? sbase full) && (soff p <=? blen (stxt full)).

(** The loop of [reach_original_call_site]. (src/parser.rs:488-497) *)
Fixpoint reach (p : slice) (l : list espan) : option N * list espan :=
  match l with
  | [] => (None, [])
  | x :: l' => if ptr_in p (x_full x) then (Some (soff p), l) else reach p l'
  end.

(** [reach_original_call_site]. (src/parser.rs:485-502) *)
Definition reach_original_call_site (p : slice) (s : spans) : res N * spans :=
  match reach p (s_exp s) with
  | (Some i, l) => (Ok i, mkSpans (s_input s) l (s_total s))
  | (None, l) =>
      let s' := mkSpans (s_input s) l (s_total s) in
      if ptr_in p (mkSlice 0 0 (s_input s)) then (Ok (soff p), s') else (Panic PAssert, s')
  end.

Definition usize_mod : N := 18446744073709551616.

(** [add]; the expansion length is computed on [isize] and converted back.
    (src/parser.rs:470-481) *)
Definition add_span (full call_site : slice) (call_len : N) (s : spans) : res unit * spans :=
  match reach_original_call_site call_site s with
  | (Ok i, s') =>
      let elen := Z.to_N ((Z.of_N call_len - (Z.of_N (blen (stxt call_site)) - Z.of_N (blen (stxt full))))
                          mod (Z.of_N usize_mod))%Z in
      (Ok tt, mkSpans (s_input s') (mkSpan full elen i (i + call_len) :: s_exp s') (s_total s'))
  | (Err e, s') => (Err e, s')
  | (Panic p, s') => (Panic p, s')
  | (Fuel, s') => (Fuel, s')
  end.

(** ** Error context *)

(** [&s[lo..hi]]; [None]: panic. (src/parser/error.rs:64, 81) *)
Definition byte_range (lo hi : N) (s : str) : option str :=
  if hi <? lo then None
  else match split_bytes lo s with
       | None => None
       | Some (_, r) =>
           match split_bytes (hi - lo) r with Some (a, _) => Some a | None => None end
       end.

(** One line without its terminator. *)
Definition chomp (l : str) : str :=
  if ends_with_char 10 l then
    let l := removelast l in
    if ends_with_char 13 l then removelast l else l
  else l.

Fixpoint lines_of (s : str) : list str :=
  match s with
  | [] => []
  | c :: s' =>
      if c =? 10 then [c] :: lines_of s'
      else match lines_of s' with p :: ps => (c :: p) :: ps | [] => [[c]] end
  end.

(** [str::lines]. (src/parser/error.rs:99) *)
Definition str_lines (s : str) : list str := map chomp (lines_of s).

(** [write_context_str]. (src/parser/error.rs:97-126) *)
Definition context_str (ctx : str) (final prev : bool) : str :=
  let ls := str_lines ctx in
  let last_len := N.to_nat (blen (last ls [])) in
  ([9474; 10]
   ++ match ls with
      | [] => []
      | l :: ls' =>
          [9474; if prev then 8230 else 32] ++ l ++ [10]
          ++ flat_map (fun l => [9474; 32] ++ l ++ [10]) ls'
      end
   ++ [9474; 32] ++ repeat 94 last_len ++ [10]
   ++ if final then [9584; 9472] ++ repeat 9472 last_len else [9500])%list.

Definition context_size : N := 12.
Definition context_prefix : str := ([9581; 9472; 9658] ++ lit " context:" ++ [10])%list.
Definition expansion_prefix : str :=
  ([9472; 9658] ++ lit " which was expanded from:" ++ [10])%list.

Definition is_nonzero (n : N) : bool := negb (n =? 0).

(** The loop over the expansions. (src/parser/error.rs:45-79) *)
Fixpoint context_loop (input : str) (lo hi : N) (l : list espan) : res str :=
  match l with
  | [] =>
      match byte_range lo hi input with
      | Some t => Ok (context_str t true (is_nonzero lo))
      | None => Panic PBoundary
      end
  | x :: l' =>
      let nxt := match l' with y :: _ => stxt (x_full y) | [] => input end in
      if x_len x <? lo then
        match floor_char_boundary nxt (lo + x_start x),
              floor_char_boundary nxt (N.min (x_end x + hi) (blen nxt)) with
        | Some lo', Some hi' => context_loop input lo' hi' l'
        | _, _ => Panic PInternal
        end
      else
        match byte_range lo hi (stxt (x_full x)) with
        | None => Panic PBoundary
        | Some t =>
            match floor_char_boundary nxt (x_start x - context_size),
                  floor_char_boundary nxt (x_end x + context_size) with
            | Some lo', Some hi' =>
                match context_loop input lo' hi' l' with
                | Ok r => Ok (context_str t false (is_nonzero lo) ++ expansion_prefix ++ r)%list
                | r => r
                end
            | _, _ => Panic PInternal
            end
        end
  end.

(** [ParserError]. (src/parser/error.rs:14-23) *)
Record parser_error := mkError { pe_kind : error; pe_context : str }.

(** [ParserError::new]. (src/parser/error.rs:26-94) *)
Definition new_error (e : error) (place : slice) (s : spans) : res parser_error * spans :=
  match reach_original_call_site place s with
  | (Ok i, s') =>
      let first := match s_exp s' with x :: _ => stxt (x_full x) | [] => s_input s' end in
      match floor_char_boundary first (i - context_size),
            floor_char_boundary first (i + context_size) with
      | Some lo, Some hi =>
          match context_loop (s_input s') lo hi (s_exp s') with
          | Ok t => (Ok (mkError e (context_prefix ++ t)%list), s')
          | Err x => (Err x, s')
          | Panic p => (Panic p, s')
          | Fuel => (Fuel, s')
          end
      | _, _ => (Panic PInternal, s')
      end
  | (Err x, s') => (Err x, s')
  | (Panic p, s') => (Panic p, s')
  | (Fuel, s') => (Fuel, s')
  end.

(** Decimal digits of a small number ([Display for u8]). *)
Fixpoint n_dec_fuel (fuel : nat) (n : N) : str :=
  match fuel with
  | O => []
  | S f => if n <? 10 then [48 + n] else (n_dec_fuel f (n / 10) ++ [48 + n mod 10])%list
  end.
Definition n_dec (n : N) : str := n_dec_fuel 20 n.

(** [Display for ErrorKind]. (src/parser/error.rs:188-241) *)
Definition error_message (e : error) : str :=
  match e with
  | EUnbalancedGroup (Some k) =>
      (lit "unbalanced group found, expected it to be closed with `" ++ closing_str k ++ lit "`")%list
  | EUnbalancedGroup None => lit "unbalanced group found, unexpected group closing found"
  | EEnvironment => lit "unkown mathematical environment found"
  | EMathShift => lit "unexpected math `$` (math shift) character - this character cannot be used inside math mode"
  | EHashSign => lit "unexpected hash sign `#` character - this character can only be used in macro definitions"
  | EMathUnit => lit "expected mathematical units (mu) in dimension specification"
  | EDelimiter => lit "expected a delimiter token"
  | EControlSequence => lit "expected a control sequence"
  | ENumber => lit "expected a number"
  | ECharacterNumber => lit "expected a character representing a number after '`'. found a non ascii character"
  | EArgument => lit "expected an argument"
  | EGroupArgument => lit "expected an argument delimited by `{{}}`"
  | EDoubleSubscript => lit "trying to add a subscript twice to the same element"
  | EDoubleSuperscript => lit "trying to add a superscript twice to the same element"
  | EUnknownPrimitive => lit "unknown primitive command found"
  | EControlSequenceAsArgument => lit "control sequence found as argument to a command that does not support them"
  | EScriptAsArgument => lit "subscript and/or superscript found as argument to a command"
  | EEmptyControlSequence => lit "empty control sequence"
  | EUnknownColor => lit "unkown color. colors must either be predefined or in the form `#RRGGBB`"
  | EInvalidCharNumber => lit "expected a number in the range 0..=255 for it to be translated into a character"
  | ERelax => lit "cannot use the `\relax` command in this context"
  | EBracesInParamText => lit "macro definition of parameters contains '{{' or '}}'"
  | ECommentInParamText => lit "macro definition of parameters contains a (`%`) comment"
  | EIncorrectMacroParams f e =>
      (lit "macro definition found parameter #" ++ n_dec f ++ lit " but expected #" ++ n_dec e)%list
  | EIncorrectReplacementParams f e =>
      (lit "macro definition found parameter #" ++ n_dec f
       ++ lit " but expected a parameter in the range [1, " ++ n_dec e ++ lit "]")%list
  | ETooManyParams => lit "macro definition contains too many parameters, the maximum is 9"
  | EStandaloneHashSign => lit "macro definition contains a standalone '#'"
  | EIncorrectMacroPrefix => lit "macro use does not match its definition, expected it to begin with a prefix string as specified in the definition"
  | EMacroSuffixNotFound => lit "macro use does not match its definition, expected its argument(s) to end with a suffix string as specified in the definition"
  | EMacroAlreadyDefined => lit "macro already defined"
  | EMacroNotDefined => lit "macro not defined"
  | EDimensionArgument => lit "expected a dimension or glue argument"
  | EDimensionUnit => lit "expected a dimensional unit"
  | EAlignment => lit "alignment not allowed in current environment"
  | ENewLine => lit "new line command not allowed in current environment"
  | EArrayNoColumns => lit "array must have at least one column of the type `c`, `l` or `r`"
  | EMissingExpansion => lit "The macro definition is missing an expansion"
  | EMacroRecursionLimit => lit "macro expansion depth limit exceeded (possible infinite recursion)"
  | EToken => lit "expected a token"
  end.

(** [Display for ParserError]. (src/parser/error.rs:134-142) *)
Definition error_display (e : parser_error) : str :=
  (lit "parsing error: " ++ error_message (pe_kind e) ++ [10] ++ pe_context e)%list.
