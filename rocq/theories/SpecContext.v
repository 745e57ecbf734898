(** * SpecContext: what the message of an error shows of the input.

    Written from the documentation of the error type; it uses nothing of the
    model but the type of texts and the kinds of errors. *)

From Coq Require Import Ascii String List NArith Bool.
From Verif Require Import Base Event.
Import ListNotations.
Open Scope N_scope.
Open Scope list_scope.

(** [l'] is [l] without the carriage return at its end, if there is one. *)
Definition return_cut (l l' : str) : Prop := l = l' ++ [13] \/ (l = l' /\ forall x, l <> x ++ [13]).

(** The lines of a text. A newline ends a line; what follows the last newline is
    a line if there is something. *)
Inductive text_lines : str -> list str -> Prop :=
| TL_nothing : text_lines [] []
| TL_last : forall l, l <> [] -> ~ In 10 l -> text_lines l [l]
| TL_more : forall l l' r ls, ~ In 10 l -> return_cut l l' -> text_lines r ls -> text_lines (l ++ 10 :: r) (l' :: ls).

(** Rows put below each other. *)
Fixpoint stacked (rows : list str) : str :=
  match rows with [] => [] | [r] => r | r :: rows' => r ++ 10 :: stacked rows' end.

(** The characters of the frame: a vertical bar, an ellipsis, the corners, a
    horizontal bar. *)
Definition bar : char := 9474.
Definition ellipsis : char := 8230.
Definition corner : char := 9584.
Definition dash : char := 9472.
Definition title : str := [9581; 9472; 9658] ++ lit " context:".

(** The first line comes after an ellipsis if the text before it is left out. *)
Definition quoted (cut : bool) (ls : list str) : list str :=
  match ls with
  | [] => []
  | l :: ls' => (bar :: (if cut then ellipsis else 32) :: l) :: map (fun l => bar :: 32 :: l) ls'
  end.

(** The frame around the quoted lines; the last line is underlined. *)
Definition framed (cut : bool) (ls : list str) : str :=
  let n := N.to_nat (blen (last ls [])) in
  stacked ([title; [bar]] ++ quoted cut ls ++ [bar :: 32 :: repeat 94 n; corner :: dash :: repeat dash n]).

(** The words by which the message of an error tells what is wrong. *)
Definition tells (e : error) : list str :=
  match e with
  | EUnbalancedGroup (Some k) => [lit "unbalanced group"; lit "closed with `" ++ closing_str k ++ lit "`"]
  | EUnbalancedGroup None => [lit "unbalanced group"; lit "unexpected group closing"]
  | EEnvironment => [lit "environment"]
  | EMathShift => [lit "`$`"]
  | EHashSign => [lit "`#`"; lit "unexpected"]
  | EDimensionArgument => [lit "dimension"; lit "argument"]
  | EDimensionUnit => [lit "dimensional unit"]
  | EMathUnit => [lit "(mu)"; lit "dimension"]
  | EDelimiter => [lit "delimiter"]
  | EControlSequence => [lit "expected a control sequence"]
  | ENumber => [lit "expected a number"]
  | ECharacterNumber => [lit "character representing a number"; lit "`"]
  | EArgument => [lit "expected an argument"]
  | EGroupArgument => [lit "expected an argument delimited by"; lit "{"; lit "}"]
  | EDoubleSubscript => [lit "subscript twice"]
  | EDoubleSuperscript => [lit "superscript twice"]
  | EUnknownPrimitive => [lit "unknown"; lit "command"]
  | EControlSequenceAsArgument => [lit "control sequence found as argument"]
  | EScriptAsArgument => [lit "subscript"; lit "superscript"; lit "found as argument"]
  | EEmptyControlSequence => [lit "empty control sequence"]
  | EUnknownColor => [lit "color"]
  | EInvalidCharNumber => [lit "0..=255"]
  | ERelax => [lit "`\relax`"]
  | EBracesInParamText => [lit "parameters contains"; lit "{"; lit "}"]
  | ECommentInParamText => [lit "parameters contains"; lit "%"; lit "comment"]
  | EIncorrectMacroParams _ _ => [lit "found parameter #"; lit "but expected #"]
  | EIncorrectReplacementParams _ _ => [lit "found parameter #"; lit "in the range [1, "]
  | ETooManyParams => [lit "too many parameters"; lit "9"]
  | EStandaloneHashSign => [lit "standalone '#'"]
  | EIncorrectMacroPrefix => [lit "macro use"; lit "prefix"]
  | EMacroSuffixNotFound => [lit "macro use"; lit "suffix"]
  | EMacroAlreadyDefined => [lit "macro already defined"]
  | EMacroNotDefined => [lit "macro not defined"]
  | EAlignment => [lit "alignment not allowed"]
  | ENewLine => [lit "new line"; lit "not allowed"]
  | EArrayNoColumns => [lit "array"; lit "column"; lit "`c`, `l` or `r`"]
  | EMissingExpansion => [lit "missing an expansion"]
  | EMacroRecursionLimit => [lit "macro expansion depth limit"]
  | EToken => [lit "expected a token"]
  end.

(** The numbers in the message are bytes, as they are in the type of errors. *)
Definition small (e : error) : Prop := match e with EIncorrectMacroParams f x | EIncorrectReplacementParams f x => f < 256 /\ x < 256 | _ => True end.
