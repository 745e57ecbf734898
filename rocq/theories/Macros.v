(** * Macros: src/parser/macros.rs. *)

From Coq Require Import List NArith Bool.
From Verif Require Import Base Float32 Event Tables Lex.
Import ListNotations.
Open Scope N_scope.
Open Scope sm_scope.

(** [ReplacementToken]. (src/parser/macros.rs:369-373) *)
Inductive rtoken := RParam (n : N) | RStr (s : str).

(** [Definition], with [MacroDef] and [CommandDef] inlined.
    (src/parser/macros.rs:351-380) *)
Inductive mdef :=
| MDMacro (prefix : option str) (params : list (option str)) (last_brace : bool)
          (rep : list rtoken)
| MDAlias (t : token)
| MDCommand (argc : N) (default : option str) (rep : list rtoken).

(** [MacroContext]: a [HashMap], here an association list with the newest
    binding first. (src/parser/macros.rs:7-10) *)
Definition macro_ctx := list (str * mdef).

Definition ctx_get (m : macro_ctx) (name : str) : option mdef := assoc_str name m.
(** [contains]. (src/parser/macros.rs:89-91) *)
Definition ctx_contains (m : macro_ctx) (name : str) : bool :=
  match ctx_get m name with Some _ => true | None => false end.
Definition ctx_insert (m : macro_ctx) (name : str) (d : mdef) : macro_ctx := (name, d) :: m.

(** [assign]. (src/parser/macros.rs:94-96) Of a character only the character itself is
    kept: the text that follows it, which the token also carries, is never used. *)
Definition alias (t : token) : mdef := MDAlias (match t with TChr ctx => TChr [ctx_char ctx] | TCs cs => TCs cs end).

(** [str::split] on a character: always at least one piece. (src/parser/macros.rs:42) *)
Fixpoint split_char (c : char) (s : str) : list str :=
  match s with
  | [] => [[]]
  | x :: s' =>
      let r := split_char c s' in
      if x =? c then [] :: r
      else match r with p :: ps => (x :: p) :: ps | [] => [[x]] end
  end.

(** [str::split_inclusive] on a character: the separator ends the pieces; the
    empty text has no piece. (src/parser/macros.rs:239) *)
Fixpoint split_incl (c : char) (s : str) : list str :=
  match s with
  | [] => []
  | x :: s' =>
      if x =? c then [x] :: split_incl c s'
      else match split_incl c s' with p :: ps => (x :: p) :: ps | [] => [[x]] end
  end.

(** The loop of [parse_replacement_text]; [cur] is the current piece, which may
    have lost the digit of the parameter before it. (src/parser/macros.rs:242-299) *)
Fixpoint rep_loop (count : N) (cur : str) (rest : list str) : res (list rtoken) :=
  match rest with
  | [] =>
      if is_nil cur then Ok []
      else if ends_with_char 35 cur then Err EStandaloneHashSign
      else Ok [RStr cur]
  | next :: rest' =>
      match next with
      | [] => Panic PExpect
      | fc :: ntail =>
          if fc =? 35 then
            match rest' with
            | [] => Ok [RStr cur]
            | n2 :: rest'' =>
                match rep_loop count n2 rest'' with
                | Ok l => Ok (RStr cur :: l)
                | r => r
                end
            end
          else if is_digit fc then
            let i := digit_val fc in
            if (count <? i) || (i =? 0) then Err (EIncorrectReplacementParams i count)
            else match rep_loop count ntail rest' with
                 | Ok l =>
                     if blen cur =? 1 then Ok (RParam i :: l)
                     else Ok (RStr (removelast cur) :: RParam i :: l)
                 | r => r
                 end
          else Err EStandaloneHashSign
      end
  end.

(** [parse_replacement_text]. (src/parser/macros.rs:235-303) *)
Definition parse_replacement (rep : str) (count : N) : res (list rtoken) :=
  match split_incl 35 rep with
  | [] => Ok []
  | cur :: rest => rep_loop count cur rest
  end.

Definition opt_str (s : str) : option str := if is_nil s then None else Some s.

(** The parameters after the prefix, numbered from [i]. (src/parser/macros.rs:56-73) *)
Fixpoint parse_params (i : N) (pieces : list str) : res (list (option str)) :=
  match pieces with
  | [] => Ok []
  | p :: ps =>
      match p with
      | [] => Err EStandaloneHashSign
      | c :: suf =>
          if is_digit c then
            if digit_val c =? i then
              match parse_params (i + 1) ps with
              | Ok l => Ok (opt_str suf :: l)
              | r => r
              end
            else Err (EIncorrectMacroParams (digit_val c) i)
          else Err EStandaloneHashSign
      end
  end.

(** [define]. (src/parser/macros.rs:28-87) *)
Definition make_macro (ptext rep : str) : res mdef :=
  let last_brace := ends_with_char 35 ptext in
  let ptext := if last_brace then removelast ptext else ptext in
  match split_char 35 ptext with
  | [] => Panic PExpect
  | prefix :: pieces =>
      match parse_params 1 pieces with
      | Ok params =>
          match parse_replacement rep (N.of_nat (length params)) with
          | Ok r => Ok (MDMacro (opt_str prefix) params last_brace r)
          | Err e => Err e | Panic p => Panic p | Fuel => Fuel
          end
      | Err e => Err e | Panic p => Panic p | Fuel => Fuel
      end
  end.

(** [insert_command]. (src/parser/macros.rs:100-117) *)
Definition make_command (argc : N) (default : option str) (rep : str) : res mdef :=
  match parse_replacement rep argc with
  | Ok r => Ok (MDCommand argc default r)
  | Err e => Err e | Panic p => Panic p | Fuel => Fuel
  end.

(** [Result<Argument, &str>]: a regular argument or raw text.
    (src/parser/macros.rs:155, 308) *)
Inductive rarg := RArg (a : argument) | RRaw (s : str).

(** What a parameter is replaced by. (src/parser/macros.rs:316-332) *)
Definition arg_text (a : rarg) : str :=
  match a with
  | RArg (AToken (TChr ctx)) => [ctx_char ctx]
  | RArg (AToken (TCs cs)) => 92 :: cs
  | RArg (AGroup g) => (123 :: g ++ [125])%list
  | RRaw s => s
  end.

(** [expand_replacement] without the trailing rest of the input; [None]: index
    out of range. (src/parser/macros.rs:305-343) *)
Fixpoint expand_rep (args : list rarg) (rep : list rtoken) : option str :=
  match rep with
  | [] => Some []
  | t :: rep' =>
      match expand_rep args rep' with
      | None => None
      | Some r =>
          match t with
          | RStr s => Some (s ++ r)%list
          | RParam i =>
              match nth_error args (N.to_nat (i - 1)) with
              | Some a => Some (arg_text a ++ r)%list
              | None => None
              end
          end
      end
  end.

(** The arguments of a [\def] macro. (src/parser/macros.rs:157-181) *)
Fixpoint macro_args (last_brace : bool) (params : list (option str)) : lexer (list rarg) :=
  match params with
  | [] => ret []
  | p :: ps =>
      if is_nil ps && last_brace then
        do s <- get ;
        match split_once_str (match p with Some suf => suf ++ [123] | None => [123] end)%list s with
        | None => fail EMacroSuffixNotFound
        | Some (before, _) =>
            put (skipn (length before) s) ;;
            ret [RRaw before]
        end
      else
        do a <- match p with
                | None => do a <- lex_argument ; ret (RArg a)
                | Some suf => do t <- content_with_suffix suf ; ret (RRaw t)
                end ;
        do l <- macro_args last_brace ps ;
        ret (a :: l)
  end.

(** [n] times [lex::argument]. (src/parser/macros.rs:221-224) *)
Fixpoint n_args (n : nat) : lexer (list rarg) :=
  match n with
  | O => ret []
  | S n' => do a <- lex_argument ; do l <- n_args n' ; ret (RArg a :: l)
  end.

(** Reads the arguments of a definition and gives the text that replaces the
    call (without the rest of the input). (src/parser/macros.rs:135-232) *)
Definition expand_call (d : mdef) : lexer str :=
  match d with
  | MDMacro prefix params last_brace rep =>
      do s <- get ;
      match prefix with
      | None => ret tt
      | Some p =>
          match strip_prefix p s with Some r => put r | None => fail EIncorrectMacroPrefix end
      end ;;
      do args <- macro_args last_brace params ;
      match expand_rep args rep with Some t => ret t | None => panic_with PIndex end
  | MDAlias (TChr ctx) => ret [ctx_char ctx]
  | MDAlias (TCs cs) => ret (92 :: cs)
  | MDCommand argc default rep =>
      do first <- match default with
                  | None => ret []
                  | Some d =>
                      do o <- optional_argument ;
                      ret [RArg (AGroup (match o with Some a => a | None => d end))]
                  end ;
      let ndef := match default with None => 0 | Some _ => 1 end in
      if argc <? ndef then panic_with POverflow
      else
        do l <- n_args (N.to_nat (argc - ndef)) ;
        match expand_rep (first ++ l)%list rep with
        | Some t => ret t
        | None => panic_with PIndex
        end
  end.

(** [expand_definition_in]: the full expanded text, which includes the rest of
    the input, and the number of bytes of the input consumed.
    (src/parser/macros.rs:135-232) *)
Definition expand_definition (d : mdef) (input_rest : str) : res (str * N) :=
  match expand_call d input_rest with
  | (Ok t, r) => Ok ((t ++ r)%list, blen input_rest - blen r)
  | (Err e, _) => Err e
  | (Panic p, _) => Panic p
  | (Fuel, _) => Fuel
  end.
