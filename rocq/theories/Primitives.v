(** * Primitives: src/parser/primitives.rs and [handle_argument] of src/parser.rs. *)

From Coq Require Import List NArith ZArith Bool.
From Verif Require Import Base Float32 Event Tables Prim PrimTable Lex Macros.
Import ListNotations.
Open Scope N_scope.
Open Scope sm_scope.

(** [Instruction], with [AlignmentCount] as the pair (count, max).
    (src/parser.rs:413-446) *)
Inductive instr :=
| IEv (e : event)
| ISub (content : slice) (align : option (N * N)).

(** What the primitives see of [InnerParser] and [ParserState].
    (src/parser.rs:185-193, src/parser/state.rs:6-27) *)
Record ist := mkIst {
  i_content : slice;              (* content *)
  i_buf : list instr;             (* buffer; pushed at the end *)
  i_allow : bool;                 (* allow_script_modifiers *)
  i_pos : script_pos;             (* script_position *)
  i_skip : bool;                  (* skip_scripts *)
  i_handling : bool;              (* handling_argument *)
  i_align : option (N * N);       (* allowed_alignment_count *)
  i_macros : macro_ctx            (* macro_context *)
}.

Definition set_content (c : slice) (s : ist) : ist :=
  mkIst c (i_buf s) (i_allow s) (i_pos s) (i_skip s) (i_handling s) (i_align s) (i_macros s).
Definition set_buf (b : list instr) (s : ist) : ist :=
  mkIst (i_content s) b (i_allow s) (i_pos s) (i_skip s) (i_handling s) (i_align s) (i_macros s).
Definition set_allow (b : bool) (s : ist) : ist :=
  mkIst (i_content s) (i_buf s) b (i_pos s) (i_skip s) (i_handling s) (i_align s) (i_macros s).
Definition set_pos (p : script_pos) (s : ist) : ist :=
  mkIst (i_content s) (i_buf s) (i_allow s) p (i_skip s) (i_handling s) (i_align s) (i_macros s).
Definition set_skip (b : bool) (s : ist) : ist :=
  mkIst (i_content s) (i_buf s) (i_allow s) (i_pos s) b (i_handling s) (i_align s) (i_macros s).
Definition set_handling (b : bool) (s : ist) : ist :=
  mkIst (i_content s) (i_buf s) (i_allow s) (i_pos s) (i_skip s) b (i_align s) (i_macros s).
Definition set_align (a : option (N * N)) (s : ist) : ist :=
  mkIst (i_content s) (i_buf s) (i_allow s) (i_pos s) (i_skip s) (i_handling s) a (i_macros s).
Definition set_macros (m : macro_ctx) (s : ist) : ist :=
  mkIst (i_content s) (i_buf s) (i_allow s) (i_pos s) (i_skip s) (i_handling s) (i_align s) m.

Definition P := SM ist.

(** [self.buffer.extend(...)]. *)
Definition push (l : list instr) : P unit := modify (fun s => set_buf (i_buf s ++ l)%list s).
Definition push_ev (e : event) : P unit := push [IEv e].

(** A lexer applied to [&mut self.content]. *)
Definition lexc {A} (l : lexer A) : P A := fun st =>
  let (r, rest) := l (stxt (i_content st)) in
  (r, set_content (suffix_slice (i_content st) rest) st).

(** Lifts a pure [Result]. *)
Definition lift {A} (r : res A) : P A := fun st => (r, st).

(** [Option::ok_or(...)?]. *)
Definition ok_or {A} (o : option A) (e : error) : P A :=
  match o with Some a => ret a | None => fail e end.

(** ** Arguments that keep their address *)

(** [Argument], the strings being slices. (src/parser.rs:407-411) *)
Inductive sarg := SGroup (g : slice) | SCs (cs : str) | SChr (ctx : slice).

(** [lex::argument] on a slice. (src/parser/lex.rs:32-40) *)
Definition arg_slice (sl : slice) : res sarg * slice :=
  match lex_argument (stxt sl) with
  | (Ok (AGroup g), r) => (Ok (SGroup (mid_slice sl g 1 r)), suffix_slice sl r)
  | (Ok (AToken (TCs cs)), r) => (Ok (SCs cs), suffix_slice sl r)
  | (Ok (AToken (TChr ctx)), r) => (Ok (SChr (suffix_slice sl ctx)), suffix_slice sl r)
  | (Err e, r) => (Err e, suffix_slice sl r)
  | (Panic p, r) => (Panic p, suffix_slice sl r)
  | (Fuel, r) => (Fuel, suffix_slice sl r)
  end.

Definition argc : P sarg := fun st =>
  let (r, sl) := arg_slice (i_content st) in (r, set_content sl st).

(** [lex::group_content] on [&mut self.content]. (src/parser/lex.rs:65-105) *)
Definition groupc (k : gkind) : P slice := fun st =>
  match group_content k (stxt (i_content st)) with
  | (Ok g, r) =>
      (Ok (mid_slice (i_content st) g (blen (closing_str k)) r),
       set_content (suffix_slice (i_content st) r) st)
  | (Err e, r) => (Err e, set_content (suffix_slice (i_content st) r) st)
  | (Panic p, r) => (Panic p, set_content (suffix_slice (i_content st) r) st)
  | (Fuel, r) => (Fuel, set_content (suffix_slice (i_content st) r) st)
  end.

(** [lex::optional_argument] on [&mut self.content]. (src/parser/lex.rs:42-50) *)
Definition optc : P (option slice) := fun st =>
  match optional_argument (stxt (i_content st)) with
  | (Ok (Some g), r) =>
      (Ok (Some (mid_slice (i_content st) g 1 r)),
       set_content (suffix_slice (i_content st) r) st)
  | (Ok None, r) => (Ok None, set_content (suffix_slice (i_content st) r) st)
  | (Err e, r) => (Err e, set_content (suffix_slice (i_content st) r) st)
  | (Panic p, r) => (Panic p, set_content (suffix_slice (i_content st) r) st)
  | (Fuel, r) => (Fuel, set_content (suffix_slice (i_content st) r) st)
  end.

(** [lex::brace_argument] on [&mut self.content]. (src/parser/lex.rs:52-59) *)
Definition bracec : P slice := fun st =>
  match brace_argument (stxt (i_content st)) with
  | (Ok g, r) =>
      (Ok (mid_slice (i_content st) g 1 r),
       set_content (suffix_slice (i_content st) r) st)
  | (Err e, r) => (Err e, set_content (suffix_slice (i_content st) r) st)
  | (Panic p, r) => (Panic p, set_content (suffix_slice (i_content st) r) st)
  | (Fuel, r) => (Fuel, set_content (suffix_slice (i_content st) r) st)
  end.

(** [let Argument::Group(x) = lex::argument(..)? else { return Err(e) }]. *)
Definition group_arg (e : error) : P str :=
  do a <- argc ;
  match a with SGroup g => ret (stxt g) | _ => fail e end.

(** A lexer on a local string; what it leaves is returned too. *)
Definition on_local {A} (l : lexer A) (t : str) : P (A * str) := fun st =>
  match l t with
  | (Ok a, r) => (Ok (a, r), st)
  | (Err e, _) => (Err e, st)
  | (Panic p, _) => (Panic p, st)
  | (Fuel, _) => (Fuel, st)
  end.

(** The token of an argument. *)
Definition sarg_token (a : sarg) : option token :=
  match a with
  | SCs cs => Some (TCs cs)
  | SChr ctx => Some (TChr (stxt ctx))
  | SGroup _ => None
  end.

(** ** Characters *)

(** The digits, dots and commas after the first digit. (src/parser/primitives.rs:95) *)
Definition is_numeral (c : char) : bool := (c =? 46) || (c =? 44) || is_digit c.

(** The numeral at the start of [content]. (src/parser/primitives.rs:87-103) *)
Definition numeral (handling : bool) (content : str) : str :=
  match content with
  | [] => []
  | c :: r =>
      if handling then [c]
      else let n := c :: fst (span_while is_numeral r) in
           if ends_with_char 46 n || ends_with_char 44 n then removelast n else n
  end.

Definition nbsp : str := lit "&nbsp;".

(** A group [Begin(Normal) SubGroup End]. (src/parser/primitives.rs:72-76) *)
Definition group_instrs (g : slice) : list instr :=
  [IEv (EvBegin GNormal); ISub g None; IEv EvEnd].

(** The arms of [handle_char_token] that depend only on the character.
    (src/parser/primitives.rs:83-85, 110-128) *)
Definition char_event (c : char) : event :=
  if c =? 126 then EvContent (CText nbsp)
  else if (c =? 46) || (c =? 44) || (c =? 59) then EvContent (CPunctuation c)
  else if c =? 39 then ordinary 8242
  else if c =? 45 then binary 8722
  else if c =? 42 then binary 8727
  else if is_binary c then binary c
  else if is_relation c then relation c
  else match char_delimiter_map c with
       | Some (d, DFence) => ordinary d
       | Some (d, ty) => EvContent (CDelimiter d None ty)
       | None => ordinary c
       end.

(** [handle_char_token]. (src/parser/primitives.rs:29-132) *)
Definition handle_char (ctx : slice) : P unit :=
  do st <- get ;
  let c := ctx_char (stxt ctx) in
  if c =? 92 then panic_with PUnreachable
  else if c =? 37 then panic_with PUnreachable
  else if (c =? 95) || (c =? 94) then
    if i_handling st then fail EScriptAsArgument
    else push_ev (EvBegin GNormal) ;; modify (set_content ctx) ;; push_ev EvEnd
  else if c =? 36 then fail EMathShift
  else if c =? 35 then fail EHashSign
  else if c =? 38 then
    match i_align st with
    | Some (count, mx) =>
        if (count <? mx) && negb (i_handling st) then
          modify (set_align (Some (count + 1, mx))) ;; push_ev (EvFlow EFAlignment)
        else fail EAlignment
    | None => fail EAlignment
    end
  else if c =? 123 then
    do g <- groupc GKNormal ; push (group_instrs g)
  else if c =? 125 then fail (EUnbalancedGroup None)
  else if is_digit c then
    let n := numeral (i_handling st) (stxt ctx) in
    modify (set_content (suffix_slice ctx (skipn (length n) (stxt ctx)))) ;;
    push_ev (EvContent (CNumber n))
  else push_ev (char_event c).

(** [handle_argument], given [handle_primitive]. (src/parser.rs:199-220) *)
Definition handle_arg (rec : str -> P unit) (a : sarg) : P unit :=
  match a with
  | SCs cs => modify (set_handling true) ;; rec cs
  | SChr ctx => modify (set_handling true) ;; handle_char ctx
  | SGroup g => push (group_instrs g)
  end.

(** ** Helpers of [handle_primitive] *)

(** [sized_delim]. (src/parser/primitives.rs:1967-1976) *)
Definition sized_delim (size : delim_size) : P unit :=
  do d <- lexc lex_delimiter ;
  push_ev (EvContent (CDelimiter (fst d) (Some size) (snd d))).

(** The event of a single character of a given class.
    (src/parser/primitives.rs:2013-2033) *)
Definition atom_event (k : atom_class) (c : char) : event :=
  match k with
  | AtOrd => ordinary c
  | AtOp => EvContent (CLargeOp c false)
  | AtBin => binary c
  | AtRel => relation c
  | AtOpen => EvContent (CDelimiter c None DOpen)
  | AtClose => EvContent (CDelimiter c None DClose)
  | AtPunct => EvContent (CPunctuation c)
  | AtInner => ordinary c
  end.

(** The single character of an argument, if it is one.
    (src/parser/primitives.rs:1998-2010) *)
Definition single_char (a : sarg) : option char :=
  match a with
  | SChr ctx => Some (ctx_char (stxt ctx))
  | SGroup g => match trim (stxt g) with [c] => Some c | _ => None end
  | SCs _ => None
  end.

(** [atom_group]. (src/parser/primitives.rs:1992-2057) *)
Definition atom_group (rec : str -> P unit) (k : atom_class) : P unit :=
  do a <- argc ;
  match single_char a with
  | Some c => push_ev (atom_event k c)
  | None =>
      match k, a with
      | AtOp, SGroup g => push_ev (EvContent (CFunction (stxt g)))
      | _, _ => push_ev (EvBegin GNormal) ;; handle_arg rec a ;; push_ev EvEnd
      end
  end.

(** [font_group]: does not set [handling_argument]. (src/parser/primitives.rs:2060-2082) *)
Definition font_group (rec : str -> P unit) (f : option font) : P unit :=
  do a <- argc ;
  push [IEv (EvBegin GNormal); IEv (EvState (SCFont f))] ;;
  match a with
  | SCs cs => rec cs
  | SChr ctx => handle_char ctx
  | SGroup g => push [ISub g None]
  end ;;
  push_ev EvEnd.

(** [accent]. (src/parser/primitives.rs:2085-2097) *)
Definition accent (rec : str -> P unit) (c : char) (stretchy : bool) : P unit :=
  do a <- argc ;
  push_ev (EvScript STSup SPAboveBelow) ;;
  handle_arg rec a ;;
  push_ev (EvContent (COrdinary c stretchy)).

(** [underscript]. (src/parser/primitives.rs:2100-2113) *)
Definition underscript (rec : str -> P unit) (c : char) : P unit :=
  do a <- argc ;
  push_ev (EvScript STSub SPAboveBelow) ;;
  handle_arg rec a ;;
  push_ev (EvContent (COrdinary c true)).

(** [text_argument]. (src/parser/primitives.rs:2134-2152) *)
Definition text_argument (f : option font) : P unit :=
  do a <- argc ;
  match a with
  | SCs _ => fail EControlSequenceAsArgument
  | SChr t | SGroup t =>
      match f with
      | Some _ => push [IEv (EvBegin GNormal); IEv (EvState (SCFont f));
                        IEv (EvContent (CText (stxt t))); IEv EvEnd]
      | None => push_ev (EvContent (CText (stxt t)))
      end
  end.

Definition is_some {A} (o : option A) : bool := match o with Some _ => true | None => false end.

(** [fraction_like]. (src/parser/primitives.rs:2154-2183) *)
Definition fraction_like (rec : str -> P unit) (o c : option char) (bar : option dimension)
           (s : option style) : P unit :=
  let oc := is_some o || is_some c in
  (if oc then push_ev (EvBegin (GLeftRight o c)) else ret tt) ;;
  match s with
  | Some s => (if oc then ret tt else push_ev (EvBegin GNormal)) ;; push_ev (EvState (SCStyle s))
  | None => ret tt
  end ;;
  push_ev (EvVisual (VFraction bar)) ;;
  do num <- argc ; handle_arg rec num ;;
  do den <- argc ; handle_arg rec den ;;
  (if oc || is_some s then push_ev EvEnd else ret tt).

(** The column specification of an array: columns read so far reversed, whether
    one of them is a column, and their number; [u16] arithmetic.
    (src/parser/primitives.rs:2190-2220) *)
Fixpoint array_columns (count : N) (s : str) : res (list array_col * N) :=
  match s with
  | [] => Ok ([], count)
  | c :: s' =>
      if 65535 <=? count then Panic POverflow
      else
        match (if c =? 99 then Some (ACColumn CACenter, count + 1)
               else if c =? 108 then Some (ACColumn CALeft, count + 1)
               else if c =? 114 then Some (ACColumn CARight, count + 1)
               else if c =? 124 then Some (ACSep LSolid, count)
               else if c =? 58 then Some (ACSep LDashed, count)
               else None) with
        | None => Err EArgument
        | Some (col, count') =>
            match array_columns count' s' with
            | Ok (l, n) => Ok (col :: l, n)
            | r => r
            end
        end
  end.

Definition is_column (c : array_col) : bool := match c with ACColumn _ => true | _ => false end.

(** [array_environment]. (src/parser/primitives.rs:2185-2227) *)
Definition array_environment : P (grouping * N) :=
  do spec <- group_arg EArgument ;
  do p <- lift (array_columns 0 spec) ;
  if existsb is_column (fst p) then ret (GArray (fst p), snd p - 1) else fail EArrayNoColumns.

Definition col_align_of (s : str) : option col_align :=
  if str_eqb s (lit "c") then Some CACenter
  else if str_eqb s (lit "l") then Some CALeft
  else if str_eqb s (lit "r") then Some CARight
  else None.

(** [optional_alignment] then [unwrap_or(Center)]. (src/parser/primitives.rs:2229-2238) *)
Definition optional_alignment : P col_align :=
  do o <- optc ;
  match o with
  | None => ret CACenter
  | Some s => ok_or (col_align_of (stxt s)) EArgument
  end.

(** [new_command]. (src/parser/primitives.rs:2240-2268) *)
Definition new_command (sae : option bool) : P unit :=
  do g <- bracec ;
  do csr <- on_local control_sequence (stxt g) ;
  let cs := fst csr in
  do st <- get ;
  let exists_ := ctx_contains (i_macros st) cs in
  match sae with
  | Some b =>
      if Bool.eqb b exists_ then ret tt
      else fail (if b then EMacroNotDefined else EMacroAlreadyDefined)
  | None => ret tt
  end ;;
  do o <- optc ;
  do t <- ok_or o EArgument ;
  do n <- ok_or (parse_u8 (stxt t)) ENumber ;
  do default <- optc ;
  if (9 <? n) && ((if is_some default then 1 else 0) <=? n) then fail ETooManyParams
  else
    do rep <- bracec ;
    if exists_ && negb (is_some sae) then ret tt
    else
      do d <- lift (make_command n (option_map stxt default) (stxt rep)) ;
      modify (fun st => set_macros (ctx_insert (i_macros st) cs d) st).

(** [large_op]. (src/parser/primitives.rs:2115-2122) *)
Definition large_op (c : char) (movable : bool) : P unit :=
  modify (set_allow true) ;;
  modify (set_pos (if movable then SPMovable else SPRight)) ;;
  push_ev (EvContent (CLargeOp c false)).

(** A colour argument. (src/parser/primitives.rs:457-462) *)
Definition color_of (s : str) : P rgb :=
  do o <- lift (lex_color s) ; ok_or o EUnknownColor.

(** An optional dimension delimiter argument of [\genfrac].
    (src/parser/primitives.rs:1294-1306) *)
Definition genfrac_delim : P (option char) :=
  do a <- argc ;
  match sarg_token a with
  | Some t => do d <- ok_or (token_to_delim t) EDelimiter ; ret (Some (fst d))
  | None =>
      match a with
      | SGroup g => if is_nil (stxt g) then ret None else fail EDelimiter
      | _ => fail EDelimiter
      end
  end.

Definition style_digit (c : char) : option style :=
  if c =? 48 then Some SDisplay
  else if c =? 49 then Some SText
  else if c =? 50 then Some SScript
  else if c =? 51 then Some SScriptScript
  else None.

(** The delimiter after [\left] or [\right]. (src/parser/primitives.rs:542-547, 551-556) *)
Definition left_delim : P (option char) :=
  do st <- get ;
  match strip_char 46 (stxt (i_content st)) with
  | Some r => modify (set_content (suffix_slice (i_content st) r)) ;; ret None
  | None => do d <- lexc lex_delimiter ; ret (Some (fst d))
  end.

(** ** Environments *)

Definition u16_max : N := 65535.

(** The pairs of an alignat environment: an integer truncated to [u16], whose
    double must be a [u16]. (src/parser/primitives.rs:1815-1853) *)
Definition alignat_pairs : P N :=
  do a <- argc ;
  match a with
  | SGroup g =>
      do n <- on_local unsigned_integer (stxt g) ;
      ret (fst n mod 65536)
  | _ => fail EArgument
  end.

Definition pair_count (pairs : N) : P N :=
  if 65535 <? pairs * 2 then panic_with POverflow else ret (pairs * 2 - 1).

(** The matrix environments: type, whether starred, style, delimiters.
    (src/parser/primitives.rs:1570-1744) *)
Definition matrix_table : list (str * (matrix_type * bool * option style * option (char * char))) := [
  (lit "matrix", (MtNormal, false, None, None));
  (lit "matrix*", (MtNormal, true, None, None));
  (lit "smallmatrix", (MtSmall, false, Some SText, None));
  (lit "pmatrix", (MtParens, false, None, Some (40, 41)));
  (lit "pmatrix*", (MtParens, true, None, Some (40, 41)));
  (lit "bmatrix", (MtBrackets, false, None, Some (91, 93)));
  (lit "bmatrix*", (MtBrackets, true, None, Some (91, 93)));
  (lit "vmatrix", (MtVertical, false, None, Some (124, 124)));
  (lit "vmatrix*", (MtVertical, true, None, Some (124, 124)));
  (lit "Vmatrix", (MtDoubleVertical, false, None, Some (8214, 8214)));
  (lit "Vmatrix*", (MtDoubleVertical, true, None, Some (8214, 8214)));
  (lit "Bmatrix", (MtBraces, false, None, Some (123, 125)));
  (lit "Bmatrix*", (MtBraces, true, None, Some (123, 125)))].

(** The environments without argument: grouping, number of alignments allowed,
    kind, style. (src/parser/primitives.rs:1745-1814, 1863-1864) *)
Definition plain_table : list (str * (grouping * N * gkind * option style)) := [
  (lit "cases", (GCases true, 1, GKCases true false, None));
  (lit "dcases", (GCases true, 1, GKCases true true, Some SDisplay));
  (lit "rcases", (GCases false, 1, GKCases false false, None));
  (lit "drcases", (GCases false, 1, GKCases false true, Some SDisplay));
  (lit "equation", (GEquation true, 0, GKEquation true, None));
  (lit "equation*", (GEquation false, 0, GKEquation false, None));
  (lit "align", (GAlign true, u16_max, GKAlign true, None));
  (lit "align*", (GAlign false, u16_max, GKAlign false, None));
  (lit "aligned", (GAligned, u16_max, GKAligned, None));
  (lit "gather", (GGather true, 0, GKGather true, None));
  (lit "gather*", (GGather false, 0, GKGather false, None));
  (lit "gathered", (GGathered, 0, GKGathered, None));
  (lit "multline", (GMultline, 0, GKMultline, None));
  (lit "split", (GSplit, 1, GKSplit, None))].

Record env_desc := mkEnv {
  e_group : grouping; e_count : N; e_kind : gkind;
  e_style : option style; e_wrap : option (char * char) }.

(** The [match argument] of [\begin]. (src/parser/primitives.rs:1560-1866) *)
Definition environment (name : str) : P env_desc :=
  if str_eqb name (lit "array") then
    do g <- array_environment ; ret (mkEnv (fst g) (snd g) (GKArray false) None None)
  else if str_eqb name (lit "darray") then
    do g <- array_environment ; ret (mkEnv (fst g) (snd g) (GKArray true) (Some SDisplay) None)
  else if str_eqb name (lit "alignat") then
    do p <- alignat_pairs ; do n <- pair_count p ;
    ret (mkEnv (GAlignat p true) n (GKAlignat true) None None)
  else if str_eqb name (lit "alignat*") then
    do p <- alignat_pairs ; do n <- pair_count p ;
    ret (mkEnv (GAlignat p false) n (GKAlignat false) None None)
  else if str_eqb name (lit "alignedat") then
    do p <- alignat_pairs ; do n <- pair_count p ;
    ret (mkEnv (GAlignedat p) n GKAlignedat None None)
  else if str_eqb name (lit "subarray") then
    do t <- group_arg EArgument ;
    do a <- ok_or (col_align_of t) EArgument ;
    ret (mkEnv (GSubArray a) 0 GKSubArray None None)
  else
    match assoc_str name matrix_table with
    | Some (ty, starred, st, wrap) =>
        do a <- (if starred : bool then optional_alignment else ret CACenter) ;
        ret (mkEnv (GMatrix a) u16_max (GKMatrix ty starred) st wrap)
    | None =>
        match assoc_str name plain_table with
        | Some (g, n, k, st) => ret (mkEnv g n k st None)
        | None => fail EEnvironment
        end
    end.

(** [\begin]. (src/parser/primitives.rs:1552-1900) *)
Definition begin_env : P unit :=
  do name <- group_arg EArgument ;
  do e <- environment name ;
  match e_wrap e with
  | Some (l, r) => push_ev (EvBegin (GLeftRight (Some l) (Some r)))
  | None => ret tt
  end ;;
  do hl <- lexc horizontal_lines ;
  do g <- groupc (e_kind e) ;
  push_ev (EvBegin (e_group e)) ;;
  match e_style e with Some s => push_ev (EvState (SCStyle s)) | None => ret tt end ;;
  (if is_nil hl then ret tt else push_ev (EvFlow (EFStartLines hl))) ;;
  push [ISub g (Some (0, e_count e)); IEv EvEnd] ;;
  (if is_some (e_wrap e) then push_ev EvEnd else ret tt).

(** [\\] and [\cr]. (src/parser/primitives.rs:1902-1920) *)
Definition newline : P unit :=
  do st <- get ;
  match i_align st with
  | Some (_, mx) =>
      if i_handling st then fail ENewLine
      else
        modify (set_align (Some (0, mx))) ;;
        do o <- optc ;
        do sp <- match o with
                 | Some a => do d <- on_local lex_dimension (stxt a) ; ret (Some (fst d))
                 | None => ret None
                 end ;
        do hl <- lexc horizontal_lines ;
        push_ev (EvFlow (EFNewLine sp hl))
  | None => fail ENewLine
  end.

Definition space_w (d : dimension) : event := EvSpace (Some d) None None.
Definition is_mu (d : dimension) : bool := match dunit d with UMu => true | _ => false end.
Definition mu_or_none (o : option dimension) : bool :=
  match o with Some d => is_mu d | None => true end.

(** [self.buffer.split_off(index)]. *)
Definition split_off (n : nat) : P (list instr) := fun st =>
  (Ok (skipn n (i_buf st)), set_buf (firstn n (i_buf st)) st).

Definition buf_len : P nat := fun st => (Ok (length (i_buf st)), st).

(** ** [handle_primitive] *)

(** One call of [handle_primitive], the nested calls going to [rec].
    (src/parser/primitives.rs:135-1964; the lines of each arm are in Prim.v) *)
Definition hprim_body (rec : str -> P unit) (cs : str) : P unit :=
  match lookup_prim cs with
  | PSimple e => push_ev e
  | PFunction => push_ev (EvContent (CFunction cs))
  | PFunctionLim =>
      modify (set_allow true) ;; modify (set_pos SPMovable) ;;
      push_ev (EvContent (CFunction cs))
  | PFunNameLim name =>
      modify (set_allow true) ;; modify (set_pos SPMovable) ;;
      push_ev (EvContent (CFunction name))
  | POperatorname =>
      modify (set_allow true) ;;
      do a <- argc ;
      match a with
      | SCs _ => fail EControlSequenceAsArgument
      | SChr t | SGroup t => push_ev (EvContent (CFunction (stxt t)))
      end
  | PPmod =>
      do a <- argc ;
      push [IEv (space_w (mkDim (f32_lit 1 0) UEm)); IEv (EvBegin GNormal);
            IEv (EvContent (CDelimiter 40 None DOpen)); IEv (EvContent (CFunction (lit "mod")))] ;;
      handle_arg rec a ;;
      push [IEv EvEnd; IEv (EvContent (CDelimiter 41 None DClose))]
  | PAtom k => atom_group rec k
  | PMathop =>
      modify (set_allow true) ;; modify (set_pos SPMovable) ;; atom_group rec AtOp
  | PDots =>
      do st <- get ;
      match trim_start (stxt (i_content st)) with
      | c :: _ => push_ev (ordinary (if (c =? 46) || (c =? 44) then 8230 else 8943))
      | [] => push_ev (ordinary 8943)
      end
  | PFontChange f => modify (set_skip true) ;; push_ev (EvState (SCFont (Some f)))
  | PFontGroup f => font_group rec f
  | PStyleChange s => modify (set_skip true) ;; push_ev (EvState (SCStyle s))
  | PColor =>
      do t <- group_arg EArgument ;
      modify (set_skip true) ;;
      do c <- color_of t ;
      push_ev (EvState (SCColor c CTText))
  | PTextcolor =>
      do t <- group_arg EArgument ;
      do c <- color_of t ;
      do a <- argc ;
      push [IEv (EvBegin GNormal); IEv (EvState (SCColor c CTText))] ;;
      handle_arg rec a ;;
      push_ev EvEnd
  | PColorbox =>
      do t <- group_arg EArgument ;
      do c <- color_of t ;
      push [IEv (EvBegin GNormal); IEv (EvState (SCColor c CTBackground))] ;;
      text_argument None ;;
      push_ev EvEnd
  | PFcolorbox =>
      do t <- group_arg EArgument ;
      do u <- group_arg EArgument ;
      do c <- color_of t ;
      do d <- color_of u ;
      push [IEv (EvBegin GNormal); IEv (EvState (SCColor c CTBorder));
            IEv (EvState (SCColor d CTBackground))] ;;
      text_argument None ;;
      push_ev EvEnd
  | PSized s => sized_delim s
  | PLeft =>
      do o <- left_delim ;
      do g <- groupc GKLeftRight ;
      do c <- left_delim ;
      push [IEv (EvBegin (GLeftRight o c)); ISub g None; IEv EvEnd]
  | PMiddle =>
      do d <- lexc lex_delimiter ;
      push_ev (EvContent (CDelimiter (fst d) (Some DBig) DFence))
  | PUnbalanced => fail (EUnbalancedGroup None)
  | PLargeOp c m => large_op c m
  | PSmallint => modify (set_allow true) ;; push_ev (EvContent (CLargeOp 8747 true))
  | PAccent c st sp =>
      (if sp then modify (set_pos SPAboveBelow) else ret tt) ;; accent rec c st
  | PUnder c sp =>
      (if sp then modify (set_pos SPAboveBelow) else ret tt) ;; underscript rec c
  | PKern => do d <- lexc dimension_or_braced ; push_ev (space_w d)
  | PHskip => do g <- lexc glue_or_braced ; push_ev (space_w (fst (fst g)))
  | PMkern =>
      do d <- lexc dimension_or_braced ;
      if is_mu d then push_ev (space_w d) else fail EMathUnit
  | PMskip =>
      do g <- lexc glue_or_braced ;
      if is_mu (fst (fst g)) && mu_or_none (snd (fst g)) && mu_or_none (snd g)
      then push_ev (space_w (fst (fst g))) else fail EMathUnit
  | PHspace =>
      do t <- group_arg EDimensionArgument ;
      do g <- on_local lex_glue t ;
      push_ev (space_w (fst (fst (fst g))))
  | PSpaceCmd =>
      do a <- group_arg EDimensionArgument ;
      do w <- on_local lex_dimension a ;
      do b <- group_arg EDimensionArgument ;
      do h <- on_local lex_dimension b ;
      do c <- group_arg EDimensionArgument ;
      do d <- on_local lex_dimension c ;
      push_ev (EvSpace (Some (fst w)) (Some (fst h)) (Some (fst d)))
  | PXArrow c =>
      do below <- optc ;
      do above <- argc ;
      push [IEv (EvScript (if is_some below then STSubSup else STSup) SPAboveBelow);
            IEv (relation c)] ;;
      match below with Some b => handle_arg rec (SGroup b) | None => ret tt end ;;
      handle_arg rec above
  | PFraction o c bar s => fraction_like rec o c bar s
  | PGenfrac =>
      do l <- genfrac_delim ;
      do r <- genfrac_delim ;
      do b <- argc ;
      do bar <- match b with
                | SGroup g =>
                    if is_nil (stxt g) then ret None
                    else do d <- on_local lex_dimension (stxt g) ;
                         if is_nil (snd d) then ret (Some (fst d)) else fail EDimensionArgument
                | _ => fail EDimensionArgument
                end ;
      do s <- argc ;
      do sty <- match s with
                | SCs _ => fail EArgument
                | SChr ctx => do s <- ok_or (style_digit (ctx_char (stxt ctx))) EArgument ; ret (Some s)
                | SGroup g =>
                    match stxt g with
                    | [] => ret None
                    | [c] => do s <- ok_or (style_digit c) EArgument ; ret (Some s)
                    | _ => fail EArgument
                    end
                end ;
      fraction_like rec l r bar sty
  | POverset ty =>
      push_ev (EvScript ty SPAboveBelow) ;;
      do n <- buf_len ;
      do over <- argc ;
      handle_arg rec over ;;
      do evs <- split_off n ;
      do base <- argc ;
      handle_arg rec base ;;
      push evs
  | PBuildrel =>
      do st <- get ;
      do oc <- lexc (content_with_suffix (lit "\over")) ;
      do st' <- get ;
      push_ev (EvScript STSup SPAboveBelow) ;;
      do n <- buf_len ;
      do over <- lift (fst (arg_slice (mid_slice (i_content st) oc 5 (stxt (i_content st'))))) ;
      handle_arg rec over ;;
      do evs <- split_off n ;
      do base <- argc ;
      handle_arg rec base ;;
      push evs
  | PSubstack =>
      do g <- bracec ;
      push [IEv (EvBegin (GSubArray CACenter)); ISub g (Some (0, 0)); IEv EvEnd]
  | PSideset =>
      do _ <- argc ;
      do _ <- argc ;
      do base <- argc ;
      handle_arg rec base
  | PSqrt =>
      do o <- optc ;
      match o with
      | Some index =>
          push_ev (EvVisual VRoot) ;;
          do a <- argc ;
          handle_arg rec a ;;
          push [ISub index None]
      | None =>
          push_ev (EvVisual VSqrt) ;;
          do a <- argc ;
          handle_arg rec a
      end
  | PSurd =>
      push [IEv (EvVisual VSqrt);
            IEv (EvSpace (Some dim_zero_em) (Some (mkDim (f32_lit 7 1) UEm)) None)]
  | PText f => text_argument f
  | PNot =>
      push_ev (EvVisual VNegation) ;;
      do a <- argc ;
      handle_arg rec a
  | PChar =>
      do n <- lexc unsigned_integer ;
      if 255 <? n then fail EInvalidCharNumber else push_ev (ordinary n)
  | PRelax => do st <- get ; if i_handling st then fail ERelax else ret tt
  | PBegingroup => do g <- groupc GKBeginEnd ; push (group_instrs g)
  | PBegin => begin_env
  | PNewline => newline
  | PDef =>
      do d <- lexc lex_definition ;
      modify (set_skip true) ;;
      do m <- lift (make_macro (snd (fst d)) (snd d)) ;
      modify (fun st => set_macros (ctx_insert (i_macros st) (fst (fst d)) m) st)
  | PLet =>
      do d <- lexc let_assignment ;
      modify (set_skip true) ;;
      modify (fun st => set_macros (ctx_insert (i_macros st) (fst d) (alias (snd d))) st)
  | PFuturelet =>
      do st0 <- get ;
      do d <- lexc futurelet_assignment ;
      modify (set_skip true) ;;
      modify (fun st => set_macros (ctx_insert (i_macros st) (fst (fst d)) (alias (snd (fst d)))) st) ;;
      modify (set_content (suffix_slice (i_content st0) (snd d)))
  | PNewcommand sae => new_command sae
  | PUnknown => fail EUnknownPrimitive
  end.

(** [handle_primitive] with a bound on the depth of nested calls. *)
Fixpoint hprim (fuel : nat) (cs : str) : P unit :=
  match fuel with
  | O => fun st => (Fuel, st)
  | S f => hprim_body (hprim f) cs
  end.
