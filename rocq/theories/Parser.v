(** * Parser: src/parser.rs. *)

From Coq Require Import List NArith ZArith Bool.
From Verif Require Import Base Float32 Event Tables Prim PrimTable Lex Macros Primitives Spans.
Import ListNotations.
Open Scope N_scope.
Open Scope sm_scope.

(** [MAX_EXPANSION_DEPTH], [MAX_EXPANSION_BYTES]. (src/parser.rs:30-31) *)
Definition max_expansion_depth : N := 64.
Definition max_expansion_bytes : N := 1048576.

(** [InnerParser] with the span stack and the storage: the storage is the
    identifier of the next allocation and the bytes allocated so far.
    (src/parser.rs:185-193) *)
Record pst := mkPst {
  q_ist : ist;
  q_spans : spans;
  q_next : N;
  q_alloc : N
}.

Definition set_ist (i : ist) (q : pst) : pst := mkPst i (q_spans q) (q_next q) (q_alloc q).

(** [handle_primitive]; a call consumes input before it calls itself, so the
    length of the input bounds the depth. (src/parser/primitives.rs:135) *)
Definition handle_prim (cs : str) : P unit := fun st =>
  hprim (S (length (stxt (i_content st)))) cs st.

Definition peek : P (option char) := fun st =>
  (Ok (match stxt (i_content st) with c :: _ => Some c | [] => None end), st).

(** [self.content = &self.content[1..]], after a one-byte character. *)
Definition drop1 : P unit := modify (fun st =>
  set_content (suffix_slice (i_content st) (tl (stxt (i_content st)))) st).

Definition is_char (c : char) (o : option char) : bool :=
  match o with Some x => x =? c | None => false end.

(** A script event, with the start of the subscript and of the superscript in
    the buffer ([ScriptDescriptor]). (src/parser.rs:370-373) *)
Definition script := (event * nat * nat)%type.

(** Part 2 of [parse]: the scripts. (src/parser.rs:266-357) *)
Definition parse_scripts : P (option script) :=
  do st0 <- get ;
  if i_skip st0 then ret None
  else
    (if i_allow st0 then
       do l <- lexc limit_modifiers ;
       match l with
       | Some true => modify (set_pos SPAboveBelow)
       | Some false => modify (set_pos SPRight)
       | None => ret tt
       end
     else ret tt) ;;
    modify (fun st => set_content (suffix_slice (i_content st) (trim_start (stxt (i_content st)))) st) ;;
    do c <- peek ;
    if is_char 94 c || is_char 95 c then
      let sub_first := is_char 95 c in
      drop1 ;;
      do first <- buf_len ;
      do a <- argc ;
      handle_arg handle_prim a ;;
      do second <- buf_len ;
      do nc <- peek ;
      (if (is_char 95 nc && negb sub_first) || (is_char 94 nc && sub_first) then
         drop1 ;;
         do a <- argc ;
         handle_arg handle_prim a ;;
         do nc <- peek ;
         if is_char 95 nc then fail EDoubleSubscript
         else if is_char 94 nc then fail EDoubleSuperscript
         else ret tt
       else if is_char 95 nc || is_char 94 nc then
         fail (if sub_first then EDoubleSubscript else EDoubleSuperscript)
       else ret tt) ;;
      do end_ <- buf_len ;
      do st <- get ;
      if Nat.eqb second end_ then
        if sub_first then ret (Some (EvScript STSub (i_pos st), first, second))
        else ret (Some (EvScript STSup (i_pos st), second, first))
      else
        if sub_first then ret (Some (EvScript STSubSup (i_pos st), first, second))
        else ret (Some (EvScript STSubSup (i_pos st), second, first))
    else ret None.

(** A primitive or a character, then its scripts. (src/parser.rs:261-357) *)
Definition parse_atom (m : P unit) : P (option script) := m ;; parse_scripts.

(** Runs a computation of the inner parser. *)
Definition run_inner {A} (m : P A) (q : pst) : res A * pst :=
  let (r, st) := m (q_ist q) in (r, set_ist st q).

Definition add_total (n : N) (s : spans) : spans := mkSpans (s_input s) (s_exp s) (s_total s + n).

(** [parse]; [fuel] bounds the number of expansions in one call.
    (src/parser.rs:230-358) *)
Fixpoint parse (fuel : nat) (q : pst) : res (option script) * pst :=
  match fuel with
  | O => (Fuel, q)
  | S f =>
      let st := q_ist q in
      let c0 := i_content st in
      let orig := suffix_slice c0 (trim_start (stxt c0)) in
      match lex_token (stxt c0) with
      | (Err EToken, r) => (Ok None, set_ist (set_content (suffix_slice c0 r) st) q)
      | (Err e, r) => (Err e, set_ist (set_content (suffix_slice c0 r) st) q)
      | (Panic p, r) => (Panic p, q)
      | (Fuel, r) => (Fuel, q)
      | (Ok (TChr ctx), r) =>
          run_inner (parse_atom (handle_char (suffix_slice c0 ctx)))
                    (set_ist (set_content (suffix_slice c0 r) st) q)
      | (Ok (TCs cs), r) =>
          let q1 := set_ist (set_content (suffix_slice c0 r) st) q in
          match ctx_get (i_macros st) cs with
          | None => run_inner (parse_atom (handle_prim cs)) q1
          | Some d =>
              let limit := (max_expansion_depth <=? N.of_nat (length (s_exp (q_spans q))))
                           || (max_expansion_bytes <=? s_total (q_spans q)) in
              match expand_definition d r with
              | Panic p => (Panic p, q1)
              | Fuel => (Fuel, q1)
              | Err e => (Err (if limit then EMacroRecursionLimit else e), q1)
              | Ok (txt, consumed) =>
                  let alloc := q_alloc q + blen txt in
                  if limit then
                    (Err EMacroRecursionLimit,
                     mkPst (q_ist q1) (q_spans q) (q_next q + 1) alloc)
                  else
                    let new := mkSlice (q_next q) 0 txt in
                    match add_span new orig (blen cs + consumed + 1)
                                   (add_total (blen txt) (q_spans q)) with
                    | (Ok _, sp) =>
                        parse f (mkPst (set_content new st) sp (q_next q + 1) alloc)
                    | (Err e, sp) => (Err e, mkPst (q_ist q1) sp (q_next q + 1) alloc)
                    | (Panic p, sp) => (Panic p, mkPst (q_ist q1) sp (q_next q + 1) alloc)
                    | (Fuel, sp) => (Fuel, mkPst (q_ist q1) sp (q_next q + 1) alloc)
                    end
              end
          end
      end
  end.

(** Enough for every call: an expansion leaves the stack one longer, and 64
    expansions are allowed. *)
Definition parse_fuel : nat := 66.

(** ** The iterator *)

(** [Parser]; the next instruction comes first in [p_stack].
    (src/parser.rs:43-68) *)
Record parser := mkParser {
  p_stack : list instr;    (* instruction_stack, reversed *)
  p_buf : list instr;      (* buffer *)
  p_macros : macro_ctx;    (* macro_context *)
  p_spans : spans;         (* span_stack *)
  p_next : N;              (* storage: next allocation *)
  p_alloc : N              (* storage: bytes allocated *)
}.

(** [Parser::new]. (src/parser.rs:72-89) *)
Definition new_parser (input : str) : parser :=
  mkParser [ISub (mkSlice 0 0 input) None] [] [] (mkSpans input [] 0) 1 0.

(** Writing into the spare capacity; [None]: not initialised.
    (src/parser.rs:147-156) *)
Fixpoint write_at {A} (i : nat) (x : A) (l : list (option A)) : option (list (option A)) :=
  match l, i with
  | [], _ => None
  | _ :: l', O => Some (Some x :: l')
  | y :: l', S i' => match write_at i' x l' with Some r => Some (y :: r) | None => None end
  end.

Fixpoint spare_loop {A} (added idx : nat) (l : list A) (spare : list (option A))
  : option (list (option A)) :=
  match l with
  | [] => Some spare
  | e :: l' =>
      let idx := if Nat.eqb idx added then O else idx in
      match write_at idx e spare with
      | Some spare' => spare_loop added (S idx) l' spare'
      | None => None
      end
  end.

(** Reading what [set_len] makes part of the vector; an uninitialised element
    is undefined behaviour. *)
Fixpoint all_init {A} (l : list (option A)) : option (list A) :=
  match l with
  | [] => Some []
  | None :: _ => None
  | Some x :: l' => match all_init l' with Some r => Some (x :: r) | None => None end
  end.

(** The scripts moved to the stack, in the order they will be popped.
    (src/parser.rs:141-168) *)
Definition order_scripts (sub sup : nat) (buf : list instr) : res (list instr) :=
  if Nat.ltb sup sub then
    let moved := rev (skipn sup buf) in
    let added := length moved in
    match spare_loop added (sub - sup) moved (repeat None added) with
    | None => Panic PIndex
    | Some spare =>
        match all_init spare with
        | None => Panic PUninit
        | Some l => Ok (rev l)
        end
    end
  else Ok (skipn sub buf).

Inductive item := ItEvent (e : event) | ItError (e : parser_error).
Inductive outcome := OItem (i : item) | OCont | ODone | OPanic (p : panic) | OFuel.

Definition of_parser (p : parser) (c : slice) (al : option (N * N)) : pst :=
  mkPst (mkIst c (p_buf p) false SPRight false false al (p_macros p))
        (p_spans p) (p_next p) (p_alloc p).

(** The parser after a call of [parse_next] on the top of the stack, the rest
    of which is [s]. *)
Definition to_parser (stack buf : list instr) (q : pst) : parser :=
  mkParser stack buf (i_macros (q_ist q)) (q_spans q) (q_next q) (q_alloc q).

(** One round of [next]: [OCont] is the recursive call. (src/parser.rs:95-182) *)
Definition next_step (p : parser) : outcome * parser :=
  match p_stack p with
  | [] => (ODone, p)
  | IEv e :: s =>
      (OItem (ItEvent e), mkParser s (p_buf p) (p_macros p) (p_spans p) (p_next p) (p_alloc p))
  | ISub c al :: s =>
      if is_nil (trim_start (stxt c)) then
        (OCont, mkParser s (p_buf p) (p_macros p) (p_spans p) (p_next p) (p_alloc p))
      else
        let (r, q) := parse parse_fuel (of_parser p c al) in
        let st := q_ist q in
        let top := ISub (i_content st) (i_align st) in
        match r with
        | Err e =>
            match new_error e (i_content st) (q_spans q) with
            | (Ok pe, sp) =>
                (OItem (ItError pe),
                 mkParser (top :: s) (i_buf st) (i_macros st) sp (q_next q) (q_alloc q))
            | (Panic x, sp) => (OPanic x, to_parser (top :: s) (i_buf st) q)
            | (_, sp) => (OFuel, to_parser (top :: s) (i_buf st) q)
            end
        | Ok (Some (e, sub, sup)) =>
            match order_scripts sub sup (i_buf st) with
            | Ok l =>
                (OCont, to_parser (IEv e :: firstn (Nat.min sub sup) (i_buf st) ++ l ++ top :: s) [] q)
            | Panic x => (OPanic x, to_parser (top :: s) (i_buf st) q)
            | _ => (OFuel, to_parser (top :: s) (i_buf st) q)
            end
        | Ok None => (OCont, to_parser (i_buf st ++ top :: s) [] q)
        | Panic x => (OPanic x, to_parser (top :: s) (i_buf st) q)
        | Fuel => (OFuel, to_parser (top :: s) (i_buf st) q)
        end
  end.

(** [next], with a bound on its recursion. *)
Fixpoint next (fuel : nat) (p : parser) : outcome * parser :=
  match fuel with
  | O => (OFuel, p)
  | S f =>
      match next_step p with
      | (OCont, p') => next f p'
      | r => r
      end
  end.

(** The items of the iterator, [fuel] rounds at most; the flag tells how it
    stopped: [ODone] after the last item. *)
Fixpoint run (fuel : nat) (p : parser) : list item * outcome * parser :=
  match fuel with
  | O => ([], OFuel, p)
  | S f =>
      match next_step p with
      | (OCont, p') => run f p'
      | (OItem i, p') => let '(l, o, p'') := run f p' in (i :: l, o, p'')
      | (o, p') => ([], o, p')
      end
  end.
