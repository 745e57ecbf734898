(** * Memory: the parser with the addresses the code compares.

    Spans.v identifies a text by the allocation it is in. The code only has
    addresses: a pointer is in an expansion when it lies between its first byte and
    its end, the end included, so that a pointer at the first byte of a text is also
    at the end of a text that lies just below. Here every allocation has an address
    and every comparison is one of addresses. *)

From Coq Require Import List NArith ZArith Bool.
From Verif Require Import Base Float32 Event Tables Prim PrimTable Lex Macros Primitives Spans Parser.
Import ListNotations.
Open Scope N_scope.

(** The address and the length of every allocation: the input is the first, the
    expansions follow in the order in which they are made. *)
Definition memory := list (Z * N).

Definition address (m : memory) (b : N) : Z := fst (nth (N.to_nat b) m (0%Z, 0)).

(** [substr_start as isize]. (src/parser.rs:486) *)
Definition pointer (m : memory) (p : slice) : Z := (address m (sbase p) + Z.of_N (soff p))%Z.

(** [ptr_val >= start && ptr_val <= start + len]. (src/parser.rs:491-492, 500) *)
Definition between (start : Z) (len : N) (v : Z) : bool :=
  ((start <=? v) && (v <=? start + Z.of_N len))%Z.

(** The loop of [reach_original_call_site]; an expansion is a whole allocation.
    (src/parser.rs:488-497) *)
Fixpoint reach_at (m : memory) (v : Z) (l : list espan) : option N * list espan :=
  match l with
  | [] => (None, [])
  | x :: l' =>
      let start := address m (sbase (x_full x)) in
      if between start (blen (stxt (x_full x))) v then (Some (Z.to_N (v - start)), l)
      else reach_at m v l'
  end.

(** [reach_original_call_site]. (src/parser.rs:485-502) *)
Definition site_at (m : memory) (p : slice) (s : spans) : res N * spans :=
  let v := pointer m p in
  match reach_at m v (s_exp s) with
  | (Some i, l) => (Ok i, mkSpans (s_input s) l (s_total s))
  | (None, l) =>
      let s' := mkSpans (s_input s) l (s_total s) in
      let start := address m 0 in
      if between start (blen (s_input s)) v then (Ok (Z.to_N (v - start)), s') else (Panic PAssert, s')
  end.

(** [add]. (src/parser.rs:470-481) *)
Definition add_span_at (m : memory) (full call_site : slice) (call_len : N) (s : spans) : res unit * spans :=
  match site_at m call_site s with
  | (Ok i, s') =>
      let elen := Z.to_N ((Z.of_N call_len - (Z.of_N (blen (stxt call_site)) - Z.of_N (blen (stxt full))))
                          mod (Z.of_N usize_mod))%Z in
      (Ok tt, mkSpans (s_input s') (mkSpan full elen i (i + call_len) :: s_exp s') (s_total s'))
  | (Err e, s') => (Err e, s')
  | (Panic p, s') => (Panic p, s')
  | (Fuel, s') => (Fuel, s')
  end.

(** [ParserError::new]. (src/parser/error.rs:26-94) *)
Definition new_error_at (m : memory) (e : error) (place : slice) (s : spans) : res parser_error * spans :=
  match site_at m place s with
  | (Ok i, s') =>
      let first := match s_exp s' with x :: _ => stxt (x_full x) | [] => s_input s' end in
      match floor_char_boundary first (i - context_size),
            floor_char_boundary first (i + context_size) with
      | Some lo, Some hi =>
          match context_loop (s_input s') lo hi (s_exp s') with
          | Ok t => (Ok (mkError e (context_prefix ++ t)%list), s')
          | Err x => (Err x, s')
          | Panic p => (Panic p, s')
          | Fuel => (Fuel, s')
          end
      | _, _ => (Panic PInternal, s')
      end
  | (Err x, s') => (Err x, s')
  | (Panic p, s') => (Panic p, s')
  | (Fuel, s') => (Fuel, s')
  end.

(** An allocator: where a text of a length is put, given what there is. *)
Definition allocator := memory -> N -> Z.

Definition store (a : allocator) (m : memory) (t : str) : memory := (m ++ [(a m (blen t), blen t)])%list.

(** [parse]. (src/parser.rs:230-358) *)
Fixpoint parse_at (a : allocator) (fuel : nat) (q : pst) (m : memory) : res (option script) * pst * memory :=
  match fuel with
  | O => (Fuel, q, m)
  | S f =>
      let st := q_ist q in
      let c0 := i_content st in
      let orig := suffix_slice c0 (trim_start (stxt c0)) in
      match lex_token (stxt c0) with
      | (Err EToken, r) => (Ok None, set_ist (set_content (suffix_slice c0 r) st) q, m)
      | (Err e, r) => (Err e, set_ist (set_content (suffix_slice c0 r) st) q, m)
      | (Panic p, r) => (Panic p, q, m)
      | (Fuel, r) => (Fuel, q, m)
      | (Ok (TChr ctx), r) =>
          (run_inner (parse_atom (handle_char (suffix_slice c0 ctx)))
                     (set_ist (set_content (suffix_slice c0 r) st) q), m)
      | (Ok (TCs cs), r) =>
          let q1 := set_ist (set_content (suffix_slice c0 r) st) q in
          match ctx_get (i_macros st) cs with
          | None => (run_inner (parse_atom (handle_prim cs)) q1, m)
          | Some d =>
              let limit := (max_expansion_depth <=? N.of_nat (length (s_exp (q_spans q))))
                           || (max_expansion_bytes <=? s_total (q_spans q)) in
              match expand_definition d r with
              | Panic p => (Panic p, q1, m)
              | Fuel => (Fuel, q1, m)
              | Err e => (Err (if limit then EMacroRecursionLimit else e), q1, m)
              | Ok (txt, consumed) =>
                  let alloc := q_alloc q + blen txt in
                  let m' := store a m txt in
                  if limit then
                    (Err EMacroRecursionLimit,
                     mkPst (q_ist q1) (q_spans q) (q_next q + 1) alloc, m')
                  else
                    let new := mkSlice (q_next q) 0 txt in
                    match add_span_at m' new orig (blen cs + consumed + 1)
                                      (add_total (blen txt) (q_spans q)) with
                    | (Ok _, sp) =>
                        parse_at a f (mkPst (set_content new st) sp (q_next q + 1) alloc) m'
                    | (Err e, sp) => (Err e, mkPst (q_ist q1) sp (q_next q + 1) alloc, m')
                    | (Panic p, sp) => (Panic p, mkPst (q_ist q1) sp (q_next q + 1) alloc, m')
                    | (Fuel, sp) => (Fuel, mkPst (q_ist q1) sp (q_next q + 1) alloc, m')
                    end
              end
          end
      end
  end.

(** One round of [next]. (src/parser.rs:95-182) *)
Definition next_step_at (a : allocator) (p : parser) (m : memory) : outcome * parser * memory :=
  match p_stack p with
  | [] => (ODone, p, m)
  | IEv e :: s =>
      (OItem (ItEvent e), mkParser s (p_buf p) (p_macros p) (p_spans p) (p_next p) (p_alloc p), m)
  | ISub c al :: s =>
      if is_nil (trim_start (stxt c)) then
        (OCont, mkParser s (p_buf p) (p_macros p) (p_spans p) (p_next p) (p_alloc p), m)
      else
        let '(r, q, m') := parse_at a parse_fuel (of_parser p c al) m in
        let st := q_ist q in
        let top := ISub (i_content st) (i_align st) in
        match r with
        | Err e =>
            match new_error_at m' e (i_content st) (q_spans q) with
            | (Ok pe, sp) =>
                (OItem (ItError pe),
                 mkParser (top :: s) (i_buf st) (i_macros st) sp (q_next q) (q_alloc q), m')
            | (Panic x, sp) => (OPanic x, to_parser (top :: s) (i_buf st) q, m')
            | (_, sp) => (OFuel, to_parser (top :: s) (i_buf st) q, m')
            end
        | Ok (Some (e, sub, sup)) =>
            match order_scripts sub sup (i_buf st) with
            | Ok l =>
                (OCont, to_parser (IEv e :: firstn (Nat.min sub sup) (i_buf st) ++ l ++ top :: s) [] q, m')
            | Panic x => (OPanic x, to_parser (top :: s) (i_buf st) q, m')
            | _ => (OFuel, to_parser (top :: s) (i_buf st) q, m')
            end
        | Ok None => (OCont, to_parser (i_buf st ++ top :: s) [] q, m')
        | Panic x => (OPanic x, to_parser (top :: s) (i_buf st) q, m')
        | Fuel => (OFuel, to_parser (top :: s) (i_buf st) q, m')
        end
  end.

(** The items of the iterator, as [run]. *)
Fixpoint run_at (a : allocator) (fuel : nat) (p : parser) (m : memory) : list item * outcome :=
  match fuel with
  | O => ([], OFuel)
  | S f =>
      match next_step_at a p m with
      | (OCont, p', m') => run_at a f p' m'
      | (OItem i, p', m') => let (l, o) := run_at a f p' m' in (i :: l, o)
      | (o, _, _) => ([], o)
      end
  end.

(** The parser of an input that is at an address. *)
Definition run_input_at (a : allocator) (z : Z) (fuel : nat) (input : str) : list item * outcome :=
  run_at a fuel (new_parser input) [(z, blen input)].
