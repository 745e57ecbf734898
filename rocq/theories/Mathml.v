(** * Mathml: the renderer (src/mathml.rs, src/config.rs).

    Writing to a [String] cannot fail, so I/O errors are left out. The iterator
    given to the renderer is the finite list of its remaining items; an iterator
    that yields items again after [None] is left out. When the code panics, what
    it wrote before is not kept. *)

From Coq Require Import List NArith ZArith Bool SpecFloat.
From Verif Require Import Base Float32 Event Tables Prim Spans FontTable.
Import ListNotations.
Open Scope N_scope.
Open Scope sm_scope.

(** ** Configuration *)

(** [MathStyle], [DisplayMode]. (src/config.rs:76-95, 121-136) *)
Inductive math_style := MSTeX | MSIso | MSFrench | MSUpright.
Inductive display_mode := DMInline | DMBlock.

(** [RenderConfig]. (src/config.rs:10-26) *)
Record render_config := mkConfig {
  c_display : display_mode;
  c_annotation : option str;
  c_error_color : rgb;
  c_xml : bool;
  c_style : math_style
}.

(** [RenderConfig::default]. (src/config.rs:51-59) *)
Definition default_config : render_config := mkConfig DMInline None (178, 34, 34) false MSTeX.

(** [RenderConfig::with_annotation]. (src/config.rs:30-35) *)
Definition with_annotation (a : str) : render_config :=
  mkConfig DMInline (Some a) (178, 34, 34) false MSTeX.

(** [Display for DisplayMode]. (src/config.rs:138-145) *)
Definition display_str (d : display_mode) : str :=
  match d with DMInline => lit "inline" | DMBlock => lit "block" end.

(** [MathStyle::should_be_upright]. (src/config.rs:104-111) *)
Definition should_be_upright (m : math_style) (c : char) : bool :=
  match m with
  | MSTeX => in_ranges c uppercase_ranges && negb ((65 <=? c) && (c <=? 90))
  | MSIso => false
  | MSFrench => negb ((97 <=? c) && (c <=? 122))
  | MSUpright => true
  end.

(** ** Peeking *)

(** [ManyPeek]. (src/mathml.rs:1289-1300) *)
Record manypeek (A : Type) := mkPeek { peeked : list A; iter : list A }.
Arguments mkPeek {A} _ _.
Arguments peeked {A} _.
Arguments iter {A} _.

(** (src/mathml.rs:1302-1305) *)
Definition mp_peek_next {A} (m : manypeek A) : option A * manypeek A :=
  match iter m with
  | [] => (None, m)
  | x :: l => (Some x, mkPeek (peeked m ++ [x]) l)
  end.

(** (src/mathml.rs:1307-1309) *)
Definition mp_peeked_nth {A} (n : nat) (m : manypeek A) : option A := nth_error (peeked m) n.

(** (src/mathml.rs:1311-1317) *)
Definition mp_peek_first {A} (m : manypeek A) : option A * manypeek A :=
  match peeked m with
  | [] => mp_peek_next m
  | x :: _ => (Some x, m)
  end.

(** (src/mathml.rs:1323-1325) *)
Definition mp_next {A} (m : manypeek A) : option A * manypeek A :=
  match peeked m with
  | x :: l => (Some x, mkPeek l (iter m))
  | [] => match iter m with
          | x :: l => (Some x, mkPeek [] l)
          | [] => (None, m)
          end
  end.

(** ** Fonts *)

(** The arm of [map_char] that applies. (src/mathml.rs:1331-1483) *)
Fixpoint font_offset (c : char) (l : list (N * N * N)) : N :=
  match l with
  | [] => 0
  | (lo, hi, off) :: l' => if (lo <=? c) && (c <=? hi) then off else font_offset c l'
  end.

(** [Font::map_char]. (src/mathml.rs:1330-1485) *)
Definition map_char (f : font) (c : char) : res char :=
  let c' := c + font_offset c (font_ranges f) in
  if valid_char c' then Ok c' else Panic PExpect.

(** ** State of the renderer *)

(** An item of the iterator: [Ok(event)], or [Err(e)] with the text of
    [e.to_string()]. (src/mathml.rs:33-34, 586) *)
Inductive ritem := RIEvent (e : event) | RIErr (msg : str).

(** [State]. (src/mathml.rs:1280-1287) *)
Record rstate := mkState {
  t_font : option font;
  t_text : option rgb;
  t_border : option rgb;
  t_background : option rgb;
  t_style : option style
}.
Definition default_state : rstate := mkState None None None None None.

(** [EnvGrouping]. (src/mathml.rs:1182-1209) *)
Inductive egroup :=
| EGNormal
| EGLeftRight (closing : option char)
| EGArray (cols : list array_col) (index : nat)
| EGMatrix
| EGCases (used is_left : bool)
| EGAlign
| EGAlignat (pairs used : N)
| EGSubArray | EGGather | EGMultline
| EGSplit (used : bool)
| EGEquation.

(** [Environment]. (src/mathml.rs:1211-1224) *)
Inductive env :=
| ENGroup (g : egroup)
| ENVisual (v : visual) (count : N)
| ENScript (ty : script_type) (above_below : bool) (count : N) (fn : bool).

(** [From] for [Environment]. (src/mathml.rs:1226-1258) *)
Definition env_of_script (ty : script_type) (ab : bool) : env :=
  ENScript ty ab (match ty with STSub | STSup => 2 | STSubSup => 3 end) false.
Definition env_of_visual (v : visual) : env :=
  ENVisual v (match v with VSqrt => 1 | VRoot => 2 | VFraction _ => 2 | VNegation => 1 end).

(** [script_tag], [visual_tag]. (src/mathml.rs:1260-1278) *)
Definition script_tag (ty : script_type) (ab : bool) : str :=
  match ty, ab with
  | STSub, false => lit "msub"
  | STSup, false => lit "msup"
  | STSubSup, false => lit "msubsup"
  | STSub, true => lit "munder"
  | STSup, true => lit "mover"
  | STSubSup, true => lit "munderover"
  end.
Definition visual_tag (v : visual) : str :=
  match v with
  | VRoot => lit "mroot"
  | VFraction _ => lit "mfrac"
  | VSqrt => lit "msqrt"
  | VNegation => lit "mrow"
  end.

(** [MathmlWriter]; the top of the stacks comes first. [Atom] is [atom_class].
    (src/mathml.rs:20-28, 1171-1180) *)
Record rst := mkRst {
  r_in : manypeek ritem;
  r_out : str;
  r_envs : list env;
  r_states : list rstate;
  r_prev : option atom_class;
  r_err : bool
}.

Definition set_in x (r : rst) := mkRst x (r_out r) (r_envs r) (r_states r) (r_prev r) (r_err r).
Definition set_out x (r : rst) := mkRst (r_in r) x (r_envs r) (r_states r) (r_prev r) (r_err r).
Definition set_envs x (r : rst) := mkRst (r_in r) (r_out r) x (r_states r) (r_prev r) (r_err r).
Definition set_states x (r : rst) := mkRst (r_in r) (r_out r) (r_envs r) x (r_prev r) (r_err r).
Definition set_prev x (r : rst) := mkRst (r_in r) (r_out r) (r_envs r) (r_states r) x (r_err r).
Definition set_err x (r : rst) := mkRst (r_in r) (r_out r) (r_envs r) (r_states r) (r_prev r) x.

Definition R (A : Type) := SM rst A.

(** [self.writer.write_all]. *)
Definition wr (s : str) : R unit := modify (fun r => set_out (r_out r ++ s) r).

(** A computation without effect on the state. *)
Definition of_res {A} (x : res A) : R A := fun r => (x, r).

Definition when (b : bool) (m : R unit) : R unit := if b then m else ret tt.

(** [state]. (src/mathml.rs:898-900) *)
Definition state : R rstate := fun r =>
  match r_states r with s :: _ => (Ok s, r) | [] => (Panic PExpect, r) end.

(** [*self.state_stack.last_mut().expect(..) = f(..)]. (src/mathml.rs:162, 475, 544, 825) *)
Definition mod_state (f : rstate -> rstate) : R unit := fun r =>
  match r_states r with
  | s :: l => (Ok tt, set_states (f s :: l) r)
  | [] => (Panic PExpect, r)
  end.

Definition push_state (s : rstate) : R unit := modify (fun r => set_states (s :: r_states r) r).
Definition push_env (e : env) : R unit := modify (fun r => set_envs (e :: r_envs r) r).
Definition recover : R unit := modify (set_err true).
Definition in_next : R (option ritem) := fun r => let (x, m) := mp_next (r_in r) in (Ok x, set_in m r).
Definition in_first : R (option ritem) := fun r =>
  let (x, m) := mp_peek_first (r_in r) in (Ok x, set_in m r).

(** ** Pieces of output *)

Definition q : str := [34].
Definition attr (name : str) (v : str) : str := ([32] ++ name ++ [61] ++ q ++ v ++ q)%list.
Definition bool_str (b : bool) : str := if b then lit "true" else lit "false".

(** [rgb({r} {g} {b})]. (src/mathml.rs:107, 113, 120) *)
Definition rgb_str (c : rgb) : str :=
  let '(r, g, b) := c in
  (lit "rgb(" ++ n_dec r ++ [32] ++ n_dec g ++ [32] ++ n_dec b ++ lit ")")%list.

(** The condition under which a style is written. (src/mathml.rs:68-81) *)
Definition in_script (l : list env) : bool :=
  match l with
  | ENScript (STSub | STSup) _ n _ :: _ => n =? 0
  | ENScript STSubSup _ n _ :: _ => n <=? 1
  | _ => false
  end.

Definition style_args (s : style) : bool * N :=
  match s with SDisplay => (true, 0) | SText => (false, 0) | SScript => (false, 1) | SScriptScript => (false, 2) end.

(** The entries of the [style] attribute. (src/mathml.rs:105-123) *)
Definition css_entries (s : rstate) : list str :=
  ((match t_text s with Some c => [lit "color: " ++ rgb_str c] | None => [] end) ++
   (match t_border s with Some c => [lit "border: 0.06em solid " ++ rgb_str c] | None => [] end) ++
   (match t_background s with Some c => [lit "background-color: " ++ rgb_str c] | None => [] end))%list.

Fixpoint join (sep : str) (l : list str) : str :=
  match l with
  | [] => []
  | [x] => x
  | x :: l' => (x ++ sep ++ join sep l')%list
  end.

(** What [open_tag] writes. (src/mathml.rs:58-131) *)
Definition open_str (envs : list env) (s : rstate) (tag : str) (classes : option str) : str :=
  ([60] ++ tag ++
   (match t_style s with
    | Some st =>
        if in_script envs then []
        else let (d, l) := style_args st in
             attr (lit "displaystyle") (bool_str d) ++ attr (lit "scriptlevel") (n_dec l)
    | None => []
    end) ++
   (match css_entries s with
    | [] => []
    | l => attr (lit "style") (join (lit "; ") l)
    end) ++
   (match classes with Some c => attr (lit "class") c | None => [] end))%list.

(** [open_tag]. (src/mathml.rs:58-131) *)
Definition open_tag (tag : str) (classes : option str) : R unit :=
  do s <- state ;
  do r <- get ;
  wr (open_str (r_envs r) s tag classes).

Definition close_str (tag : str) : str := (lit "</" ++ tag ++ lit ">")%list.

(** The replacement of a character by [write_escaped]. (src/mathml.rs:1522-1527) *)
Definition escape_char (c : char) : str :=
  if c =? 38 then lit "&amp;" else if c =? 60 then lit "&lt;" else if c =? 62 then lit "&gt;" else [c].

(** [write_escaped]. (src/mathml.rs:1518-1538) *)
Definition write_escaped (s : str) : str := flat_map escape_char s.

(** [map_char] on every character. (src/mathml.rs:605-606, 627-637) *)
Fixpoint map_chars (f : font) (s : str) : res str :=
  match s with
  | [] => Ok []
  | c :: s' =>
      match map_char f c with
      | Ok c' => match map_chars f s' with Ok t => Ok (c' :: t) | r => r end
      | Err e => Err e
      | Panic p => Panic p
      | Fuel => Fuel
      end
  end.

(** [set_previous_atom]. (src/mathml.rs:837-857) *)
Definition keeps_previous (l : list env) : bool :=
  match l with
  | ENVisual (VRoot | VFraction _) n :: _ => n =? 0
  | ENScript (STSub | STSup) _ n _ :: _ => n =? 0
  | ENScript STSubSup _ n _ :: _ => n <=? 1
  | _ => false
  end.
Definition set_previous_atom (a : atom_class) : R unit := modify (fun r =>
  if keeps_previous (r_envs r) then r else set_prev (Some a) r).

(** What [next_atom] makes of an item: [None] is [continue].
    (src/mathml.rs:870-894) *)
Definition atom_of (i : ritem) : option (option atom_class) :=
  match i with
  | RIEvent (EvState _ | EvSpace _ _ _ | EvVisual VNegation | EvScript _ _) => None
  | RIEvent (EvEnd | EvFlow _) | RIErr _ => Some None
  | RIEvent (EvVisual _ | EvBegin _) => Some (Some AtInner)
  | RIEvent (EvContent c) =>
      Some (Some match c with
                 | CBinaryOp _ _ => AtBin
                 | CLargeOp _ _ => AtOp
                 | CRelation _ _ _ => AtRel
                 | CDelimiter _ _ DOpen => AtOpen
                 | CDelimiter _ _ DClose => AtClose
                 | CPunctuation _ => AtPunct
                 | _ => AtOrd
                 end)
  end.

(** The loop of [next_atom]. (src/mathml.rs:859-896) *)
Fixpoint next_atom_loop (fuel : nat) (index : nat) (m : manypeek ritem)
  : res (option atom_class) * manypeek ritem :=
  match fuel with
  | O => (Fuel, m)
  | S f =>
      match mp_peeked_nth index m with
      | None =>
          match mp_peek_next m with
          | (None, m') => (Ok None, m')
          | (Some i, m') =>
              match atom_of i with
              | None => next_atom_loop f index m'
              | Some a => (Ok a, m')
              end
          end
      | Some i =>
          match atom_of i with
          | None => next_atom_loop f (S index) m
          | Some a => (Ok a, m)
          end
      end
  end.

(** [next_atom]; the loop looks at an item of the iterator twice. (src/mathml.rs:859-896) *)
Definition next_atom : R (option atom_class) := fun r =>
  let m := r_in r in
  let (x, m') := next_atom_loop (S (length (peeked m) + 2 * length (iter m))) O m in
  (x, set_in m' r).

(** [handle_state_change]. (src/mathml.rs:824-835) *)
Definition apply_change (c : state_change) (s : rstate) : rstate :=
  match c with
  | SCFont f => mkState f (t_text s) (t_border s) (t_background s) (t_style s)
  | SCColor x CTText => mkState (t_font s) (Some x) (t_border s) (t_background s) (t_style s)
  | SCColor x CTBorder => mkState (t_font s) (t_text s) (Some x) (t_background s) (t_style s)
  | SCColor x CTBackground => mkState (t_font s) (t_text s) (t_border s) (Some x) (t_style s)
  | SCStyle x => mkState (t_font s) (t_text s) (t_border s) (t_background s) (Some x)
  end.
Definition handle_state_change (c : state_change) : R unit := mod_state (apply_change c).

Definition negation : str := [824].
Definition neg_str (n : bool) : str := if n then negation else [].

(** The thin space around functions, and the function application.
    (src/mathml.rs:647, 664, 949) *)
Definition thin_space : str := lit "<mspace width=""0.1667em"" />".
Definition apply_mo : str := (lit "<mo>" ++ [8289] ++ lit "</mo>")%list.

(** (src/mathml.rs:663-669, 948-955) *)
Definition fn_apply : R unit :=
  do a <- next_atom ;
  match a with
  | Some (AtOpen | AtPunct | AtClose) => wr apply_mo
  | Some _ => wr apply_mo ;; wr thin_space
  | None => ret tt
  end.

(** Whether [previous_atom] is [Inner], [Close] or [Ord]. (src/mathml.rs:642-645, 723-726) *)
Definition after_operand (a : option atom_class) : bool :=
  match a with Some (AtInner | AtClose | AtOrd) => true | _ => false end.

Definition is_some {A} (o : option A) : bool := match o with Some _ => true | None => false end.

Definition ends_ws (s : str) : bool := match rev s with c :: _ => is_ws c | [] => false end.
Definition starts_ws (s : str) : bool := match s with c :: _ => is_ws c | [] => false end.

(** Sets [fn_application] of the script at the top. (src/mathml.rs:660-662) *)
Definition mark_fn (l : list env) : option (list env) :=
  match l with
  | ENScript ty ab n _ :: l' => Some (ENScript ty ab n true :: l')
  | _ => None
  end.

(** The tag of a binary operator. (src/mathml.rs:723-744) *)
Definition bin_context (l : list env) : bool :=
  match l with
  | ENScript _ _ _ _ :: _ => false
  | ENVisual (VRoot | VFraction _ | VSqrt) _ :: _ => false
  | _ => true
  end.

(** [write_content]. (src/mathml.rs:592-822) *)
Definition write_content (cfg : render_config) (c : content) (negate : bool) : R unit :=
  match c with
  | CText text =>
      open_tag (lit "mtext") None ;; wr (lit ">") ;;
      let trimmed := trim text in
      when (starts_ws text) (wr (lit "&nbsp;")) ;;
      do s <- state ;
      (match t_font s with
       | None => wr (write_escaped trimmed)
       | Some f => do t <- of_res (map_chars f trimmed) ; wr (write_escaped t)
       end) ;;
      when (ends_ws text) (wr (lit "&nbsp;")) ;;
      set_previous_atom AtOrd ;;
      wr (lit "</mtext>")
  | CNumber n =>
      open_tag (lit "mn") None ;; wr (lit ">") ;;
      do s <- state ;
      let f := match t_font s with Some FBoldSymbol => Some FBold | o => o end in
      do t <- of_res (match f with None => Ok n | Some f => map_chars f n end) ;
      wr t ;;
      set_previous_atom AtOrd ;;
      wr (lit "</mn>")
  | CFunction s =>
      do r <- get ;
      when (after_operand (r_prev r)) (wr thin_space) ;;
      open_tag (lit "mi") None ;;
      wr (if Nat.eqb (length s) 1 then lit " mathvariant=""normal"">" else lit ">") ;;
      wr s ;;
      set_previous_atom AtOp ;;
      wr (lit "</mi>") ;;
      do r <- get ;
      match mark_fn (r_envs r) with
      | Some l => modify (set_envs l)
      | None => fn_apply
      end
  | COrdinary c true =>
      wr (lit "<mo stretchy=""true"">") ;; wr [c] ;; wr (lit "</mo>")
  | COrdinary c false =>
      open_tag (lit "mi") None ;;
      do s <- state ;
      do c <- (match t_font s, should_be_upright (c_style cfg) c with
               | Some FUpRight, _ | None, true => wr (lit " mathvariant=""normal"">") ;; ret c
               | Some f, up =>
                   wr (lit ">") ;;
                   of_res (map_char (match f with
                                     | FBoldSymbol => if up then FBold else FBoldItalic
                                     | _ => f
                                     end) c)
               | None, false => wr (lit ">") ;; ret c
               end) ;
      wr ([c] ++ neg_str negate)%list ;;
      set_previous_atom AtOrd ;;
      wr (lit "</mi>")
  | CBinaryOp c small =>
      do r <- get ;
      do is_bin <- (if after_operand (r_prev r) && bin_context (r_envs r) then
                      do a <- next_atom ;
                      ret (match a with
                           | Some (AtInner | AtBin | AtOp | AtOrd | AtOpen) => true
                           | _ => false
                           end)
                    else ret false) ;
      set_previous_atom (if is_bin then AtBin else AtOrd) ;;
      let tag := if is_bin : bool then lit "mo" else lit "mi" in
      open_tag tag (if small then Some (lit "small") else None) ;;
      wr (lit ">") ;;
      wr ([c] ++ neg_str negate)%list ;;
      wr (close_str tag)
  | CRelation c second small =>
      open_tag (lit "mo") (if small then Some (lit "small") else None) ;;
      wr (lit ">") ;;
      wr ([c] ++ (match second with Some d => [d] | None => [] end) ++ neg_str negate)%list ;;
      set_previous_atom AtRel ;;
      wr (lit "</mo>")
  | CLargeOp c small =>
      open_tag (lit "mo") None ;;
      when small (wr (lit " largeop=""false""")) ;;
      wr (lit " movablelimits=""false"">") ;;
      wr ([c] ++ neg_str negate)%list ;;
      set_previous_atom AtOp ;;
      wr (lit "</mo>")
  | CDelimiter c size ty =>
      open_tag (lit "mo") None ;;
      (let b := bool_str (match ty with DFence => true | _ => is_some size end) in
       wr (attr (lit "symmetric") b ++ attr (lit "stretchy") b)%list) ;;
      (match size with
       | Some z =>
           let em := (f32_display (size_to_em z) ++ lit "em")%list in
           wr (lit "minsize=" ++ q ++ em ++ q ++ attr (lit "maxsize") em)%list
       | None => ret tt
       end) ;;
      wr (lit ">") ;;
      wr ([c] ++ neg_str negate)%list ;;
      set_previous_atom (match ty with DOpen => AtOpen | DFence => AtPunct | DClose => AtClose end) ;;
      wr (lit "</mo>")
  | CPunctuation c =>
      open_tag (lit "mo") None ;;
      wr (lit ">") ;;
      wr ([c] ++ neg_str negate)%list ;;
      set_previous_atom AtPunct ;;
      wr (lit "</mo>")
  end.

(** ** Tables *)

Definition line_str (l : line) : str := match l with LSolid => lit "solid" | LDashed => lit "dashed" end.

(** The classes of a cell. (src/mathml.rs:1036-1077, 1106-1127) *)
Definition align_class (a : col_align) : list str :=
  match a with CALeft => [lit "cell-left"] | CACenter => [] | CARight => [lit "cell-right"] end.
Definition right_class (l : line) : list str := [(lit "menv-right-" ++ line_str l)%list].
Definition left_class (l : line) : list str := [(lit "menv-left-" ++ line_str l)%list].

(** The end of the opening tag of a cell. (src/mathml.rs:1035-1080, 1106-1129) *)
Definition cell_str (classes : list str) : str :=
  match classes with
  | [] => lit ">"
  | l => (attr (lit "class") (join [32] l) ++ lit ">")%list
  end.

(** The leading separators followed by another separator. (src/mathml.rs:1022-1033) *)
Fixpoint sep_pairs (cols : list array_col) : list line :=
  match cols with
  | ACSep l :: ((ACSep _ :: _) as cols') => l :: sep_pairs cols'
  | _ => []
  end.

(** The leading separators. (src/mathml.rs:370-375, 1092-1097, 1135-1140) *)
Fixpoint leading_seps (cols : list array_col) : list line :=
  match cols with
  | ACSep l :: cols' => l :: leading_seps cols'
  | _ => []
  end.

(** [array_newline]. (src/mathml.rs:1019-1084) *)
Definition array_newline (cols : list array_col) : res (str * nat) :=
  let seps := sep_pairs cols in
  let start := (lit "<mtd" ++
    flat_map (fun l => attr (lit "class") (lit "menv-left-" ++ line_str l ++ lit " menv-border-only")
                       ++ lit "></mtd><mtd") seps)%list in
  let index := length seps in
  match skipn index cols with
  | ACSep l :: ACColumn a :: ACSep l' :: _ =>
      Ok (start ++ cell_str (left_class l ++ align_class a ++ right_class l'), index + 3)%list%nat
  | ACSep l :: ACColumn a :: _ =>
      Ok (start ++ cell_str (left_class l ++ align_class a), index + 2)%list%nat
  | ACColumn a :: ACSep l :: _ =>
      Ok (start ++ cell_str (align_class a ++ right_class l), index + 2)%list%nat
  | ACColumn a :: _ => Ok (start ++ cell_str (align_class a), index + 1)%list%nat
  | [] => Ok (start ++ lit ">", index)%list
  | _ => Panic PUnreachable
  end.

(** [array_align]. (src/mathml.rs:1086-1131) *)
Definition array_align (cols : list array_col) (index : nat) : res (str * nat) :=
  if Nat.ltb (length cols) index then Panic PIndex
  else
    let seps := leading_seps (skipn index cols) in
    let start := (lit "</mtd><mtd" ++
      flat_map (fun l => attr (lit "class") (lit "menv-right-" ++ line_str l ++ lit " menv-border-only")
                         ++ lit "></mtd><mtd") seps)%list in
    let index := (index + length seps)%nat in
    match skipn index cols with
    | [] => Panic PIndex
    | ACColumn a :: ACSep l :: _ =>
        Ok (start ++ cell_str (align_class a ++ right_class l), index + 2)%list%nat
    | ACColumn a :: _ => Ok (start ++ cell_str (align_class a), index + 1)%list%nat
    | ACSep _ :: _ => Panic PUnreachable
    end.

(** A cell that is only a border. (src/mathml.rs:377-384, 1142-1145) *)
Definition border_cells (l : list line) : str :=
  flat_map (fun l => lit "<mtd" ++ attr (lit "class") (lit "menv-right-" ++ line_str l ++ lit " menv-border-only")
                     ++ lit "></mtd>")%list l.

(** [array_close_line] on [&cols[index..]]. (src/mathml.rs:1133-1148) *)
Definition array_close_line (cols : list array_col) (index : nat) : res str :=
  if Nat.ltb (length cols) index then Panic PIndex
  else Ok (lit "</mtd>" ++ border_cells (leading_seps (skipn index cols)) ++ lit "</mtr><mtr")%list.

(** The loop of an empty row. (src/mathml.rs:500-503) *)
Fixpoint empty_row (fuel : nat) (cols : list array_col) (index until : nat) : res (str * nat) :=
  if Nat.ltb index until then
    match fuel with
    | O => Fuel
    | S f =>
        match array_align cols index with
        | Ok (s, i) =>
            match empty_row f cols i until with
            | Ok (s', i') => Ok (s ++ s', i')%list
            | r => r
            end
        | r => r
        end
    end
  else Ok ([], index).

(** [env_horizontal_lines]. (src/mathml.rs:1150-1169) *)
Definition hline_class (l : line) : str :=
  attr (lit "class") (match l with LSolid => lit "menv-hline" | LDashed => lit "menv-hdashline" end).
Fixpoint env_horizontal_lines (lines : list line) : str :=
  match lines with
  | [] => []
  | [l] => hline_class l
  | l :: lines' =>
      (hline_class l ++ lit "><mtd class=""menv-nonumber""></mtd></mtr><mtr" ++ env_horizontal_lines lines')%list
  end.

(** ** Events *)

(** The macro [env_horizontal_lines!]. (src/mathml.rs:168-178) *)
Definition start_lines : R unit :=
  do i <- in_first ;
  match i with
  | Some (RIEvent (EvFlow (EFStartLines lines))) =>
      wr (env_horizontal_lines lines) ;; in_next ;; ret tt
  | _ => ret tt
  end.

(** The end of an opened row of most tables. (src/mathml.rs:200-202 and so on) *)
Definition open_cell : R unit := start_lines ;; wr (lit "><mtd>").

Definition eqn (b : bool) (s : str) : str := if b then s else [].

(** The delimiter of a [\left] or [\right]. (src/mathml.rs:183-190, 347-354) *)
Definition fence (d : option char) : R unit :=
  match d with
  | Some c =>
      open_tag (lit "mo") None ;;
      wr (lit " stretchy=""true"">") ;;
      wr [c] ;;
      wr (lit "</mo>")
  | None => ret tt
  end.

(** What is written for the opening of a group. (src/mathml.rs:180-326) *)
Definition open_group (g : grouping) : R egroup :=
  match g with
  | GNormal => ret EGNormal
  | GLeftRight l r => fence l ;; modify (set_prev (Some AtOpen)) ;; ret (EGLeftRight r)
  | GAlign n =>
      wr (lit "<mtable class=""menv-alignlike menv-align" ++ eqn n (lit " menv-with-eqn") ++ lit """><mtr")%list ;;
      open_cell ;; ret EGAlign
  | GMatrix a =>
      wr (lit "<mtable class=""menv-arraylike" ++
          (match a with CALeft => lit " menv-cells-left""" | CACenter => lit """" | CARight => lit " menv-cells-right""" end) ++
          lit "><mtr")%list ;;
      open_cell ;; ret EGMatrix
  | GCases lf =>
      wr (lit "<mrow>" ++ (if lf then lit "<mo stretchy=""true"">{</mo>" else []) ++
          lit "<mtable class=""menv-cells-left menv-cases""><mtr")%list ;;
      open_cell ;; ret (EGCases false lf)
  | GArray cols =>
      wr (lit "<mtable class=""menv-arraylike""><mtr") ;;
      start_lines ;; wr (lit ">") ;;
      do (s, i) <- of_res (array_newline cols) ;
      wr s ;; ret (EGArray cols i)
  | GAligned =>
      wr (lit "<mtable class=""menv-alignlike menv-align""><mtr") ;; open_cell ;; ret EGAlign
  | GSubArray a =>
      wr (lit "<mtable" ++
          (match a with CALeft => lit " class=""menv-cells-left""" | CACenter => [] | CARight => lit " class=""menv-cells-right""" end) ++
          lit "><mtr")%list ;;
      open_cell ;; ret EGSubArray
  | GAlignat p n =>
      wr (lit "<mtable class=""menv-alignlike" ++ eqn n (lit " menv-with-eqn") ++ lit """><mtr")%list ;;
      open_cell ;; ret (EGAlignat p 0)
  | GAlignedat p =>
      wr (lit "<mtable class=""menv-alignlike""><mtr") ;; open_cell ;; ret (EGAlignat p 0)
  | GGather n =>
      wr (lit "<mtable" ++ eqn n (lit " class=""menv-with-eqn""") ++ lit "><mtr")%list ;;
      open_cell ;; ret EGGather
  | GGathered => wr (lit "<mtable><mtr") ;; open_cell ;; ret EGGather
  | GMultline => wr (lit "<mtable class=""menv-multline""><mtr") ;; open_cell ;; ret EGMultline
  | GSplit => wr (lit "<mtable class=""menv-alignlike""><mtr") ;; open_cell ;; ret (EGSplit false)
  | GEquation n =>
      wr (lit "<mtable" ++ eqn n (lit " class=""menv-with-eqn""") ++ lit "><mtr><mtd>")%list ;;
      ret EGEquation
  end.

(** The leading state changes of a group, as many as [fuel]. (src/mathml.rs:153-157) *)
Fixpoint leading_changes (fuel : nat) : R unit :=
  match fuel with
  | O => fun r => (Fuel, r)
  | S f =>
      do i <- in_first ;
      match i with
      | Some (RIEvent (EvState c)) => handle_state_change c ;; in_next ;; leading_changes f
      | _ => ret tt
      end
  end.

Definition in_length : R nat := fun r => (Ok (length (peeked (r_in r)) + length (iter (r_in r)))%nat, r).

(** [Event::Begin]. (src/mathml.rs:136-329) *)
Definition begin_group (g : grouping) : R unit :=
  modify (set_prev None) ;;
  (if is_math_env g then push_state default_state
   else
     do s <- state ;
     push_state s ;;
     do n <- in_length ;
     leading_changes (S n) ;;
     open_tag (lit "mrow") None ;;
     wr (lit ">") ;;
     mod_state (fun s => mkState (t_font s) None None None None)) ;;
  do e <- open_group g ;
  push_env (ENGroup e).

(** What is written for the end of a group. (src/mathml.rs:344-395) *)
Definition close_group (g : egroup) : R unit :=
  match g with
  | EGNormal => wr (lit "</mrow>")
  | EGLeftRight d => fence d ;; modify (set_prev (Some AtClose)) ;; wr (lit "</mrow>")
  | EGArray cols index =>
      wr (lit "</mtd>") ;;
      if Nat.ltb (length cols) index then panic_with PIndex
      else wr (border_cells (leading_seps (skipn index cols))) ;; wr (lit "</mtr></mtable>")
  | EGCases _ lf =>
      wr (lit "</mtd></mtr></mtable>") ;;
      wr (if lf then [] else lit "<mo stretchy=""true"">}</mo>") ;;
      wr (lit "</mrow>")
  | _ => wr (lit "</mtd></mtr></mtable>")
  end.

(** [Event::End]. (src/mathml.rs:330-396) *)
Definition end_group : R unit :=
  do r <- get ;
  match r_envs r with
  | ENGroup g :: envs =>
      modify (set_envs envs) ;;
      (match r_states r with
       | _ :: l => modify (set_states l)
       | [] => panic_with PExpect
       end) ;;
      modify (set_prev (Some AtInner)) ;;
      close_group g
  | _ => recover
  end.

(** The contents [Event::Visual(Negation)] writes at once. (src/mathml.rs:400-407) *)
Definition negatable (c : content) : bool :=
  match c with CText _ | CNumber _ | CFunction _ => false | _ => true end.

(** [Event::Visual]. (src/mathml.rs:397-429) *)
Definition write_visual (cfg : render_config) (v : visual) : R unit :=
  match v with
  | VNegation =>
      do i <- in_first ;
      (match i with
       | Some (RIEvent (EvContent c)) =>
           if negatable c then write_content cfg c true ;; in_next ;; ret tt
           else open_tag (lit "mrow") (Some (lit "mop-negated")) ;; wr (lit ">") ;; push_env (env_of_visual v)
       | _ => open_tag (lit "mrow") (Some (lit "mop-negated")) ;; wr (lit ">") ;; push_env (env_of_visual v)
       end)
  | _ =>
      push_env (env_of_visual v) ;;
      open_tag (visual_tag v) None ;;
      (match v with
       | VFraction (Some d) => wr (attr (lit "linethickness") (dim_display d))
       | _ => ret tt
       end) ;;
      wr (lit ">")
  end.

(** [width.value < 0.]. (src/mathml.rs:455) *)
Definition f32_negative (x : f32) : bool :=
  match x with
  | S754_infinity s => s
  | S754_finite s _ _ => s
  | _ => false
  end.

(** [Event::Space]. (src/mathml.rs:448-466) *)
Definition space_str (w h d : option dimension) : str :=
  ((match w with
    | Some w =>
        lit "<mspace" ++ attr (lit "width") (dim_display w) ++
        (if f32_negative (dvalue w) then attr (lit "style") (lit "margin-left: " ++ dim_display w) else [])
    | None => []
    end) ++
   (match h with Some h => attr (lit "height") (dim_display h) | None => [] end) ++
   (match d with Some d => attr (lit "depth") (dim_display d) | None => [] end) ++
   lit " />")%list.

(** The position of a script. (src/mathml.rs:432-441) *)
Definition above_below (cfg : render_config) (s : rstate) (p : script_pos) : bool :=
  match p with
  | SPRight => false
  | SPAboveBelow => true
  | SPMovable =>
      match t_style s with
      | Some SDisplay => true
      | Some _ => false
      | None => match c_display cfg with DMBlock => true | DMInline => false end
      end
  end.

(** [EnvironmentFlow::NewLine]. (src/mathml.rs:471-542) *)
Definition write_newline (spacing : option dimension) (hlines : list line) : R unit :=
  mod_state (fun _ => default_state) ;;
  modify (set_prev None) ;;
  do r <- get ;
  match r_envs r with
  | ENGroup EGEquation :: _ => ret tt
  | envs =>
      (match envs with
       | ENGroup (EGArray cols index) :: _ =>
           do s <- of_res (array_close_line cols index) ; wr s
       | _ => wr (lit "</mtd></mtr><mtr")
       end) ;;
      (match spacing with
       | Some d =>
           wr (attr (lit "style") (lit "height: " ++ dim_display d) ++ lit ">")%list ;;
           (match envs with
            | ENGroup (EGArray cols index) :: _ =>
                do (s, i) <- of_res (array_newline cols) ;
                wr s ;;
                do (s, i) <- of_res (empty_row (length cols) cols i index) ;
                wr s ;;
                do s <- of_res (array_close_line cols i) ;
                wr s
            | _ => wr (lit "<mtd class=""menv-nonumber""></mtd></mtr><mtr")
            end)
       | None => ret tt
       end) ;;
      wr (env_horizontal_lines hlines) ;;
      (match envs with
       | ENGroup (EGCases _ lf) :: l => modify (set_envs (ENGroup (EGCases false lf) :: l)) ;; wr (lit "><mtd>")
       | ENGroup (EGSplit _) :: l => modify (set_envs (ENGroup (EGSplit false) :: l)) ;; wr (lit "><mtd>")
       | ENGroup (EGMatrix | EGAlign | EGGather | EGSubArray | EGMultline) :: _ => wr (lit "><mtd>")
       | ENGroup (EGArray cols _) :: l =>
           wr (lit ">") ;;
           do (s, i) <- of_res (array_newline cols) ;
           wr s ;;
           modify (set_envs (ENGroup (EGArray cols i) :: l))
       | ENGroup (EGAlignat p _) :: l => modify (set_envs (ENGroup (EGAlignat p 0) :: l)) ;; wr (lit "><mtd>")
       | _ => recover
       end)
  end.

Definition next_cell : str := lit "</mtd><mtd>".

(** [EnvironmentFlow::Alignment]; [columns_used] is a [u16].
    (src/mathml.rs:543-571) *)
Definition write_alignment : R unit :=
  mod_state (fun _ => default_state) ;;
  modify (set_prev None) ;;
  do r <- get ;
  match r_envs r with
  | ENGroup (EGCases false _ | EGSplit false) :: _ => wr next_cell
  | ENGroup (EGAlign | EGMatrix) :: _ => wr next_cell
  | ENGroup (EGAlignat p used) :: l =>
      if used / 2 <=? p then
        if used =? 65535 then panic_with POverflow
        else modify (set_envs (ENGroup (EGAlignat p (used + 1)) :: l)) ;; wr next_cell
      else recover
  | ENGroup (EGArray cols index) :: l =>
      do (s, i) <- of_res (array_align cols index) ;
      wr s ;;
      modify (set_envs (ENGroup (EGArray cols i) :: l))
  | _ => recover
  end.

(** [{:x}] of a [u8]. (src/mathml.rs:583) *)
Definition hex_digit (n : N) : char := if n <? 10 then 48 + n else 87 + n.
Definition hex_u8 (n : N) : str := if n <? 16 then [hex_digit n] else [hex_digit (n / 16); hex_digit (n mod 16)].

(** An error. (src/mathml.rs:578-588) *)
Definition error_str (c : rgb) (msg : str) : str :=
  let '(r, g, b) := c in
  (lit "<merror style=""border-color: #" ++ hex_u8 r ++ hex_u8 g ++ hex_u8 b ++ lit """><mtext>" ++
   msg ++ lit "</mtext></merror>")%list.

(** [write_event]. (src/mathml.rs:133-590) *)
Definition write_event (cfg : render_config) (i : ritem) : R unit :=
  match i with
  | RIEvent (EvContent c) => write_content cfg c false
  | RIEvent (EvBegin g) => begin_group g
  | RIEvent EvEnd => end_group
  | RIEvent (EvVisual v) => write_visual cfg v
  | RIEvent (EvScript ty pos) =>
      do s <- state ;
      let ab := above_below cfg s pos in
      push_env (env_of_script ty ab) ;;
      open_tag (script_tag ty ab) None ;;
      wr (lit ">")
  | RIEvent (EvSpace w h d) => wr (space_str w h d)
  | RIEvent (EvState c) => handle_state_change c
  | RIEvent (EvFlow (EFNewLine sp hl)) => write_newline sp hl
  | RIEvent (EvFlow EFAlignment) => write_alignment
  | RIEvent (EvFlow (EFStartLines _)) => recover
  | RIErr msg => recover ;; wr (error_str (c_error_color cfg) msg)
  end.

(** ** The document *)

(** The loop that closes the elements that are complete, on the stack [envs].
    (src/mathml.rs:925-957) *)
Fixpoint close_complete (envs : list env) : R unit :=
  match envs with
  | ENVisual v n :: l =>
      if n =? 0 then
        wr (close_str (visual_tag v)) ;;
        set_previous_atom AtInner ;;
        modify (set_envs l) ;;
        close_complete l
      else modify (set_envs (ENVisual v (n - 1) :: l))
  | ENScript ty ab n fn :: l =>
      if n =? 0 then
        wr (close_str (script_tag ty ab)) ;;
        set_previous_atom AtInner ;;
        modify (set_envs l) ;;
        when fn fn_apply ;;
        close_complete l
      else modify (set_envs (ENScript ty ab (n - 1) fn :: l))
  | _ => ret tt
  end.

(** The body of the main loop. (src/mathml.rs:922-957) *)
Definition render_item (cfg : render_config) (i : ritem) : R unit :=
  write_event cfg i ;;
  do r <- get ;
  close_complete (r_envs r).

(** The main loop, as many rounds as [fuel]. (src/mathml.rs:922-958) *)
Fixpoint render_loop (cfg : render_config) (fuel : nat) : R unit :=
  match fuel with
  | O => fun r => (Fuel, r)
  | S f =>
      do i <- in_next ;
      match i with
      | None => ret tt
      | Some i => render_item cfg i ;; render_loop cfg f
      end
  end.

(** The elements closed by the recovery. (src/mathml.rs:962-979, 985-1002) *)
Definition recover_str (e : env) : str :=
  match e with
  | ENGroup _ => []
  | ENVisual v _ => close_str (visual_tag v)
  | ENScript ty ab _ _ => close_str (script_tag ty ab)
  end.

(** The recovery: both loops of the code do the same, and the second one finds
    the stack empty after the first. (src/mathml.rs:960-1004) *)
Definition recovery : R unit := modify (fun r =>
  mkRst (r_in r) (r_out r ++ flat_map recover_str (r_envs r)) [] [last (r_states r) default_state] (r_prev r) (r_err r)).

(** The opening and the end of the document. (src/mathml.rs:908-920, 1006-1015) *)
Definition prologue (cfg : render_config) : str :=
  (lit "<math" ++ attr (lit "display") (display_str (c_display cfg)) ++
   (if c_xml cfg then attr (lit "xmlns") (lit "http://www.w3.org/1998/Math/MathML") else []) ++
   lit ">" ++
   (match c_annotation cfg with Some _ => lit "<semantics><mrow>" | None => [] end))%list.
Definition epilogue (cfg : render_config) : str :=
  ((match c_annotation cfg with
    | Some a => lit "</mrow><annotation encoding=""application/x-tex"">" ++ a ++ lit "</annotation></semantics>"
    | None => []
    end) ++ lit "</math>")%list.

(** [MathmlWriter::new]. (src/mathml.rs:36-56) *)
Definition new_writer (out : str) (items : list ritem) : rst :=
  mkRst (mkPeek [] items) out [] [default_state] None false.

(** [write]. (src/mathml.rs:902-1016) *)
Definition write (cfg : render_config) : R unit :=
  wr (prologue cfg) ;;
  do n <- in_length ;
  render_loop cfg (S n) ;;
  recovery ;;
  wr (epilogue cfg).

(** [push_mathml]: the new content of the string. (src/mathml.rs:1492-1503) *)
Definition push_mathml (cfg : render_config) (string : str) (items : list ritem) : res str :=
  match write cfg (new_writer string items) with
  | (Ok _, r) => Ok (r_out r)
  | (Err e, _) => Err e
  | (Panic p, _) => Panic p
  | (Fuel, _) => Fuel
  end.
