(** * SpecDraw: the MathML of a formula, as a tree made from a tree.

    A stream of events of the documented shape is the text of a tree of events.
    [draw] gives the elements of each node from the node itself, the element it
    stands in, the font, colours and style in force, and the classes of the atoms
    before and after it. There is no stack, no counter and no looking ahead; the
    renderer is not mentioned. *)

From Coq Require Import List NArith ZArith Bool SpecFloat.
From Verif Require Import Base Float32 Event Tables Prim Spans SpecEvent.
Import ListNotations.
Open Scope N_scope.
Open Scope list_scope.

(** ** Elements *)

(** [Glued] is an attribute without a space before it, [Chars] is text as it is
    written, entities included. *)
Inductive att := Att (name value : str) | Glued (name value : str).
Inductive xml :=
| Elem (name : str) (atts : list att) (children : list xml)
| Void (name : str) (atts : list att)
| Chars (s : str).

Definition quoted (v : str) : str := [34] ++ v ++ [34].
Definition print_att (a : att) : str :=
  match a with Att n v => [32] ++ n ++ [61] ++ quoted v | Glued n v => n ++ [61] ++ quoted v end.
Definition print_atts (l : list att) : str := flat_map print_att l.

Fixpoint print (x : xml) : str :=
  match x with
  | Elem n a ks => [60] ++ n ++ print_atts a ++ [62] ++ flat_map print ks ++ lit "</" ++ n ++ [62]
  | Void n a => [60] ++ n ++ print_atts a ++ lit " />"
  | Chars s => s
  end.
Definition prints (l : list xml) : str := flat_map print l.

(** ** Trees of events *)

(** A table has horizontal lines before its first row, the cells of its rows, and
    what separates them. A group starts with state changes. [TLost]: lines that are
    not at the start of a table. *)
Inductive tree :=
| TContent (c : content)
| TSpace (w h d : option dimension)
| TState (c : state_change)
| TLost (ls : list line)
| TGroup (cs : list state_change) (body : list tree)
| TFenced (l r : option char) (cs : list state_change) (body : list tree)
| TTable (g : grouping) (lines : option (list line)) (rows : list (list (list tree))) (breaks : list (option dimension * list line))
| TVisual (v : visual) (ts : list tree)
| TScript (ty : script_type) (pos : script_pos) (ts : list tree).

(** Between the parts of a list. *)
Fixpoint between (l : list (list event)) (seps : list (list event)) : list event :=
  match l, seps with
  | x :: l', s :: seps' => x ++ s ++ between l' seps'
  | x :: _, [] => x
  | [], _ => []
  end.
Definition row_events (cells : list (list event)) : list event := between cells (map (fun _ => [EvFlow EFAlignment]) (tl cells)).
Definition break_event (b : option dimension * list line) : list event := [EvFlow (EFNewLine (fst b) (snd b))].

Fixpoint events (t : tree) : list event :=
  match t with
  | TContent c => [EvContent c]
  | TSpace w h d => [EvSpace w h d]
  | TState c => [EvState c]
  | TLost ls => [EvFlow (EFStartLines ls)]
  | TGroup cs body => EvBegin GNormal :: map EvState cs ++ flat_map events body ++ [EvEnd]
  | TFenced l r cs body => EvBegin (GLeftRight l r) :: map EvState cs ++ flat_map events body ++ [EvEnd]
  | TTable g lines rows breaks =>
      EvBegin g :: match lines with Some ls => [EvFlow (EFStartLines ls)] | None => [] end ++
      between (map (fun row => row_events (map (fun cell => flat_map events cell) row)) rows) (map break_event breaks) ++ [EvEnd]
  | TVisual v ts => EvVisual v :: flat_map events ts
  | TScript ty pos ts => EvScript ty pos :: flat_map events ts
  end.
Definition all_events (ts : list tree) : list event := flat_map events ts.

(** Visuals and scripts have the children they require, tables one break between
    any two rows, no more cells than the environment allows, and the lines and
    changes at the start of tables and groups are theirs. *)
Definition starts_changing (body : list tree) : bool := match body with TState _ :: _ => true | _ => false end.
Definition starts_lost (cell : list tree) : bool := match cell with TLost _ :: _ => true | _ => false end.
Definition row_ok (m : N) (row : list (list tree)) : bool :=
  match row with [] => false | _ :: l => N.of_nat (length l) <=? m end.
Definition table_ok (g : grouping) (lines : option (list line)) (rows : list (list (list tree))) (breaks : list (option dimension * list line)) : bool :=
  match marks g with
  | Some m =>
      forallb (row_ok m) rows && Nat.eqb (length rows) (S (length breaks)) &&
      match lines, rows with None, (cell :: _) :: _ => negb (starts_lost cell) | _, _ => true end
  | None => false
  end.
Fixpoint proper (t : tree) : bool :=
  match t with
  | TGroup _ body | TFenced _ _ _ body => negb (starts_changing body) && forallb proper body
  | TTable g lines rows breaks => table_ok g lines rows breaks && forallb (forallb (forallb proper)) rows
  | TVisual v ts => Nat.eqb (length ts) (visual_arity v) && forallb proper ts
  | TScript ty _ ts => Nat.eqb (length ts) (script_arity ty) && forallb proper ts
  | _ => true
  end.

(** ** What is in force *)

Record look := mkLook {
  k_font : option font;
  k_colour : option rgb;
  k_border : option rgb;
  k_background : option rgb;
  k_style : option style
}.
Definition plain_look : look := mkLook None None None None None.
Definition changed (k : look) (c : state_change) : look :=
  match c with
  | SCFont f => mkLook f (k_colour k) (k_border k) (k_background k) (k_style k)
  | SCColor x CTText => mkLook (k_font k) (Some x) (k_border k) (k_background k) (k_style k)
  | SCColor x CTBorder => mkLook (k_font k) (k_colour k) (Some x) (k_background k) (k_style k)
  | SCColor x CTBackground => mkLook (k_font k) (k_colour k) (k_border k) (Some x) (k_style k)
  | SCStyle x => mkLook (k_font k) (k_colour k) (k_border k) (k_background k) (Some x)
  end.
(** Colours and style are inherited from the element around a group, the font is not. *)
Definition font_only (k : look) : look := mkLook (k_font k) None None None None.

(** Where a node stands: directly in a group or cell, or as a child, by number,
    of a visual or a script. *)
Inductive place := PBody | PVisual (v : visual) (i : nat) | PScript (i : nat).
Definition as_script (p : place) : bool := match p with PScript (S _) => true | _ => false end.
(** The places whose atoms are not the previous atom of what follows. *)
Definition aside (p : place) : bool :=
  match p with PScript (S _) | PVisual (VRoot | VFraction _) (S _) => true | _ => false end.
(** The places where a binary operator may have space around it. *)
Definition spaced (p : place) : bool :=
  match p with PBody | PVisual VNegation _ => true | _ => false end.

(** ** Attributes *)

Definition style_atts (s : style) : list att :=
  let '(d, l) := match s with SDisplay => (lit "true", [48]) | SText => (lit "false", [48])
                            | SScript => (lit "false", [49]) | SScriptScript => (lit "false", [50]) end in
  [Att (lit "displaystyle") d; Att (lit "scriptlevel") l].
Definition rgb_css (c : rgb) : str :=
  let '(r, g, b) := c in lit "rgb(" ++ n_dec r ++ [32] ++ n_dec g ++ [32] ++ n_dec b ++ lit ")".
Definition opt {A B} (f : A -> B) (o : option A) : list B := match o with Some x => [f x] | None => [] end.
Fixpoint joined (sep : str) (l : list str) : str :=
  match l with
  | [] => []
  | [x] => x
  | x :: l' => x ++ sep ++ joined sep l'
  end.
Definition css (k : look) : list str :=
  opt (fun c => lit "color: " ++ rgb_css c) (k_colour k) ++
  opt (fun c => lit "border: 0.06em solid " ++ rgb_css c) (k_border k) ++
  opt (fun c => lit "background-color: " ++ rgb_css c) (k_background k).
(** [quiet]: a script, where the style is that of scripts. *)
Definition look_atts (quiet : bool) (k : look) : list att :=
  match k_style k with Some s => if quiet then [] else style_atts s | None => [] end ++
  match css k with [] => [] | l => [Att (lit "style") (joined (lit "; ") l)] end.
Definition class (c : str) : list att := [Att (lit "class") c].
Definition yes (b : bool) : str := if b then lit "true" else lit "false".

(** ** Atoms *)

Definition class_of (c : content) : atom_class :=
  match c with
  | CBinaryOp _ _ => AtBin
  | CLargeOp _ _ => AtOp
  | CRelation _ _ _ => AtRel
  | CDelimiter _ _ DOpen => AtOpen
  | CDelimiter _ _ DClose => AtClose
  | CPunctuation _ => AtPunct
  | _ => AtOrd
  end.
(** The class of the first atom of a node, or of what comes after it. *)
Fixpoint first (t : tree) (after : option atom_class) : option atom_class :=
  match t with
  | TContent c => Some (class_of c)
  | TSpace _ _ _ | TState _ => after
  | TLost _ => None
  | TVisual VNegation ts | TScript _ _ ts => fold_right first after ts
  | _ => Some AtInner
  end.
Definition first_of (ts : list tree) (after : option atom_class) : option atom_class := fold_right first after ts.

(** An atom after which a function has space before it, and a binary operator is one. *)
Definition operand (a : option atom_class) : bool :=
  match a with Some (AtInner | AtClose | AtOrd) => true | _ => false end.
Definition follows_operator (a : option atom_class) : bool :=
  match a with Some (AtInner | AtBin | AtOp | AtOrd | AtOpen) => true | _ => false end.
Definition next_prev (p : place) (a : atom_class) (prev : option atom_class) : option atom_class :=
  if aside p then prev else Some a.

(** ** Drawing *)

Definition thin : xml := Void (lit "mspace") [Att (lit "width") (lit "0.1667em")].
Definition application : xml := Elem (lit "mo") [] [Chars [8289]].
(** What follows a function. *)
Definition applied (after : option atom_class) : list xml :=
  match after with
  | Some (AtOpen | AtPunct | AtClose) => [application]
  | Some _ => [application; thin]
  | None => []
  end.
Definition is_function (t : tree) : bool := match t with TContent (CFunction _) => true | _ => false end.

Definition entity (c : char) : str :=
  if c =? 38 then lit "&amp;" else if c =? 60 then lit "&lt;" else if c =? 62 then lit "&gt;" else [c].
Definition side_space (b : bool) : str := if b then lit "&nbsp;" else [].
Definition starts_blank (s : str) : bool := match s with c :: _ => is_ws c | [] => false end.

Definition drawing := (list xml * look * option atom_class)%type.

Section Draw.
Variable block : bool.               (* the formula is displayed as a block *)
Variable upright : char -> bool.     (* the letters that are upright by default *)
Variable glyph : font -> char -> char.

Definition in_font (f : option font) (s : str) : str := match f with Some f => map (glyph f) s | None => s end.

Definition text_of (k : look) (s : str) : str :=
  side_space (starts_blank s) ++ flat_map entity (in_font (k_font k) (trim s)) ++ side_space (starts_blank (rev s)).
Definition number_of (k : look) (s : str) : str :=
  in_font (match k_font k with Some FBoldSymbol => Some FBold | o => o end) s.

(** A letter: whether it is marked upright, and the character. *)
Definition letter_of (k : look) (c : char) : list att * char :=
  match k_font k with
  | Some FUpRight => ([Att (lit "mathvariant") (lit "normal")], c)
  | Some FBoldSymbol => ([], glyph (if upright c then FBold else FBoldItalic) c)
  | Some f => ([], glyph f c)
  | None => (if upright c then [Att (lit "mathvariant") (lit "normal")] else [], c)
  end.

Definition small_class (b : bool) : list att := if b then class (lit "small") else [].
Definition slash (b : bool) : str := if b then [824] else [].

(** The sizes of [\big], [\Big], [\bigg] and [\Bigg] in amsmath. *)
Definition delimiter_em (z : delim_size) : str :=
  match z with DBig => lit "1.2" | DBIG => lit "1.8" | DBigg => lit "2.4" | DBIGG => lit "3" end.

Definition draw_content (c : content) (negated : bool) (p : place) (k : look) (prev after : option atom_class)
  : list xml * option atom_class :=
  let atts := look_atts (as_script p) k in
  let one n more s := [Elem (lit n) (atts ++ more) [Chars (s ++ slash negated)]] in
  match c with
  | CText s => ([Elem (lit "mtext") atts [Chars (text_of k s)]], next_prev p AtOrd prev)
  | CNumber s => ([Elem (lit "mn") atts [Chars (number_of k s)]], next_prev p AtOrd prev)
  | CFunction s =>
      ((if operand prev then [thin] else []) ++
       [Elem (lit "mi") (atts ++ if Nat.eqb (length s) 1 then [Att (lit "mathvariant") (lit "normal")] else []) [Chars s]] ++
       match p with PScript _ => [] | _ => applied after end,
       next_prev p AtOp prev)
  | COrdinary c true => ([Elem (lit "mo") [Att (lit "stretchy") (lit "true")] [Chars [c]]], prev)
  | COrdinary c false =>
      ([Elem (lit "mi") (atts ++ fst (letter_of k c)) [Chars (snd (letter_of k c) :: slash negated)]], next_prev p AtOrd prev)
  | CBinaryOp c small =>
      let bin := operand prev && spaced p && follows_operator after in
      ([Elem (if bin then lit "mo" else lit "mi") (atts ++ small_class small) [Chars (c :: slash negated)]],
       next_prev p (if bin then AtBin else AtOrd) prev)
  | CRelation c d small =>
      ([Elem (lit "mo") (atts ++ small_class small) [Chars (c :: opt (fun d => d) d ++ slash negated)]], next_prev p AtRel prev)
  | CLargeOp c small =>
      ([Elem (lit "mo") (atts ++ (if small then [Att (lit "largeop") (lit "false")] else []) ++
         [Att (lit "movablelimits") (lit "false")]) [Chars (c :: slash negated)]], next_prev p AtOp prev)
  | CDelimiter c size ty =>
      let b := yes (match ty, size with DFence, _ | _, Some _ => true | _, None => false end) in
      let em z := delimiter_em z ++ lit "em" in
      ([Elem (lit "mo") (atts ++ [Att (lit "symmetric") b; Att (lit "stretchy") b] ++
         match size with Some z => [Glued (lit "minsize") (em z); Att (lit "maxsize") (em z)] | None => [] end)
         [Chars (c :: slash negated)]],
       next_prev p (match ty with DOpen => AtOpen | DFence => AtPunct | DClose => AtClose end) prev)
  | CPunctuation c => ([Elem (lit "mo") atts [Chars (c :: slash negated)]], next_prev p AtPunct prev)
  end.

(** A space, unless it has no width: then its attributes stand alone. *)
Definition below_zero (x : f32) : bool := match x with S754_infinity s | S754_finite s _ _ => s | _ => false end.
Definition draw_space (w h d : option dimension) : xml :=
  let more := opt (fun x => Att (lit "height") (dim_display x)) h ++ opt (fun x => Att (lit "depth") (dim_display x)) d in
  match w with
  | Some w => Void (lit "mspace") (Att (lit "width") (dim_display w) ::
      (if below_zero (dvalue w) then [Att (lit "style") (lit "margin-left: " ++ dim_display w)] else []) ++ more)
  | None => Chars (print_atts more ++ lit " />")
  end.

(** A fence, which stretches. *)
Definition draw_fence (quiet : bool) (k : look) (c : option char) : list xml :=
  opt (fun c => Elem (lit "mo") (look_atts quiet k ++ [Att (lit "stretchy") (lit "true")]) [Chars [c]]) c.

(** ** Tables *)

(** The lines before the first column; the columns, each with the lines after it. *)
Fixpoint columns (cols : list array_col) : list line * list (col_align * list line) :=
  match cols with
  | [] => ([], [])
  | ACSep l :: cols' => let '(ls, cs) := columns cols' in (l :: ls, cs)
  | ACColumn a :: cols' => let '(ls, cs) := columns cols' in ([], (a, ls) :: cs)
  end.

Definition line_name (l : line) : str := match l with LSolid => lit "solid" | LDashed => lit "dashed" end.
Definition align_name (a : col_align) : list str :=
  match a with CALeft => [lit "cell-left"] | CACenter => [] | CARight => [lit "cell-right"] end.
Definition cell (classes : list str) (content : list xml) : xml :=
  Elem (lit "mtd") (match classes with [] => [] | l => class (joined [32] l) end) content.
Definition border (side : str) (l : line) : xml :=
  cell [lit "menv-" ++ side ++ lit "-" ++ line_name l; lit "menv-border-only"] [].

(** The cells of a row: each column's border follows its cell, further lines have
    cells of their own. [lead] classes belong to the first cell. *)
Fixpoint array_cells (lead : list str) (cs : list (col_align * list line)) (contents : list (list xml)) : list xml :=
  match contents, cs with
  | x :: contents', (a, ls) :: cs' =>
      cell (lead ++ align_name a ++ match ls with l :: _ => [lit "menv-right-" ++ line_name l] | [] => [] end) x ::
      map (border (lit "right")) (tl ls) ++ array_cells [] cs' contents'
  | _, _ => []
  end.
Definition array_row (cols : list array_col) (contents : list (list xml)) : list xml :=
  let '(ls, cs) := columns cols in
  map (border (lit "left")) (removelast ls) ++
  array_cells (match ls with [] => [] | _ => [lit "menv-left-" ++ line_name (last ls LSolid)] end) cs contents.

Definition row_cells (g : grouping) (contents : list (list xml)) : list xml :=
  match g with GArray cols => array_row cols contents | _ => map (cell []) contents end.

(** The lines above a row: the last is drawn on the row, those before on rows of their own. *)
Definition line_class (l : line) : list att := class (match l with LSolid => lit "menv-hline" | LDashed => lit "menv-hdashline" end).
Definition unnumbered : xml := cell [lit "menv-nonumber"] [].
Definition with_lines (ls : list line) (cells : list xml) : list xml :=
  map (fun l => Elem (lit "mtr") (line_class l) [unnumbered]) (removelast ls) ++
  [Elem (lit "mtr") (match ls with [] => [] | _ => line_class (last ls LSolid) end) cells].

(** The room between two rows is a row without content, in arrays with as many
    cells as the row above. *)
Definition gap (g : grouping) (above : nat) (d : option dimension) : list xml :=
  opt (fun d => Elem (lit "mtr") [Att (lit "style") (lit "height: " ++ dim_display d)]
    match g with GArray _ => row_cells g (repeat [] above) | _ => [unnumbered] end) d.

Fixpoint draw_rows (g : grouping) (ls : list line) (rows : list (list (list xml))) (breaks : list (option dimension * list line)) : list xml :=
  match rows with
  | [] => []
  | row :: rows' =>
      with_lines ls (row_cells g row) ++
      match breaks with
      | (d, ls') :: breaks' => gap g (length row) d ++ draw_rows g ls' rows' breaks'
      | [] => []
      end
  end.

Definition classes (l : list str) : list att := match l with [] => [] | _ => class (joined [32] l) end.
Definition numbered (b : bool) : list str := if b then [lit "menv-with-eqn"] else [].
Definition side (a : col_align) : list str :=
  match a with CALeft => [lit "menv-cells-left"] | CACenter => [] | CARight => [lit "menv-cells-right"] end.
Definition table_classes (g : grouping) : list str :=
  match g with
  | GArray _ => [lit "menv-arraylike"]
  | GMatrix a => lit "menv-arraylike" :: side a
  | GCases _ => [lit "menv-cells-left"; lit "menv-cases"]
  | GEquation n | GGather n => numbered n
  | GAlign n => lit "menv-alignlike" :: lit "menv-align" :: numbered n
  | GAligned => [lit "menv-alignlike"; lit "menv-align"]
  | GSubArray a => side a
  | GAlignat _ n => lit "menv-alignlike" :: numbered n
  | GAlignedat _ | GSplit => [lit "menv-alignlike"]
  | GMultline => [lit "menv-multline"]
  | _ => []
  end.
Definition brace (c : char) : xml := Elem (lit "mo") [Att (lit "stretchy") (lit "true")] [Chars [c]].

(** An equation has one cell, whatever the breaks in it. *)
Definition draw_table (g : grouping) (lines : option (list line)) (rows : list (list (list xml))) (breaks : list (option dimension * list line)) : xml :=
  let ls := match lines with Some ls => ls | None => [] end in
  let table := Elem (lit "mtable") (classes (table_classes g))
    match g with
    | GEquation _ => [Elem (lit "mtr") [] [cell [] (concat (concat rows))]]
    | _ => draw_rows g ls rows breaks
    end in
  match g with
  | GCases true => Elem (lit "mrow") [] [brace 123; table]
  | GCases false => Elem (lit "mrow") [] [table; brace 125]
  | _ => table
  end.

(** ** Nodes *)

Definition above_below (k : look) (pos : script_pos) : bool :=
  match pos with
  | SPRight => false
  | SPAboveBelow => true
  | SPMovable => match k_style k with Some SDisplay => true | Some _ => false | None => block end
  end.
Definition script_name (ty : script_type) (ab : bool) : str :=
  match ty, ab with
  | STSub, false => lit "msub" | STSup, false => lit "msup" | STSubSup, false => lit "msubsup"
  | STSub, true => lit "munder" | STSup, true => lit "mover" | STSubSup, true => lit "munderover"
  end.
Definition visual_name (v : visual) : str :=
  match v with VSqrt => lit "msqrt" | VRoot => lit "mroot" | VFraction _ => lit "mfrac" | VNegation => lit "mrow" end.
Definition can_slash (c : content) : bool := match c with CText _ | CNumber _ | CFunction _ => false | _ => true end.

(** Nodes side by side, in the places [at_ i], [at_ (S i)], … *)
Definition draw_all (draw : tree -> place -> look -> option atom_class -> option atom_class -> drawing) (at_ : nat -> place) :=
  fix go (i : nat) (ts : list tree) (k : look) (prev after : option atom_class) : drawing :=
  match ts with
  | [] => ([], k, prev)
  | t :: ts' =>
      let '(x, k1, p1) := draw t (at_ i) k prev (first_of ts' after) in
      let '(xs, k2, p2) := go (S i) ts' k1 p1 after in
      (x ++ xs, k2, p2)
  end.
Definition in_body (i : nat) : place := PBody.
Definition xmls (d : drawing) : list xml := fst (fst d).

(** A cell starts afresh. *)
Definition draw_cell (draw : tree -> place -> look -> option atom_class -> option atom_class -> drawing) (ts : list tree) : list xml :=
  xmls (draw_all draw in_body 0 ts plain_look None None).

(** Before the fence at the end, the colours around the group apply again. A
    negated character stands before itself. *)
Fixpoint draw (t : tree) (p : place) (k : look) (prev after : option atom_class) {struct t} : drawing :=
  match t with
  | TContent c => let '(x, prev') := draw_content c false p k prev after in (x, k, prev')
  | TSpace w h d => ([draw_space w h d], k, prev)
  | TState c => ([], changed k c, prev)
  | TLost _ => ([], k, prev)
  | TGroup cs body =>
      let k' := fold_left changed cs k in
      ([Elem (lit "mrow") (look_atts (as_script p) k')
         (xmls (draw_all draw in_body 0 body (font_only k') None None))], k, Some AtInner)
  | TFenced l r cs body =>
      let k' := fold_left changed cs k in
      ([Elem (lit "mrow") (look_atts (as_script p) k')
         (draw_fence (as_script p) (font_only k') l ++
          xmls (draw_all draw in_body 0 body (font_only k') (Some AtOpen) None) ++
          draw_fence (as_script p) k r)], k, Some AtClose)
  | TTable g lines rows breaks =>
      ([draw_table g lines (map (map (draw_cell draw)) rows) breaks], k, Some AtInner)
  | TVisual VNegation [TContent c] =>
      if can_slash c then let '(x, prev') := draw_content c true p k prev (Some (class_of c)) in (x, k, prev')
      else
        let '(x, _) := draw_content c false (PVisual VNegation 0) k prev after in
        ([Elem (lit "mrow") (look_atts (as_script p) k ++ class (lit "mop-negated")) x], k, Some AtInner)
  | TVisual VNegation ts =>
      let '(x, k', _) := draw_all draw (PVisual VNegation) 0 ts k prev after in
      ([Elem (lit "mrow") (look_atts (as_script p) k ++ class (lit "mop-negated")) x], k', Some AtInner)
  | TVisual v ts =>
      let '(x, k', prev') := draw_all draw (PVisual v) 0 ts k prev after in
      ([Elem (visual_name v) (look_atts false k ++
          match v with VFraction (Some d) => [Att (lit "linethickness") (dim_display d)] | _ => [] end) x],
       k', match v with VSqrt => Some AtInner | _ => prev' end)
  | TScript ty pos ts =>
      let '(x, k', prev') := draw_all draw PScript 0 ts k prev after in
      (Elem (script_name ty (above_below k pos)) (look_atts false k) x ::
       (if existsb is_function ts then applied after else []), k', prev')
  end.
End Draw.

(** The document around the formula. *)
Definition document_of (block xmlns : bool) (note : option str) (formula : list xml) : xml :=
  Elem (lit "math")
    (Att (lit "display") (if block then lit "block" else lit "inline") ::
     (if xmlns then [Att (lit "xmlns") (lit "http://www.w3.org/1998/Math/MathML")] else []))
    match note with
    | None => formula
    | Some a => [Elem (lit "semantics") []
        [Elem (lit "mrow") [] formula; Elem (lit "annotation") [Att (lit "encoding") (lit "application/x-tex")] [Chars a]]]
    end.
