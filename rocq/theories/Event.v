(** * Event: the event type of the parser (src/event.rs). *)

From Coq Require Import List NArith ZArith Bool.
From Verif Require Import Base Float32.
Import ListNotations.
Open Scope N_scope.

(** [DimensionUnit]. (src/event.rs:797-824) *)
Inductive dim_unit := UEm | UMu | UEx | UPt | UPc | UIn | UBp | UCm | UMm | UDd | UCc | USp.

(** [Dimension]. (src/event.rs:719-733) *)
Record dimension := mkDim { dvalue : f32; dunit : dim_unit }.

(** [Font]. (src/event.rs:226-264) *)
Inductive font :=
| FBoldScript | FBoldItalic | FBold | FBoldSymbol | FFraktur | FScript | FMonospace
| FSansSerif | FDoubleStruck | FDoubleStruckItalic | FItalic | FBoldFraktur
| FSansSerifBoldItalic | FSansSerifItalic | FBoldSansSerif | FUpRight.

(** [Style]. (src/event.rs:269-280) *)
Inductive style := SDisplay | SText | SScript | SScriptScript.

(** [ColorTarget]. (src/event.rs:296-305) *)
Inductive color_target := CTText | CTBackground | CTBorder.

(** An RGB triple [(u8, u8, u8)]. (src/event.rs:289) *)
Definition rgb := (N * N * N)%type.

(** [StateChange] and [ColorChange]. (src/event.rs:210-224, 282-294) *)
Inductive state_change :=
| SCFont (f : option font)
| SCColor (color : rgb) (target : color_target)
| SCStyle (s : style).

(** [ScriptType], [ScriptPosition]. (src/event.rs:180-203) *)
Inductive script_type := STSub | STSup | STSubSup.
Inductive script_pos := SPRight | SPAboveBelow | SPMovable.

(** [DelimiterSize], [DelimiterType]. (src/event.rs:639-672) *)
Inductive delim_size := DBig | DBIG | DBigg | DBIGG.
Inductive delim_type := DOpen | DFence | DClose.

(** [Line], [ColumnAlignment], [ArrayColumn]. (src/event.rs:617-637, 674-681) *)
Inductive line := LSolid | LDashed.
Inductive col_align := CALeft | CACenter | CARight.
Inductive array_col := ACColumn (a : col_align) | ACSep (l : line).

(** [Content]; [RelationContent] is the pair [(content, second)].
    (src/event.rs:100-153, 683-701) *)
Inductive content :=
| CText (s : str)
| CNumber (s : str)
| CFunction (s : str)
| COrdinary (c : char) (stretchy : bool)
| CLargeOp (c : char) (small : bool)
| CBinaryOp (c : char) (small : bool)
| CRelation (c : char) (second : option char) (small : bool)
| CDelimiter (c : char) (size : option delim_size) (ty : delim_type)
| CPunctuation (c : char).

(** [Visual]. (src/event.rs:155-175) *)
Inductive visual := VSqrt | VRoot | VFraction (bar : option dimension) | VNegation.

(** [Grouping]. (src/event.rs:310-390) *)
Inductive grouping :=
| GNormal
| GLeftRight (l r : option char)
| GArray (cols : list array_col)
| GMatrix (a : col_align)
| GCases (left : bool)
| GEquation (eq_numbers : bool)
| GAlign (eq_numbers : bool)
| GAligned
| GSubArray (a : col_align)
| GAlignat (pairs : N) (eq_numbers : bool)
| GAlignedat (pairs : N)
| GGather (eq_numbers : bool)
| GGathered
| GMultline
| GSplit.

(** [Grouping::is_math_env]. (src/event.rs:392-396) *)
Definition is_math_env (g : grouping) : bool :=
  match g with GNormal | GLeftRight _ _ => false | _ => true end.

(** [EnvironmentFlow]. (src/event.rs:398-487) *)
Inductive env_flow :=
| EFAlignment
| EFNewLine (spacing : option dimension) (hlines : list line)
| EFStartLines (lines : list line).

(** [Event]. (src/event.rs:57-98) *)
Inductive event :=
| EvContent (c : content)
| EvBegin (g : grouping)
| EvEnd
| EvVisual (v : visual)
| EvScript (ty : script_type) (pos : script_pos)
| EvSpace (width height depth : option dimension)
| EvState (s : state_change)
| EvFlow (f : env_flow).

(** ** Grouping kinds *)

(** The name inside [\begin{...}] of an environment kind: the shared part of
    [opening_str] and [closing_str]. (src/event.rs:517-554, 564-601) *)
Definition matrix_name (ty : matrix_type) : str :=
  match ty with
  | MtNormal => lit "matrix"
  | MtSmall => lit "smallmatrix"
  | MtParens => lit "pmatrix"
  | MtBrackets => lit "bmatrix"
  | MtBraces => lit "Bmatrix"
  | MtVertical => lit "vmatrix"
  | MtDoubleVertical => lit "Vmatrix"
  end.

Definition star (b : bool) : str := if b then lit "*" else [].

Definition env_name (k : gkind) : str :=
  match k with
  | GKArray false => lit "array"
  | GKArray true => lit "darray"
  | GKMatrix ty spec => (matrix_name ty ++ star spec)%list
  | GKCases true false => lit "cases"
  | GKCases true true => lit "dcases"
  | GKCases false false => lit "rcases"
  | GKCases false true => lit "drcases"
  | GKEquation n => (lit "equation" ++ star (negb n))%list
  | GKAlign n => (lit "align" ++ star (negb n))%list
  | GKAligned => lit "aligned"
  | GKSubArray => lit "subarray"
  | GKAlignat n => (lit "alignat" ++ star (negb n))%list
  | GKAlignedat => lit "alignedat"
  | GKGather n => (lit "gather" ++ star (negb n))%list
  | GKGathered => lit "gathered"
  | GKMultline => lit "multline"
  | GKSplit => lit "split"
  | _ => []
  end.

(** [GroupingKind::opening_str]. (src/event.rs:511-556) *)
Definition opening_str (k : gkind) : str :=
  match k with
  | GKNormal => lit "{"
  | GKOptional => lit "["
  | GKBeginEnd => lit "\begin"
  | GKLeftRight => lit "\left"
  | _ => (lit "\begin{" ++ env_name k ++ lit "}")%list
  end.

(** [GroupingKind::closing_str]. (src/event.rs:558-603) *)
Definition closing_str (k : gkind) : str :=
  match k with
  | GKNormal => lit "}"
  | GKOptional => lit "]"
  | GKBeginEnd => lit "\end"
  | GKLeftRight => lit "\right"
  | _ => (lit "\end{" ++ env_name k ++ lit "}")%list
  end.

(** ** Dimensions *)

(** The constants of [Display for Dimension]. (src/event.rs:754-758) *)
Definition bp_per_pt : f32 := f32_div (f32_lit 72 0) (f32_lit 7227 2).
Definition bp_per_sp : f32 := f32_mul (f32_div (f32_lit 1 0) (f32_of_Z 65536)) bp_per_pt.
Definition bp_per_dd : f32 := f32_mul (f32_div (f32_lit 1238 0) (f32_lit 1157 0)) bp_per_pt.
Definition bp_per_cc : f32 := f32_mul (f32_lit 12 0) bp_per_dd.
Definition em_per_mu : f32 := f32_div (f32_lit 1 0) (f32_lit 18 0).

(** [Display for Dimension]. (src/event.rs:752-794) *)
Definition dim_display (d : dimension) : str :=
  let v := dvalue d in
  let '(v, u) :=
    match dunit d with
    | UEm => (v, lit "em")
    | UMu => (f32_mul v em_per_mu, lit "mu")
    | UEx => (v, lit "ex")
    | UMm => (v, lit "mm")
    | UCm => (v, lit "cm")
    | UIn => (v, lit "in")
    | UBp => (v, lit "pt")
    | UPt => (f32_mul v bp_per_pt, lit "pt")
    | UPc => (f32_mul v bp_per_pt, lit "pc")
    | USp => (f32_mul v bp_per_sp, lit "pt")
    | UDd => (f32_mul v bp_per_dd, lit "pt")
    | UCc => (f32_mul v bp_per_cc, lit "pt")
    end in
  (f32_display v ++ u)%list.

(** [DelimiterSize::to_em]. (src/event.rs:653-660) *)
Definition size_to_em (s : delim_size) : f32 :=
  match s with
  | DBig => f32_lit 12 1
  | DBIG => f32_lit 18 1
  | DBigg => f32_lit 24 1
  | DBIGG => f32_lit 3 0
  end.
