(** * Prim: the kinds of arms of [handle_primitive].

    One constructor per shape of arm of the [match] of [handle_primitive]
    (src/parser/primitives.rs:136-1961); the table from names to these is
    PrimTable.v, the behaviour of each is in Primitives.v. *)

From Coq Require Import List NArith ZArith Bool.
From Verif Require Import Base Float32 Event.
Import ListNotations.
Open Scope N_scope.

(** [AtomClass]. (src/parser/primitives.rs:2310-2319) *)
Inductive atom_class := AtOrd | AtOp | AtBin | AtRel | AtOpen | AtClose | AtPunct | AtInner.

(** [ordinary]. (src/parser/primitives.rs:2272-2277) *)
Definition ordinary (c : char) : event := EvContent (COrdinary c false).
(** [relation]. (src/parser/primitives.rs:2280-2285) *)
Definition relation (c : char) : event := EvContent (CRelation c None false).
(** [multirelation]. (src/parser/primitives.rs:2287-2292) *)
Definition multirelation (a b : char) : event := EvContent (CRelation a (Some b) false).
(** [binary]. (src/parser/primitives.rs:2295-2300) *)
Definition binary (c : char) : event := EvContent (CBinaryOp c false).

(** [Dimension::new(0., DimensionUnit::Em)]. (src/parser/primitives.rs:1375) *)
Definition dim_zero_em : dimension := mkDim (f32_lit 0 0) UEm.

Inductive prim :=
| PSimple (e : event)                   (* an arm that is just an event *)
| PFunction                             (* 137-139: Function(control_sequence) *)
| PFunctionLim                          (* 140-144 *)
| PFunNameLim (name : str)              (* 145-154 *)
| POperatorname                         (* 156-168 *)
| PPmod                                 (* 170-196 *)
| PAtom (k : atom_class)                (* 205-216 *)
| PMathop                               (* 206-210 *)
| PDots                                 (* 318-324 *)
| PFontChange (f : font)                (* 413-418 *)
| PFontGroup (f : option font)          (* 423-443 *)
| PStyleChange (s : style)              (* 448-451 *)
| PColor                                (* 456-467 *)
| PTextcolor                            (* 468-486 *)
| PColorbox                             (* 487-502 *)
| PFcolorbox                            (* 503-528 *)
| PSized (s : delim_size)               (* 535-538 *)
| PLeft                                 (* 540-568 *)
| PMiddle                               (* 571-578 *)
| PUnbalanced                           (* 579-581, 1550, 1901 *)
| PLargeOp (c : char) (movable : bool)  (* 588-630 *)
| PSmallint                             (* 607-613 *)
| PAccent (c : char) (stretchy setpos : bool)  (* 635-693 *)
| PUnder (c : char) (setpos : bool)     (* 637-693 *)
| PKern | PHskip | PMkern | PMskip | PHspace | PSpaceCmd  (* 748-825 *)
| PXArrow (c : char)                    (* 1244-1283 *)
| PFraction (o c : option char) (bar : option dimension) (s : option style) (* 1288-1397 *)
| PGenfrac                              (* 1292-1362 *)
| POverset (ty : script_type)           (* 1398-1425 *)
| PBuildrel                             (* 1426-1440 *)
| PSubstack                             (* 1441-1452 *)
| PSideset                              (* 1453-1459 *)
| PSqrt                                 (* 1464-1479 *)
| PSurd                                 (* 1480-1490 *)
| PText (f : option font)               (* 1504-1511 *)
| PNot                                  (* 1513-1518 *)
| PChar                                 (* 1519-1529 *)
| PRelax                                (* 1530-1536 *)
| PBegingroup                           (* 1538-1549 *)
| PBegin                                (* 1552-1900 *)
| PNewline                              (* 1902-1920 *)
| PDef | PLet | PFuturelet              (* 1936-1956 *)
| PNewcommand (should_exist : option bool) (* 1957-1959 *)
| PUnknown.                             (* 1960 *)
