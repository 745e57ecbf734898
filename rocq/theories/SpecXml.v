(** * SpecXml: when a text is a MathML document.

    A reader of markup, from left to right, written without reference to the
    renderer. It cuts a text into tags, characters and entities, and then checks
    that the tags nest and that each element has the kind of children MathML
    allows. Left out: comments, processing instructions, single quotes, character
    references by number, and which attributes an element may have. *)

From Coq Require Import List NArith Bool.
From Verif Require Import Base.
Import ListNotations.
Open Scope N_scope.

(** An opening tag, a closing tag, an empty element, a character, an entity. *)
Inductive xtag :=
| XO (n : str) (atts : list (str * str))
| XC (n : str)
| XE (n : str) (atts : list (str * str))
| XT (c : char)
| XN (e : str).

(** ** Cutting into tags *)

Inductive xmode :=
| QText                                                  (* between tags *)
| QEnt (e : str)                                         (* after [&] *)
| QLt                                                    (* after [<] *)
| QOpen (n : str)                                        (* in the name of an opening tag *)
| QClose (n : str)                                       (* in the name of a closing tag *)
| QTag (n : str) (atts : list (str * str)) (sp : bool)   (* between attributes; whether after a space *)
| QAttr (n : str) (atts : list (str * str)) (a : str)    (* in the name of an attribute *)
| QEq (n : str) (atts : list (str * str)) (a : str)      (* after [=] *)
| QVal (n : str) (atts : list (str * str)) (a v : str)   (* in the value of an attribute *)
| QSlash (n : str) (atts : list (str * str)).            (* after [/] in an opening tag *)

Definition name_char (c : char) : bool := is_alpha c || is_digit c || (c =? 45).

Definition mem (n : str) (l : list str) : bool := existsb (str_eqb n) l.

(** The entities every reader of XML knows; readers of HTML know more. *)
Definition known (strict : bool) (e : str) : bool :=
  mem e [lit "amp"; lit "lt"; lit "gt"; lit "quot"; lit "apos"]
  || (negb strict && str_eqb e (lit "nbsp")).

(** XML requires a space between attributes; readers of HTML do not. *)
Definition in_tag (strict : bool) (n : str) (atts : list (str * str)) (sp : bool) (c : char)
  : option (list xtag * xmode) :=
  if c =? 62 then Some ([XO n atts], QText)
  else if c =? 32 then Some ([], QTag n atts true)
  else if c =? 47 then Some ([], QSlash n atts)
  else if is_alpha c && (sp || negb strict) then Some ([], QAttr n atts [c])
  else None.

Definition xstep (strict : bool) (m : xmode) (c : char) : option (list xtag * xmode) :=
  match m with
  | QText =>
      if c =? 60 then Some ([], QLt)
      else if c =? 38 then Some ([], QEnt [])
      else Some ([XT c], QText)
  | QEnt e =>
      if c =? 59 then (if known strict e then Some ([XN e], QText) else None)
      else if name_char c then Some ([], QEnt (e ++ [c])%list)
      else None
  | QLt =>
      if c =? 47 then Some ([], QClose [])
      else if is_alpha c then Some ([], QOpen [c])
      else None
  | QOpen n =>
      if name_char c then Some ([], QOpen (n ++ [c])%list) else in_tag strict n [] false c
  | QClose n =>
      if c =? 62 then Some ([XC n], QText)
      else if name_char c then Some ([], QClose (n ++ [c])%list)
      else None
  | QTag n atts sp => in_tag strict n atts sp c
  | QAttr n atts a =>
      if c =? 61 then
        (if existsb (fun p => str_eqb a (fst p)) atts then None else Some ([], QEq n atts a))
      else if name_char c then Some ([], QAttr n atts (a ++ [c])%list)
      else None
  | QEq n atts a => if c =? 34 then Some ([], QVal n atts a []) else None
  | QVal n atts a v =>
      if c =? 34 then Some ([], QTag n (atts ++ [(a, v)])%list false)
      else if (c =? 60) || (c =? 38) then None
      else Some ([], QVal n atts a (v ++ [c])%list)
  | QSlash n atts => if c =? 62 then Some ([XE n atts], QText) else None
  end.

Fixpoint xlex (strict : bool) (m : xmode) (s : str) : option (list xtag * xmode) :=
  match s with
  | [] => Some ([], m)
  | c :: s' =>
      match xstep strict m c with
      | None => None
      | Some (ts, m') =>
          match xlex strict m' s' with
          | Some (l, m'') => Some (ts ++ l, m'')%list
          | None => None
          end
      end
  end.

(** ** Nesting *)

(** Elements that contain text and nothing else. *)
Definition token_elem (n : str) : bool :=
  mem n [lit "mi"; lit "mn"; lit "mo"; lit "mtext"; lit "annotation"].

(** Elements that may stand wherever a formula may. *)
Definition formula_elem (n : str) : bool :=
  mem n [lit "mi"; lit "mn"; lit "mo"; lit "mtext"; lit "mspace"; lit "mrow"; lit "mfrac";
         lit "msqrt"; lit "mroot"; lit "msub"; lit "msup"; lit "msubsup"; lit "munder";
         lit "mover"; lit "munderover"; lit "mtable"; lit "merror"].

(** Elements whose children are formulas. *)
Definition holds_formulas (p : str) : bool :=
  mem p [lit "math"; lit "mrow"; lit "mfrac"; lit "msqrt"; lit "mroot"; lit "msub"; lit "msup";
         lit "msubsup"; lit "munder"; lit "mover"; lit "munderover"; lit "mtd"; lit "merror"].

(** Whether an element [n] may be a child of [p]. *)
Definition fits (p n : str) : bool :=
  (holds_formulas p && formula_elem n)
  || (str_eqb p (lit "mtable") && str_eqb n (lit "mtr"))
  || (str_eqb p (lit "mtr") && str_eqb n (lit "mtd"))
  || (str_eqb p (lit "math") && str_eqb n (lit "semantics"))
  || (str_eqb p (lit "semantics") && mem n [lit "mrow"; lit "annotation"]).

(** The number of children an element must have. *)
Definition required (n : str) : option nat :=
  if mem n [lit "mfrac"; lit "mroot"; lit "msub"; lit "msup"; lit "munder"; lit "mover"] then Some 2%nat
  else if mem n [lit "msubsup"; lit "munderover"] then Some 3%nat
  else None.

(** [arity]: whether the number of children is checked. *)
Record xopts := mkOpts { strict : bool; arity : bool }.

Definition complete (o : xopts) (n : str) (k : nat) : bool :=
  if arity o then match required n with Some m => Nat.eqb k m | None => true end else true.

(** The open elements, the innermost first, with the children they have. *)
Fixpoint build (o : xopts) (K : list (str * nat)) (l : list xtag) : option (list (str * nat)) :=
  match l with
  | [] => Some K
  | t :: l' =>
      match K with
      | [] => None
      | (p, k) :: K' =>
          match t with
          | XO n _ => if fits p n then build o ((n, O) :: (p, S k) :: K') l' else None
          | XC n => if str_eqb n p && complete o p k then build o K' l' else None
          | XE n _ => if fits p n then build o ((p, S k) :: K') l' else None
          | XT _ | XN _ => if token_elem p then build o K l' else None
          end
      end
  end.

(** A document: one element [math], closed at the very end. *)
Definition document (o : xopts) (s : str) : Prop :=
  exists atts l,
    xlex (strict o) QText s = Some (XO (lit "math") atts :: l, QText)
    /\ build o [(lit "math", O)] l = Some [].

(** The same, by computation. *)
Definition documentb (o : xopts) (s : str) : bool :=
  match xlex (strict o) QText s with
  | Some (XO n _ :: l, QText) =>
      str_eqb n (lit "math") && match build o [(lit "math", O)] l with Some [] => true | _ => false end
  | _ => false
  end.

Lemma documentb_spec : forall o s, documentb o s = true <-> document o s.
Proof.
  intros o s. unfold documentb, document. split.
  - destruct (xlex (strict o) QText s) as [[[|[n a|n|n a|c|e] l] m]|]; try discriminate.
    destruct m; try discriminate. intro H. apply andb_prop in H as [H1 H2].
    apply str_eqb_eq in H1. subst n. exists a, l. split; auto.
    destruct (build _ _ l) as [[|]|]; congruence.
  - intros (a & l & H1 & H2). rewrite H1, H2. now rewrite str_eqb_refl.
Qed.

Example document_case :
  documentb (mkOpts true true)
    (lit "<math display=""block""><mfrac><mi>a</mi><mrow><mo>&lt;</mo></mrow></mfrac></math>") = true.
Proof. vm_compute. reflexivity. Qed.
Example document_unclosed : documentb (mkOpts false false) (lit "<math><mrow></math>") = false.
Proof. vm_compute. reflexivity. Qed.
Example document_two_roots : documentb (mkOpts false false) (lit "<math></math><math></math>") = false.
Proof. vm_compute. reflexivity. Qed.
Example document_arity : documentb (mkOpts true true) (lit "<math><mfrac><mi>a</mi></mfrac></math>") = false.
Proof. vm_compute. reflexivity. Qed.
Example document_row : documentb (mkOpts true false) (lit "<math><mtd></mtd></math>") = false.
Proof. vm_compute. reflexivity. Qed.
Example document_raw : documentb (mkOpts true false) (lit "<math><mo><</mo></math>") = false.
Proof. vm_compute. reflexivity. Qed.
Example document_twice :
  documentb (mkOpts false false) (lit "<math><mo a=""1"" a=""2"">x</mo></math>") = false.
Proof. vm_compute. reflexivity. Qed.
