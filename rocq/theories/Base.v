(** * Base: characters, strings, UTF-8 lengths, results and state passing.

    Models the parts of the Rust core library the code of /repo relies on
    ([char], [str], slices, [Result]); each definition names the method it
    stands for and one place of /repo that uses it. *)

From Coq Require Import Ascii String List NArith ZArith Bool Lia.
Import ListNotations.
Export String.StringSyntax.
Open Scope N_scope.

(** A Rust [char]: a Unicode scalar value. (src/event.rs:113-153) *)
Notation char := N (only parsing).

(** A Rust [str], as the list of its characters. (src/parser.rs:42-68) *)
Definition str := list char.

(** String literals of the source: only ASCII literals are written with it. *)
Fixpoint lit (s : string) : str :=
  match s with
  | EmptyString => []
  | String a s' => N_of_ascii a :: lit s'
  end.

(** The values a Rust [char] can take. *)
Definition valid_char (c : char) : bool :=
  (c <? 55296) || ((57343 <? c) && (c <? 1114112)).

(** Text made of Rust [char]s. *)
Definition valid_str (s : str) : Prop := Forall (fun c => valid_char c = true) s.

(** [char::len_utf8]. (src/parser/lex.rs:214-218) *)
Definition clen (c : char) : N :=
  if c <? 128 then 1 else if c <? 2048 then 2 else if c <? 65536 then 3 else 4.

(** [str::len], in bytes. (src/parser/lex.rs:73) *)
Fixpoint blen (s : str) : N :=
  match s with
  | [] => 0
  | c :: s' => clen c + blen s'
  end.

(** Whether at least [n] bytes remain: [index + n <= input.len()].
    (src/parser/lex.rs:73, 113) *)
Fixpoint has_bytes (n : N) (s : str) : bool :=
  if n =? 0 then true
  else match s with
       | [] => false
       | c :: s' => has_bytes (n - clen c) s'
       end.

(** [char::is_whitespace], the Unicode property White_Space.
    (used by [trim_start], src/parser/lex.rs:33) *)
Definition is_ws (c : char) : bool :=
  ((9 <=? c) && (c <=? 13)) || (c =? 32) || (c =? 133) || (c =? 160) || (c =? 5760)
  || ((8192 <=? c) && (c <=? 8202)) || (c =? 8232) || (c =? 8233) || (c =? 8239)
  || (c =? 8287) || (c =? 12288).

(** [char::is_ascii_digit]. (src/parser/lex.rs:328) *)
Definition is_digit (c : char) : bool := (48 <=? c) && (c <=? 57).

(** [char::is_ascii_alphabetic]. (src/parser/lex.rs:222) *)
Definition is_alpha (c : char) : bool :=
  ((65 <=? c) && (c <=? 90)) || ((97 <=? c) && (c <=? 122)).

(** [str::trim_start]. (src/parser/lex.rs:33) *)
Fixpoint trim_start (s : str) : str :=
  match s with
  | c :: s' => if is_ws c then trim_start s' else s
  | [] => []
  end.

(** [str::trim]. (src/parser/primitives.rs:2001) *)
Definition trim (s : str) : str := rev (trim_start (rev (trim_start s))).

(** [str::is_empty]. *)
Definition is_nil {A} (l : list A) : bool := match l with [] => true | _ => false end.

(** Equality of strings. *)
Fixpoint str_eqb (a b : str) : bool :=
  match a, b with
  | [], [] => true
  | x :: a', y :: b' => (x =? y) && str_eqb a' b'
  | _, _ => false
  end.

(** [str::starts_with]. (src/parser/lex.rs:72) *)
Fixpoint starts_with (p s : str) : bool :=
  match p, s with
  | [], _ => true
  | x :: p', y :: s' => (x =? y) && starts_with p' s'
  | _ :: _, [] => false
  end.

(** [str::strip_prefix] with a string. (src/parser/lex.rs:195) *)
Fixpoint strip_prefix (p s : str) : option str :=
  match p, s with
  | [], _ => Some s
  | x :: p', y :: s' => if x =? y then strip_prefix p' s' else None
  | _ :: _, [] => None
  end.

(** [str::strip_prefix] with a character. (src/parser/lex.rs:33) *)
Definition strip_char (c : char) (s : str) : option str :=
  match s with
  | x :: s' => if x =? c then Some s' else None
  | [] => None
  end.

(** [str::split_once] with a character. (src/parser/lex.rs:15, 471) *)
Fixpoint split_once_char (c : char) (s : str) : option (str * str) :=
  match s with
  | [] => None
  | x :: s' =>
      if x =? c then Some ([], s')
      else match split_once_char c s' with
           | Some (a, b) => Some (x :: a, b)
           | None => None
           end
  end.

(** [str::split_once] with a string. (src/parser/macros.rs:161) *)
Fixpoint split_once_str (p s : str) : option (str * str) :=
  match strip_prefix p s with
  | Some r => Some ([], r)
  | None =>
      match s with
      | [] => None
      | x :: s' =>
          match split_once_str p s' with
          | Some (a, b) => Some (x :: a, b)
          | None => None
          end
      end
  end.

(** The longest prefix of characters satisfying [f], and the rest:
    [take_while] / [trim_start_matches]. (src/parser/lex.rs:222, 420) *)
Fixpoint span_while (f : char -> bool) (s : str) : str * str :=
  match s with
  | c :: s' => if f c then let (a, b) := span_while f s' in (c :: a, b) else ([], s)
  | [] => ([], [])
  end.

(** Byte slicing [(&s[..n], &s[n..])]: [None] when [n] is out of range or not
    on a character boundary (the code panics). (src/parser/lex.rs:331, 489) *)
Fixpoint split_bytes (n : N) (s : str) : option (str * str) :=
  if n =? 0 then Some ([], s)
  else match s with
       | [] => None
       | c :: s' =>
           if n <? clen c then None
           else match split_bytes (n - clen c) s' with
                | Some (a, b) => Some (c :: a, b)
                | None => None
                end
       end.

(** [str::ends_with] with a character. (src/parser/macros.rs:35) *)
Fixpoint ends_with_char (c : char) (s : str) : bool :=
  match s with
  | [] => false
  | [x] => x =? c
  | _ :: s' => ends_with_char c s'
  end.

(** ** Results *)

(** [GroupingKind] and [MatrixType]. (src/event.rs:489-508, 606-615) *)
Inductive matrix_type := MtNormal | MtSmall | MtParens | MtBrackets | MtBraces
                       | MtVertical | MtDoubleVertical.

Inductive gkind :=
| GKNormal | GKOptional | GKBeginEnd | GKLeftRight
| GKArray (display : bool)
| GKMatrix (ty : matrix_type) (column_spec : bool)
| GKCases (left display : bool)
| GKEquation (eq_numbers : bool)
| GKAlign (eq_numbers : bool)
| GKAligned | GKSubArray
| GKAlignat (eq_numbers : bool)
| GKAlignedat
| GKGather (eq_numbers : bool)
| GKGathered | GKMultline | GKSplit.

(** [ErrorKind]. (src/parser/error.rs:146-186) *)
Inductive error :=
| EUnbalancedGroup (k : option gkind) | EEnvironment | EMathShift | EHashSign
| EDimensionArgument | EDimensionUnit | EMathUnit | EDelimiter | EControlSequence
| ENumber | ECharacterNumber | EArgument | EGroupArgument | EDoubleSubscript
| EDoubleSuperscript | EUnknownPrimitive | EControlSequenceAsArgument
| EScriptAsArgument | EEmptyControlSequence | EUnknownColor | EInvalidCharNumber
| ERelax | EBracesInParamText | ECommentInParamText
| EIncorrectMacroParams (found expected : N)
| EIncorrectReplacementParams (found expected : N)
| ETooManyParams | EStandaloneHashSign | EIncorrectMacroPrefix
| EMacroSuffixNotFound | EMacroAlreadyDefined | EMacroNotDefined | EAlignment
| ENewLine | EArrayNoColumns | EMissingExpansion | EMacroRecursionLimit | EToken.

(** The ways the code can panic. *)
Inductive panic :=
| PIndex        (* slice index out of range, src/parser/lex.rs:119 *)
| PBoundary     (* slicing off a character boundary, src/parser/lex.rs:331 *)
| POverflow     (* arithmetic overflow, src/parser/lex.rs:422 *)
| PAssert       (* failed assert!, src/parser.rs:500 *)
| PExpect       (* expect/unwrap on None, src/parser/lex.rs:374 *)
| PUnreachable  (* explicit panic!, src/parser/primitives.rs:31 *)
| PUninit       (* an uninitialised element is read, src/parser.rs:147-168 *)
| PInternal.    (* explicit panic! of the renderer, src/mathml.rs *)

(** [Result] plus the two ways a call may not return normally. [Fuel] is not a
    behaviour of the code: it says that the bound on the call depth given to
    the model was too small. *)
Inductive res (A : Type) :=
| Ok (a : A)
| Err (e : error)
| Panic (p : panic)
| Fuel.
Arguments Ok {A} a.
Arguments Err {A} e.
Arguments Panic {A} p.
Arguments Fuel {A}.

(** A computation on a mutable state [S]; the state survives an [Err], as it
    does behind a [&mut] in Rust. *)
Definition SM (S A : Type) := S -> res A * S.

Definition ret {S A} (a : A) : SM S A := fun s => (Ok a, s).
Definition fail {S A} (e : error) : SM S A := fun s => (Err e, s).
Definition panic_with {S A} (p : panic) : SM S A := fun s => (Panic p, s).

(** The [?] operator. *)
Definition bind {S A B} (m : SM S A) (f : A -> SM S B) : SM S B :=
  fun s => match m s with
           | (Ok a, s') => f a s'
           | (Err e, s') => (Err e, s')
           | (Panic p, s') => (Panic p, s')
           | (Fuel, s') => (Fuel, s')
           end.

Definition get {S} : SM S S := fun s => (Ok s, s).
Definition put {S} (s : S) : SM S unit := fun _ => (Ok tt, s).
Definition modify {S} (f : S -> S) : SM S unit := fun s => (Ok tt, f s).

Declare Scope sm_scope.
Delimit Scope sm_scope with sm.
Bind Scope sm_scope with SM.
Notation "'do' x <- m ; k" := (bind m (fun x => k))
  (at level 200, x pattern, m at level 100, k at level 200, right associativity) : sm_scope.
Notation "m ;; k" := (bind m (fun _ => k))
  (at level 199, right associativity) : sm_scope.

(** A lexer: works on [&mut &str]. (src/parser/lex.rs) *)
Definition lexer (A : Type) := SM str A.

(** ** Slices with an address *)

(** A [&'store str] whose address the code inspects (src/parser.rs:483-502):
    the allocation it points into, the byte offset in it, and its text. *)
Record slice := mkSlice { sbase : N; soff : N; stxt : str }.

(** The suffix of [s] whose text is [rest]. *)
Definition suffix_slice (s : slice) (rest : str) : slice :=
  mkSlice (sbase s) (soff s + (blen (stxt s) - blen rest)) rest.

(** The part [content] of [s] that ends [closing] bytes before the suffix [rest]. *)
Definition mid_slice (s : slice) (content : str) (closing : N) (rest : str) : slice :=
  mkSlice (sbase s)
          (soff s + (blen (stxt s) - blen rest - closing - blen content)) content.

(** ** Lemmas *)

Lemma clen_pos : forall c, 1 <= clen c.
Proof. intro c; unfold clen. repeat destruct (_ <? _); lia. Qed.

Lemma clen_le4 : forall c, clen c <= 4.
Proof. intro c; unfold clen. repeat destruct (_ <? _); lia. Qed.

Lemma clen_ascii : forall c, c < 128 -> clen c = 1.
Proof. intros c H; unfold clen. apply N.ltb_lt in H. now rewrite H. Qed.

Lemma blen_app : forall a b, blen (a ++ b) = blen a + blen b.
Proof. induction a; intros; cbn [blen app]; [lia|rewrite IHa; lia]. Qed.

Lemma blen_nil_inv : forall s, blen s = 0 -> s = [].
Proof. destruct s as [|c s]; cbn [blen]; intro H; auto. pose proof (clen_pos c); lia. Qed.

Lemma has_bytes_spec : forall s n, has_bytes n s = true <-> n <= blen s.
Proof.
  induction s as [|c s IH]; intro n; cbn [has_bytes blen].
  - destruct (N.eqb_spec n 0); split; intro; try lia; auto; discriminate.
  - destruct (N.eqb_spec n 0).
    + split; intro; [lia|auto].
    + rewrite IH. pose proof (clen_pos c). lia.
Qed.

Lemma str_eqb_eq : forall a b, str_eqb a b = true <-> a = b.
Proof.
  induction a as [|x a IH]; destruct b as [|y b]; cbn; split; intro H; try easy.
  - apply andb_true_iff in H as [H1 H2]. apply N.eqb_eq in H1. apply IH in H2. congruence.
  - inversion H; subst. apply andb_true_iff; split; [apply N.eqb_refl|now apply IH].
Qed.

Lemma str_eqb_refl : forall a, str_eqb a a = true.
Proof. intro a. now apply str_eqb_eq. Qed.

Lemma str_eqb_neq : forall a b, str_eqb a b = false <-> a <> b.
Proof.
  intros a b. destruct (str_eqb a b) eqn:E.
  - apply str_eqb_eq in E. split; [discriminate|contradiction].
  - split; auto. intros _ H. apply str_eqb_eq in H. congruence.
Qed.

Lemma strip_prefix_some : forall p s r, strip_prefix p s = Some r <-> s = (p ++ r)%list.
Proof.
  induction p as [|x p IH]; intros s r; cbn.
  - split; intro H; [now inversion H|now subst].
  - destruct s as [|y s].
    + split; intro H; discriminate.
    + destruct (N.eqb_spec x y).
      * subst. rewrite IH. split; intro H; [now subst|now inversion H].
      * split; intro H; [discriminate|inversion H; congruence].
Qed.

Lemma starts_with_spec : forall p s, starts_with p s = true <-> exists r, s = (p ++ r)%list.
Proof.
  induction p as [|x p IH]; intros s; cbn.
  - split; eauto.
  - destruct s as [|y s].
    + split; [discriminate|intros [r H]; discriminate].
    + rewrite andb_true_iff, N.eqb_eq, IH. split.
      * intros [-> [r ->]]. now exists r.
      * intros [r H]. inversion H; subst. split; eauto.
Qed.

Lemma starts_with_strip : forall p s,
  starts_with p s = true -> exists r, strip_prefix p s = Some r.
Proof.
  intros p s H. apply starts_with_spec in H as [r ->]. exists r. now apply strip_prefix_some.
Qed.

Lemma strip_prefix_none : forall p s, strip_prefix p s = None <-> starts_with p s = false.
Proof.
  induction p as [|x p IH]; intros s; cbn; [easy|].
  destruct s as [|y s]; [easy|].
  destruct (N.eqb_spec x y); cbn; [apply IH|easy].
Qed.

Lemma strip_char_some : forall c s r, strip_char c s = Some r <-> s = c :: r.
Proof.
  intros c [|x s] r; cbn; [split; discriminate|].
  destruct (N.eqb_spec x c) as [->|Hn]; split; intro H; inversion H; subst; auto;
    contradiction.
Qed.

Lemma split_once_char_sound : forall c s a b,
  split_once_char c s = Some (a, b) -> s = (a ++ c :: b)%list /\ ~ In c a.
Proof.
  intros c. induction s as [|x s IH]; intros a b; cbn; [discriminate|].
  destruct (N.eqb_spec x c) as [->|Hn].
  - intro H; inversion H; subst. auto.
  - destruct (split_once_char c s) as [[a' b']|]; [|discriminate].
    intro H; inversion H; subst. destruct (IH a' b eq_refl) as [-> Hn'].
    split; auto. intros [|]; congruence.
Qed.

Lemma split_once_char_complete : forall c a b,
  ~ In c a -> split_once_char c (a ++ c :: b) = Some (a, b).
Proof.
  intros c. induction a as [|x a IH]; intros b Hn; cbn.
  - now rewrite N.eqb_refl.
  - destruct (N.eqb_spec x c) as [->|Hx]; [exfalso; apply Hn; now left|].
    rewrite IH; auto. intro; apply Hn; now right.
Qed.

Lemma split_once_char_none : forall c s, split_once_char c s = None <-> ~ In c s.
Proof.
  intros c. induction s as [|x s IH]; cbn; [easy|].
  destruct (N.eqb_spec x c) as [->|Hx].
  - split; [discriminate|]. intro H; exfalso; apply H; now left.
  - destruct (split_once_char c s) as [[a b]|].
    + split; [discriminate|]. intro H. exfalso.
      assert (Some (a, b) = None) by (apply IH; intro; apply H; now right). discriminate.
    + split; auto. intros _ [|H]; [congruence|]. now apply IH.
Qed.

Lemma span_while_spec : forall f s a b,
  span_while f s = (a, b) ->
  s = (a ++ b)%list /\ forallb f a = true /\ match b with [] => True | c :: _ => f c = false end.
Proof.
  intros f. induction s as [|c s IH]; intros a b; cbn.
  - intro H; inversion H; subst; auto.
  - destruct (f c) eqn:E.
    + destruct (span_while f s) as [a' b'] eqn:E'. intro H; inversion H; subst.
      destruct (IH _ _ eq_refl) as (-> & H1 & H2). cbn. now rewrite E.
    + intro H; inversion H; subst; cbn; auto.
Qed.

Lemma split_bytes_spec : forall s n a b,
  split_bytes n s = Some (a, b) -> s = (a ++ b)%list /\ blen a = n.
Proof.
  induction s as [|c s IH]; intros n a b; cbn [split_bytes].
  - destruct (N.eqb_spec n 0); [|discriminate].
    intro H; inversion H; subst; auto.
  - destruct (N.eqb_spec n 0).
    + intro H; inversion H; subst; auto.
    + destruct (N.ltb_spec n (clen c)); [discriminate|].
      destruct (split_bytes (n - clen c) s) as [[a' b']|] eqn:E; [|discriminate].
      intro H'; inversion H'; subst. apply IH in E as [-> E2].
      split; auto. cbn [blen]. lia.
Qed.

Lemma split_bytes_app : forall a b, split_bytes (blen a) (a ++ b) = Some (a, b).
Proof.
  induction a as [|c a IH]; intro b.
  - cbn [blen app]. now destruct b.
  - cbn [blen app split_bytes]. pose proof (clen_pos c).
    destruct (N.eqb_spec (clen c + blen a) 0); [lia|].
    destruct (N.ltb_spec (clen c + blen a) (clen c)); [lia|].
    replace (clen c + blen a - clen c) with (blen a) by lia. now rewrite IH.
Qed.

Lemma trim_start_suffix : forall s, exists p, s = (p ++ trim_start s)%list /\ forallb is_ws p = true.
Proof.
  induction s as [|c s [p [IH1 IH2]]]; cbn.
  - now exists [].
  - destruct (is_ws c) eqn:E.
    + exists (c :: p). cbn. rewrite E. split; [congruence|auto].
    + now exists [].
Qed.

Lemma trim_start_head : forall s,
  match trim_start s with [] => True | c :: _ => is_ws c = false end.
Proof.
  induction s as [|c s IH]; cbn; auto. destruct (is_ws c) eqn:E; auto.
Qed.

Lemma trim_start_idem : forall s, trim_start (trim_start s) = trim_start s.
Proof.
  intro s. pose proof (trim_start_head s). destruct (trim_start s) as [|c r]; auto.
  cbn. now rewrite H.
Qed.

(** [b] is a suffix of [a]. *)
Definition suffix (b a : str) : Prop := exists p, a = (p ++ b)%list.

Lemma suffix_refl : forall a, suffix a a.
Proof. intro a; now exists []. Qed.

Lemma suffix_trans : forall a b c, suffix c b -> suffix b a -> suffix c a.
Proof. intros a b c [p ->] [q ->]. exists (q ++ p)%list. now rewrite app_assoc. Qed.

Lemma suffix_cons : forall x a b, suffix b a -> suffix b (x :: a).
Proof. intros x a b [p ->]. now exists (x :: p). Qed.

Lemma suffix_nil : forall a, suffix [] a.
Proof. intro a; exists a. now rewrite app_nil_r. Qed.

Lemma suffix_app : forall p a, suffix a (p ++ a).
Proof. intros; now exists p. Qed.

Lemma suffix_trim : forall a, suffix (trim_start a) a.
Proof. intro a. destruct (trim_start_suffix a) as [p [H _]]. now exists p. Qed.

Lemma suffix_blen : forall a b, suffix b a -> blen b <= blen a.
Proof. intros a b [p ->]. rewrite blen_app. lia. Qed.

Lemma suffix_length : forall a b, suffix b a -> (length b <= length a)%nat.
Proof. intros a b [p ->]. rewrite app_length. lia. Qed.
