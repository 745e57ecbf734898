(** * SpecLex: what the lexers should do, stated without their code. *)

From Coq Require Import List NArith Bool.
From Verif Require Import Base.
Import ListNotations.
Open Scope N_scope.

Definition prefix (p s : str) : Prop := exists r, s = (p ++ r)%list.

(** [enclosed o c s a r]: the text [s], which starts inside a group delimited by
    [o] and [c], is the content [a] of that group, its closing delimiter, and the
    rest [r]. A backslash protects the next character, a comment extends to the
    end of its line, and groups nest. *)
Inductive enclosed (o c : str) : str -> str -> str -> Prop :=
| enc_close : forall r, enclosed o c (c ++ r) [] r
| enc_char : forall x s a r, x <> 92 -> x <> 37 -> ~ prefix o (x :: s) -> ~ prefix c (x :: s) ->
    enclosed o c s a r -> enclosed o c (x :: s) (x :: a) r
| enc_escape : forall x s a r, ~ prefix o (92 :: x :: s) -> ~ prefix c (92 :: x :: s) ->
    enclosed o c s a r -> enclosed o c (92 :: x :: s) (92 :: x :: a) r
| enc_comment : forall t s a r, ~ In 10 t ->
    enclosed o c s a r -> enclosed o c (37 :: t ++ 10 :: s) (37 :: t ++ 10 :: a) r
| enc_nest : forall s a r1 b r, enclosed o c s a r1 -> enclosed o c r1 b r ->
    enclosed o c (o ++ s) (o ++ a ++ c ++ b) r.

(** Balanced text for one-character delimiters. *)
Inductive balanced (o c : char) : str -> Prop :=
| bal_nil : balanced o c []
| bal_char : forall x s, x <> 92 -> x <> 37 -> x <> o -> x <> c ->
    balanced o c s -> balanced o c (x :: s)
| bal_escape : forall x s, balanced o c s -> balanced o c (92 :: x :: s)
| bal_comment : forall t s, ~ In 10 t -> balanced o c s -> balanced o c (37 :: t ++ 10 :: s)
| bal_group : forall g s, balanced o c g -> balanced o c s -> balanced o c (o :: g ++ c :: s).

(** [delimited suf s a r]: [s] is [a], the delimiter [suf], and [r], where the
    delimiter is the first one outside of escapes, comments and braces. *)
Inductive delimited (suf : str) : str -> str -> str -> Prop :=
| del_found : forall r, delimited suf (suf ++ r) [] r
| del_char : forall x s a r, x <> 92 -> x <> 37 -> x <> 123 -> ~ prefix suf (x :: s) ->
    delimited suf s a r -> delimited suf (x :: s) (x :: a) r
| del_escape : forall x s a r, ~ prefix suf (92 :: x :: s) ->
    delimited suf s a r -> delimited suf (92 :: x :: s) (92 :: x :: a) r
| del_comment : forall t s a r, ~ In 10 t -> ~ prefix suf (37 :: t ++ 10 :: s) ->
    delimited suf s a r -> delimited suf (37 :: t ++ 10 :: s) (37 :: t ++ 10 :: a) r
| del_group : forall g s a r, balanced 123 125 g -> ~ prefix suf (123 :: g ++ 125 :: s) ->
    delimited suf s a r -> delimited suf (123 :: g ++ 125 :: s) (123 :: g ++ 125 :: a) r.

(** White space and complete comments. *)
Inductive blank : str -> Prop :=
| blank_nil : blank []
| blank_ws : forall c s, is_ws c = true -> blank s -> blank (c :: s)
| blank_comment : forall t s, ~ In 10 t -> blank s -> blank (37 :: t ++ 10 :: s).
