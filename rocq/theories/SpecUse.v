(** * SpecUse: uses of macros that are wrong, names that are missing, and the error each deserves. *)

From Coq Require Import List NArith ZArith Bool.
From Verif Require Import Base SpecLex SpecMacro Preamble.
Import ListNotations.
Open Scope N_scope.

(** No group is closed in the text that follows its opening brace. *)
Definition unclosed (r : str) : Prop := forall g r', balanced 123 125 g -> r <> g ++ 125 :: r'.

(** Nothing but white space and comments, to the end of the text. *)
Inductive nothing : str -> Prop :=
| no_blank : forall b, blank b -> nothing b
| no_comment : forall b t, blank b -> ~ In 10 t -> nothing (b ++ 37 :: t).

(** A token is wanted: the text ends, or a backslash ends it. *)
Inductive token_fault : str -> error -> Prop :=
| tf_end : forall s, nothing s -> token_fault s EToken
| tf_name : forall b, blank b -> token_fault (b ++ [92]) EEmptyControlSequence.

(** An argument is wanted: no token, or a group that is not closed. *)
Inductive argument_fault : str -> error -> Prop :=
| af_token : forall s x, token_fault s x -> argument_fault s x
| af_open : forall w r, Forall white w -> unclosed r -> argument_fault (w ++ 123 :: r) (EUnbalancedGroup (Some GKNormal)).

(** [passes suf s r]: between [s] and [r] the delimiter [suf] is nowhere outside
    of escapes, comments and braces. *)
Inductive passes (suf : str) : str -> str -> Prop :=
| ps_here : forall s, passes suf s s
| ps_char : forall x s r, x <> 92 -> x <> 37 -> x <> 123 -> ~ prefix suf (x :: s) -> passes suf s r -> passes suf (x :: s) r
| ps_escape : forall x s r, ~ prefix suf (92 :: x :: s) -> passes suf s r -> passes suf (92 :: x :: s) r
| ps_comment : forall t s r, ~ In 10 t -> ~ prefix suf (37 :: t ++ 10 :: s) -> passes suf s r -> passes suf (37 :: t ++ 10 :: s) r
| ps_group : forall g s r, balanced 123 125 g -> ~ prefix suf (123 :: g ++ 125 :: s) -> passes suf s r -> passes suf (123 :: g ++ 125 :: s) r.

(** A delimited argument is wanted: too little text remains for the delimiter, a
    comment hides the rest of it, or a group is not closed. *)
Inductive delimited_fault (suf : str) : str -> error -> Prop :=
| lf_short : forall s r, passes suf s r -> blen r < blen suf -> delimited_fault suf s EMacroSuffixNotFound
| lf_comment : forall s t, passes suf s (37 :: t) -> ~ In 10 t -> ~ prefix suf (37 :: t) -> delimited_fault suf s EMacroSuffixNotFound
| lf_open : forall s r, passes suf s (123 :: r) -> blen suf <= blen (123 :: r) -> ~ prefix suf (123 :: r) -> unclosed r ->
    delimited_fault suf s (EUnbalancedGroup (Some GKNormal)).

(** The first of the arguments that is wrong. *)
Inductive arguments_fault : list (option str) -> str -> error -> Prop :=
| sf_plain : forall ps s x, argument_fault s x -> arguments_fault (None :: ps) s x
| sf_delimited : forall suf ps s x, suf <> [] -> delimited_fault suf s x -> arguments_fault (Some suf :: ps) s x
| sf_after_plain : forall ps s a r x, argument s a r -> arguments_fault ps r x -> arguments_fault (None :: ps) s x
| sf_after_delimited : forall suf ps s a r x, suf <> [] -> delimited suf s a r -> arguments_fault ps r x ->
    arguments_fault (Some suf :: ps) s x.

(** What is wrong with the text [s] after the name of a macro of meaning [m]. *)
Inductive use_fault : meaning -> str -> error -> Prop :=
| uf_prefix : forall pre sufs rep s, ~ prefix pre s -> use_fault (ByDef pre sufs rep) s EIncorrectMacroPrefix
| uf_def : forall pre sufs rep s x, arguments_fault (map delimiter sufs) s x -> use_fault (ByDef pre sufs rep) (pre ++ s) x
| uf_brace_prefix : forall pre sufs rep s, ~ prefix pre s -> use_fault (ByBrace pre sufs rep) s EIncorrectMacroPrefix
| uf_brace : forall pre sufs suf rep s x, arguments_fault (map delimiter sufs) s x ->
    use_fault (ByBrace pre (sufs ++ [suf]) rep) (pre ++ s) x
| uf_no_brace : forall pre sufs suf rep s args r, arguments (map delimiter sufs) s args r -> (forall a r', r <> a ++ suf ++ 123 :: r') ->
    use_fault (ByBrace pre (sufs ++ [suf]) rep) (pre ++ s) EMacroSuffixNotFound
| uf_command : forall k rep s x, arguments_fault (repeat None (N.to_nat k)) s x -> use_fault (ByCommand k None rep) s x
| uf_optional : forall k d rep w g s x, 1 <= k -> Forall white w -> balanced 91 93 g -> arguments_fault (repeat None (N.to_nat (k - 1))) s x ->
    use_fault (ByCommand k (Some d) rep) (w ++ 91 :: g ++ 93 :: s) x
| uf_default : forall k d rep s x, 1 <= k -> (forall x, trim_start s <> 91 :: x) -> arguments_fault (repeat None (N.to_nat (k - 1))) s x ->
    use_fault (ByCommand k (Some d) rep) s x.

(** A name is wanted after [\def], [\let] or [\futurelet]. *)
Inductive name_fault : str -> error -> Prop :=
| nf_end : name_fault [] EEmptyControlSequence
| nf_backslash : name_fault [92] EEmptyControlSequence
| nf_other : forall c s, c <> 92 -> name_fault (c :: s) EControlSequence.

(** What is wrong with the text after [\let]: the name, or the token it shall stand for. *)
Inductive let_fault : str -> error -> Prop :=
| lt_name : forall s x, name_fault s x -> let_fault s x
| lt_token : forall s n r x, named s n r -> (forall y, trim_start r <> 61 :: y) -> token_fault r x -> let_fault (92 :: s) x
| lt_equals : forall s n r x, named s n (61 :: r) -> token_fault r x -> let_fault (92 :: s) x.

(** The same after [\futurelet], which wants two tokens. *)
Inductive futurelet_fault : str -> error -> Prop :=
| ft_name : forall s x, name_fault s x -> futurelet_fault s x
| ft_first : forall s n r x, named s n r -> token_fault r x -> futurelet_fault (92 :: s) x
| ft_second : forall s n r t y x, named s n r -> token_text r t y -> token_fault y x -> futurelet_fault (92 :: s) x.

(** What is wrong with the text after each of the three commands. *)
Inductive assignment_fault : str -> str -> error -> Prop :=
| gf_def : forall s x, name_fault s x -> assignment_fault (lit "def") s x
| gf_let : forall s x, let_fault s x -> assignment_fault (lit "let") s x
| gf_futurelet : forall s x, futurelet_fault s x -> assignment_fault (lit "futurelet") s x.

(** Texts without comments that do not end with a backslash: the arguments are
    all there, or the use has a fault of its own. *)
Definition plain_use (m : meaning) (s : str) : Prop := ~ In 37 s /\ (s = [] \/ last s 0 <> 92) /\
  match m with
  | ByDef _ _ _ | ByLet _ => True
  | ByBrace _ _ _ => False
  | ByCommand _ None _ => True
  | ByCommand k (Some _) _ => 1 <= k /\ forall w r, Forall white w -> s = w ++ 91 :: r -> exists g r', balanced 91 93 g /\ r = g ++ 93 :: r'
  end.
