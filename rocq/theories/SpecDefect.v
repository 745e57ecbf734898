(** * SpecDefect: definitions that are wrong, and the error each deserves. *)

From Coq Require Import List NArith ZArith Bool.
From Verif Require Import Base SpecLex SpecNum SpecMacro MacroFacts MacroRun.
Import ListNotations.
Open Scope N_scope.

(** What is wrong with the replacement text of a macro with [n] parameters: a
    hash sign before neither a digit nor a hash sign, or the number of a
    parameter that does not exist. *)
Inductive replacement_fault (n : N) : str -> error -> Prop :=
| rf_alone : forall pre y, replacement n pre -> not_next (fun c => digit c \/ c = 35) y ->
    replacement_fault n (pre ++ 35 :: y) EStandaloneHashSign
| rf_number : forall pre c i y, replacement n pre -> c = 48 + i -> i <= 9 -> i = 0 \/ n < i ->
    replacement_fault n (pre ++ 35 :: c :: y) (EIncorrectReplacementParams i n).

(** What is wrong with the parameters of a parameter text, numbered from [i]. A
    hash sign may only be alone at the end. *)
Inductive parameters_fault (i : N) : str -> error -> Prop :=
| pf_alone : forall sufs y, Forall (fun s => ~ In 35 s) sufs -> i + N.of_nat (length sufs) <= 10 -> not_next digit y -> y <> [] ->
    parameters_fault i (parameters i sufs ++ 35 :: y) EStandaloneHashSign
| pf_order : forall sufs c k y, Forall (fun s => ~ In 35 s) sufs -> i + N.of_nat (length sufs) <= 10 -> c = 48 + k -> k <= 9 ->
    k <> i + N.of_nat (length sufs) ->
    parameters_fault i (parameters i sufs ++ 35 :: c :: y) (EIncorrectMacroParams k (i + N.of_nat (length sufs))).

(** What is wrong with the text after the name in a definition with [\def]. *)
Inductive definition_fault : str -> error -> Prop :=
| df_missing : forall x, ~ In 123 x -> definition_fault x EMissingExpansion
| df_comment : forall u v r, ~ In 37 u -> ~ In 125 u -> ~ In 123 (u ++ v) ->
    definition_fault ((u ++ 37 :: v) ++ 123 :: r) ECommentInParamText
| df_brace : forall u v r, ~ In 37 u -> ~ In 125 u -> ~ In 123 (u ++ v) ->
    definition_fault ((u ++ 125 :: v) ++ 123 :: r) EBracesInParamText
| df_open : forall p r, Forall param_char p -> (forall g r', balanced 123 125 g -> r <> g ++ 125 :: r') ->
    definition_fault (p ++ 123 :: r) (EUnbalancedGroup (Some GKNormal))
| df_parameters : forall pre q rep r e, Forall param_char (pre ++ q) -> ~ In 35 pre -> parameters_fault 1 q e -> balanced 123 125 rep ->
    definition_fault ((pre ++ q) ++ 123 :: rep ++ 125 :: r) e
| df_replacement : forall brace pre (sufs : list str) rep r e, Forall param_char (parameter_text brace pre sufs) -> ~ In 35 pre ->
    Forall (fun s => ~ In 35 s) sufs -> (length sufs <= 9)%nat -> balanced 123 125 rep ->
    replacement_fault (N.of_nat (length sufs)) rep e ->
    definition_fault (parameter_text brace pre sufs ++ 123 :: rep ++ 125 :: r) e.

(** The number of parameters in [\newcommand]: digits, perhaps after a plus
    sign, of a value of at most 255. *)
Inductive count : str -> N -> Prop :=
| count_digits : forall ds n, ds <> [] -> digits ds -> decimal_of ds = Z.of_N n -> n <= 255 -> count ds n
| count_plus : forall ds n, ds <> [] -> digits ds -> decimal_of ds = Z.of_N n -> n <= 255 -> count (43 :: ds) n.

(** What is wrong with the text after [\newcommand] ([Some false]),
    [\renewcommand] ([Some true]) or [\providecommand] ([None]), where the names
    of [known] have a meaning. The number of parameters must be given. *)
Inductive name_part (g n : str) : Prop :=
| name_part_i : forall s x, g = 92 :: s -> named s n x -> balanced 123 125 g -> name_part g n.

Definition may_define (sae : option bool) (known : str -> Prop) (n : str) : Prop :=
  match sae with Some true => known n | Some false => ~ known n | None => True end.

Inductive command_fault (sae : option bool) (known : str -> Prop) : str -> error -> Prop :=
| cf_no_name : forall s, not_next (fun c => white c \/ c = 123) s -> command_fault sae known s EGroupArgument
| cf_open : forall r, (forall g r', balanced 123 125 g -> r <> g ++ 125 :: r') ->
    command_fault sae known (123 :: r) (EUnbalancedGroup (Some GKNormal))
| cf_empty : forall r, command_fault sae known (123 :: 125 :: r) EEmptyControlSequence
| cf_name : forall c g r, c <> 92 -> balanced 123 125 (c :: g) -> command_fault sae known (123 :: (c :: g) ++ 125 :: r) EControlSequence
| cf_new : forall g n r, sae = Some false -> name_part g n -> known n ->
    command_fault sae known (123 :: g ++ 125 :: r) EMacroAlreadyDefined
| cf_renew : forall g n r, sae = Some true -> name_part g n -> ~ known n ->
    command_fault sae known (123 :: g ++ 125 :: r) EMacroNotDefined
| cf_no_count : forall g n w r, name_part g n -> may_define sae known n -> Forall white w -> not_next (fun c => white c \/ c = 91) r ->
    command_fault sae known (123 :: g ++ 125 :: w ++ r) EArgument
| cf_count : forall g n w t r, name_part g n -> may_define sae known n -> Forall white w -> balanced 91 93 t -> (forall k, ~ count t k) ->
    command_fault sae known (123 :: g ++ 125 :: w ++ 91 :: t ++ 93 :: r) ENumber
| cf_many : forall g n w t k r, name_part g n -> may_define sae known n -> Forall white w -> balanced 91 93 t -> count t k -> 9 < k ->
    command_fault sae known (123 :: g ++ 125 :: w ++ 91 :: t ++ 93 :: r) ETooManyParams
| cf_no_body : forall g n w t k w' dflt w'' r, name_part g n -> may_define sae known n -> Forall white w -> balanced 91 93 t -> count t k ->
    k <= 9 -> Forall white w' -> (forall d, dflt = Some d -> balanced 91 93 d) -> Forall white w'' ->
    not_next (fun c => white c \/ c = 123 \/ c = 91) r ->
    command_fault sae known (123 :: g ++ 125 :: w ++ 91 :: t ++ 93 :: w' ++ default_text dflt ++ w'' ++ r) EGroupArgument
| cf_replacement : forall g n w t k w' dflt w'' rep r e, name_part g n -> may_define sae known n -> (sae = None -> ~ known n) ->
    Forall white w -> balanced 91 93 t -> count t k ->
    k <= 9 -> Forall white w' -> (forall d, dflt = Some d -> balanced 91 93 d) -> Forall white w'' -> balanced 123 125 rep ->
    replacement_fault k rep e ->
    command_fault sae known (123 :: g ++ 125 :: w ++ 91 :: t ++ 93 :: w' ++ default_text dflt ++ w'' ++ 123 :: rep ++ 125 :: r) e.
