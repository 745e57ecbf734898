(** * Preamble: a list of definitions at the start of a text. *)

From Coq Require Import List NArith ZArith Bool Lia Arith.
From Verif Require Import Base Float32 Event Tables Prim PrimTable Lex Macros Primitives Spans Parser
  SpecLex LexFacts LexMore PrimFacts Keep Terminate KeepRun Api SpecNum LexNum SpecMacro MacroFacts Sim SimRun MacroRun.
Import ListNotations.
Open Scope N_scope.

Strategy 1000 [parse parse_fuel].

(** A token: a control sequence or a character. *)
Inductive tok := Cs (n : str) | Ch (c : char).

(** [token_text s t r]: the first token of the text [s] is [t], then comes [r]. *)
Inductive token_text : str -> tok -> str -> Prop :=
| tt_cs : forall b s n r, blank b -> named s n r -> token_text (b ++ 92 :: s) (Cs n) r
| tt_char : forall b c r, blank b -> ~ white c -> c <> 37 -> c <> 92 -> token_text (b ++ c :: r) (Ch c) r.

(** The text of a token. *)
Definition written (t : tok) : str := match t with Cs n => 92 :: n | Ch c => [c] end.

(** What a name stands for. *)
Inductive meaning :=
| ByDef (pre : str) (sufs : list str) (rep : str)
| ByBrace (pre : str) (sufs : list str) (rep : str)
| ByCommand (k : N) (dflt : option str) (rep : str)
| ByLet (t : tok).

Definition env := list (str * meaning).

(** The newest meaning of a name comes first. *)
Fixpoint find (n : str) (e : env) : option meaning :=
  match e with [] => None | (k, m) :: e' => if list_eq_dec N.eq_dec k n then Some m else find n e' end.

(** The text that lets [n] stand for the token [t]. *)
Inductive let_text (n : str) (t : tok) (rest : str) : str -> Prop :=
| let_plain : forall b w s x, blank b -> Forall white w -> named s n x -> token_text x t rest -> t <> Ch 61 ->
    let_text n t rest (b ++ 92 :: lit "let" ++ w ++ 92 :: s)
| let_equals : forall b w s x, blank b -> Forall white w -> named s n (61 :: x) -> token_text x t rest ->
    let_text n t rest (b ++ 92 :: lit "let" ++ w ++ 92 :: s).

(** The text that lets [n] stand for the second token [t] of the text [rest] that follows. *)
Inductive futurelet_text (n : str) (t : tok) (rest : str) : str -> Prop :=
| futurelet_is : forall b w s t1 x y, blank b -> Forall white w -> named s n rest -> token_text rest t1 x -> token_text x t y ->
    futurelet_text n t rest (b ++ 92 :: lit "futurelet" ++ w ++ 92 :: s).

(** [preamble e e' s r]: the text [s] is a list of valid definitions, then [r];
    it changes the meanings [e] into [e']. *)
Inductive preamble : env -> env -> str -> str -> Prop :=
| pre_end : forall e s, preamble e e s s
| pre_def : forall e e' n pre sufs rep s s' r, def_text n pre sufs rep s' s -> def_ok pre sufs rep ->
    find (lit "def") e = None -> preamble ((n, ByDef pre sufs rep) :: e) e' s' r -> preamble e e' s r
| pre_brace : forall e e' n pre sufs rep s s' r, brace_text n pre sufs rep s' s -> def_ok pre sufs rep ->
    find (lit "def") e = None -> preamble ((n, ByBrace pre sufs rep) :: e) e' s' r -> preamble e e' s r
| pre_let : forall e e' n t s s' r, let_text n t s' s -> find (lit "let") e = None ->
    preamble ((n, ByLet t) :: e) e' s' r -> preamble e e' s r
| pre_futurelet : forall e e' n t s s' r, futurelet_text n t s' s -> find (lit "futurelet") e = None ->
    preamble ((n, ByLet t) :: e) e' s' r -> preamble e e' s r
| pre_command : forall e e' b n k dflt rep s s' r, command_text (Some b) n k dflt rep s' s -> k <= 9 -> replacement k rep ->
    find (command_name (Some b)) e = None -> not_next (fun c => white c \/ c = 94 \/ c = 95) s' ->
    (b = false -> find n e = None) -> (b = true -> find n e <> None) ->
    preamble ((n, ByCommand k dflt rep) :: e) e' s' r -> preamble e e' s r
| pre_provide : forall e e' n k dflt rep s s' r, command_text None n k dflt rep s' s -> k <= 9 -> replacement k rep ->
    find (command_name None) e = None -> not_next (fun c => white c \/ c = 94 \/ c = 95) s' ->
    preamble (match find n e with Some _ => e | None => (n, ByCommand k dflt rep) :: e end) e' s' r -> preamble e e' s r.

Lemma preamble_trans : forall e1 e2 s r, preamble e1 e2 s r -> forall e3 r', preamble e2 e3 r r' -> preamble e1 e3 s r'.
Proof.
  intros e1 e2 s r H. induction H; intros e3 r' H'; [exact H'|eapply pre_def|eapply pre_brace|eapply pre_let|eapply pre_futurelet|eapply pre_command|eapply pre_provide]; eauto.
Qed.

(** [expands m s out r]: after its name, a macro of meaning [m] is used in the
    text [s]: it is replaced by [out], and [r] follows. *)
Inductive expands : meaning -> str -> str -> str -> Prop :=
| exp_def : forall pre sufs rep s args out r, arguments (map delimiter sufs) s args r -> substitutes args rep out ->
    expands (ByDef pre sufs rep) (pre ++ s) out r
| exp_brace : forall pre sufs rep s args out r, undelimited sufs -> brace_arguments (map delimiter sufs) s args r ->
    substitutes args rep out -> expands (ByBrace pre sufs rep) (pre ++ s) out r
| exp_command : forall k rep s args out r, arguments (repeat None (N.to_nat k)) s args r -> substitutes args rep out ->
    expands (ByCommand k None rep) s out r
| exp_optional : forall k d rep w g s args out r, 1 <= k -> Forall white w -> balanced 91 93 g ->
    arguments (repeat None (N.to_nat (k - 1))) s args r -> substitutes ((123 :: g ++ [125]) :: args) rep out ->
    expands (ByCommand k (Some d) rep) (w ++ 91 :: g ++ 93 :: s) out r
| exp_default : forall k d rep s args out r, 1 <= k -> (forall x, trim_start s <> 91 :: x) ->
    arguments (repeat None (N.to_nat (k - 1))) s args r -> substitutes ((123 :: d ++ [125]) :: args) rep out ->
    expands (ByCommand k (Some d) rep) s out r
| exp_let : forall t s, expands (ByLet t) s (written t) s.

(** ** The meanings and the context of the parser *)

Definition means (m : meaning) (d : mdef) : Prop :=
  match m with
  | ByDef pre sufs rep => exists l, parse_replacement rep (N.of_nat (length sufs)) = Ok l /\
      d = MDMacro (delimiter pre) (map delimiter sufs) false l
  | ByBrace pre sufs rep => exists l, parse_replacement rep (N.of_nat (length sufs)) = Ok l /\
      d = MDMacro (delimiter pre) (map delimiter sufs) true l
  | ByCommand k dflt rep => exists l, parse_replacement rep k = Ok l /\ d = MDCommand k dflt l
  | ByLet t => d = MDAlias (match t with Cs n => TCs n | Ch c => TChr [c] end)
  end.

Definition represents (e : env) (m : macro_ctx) : Prop :=
  Forall2 (fun x y => fst x = fst y /\ means (snd x) (snd y)) e m.

Lemma represents_nil : represents [] [].
Proof. constructor. Qed.

Lemma represents_add : forall e m n x d, represents e m -> means x d -> represents ((n, x) :: e) (ctx_insert m n d).
Proof. intros e m n x d H Hx. constructor; [split; [reflexivity|exact Hx]|exact H]. Qed.

Lemma represents_find : forall e m n, represents e m ->
  match find n e, ctx_get m n with None, None => True | Some x, Some d => means x d | _, _ => False end.
Proof.
  intros e m n H. induction H as [|[k x] [k' d] e m [Hk Hx] H IH]; [exact I|]. cbn [fst snd] in *. subst k'.
  cbn [find]. unfold ctx_get in *. cbn [assoc_str]. destruct (list_eq_dec N.eq_dec k n) as [->|Hk].
  - rewrite str_eqb_refl. exact Hx.
  - destruct (str_eqb k n) eqn:E; [apply str_eqb_eq in E; contradiction|exact IH].
Qed.

Lemma represents_none : forall e m n, represents e m -> find n e = None -> ctx_get m n = None.
Proof. intros e m n H Hf. apply (represents_find e m n) in H. rewrite Hf in H. destruct (ctx_get m n); [contradiction|reflexivity]. Qed.

Lemma represents_known : forall e m n, represents e m -> ctx_contains m n = match find n e with Some _ => true | None => false end.
Proof.
  intros e m n H. apply (represents_find e m n) in H. unfold ctx_contains. destruct (find n e), (ctx_get m n); try contradiction; reflexivity.
Qed.

Lemma means_fun : forall x d d', means x d -> means x d' -> d = d'.
Proof.
  intros [pre sufs rep|pre sufs rep|k o rep|t] d d'; cbn [means].
  - intros (l & E & ->) (l' & E' & ->). congruence.
  - intros (l & E & ->) (l' & E' & ->). congruence.
  - intros (l & E & ->) (l' & E' & ->). congruence.
  - congruence.
Qed.

Lemma represents_fun : forall e m m', represents e m -> represents e m' -> m = m'.
Proof.
  intros e m m' H. revert m'. induction H as [|[k x] [k1 d] e m [Hk Hx] H IH]; intros m' H'; inversion H' as [|? [k2 d2] ? m2 [Hk2 Hx2] H2]; subst; [reflexivity|].
  cbn [fst snd] in *. rewrite (IH _ H2), (means_fun _ _ _ Hx Hx2). congruence.
Qed.

Lemma represents_same : forall e e' m m', represents e m -> represents e' m' -> (forall n, find n e = find n e') -> csim m m'.
Proof.
  intros e e' m m' H H' Hs n. apply (represents_find e m n) in H. apply (represents_find e' m' n) in H'. rewrite Hs in H.
  destruct (find n e'), (ctx_get m n), (ctx_get m' n); try contradiction; [|reflexivity]. f_equal. eapply means_fun; eassumption.
Qed.

Lemma expands_ok : forall m d s out r, means m d -> expands m s out r -> exists k, expand_definition d s = Ok (out ++ r, k).
Proof.
  intros m d s out r Hm H. destruct H; cbn [means] in Hm.
  - destruct Hm as (l & Hl & ->). eexists. eapply macro_expands; eassumption.
  - destruct Hm as (l & Hl & ->). eexists. eapply brace_expands; eassumption.
  - destruct Hm as (l & Hl & ->). eexists. eapply command_expands; eassumption.
  - destruct Hm as (l & Hl & ->). eexists. eapply command_default; try eassumption. left. exists w, g. auto.
  - destruct Hm as (l & Hl & ->). eexists. eapply command_default; try eassumption. right. auto.
  - subst d. destruct t; eexists; reflexivity.
Qed.

(** ** One definition *)

Lemma blank_eq : forall b c s y, blank b -> ~ white c -> c <> 61 -> trim_start (b ++ c :: s) <> 61 :: y.
Proof.
  intros b c s y Hb Hw Hc. unfold white in Hw. induction Hb as [|d b Hd Hb IH|t b Ht Hb IH]; cbn [app trim_start].
  - destruct (is_ws c); congruence.
  - rewrite Hd. exact IH.
  - change (is_ws 37) with false. discriminate.
Qed.

(** The lexer reads the tokens of the specification. *)
Lemma token_read : forall x t r, token_text x t r ->
  exists tk, lex_token x = (Ok tk, r) /\ means (ByLet t) (alias tk).
Proof.
  intros x t r H. destruct H as [b s n r Hb Hn|b c r Hb H1 H2 H3].
  - exists (TCs n). split; [apply token_cs; assumption|reflexivity].
  - exists (TChr (c :: r)). split; [apply token_char; assumption|reflexivity].
Qed.

Lemma token_not_equals : forall x t r y, token_text x t r -> t <> Ch 61 -> trim_start x <> 61 :: y.
Proof.
  intros x t r y H Ht. destruct H as [b s n r Hb Hn|b c r Hb H1 H2 H3].
  - apply blank_eq; [exact Hb|unfold white; discriminate|discriminate].
  - apply blank_eq; [exact Hb|exact H1|congruence].
Qed.

Lemma let_read : forall n t r s, let_text n t r s ->
  exists b w x tk, s = b ++ 92 :: lit "let" ++ w ++ 92 :: x /\ blank b /\ Forall white w /\
    let_assignment (92 :: x) = (Ok (n, tk), r) /\ means (ByLet t) (alias tk).
Proof.
  intros n t r s0 H. destruct H as [b w s x Hb Hw Hn Ht Hne|b w s x Hb Hw Hn Ht].
  all: destruct (token_read _ _ _ Ht) as (tk & Etk & Hm); exists b, w, s, tk; repeat (split; [reflexivity || assumption|]); split; [|exact Hm].
  all: unfold let_assignment, bind, control_sequence; cbn [N.eqb Pos.eqb]; rewrite (rhs_cs_named _ _ _ Hn); unfold get.
  - destruct (strip_char 61 (trim_start x)) as [z|] eqn:Es; [apply strip_char_some in Es; exfalso; eapply token_not_equals; eassumption|].
    unfold ret. rewrite Etk. reflexivity.
  - change (trim_start (61 :: x)) with (61 :: x). cbn [strip_char N.eqb Pos.eqb]. unfold put. rewrite Etk. reflexivity.
Qed.

Lemma futurelet_read : forall n t r s, futurelet_text n t r s ->
  exists b w x tk y, s = b ++ 92 :: lit "futurelet" ++ w ++ 92 :: x /\ blank b /\ Forall white w /\
    futurelet_assignment (92 :: x) = (Ok (n, tk, r), y) /\ means (ByLet t) (alias tk).
Proof.
  intros n t r s0 H. destruct H as [b w s t1 x y Hb Hw Hn Ht1 Ht].
  destruct (token_read _ _ _ Ht1) as (tk1 & Etk1 & _). destruct (token_read _ _ _ Ht) as (tk & Etk & Hm).
  exists b, w, s, tk, y. repeat (split; [reflexivity || assumption|]). split; [|exact Hm].
  unfold futurelet_assignment, bind, control_sequence. cbn [N.eqb Pos.eqb]. rewrite (rhs_cs_named _ _ _ Hn). unfold get.
  rewrite Etk1, Etk. reflexivity.
Qed.

Lemma let_step : forall p c al s b w x n tok r, p_stack p = ISub c al :: s -> p_buf p = [] ->
  stxt c = b ++ 92 :: lit "let" ++ w ++ 92 :: x -> blank b -> Forall white w ->
  ctx_get (p_macros p) (lit "let") = None -> let_assignment (92 :: x) = (Ok (n, tok), r) ->
  exists c', stxt c' = r /\ next_step p = (OCont, mkParser (ISub c' al :: s) [] (ctx_insert (p_macros p) n (alias tok)) (p_spans p) (p_next p) (p_alloc p)).
Proof.
  intros p c al s b w x n tok r Hs Hb Hc Hbl Hw Hm Hl.
  assert (Ht : lex_token (stxt c) = (Ok (TCs (lit "let")), 92 :: x)).
  { rewrite Hc. apply token_cs; [exact Hbl|]. apply named_word.
    - discriminate.
    - change (lit "let") with ([108; 101; 116] : str). repeat (apply Forall_cons; [unfold letter; lia|]). apply Forall_nil.
    - exact Hw.
    - apply white_not_next; [exact Hw|unfold letter; lia].
    - cbn [not_next]. unfold white. discriminate. }
  rewrite (prim_step _ _ _ _ _ _ Hs Ht Hm).
  unfold run_inner, parse_atom, handle_prim. cbn [q_ist of_parser bind].
  cbn [hprim]. unfold hprim_body. replace (lookup_prim (lit "let")) with PLet by (vm_compute; reflexivity).
  unfold bind, lexc, modify, lift. cbn [i_content set_content q_ist of_parser stxt suffix_slice]. rewrite Hl.
  cbn [fst snd]. unfold parse_scripts, bind, get, ret. cbn [i_skip set_macros set_skip after q_ist set_ist i_buf set_content of_parser].
  rewrite Hb. eexists. split; [|reflexivity]. reflexivity.
Qed.

Lemma futurelet_step : forall p c al s b w x n tok r y, p_stack p = ISub c al :: s -> p_buf p = [] ->
  stxt c = b ++ 92 :: lit "futurelet" ++ w ++ 92 :: x -> blank b -> Forall white w ->
  ctx_get (p_macros p) (lit "futurelet") = None -> futurelet_assignment (92 :: x) = (Ok (n, tok, r), y) ->
  exists c', stxt c' = r /\ next_step p = (OCont, mkParser (ISub c' al :: s) [] (ctx_insert (p_macros p) n (alias tok)) (p_spans p) (p_next p) (p_alloc p)).
Proof.
  intros p c al s b w x n tok r y Hs Hb Hc Hbl Hw Hm Hl.
  assert (Ht : lex_token (stxt c) = (Ok (TCs (lit "futurelet")), 92 :: x)).
  { rewrite Hc. apply token_cs; [exact Hbl|]. apply named_word.
    - discriminate.
    - change (lit "futurelet") with ([102; 117; 116; 117; 114; 101; 108; 101; 116] : str). repeat (apply Forall_cons; [unfold letter; lia|]). apply Forall_nil.
    - exact Hw.
    - apply white_not_next; [exact Hw|unfold letter; lia].
    - cbn [not_next]. unfold white. discriminate. }
  rewrite (prim_step _ _ _ _ _ _ Hs Ht Hm).
  unfold run_inner, parse_atom, handle_prim. cbn [q_ist of_parser bind].
  cbn [hprim]. unfold hprim_body. replace (lookup_prim (lit "futurelet")) with PFuturelet by (vm_compute; reflexivity).
  unfold bind, lexc, modify, lift, get. cbn [i_content set_content q_ist of_parser stxt suffix_slice]. rewrite Hl.
  cbn [fst snd]. unfold parse_scripts, bind, get, ret. cbn [i_skip set_macros set_skip after q_ist set_ist i_buf set_content of_parser].
  rewrite Hb. eexists. split; [|reflexivity]. reflexivity.
Qed.

Lemma bind_ok : forall A B (m : P A) (f : A -> P B) st a st', m st = (Ok a, st') -> bind m f st = f a st'.
Proof. intros A B m f st a st' H. unfold bind. rewrite H. reflexivity. Qed.

Lemma bind_err : forall A B (m : P A) (f : A -> P B) st e st', m st = (Err e, st') -> bind m f st = (Err e, st').
Proof. intros A B m f st e st' H. unfold bind. rewrite H. reflexivity. Qed.

(** Nothing follows that would be a script. *)
Lemma no_scripts : forall st, i_skip st = false -> i_allow st = false ->
  not_next (fun c => white c \/ c = 94 \/ c = 95) (stxt (i_content st)) ->
  exists c, parse_scripts st = (Ok None, set_content c st) /\ stxt c = stxt (i_content st).
Proof.
  intros st Hs Ha Hn. unfold parse_scripts.
  erewrite bind_ok by reflexivity. rewrite Hs, Ha. erewrite bind_ok by reflexivity. erewrite bind_ok by reflexivity.
  erewrite bind_ok by reflexivity. cbn [i_content set_content suffix_slice stxt].
  assert (Et : trim_start (stxt (i_content st)) = stxt (i_content st)).
  { destruct (stxt (i_content st)) as [|x r]; [reflexivity|]. cbn [not_next] in Hn. cbn [trim_start].
    destruct (is_ws x) eqn:E; [exfalso; apply Hn; left; exact E|reflexivity]. }
  rewrite Et. exists (suffix_slice (i_content st) (stxt (i_content st))). split; [|reflexivity].
  destruct (stxt (i_content st)) as [|x r]; [reflexivity|]. cbn [is_char not_next] in *.
  destruct (N.eqb_spec x 94); [exfalso; auto|]. destruct (N.eqb_spec x 95); [exfalso; auto|]. reflexivity.
Qed.

Lemma command_prim : forall sae, lookup_prim (command_name sae) = PNewcommand sae.
Proof. intros [[]|]; vm_compute; reflexivity. Qed.

Lemma command_step : forall sae p c al s n k dflt rep rest, p_stack p = ISub c al :: s -> p_buf p = [] ->
  ctx_get (p_macros p) (command_name sae) = None -> command_text sae n k dflt rep rest (stxt c) -> k <= 9 -> replacement k rep ->
  not_next (fun c => white c \/ c = 94 \/ c = 95) rest ->
  exists l c', parse_replacement rep k = Ok l /\
  let known := ctx_contains (p_macros p) n in
  let ins := ctx_insert (p_macros p) n (MDCommand k dflt l) in
  let to m := (OCont, mkParser (ISub c' al :: s) [] m (p_spans p) (p_next p) (p_alloc p)) in
  match sae with
  | Some b => if Bool.eqb b known then next_step p = to ins /\ stxt c' = rest
              else next_step p = after s (Err (if b then EMacroNotDefined else EMacroAlreadyDefined), of_parser p c' al)
  | None => next_step p = to (if known then p_macros p else ins) /\ stxt c' = rest
  end.
Proof.
  intros sae p c al s n k dflt rep rest Hs Hb Hm Ht Hk Hrep Hrest. apply replacement_iff in Hrep as [l Hl]. remember (stxt c) as tc eqn:H10. destruct Ht as [b w1 w2 w3 w4 x y H1 H2 H3 H4 H5 H6 H7 H8 H9].
  assert (Hc : lex_token (stxt c) = (Ok (TCs (command_name sae)), 123 :: (92 :: x) ++ 125 :: w2 ++ 91 :: 48 + k :: 93 :: w3 ++ default_text dflt ++ w4 ++ 123 :: rep ++ 125 :: rest))
    by (rewrite <- H10; apply command_token; assumption).
  pose proof (prim_step _ _ _ _ _ _ Hs Hc Hm) as Hstep.
  match type of Hc with _ = (_, ?r0) => set (st := mkIst (suffix_slice c r0) [] false SPRight false false al (p_macros p)) in * end.
  assert (Est : q_ist (of_parser p (suffix_slice c (123 :: (92 :: x) ++ 125 :: w2 ++ 91 :: 48 + k :: 93 :: w3 ++ default_text dflt ++ w4 ++ 123 :: rep ++ 125 :: rest)) al) = st) by (cbn; rewrite Hb; reflexivity).
  destruct (new_command_run sae st n k dflt rep rest w2 w3 w4 x y l H3 H4 H5 H6 H7 H8 H9 Hk Hl eq_refl) as [c' Hrun].
  cbv zeta in Hrun. cbn [i_macros] in Hrun. replace (i_macros st) with (p_macros p) in Hrun by reflexivity.
  assert (Hp : forall st', handle_prim (command_name sae) st' = new_command sae st').
  { intros st'. unfold handle_prim. cbn [hprim]. unfold hprim_body. rewrite command_prim. reflexivity. }
  exists l.
  assert (Hgo : forall m, new_command sae st = (Ok tt, set_macros m (set_content c' st)) -> stxt c' = rest ->
    exists c'', stxt c'' = rest /\ next_step p = (OCont, mkParser (ISub c'' al :: s) [] m (p_spans p) (p_next p) (p_alloc p))).
  { intros m E Er. destruct (no_scripts (set_macros m (set_content c' st)) eq_refl eq_refl) as (c2 & E2 & Et2); [cbn [i_content set_macros set_content]; rewrite Er; exact Hrest|].
    exists c2. cbn [i_content set_macros set_content] in Et2. split; [congruence|]. rewrite Hstep. unfold run_inner. rewrite Est. unfold parse_atom.
    rewrite (bind_ok _ _ _ _ _ tt (set_macros m (set_content c' st))); [|rewrite Hp; exact E]. rewrite E2. reflexivity. }
  assert (Hbad : forall e, new_command sae st = (Err e, set_content c' st) -> next_step p = after s (Err e, of_parser p c' al)).
  { intros e E. rewrite Hstep. unfold run_inner. rewrite Est. unfold parse_atom.
    rewrite (bind_err _ _ _ _ _ e (set_content c' st)); [|rewrite Hp; exact E]. unfold of_parser, set_ist, after. cbn. rewrite Hb. reflexivity. }
  destruct sae as [bb|].
  - destruct (Bool.eqb bb (ctx_contains (p_macros p) n)) eqn:Ek.
    + destruct Hrun as [E Er]. destruct (Hgo _ E Er) as (c2 & Ec & En). exists c2. split; [exact Hl|]. cbv zeta. rewrite Ek. auto.
    + exists c'. split; [exact Hl|]. cbv zeta. rewrite Ek. apply Hbad. exact Hrun.
  - destruct Hrun as [E Er]. destruct (ctx_contains (p_macros p) n) eqn:Ek.
    + assert (E' : new_command None st = (Ok tt, set_macros (p_macros p) (set_content c' st))) by (rewrite E; reflexivity).
      destruct (Hgo _ E' Er) as (c2 & Ec & En). exists c2. split; [exact Hl|]. cbv zeta. rewrite ?Ek. auto.
    + destruct (Hgo _ E Er) as (c2 & Ec & En). exists c2. split; [exact Hl|]. cbv zeta. rewrite ?Ek. auto.
Qed.

(** ** A list of definitions *)

(** [ready e txt p]: before any error, the parser reads [txt] with the meanings [e]. *)
Definition ready (e : env) (txt : str) (p : parser) : Prop :=
  exists c, p_stack p = [ISub c None] /\ p_buf p = [] /\ stxt c = txt /\ represents e (p_macros p).

Lemma ready_new : forall s, ready [] s (new_parser s).
Proof. intros s. exists (mkSlice 0 0 s). repeat split. constructor. Qed.

Lemma shows_cont : forall p p' v, next_step p = (OCont, p') -> (shows p v <-> shows p' v).
Proof. intros p p' v H. rewrite shows_step, H. reflexivity. Qed.

Lemma preamble_runs : forall e e' s r, preamble e e' s r -> forall p, ready e s p ->
  exists p', ready e' r p' /\ p_spans p' = p_spans p /\ (forall v, shows p v <-> shows p' v) /\
    forall Q : parser -> Prop, (forall a b, next_step a = (OCont, b) -> Q a -> Q b) -> Q p -> Q p'.
Proof.
  assert (Hgo : forall e' r p p1, next_step p = (OCont, p1) -> p_spans p1 = p_spans p ->
    (exists p', ready e' r p' /\ p_spans p' = p_spans p1 /\ (forall v, shows p1 v <-> shows p' v) /\
      forall Q : parser -> Prop, (forall a b, next_step a = (OCont, b) -> Q a -> Q b) -> Q p1 -> Q p') ->
    exists p', ready e' r p' /\ p_spans p' = p_spans p /\ (forall v, shows p v <-> shows p' v) /\
      forall Q : parser -> Prop, (forall a b, next_step a = (OCont, b) -> Q a -> Q b) -> Q p -> Q p').
  { intros e' r p p1 En Hsp (p' & H1 & H2 & H3 & H4). exists p'. split; [exact H1|]. split; [congruence|]. split.
    - intros v. rewrite <- H3. apply shows_cont. exact En.
    - intros Q HQ Hp. apply H4; [exact HQ|]. eapply HQ; eassumption. }
  intros e e' s r H. induction H as [e s|e e' n pre sufs rep s s' r Hd Hok Hf H IH|e e' n pre sufs rep s s' r Hd Hok Hf H IH|e e' n t s s' r Ht Hf H IH
    |e e' n t s s' r Ht Hf H IH
    |e e' b n k dflt rep s s' r Hc Hk Hr Hf Hn Hb1 Hb2 H IH|e e' n k dflt rep s s' r Hc Hk Hr Hf Hn H IH]; intros p Hp.
  - exists p. split; [exact Hp|]. split; [reflexivity|]. split; [reflexivity|auto].
  - destruct Hp as (c & Hs & Hb & Hc & Hm). subst s.
    destruct (def_runs p c None [] n pre sufs rep s' Hs Hb (represents_none _ _ _ Hm Hf) Hok Hd) as (sl & l & Es & El & En).
    eapply Hgo; [exact En|reflexivity|]. apply IH. exists sl. repeat split; [exact Es|].
    apply represents_add; [exact Hm|]. cbn [means]. eauto.
  - destruct Hp as (c & Hs & Hb & Hc & Hm). subst s.
    destruct (brace_runs p c None [] n pre sufs rep s' Hs Hb (represents_none _ _ _ Hm Hf) Hok Hd) as (sl & l & Es & El & En).
    eapply Hgo; [exact En|reflexivity|]. apply IH. exists sl. repeat split; [exact Es|].
    apply represents_add; [exact Hm|]. cbn [means]. eauto.
  - destruct Hp as (c & Hs & Hb & Hc & Hm).
    subst s. destruct (let_read _ _ _ _ Ht) as (b & w & x & tk & E & Hbl & Hw & El & Htk).
    destruct (let_step p c None [] b w x n tk s' Hs Hb E Hbl Hw (represents_none _ _ _ Hm Hf) El) as (c' & Ec' & En).
    eapply Hgo; [exact En|reflexivity|]. apply IH. exists c'. repeat split; [exact Ec'|].
    apply represents_add; [exact Hm|]. exact Htk.
  - destruct Hp as (c & Hs & Hb & Hc & Hm).
    subst s. destruct (futurelet_read _ _ _ _ Ht) as (b & w & x & tk & y & E & Hbl & Hw & El & Htk).
    destruct (futurelet_step p c None [] b w x n tk s' y Hs Hb E Hbl Hw (represents_none _ _ _ Hm Hf) El) as (c' & Ec' & En).
    eapply Hgo; [exact En|reflexivity|]. apply IH. exists c'. repeat split; [exact Ec'|].
    apply represents_add; [exact Hm|]. exact Htk.
  - destruct Hp as (c & Hs & Hb & Hcc & Hm). subst s.
    destruct (command_step (Some b) p c None [] n k dflt rep s' Hs Hb (represents_none _ _ _ Hm Hf) Hc Hk Hr Hn) as (l & c' & Hl & Hstep). cbv zeta in Hstep.
    assert (Ek : Bool.eqb b (ctx_contains (p_macros p) n) = true).
    { rewrite (represents_known _ _ _ Hm). destruct b.
      - destruct (find n e); [reflexivity|exfalso; apply Hb2; reflexivity].
      - rewrite Hb1 by reflexivity. reflexivity. }
    rewrite Ek in Hstep. destruct Hstep as [En Er].
    eapply Hgo; [exact En|reflexivity|]. apply IH. exists c'. repeat split; [exact Er|].
    apply represents_add; [exact Hm|]. cbn [means]. eauto.
  - destruct Hp as (c & Hs & Hb & Hcc & Hm). subst s.
    destruct (command_step None p c None [] n k dflt rep s' Hs Hb (represents_none _ _ _ Hm Hf) Hc Hk Hr Hn) as (l & c' & Hl & En & Er).
    eapply Hgo; [exact En|reflexivity|]. apply IH. exists c'. repeat split; [exact Er|]. cbn [p_macros].
    rewrite (represents_known _ _ _ Hm). destruct (find n e); [exact Hm|].
    apply represents_add; [exact Hm|]. cbn [means]. eauto.
Qed.

(** Lists of definitions with the same meanings do the same to the text that follows. *)
Theorem preamble_same : forall e1 e2 d1 d2 r v v', preamble [] e1 d1 r -> preamble [] e2 d2 r ->
  (forall n, find n e1 = find n e2) ->
  shows (new_parser d1) v -> shows (new_parser d2) v' -> complete v -> complete v' -> v = v'.
Proof.
  intros e1 e2 d1 d2 r v v' H1 H2 Hf Hv Hv' Hc Hc'.
  destruct (preamble_runs _ _ _ _ H1 _ (ready_new d1)) as (p1 & (c1 & E1 & B1 & T1 & R1) & _ & S1 & _).
  destruct (preamble_runs _ _ _ _ H2 _ (ready_new d2)) as (p2 & (c2 & E2 & B2 & T2 & R2) & _ & S2 & _).
  apply S1 in Hv. apply S2 in Hv'. apply (sim_shows p1 p2); try assumption.
  split; [|split; [rewrite B1, B2; constructor|eapply represents_same; eassumption]].
  rewrite E1, E2. constructor; [|constructor]. split; [congruence|reflexivity].
Qed.

(** A macro used after a list of definitions shows what its expansion shows. *)
Theorem preamble_use : forall e1 e2 d1 d2 n m b use s2 out r v v',
  preamble [] e1 d1 (b ++ 92 :: use) -> preamble [] e2 d2 (out ++ r) -> (forall n, find n e1 = find n e2) -> find n e1 = Some m ->
  blank b -> named use n s2 -> expands m s2 out r ->
  shows (new_parser d1) v -> shows (new_parser d2) v' -> complete v -> complete v' -> v = v'.
Proof.
  intros e1 e2 d1 d2 n m b use s2 out r v v' H1 H2 Hsame Hf Hb Hn He Hv Hv' Hc Hc'.
  destruct (preamble_runs _ _ _ _ H1 _ (ready_new d1)) as (p1 & (c1 & E1 & B1 & T1 & R1) & _ & S1 & _).
  destruct (preamble_runs _ _ _ _ H2 _ (ready_new d2)) as (p2 & (c2 & E2 & B2 & T2 & R2) & _ & S2 & _).
  apply S1 in Hv. apply S2 in Hv'.
  assert (Hr1 := represents_find _ _ n R1). rewrite Hf in Hr1. destruct (ctx_get (p_macros p1) n) as [dd|] eqn:Eg; [|contradiction].
  destruct (expands_ok _ _ _ _ _ Hr1 He) as [k Ek].
  pose proof (represents_same _ _ _ _ R1 R2 Hsame) as Em.
  assert (Ht : lex_token (stxt c1) = (Ok (TCs n), s2)) by (rewrite T1; apply token_cs; assumption).
  eapply (expansion_shows p1 c1 None [] n s2 dd (out ++ r) k p2 v v'); try eassumption.
  split; [|split; [cbn; rewrite B1, B2; constructor|exact Em]]. cbn [with_text p_stack]. rewrite E1, E2.
  constructor; [|constructor]. split; [symmetry; exact T2|reflexivity].
Qed.

(** The case of a macro whose last parameter is ended by an opening brace. *)
Theorem brace_use : forall e1 e2 d1 d2 n pre sufs rep b use s2 args out r v v',
  preamble [] e1 d1 (b ++ 92 :: use) -> preamble [] e2 d2 (out ++ 123 :: r) -> (forall n, find n e1 = find n e2) ->
  find n e1 = Some (ByBrace pre sufs rep) -> blank b -> named use n (pre ++ s2) ->
  undelimited sufs -> brace_arguments (map delimiter sufs) s2 args (123 :: r) -> substitutes args rep out ->
  shows (new_parser d1) v -> shows (new_parser d2) v' -> complete v -> complete v' -> v = v'.
Proof.
  intros e1 e2 d1 d2 n pre sufs rep b use s2 args out r v v' H1 H2 Hsame Hf Hb Hn Hu Ha Hs.
  exact (preamble_use e1 e2 d1 d2 n _ b use _ out _ v v' H1 H2 Hsame Hf Hb Hn (exp_brace pre sufs rep s2 args out _ Hu Ha Hs)).
Qed.
