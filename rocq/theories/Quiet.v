(** * Quiet: the panics of a primitive. *)

From Coq Require Import List NArith ZArith Bool Lia Arith.
From Verif Require Import Base Float32 Event Tables Prim PrimTable Lex Macros Primitives Spans Parser
  SpecLex LexFacts LexMore PrimFacts Over Keep KeepRun MacroFacts.
Import ListNotations.
Open Scope N_scope.
Open Scope sm_scope.

(** What a lexer or a result may panic with. *)
Definition tame {A} (Q : panic -> Prop) (r : res A) : Prop := match r with Panic p => Q p | _ => True end.

(** [m] keeps [I], its result satisfies [V], and it panics only as [Q] allows. *)
Definition only {A} (Q : panic -> Prop) (I : ist -> Prop) (m : P A) (V : A -> Prop) : Prop :=
  forall st, I st -> I (snd (m st)) /\ match fst (m st) with Ok a => V a | Panic p => Q p | _ => True end.

Section Rules.
  Variable Q : panic -> Prop.
  Variable I : ist -> Prop.

  Lemma o_keeps : forall A (m : P A) V, keeps I m V -> (forall st, I st -> tame Q (fst (m st))) -> only Q I m V.
  Proof.
    intros A m V Hk Hq st Hi. destruct (Hk st Hi) as [H1 H2]. split; [exact H1|]. specialize (Hq st Hi).
    destruct (fst (m st)); auto.
  Qed.

  Lemma o_ret : forall A (a : A) (V : A -> Prop), V a -> only Q I (ret a) V.
  Proof. intros A a V H. apply o_keeps; [apply k_ret; exact H|]. intros; exact Logic.I. Qed.
  Lemma o_fail : forall A e (V : A -> Prop), only Q I (fail e) V.
  Proof. intros A e V. apply o_keeps; [apply k_fail|]. intros; exact Logic.I. Qed.
  Lemma o_panic : forall A p (V : A -> Prop), Q p -> only Q I (panic_with p) V.
  Proof. intros A p V H. apply o_keeps; [apply k_panic|]. intros; exact H. Qed.
  Lemma o_bind : forall A B (m : P A) (f : A -> P B) V W,
    only Q I m V -> (forall a, V a -> only Q I (f a) W) -> only Q I (bind m f) W.
  Proof.
    intros A B m f V W Hm Hf st Hi. unfold bind. destruct (Hm st Hi) as [H1 H2].
    destruct (m st) as [[a|e|p|] st']; cbn in *; auto. apply (Hf a H2). exact H1.
  Qed.
  Lemma o_get : only Q I get I.
  Proof. apply o_keeps; [apply k_get|]. intros; exact Logic.I. Qed.
  Lemma o_modify : forall f, (forall st, I st -> I (f st)) -> only Q I (modify f) anything.
  Proof. intros f H. apply o_keeps; [apply k_modify; exact H|]. intros; exact Logic.I. Qed.
  Lemma o_lift : forall A (r : res A), tame Q r -> only Q I (lift r) (fun a => r = Ok a).
  Proof. intros A r H. apply o_keeps; [apply k_lift|]. intros; exact H. Qed.
  Lemma o_ok_or : forall A (o : option A) e, only Q I (ok_or o e) (fun a => o = Some a).
  Proof. intros A o e. apply o_keeps; [apply k_ok_or|]. intros st _. destruct o; exact Logic.I. Qed.
  Lemma o_local : forall A (l : lexer A) t, tame Q (fst (l t)) -> only Q I (on_local l t) (fun p => l t = (Ok (fst p), snd p)).
  Proof.
    intros A l t H. apply o_keeps; [apply k_local|]. intros st _. unfold on_local.
    destruct (l t) as [[?|?|?|] ?]; exact H.
  Qed.
  Lemma o_weaken : forall A (m : P A) (V W : A -> Prop), only Q I m V -> (forall a, V a -> W a) -> only Q I m W.
  Proof. intros A m V W H Hvw st Hi. destruct (H st Hi) as [H1 H2]. split; [exact H1|]. destruct (fst (m st)); auto. Qed.
  Lemma o_any : forall A (m : P A) (V : A -> Prop), only Q I m V -> only Q I m anything.
  Proof. intros. eapply o_weaken; [eassumption|]. unfold anything. auto. Qed.
End Rules.

(** ** Definitions never panic *)

Lemma replacement_tame : forall Q k rep n, (length rep <= k)%nat -> tame Q (parse_replacement rep n).
Proof.
  intros Q. induction k as [|k IH]; intros rep n Hk.
  { destruct rep; [exact I|cbn in Hk; lia]. }
  destruct (first_hash rep) as [Hn|(u & v & -> & Hu)]; [rewrite rep_nohash by exact Hn; exact I|].
  rewrite app_length in Hk. cbn [length] in Hk. destruct v as [|c v]; [rewrite rep_end_hash by exact Hu; exact I|]. cbn [length] in Hk.
  destruct (N.eq_dec c 35) as [->|Hc].
  - rewrite rep_two_hash by exact Hu. assert (H := IH v n ltac:(lia)). destruct (parse_replacement v n); exact H.
  - destruct (is_digit c) eqn:Ed.
    + rewrite rep_digit by assumption. destruct (_ || _); [exact I|]. assert (H := IH v n ltac:(lia)).
      destruct (parse_replacement v n); exact H.
    + rewrite rep_other by assumption. exact I.
Qed.

Lemma make_command_tame : forall Q n d rep, tame Q (make_command n d rep).
Proof.
  intros Q n d rep. unfold make_command. pose proof (replacement_tame Q _ rep n (le_n _)) as H.
  destruct (parse_replacement rep n); exact H.
Qed.

Lemma params_tame : forall Q ps i, tame Q (parse_params i ps).
Proof.
  intros Q. induction ps as [|p ps IH]; intros i; [exact I|]. cbn [parse_params]. destruct p as [|c suf]; [exact I|].
  destruct (is_digit c); [|exact I]. destruct (_ =? _); [|exact I]. specialize (IH (i + 1)). destruct (parse_params (i + 1) ps); exact IH.
Qed.

Lemma make_macro_tame : forall Q pt rep, tame Q (make_macro pt rep).
Proof.
  intros Q pt rep. unfold make_macro. destruct (split_char 35 _) as [|pre ps] eqn:E; [exfalso; eapply split_char_ne; exact E|].
  pose proof (params_tame Q ps 1) as Hp. destruct (parse_params 1 ps) as [l|?|?|]; try exact Hp.
  pose proof (replacement_tame Q _ rep (N.of_nat (length l)) (le_n _)) as H. destruct (parse_replacement rep _); exact H.
Qed.

(** ** Lexers that never panic *)

Lemma rhs_cs_tame : forall Q s, tame Q (fst (rhs_control_sequence s)).
Proof. intros Q [|c s]; [exact I|]. cbn [rhs_control_sequence]. destruct (is_alpha c); [destruct (span_while is_alpha (c :: s))|]; exact I. Qed.

Lemma cs_tame : forall Q s, tame Q (fst (control_sequence s)).
Proof. intros Q [|c s]; [exact I|]. cbn [control_sequence]. destruct (c =? 92); [apply rhs_cs_tame|exact I]. Qed.

Lemma token_tame : forall Q s, tame Q (fst (lex_token s)).
Proof. intros Q s. pose proof (lex_token_no_panic s) as H. destruct (lex_token s) as [[?|?|?|] ?]; try exact I. destruct H. Qed.

Lemma bind_tame : forall Q A B (m : lexer A) (f : A -> lexer B) s, tame Q (fst (m s)) ->
  (forall a r, m s = (Ok a, r) -> tame Q (fst (f a r))) -> tame Q (fst (bind m f s)).
Proof. intros Q A B m f s Hm Hf. unfold bind. destruct (m s) as [[a|e|p|] r]; cbn [fst] in *; auto. Qed.

Lemma group_tame : forall Q k s, tame Q (fst (group_content k s)).
Proof. intros Q k s. destruct (group_content_cases k s) as [(a & r & ->)|(r & -> & _)]; exact I. Qed.

Lemma definition_tame : forall Q s, tame Q (fst (lex_definition s)).
Proof.
  intros Q s. unfold lex_definition. apply bind_tame; [apply cs_tame|]. intros cs r _. unfold bind at 1, get.
  destruct (split_once_char 123 r) as [[pt rest]|]; [|exact I]. destruct (bad_param_char pt); [exact I|].
  unfold bind at 1, put. apply bind_tame; [apply group_tame|]. intros; exact I.
Qed.

Lemma let_tame : forall Q s, tame Q (fst (let_assignment s)).
Proof.
  intros Q s. unfold let_assignment. apply bind_tame; [apply cs_tame|]. intros cs r _. unfold bind at 1, get.
  destruct (strip_char 61 (trim_start r)); unfold bind at 1, put, ret; (apply bind_tame; [apply token_tame|intros; exact I]).
Qed.

Lemma futurelet_tame : forall Q s, tame Q (fst (futurelet_assignment s)).
Proof.
  intros Q s. unfold futurelet_assignment. apply bind_tame; [apply cs_tame|]. intros cs r _. unfold bind at 1, get.
  apply bind_tame; [apply token_tame|]. intros. apply bind_tame; [apply token_tame|]. intros; exact I.
Qed.

Lemma delimiter_tame : forall Q s, tame Q (fst (lex_delimiter s)).
Proof.
  intros Q s. unfold lex_delimiter. apply bind_tame; [apply token_tame|]. intros t r _.
  destruct (token_to_delim t); exact I.
Qed.

Lemma hlines_tame : forall Q s, tame Q (fst (horizontal_lines s)).
Proof. intros Q s. unfold horizontal_lines. destruct (hlines_loop _ s). exact I. Qed.
Lemma limits_tame : forall Q s, tame Q (fst (limit_modifiers s)).
Proof. intros Q s. unfold limit_modifiers. destruct (limit_loop _ _ s). exact I. Qed.

Lemma argument_tame : forall Q s, tame Q (fst (lex_argument s)).
Proof.
  intros Q s. unfold lex_argument. destruct (strip_char 123 (trim_start s)) as [r|].
  - pose proof (group_tame Q GKNormal r) as H. unfold bind. destruct (group_content GKNormal r) as [[?|?|?|] ?]; exact H.
  - pose proof (token_tame Q s) as H. unfold bind. destruct (lex_token s) as [[?|?|?|] ?]; exact H.
Qed.

Lemma optional_tame : forall Q s, tame Q (fst (optional_argument s)).
Proof.
  intros Q s. unfold optional_argument. destruct (strip_char 91 (trim_start s)) as [r|]; [|exact I].
  destruct (group_content GKOptional r) as [[?|?|?|] ?]; exact I.
Qed.

Lemma brace_tame : forall Q s, tame Q (fst (brace_argument s)).
Proof. intros Q s. unfold brace_argument. destruct (strip_char 123 (trim_start s)); [apply group_tame|exact I]. Qed.

Lemma arg_slice_tame : forall Q sl, tame Q (fst (arg_slice sl)).
Proof.
  intros Q sl. unfold arg_slice. pose proof (argument_tame Q (stxt sl)) as H.
  destruct (lex_argument (stxt sl)) as [[[[cs|ctx]|g]|?|?|] r]; exact H.
Qed.

Lemma argc_tame : forall Q st, tame Q (fst (argc st)).
Proof. intros Q st. unfold argc. pose proof (arg_slice_tame Q (i_content st)) as H. destruct (arg_slice _). exact H. Qed.

Lemma groupc_tame : forall Q k st, tame Q (fst (groupc k st)).
Proof. intros Q k st. unfold groupc. pose proof (group_tame Q k (stxt (i_content st))) as H. destruct (group_content _ _) as [[?|?|?|] ?]; exact H. Qed.

Lemma optc_tame : forall Q st, tame Q (fst (optc st)).
Proof. intros Q st. unfold optc. pose proof (optional_tame Q (stxt (i_content st))) as H. destruct (optional_argument _) as [[[?|]|?|?|] ?]; exact H. Qed.

Lemma bracec_tame : forall Q st, tame Q (fst (bracec st)).
Proof. intros Q st. unfold bracec. pose proof (brace_tame Q (stxt (i_content st))) as H. destruct (brace_argument _) as [[?|?|?|] ?]; exact H. Qed.

#[export] Hint Resolve token_tame cs_tame delimiter_tame definition_tame let_tame futurelet_tame hlines_tame limits_tame : tame.

(** ** Primitives *)

Section QuietPrim.
  Variable G : slice -> Prop.
  Hypothesis HG : forall a b, sl_sub a b -> G b -> G a.
  Variable J : macro_ctx -> Prop.
  Hypothesis HJ : def_closed G J.
  Variable Q : panic -> Prop.
  Notation I := (Inv G J).
  Notation cs_ok := (cs_in G).

  Definition str_ok (t : str) : Prop := exists sl, G sl /\ stxt sl = t.

  Lemma o_push : forall l, Forall (instr_ok G) l -> only Q I (push l) anything.
  Proof. intros l H. apply o_keeps; [apply k_push; exact H|]. intros; exact Logic.I. Qed.
  Lemma o_push_ev : forall e, ev_ok e -> only Q I (push_ev e) anything.
  Proof. intros e H. apply o_push. repeat constructor. exact H. Qed.
  Lemma o_argc : only Q I argc (sarg_ok G).
  Proof. apply o_keeps; [apply (k_argc G HG J)|]. intros; apply argc_tame. Qed.
  Lemma o_groupc : forall k, only Q I (groupc k) G.
  Proof. intros k. apply o_keeps; [apply (k_groupc G HG J)|]. intros; apply groupc_tame. Qed.
  Lemma o_bracec : only Q I bracec G.
  Proof. apply o_keeps; [apply (k_bracec G HG J)|]. intros; apply bracec_tame. Qed.
  Lemma o_optc : only Q I optc (opt_ok G).
  Proof. apply o_keeps; [apply (k_optc G HG J)|]. intros; apply optc_tame. Qed.
  Lemma o_lexc : forall A (l : lexer A), leaves_suffix l -> (forall sl, G sl -> tame Q (fst (l (stxt sl)))) -> only Q I (lexc l) anything.
  Proof.
    intros A l Hl Ht. apply o_keeps; [apply (k_lexc G HG J); exact Hl|]. intros st Hi. specialize (Ht (i_content st) (proj1 Hi)).
    unfold lexc. destruct (l (stxt (i_content st))) as [[?|?|?|] ?]; exact Ht.
  Qed.
  Lemma o_lexc_over : forall A (l : lexer A) V, leaves_suffix l -> (forall sl, G sl -> tame Q (fst (l (stxt sl)))) ->
    lover (char_in G) l V -> only Q I (lexc l) V.
  Proof.
    intros A l V Hl Ht Hv. apply o_keeps; [apply (k_lexc_over G HG J); assumption|]. intros st Hi. specialize (Ht (i_content st) (proj1 Hi)).
    unfold lexc. destruct (l (stxt (i_content st))) as [[?|?|?|] ?]; exact Ht.
  Qed.
  Lemma o_split_off : forall n, only Q I (split_off n) (Forall (instr_ok G)).
  Proof. intros n. apply o_keeps; [apply k_split_off|]. intros; exact Logic.I. Qed.
  Lemma o_buf_len : only Q I buf_len anything.
  Proof. apply o_keeps; [apply k_buf_len|]. intros; exact Logic.I. Qed.
  Lemma o_flag : forall f, (forall st, i_content (f st) = i_content st /\ i_buf (f st) = i_buf st /\ i_macros (f st) = i_macros st) ->
    only Q I (modify f) anything.
  Proof. intros f H. apply o_modify. intros st (H1 & H2 & H3). destruct (H st) as (E1 & E2 & E3). unfold Inv. rewrite E1, E2, E3. auto. Qed.

  Variable rec : str -> P unit.
  Hypothesis Hrec : forall cs, cs_ok cs -> only Q I (rec cs) anything.

  Lemma o_handle_char : forall ctx, G ctx -> (exists x r, stxt ctx = x :: r /\ x <> 37 /\ x <> 92) -> only Q I (handle_char ctx) anything.
  Proof.
    intros ctx Hc (x & r & Ex & H1 & H2). apply o_keeps; [apply (k_handle_char G HG J); exact Hc|].
    intros st Hi. unfold handle_char, bind, get. rewrite Ex. cbn [ctx_char].
    destruct (N.eqb_spec x 92); [contradiction|]. destruct (N.eqb_spec x 37); [contradiction|].
    destruct (_ || _); [destruct (i_handling st); exact Logic.I|]. destruct (_ =? 36); [exact Logic.I|]. destruct (_ =? 35); [exact Logic.I|].
    destruct (_ =? 38); [destruct (i_align st) as [[? ?]|]; [destruct (_ && _)|]; exact Logic.I|].
    destruct (_ =? 123).
    { pose proof (groupc_tame Q GKNormal st) as H. destruct (groupc GKNormal st) as [[?|?|?|] ?]; exact H. }
    destruct (_ =? 125); [exact Logic.I|]. destruct (is_digit x); exact Logic.I.
  Qed.

  Lemma o_handle_arg : forall a, sarg_ok G a -> only Q I (handle_arg rec a) anything.
  Proof.
    intros a Ha. destruct a; cbn in *.
    - apply o_push. repeat constructor. exact Ha.
    - eapply o_bind; [apply o_flag; intros; auto|]. intros _ _. apply Hrec. exact Ha.
    - eapply o_bind; [apply o_flag; intros; auto|]. intros _ _. destruct Ha as [H1 (x & r & H2 & _ & H3 & H4)]. apply o_handle_char; eauto.
  Qed.
End QuietPrim.

Ltac oweak t := first [t | eapply o_any; t].

Ltac ostep G HG J rec Hrec :=
  match goal with
  | |- only _ _ (bind (match _ with _ => _ end) _) _ => eapply o_bind with (V := anything); [|intros ? ?]
  | |- only _ _ (bind _ _) _ => eapply o_bind; [|intros ? ?]
  | |- only _ _ (ret _) anything => apply o_ret; exact I
  | |- only _ _ (ret _) _ => apply o_ret
  | |- only _ _ (fail _) _ => apply o_fail
  | |- only _ _ get _ => oweak ltac:(apply o_get)
  | |- only _ _ (ok_or _ _) _ => oweak ltac:(apply o_ok_or)
  | |- only _ _ (push_ev _) _ => apply o_push_ev
  | |- only _ _ (push _) _ => apply o_push
  | |- only _ _ argc _ => oweak ltac:(apply (o_argc G HG J))
  | |- only _ _ (groupc _) _ => oweak ltac:(apply (o_groupc G HG J))
  | |- only _ _ bracec _ => oweak ltac:(apply (o_bracec G HG J))
  | |- only _ _ optc _ => oweak ltac:(apply (o_optc G HG J))
  | |- only _ _ (lexc _) _ => apply (o_lexc G HG J); [solve [auto with lexsuf]|solve [intros; auto with tame]]
  | |- only _ _ (handle_arg _ _) _ => apply (o_handle_arg G HG J _ rec Hrec)
  | |- only _ _ (split_off _) _ => oweak ltac:(apply o_split_off)
  | |- only _ _ buf_len _ => apply o_buf_len
  | |- only _ _ (modify _) _ => apply o_flag; intros; cbn; auto
  | |- only _ _ (match ?x with _ => _ end) _ => destruct x
  | |- only _ _ (let (_, _) := ?x in _) _ => destruct x
  end.

(** The environments that take a number of pairs of columns. *)
Definition pair_names : list str := [lit "alignat"; lit "alignat*"; lit "alignedat"].

Section QuietPrims.
  (** The panics of the lexers that have some, on the texts read. *)
  Variable G : slice -> Prop.
  Hypothesis HG : forall a b, sl_sub a b -> G b -> G a.
  Variable J : macro_ctx -> Prop.
  Hypothesis HJ : def_closed G J.
  Variable Q : panic -> Prop.
  Hypothesis Q_dim : forall sl, G sl -> tame Q (fst (lex_dimension (stxt sl))).
  Hypothesis Q_glue : forall sl, G sl -> tame Q (fst (lex_glue (stxt sl))).
  Hypothesis Q_dimb : forall sl, G sl -> tame Q (fst (dimension_or_braced (stxt sl))).
  Hypothesis Q_glueb : forall sl, G sl -> tame Q (fst (glue_or_braced (stxt sl))).
  Hypothesis Q_char : forall cs sl, cs_in G cs -> lookup_prim cs = PChar -> G sl -> tame Q (fst (unsigned_integer (stxt sl))).
  Hypothesis Q_pair : forall name sl, str_ok G name -> In name pair_names -> G sl -> tame Q (fst (unsigned_integer (stxt sl))).
  Hypothesis Q_color : forall sl, G sl -> tame Q (lex_color (stxt sl)).
  Hypothesis Q_cols : forall sl, G sl -> tame Q (array_columns 0 (stxt sl)).
  Hypothesis Q_pairs : forall name sl n r, str_ok G name -> In name pair_names -> G sl ->
    unsigned_integer (stxt sl) = (Ok n, r) -> 65535 < n mod 65536 * 2 -> Q POverflow.
  Hypothesis Q_over : forall cs sl, cs_in G cs -> lookup_prim cs = PBuildrel -> G sl ->
    tame Q (fst (content_with_suffix (lit "\over") (stxt sl))).
  Variable rec : str -> P unit.
  Hypothesis Hrec : forall cs, cs_in G cs -> only Q (Inv G J) (rec cs) anything.

  Notation strok := (str_ok G).
  Ltac os := repeat ostep G HG J rec Hrec.
  Ltac fin := try solve [exact I | assumption
    | repeat first [apply Forall_cons | apply Forall_nil | exact I | assumption]
    | intros; exact I].

  Lemma o_group_arg : forall e, only Q (Inv G J) (group_arg e) strok.
  Proof.
    intros e. unfold group_arg. eapply o_bind; [apply (o_argc G HG J)|]. intros [g|cs|ctx] Ha; os. exists g. auto.
  Qed.

  Lemma o_dim : forall t, strok t -> only Q (Inv G J) (on_local lex_dimension t) anything.
  Proof. intros t (sl & Hg & <-). eapply o_any. apply o_local. auto. Qed.
  Lemma o_glue : forall t, strok t -> only Q (Inv G J) (on_local lex_glue t) anything.
  Proof. intros t (sl & Hg & <-). eapply o_any. apply o_local. auto. Qed.
  Lemma o_color : forall t, strok t -> only Q (Inv G J) (color_of t) anything.
  Proof.
    intros t (sl & Hg & <-). unfold color_of. eapply o_bind; [apply o_lift; auto|]. intros o _. eapply o_any. apply o_ok_or.
  Qed.

  Lemma o_sized_delim : forall s, only Q (Inv G J) (sized_delim s) anything.
  Proof. intros s. unfold sized_delim. os; fin. Qed.

  Lemma o_atom_group : forall k, only Q (Inv G J) (atom_group rec k) anything.
  Proof. intros k. unfold atom_group. os; fin. unfold atom_event. destruct k; exact I. Qed.

  Lemma o_font_group : forall f, only Q (Inv G J) (font_group rec f) anything.
  Proof.
    intros f. unfold font_group. eapply o_bind; [apply (o_argc G HG J)|]. intros a Ha.
    eapply o_bind; [os; fin|]. intros _ _.
    eapply o_bind with (V := anything); [destruct a|intros; os; fin].
    - os; fin.
    - apply Hrec. exact Ha.
    - destruct Ha as [H1 (x & r & H2 & _ & H3 & H4)]. apply (o_handle_char G HG J); eauto.
  Qed.

  Lemma o_accent : forall c s, only Q (Inv G J) (accent rec c s) anything.
  Proof. intros. unfold accent. os; fin. Qed.
  Lemma o_underscript : forall c, only Q (Inv G J) (underscript rec c) anything.
  Proof. intros. unfold underscript. os; fin. Qed.
  Lemma o_text_argument : forall f, only Q (Inv G J) (text_argument f) anything.
  Proof. intros. unfold text_argument. os; fin. Qed.
  Lemma o_fraction_like : forall o c b s, only Q (Inv G J) (fraction_like rec o c b s) anything.
  Proof. intros. unfold fraction_like. os; fin. Qed.
  Lemma o_large_op : forall c m, only Q (Inv G J) (large_op c m) anything.
  Proof. intros. unfold large_op. os; fin. Qed.
  Lemma o_genfrac_delim : only Q (Inv G J) genfrac_delim anything.
  Proof. unfold genfrac_delim. os; fin. Qed.

  Lemma o_left_delim : only Q (Inv G J) left_delim anything.
  Proof.
    apply o_keeps; [apply (k_left_delim G HG J)|]. intros st Hi. unfold left_delim, bind, get.
    destruct (strip_char 46 _); [exact I|]. unfold lexc. pose proof (delimiter_tame Q (stxt (i_content st))) as H.
    destruct (lex_delimiter _) as [[?|?|?|] ?]; exact H.
  Qed.

  Lemma o_insert : forall name d, has_def G -> defn_ok d -> defn_over (char_in G) d ->
    only Q (Inv G J) (modify (fun st => set_macros (ctx_insert (i_macros st) name d) st)) anything.
  Proof. intros name d H1 H2 H3. apply o_keeps; [apply (k_insert G J HJ); assumption|]. intros; exact I. Qed.

  Lemma o_new_command : forall b, has_def G -> only Q (Inv G J) (new_command b) anything.
  Proof.
    intros b Hdef. unfold new_command. eapply o_bind; [apply (o_bracec G HG J)|]. intros g Hg.
    eapply o_bind; [apply o_local; auto with tame|]. intros [cs r] E. cbn [fst snd].
    eapply o_bind; [apply o_get|]. intros st Hst.
    eapply o_bind with (V := anything); [os; fin|]. intros _ _.
    eapply o_bind; [apply (o_optc G HG J)|]. intros o Ho.
    eapply o_bind; [apply o_ok_or|]. intros t Ht.
    eapply o_bind; [apply o_ok_or|]. intros n Hn.
    eapply o_bind; [apply (o_optc G HG J)|]. intros d Hd.
    destruct ((9 <? n) && _) eqn:E9; [apply o_fail|].
    eapply o_bind; [apply (o_bracec G HG J)|]. intros rep Hr.
    destruct (ctx_contains _ _ && _); [apply o_ret; exact I|].
    eapply o_bind; [apply o_lift; apply make_command_tame|]. intros m Hm. apply o_insert; [exact Hdef| |].
    2: { eapply make_command_over; [|apply over_char_in; exact Hr|exact Hm].
         destruct d as [t'|]; [apply over_char_in; exact Hd|exact I]. }
    eapply make_command_ok; [|exact Hm].
    apply andb_false_iff in E9 as [E9|E9]; [apply N.ltb_ge in E9; exact E9|].
    destruct (is_some d); apply N.leb_gt in E9; lia.
  Qed.

  Lemma o_array_environment : only Q (Inv G J) array_environment (fun g => ev_ok (EvBegin (fst g))).
  Proof.
    unfold array_environment. eapply o_bind; [apply o_group_arg|]. intros t (sl & Hg & <-).
    eapply o_bind; [apply o_lift; auto|]. intros p _. destruct (existsb is_column (fst p)) eqn:E; [apply o_ret; exact E|apply o_fail].
  Qed.

  Lemma o_optional_alignment : only Q (Inv G J) optional_alignment anything.
  Proof. unfold optional_alignment. os; fin. Qed.

  Lemma o_alignat : forall name, strok name -> In name pair_names -> only Q (Inv G J) (do p <- alignat_pairs ; do n <- pair_count p ; ret (p, n)) (fun x => fst x * 2 <= 65535).
  Proof.
    intros name Hn1 Hn2. unfold alignat_pairs. eapply o_bind with (V := fun p => 65535 < p * 2 -> Q POverflow).
    - eapply o_bind; [apply (o_argc G HG J)|]. intros [g|cs|ctx] Ha; [|apply o_fail|apply o_fail].
      eapply o_bind; [apply o_local; eapply Q_pair; eassumption|]. intros [n r] E. cbn [fst snd] in *. apply o_ret. intros H. eapply Q_pairs; eassumption.
    - intros p Hp. unfold pair_count. destruct (N.ltb_spec 65535 (p * 2)) as [H|H].
      + eapply o_bind with (V := fun _ => p * 2 <= 65535); [apply o_panic; auto|]. intros n Hn. apply o_ret. exact Hn.
      + eapply o_bind with (V := fun _ => p * 2 <= 65535); [apply o_ret; exact H|]. intros n Hn. apply o_ret. exact Hn.
  Qed.

  Lemma o_alignat_env : forall name (f : N -> N -> env_desc), strok name -> In name pair_names -> (forall p n, p * 2 <= 65535 -> env_ok (f p n)) ->
    only Q (Inv G J) (do p <- alignat_pairs ; do n <- pair_count p ; ret (f p n)) env_ok.
  Proof.
    intros name f Hn1 Hn2 Hf st Hi. pose proof (o_alignat name Hn1 Hn2 st Hi) as H. unfold bind in *. destruct (alignat_pairs st) as [[p|?|?|] st1]; try exact H.
    destruct (pair_count p st1) as [[n|?|?|] st2]; try exact H. destruct H as [H1 H2]. split; [exact H1|]. apply Hf. exact H2.
  Qed.

  Lemma o_environment : forall name, strok name -> only Q (Inv G J) (environment name) env_ok.
  Proof.
    intros name Hname. unfold environment.
    destruct (str_eqb name (lit "array")); [eapply o_bind; [apply o_array_environment|]; intros g Hg; apply o_ret; exact Hg|].
    destruct (str_eqb name (lit "darray")); [eapply o_bind; [apply o_array_environment|]; intros g Hg; apply o_ret; exact Hg|].
    destruct (str_eqb name (lit "alignat")) eqn:E0; [apply str_eqb_eq in E0; apply (o_alignat_env name); [exact Hname|subst name; cbn [pair_names In]; auto|intros p n Hp; exact Hp]|].
    destruct (str_eqb name (lit "alignat*")) eqn:E1; [apply str_eqb_eq in E1; apply (o_alignat_env name); [exact Hname|subst name; cbn [pair_names In]; auto|intros p n Hp; exact Hp]|].
    destruct (str_eqb name (lit "alignedat")) eqn:E2; [apply str_eqb_eq in E2; apply (o_alignat_env name); [exact Hname|subst name; cbn [pair_names In]; auto|intros p n Hp; exact Hp]|].
    destruct (str_eqb name (lit "subarray")).
    { eapply o_bind; [apply o_group_arg|]. intros t _. eapply o_bind; [apply o_ok_or|]. intros. apply o_ret. exact I. }
    destruct (assoc_str name matrix_table) as [[[[ty starred] st] wrap]|].
    + eapply o_bind with (V := anything); [destruct starred; [apply o_optional_alignment|apply o_ret; exact I]|].
      intros. apply o_ret. exact I.
    + destruct (assoc_str name plain_table) as [[[[g n] k] st]|] eqn:E; [|apply o_fail].
      apply o_ret. eapply plain_ok. exact E.
  Qed.

  Lemma o_begin_env : only Q (Inv G J) begin_env anything.
  Proof.
    unfold begin_env. eapply o_bind; [apply o_group_arg|]. intros name Hname.
    eapply o_bind; [apply o_environment; exact Hname|]. intros e He.
    eapply o_bind with (V := anything); [os; fin|]. intros _ _.
    eapply o_bind; [apply (o_lexc G HG J); auto with lexsuf tame|]. intros hl _.
    eapply o_bind; [apply (o_groupc G HG J)|]. intros g Hg.
    eapply o_bind; [apply o_push_ev; exact He|]. intros _ _.
    os; fin.
  Qed.

  Lemma o_newline : only Q (Inv G J) newline anything.
  Proof.
    unfold newline. eapply o_bind; [apply o_get|]. intros st _. destruct (i_align st) as [[n m]|]; [|apply o_fail].
    destruct (i_handling st); [apply o_fail|]. eapply o_bind; [os; fin|]. intros _ _.
    eapply o_bind; [apply (o_optc G HG J)|]. intros o Ho.
    eapply o_bind with (V := anything).
    { destruct o as [a|]; [|os; fin]. eapply o_bind; [apply o_dim; exists a; auto|]. intros; os; fin. }
    intros sp _. os; fin.
  Qed.

  Lemma o_overset_tail : forall n (l : P sarg), only Q (Inv G J) l (sarg_ok G) ->
    only Q (Inv G J) (do over <- l ; handle_arg rec over ;; do evs <- split_off n ;
                   do base <- argc ; handle_arg rec base ;; push evs) anything.
  Proof. intros n l Hl. eapply o_bind; [exact Hl|]. intros a Ha. os; fin. Qed.

  Lemma o_buildrel : forall cs (f : slice -> slice -> str -> P unit), cs_in G cs -> lookup_prim cs = PBuildrel ->
    (forall c c' oc, G c -> sl_sub (mid_slice c oc 5 (stxt c')) c -> only Q (Inv G J) (f c c' oc) anything) ->
    only Q (Inv G J) (do st <- get ;
      do oc <- lexc (content_with_suffix (lit "\over")) ;
      do st' <- get ; f (i_content st) (i_content st') oc) anything.
  Proof.
    intros cs f Hcs Hp Hf st Hi. unfold bind, get.
    destruct (lexc_run _ (content_with_suffix (lit "\over")) (content_with_suffix_suffix _ over_ne) st) as (sl & E & H1 & H2).
    rewrite !E.
    assert (Hi' : Inv G J (set_content sl st)).
    { apply inv_content; [eapply HG; [exact H1|apply Hi]|exact Hi]. }
    pose proof (Q_over cs (i_content st) Hcs Hp (proj1 Hi)) as Hq.
    destruct (content_with_suffix (lit "\over") (stxt (i_content st))) as [[a|e|p|] r] eqn:El;
      cbn [fst snd] in *; auto.
    cbn [i_content set_content]. apply Hf; [apply Hi| |exact Hi'].
    assert (Hd := El). apply content_with_suffix_iff in Hd; [|exact over_ne].
    apply delimited_text in Hd. subst sl. cbn [stxt suffix_slice].
    eapply (sl_sub_mid _ _ _ _ [] (lit "\over")); [exact Hd|reflexivity].
  Qed.

  Lemma o_get_lexc : forall A B (l : lexer A) (f : ist -> A -> P B) W, leaves_suffix l -> (forall sl, G sl -> tame Q (fst (l (stxt sl)))) ->
    (forall st a r, Inv G J st -> l (stxt (i_content st)) = (Ok a, r) -> only Q (Inv G J) (f st a) W) ->
    only Q (Inv G J) (do st <- get ; do a <- lexc l ; f st a) W.
  Proof.
    intros A B l f W Hl Ht Hf st Hi. unfold bind at 1, get. unfold bind.
    destruct (lexc_run A l Hl st) as (sl & E & H1 & H2). rewrite E.
    assert (Hi' : Inv G J (set_content sl st)).
    { apply inv_content; [eapply HG; [exact H1|apply Hi]|exact Hi]. }
    specialize (Ht (i_content st) (proj1 Hi)).
    destruct (l (stxt (i_content st))) as [[a|e|p|] r] eqn:El; cbn [fst snd] in *; auto.
    eapply Hf; eassumption.
  Qed.

  Lemma o_hprim_body : forall cs, cs_in G cs -> only Q (Inv G J) (hprim_body rec cs) anything.
  Proof.
    intros cs Hcs. unfold hprim_body. destruct (lookup_prim cs) eqn:EL;
      try solve [os; fin | apply o_atom_group | apply o_font_group | apply o_sized_delim | apply o_large_op
                | apply o_fraction_like | apply o_text_argument | apply o_begin_env | apply o_newline].
    - apply o_push_ev. apply leaf_ok; [eapply lookup_leaf; exact EL|eapply lookup_number; exact EL].
    - os; fin. apply o_atom_group.
    - eapply o_bind; [apply o_group_arg|intros t Ht]. eapply o_bind; [os|intros _ _]. eapply o_bind; [apply o_color; exact Ht|intros c _]. os; fin.
    - eapply o_bind; [apply o_group_arg|intros t Ht]. eapply o_bind; [apply o_color; exact Ht|intros c _]. os; fin.
    - eapply o_bind; [apply o_group_arg|intros t Ht]. eapply o_bind; [apply o_color; exact Ht|intros c _]. os; fin.
      apply o_text_argument.
    - eapply o_bind; [apply o_group_arg|intros t Ht]. eapply o_bind; [apply o_group_arg|intros u Hu].
      eapply o_bind; [apply o_color; exact Ht|intros c _]. eapply o_bind; [apply o_color; exact Hu|intros d _]. os; fin.
      apply o_text_argument.
    - eapply o_bind; [apply o_left_delim|intros o _]. eapply o_bind; [apply (o_groupc G HG J)|intros g Hg].
      eapply o_bind; [apply o_left_delim|intros c _]. os; fin.
    - os; fin; apply o_accent.
    - os; fin; apply o_underscript.
    - eapply o_bind; [apply o_group_arg|intros t Ht]. eapply o_bind; [apply o_glue; exact Ht|intros w _]. os; fin.
    - eapply o_bind; [apply o_group_arg|intros t Ht]. eapply o_bind; [apply o_dim; exact Ht|intros w _].
      eapply o_bind; [apply o_group_arg|intros t2 Ht2]. eapply o_bind; [apply o_dim; exact Ht2|intros w2 _].
      eapply o_bind; [apply o_group_arg|intros t3 Ht3]. eapply o_bind; [apply o_dim; exact Ht3|intros w3 _]. os; fin.
    - eapply o_bind; [apply o_genfrac_delim|intros l _]. eapply o_bind; [apply o_genfrac_delim|intros r _].
      eapply o_bind; [apply (o_argc G HG J)|intros b Hb].
      eapply o_bind with (V := anything).
      { destruct b as [g|?|?]; [|apply o_fail|apply o_fail]. destruct (is_nil (stxt g)); [os; fin|].
        eapply o_bind; [apply o_dim; exists g; auto|intros d _]. os; fin. }
      intros bar _.
      eapply o_bind; [apply (o_argc G HG J)|intros b' _].
      eapply o_bind with (V := anything); [os; fin|intros sty _]. apply o_fraction_like.
    - apply (o_buildrel cs (fun c c' oc => push_ev (EvScript STSup SPAboveBelow) ;;
        do n <- buf_len ; do over <- lift (fst (arg_slice (mid_slice c oc 5 (stxt c')))) ;
        handle_arg rec over ;; do evs <- split_off n ; do base <- argc ; handle_arg rec base ;; push evs)); [exact Hcs|exact EL|].
      intros c c' oc Hc Hs. eapply o_bind; [os; fin|intros _ _]. eapply o_bind; [os; fin|intros n _].
      apply o_overset_tail. eapply o_weaken; [apply o_lift; apply arg_slice_tame|]. intros a Ha. cbn in Ha.
      pose proof (arg_slice_spec (mid_slice c oc 5 (stxt c'))) as Hsp.
      destruct (arg_slice _) as [r sl]. cbn in Ha. subst r. destruct Hsp as [_ Hsp].
      apply (sarg_spec_ok G HG) in Hsp; [exact Hsp|]. eapply HG; eassumption.
    - eapply o_bind; [apply (o_lexc G HG J); [auto with lexsuf|intros; eapply Q_char; eassumption]|intros d _]. os; fin.
    - assert (Hdef : has_def G) by (exists cs; rewrite EL; auto).
      eapply o_bind; [apply (o_lexc_over G HG J); [auto with lexsuf|auto with tame|apply definition_over]|intros d Hd].
      eapply o_bind; [os|intros _ _]. eapply o_bind; [apply o_lift; apply make_macro_tame|intros m Hm].
      apply o_insert; [exact Hdef|eapply make_macro_ok; exact Hm|eapply make_macro_over; [exact (proj1 Hd)|exact (proj2 Hd)|exact Hm]].
    - assert (Hdef : has_def G) by (exists cs; rewrite EL; auto).
      eapply o_bind; [apply (o_lexc_over G HG J); [auto with lexsuf|auto with tame|apply let_over]|intros d Hd].
      eapply o_bind; [os|intros _ _]. apply o_insert; [exact Hdef|exact I|apply alias_over; exact Hd].
    - assert (Hdef : has_def G) by (exists cs; rewrite EL; auto).
      apply (o_get_lexc _ _ futurelet_assignment (fun st0 d => modify (set_skip true) ;;
        modify (fun st => set_macros (ctx_insert (i_macros st) (fst (fst d)) (alias (snd (fst d)))) st) ;;
        modify (set_content (suffix_slice (i_content st0) (snd d))))); [auto with lexsuf|intros; auto with tame|].
      intros st0 [[nm t] b] r Hi E. eapply o_bind; [os|intros _ _].
      assert (Ht : tok_over (char_in G) t).
      { pose proof (proj2 (futurelet_over (char_in G) _ (over_char_in G _ (proj1 Hi)))) as Ht. rewrite E in Ht. exact Ht. }
      eapply o_bind; [apply o_insert; [exact Hdef|exact I|apply alias_over; exact Ht]|intros _ _]. cbn [fst snd] in *.
      apply o_modify. intros s' Hs'. apply inv_content; [|exact Hs'].
      eapply HG; [apply sl_sub_suffix; eapply futurelet_before; exact E|apply Hi].
    - apply o_new_command. exists cs. rewrite EL. auto.
  Qed.
End QuietPrims.

Section QuietParse.
  Variable G : slice -> Prop.
  Hypothesis HG : forall a b, sl_sub a b -> G b -> G a.
  Variable J : macro_ctx -> Prop.
  Hypothesis HJ : def_closed G J.
  Variable Q : panic -> Prop.
  Hypothesis Q_dim : forall sl, G sl -> tame Q (fst (lex_dimension (stxt sl))).
  Hypothesis Q_glue : forall sl, G sl -> tame Q (fst (lex_glue (stxt sl))).
  Hypothesis Q_dimb : forall sl, G sl -> tame Q (fst (dimension_or_braced (stxt sl))).
  Hypothesis Q_glueb : forall sl, G sl -> tame Q (fst (glue_or_braced (stxt sl))).
  Hypothesis Q_char : forall cs sl, cs_in G cs -> lookup_prim cs = PChar -> G sl -> tame Q (fst (unsigned_integer (stxt sl))).
  Hypothesis Q_pair : forall name sl, str_ok G name -> In name pair_names -> G sl -> tame Q (fst (unsigned_integer (stxt sl))).
  Hypothesis Q_color : forall sl, G sl -> tame Q (lex_color (stxt sl)).
  Hypothesis Q_cols : forall sl, G sl -> tame Q (array_columns 0 (stxt sl)).
  Hypothesis Q_pairs : forall name sl n r, str_ok G name -> In name pair_names -> G sl ->
    unsigned_integer (stxt sl) = (Ok n, r) -> 65535 < n mod 65536 * 2 -> Q POverflow.
  Hypothesis Q_over : forall cs sl, cs_in G cs -> lookup_prim cs = PBuildrel -> G sl ->
    tame Q (fst (content_with_suffix (lit "\over") (stxt sl))).

  Lemma o_hprim : forall fuel cs, cs_in G cs -> only Q (Inv G J) (hprim fuel cs) anything.
  Proof.
    induction fuel as [|f IH]; intros cs Hcs.
    - intros st Hi. cbn. auto.
    - apply (o_hprim_body G HG J HJ Q); assumption.
  Qed.

  Lemma o_handle_prim : forall cs, cs_in G cs -> only Q (Inv G J) (handle_prim cs) anything.
  Proof. intros cs Hcs st Hi. unfold handle_prim. apply o_hprim; assumption. Qed.

  Lemma o_drop1 : only Q (Inv G J) drop1 anything.
  Proof. apply o_keeps; [apply (k_drop1 G HG J)|]. intros; exact I. Qed.

  Lemma o_peek : only Q (Inv G J) peek anything.
  Proof. intros st Hi. cbn. split; [exact Hi|exact I]. Qed.

  Lemma o_parse_scripts : only Q (Inv G J) parse_scripts script_ok.
  Proof.
    pose proof o_handle_prim as Hp.
    unfold parse_scripts. eapply o_bind; [apply o_get|]. intros st0 _. destruct (i_skip st0); [apply o_ret; exact I|].
    eapply o_bind with (V := anything).
    { destruct (i_allow st0); [|apply o_ret; exact I].
      eapply o_bind; [apply (o_lexc G HG J); auto with lexsuf tame|]. intros [[]|] _;
        [apply o_flag; intros; cbn; auto| |apply o_ret; exact I].
      apply o_flag; intros; cbn; auto. }
    intros _ _. eapply o_bind; [apply o_modify; intros st Hi; apply (inv_suffix G HG J); [apply suffix_trim|exact Hi]|].
    intros _ _. eapply o_bind; [apply o_peek|]. intros c _.
    destruct (_ || _); [|apply o_ret; exact I]. cbv zeta.
    eapply o_bind; [apply o_drop1|]. intros _ _. eapply o_bind; [apply o_buf_len|]. intros first _.
    eapply o_bind; [apply (o_argc G HG J)|]. intros a Haa.
    eapply o_bind; [apply (o_handle_arg G HG J _ _ Hp); exact Haa|]. intros _ _.
    eapply o_bind; [apply o_buf_len|]. intros second _.
    eapply o_bind; [apply o_peek|]. intros nc _.
    eapply o_bind with (V := anything).
    { destruct (_ || _).
      - eapply o_bind; [apply o_drop1|]. intros _ _.
        eapply o_bind; [apply (o_argc G HG J)|]. intros a2 Ha2.
        eapply o_bind; [apply (o_handle_arg G HG J _ _ Hp); exact Ha2|]. intros _ _.
        eapply o_bind; [apply o_peek|]. intros nc2 _.
        destruct (is_char 95 nc2); [apply o_fail|]. destruct (is_char 94 nc2); [apply o_fail|apply o_ret; exact I].
      - destruct (_ || _); [apply o_fail|apply o_ret; exact I]. }
    intros _ _. eapply o_bind; [apply o_buf_len|]. intros e_ _. eapply o_bind; [apply o_get|]. intros st _.
    destruct (Nat.eqb _ _); destruct (is_char 95 c); apply o_ret; exact I.
  Qed.

  Lemma o_atom_cs : forall cs, cs_in G cs -> only Q (Inv G J) (parse_atom (handle_prim cs)) script_ok.
  Proof. intros cs Hcs. unfold parse_atom. eapply o_bind; [apply o_handle_prim; exact Hcs|intros; apply o_parse_scripts]. Qed.

  Lemma o_atom_char : forall ctx, G ctx -> (exists x r, stxt ctx = x :: r /\ x <> 37 /\ x <> 92) ->
    only Q (Inv G J) (parse_atom (handle_char ctx)) script_ok.
  Proof.
    intros ctx H1 H2. unfold parse_atom. eapply o_bind; [apply (o_handle_char G HG J); assumption|intros; apply o_parse_scripts].
  Qed.
End QuietParse.

(** ** Which lexer panics, and when *)

Lemma tame_any : forall (Q : panic -> Prop) A (r : res A), (forall p, r = Panic p -> Q p) -> tame Q r.
Proof. intros Q A [a|e|p|] H; try exact I. apply H. reflexivity. Qed.

(** White space of more than one byte. *)
Definition wide_space (c : char) : Prop := is_ws c = true /\ clen c <> 1.

Lemma space_tame : forall (Q : panic -> Prop) s, (Q PBoundary \/ ~ exists c r, s = c :: r /\ wide_space c) -> tame Q (fst (one_optional_space s)).
Proof.
  intros Q [|c s] H; [exact I|]. unfold one_optional_space. destruct (is_ws c) eqn:E; [|exact I].
  destruct (N.eqb_spec (clen c) 1); [exact I|]. destruct H as [H|H]; [exact H|]. exfalso. apply H. exists c, s. split; [reflexivity|]. split; assumption.
Qed.

Definition no_wide (s : str) : Prop := Forall (fun c => ~ wide_space c) s.

Lemma no_wide_suffix : forall r s, suffix r s -> no_wide s -> no_wide r.
Proof. intros r s [u ->] H. apply Forall_app in H. apply H. Qed.

Lemma space_tame' : forall (Q : panic -> Prop) s, (Q PBoundary \/ no_wide s) -> tame Q (fst (one_optional_space s)).
Proof.
  intros Q s [H|H]; apply space_tame; [left; exact H|]. right. intros (c & r & -> & Hw). inversion H; subst. contradiction.
Qed.

Lemma bind_tame' : forall Q A B (m : lexer A) (f : A -> lexer B) s, leaves_suffix m -> tame Q (fst (m s)) ->
  (forall a r, suffix r s -> m s = (Ok a, r) -> tame Q (fst (f a r))) -> tame Q (fst (bind m f s)).
Proof.
  intros Q A B m f s Hl Hm Hf. apply bind_tame; [exact Hm|]. intros a r E. apply Hf; [|exact E]. pose proof (Hl s) as H. rewrite E in H. exact H.
Qed.
