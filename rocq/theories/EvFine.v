(** * EvFine: the values in the events of the parser, whatever it is given.

    The characters are those of the text or of the tables, numbers are of the
    right type, arrays have columns. With [st] not [None], the text must also be
    without a few characters and commands. *)

From Coq Require Import List NArith ZArith Bool Lia Arith SpecFloat.
From Verif Require Import Base Float32 Event Tables Prim PrimTable Lex Macros Primitives Spans Parser SpecLex LexFacts LexMore PrimFacts Keep KeepRun Order
  SpecEvent SpecStream SpecClean DisplayFacts RenderProps.
Import ListNotations.
Open Scope N_scope.
Open Scope sm_scope.

(** ** Tables *)

Definition tidy_char (st : option bool) (c : char) : bool :=
  valid_char c && match st with None => true | Some _ => text_char c end.

(** Commands whose argument is written as it is. *)
Definition raw_prim (p : prim) : bool := match p with PAtom _ | PMathop | POperatorname => true | _ => false end.

(** Commands that give something not clean. *)
Definition bad_prim (st : option bool) (p : prim) : bool :=
  match st, p with
  | None, _ => false
  | Some _, PSimple e => negb (fineb st e)
  | Some _, PChar => true
  | Some true, (PSized _ | PMiddle | PText _ | PColorbox | PFcolorbox) => true
  | _, _ => false
  end.

(** What the table holds for the other commands. *)
Definition prim_tidy (st : option bool) (x : str * prim) : bool :=
  match snd x with
  | PSimple e => fineb None e
  | PFunction | PFunctionLim => forallb (tidy_char st) (fst x)
  | PFunNameLim n => forallb (tidy_char st) n
  | PLargeOp c _ | PAccent c _ _ | PUnder c _ | PXArrow c => tidy_char st c
  | PFraction o c bar _ => delim_clean st o && delim_clean st c && dim_okb bar
  | _ => true
  end.

Lemma table_tidy : forall st, forallb (prim_tidy st) prim_table = true.
Proof. intros [[]|]; vm_compute; reflexivity. Qed.

Lemma lookup_tidy : forall st cs, bad_prim st (lookup_prim cs) = false -> prim_tidy st (cs, lookup_prim cs) = true.
Proof.
  intros st cs _. unfold lookup_prim. destruct (assoc_str cs prim_table) as [p|] eqn:E.
  - apply assoc_str_in in E. exact (proj1 (forallb_forall _ _) (table_tidy st) _ E).
  - unfold control_sequence_delimiter_map. destruct (assoc_str cs cs_delims) as [[c ty]|] eqn:Ed.
    + apply assoc_str_in in Ed. assert (H : forallb (fun x => valid_char (fst (snd x))) cs_delims = true) by (vm_compute; reflexivity).
      apply (proj1 (forallb_forall _ _) H) in Ed. cbn [fst snd] in Ed. cbn. rewrite Ed. reflexivity.
    + destruct (is_nil (trim_start cs)); reflexivity.
Qed.

Lemma simple_fine : forall st cs e, lookup_prim cs = PSimple e -> bad_prim st (lookup_prim cs) = false -> fine st e.
Proof.
  intros st cs e H Hb. pose proof (lookup_tidy st cs Hb) as Ht. rewrite H in *. cbn in Ht. apply fineb_ok.
  destruct st as [b|]; [|exact Ht]. cbn [bad_prim] in Hb. destruct b; apply negb_false_iff in Hb; exact Hb.
Qed.

Lemma cs_delim_tidy : forall st cs d, control_sequence_delimiter_map cs = Some d -> tidy_char st (fst d) = true.
Proof.
  intros st cs d H. unfold control_sequence_delimiter_map in H. apply assoc_str_in in H.
  assert (Ht : forallb (fun x => tidy_char st (fst (snd x))) cs_delims = true) by (destruct st; vm_compute; reflexivity).
  exact (proj1 (forallb_forall _ _) Ht _ H).
Qed.

Lemma assoc_char_in : forall A c (l : list (char * A)) v, assoc_char c l = Some v -> In (c, v) l.
Proof.
  induction l as [|[k w] l IH]; intros v H; [discriminate|]. cbn in H.
  destruct (N.eqb_spec k c) as [->|E]; [injection H as ->; left; reflexivity|right; auto].
Qed.

Lemma char_delim_tidy : forall st c d, char_delimiter_map c = Some d -> tidy_char st (fst d) = true.
Proof.
  intros st c d H. unfold char_delimiter_map in H. destruct (assoc_char c char_delims) as [ty|] eqn:E; [|discriminate].
  injection H as <-. apply assoc_char_in in E.
  assert (Ht : forallb (fun x => tidy_char st (fst x)) char_delims = true) by (destruct st; vm_compute; reflexivity).
  exact (proj1 (forallb_forall _ _) Ht _ E).
Qed.

Lemma token_delim_tidy : forall st t d, token_to_delim t = Some d -> tidy_char st (fst d) = true.
Proof.
  intros st [cs|ctx] d H; cbn [token_to_delim] in H; [eapply cs_delim_tidy; exact H|eapply char_delim_tidy; exact H].
Qed.

Lemma delim_tidy_clean : forall st c, tidy_char st c = true -> delim_clean st (Some c) = true.
Proof. intros [b|] c H; [|reflexivity]. apply andb_prop in H. apply H. Qed.

Lemma lex_delimiter_tidy : forall st s d r, lex_delimiter s = (Ok d, r) -> tidy_char st (fst d) = true.
Proof.
  intros st s d r H. unfold lex_delimiter, bind in H. destruct (lex_token s) as [[t|?|?|] r']; try discriminate.
  destruct (token_to_delim t) as [d'|] eqn:E; [|discriminate]. injection H as <- _. eapply token_delim_tidy. exact E.
Qed.

(** ** Dimensions *)

Definition dval_ok (d : dimension) : Prop := f32_ok (dvalue d).

Lemma floating_ok : forall s x r, floating_point s = (Ok x, r) -> f32_ok x.
Proof.
  intros s x r H. unfold floating_point, bind, get, put, ret in H. destruct (signs s) as [[neg|?|?|] s1]; try discriminate.
  destruct (span_while is_digit s1) as [ds r1]. destruct r1 as [|c r1]; [injection H as <- _; apply f32_mul_ok|].
  destruct (_ || _); [|injection H as <- _; apply f32_mul_ok].
  destruct (span_while is_digit r1) as [fs r2]. injection H as <- _. apply f32_mul_ok.
Qed.

Lemma dimension_ok : forall s d r, lex_dimension s = (Ok d, r) -> dval_ok d.
Proof.
  intros s d r H. unfold lex_dimension, bind in H. destruct (floating_point s) as [[v|?|?|] r1] eqn:E; try discriminate.
  destruct (dimension_unit r1) as [[u|?|?|] r2]; try discriminate. injection H as <- _. eapply floating_ok. exact E.
Qed.

Lemma glue_ok : forall s d r, lex_glue s = (Ok d, r) -> dval_ok (fst (fst d)).
Proof.
  intros s d r H. unfold lex_glue, bind in H. destruct (lex_dimension s) as [[v|?|?|] r1] eqn:E; try discriminate.
  destruct (glue_part _ r1) as [[p|?|?|] r2]; try discriminate. destruct (glue_part _ r2) as [[m|?|?|] r3]; try discriminate.
  injection H as <- _. eapply dimension_ok. exact E.
Qed.

Lemma or_braced_ok : forall A (l : lexer A) (V : A -> Prop), (forall s a r, l s = (Ok a, r) -> V a) ->
  forall s a r, or_braced l s = (Ok a, r) -> V a.
Proof.
  intros A l V Hl s a r H. unfold or_braced, bind, get in H.
  destruct (strip_char 123 (trim_start s)); [|eapply Hl; exact H].
  destruct (brace_argument s) as [[i|?|?|] r1]; try discriminate. unfold run_on in H.
  destruct (l i) as [[x|?|?|] r2] eqn:E; try discriminate. cbn [fst snd] in H.
  destruct (is_nil (trim_start r2)); [|discriminate]. injection H as <- _. eapply Hl. exact E.
Qed.

(** ** Definitions *)

Definition rep_valid (rep : list rtoken) : Prop := Forall (fun t => match t with RStr s => valid_str s | RParam _ => True end) rep.
Definition tok_valid (t : token) : Prop := match t with TCs cs => valid_str cs | TChr c => valid_str c end.

Definition defn_valid (d : mdef) : Prop :=
  match d with
  | MDMacro _ _ _ rep => rep_valid rep
  | MDAlias t => tok_valid t
  | MDCommand _ d rep => match d with Some s => valid_str s | None => True end /\ rep_valid rep
  end.

(** ** Texts read by the lexers *)

Lemma valid_app : forall a b, valid_str (a ++ b) <-> valid_str a /\ valid_str b.
Proof. intros. apply Forall_app. Qed.
Lemma valid_suffix : forall r s, suffix r s -> valid_str s -> valid_str r.
Proof. intros r s [p ->] H. apply valid_app in H. apply H. Qed.
Lemma valid_contains : forall t s, contains t s -> valid_str s -> valid_str t.
Proof. intros t s (p & q & ->) H. apply valid_app in H as [_ H]. apply valid_app in H. apply H. Qed.
Lemma valid_sub : forall a b, sl_sub a b -> valid_str (stxt b) -> valid_str (stxt a).
Proof. intros a b H. apply valid_contains. eapply contains_sub; [exact H|]. exists [], []. rewrite app_nil_r. reflexivity. Qed.

Lemma split_incl_valid : forall c s, valid_str s -> Forall valid_str (split_incl c s).
Proof.
  induction s as [|x s IH]; intros H; [constructor|]. inversion H; subst. cbn [split_incl]. specialize (IH H3).
  destruct (x =? c); [constructor; [repeat constructor; assumption|exact IH]|].
  destruct (split_incl c s); [repeat constructor; assumption|]. inversion IH; subst. constructor; [constructor; assumption|assumption].
Qed.

Lemma removelast_valid : forall s, valid_str s -> valid_str (removelast s).
Proof.
  induction s as [|x [|y s] IH]; intros H; [constructor|constructor|]. inversion H; subst.
  constructor; [assumption|]. apply IH. assumption.
Qed.

Lemma rep_loop_valid : forall n rest cur l, valid_str cur -> Forall valid_str rest -> rep_loop n cur rest = Ok l -> rep_valid l.
Proof.
  intros n rest. induction rest as [rest IH] using (well_founded_induction
    (well_founded_ltof _ (@length str))). intros cur l Hc Hr H. unfold ltof in IH.
  destruct rest as [|next rest']; cbn [rep_loop] in H.
  - destruct (is_nil cur); [injection H as <-; constructor|].
    destruct (ends_with_char 35 cur); [discriminate|]. injection H as <-. repeat constructor. exact Hc.
  - inversion Hr as [|? ? Hn Hr']; subst. destruct next as [|fc nt]; [discriminate|]. destruct (fc =? 35).
    + destruct rest' as [|n2 r2]; [injection H as <-; repeat constructor; exact Hc|]. inversion Hr'; subst.
      destruct (rep_loop n n2 r2) eqn:E; try discriminate. injection H as <-.
      constructor; [exact Hc|]. eapply IH; [|eassumption|eassumption|exact E]. cbn. lia.
    + destruct (is_digit fc); [|discriminate]. destruct (_ || _) eqn:Ei; [discriminate|].
      inversion Hn; subst. destruct (rep_loop n nt rest') eqn:E; try discriminate.
      apply IH in E; [|cbn; lia|assumption|assumption].
      destruct (blen cur =? 1); injection H as <-; repeat (constructor; auto). apply removelast_valid. exact Hc.
Qed.

Lemma replacement_valid : forall s n l, valid_str s -> parse_replacement s n = Ok l -> rep_valid l.
Proof.
  intros s n l Hs H. unfold parse_replacement in H. pose proof (split_incl_valid 35 s Hs) as Hp.
  destruct (split_incl 35 s); [injection H as <-; constructor|]. inversion Hp; subst. eapply rep_loop_valid; eassumption.
Qed.

Lemma make_macro_valid : forall a b d, valid_str b -> make_macro a b = Ok d -> defn_valid d.
Proof.
  intros a b d Hb H. unfold make_macro in H. destruct (split_char 35 _) as [|p ps]; [discriminate|].
  destruct (parse_params 1 ps) as [params|?|?|]; try discriminate.
  destruct (parse_replacement b _) as [r|?|?|] eqn:Er; try discriminate. injection H as <-.
  eapply replacement_valid; eassumption.
Qed.

Lemma make_command_valid : forall n d rep m, match d with Some s => valid_str s | None => True end -> valid_str rep ->
  make_command n d rep = Ok m -> defn_valid m.
Proof.
  intros n d rep m Hd Hr H. unfold make_command in H. destruct (parse_replacement rep n) eqn:E; try discriminate.
  injection H as <-. split; [exact Hd|eapply replacement_valid; eassumption].
Qed.

(** [l] gives [V] on valid text. *)
Definition lvalid {A} (l : lexer A) (V : A -> Prop) : Prop :=
  forall s, valid_str s -> valid_str (snd (l s)) /\ match fst (l s) with Ok a => V a | _ => True end.

Lemma lv_ret : forall A (a : A) (V : A -> Prop), V a -> lvalid (ret a) V.
Proof. intros A a V H s Hs. split; assumption. Qed.
Lemma lv_fail : forall A e (V : A -> Prop), lvalid (fail e) V.
Proof. intros A e V s Hs. split; [exact Hs|exact I]. Qed.
Lemma lv_panic : forall A e (V : A -> Prop), lvalid (panic_with e) V.
Proof. intros A e V s Hs. split; [exact Hs|exact I]. Qed.
Lemma lv_bind : forall A B (l : lexer A) (f : A -> lexer B) V W, lvalid l V -> (forall a, V a -> lvalid (f a) W) -> lvalid (bind l f) W.
Proof.
  intros A B l f V W Hl Hf s Hs. unfold bind. destruct (Hl s Hs) as [H1 H2]. destruct (l s) as [[a|e|p|] r]; cbn [fst snd] in *;
    try (split; [exact H1|exact I]). apply Hf; assumption.
Qed.
Lemma lv_get : lvalid get valid_str.
Proof. intros s Hs. split; exact Hs. Qed.
Lemma lv_put : forall r, valid_str r -> lvalid (put r) (fun _ => True).
Proof. intros r Hr s Hs. split; [exact Hr|exact I]. Qed.

Lemma group_valid : forall k, lvalid (group_content k) valid_str.
Proof.
  intros k s Hs. split; [eapply valid_suffix; [apply group_content_suffix|exact Hs]|].
  destruct (group_content k s) as [[g|e|p|] r] eqn:E; try exact I. cbn.
  eapply valid_contains; [|exact Hs]. apply group_content_text in E. rewrite E. exists [], (closing_str k ++ r)%list. reflexivity.
Qed.

Lemma token_valid : lvalid lex_token tok_valid.
Proof.
  intros s Hs. split; [eapply valid_suffix; [apply lex_token_suffix|exact Hs]|].
  destruct (lex_token s) as [[[cs|ctx]|e|p|] r] eqn:E; try exact I; cbn [fst tok_valid].
  - destruct (lex_token_cs _ _ _ E) as (b & w & _ & _ & _ & ->). apply valid_app in Hs as [_ Hs]. inversion Hs; subst.
    apply valid_app in H2. apply H2.
  - destruct (lex_token_chr _ _ _ E) as (b & c & _ & -> & E' & _). rewrite E' in Hs. apply valid_app in Hs. apply Hs.
Qed.

Lemma strip_valid : forall c s r, strip_char c s = Some r -> valid_str s -> valid_str r.
Proof. intros c s r H Hs. apply strip_char_some in H. subst. inversion Hs; assumption. Qed.

Definition arg_valid (a : argument) : Prop := match a with AToken t => tok_valid t | AGroup g => valid_str g end.

Lemma trim_start_valid : forall s, valid_str s -> valid_str (trim_start s).
Proof. intros s. apply valid_suffix, suffix_trim. Qed.

Lemma argument_valid : lvalid lex_argument arg_valid.
Proof.
  intros s Hs. unfold lex_argument. destruct (strip_char 123 (trim_start s)) as [r|] eqn:E.
  - refine (lv_bind _ _ _ _ _ _ (group_valid GKNormal) _ r _); [intros a Ha; apply lv_ret; exact Ha|].
    eapply strip_valid; [exact E|apply trim_start_valid; exact Hs].
  - refine (lv_bind _ _ _ _ _ _ token_valid _ s Hs). intros a Ha. apply lv_ret. exact Ha.
Qed.

Lemma optional_valid : lvalid optional_argument (fun o => match o with Some a => valid_str a | None => True end).
Proof.
  intros s Hs. unfold optional_argument. destruct (strip_char 91 (trim_start s)) as [r|] eqn:E; [|split; [exact Hs|exact I]].
  assert (Hr : valid_str r) by (eapply strip_valid; [exact E|apply trim_start_valid; exact Hs]).
  destruct (group_valid GKOptional r Hr) as [H1 H2]. destruct (group_content GKOptional r) as [[g|e|p|] r']; split; try exact H1; auto.
Qed.

Lemma suffixed_valid : forall suf, suf <> [] -> lvalid (content_with_suffix suf) valid_str.
Proof.
  intros suf Hn s Hs. split; [eapply valid_suffix; [apply content_with_suffix_suffix; exact Hn|exact Hs]|].
  destruct (content_with_suffix suf s) as [[g|e|p|] r] eqn:E; try exact I. cbn.
  apply content_with_suffix_iff in E; [|exact Hn]. apply delimited_text in E. rewrite E in Hs. apply valid_app in Hs. apply Hs.
Qed.

Definition rarg_valid (a : rarg) : Prop := match a with RArg a => arg_valid a | RRaw s => valid_str s end.

Lemma split_once_valid : forall t s a b, split_once_str t s = Some (a, b) -> valid_str s -> valid_str a.
Proof.
  intros t s. induction s as [|x s IH]; intros a b H Hs; cbn [split_once_str] in H;
    destruct (strip_prefix t _); try (injection H as <- <-; constructor); try discriminate.
  destruct (split_once_str t s) as [[a' b']|]; [|discriminate]. injection H as <- <-. inversion Hs; subst.
  constructor; [assumption|]. eapply IH; [reflexivity|assumption].
Qed.

Lemma macro_args_valid : forall lb ps, Forall some_ne ps -> lvalid (macro_args lb ps) (Forall rarg_valid).
Proof.
  intros lb ps. induction ps as [|p ps IH]; intros Hne; [apply lv_ret; constructor|]. inversion Hne; subst.
  cbn [macro_args]. destruct (_ && _).
  - eapply lv_bind; [apply lv_get|]. intros s Hs. destruct (split_once_str _ s) as [[a b]|] eqn:E; [|apply lv_fail].
    eapply lv_bind; [apply lv_put|intros; apply lv_ret].
    + eapply valid_suffix; [|exact Hs]. exists (firstn (length a) s). rewrite firstn_skipn. reflexivity.
    + repeat constructor. eapply split_once_valid; eassumption.
  - eapply lv_bind with (V := rarg_valid).
    + destruct p as [suf|]; [eapply lv_bind; [apply suffixed_valid; assumption|]|eapply lv_bind; [apply argument_valid|]];
        intros a Ha; apply lv_ret; exact Ha.
    + intros a Ha. eapply lv_bind; [apply IH; assumption|]. intros l Hl. apply lv_ret. constructor; assumption.
Qed.

Lemma n_args_valid : forall n, lvalid (n_args n) (Forall rarg_valid).
Proof.
  induction n as [|n IH]; [apply lv_ret; constructor|]. cbn [n_args]. eapply lv_bind; [apply argument_valid|].
  intros a Ha. eapply lv_bind; [exact IH|]. intros l Hl. apply lv_ret. constructor; assumption.
Qed.

Lemma ctx_char_valid : forall s, valid_str s -> valid_char (ctx_char s) = true.
Proof. intros [|c s] H; [reflexivity|]. inversion H; assumption. Qed.

Lemma arg_text_valid : forall a, rarg_valid a -> valid_str (arg_text a).
Proof.
  intros [[[cs|ctx]|g]|s] H; cbn in *; auto.
  - constructor; [reflexivity|exact H].
  - repeat constructor. apply ctx_char_valid. exact H.
  - constructor; [reflexivity|]. apply valid_app. split; [exact H|repeat constructor].
Qed.

Lemma expand_rep_valid : forall args rep t, Forall rarg_valid args -> rep_valid rep -> expand_rep args rep = Some t -> valid_str t.
Proof.
  intros args rep. induction rep as [|x rep IH]; intros t Ha Hr H; cbn [expand_rep] in H; [injection H as <-; constructor|].
  inversion Hr; subst. destruct (expand_rep args rep) as [r|]; [|discriminate]. specialize (IH r Ha H3 eq_refl).
  destruct x as [i|s].
  - destruct (nth_error args _) as [a|] eqn:E; [|discriminate]. injection H as <-. apply valid_app. split; [|exact IH].
    apply arg_text_valid. rewrite Forall_forall in Ha. apply Ha. eapply nth_error_In. exact E.
  - injection H as <-. apply valid_app. split; assumption.
Qed.

Lemma expand_call_valid : forall d, defn_ok d -> defn_valid d -> lvalid (expand_call d) valid_str.
Proof.
  intros d Hok Hd. destruct d as [pre ps lb rep|t|n dflt rep]; cbn [expand_call].
  - destruct Hok as (_ & _ & Hps & _). eapply lv_bind; [apply lv_get|]. intros s Hs.
    eapply lv_bind with (V := fun _ => True).
    { destruct pre as [p|]; [|apply lv_ret; exact I]. destruct (strip_prefix p s) as [r|] eqn:E; [|apply lv_fail].
      apply lv_put. eapply valid_suffix; [|exact Hs]. apply strip_prefix_some in E. exists p. exact E. }
    intros _ _. eapply lv_bind; [apply macro_args_valid; exact Hps|]. intros l Hl.
    destruct (expand_rep l rep) eqn:E; [|apply lv_panic]. apply lv_ret. eapply expand_rep_valid; eassumption.
  - destruct t as [cs|ctx]; apply lv_ret; [constructor; [reflexivity|exact Hd]|].
    repeat constructor. apply ctx_char_valid. exact Hd.
  - destruct Hd as [Hd Hr]. eapply lv_bind with (V := Forall rarg_valid).
    { destruct dflt as [d|]; [|apply lv_ret; constructor]. eapply lv_bind; [apply optional_valid|]. intros o Ho.
      apply lv_ret. repeat constructor. destruct o; assumption. }
    intros first Hf. destruct (_ <? _); [apply lv_panic|]. eapply lv_bind; [apply n_args_valid|]. intros l Hl.
    destruct (expand_rep _ rep) eqn:E; [|apply lv_panic]. apply lv_ret.
    eapply expand_rep_valid; [|exact Hr|exact E]. apply Forall_app. split; assumption.
Qed.

Lemma expansion_valid : forall d r txt k, defn_ok d -> defn_valid d -> valid_str r -> expand_definition d r = Ok (txt, k) -> valid_str txt.
Proof.
  intros d r txt k H1 H2 Hr H. unfold expand_definition in H. destruct (expand_call_valid d H1 H2 r Hr) as [H3 H4].
  destruct (expand_call d r) as [[t|e|p|] r']; try discriminate. injection H as <- _. apply valid_app. split; assumption.
Qed.

Lemma control_valid : lvalid control_sequence valid_str.
Proof.
  intros s Hs. split; [eapply valid_suffix; [apply control_sequence_suffix|exact Hs]|].
  unfold control_sequence. destruct s as [|c s]; [exact I|]. destruct (c =? 92); [|exact I]. inversion Hs; subst.
  unfold rhs_control_sequence. destruct s as [|x s]; [exact I|]. destruct (is_alpha x); [|cbn; inversion H2; repeat constructor; assumption].
  destruct (span_while is_alpha (x :: s)) as [a b] eqn:E. destruct (span_while_spec _ _ _ _ E) as (E' & _). rewrite E' in H2. apply valid_app in H2. apply H2.
Qed.

Lemma split_once_char_valid : forall c s a b, split_once_char c s = Some (a, b) -> valid_str s -> valid_str a /\ valid_str b.
Proof.
  intros c s. induction s as [|x s IH]; intros a b H Hs; cbn [split_once_char] in H; [discriminate|]. inversion Hs; subst.
  destruct (x =? c); [injection H as <- <-; split; [constructor|assumption]|].
  destruct (split_once_char c s) as [[a' b']|]; [|discriminate]. injection H as <- <-.
  destruct (IH a' b' eq_refl H3). split; [constructor|]; assumption.
Qed.

Lemma definition_valid : lvalid lex_definition (fun d => valid_str (snd d)).
Proof.
  unfold lex_definition. eapply lv_bind; [apply control_valid|]. intros cs _. eapply lv_bind; [apply lv_get|]. intros s Hs.
  destruct (split_once_char 123 s) as [[p r]|] eqn:E; [|apply lv_fail]. destruct (bad_param_char p); [apply lv_fail|].
  eapply lv_bind; [apply lv_put; eapply split_once_char_valid; eassumption|]. intros _ _.
  eapply lv_bind; [apply group_valid|]. intros g Hg. apply lv_ret. exact Hg.
Qed.

Lemma let_valid : lvalid let_assignment (fun d => tok_valid (snd d)).
Proof.
  unfold let_assignment. eapply lv_bind; [apply control_valid|]. intros cs _. eapply lv_bind; [apply lv_get|]. intros s Hs.
  eapply lv_bind with (V := fun _ => True).
  { destruct (strip_char 61 (trim_start s)) as [r|] eqn:E; [|apply lv_ret; exact I]. apply lv_put.
    eapply strip_valid; [exact E|apply trim_start_valid; exact Hs]. }
  intros _ _. eapply lv_bind; [apply token_valid|]. intros t Ht. apply lv_ret. exact Ht.
Qed.

Lemma futurelet_valid : lvalid futurelet_assignment (fun d => tok_valid (snd (fst d))).
Proof.
  unfold futurelet_assignment. eapply lv_bind; [apply control_valid|]. intros cs _. eapply lv_bind; [apply lv_get|]. intros s Hs.
  eapply lv_bind; [apply token_valid|]. intros t Ht. eapply lv_bind; [apply token_valid|]. intros t2 Ht2. apply lv_ret. exact Ht2.
Qed.

Lemma alias_valid : forall t, tok_valid t -> defn_valid (alias t).
Proof. intros [cs|ctx] H; [exact H|]. repeat constructor. apply ctx_char_valid. exact H. Qed.

(** A number is written with digits, dots and commas. *)
Lemma number_fine : forall md s, number_shape s -> fine md (EvContent (CNumber s)).
Proof.
  intros md s (c & r & -> & Hc & Hr).
  assert (Hn : forallb is_numeral (c :: r) = true) by (cbn [forallb]; rewrite Hr; unfold is_numeral; rewrite Hc, !orb_true_r; reflexivity).
  assert (Ht : forall x, is_numeral x = true -> valid_char x = true /\ text_char x = true).
  { intros x Hx. unfold is_numeral, is_digit in Hx. rewrite !orb_true_iff, !N.eqb_eq, andb_true_iff, !N.leb_le in Hx.
    unfold valid_char, text_char. split.
    - apply orb_true_iff. left. apply N.ltb_lt. lia.
    - apply negb_true_iff, orb_false_iff. split; apply N.eqb_neq; lia. }
  rewrite forallb_forall in Hn. split.
  - apply Forall_forall. intros x Hx. apply (Ht x (Hn x Hx)).
  - destruct md as [b|]; [|reflexivity]. apply forallb_forall. intros x Hx. apply (Ht x (Hn x Hx)).
Qed.


Lemma in_sub : forall c a b, sl_sub a b -> In c (stxt a) -> In c (stxt b).
Proof.
  intros c a b H Hc. apply in_split in Hc as (l1 & l2 & E).
  destruct (contains_sub [c] a b H) as (p & q & ->); [exists l1, l2; exact E|]. apply in_or_app. right. left. reflexivity.
Qed.

(** ** The traversal *)

(** [fine], with [na]: no arrays and no alignments with a count. *)
Definition lfine (na : bool) (st : option bool) (e : event) : Prop :=
  match e with
  | EvContent c => content_valid c /\ content_clean st c = true
  | EvBegin (GLeftRight l r) => delim_clean st l = true /\ delim_clean st r = true
  | EvBegin (GArray cols) => na = false /\ existsb is_col cols = true
  | EvBegin (GAlignat n _ | GAlignedat n) => na = false /\ n <= 32767
  | EvVisual (VFraction d) => dim_ok d
  | EvSpace w h d => (st = None \/ w <> None) /\ dim_ok w /\ dim_ok h /\ dim_ok d
  | EvFlow (EFNewLine d _) => dim_ok d
  | _ => True
  end.

Lemma lfine_fine : forall na st e, lfine na st e -> fine st e.
Proof. intros na st e H. destruct e as [c|g| | | | | |]; try exact H. destruct g; try exact H; apply H. Qed.

Definition counted (e : event) : bool := match e with EvBegin (GArray _ | GAlignat _ _ | GAlignedat _) => true | _ => false end.

Lemma fine_lfine : forall na st e, counted e = false -> fine st e -> lfine na st e.
Proof. intros na st e Hc H. destruct e as [c|g| | | | | |]; try exact H. destruct g; try exact H; discriminate. Qed.

Section Fine.
  Variable na : bool.
  Variable md : option bool.
  Variable G : slice -> Prop.
  Hypothesis HG : forall a b, sl_sub a b -> G b -> G a.
  Hypothesis HV : forall s, G s -> valid_str (stxt s).
  Hypothesis Hlt : md <> None -> forall s, G s -> ~ In 60 (stxt s).
  Hypothesis Hraw : forall cs, cs_in G cs -> raw_prim (lookup_prim cs) = true -> md <> None -> forall s, G s -> ~ In 38 (stxt s).
  Hypothesis Hbad : forall cs, cs_in G cs -> bad_prim md (lookup_prim cs) = false.
  Hypothesis Hna : na = true -> forall s, G s -> no_array_names (stxt s).
  Variable J : macro_ctx -> Prop.
  Hypothesis HJ : forall cs name d m, cs_in G cs -> is_def_prim (lookup_prim cs) = true -> defn_ok d -> defn_valid d -> J m ->
    J (ctx_insert m name d).

  Definition finstr (i : instr) : Prop := match i with IEv e => lfine na md e | ISub s _ => G s end.
  Definition FInv (st : ist) : Prop := G (i_content st) /\ Forall finstr (i_buf st) /\ J (i_macros st).

  Notation cs_ok := (cs_in G).

  Lemma f_content : forall c st, G c -> FInv st -> FInv (set_content c st).
  Proof. intros c st Hc [H1 H2]. split; assumption. Qed.

  Lemma f_suffix : forall st r, suffix r (stxt (i_content st)) -> FInv st ->
    FInv (set_content (suffix_slice (i_content st) r) st).
  Proof. intros st r Hs Hi. apply f_content; [|exact Hi]. eapply HG; [apply sl_sub_suffix; exact Hs|apply Hi]. Qed.

  Lemma f_push : forall l, Forall finstr l -> keeps FInv (push l) anything.
  Proof.
    intros l Hl st (H1 & H2 & H3). cbn. split; [|exact I]. split; [exact H1|]. cbn. split; [|exact H3].
    apply Forall_app. auto.
  Qed.

  Lemma f_push_ev : forall e, lfine na md e -> keeps FInv (push_ev e) anything.
  Proof. intros e He. apply f_push. repeat constructor. exact He. Qed.

  Lemma f_argc : keeps FInv argc (sarg_ok G).
  Proof.
    intros st Hi. destruct (argc_run st) as (r & sl & E & H1 & H2). rewrite E. cbn [fst snd]. split.
    - apply f_content; [eapply HG; [exact H1|apply Hi]|exact Hi].
    - eapply sarg_spec_ok; [exact HG|apply Hi|exact H2].
  Qed.

  Lemma f_groupc : forall k, keeps FInv (groupc k) G.
  Proof.
    intros k st Hi. destruct (groupc_run k st) as (r & sl & E & H1 & H2). rewrite E. cbn [fst snd]. split.
    - apply f_content; [eapply HG; [exact H1|apply Hi]|exact Hi].
    - destruct r; cbn in H2; auto. eapply HG; [apply H2|apply Hi].
  Qed.

  Lemma f_bracec : keeps FInv bracec G.
  Proof.
    intros st Hi. destruct (bracec_run st) as (r & sl & E & H1 & H2). rewrite E. cbn [fst snd]. split.
    - apply f_content; [eapply HG; [exact H1|apply Hi]|exact Hi].
    - destruct r; cbn in H2; auto. eapply HG; [apply H2|apply Hi].
  Qed.

  Lemma f_optc : keeps FInv optc (opt_ok G).
  Proof.
    intros st Hi. destruct (optc_run st) as (r & sl & E & H1 & H2). rewrite E. cbn [fst snd]. split.
    - apply f_content; [eapply HG; [exact H1|apply Hi]|exact Hi].
    - destruct r as [[g|]|e|p|]; cbn in *; auto. eapply HG; [apply H2|apply Hi].
  Qed.

  (** A lexer whose result satisfies [V] on valid text. *)
  Lemma f_lexc : forall A (l : lexer A) (V : A -> Prop), leaves_suffix l ->
    (forall s a r, valid_str s -> l s = (Ok a, r) -> V a) -> keeps FInv (lexc l) V.
  Proof.
    intros A l V Hl HV' st Hi. destruct (lexc_run A l Hl st) as (sl & E & H1 & _). rewrite E. cbn [fst snd]. split.
    - apply f_content; [eapply HG; [exact H1|apply Hi]|exact Hi].
    - destruct (l (stxt (i_content st))) as [[a|?|?|] r] eqn:El; cbn [fst]; try exact I.
      eapply HV'; [|exact El]. apply HV. apply Hi.
  Qed.

  Lemma f_lexc_any : forall A (l : lexer A), leaves_suffix l -> keeps FInv (lexc l) anything.
  Proof. intros A l Hl. apply f_lexc; [exact Hl|]. intros. exact I. Qed.

  Lemma f_get_lexc : forall A B (l : lexer A) (f : ist -> A -> P B) W, leaves_suffix l ->
    (forall st a r, FInv st -> l (stxt (i_content st)) = (Ok a, r) -> keeps FInv (f st a) W) ->
    keeps FInv (do st <- get ; do a <- lexc l ; f st a) W.
  Proof.
    intros A B l f W Hl Hf st Hi. unfold bind at 1, get. unfold bind.
    destruct (lexc_run A l Hl st) as (sl & E & H1 & H2). rewrite E.
    assert (Hi' : FInv (set_content sl st)).
    { apply f_content; [eapply HG; [exact H1|apply Hi]|exact Hi]. }
    destruct (l (stxt (i_content st))) as [[a|e|p|] r] eqn:El; cbn [fst snd] in *; auto.
    eapply Hf; eassumption.
  Qed.

  (** *** Events from characters of the text *)

  Lemma tidy_valid : forall c, tidy_char md c = true -> valid_char c = true.
  Proof. intros c H. apply andb_prop in H. apply H. Qed.

  Lemma tidy_text : forall c b, md = Some b -> tidy_char md c = true -> text_char c = true.
  Proof. intros c b E H. rewrite E in H. apply andb_prop in H. apply H. Qed.

  Lemma tidy_of : forall c, valid_char c = true -> (md <> None -> c <> 60 /\ c <> 38) -> tidy_char md c = true.
  Proof.
    intros c Hv H. unfold tidy_char. rewrite Hv. destruct md as [b|]; [|reflexivity].
    destruct H as [H1 H2]; [discriminate|]. unfold text_char. apply N.eqb_neq in H1, H2. rewrite H1, H2. reflexivity.
  Qed.

  (** One character. *)
  Definition one_char (e : event) (c : char) : Prop :=
    match e with
    | EvContent (COrdinary x _ | CLargeOp x _ | CBinaryOp x _ | CPunctuation x) => x = c
    | EvContent (CDelimiter x None _ | CRelation x None _) => x = c
    | _ => False
    end.

  Lemma one_char_fine : forall e c, one_char e c -> tidy_char md c = true -> lfine na md e.
  Proof.
    intros e c H Ht. pose proof (tidy_valid _ Ht) as Hv. unfold tidy_char in Ht. apply andb_prop in Ht as [_ Ht].
    destruct e as [k| | | | | | | ]; try destruct H.
    destruct k as [| | | | | |x y sm|x sz ty| ]; try destruct H; cbn [fine content_valid content_clean];
      try (split; [exact Hv|destruct md; auto]; fail).
    - destruct y; [destruct H|]. cbn in H. subst x. split; [split; [exact Hv|exact I]|]. destruct md as [b|]; [|reflexivity]. cbn. rewrite Ht. reflexivity.
    - destruct sz; [destruct H|]. cbn in H. subst x. split; [exact Hv|]. destruct md as [b|]; [|reflexivity]. cbn. rewrite Ht. destruct b; reflexivity.
  Qed.

  Lemma char_event_fine : forall c, valid_char c = true -> (md <> None -> c <> 60) -> c <> 38 -> lfine na md (char_event c).
  Proof.
    intros c Hv Hl Ha.
    assert (Ht : tidy_char md c = true) by (apply tidy_of; auto).
    unfold char_event.
    destruct (c =? 126). { split; [apply valid_strb; reflexivity|]. destruct md as [[]|]; reflexivity. }
    destruct (_ || _); [apply one_char_fine with c; [reflexivity|exact Ht]|].
    assert (Hx : forall e x, one_char e x -> tidy_char None x && tidy_char (Some true) x = true -> lfine na md e).
    { intros e x H1 H2. apply one_char_fine with x; [exact H1|]. apply andb_prop in H2 as [H2 H3]. destruct md as [[]|]; assumption. }
    destruct (c =? 39); [eapply Hx; reflexivity|].
    destruct (c =? 45); [eapply Hx; reflexivity|].
    destruct (c =? 42); [eapply Hx; reflexivity|].
    destruct (is_binary c); [apply one_char_fine with c; [reflexivity|exact Ht]|].
    destruct (is_relation c); [apply one_char_fine with c; [reflexivity|exact Ht]|].
    destruct (char_delimiter_map c) as [[d ty]|] eqn:E.
    - apply (char_delim_tidy md) in E. destruct ty; (apply one_char_fine with d; [reflexivity|exact E]).
    - apply one_char_fine with c; [reflexivity|exact Ht].
  Qed.

  Lemma f_handle_char : forall ctx, G ctx -> keeps FInv (handle_char ctx) anything.
  Proof.
    intros ctx Hc. unfold handle_char. eapply k_bind; [apply k_get|]. intros st Hi.
    destruct (_ =? 92); [apply k_panic|]. destruct (_ =? 37); [apply k_panic|].
    destruct ((_ =? 95) || _).
    { destruct (i_handling st); [apply k_fail|].
      eapply k_bind; [apply f_push_ev; exact I|]. intros _ _.
      eapply k_bind; [apply k_modify; intros; apply f_content; assumption|]. intros _ _.
      apply f_push_ev. exact I. }
    destruct (_ =? 36); [apply k_fail|]. destruct (_ =? 35); [apply k_fail|].
    destruct (N.eqb_spec (ctx_char (stxt ctx)) 38) as [E38|E38].
    { destruct (i_align st) as [[n m]|]; [|apply k_fail].
      destruct (_ && _); [|apply k_fail].
      eapply k_bind; [apply k_modify; intros ? [? ?]; split; assumption|]. intros _ _.
      apply f_push_ev. exact I. }
    destruct (_ =? 123).
    { eapply k_bind; [apply f_groupc|]. intros g Hg. apply f_push. repeat constructor. exact Hg. }
    destruct (_ =? 125); [apply k_fail|].
    destruct (is_digit _) eqn:Ed.
    { eapply k_bind; [apply k_modify; intros; apply f_content; [|assumption]|].
      - eapply HG; [apply sl_sub_suffix|exact Hc]. exists (firstn (length (numeral (i_handling st) (stxt ctx))) (stxt ctx)).
        rewrite firstn_skipn. reflexivity.
      - intros _ _. apply f_push_ev. destruct (stxt ctx) as [|x r]; [vm_compute in Ed; congruence|].
        apply number_fine, numeral_shape. assumption. }
    apply f_push_ev. apply char_event_fine; [apply ctx_char_valid, HV; exact Hc| |exact E38].
    intros Hm E. apply (Hlt Hm ctx Hc). destruct (stxt ctx) as [|x r]; cbn in E; [discriminate|]. subst. left. reflexivity.
  Qed.

  Variable rec : str -> P unit.
  Hypothesis Hrec : forall cs, cs_ok cs -> keeps FInv (rec cs) anything.

  Lemma f_handle_arg : forall a, sarg_ok G a -> keeps FInv (handle_arg rec a) anything.
  Proof.
    intros a Ha. destruct a; cbn in *.
    - apply f_push. repeat constructor. exact Ha.
    - eapply k_bind; [apply k_modify; intros ? [? ?]; split; assumption|]. intros _ _. apply Hrec. exact Ha.
    - eapply k_bind; [apply k_modify; intros ? [? ?]; split; assumption|]. intros _ _. apply f_handle_char. apply Ha.
  Qed.

  Lemma f_buf_len : keeps FInv buf_len anything.
  Proof. intros st Hi. split; [exact Hi|exact I]. Qed.

  Lemma f_split_off : forall n, keeps FInv (split_off n) (Forall finstr).
  Proof.
    intros n st (H1 & H2 & HJ'). cbn. rewrite <- (firstn_skipn n (i_buf st)) in H2. apply Forall_app in H2.
    destruct H2 as [H2 H3]. split; [|exact H3]. split; [assumption|]. split; assumption.
  Qed.

  Ltac fstep :=
    match goal with
    | |- keeps _ (bind (match _ with _ => _ end) _) _ => eapply k_bind with (V := anything); [|intros ? ?]
    | |- keeps _ (bind _ _) _ => eapply k_bind; [|intros ? ?]
    | |- keeps _ (ret _) anything => apply k_ret; exact I
    | |- keeps _ (ret _) _ => apply k_ret
    | |- keeps _ (fail _) _ => apply k_fail
    | |- keeps _ (panic_with _) _ => apply k_panic
    | |- keeps _ get _ => weak ltac:(apply k_get)
    | |- keeps _ (lift _) _ => weak ltac:(apply k_lift)
    | |- keeps _ (ok_or _ _) _ => weak ltac:(apply k_ok_or)
    | |- keeps _ (on_local _ _) _ => weak ltac:(apply k_local)
    | |- keeps _ (push_ev _) _ => apply f_push_ev
    | |- keeps _ (push _) _ => apply f_push
    | |- keeps _ argc _ => weak ltac:(apply f_argc)
    | |- keeps _ (groupc _) _ => weak ltac:(apply f_groupc)
    | |- keeps _ bracec _ => weak ltac:(apply f_bracec)
    | |- keeps _ optc _ => weak ltac:(apply f_optc)
    | |- keeps _ (lexc lex_delimiter) _ => apply f_lexc with (V := fun d => tidy_char md (fst d) = true);
        [auto with lexsuf|intros ? ? ? _ ?; eapply lex_delimiter_tidy; eassumption]
    | |- keeps _ (lexc dimension_or_braced) _ => apply f_lexc with (V := dval_ok);
        [auto with lexsuf|intros ? ? ? _ ?; eapply or_braced_ok; [exact dimension_ok|eassumption]]
    | |- keeps _ (lexc glue_or_braced) _ => apply f_lexc with (V := fun g => dval_ok (fst (fst g)));
        [auto with lexsuf|intros ? ? ? _ ?; eapply (or_braced_ok _ lex_glue (fun g => dval_ok (fst (fst g)))); [exact glue_ok|eassumption]]
    | |- keeps _ (lexc _) _ => apply f_lexc_any; auto with lexsuf
    | |- keeps _ (handle_arg _ _) _ => apply f_handle_arg
    | |- keeps _ (handle_char _) _ => apply f_handle_char
    | |- keeps _ (split_off _) _ => weak ltac:(apply f_split_off)
    | |- keeps _ buf_len _ => apply f_buf_len
    | |- keeps _ (modify _) _ => apply k_modify; intros ? [? ?]; split; assumption
    | |- keeps _ (match ?x with _ => _ end) _ => destruct x
    | |- keeps _ (let (_, _) := ?x in _) _ => destruct x
    end.
  Ltac fs := repeat fstep.
  Ltac fin := try solve [exact I | assumption
    | repeat first [apply Forall_cons | apply Forall_nil | exact I | assumption]
    | intros; exact I].

  Definition fhas_def : Prop := exists cs, cs_in G cs /\ is_def_prim (lookup_prim cs) = true.

  Lemma f_insert : forall name d, fhas_def -> defn_ok d -> defn_valid d ->
    keeps FInv (modify (fun st => set_macros (ctx_insert (i_macros st) name d) st)) anything.
  Proof.
    intros name d (cs & H1 & H2) Hd Hv. apply k_modify. intros st (Hi1 & Hi2 & Hi3).
    split; [exact Hi1|]. split; [exact Hi2|]. cbn. eapply HJ; eassumption.
  Qed.

  Lemma f_group_arg : forall e, keeps FInv (group_arg e) anything.
  Proof. intros e. unfold group_arg. fs; fin. Qed.

  Lemma f_group_text : forall e, keeps FInv (group_arg e) (fun t => exists sl, G sl /\ t = stxt sl).
  Proof.
    intros e. unfold group_arg. eapply k_bind; [apply f_argc|]. intros a Ha. destruct a as [g|cs|ctx]; try apply k_fail.
    apply k_ret. exists g. split; [exact Ha|reflexivity].
  Qed.

  (** Commands with a raw argument. *)
  Definition no_raw : Prop := md <> None -> forall s, G s -> ~ In 38 (stxt s).

  Lemma raw_text : forall g, no_raw -> G g -> lfine na md (EvContent (CFunction (stxt g))).
  Proof.
    intros g Hn Hg. split; [apply HV; exact Hg|]. cbn [content_clean]. destruct md as [b|] eqn:Em; [|reflexivity].
    apply forallb_forall. intros x Hx. unfold text_char. apply negb_true_iff, orb_false_iff.
    split; apply N.eqb_neq; intros ->; [eapply Hlt|eapply Hn]; try eassumption; congruence.
  Qed.

  Lemma raw_char : forall a c, no_raw -> sarg_ok G a -> single_char a = Some c -> tidy_char md c = true.
  Proof.
    intros a c Hn Ha H.
    assert (Hin : exists g, G g /\ In c (stxt g)).
    { destruct a as [g|cs|ctx]; cbn in H; [| discriminate|].
      - exists g. split; [exact Ha|]. assert (Ht : In c (trim (stxt g))) by (destruct (trim (stxt g)) as [|x [|y r]]; try discriminate; injection H as ->; left; reflexivity).
        assert (He : forall t, In c (trim_start t) -> In c t).
        { intros t Hs. destruct (suffix_trim t) as [q Hq]. rewrite Hq. apply in_or_app. right. exact Hs. }
        unfold trim in Ht. apply in_rev, He, in_rev, He in Ht. exact Ht.
      - destruct Ha as [Hg (x & r & E & _)]. exists ctx. split; [exact Hg|]. injection H as <-. rewrite E. left. reflexivity. }
    destruct Hin as (g & Hg & Hin). pose proof (HV g Hg) as Hv. unfold valid_str in Hv. rewrite Forall_forall in Hv.
    apply tidy_of; [auto|]. intros Hm. split; intros ->; [eapply Hlt|eapply Hn]; eassumption.
  Qed.

  Lemma f_atom_group : forall k, no_raw -> keeps FInv (atom_group rec k) anything.
  Proof.
    intros k Hn. unfold atom_group. eapply k_bind; [apply f_argc|]. intros a Ha.
    destruct (single_char a) as [c|] eqn:E.
    - apply f_push_ev. apply one_char_fine with c; [destruct k; reflexivity|]. eapply raw_char; eassumption.
    - assert (Hd : keeps FInv (push_ev (EvBegin GNormal) ;; handle_arg rec a ;; push_ev EvEnd) anything) by (fs; fin).
      destruct k; try exact Hd. destruct a; try exact Hd. apply f_push_ev. apply raw_text; assumption.
  Qed.

  Lemma f_font_group : forall f, keeps FInv (font_group rec f) anything.
  Proof.
    intros f. unfold font_group. eapply k_bind; [apply f_argc|]. intros a Ha.
    eapply k_bind; [fs; fin|]. intros _ _.
    eapply k_bind with (V := anything); [destruct a|intros; fs; fin].
    - fs; fin.
    - apply Hrec. exact Ha.
    - fs. apply Ha.
  Qed.

  Lemma tidy_ordinary : forall c s, tidy_char md c = true -> lfine na md (EvContent (COrdinary c s)).
  Proof. intros c s H. apply one_char_fine with c; [reflexivity|exact H]. Qed.

  Lemma f_accent : forall c s, tidy_char md c = true -> keeps FInv (accent rec c s) anything.
  Proof. intros. unfold accent. fs; fin. apply tidy_ordinary. assumption. Qed.

  Lemma f_underscript : forall c, tidy_char md c = true -> keeps FInv (underscript rec c) anything.
  Proof. intros. unfold underscript. fs; fin. apply tidy_ordinary. assumption. Qed.

  Lemma f_text_argument : forall f, md <> Some true -> keeps FInv (text_argument f) anything.
  Proof.
    intros f Hm. assert (Ht : forall g, G g -> lfine na md (EvContent (CText (stxt g)))).
    { intros g Hg. split; [apply HV; exact Hg|]. cbn [content_clean]. destruct md as [[]|]; try reflexivity. congruence. }
    unfold text_argument. eapply k_bind; [apply f_argc|]. intros a Ha. destruct a as [g|cs|ctx]; [|apply k_fail|].
    - destruct f; [apply f_push; repeat constructor|apply f_push_ev]; apply Ht; exact Ha.
    - destruct f; [apply f_push; repeat constructor|apply f_push_ev]; apply Ht; apply Ha.
  Qed.

  Lemma f_fraction_like : forall o c b s, delim_clean md o = true -> delim_clean md c = true -> dim_ok b ->
    keeps FInv (fraction_like rec o c b s) anything.
  Proof. intros. unfold fraction_like. fs; fin. cbn. auto. Qed.

  Lemma f_large_op : forall c m, tidy_char md c = true -> keeps FInv (large_op c m) anything.
  Proof. intros. unfold large_op. fs; fin. apply one_char_fine with c; [reflexivity|assumption]. Qed.

  Lemma f_color_of : forall s, keeps FInv (color_of s) anything.
  Proof. intros. unfold color_of. eapply k_bind; [apply k_lift|]. intros. eapply k_any. apply k_ok_or. Qed.

  Lemma f_genfrac_delim : keeps FInv genfrac_delim (fun o => delim_clean md o = true).
  Proof.
    assert (Hn : delim_clean md None = true) by (destruct md; reflexivity).
    unfold genfrac_delim. eapply k_bind; [apply f_argc|]. intros a Ha. destruct (sarg_token a) as [t|].
    - eapply k_bind; [apply k_ok_or|]. intros d Hd. apply k_ret. apply delim_tidy_clean. eapply token_delim_tidy. exact Hd.
    - destruct a as [g|cs|ctx]; try apply k_fail. destruct (is_nil _); [apply k_ret; exact Hn|apply k_fail].
  Qed.

  Lemma f_left_delim : keeps FInv left_delim (fun o => delim_clean md o = true).
  Proof.
    assert (Hn : delim_clean md None = true) by (destruct md; reflexivity).
    unfold left_delim. eapply k_bind; [apply k_get|]. intros st Hi.
    destruct (strip_char 46 (stxt (i_content st))) as [r|] eqn:E.
    - apply strip_char_some in E. eapply k_bind; [apply k_modify|intros; apply k_ret; exact Hn].
      intros s' Hs'. apply f_content; [|exact Hs'].
      eapply HG; [apply sl_sub_suffix|apply Hi]. rewrite E. exists [46]. reflexivity.
    - eapply k_bind; [fstep|]. intros d Hd. apply k_ret. apply delim_tidy_clean. exact Hd.
  Qed.

  Lemma f_new_command : forall b, fhas_def -> keeps FInv (new_command b) anything.
  Proof.
    intros b Hdef. unfold new_command. eapply k_bind; [apply f_bracec|]. intros g Hg.
    eapply k_bind; [apply k_local|]. intros [cs r] E. cbn [fst snd].
    eapply k_bind; [apply k_get|]. intros st Hst.
    eapply k_bind with (V := anything); [fs; fin|]. intros _ _.
    eapply k_bind; [apply f_optc|]. intros o Ho.
    eapply k_bind; [apply k_ok_or|]. intros t Ht.
    eapply k_bind; [apply k_ok_or|]. intros n Hn.
    eapply k_bind; [apply f_optc|]. intros d Hd.
    destruct ((9 <? n) && _) eqn:E9; [apply k_fail|].
    eapply k_bind; [apply f_bracec|]. intros rep Hr.
    destruct (ctx_contains _ _ && _); [apply k_ret; exact I|].
    eapply k_bind; [apply k_lift|]. intros m Hm. apply f_insert; [exact Hdef| |].
    - eapply make_command_ok; [|exact Hm].
      apply andb_false_iff in E9 as [E9|E9]; [apply N.ltb_ge in E9; exact E9|].
      destruct (is_some d); apply N.leb_gt in E9; lia.
    - eapply make_command_valid; [| |exact Hm]; [destruct d; [apply HV; exact Hd|exact I]|apply HV; exact Hr].
  Qed.

  Definition fenv_ok (e : env_desc) : Prop :=
    lfine na md (EvBegin (e_group e)) /\ match e_wrap e with Some (l, r) => tidy_char md l = true /\ tidy_char md r = true | None => True end.

  Lemma f_array_environment : na = false -> keeps FInv array_environment (fun g => lfine na md (EvBegin (fst g))).
  Proof.
    intros Hf. unfold array_environment. eapply k_bind; [apply f_group_arg|]. intros t _.
    eapply k_bind; [apply k_lift|]. intros p _. destruct (existsb is_column (fst p)) eqn:E.
    - apply k_ret. split; [exact Hf|exact E].
    - apply k_fail.
  Qed.

  Lemma f_optional_alignment : keeps FInv optional_alignment anything.
  Proof. unfold optional_alignment. fs; fin. Qed.

  Lemma f_alignat_pairs : keeps FInv alignat_pairs anything.
  Proof. unfold alignat_pairs. fs; fin. Qed.

  Lemma f_pair_count : forall n, keeps FInv (pair_count n) (fun _ => n <= 32767).
  Proof.
    intros n. unfold pair_count. destruct (N.ltb_spec 65535 (n * 2)) as [H|H]; [apply k_panic|]. apply k_ret. lia.
  Qed.

  Lemma plain_fine : forall name g n k s, assoc_str name plain_table = Some (g, n, k, s) -> lfine na md (EvBegin g).
  Proof.
    intros name g n k s H. apply assoc_str_in in H.
    repeat (destruct H as [H|H]; [injection H; intros; subst; exact I|]). destruct H.
  Qed.

  Lemma matrix_fine : forall name ty b s l r, assoc_str name matrix_table = Some (ty, b, s, Some (l, r)) -> tidy_char md l = true /\ tidy_char md r = true.
  Proof.
    intros name ty b s l r H. apply assoc_str_in in H.
    assert (Ht : forallb (fun x => match snd (snd x) with Some (l, r) => tidy_char md l && tidy_char md r | None => true end) matrix_table = true)
      by (destruct md as [[]|]; vm_compute; reflexivity).
    apply (proj1 (forallb_forall _ _) Ht) in H. cbn in H. apply andb_prop in H. exact H.
  Qed.

  Lemma name_counted : forall sl pre nm post, G sl -> nm = lit "array" \/ nm = lit "alignat" \/ nm = lit "alignedat" ->
    str_eqb (stxt sl) (pre ++ nm ++ post) = true -> na = false.
  Proof.
    intros sl pre nm post Hg Hnm E. destruct na; [|reflexivity]. exfalso. destruct (Hna eq_refl sl Hg) as (H1 & H2 & H3).
    apply str_eqb_eq in E. assert (contains nm (stxt sl)) by (exists pre, post; exact E).
    destruct Hnm as [->|[->| ->]]; contradiction.
  Qed.

  Lemma f_environment : forall sl, G sl -> keeps FInv (environment (stxt sl)) fenv_ok.
  Proof.
    intros sl Hsl. set (name := stxt sl). unfold environment.
    destruct (str_eqb name (lit "array")) eqn:E1.
    { apply (name_counted sl [] (lit "array") []) in E1; auto.
      eapply k_bind; [apply f_array_environment; exact E1|]; intros g Hg; apply k_ret; split; [exact Hg|exact I]. }
    destruct (str_eqb name (lit "darray")) eqn:E2.
    { apply (name_counted sl (lit "d") (lit "array") []) in E2; auto.
      eapply k_bind; [apply f_array_environment; exact E2|]; intros g Hg; apply k_ret; split; [exact Hg|exact I]. }
    destruct (str_eqb name (lit "alignat")) eqn:E3.
    { apply (name_counted sl [] (lit "alignat") []) in E3; auto. eapply k_bind; [apply f_alignat_pairs|]; intros p _;
           eapply k_bind; [apply f_pair_count|]; intros n Hn; apply k_ret; split; [split; assumption|exact I]. }
    destruct (str_eqb name (lit "alignat*")) eqn:E4.
    { apply (name_counted sl [] (lit "alignat") (lit "*")) in E4; auto. eapply k_bind; [apply f_alignat_pairs|]; intros p _;
           eapply k_bind; [apply f_pair_count|]; intros n Hn; apply k_ret; split; [split; assumption|exact I]. }
    destruct (str_eqb name (lit "alignedat")) eqn:E5.
    { apply (name_counted sl [] (lit "alignedat") []) in E5; auto. eapply k_bind; [apply f_alignat_pairs|]; intros p _;
           eapply k_bind; [apply f_pair_count|]; intros n Hn; apply k_ret; split; [split; assumption|exact I]. }
    destruct (str_eqb name (lit "subarray")).
    - eapply k_bind; [apply f_group_arg|]. intros t _. eapply k_bind; [apply k_ok_or|]. intros. apply k_ret. split; exact I.
    - destruct (assoc_str name matrix_table) as [[[[ty starred] st] wrap]|] eqn:E.
      + eapply k_bind with (V := anything); [destruct starred; [apply f_optional_alignment|apply k_ret; exact I]|].
        intros. apply k_ret. split; [exact I|]. cbn. destruct wrap as [[l r]|]; [|exact I]. eapply matrix_fine. exact E.
      + destruct (assoc_str name plain_table) as [[[[g n] k] st]|] eqn:E'; [|apply k_fail].
        apply k_ret. split; [eapply plain_fine; exact E'|exact I].
  Qed.

  Lemma f_begin_env : keeps FInv begin_env anything.
  Proof.
    unfold begin_env. eapply k_bind; [apply f_group_text|]. intros name (sl & Hsl & ->).
    eapply k_bind; [apply f_environment; exact Hsl|]. intros e [He Hw].
    eapply k_bind with (V := anything).
    { destruct (e_wrap e) as [[l r]|]; [|apply k_ret; exact I]. apply f_push_ev. destruct Hw. split; apply delim_tidy_clean; assumption. }
    intros _ _.
    eapply k_bind; [apply f_lexc_any; auto with lexsuf|]. intros hl _.
    eapply k_bind; [apply f_groupc|]. intros g Hg.
    eapply k_bind; [apply f_push_ev; exact He|]. intros _ _.
    fs; fin.
  Qed.

  Lemma f_newline : keeps FInv newline anything.
  Proof.
    unfold newline. eapply k_bind; [apply k_get|]. intros st _. destruct (i_align st) as [[n m]|]; [|apply k_fail].
    destruct (i_handling st); [apply k_fail|]. eapply k_bind; [fs; fin|]. intros _ _.
    eapply k_bind; [apply f_optc|]. intros o _.
    eapply k_bind with (V := dim_ok).
    { destruct o as [a|]; [|apply k_ret; exact I]. eapply k_bind; [apply k_local|]. intros d Hd. apply k_ret.
      eapply dimension_ok. exact Hd. }
    intros sp Hsp. fs; fin.
  Qed.

  Lemma f_buildrel : forall (f : slice -> slice -> str -> P unit),
    (forall c c' oc, G c -> sl_sub (mid_slice c oc 5 (stxt c')) c -> keeps FInv (f c c' oc) anything) ->
    keeps FInv (do st <- get ;
      do oc <- lexc (content_with_suffix (lit "\over")) ;
      do st' <- get ; f (i_content st) (i_content st') oc) anything.
  Proof.
    intros f Hf st Hi. unfold bind, get.
    destruct (lexc_run _ (content_with_suffix (lit "\over")) (content_with_suffix_suffix _ over_ne) st) as (sl & E & H1 & H2).
    rewrite !E.
    assert (Hi' : FInv (set_content sl st)).
    { apply f_content; [eapply HG; [exact H1|apply Hi]|exact Hi]. }
    destruct (content_with_suffix (lit "\over") (stxt (i_content st))) as [[a|e|p|] r] eqn:El;
      cbn [fst snd] in *; auto.
    cbn [i_content set_content]. apply Hf; [apply Hi| |exact Hi'].
    assert (Hd := El). apply content_with_suffix_iff in Hd; [|exact over_ne].
    apply delimited_text in Hd. subst sl. cbn [stxt suffix_slice].
    eapply (sl_sub_mid _ _ _ _ [] (lit "\over")); [exact Hd|reflexivity].
  Qed.

  Lemma f_overset_tail : forall n (l : P sarg), keeps FInv l (sarg_ok G) ->
    keeps FInv (do over <- l ; handle_arg rec over ;; do evs <- split_off n ;
                   do base <- argc ; handle_arg rec base ;; push evs) anything.
  Proof.
    intros n l Hl. eapply k_bind; [exact Hl|]. intros a Ha. fs; fin.
  Qed.

  Lemma space_fine : forall d, dval_ok d -> lfine na md (space_w d).
  Proof. intros d H. split; [right; discriminate|]. split; [exact H|split; exact I]. Qed.

  (** Events of the code that do not depend on the text. *)
  Lemma fixed_fine : forall e, negb (counted e) && fineb None e && fineb (Some true) e && fineb (Some false) e = true -> lfine na md e.
  Proof.
    intros e H. apply andb_prop in H as [H H3]. apply andb_prop in H as [H H2]. apply andb_prop in H as [H H1].
    apply fine_lfine; [apply negb_true_iff; exact H|]. apply fineb_ok. destruct md as [[]|]; assumption.
  Qed.

  Ltac all_fixed := repeat (apply Forall_cons; [first [exact I | refine (fixed_fine _ _); vm_compute; reflexivity]|]); apply Forall_nil.

  Lemma sized_fine : forall d sz ty, md <> Some true -> tidy_char md d = true -> lfine na md (EvContent (CDelimiter d sz ty)).
  Proof.
    intros d sz ty Hm Hd. split; [apply tidy_valid; exact Hd|]. unfold tidy_char in Hd. apply andb_prop in Hd as [_ Hd].
    cbn [content_clean]. destruct md as [[]|]; [congruence| |reflexivity]. cbn; rewrite Hd. reflexivity.
  Qed.

  Lemma fun_name_fine : forall s, forallb (tidy_char md) s = true -> lfine na md (EvContent (CFunction s)).
  Proof.
    intros s H. rewrite forallb_forall in H. split.
    - apply Forall_forall. intros x Hx. apply tidy_valid. auto.
    - cbn [content_clean]. destruct md as [b|] eqn:Em; [|reflexivity]. apply forallb_forall. intros x Hx.
      specialize (H x Hx). apply andb_prop in H. apply H.
  Qed.

  Lemma simple_uncounted : forall cs e, lookup_prim cs = PSimple e -> counted e = false.
  Proof.
    intros cs e H.
    assert (Ht : forallb (fun x => match snd x with PSimple e => negb (counted e) | _ => true end) prim_table = true) by (vm_compute; reflexivity).
    unfold lookup_prim in H. destruct (assoc_str cs prim_table) as [p|] eqn:E.
    - apply assoc_str_in in E. apply (proj1 (forallb_forall _ _) Ht) in E. cbn [snd] in E. rewrite H in E. apply negb_true_iff. exact E.
    - destruct (control_sequence_delimiter_map cs) as [[c ty]|]; [injection H as <-; reflexivity|].
      destruct (is_nil (trim_start cs)); [injection H as <-; reflexivity|discriminate].
  Qed.

  Lemma f_hprim_body : forall cs, cs_in G cs -> keeps FInv (hprim_body rec cs) anything.
  Proof.
    intros cs Hcs. pose proof (lookup_tidy md cs (Hbad cs Hcs)) as Ht. pose proof (Hbad cs Hcs) as Hb.
    assert (Hn : raw_prim (lookup_prim cs) = true -> no_raw) by (intros H; unfold no_raw; exact (Hraw cs Hcs H)).
    unfold prim_tidy in Ht. cbn [fst snd] in Ht.
    unfold hprim_body. destruct (lookup_prim cs) eqn:EL;
      try solve [fs; fin | apply f_font_group | apply f_begin_env | apply f_newline].
    - apply f_push_ev. apply fine_lfine; [eapply simple_uncounted; exact EL|]. apply simple_fine with cs; [exact EL|]. rewrite EL. exact Hb.
    - apply f_push_ev. apply fun_name_fine. exact Ht.
    - fs; fin. apply fun_name_fine. exact Ht.
    - fs; fin. apply fun_name_fine. exact Ht.
    - eapply k_bind; [fs|intros _ _]. eapply k_bind; [apply f_argc|]. intros a Ha.
      destruct a as [g|x|ctx]; [|apply k_fail|]; apply f_push_ev; apply raw_text; auto; apply Ha.
    - fs; fin; all_fixed.
    - apply f_atom_group. auto.
    - fs; fin. apply f_atom_group. auto.
    - fs; fin; repeat match goal with |- context [if ?b then _ else _] => destruct b end; apply fixed_fine; vm_compute; reflexivity.
    - eapply k_bind; [apply f_group_arg|intros t _]. fs; fin. apply f_color_of.
    - eapply k_bind; [apply f_group_arg|intros t _]. eapply k_bind; [apply f_color_of|intros c _]. fs; fin.
    - assert (Hm : md <> Some true) by (intros E; rewrite E in Hb; discriminate).
      eapply k_bind; [apply f_group_arg|intros t _]. eapply k_bind; [apply f_color_of|intros c _]. fs; fin.
      apply f_text_argument. exact Hm.
    - assert (Hm : md <> Some true) by (intros E; rewrite E in Hb; discriminate).
      eapply k_bind; [apply f_group_arg|intros t _]. eapply k_bind; [apply f_group_arg|intros u _].
      eapply k_bind; [apply f_color_of|intros c _]. eapply k_bind; [apply f_color_of|intros d _]. fs; fin.
      apply f_text_argument. exact Hm.
    - assert (Hm : md <> Some true) by (intros E; rewrite E in Hb; discriminate).
      unfold sized_delim. eapply k_bind; [fstep|]. intros d Hd. apply f_push_ev.
      apply sized_fine; assumption.
    - eapply k_bind; [apply f_left_delim|intros o Ho]. eapply k_bind; [apply f_groupc|intros g Hg].
      eapply k_bind; [apply f_left_delim|intros c Hc]. apply f_push. apply Forall_cons; [split; assumption|]. fin.
    - assert (Hm : md <> Some true) by (intros E; rewrite E in Hb; discriminate).
      eapply k_bind; [fstep|]. intros d Hd. apply f_push_ev.
      apply sized_fine; assumption.
    - apply f_large_op. exact Ht.
    - fs; fin. apply fixed_fine; vm_compute; reflexivity.
    - eapply k_bind with (V := anything); [fs; fin|intros _ _]. apply f_accent. exact Ht.
    - eapply k_bind with (V := anything); [fs; fin|intros _ _]. apply f_underscript. exact Ht.
    - fs. apply space_fine. assumption.
    - fs. apply space_fine. assumption.
    - fs. apply space_fine. assumption.
    - fs. apply space_fine. assumption.
    - eapply k_bind; [apply f_group_arg|intros t _]. eapply k_bind; [apply k_local|intros g Hg].
      apply f_push_ev, space_fine. exact (glue_ok _ _ _ Hg).
    - eapply k_bind; [apply f_group_arg|intros t _]. eapply k_bind; [apply k_local|intros w Hw].
      eapply k_bind; [apply f_group_arg|intros t2 _]. eapply k_bind; [apply k_local|intros w2 Hw2].
      eapply k_bind; [apply f_group_arg|intros t3 _]. eapply k_bind; [apply k_local|intros w3 Hw3].
      apply f_push_ev. split; [right; discriminate|].
      split; [exact (dimension_ok _ _ _ Hw)|split; [exact (dimension_ok _ _ _ Hw2)|exact (dimension_ok _ _ _ Hw3)]].
    - fs; fin. apply Forall_cons; [exact I|]. apply Forall_cons; [|apply Forall_nil]. apply one_char_fine with c; [reflexivity|exact Ht].
    - apply andb_prop in Ht as [Ht H3]. apply andb_prop in Ht as [H1 H2]. apply f_fraction_like; auto. apply dim_okb_ok. exact H3.
    - eapply k_bind; [apply f_genfrac_delim|intros l Hl]. eapply k_bind; [apply f_genfrac_delim|intros r Hr].
      eapply k_bind; [apply f_argc|intros b _].
      eapply k_bind with (V := dim_ok).
      { destruct b as [g|x|ctx]; try apply k_fail. destruct (is_nil _); [apply k_ret; exact I|].
        eapply k_bind; [apply k_local|intros d Hd]. destruct (is_nil _); [|apply k_fail]. apply k_ret. exact (dimension_ok _ _ _ Hd). }
      intros bar Hbar. eapply k_bind; [apply f_argc|intros b' _].
      eapply k_bind with (V := anything); [fs; fin|intros sty _]. apply f_fraction_like; assumption.
    - apply (f_buildrel (fun c c' oc => push_ev (EvScript STSup SPAboveBelow) ;;
        do n <- buf_len ; do over <- lift (fst (arg_slice (mid_slice c oc 5 (stxt c')))) ;
        handle_arg rec over ;; do evs <- split_off n ; do base <- argc ; handle_arg rec base ;; push evs)).
      intros c c' oc Hc Hs. eapply k_bind; [fs; fin|intros _ _]. eapply k_bind; [fs; fin|intros n _].
      apply f_overset_tail. eapply k_weaken; [apply k_lift|]. intros a Ha. cbn in Ha.
      pose proof (arg_slice_spec (mid_slice c oc 5 (stxt c'))) as Hsp.
      destruct (arg_slice _) as [r sl]. cbn in Ha. subst r. destruct Hsp as [_ Hsp].
      apply (sarg_spec_ok G HG) in Hsp; [exact Hsp|]. eapply HG; eassumption.
    - apply f_push. all_fixed.
    - apply f_text_argument. intros E; rewrite E in Hb; discriminate.
    - assert (Hm : md = None) by (destruct md as [[]|]; [discriminate|discriminate|reflexivity]).
      eapply k_bind; [apply f_lexc_any; auto with lexsuf|intros n _]. destruct (N.ltb_spec 255 n) as [|H]; [apply k_fail|].
      apply f_push_ev. apply one_char_fine with n; [reflexivity|]. apply tidy_of; [|rewrite Hm; congruence].
      unfold valid_char. apply orb_true_iff. left. apply N.ltb_lt. lia.
    - assert (Hdef : fhas_def) by (exists cs; rewrite EL; auto).
      eapply k_bind with (V := fun d => valid_str (snd d)).
      { apply f_lexc; [auto with lexsuf|]. intros s a r Hs E. destruct (definition_valid s Hs) as [_ H]. rewrite E in H. exact H. }
      intros d Hd. eapply k_bind; [fs|intros _ _]. eapply k_bind; [apply k_lift|intros m Hm].
      apply f_insert; [exact Hdef|eapply make_macro_ok; exact Hm|eapply make_macro_valid; [exact Hd|exact Hm]].
    - assert (Hdef : fhas_def) by (exists cs; rewrite EL; auto).
      eapply k_bind with (V := fun d => tok_valid (snd d)).
      { apply f_lexc; [auto with lexsuf|]. intros s a r Hs E. destruct (let_valid s Hs) as [_ H]. rewrite E in H. exact H. }
      intros d Hd. eapply k_bind; [fs|intros _ _]. apply f_insert; [exact Hdef|exact I|apply alias_valid; exact Hd].
    - assert (Hdef : fhas_def) by (exists cs; rewrite EL; auto).
      apply (f_get_lexc _ _ futurelet_assignment (fun st0 d => modify (set_skip true) ;;
        modify (fun st => set_macros (ctx_insert (i_macros st) (fst (fst d)) (alias (snd (fst d)))) st) ;;
        modify (set_content (suffix_slice (i_content st0) (snd d))))); [auto with lexsuf|].
      intros st0 [[nm t] b] r Hi E. eapply k_bind; [fs|intros _ _].
      pose proof (futurelet_valid (stxt (i_content st0)) (HV _ (proj1 Hi))) as [_ Hv]. rewrite E in Hv. cbn [fst snd] in Hv.
      eapply k_bind; [apply f_insert; [exact Hdef|exact I|apply alias_valid; exact Hv]|intros _ _]. cbn [fst snd] in *.
      apply k_modify. intros s' Hs'. apply f_content; [|exact Hs'].
      eapply HG; [apply sl_sub_suffix; eapply futurelet_before; exact E|apply Hi].
    - apply f_new_command. exists cs. rewrite EL. auto.
  Qed.
End Fine.
