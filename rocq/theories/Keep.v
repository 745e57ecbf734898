(** * Keep: the primitives keep every slice within the text they were given,
    and emit only admissible events. *)

From Coq Require Import List NArith ZArith Bool Lia Arith.
From Verif Require Import Base Float32 Event Tables Prim PrimTable Lex Macros Primitives SpecLex LexFacts LexMore PrimFacts Over.
Import ListNotations.
Open Scope N_scope.
Open Scope sm_scope.

(** Events that are an element on their own. *)
Definition is_leaf (e : event) : bool :=
  match e with EvContent _ | EvSpace _ _ _ => true | _ => false end.

Definition is_leaf_prim (p : prim) : bool := match p with PSimple e => is_leaf e | _ => true end.

Lemma table_leaf : forallb (fun x => is_leaf_prim (snd x)) prim_table = true.
Proof. vm_compute. reflexivity. Qed.

Lemma assoc_str_in : forall A s (l : list (str * A)) v, assoc_str s l = Some v -> In (s, v) l.
Proof.
  induction l as [|[k w] l IH]; intros v H; [discriminate|]. cbn in H.
  destruct (str_eqb k s) eqn:E; [|right; auto].
  apply str_eqb_eq in E. injection H as ->. left. congruence.
Qed.

Lemma lookup_leaf : forall cs e, lookup_prim cs = PSimple e -> is_leaf e = true.
Proof.
  intros cs e H. unfold lookup_prim in H. destruct (assoc_str cs prim_table) eqn:E.
  - apply assoc_str_in in E. pose proof (proj1 (forallb_forall _ _) table_leaf _ E) as Ht.
    cbn in Ht. rewrite H in Ht. exact Ht.
  - destruct (control_sequence_delimiter_map cs) as [[c ty]|]; [injection H as <-; reflexivity|].
    destruct (is_nil (trim_start cs)); [injection H as <-; reflexivity|discriminate].
Qed.

(** A digit, then digits, dots and commas. *)
Definition number_shape (s : str) : Prop :=
  exists c r, s = c :: r /\ is_digit c = true /\ forallb is_numeral r = true.

(** An array has a column, a number starts with a digit. *)
Definition ev_ok (e : event) : Prop :=
  match e with
  | EvBegin (GArray cols) => existsb is_column cols = true
  | EvBegin (GAlignat n _) | EvBegin (GAlignedat n) => n * 2 <= 65535
  | EvContent (CNumber s) => number_shape s
  | _ => True
  end.

Definition is_number (e : event) : bool := match e with EvContent (CNumber _) => true | _ => false end.

Lemma table_number : forallb (fun x => match snd x with PSimple e => negb (is_number e) | _ => true end) prim_table = true.
Proof. vm_compute. reflexivity. Qed.

Lemma lookup_number : forall cs e, lookup_prim cs = PSimple e -> is_number e = false.
Proof.
  intros cs e H. unfold lookup_prim in H. destruct (assoc_str cs prim_table) eqn:E.
  - apply assoc_str_in in E. pose proof (proj1 (forallb_forall _ _) table_number _ E) as Ht.
    cbn in Ht. rewrite H in Ht. apply negb_true_iff. exact Ht.
  - destruct (control_sequence_delimiter_map cs) as [[c ty]|]; [injection H as <-; reflexivity|].
    destruct (is_nil (trim_start cs)); [injection H as <-; reflexivity|discriminate].
Qed.

Lemma leaf_ok : forall e, is_leaf e = true -> is_number e = false -> ev_ok e.
Proof. intros [c| | | | | | | ] H H2; try discriminate; try exact I. destruct c; try exact I. discriminate. Qed.

Lemma forallb_removelast : forall (f : char -> bool) l, forallb f l = true -> forallb f (removelast l) = true.
Proof.
  intros f l. induction l as [|x l IH]; intros H; [reflexivity|]. cbn in H. apply andb_prop in H as [H1 H2].
  destruct l as [|y l]; [reflexivity|]. change (forallb f (x :: removelast (y :: l)) = true).
  cbn [forallb]. rewrite H1. apply IH. exact H2.
Qed.

Lemma numeral_shape : forall h c r, is_digit c = true -> number_shape (numeral h (c :: r)).
Proof.
  intros h c r Hd. unfold numeral. destruct h; [exists c, []; auto|].
  destruct (span_while is_numeral r) as [a b] eqn:E. destruct (span_while_spec _ _ _ _ E) as (_ & Ha & _). cbn [fst].
  destruct (ends_with_char 46 (c :: a) || ends_with_char 44 (c :: a)) eqn:Ew; [|exists c, a; auto].
  destruct a as [|x a].
  - exfalso. cbn in Ew. apply orb_true_iff in Ew. rewrite !N.eqb_eq in Ew. destruct Ew as [-> | ->]; discriminate.
  - exists c, (removelast (x :: a)). split; [reflexivity|]. split; [exact Hd|]. apply forallb_removelast. exact Ha.
Qed.

(** ** Definitions *)

(** Every parameter of a replacement text is one of the [n] declared. *)
Definition rep_ok (n : N) (rep : list rtoken) : Prop :=
  Forall (fun t => match t with RParam i => 1 <= i <= n | RStr _ => True end) rep.

Definition some_ne (o : option str) : Prop := match o with Some s => s <> [] | None => True end.

Definition defn_ok (d : mdef) : Prop :=
  match d with
  | MDMacro pre ps lb rep =>
      rep_ok (N.of_nat (length ps)) rep /\ some_ne pre /\ Forall some_ne ps /\ (length ps <= 9)%nat
  | MDAlias _ => True
  | MDCommand n d rep => rep_ok n rep /\ n <= 9
  end.

Lemma rep_loop_ok : forall n rest cur l, rep_loop n cur rest = Ok l -> rep_ok n l.
Proof.
  intros n rest. induction rest as [rest IH] using (well_founded_induction
    (well_founded_ltof _ (@length str))). intros cur l H. unfold ltof in IH.
  destruct rest as [|next rest']; cbn [rep_loop] in H.
  - destruct (is_nil cur); [injection H as <-; constructor|].
    destruct (ends_with_char 35 cur); [discriminate|]. injection H as <-. repeat constructor.
  - destruct next as [|fc nt]; [discriminate|]. destruct (fc =? 35).
    + destruct rest' as [|n2 r2]; [injection H as <-; repeat constructor|].
      destruct (rep_loop n n2 r2) eqn:E; try discriminate. injection H as <-.
      constructor; [exact I|]. eapply IH; [|exact E]. cbn. lia.
    + destruct (is_digit fc); [|discriminate]. destruct (_ || _) eqn:Ei; [discriminate|].
      apply orb_false_iff in Ei as [E1 E2]. apply N.ltb_ge in E1. apply N.eqb_neq in E2.
      destruct (rep_loop n nt rest') eqn:E; try discriminate.
      apply IH in E; [|cbn; lia]. assert (Hi : 1 <= digit_val fc <= n) by lia.
      destruct (blen cur =? 1); injection H as <-; repeat (constructor; auto).
Qed.

Lemma replacement_ok : forall s n l, parse_replacement s n = Ok l -> rep_ok n l.
Proof.
  intros s n l H. unfold parse_replacement in H. destruct (split_incl 35 s); [injection H as <-; constructor|].
  eapply rep_loop_ok. exact H.
Qed.

Lemma opt_str_ne : forall s, some_ne (opt_str s).
Proof. intros [|c s]; cbn; [exact I|discriminate]. Qed.

Lemma params_ok : forall ps i l, i <= 10 -> parse_params i ps = Ok l -> Forall some_ne l /\ N.of_nat (length l) + i <= 10.
Proof.
  induction ps as [|p ps IH]; intros i l Hi H; cbn [parse_params] in H.
  - injection H as <-. split; [constructor|]. cbn. lia.
  - destruct p as [|c suf]; [discriminate|]. destruct (is_digit c) eqn:Ed; [|discriminate].
    destruct (N.eqb_spec (digit_val c) i) as [E|]; [|discriminate].
    assert (Hc : digit_val c <= 9).
    { unfold is_digit in Ed. apply andb_prop in Ed as [E1 E2]. apply N.leb_le in E1, E2. unfold digit_val. lia. }
    destruct (parse_params (i + 1) ps) eqn:Ep; try discriminate. injection H as <-.
    apply IH in Ep; [|lia]. destruct Ep as [H1 H2]. split; [constructor; [apply opt_str_ne|exact H1]|].
    cbn [length]. lia.
Qed.

Lemma make_macro_ok : forall a b d, make_macro a b = Ok d -> defn_ok d.
Proof.
  intros a b d H. unfold make_macro in H.
  destruct (split_char 35 _) as [|p ps]; [discriminate|].
  destruct (parse_params 1 ps) as [params|?|?|] eqn:Ep; try discriminate.
  apply params_ok in Ep; [|lia]. destruct Ep as [H1 H2].
  destruct (parse_replacement b _) as [r|?|?|] eqn:Er; try discriminate. injection H as <-.
  apply replacement_ok in Er. cbn. repeat split; auto; [apply opt_str_ne|lia].
Qed.

Lemma make_command_ok : forall n d rep m, n <= 9 -> make_command n d rep = Ok m -> defn_ok m.
Proof.
  intros n d rep m Hn H. unfold make_command in H. destruct (parse_replacement rep n) eqn:E; try discriminate.
  injection H as <-. cbn. split; [|exact Hn]. eapply replacement_ok. exact E.
Qed.

Definition is_def_prim (p : prim) : bool :=
  match p with PDef | PLet | PFuturelet | PNewcommand _ => true | _ => false end.

Definition cs_in (G : slice -> Prop) (cs : str) : Prop :=
  cs <> [] /\ exists sl, G sl /\ contains (92 :: cs) (stxt sl).

(** The characters of the admissible texts. *)
Definition char_in (G : slice -> Prop) (c : char) : Prop := exists s, G s /\ In c (stxt s).

Lemma over_char_in : forall (G : slice -> Prop) s, G s -> over (char_in G) (stxt s).
Proof. intros G s H. apply Forall_forall. intros c Hc. exists s. split; assumption. Qed.

(** A property of macro contexts that a definition written in the text keeps. *)
Definition def_closed (G : slice -> Prop) (J : macro_ctx -> Prop) : Prop :=
  forall cs name d m, cs_in G cs -> is_def_prim (lookup_prim cs) = true -> defn_ok d -> defn_over (char_in G) d -> J m ->
    J (ctx_insert m name d).

Section Keep.
  Variable G : slice -> Prop.
  Hypothesis HG : forall a b, sl_sub a b -> G b -> G a.
  Variable J : macro_ctx -> Prop.

  Definition instr_ok (i : instr) : Prop :=
    match i with IEv e => ev_ok e | ISub s _ => G s end.

  Definition Inv (st : ist) : Prop := G (i_content st) /\ Forall instr_ok (i_buf st) /\ J (i_macros st).

  Notation cs_ok := (cs_in G).

  Definition sarg_ok (a : sarg) : Prop :=
    match a with
    | SGroup g => G g
    | SCs cs => cs_ok cs
    | SChr ctx => G ctx /\ exists x r, stxt ctx = x :: r /\ is_ws x = false /\ x <> 37 /\ x <> 92
    end.

  Lemma inv_content : forall c st, G c -> Inv st -> Inv (set_content c st).
  Proof. intros c st Hc [H1 H2]. split; assumption. Qed.

  Lemma inv_suffix : forall st r, suffix r (stxt (i_content st)) -> Inv st ->
    Inv (set_content (suffix_slice (i_content st) r) st).
  Proof. intros st r Hs Hi. apply inv_content; [|exact Hi]. eapply HG; [apply sl_sub_suffix; exact Hs|apply Hi]. Qed.

  Lemma k_push : forall l, Forall instr_ok l -> keeps Inv (push l) anything.
  Proof.
    intros l Hl st (H1 & H2 & H3). cbn. split; [|exact I]. split; [exact H1|]. cbn. split; [|exact H3].
    apply Forall_app. auto.
  Qed.

  Lemma k_push_ev : forall e, ev_ok e -> keeps Inv (push_ev e) anything.
  Proof. intros e He. apply k_push. repeat constructor. exact He. Qed.

  Lemma sarg_spec_ok : forall c r sl, G c -> sarg_spec c r sl ->
    match r with Ok a => sarg_ok a | _ => True end.
  Proof.
    intros c r sl Hc H. destruct r as [[g|cs|ctx]|e|p|]; cbn in *; auto.
    - destruct H as [H _]. eapply HG; eauto.
    - destruct H as (H1 & H2 & _). split; eauto.
    - destruct H as (H1 & _ & x & H2 & H3). split; [eapply HG; eauto|]. exists x, (stxt sl). auto.
  Qed.

  Lemma k_argc : keeps Inv argc sarg_ok.
  Proof.
    intros st Hi. destruct (argc_run st) as (r & sl & E & H1 & H2). rewrite E. cbn [fst snd]. split.
    - apply inv_content; [eapply HG; [exact H1|apply Hi]|exact Hi].
    - eapply sarg_spec_ok; [apply Hi|exact H2].
  Qed.

  Lemma k_groupc : forall k, keeps Inv (groupc k) G.
  Proof.
    intros k st Hi. destruct (groupc_run k st) as (r & sl & E & H1 & H2). rewrite E. cbn [fst snd]. split.
    - apply inv_content; [eapply HG; [exact H1|apply Hi]|exact Hi].
    - destruct r; cbn in H2; auto. eapply HG; [apply H2|apply Hi].
  Qed.

  Lemma k_bracec : keeps Inv bracec G.
  Proof.
    intros st Hi. destruct (bracec_run st) as (r & sl & E & H1 & H2). rewrite E. cbn [fst snd]. split.
    - apply inv_content; [eapply HG; [exact H1|apply Hi]|exact Hi].
    - destruct r; cbn in H2; auto. eapply HG; [apply H2|apply Hi].
  Qed.

  Definition opt_ok (o : option slice) : Prop := match o with Some g => G g | None => True end.

  Lemma k_optc : keeps Inv optc opt_ok.
  Proof.
    intros st Hi. destruct (optc_run st) as (r & sl & E & H1 & H2). rewrite E. cbn [fst snd]. split.
    - apply inv_content; [eapply HG; [exact H1|apply Hi]|exact Hi].
    - destruct r as [[g|]|e|p|]; cbn in *; auto. eapply HG; [apply H2|apply Hi].
  Qed.

  Lemma k_lexc : forall A (l : lexer A), leaves_suffix l -> keeps Inv (lexc l) anything.
  Proof.
    intros A l Hl st Hi. destruct (lexc_run A l Hl st) as (sl & E & H1 & _). rewrite E. cbn [fst snd]. split.
    - apply inv_content; [eapply HG; [exact H1|apply Hi]|exact Hi].
    - destruct (fst _); exact I.
  Qed.

  (** [get] then a lexer: the state read is the one the lexer starts from. *)
  Lemma k_lexc_over : forall A (l : lexer A) V, leaves_suffix l -> lover (char_in G) l V -> keeps Inv (lexc l) V.
  Proof.
    intros A l V Hl Hv st Hi. destruct (lexc_run A l Hl st) as (sl & E & H1 & _). rewrite E. cbn [fst snd]. split.
    - apply inv_content; [eapply HG; [exact H1|apply Hi]|exact Hi].
    - apply Hv. apply over_char_in. apply Hi.
  Qed.

  Lemma k_get_lexc : forall A B (l : lexer A) (f : ist -> A -> P B) W, leaves_suffix l ->
    (forall st a r, Inv st -> l (stxt (i_content st)) = (Ok a, r) -> keeps Inv (f st a) W) ->
    keeps Inv (do st <- get ; do a <- lexc l ; f st a) W.
  Proof.
    intros A B l f W Hl Hf st Hi. unfold bind at 1, get. unfold bind.
    destruct (lexc_run A l Hl st) as (sl & E & H1 & H2). rewrite E.
    assert (Hi' : Inv (set_content sl st)).
    { apply inv_content; [eapply HG; [exact H1|apply Hi]|exact Hi]. }
    destruct (l (stxt (i_content st))) as [[a|e|p|] r] eqn:El; cbn [fst snd] in *; auto.
    eapply Hf; eassumption.
  Qed.

  Variable rec : str -> P unit.
  Hypothesis Hrec : forall cs, cs_ok cs -> keeps Inv (rec cs) anything.

  Lemma k_handle_char : forall ctx, G ctx -> keeps Inv (handle_char ctx) anything.
  Proof.
    intros ctx Hc. unfold handle_char. eapply k_bind; [apply k_get|]. intros st Hi.
    destruct (_ =? 92); [apply k_panic|]. destruct (_ =? 37); [apply k_panic|].
    destruct ((_ =? 95) || _).
    { destruct (i_handling st); [apply k_fail|].
      eapply k_bind; [apply k_push_ev; exact I|]. intros _ _.
      eapply k_bind; [apply k_modify; intros; apply inv_content; assumption|]. intros _ _.
      apply k_push_ev. exact I. }
    destruct (_ =? 36); [apply k_fail|]. destruct (_ =? 35); [apply k_fail|].
    destruct (_ =? 38).
    { destruct (i_align st) as [[n m]|]; [|apply k_fail].
      destruct (_ && _); [|apply k_fail].
      eapply k_bind; [apply k_modify; intros ? [? ?]; split; assumption|]. intros _ _.
      apply k_push_ev. exact I. }
    destruct (_ =? 123).
    { eapply k_bind; [apply k_groupc|]. intros g Hg. apply k_push. repeat constructor. exact Hg. }
    destruct (_ =? 125); [apply k_fail|].
    destruct (is_digit _) eqn:Ed.
    { eapply k_bind; [apply k_modify; intros; apply inv_content; [|assumption]|].
      - eapply HG; [apply sl_sub_suffix|exact Hc]. exists (firstn (length (numeral (i_handling st) (stxt ctx))) (stxt ctx)).
        rewrite firstn_skipn. reflexivity.
      - intros _ _. apply k_push_ev. destruct (stxt ctx) as [|x r]; [vm_compute in Ed; congruence|].
        apply numeral_shape. assumption. }
    apply k_push_ev. unfold char_event.
    repeat match goal with |- ev_ok (if ?b then _ else _) => destruct b end; try exact I.
    destruct (char_delimiter_map _) as [[d []]|]; exact I.
  Qed.

  Lemma k_handle_arg : forall a, sarg_ok a -> keeps Inv (handle_arg rec a) anything.
  Proof.
    intros a Ha. destruct a; cbn in *.
    - apply k_push. repeat constructor. exact Ha.
    - eapply k_bind; [apply k_modify; intros ? [? ?]; split; assumption|]. intros _ _. apply Hrec. exact Ha.
    - eapply k_bind; [apply k_modify; intros ? [? ?]; split; assumption|]. intros _ _. apply k_handle_char. apply Ha.
  Qed.

  Lemma k_buf_len : keeps Inv buf_len anything.
  Proof. intros st Hi. split; [exact Hi|exact I]. Qed.

  Lemma k_split_off : forall n, keeps Inv (split_off n) (Forall instr_ok).
  Proof.
    intros n st (H1 & H2 & HJ). cbn. rewrite <- (firstn_skipn n (i_buf st)) in H2. apply Forall_app in H2.
    destruct H2 as [H2 H3]. split; [|exact H3]. split; [assumption|]. split; assumption.
  Qed.
End Keep.

#[export] Hint Resolve lex_token_suffix control_sequence_suffix lex_argument_suffix optional_argument_suffix
  brace_argument_suffix lex_delimiter_suffix lex_definition_suffix futurelet_suffix let_suffix
  limit_modifiers_suffix horizontal_lines_suffix unsigned_integer_suffix lex_dimension_suffix
  lex_glue_suffix dimension_or_braced_suffix glue_or_braced_suffix : lexsuf.

Ltac weak t := first [t | eapply k_any; t].

(** One step of the traversal of a primitive. *)
Ltac kstep G HG J rec Hrec :=
  match goal with
  | |- keeps _ (bind (match _ with _ => _ end) _) _ => eapply k_bind with (V := anything); [|intros ? ?]
  | |- keeps _ (bind _ _) _ => eapply k_bind; [|intros ? ?]
  | |- keeps _ (ret _) anything => apply k_ret; exact I
  | |- keeps _ (ret _) _ => apply k_ret
  | |- keeps _ (fail _) _ => apply k_fail
  | |- keeps _ (panic_with _) _ => apply k_panic
  | |- keeps _ get _ => weak ltac:(apply k_get)
  | |- keeps _ (lift _) _ => weak ltac:(apply k_lift)
  | |- keeps _ (ok_or _ _) _ => weak ltac:(apply k_ok_or)
  | |- keeps _ (on_local _ _) _ => weak ltac:(apply k_local)
  | |- keeps _ (push_ev _) _ => apply k_push_ev
  | |- keeps _ (push _) _ => apply k_push
  | |- keeps _ argc _ => weak ltac:(apply (k_argc G HG J))
  | |- keeps _ (groupc _) _ => weak ltac:(apply (k_groupc G HG J))
  | |- keeps _ bracec _ => weak ltac:(apply (k_bracec G HG J))
  | |- keeps _ optc _ => weak ltac:(apply (k_optc G HG J))
  | |- keeps _ (lexc _) _ => apply (k_lexc G HG J); auto with lexsuf
  | |- keeps _ (handle_arg _ _) _ => apply (k_handle_arg G HG J rec Hrec)
  | |- keeps _ (handle_char _) _ => apply (k_handle_char G HG J)
  | |- keeps _ (split_off _) _ => weak ltac:(apply k_split_off)
  | |- keeps _ buf_len _ => apply k_buf_len
  | |- keeps _ (modify _) _ => apply k_modify; intros ? [? ?]; split; assumption
  | |- keeps _ (match ?x with _ => _ end) _ => destruct x
  | |- keeps _ (let (_, _) := ?x in _) _ => destruct x
  end.

Lemma over_ne : lit "\over" <> [].
Proof. intro H. vm_compute in H. discriminate. Qed.

Section KeepPrim.
  Variable G : slice -> Prop.
  Hypothesis HG : forall a b, sl_sub a b -> G b -> G a.
  Variable J : macro_ctx -> Prop.
  Hypothesis HJ : def_closed G J.
  Variable rec : str -> P unit.
  Hypothesis Hrec : forall cs, cs_in G cs -> keeps (Inv G J) (rec cs) anything.

  Ltac ks := repeat kstep G HG J rec Hrec.
  Ltac fin := try solve [exact I | assumption
    | repeat first [apply Forall_cons | apply Forall_nil | exact I | assumption]
    | intros; exact I].

  Definition has_def : Prop := exists cs, cs_in G cs /\ is_def_prim (lookup_prim cs) = true.

  Lemma k_insert : forall name d, has_def -> defn_ok d -> defn_over (char_in G) d ->
    keeps (Inv G J) (modify (fun st => set_macros (ctx_insert (i_macros st) name d) st)) anything.
  Proof.
    intros name d (cs & H1 & H2) Hd Ho. apply k_modify. intros st (Hi1 & Hi2 & Hi3).
    split; [exact Hi1|]. split; [exact Hi2|]. cbn. eapply HJ; eassumption.
  Qed.

  Lemma k_group_arg : forall e, keeps (Inv G J) (group_arg e) anything.
  Proof. intros e. unfold group_arg. ks; fin. Qed.

  Lemma k_sized_delim : forall s, keeps (Inv G J) (sized_delim s) anything.
  Proof. intros s. unfold sized_delim. ks; fin. Qed.

  Lemma k_atom_group : forall k, keeps (Inv G J) (atom_group rec k) anything.
  Proof.
    intros k. unfold atom_group. ks; fin.
    unfold atom_event. destruct k; exact I.
  Qed.

  Lemma k_font_group : forall f, keeps (Inv G J) (font_group rec f) anything.
  Proof.
    intros f. unfold font_group. eapply k_bind; [apply (k_argc G HG J)|]. intros a Ha.
    eapply k_bind; [ks; fin|]. intros _ _.
    eapply k_bind with (V := anything); [destruct a|intros; ks; fin].
    - ks; fin.
    - apply Hrec. exact Ha.
    - ks. apply Ha.
  Qed.

  Lemma k_accent : forall c s, keeps (Inv G J) (accent rec c s) anything.
  Proof. intros. unfold accent. ks; fin. Qed.

  Lemma k_underscript : forall c, keeps (Inv G J) (underscript rec c) anything.
  Proof. intros. unfold underscript. ks; fin. Qed.

  Lemma k_text_argument : forall f, keeps (Inv G J) (text_argument f) anything.
  Proof. intros. unfold text_argument. ks; fin. Qed.

  Lemma k_fraction_like : forall o c b s, keeps (Inv G J) (fraction_like rec o c b s) anything.
  Proof. intros. unfold fraction_like. ks; fin. Qed.

  Lemma k_large_op : forall c m, keeps (Inv G J) (large_op c m) anything.
  Proof. intros. unfold large_op. ks; fin. Qed.

  Lemma k_color_of : forall s, keeps (Inv G J) (color_of s) anything.
  Proof. intros. unfold color_of. eapply k_bind; [apply k_lift|]. intros. eapply k_any. apply k_ok_or. Qed.

  Lemma k_genfrac_delim : keeps (Inv G J) genfrac_delim anything.
  Proof. unfold genfrac_delim. ks; fin. Qed.

  Lemma k_left_delim : keeps (Inv G J) left_delim anything.
  Proof.
    unfold left_delim. eapply k_bind; [apply k_get|]. intros st Hi.
    destruct (strip_char 46 (stxt (i_content st))) as [r|] eqn:E; [|ks; fin].
    apply strip_char_some in E. eapply k_bind; [apply k_modify|intros; ks; fin].
    intros s' Hs'. apply inv_content; [|exact Hs'].
    eapply HG; [apply sl_sub_suffix|apply Hi]. rewrite E. exists [46]. reflexivity.
  Qed.

  Lemma k_new_command : forall b, has_def -> keeps (Inv G J) (new_command b) anything.
  Proof.
    intros b Hdef. unfold new_command. eapply k_bind; [apply (k_bracec G HG J)|]. intros g Hg.
    eapply k_bind; [apply k_local|]. intros [cs r] E. cbn [fst snd].
    eapply k_bind; [apply k_get|]. intros st Hst.
    eapply k_bind with (V := anything); [ks; fin|]. intros _ _.
    eapply k_bind; [apply (k_optc G HG J)|]. intros o Ho.
    eapply k_bind; [apply k_ok_or|]. intros t Ht.
    eapply k_bind; [apply k_ok_or|]. intros n Hn.
    eapply k_bind; [apply (k_optc G HG J)|]. intros d Hd.
    destruct ((9 <? n) && _) eqn:E9; [apply k_fail|].
    eapply k_bind; [apply (k_bracec G HG J)|]. intros rep Hr.
    destruct (ctx_contains _ _ && _); [apply k_ret; exact I|].
    eapply k_bind; [apply k_lift|]. intros m Hm. apply k_insert; [exact Hdef| |].
    2: { eapply make_command_over; [|apply over_char_in; exact Hr|exact Hm].
         destruct d as [t'|]; [apply over_char_in; exact Hd|exact I]. }
    eapply make_command_ok; [|exact Hm].
    apply andb_false_iff in E9 as [E9|E9]; [apply N.ltb_ge in E9; exact E9|].
    destruct (is_some d); apply N.leb_gt in E9; lia.
  Qed.

  Definition env_ok (e : env_desc) : Prop := ev_ok (EvBegin (e_group e)).

  Lemma k_array_environment :
    keeps (Inv G J) array_environment (fun g => ev_ok (EvBegin (fst g))).
  Proof.
    unfold array_environment. eapply k_bind; [apply k_group_arg|]. intros t _.
    eapply k_bind; [apply k_lift|]. intros p _. destruct (existsb is_column (fst p)) eqn:E.
    - apply k_ret. exact E.
    - apply k_fail.
  Qed.

  Lemma k_optional_alignment : keeps (Inv G J) optional_alignment anything.
  Proof. unfold optional_alignment. ks; fin. Qed.

  Lemma k_alignat_pairs : keeps (Inv G J) alignat_pairs anything.
  Proof. unfold alignat_pairs. ks; fin. Qed.

  Lemma k_pair_count : forall n, keeps (Inv G J) (pair_count n) (fun _ => n * 2 <= 65535).
  Proof.
    intros n. unfold pair_count. destruct (N.ltb_spec 65535 (n * 2)) as [H|H]; [apply k_panic|]. apply k_ret. exact H.
  Qed.

  Lemma plain_ok : forall name g n k s, assoc_str name plain_table = Some (g, n, k, s) -> ev_ok (EvBegin g).
  Proof.
    intros name g n k s H. apply assoc_str_in in H.
    repeat (destruct H as [H|H]; [injection H; intros; subst; exact I|]). destruct H.
  Qed.

  Lemma k_environment : forall name, keeps (Inv G J) (environment name) env_ok.
  Proof.
    intros name. unfold environment.
    repeat match goal with |- keeps _ (if ?b then _ else _) _ => destruct b end;
      try (eapply k_bind; [apply k_array_environment|]; intros g Hg; apply k_ret; exact Hg);
      try (eapply k_bind; [apply k_alignat_pairs|]; intros p _;
           eapply k_bind; [apply k_pair_count|]; intros n Hn; apply k_ret; exact Hn).
    - eapply k_bind; [apply k_group_arg|]. intros t _. eapply k_bind; [apply k_ok_or|]. intros. apply k_ret. exact I.
    - destruct (assoc_str name matrix_table) as [[[[ty starred] st] wrap]|].
      + eapply k_bind with (V := anything); [destruct starred; [apply k_optional_alignment|apply k_ret; exact I]|].
        intros. apply k_ret. exact I.
      + destruct (assoc_str name plain_table) as [[[[g n] k] st]|] eqn:E; [|apply k_fail].
        apply k_ret. eapply plain_ok. exact E.
  Qed.

  Lemma k_begin_env : keeps (Inv G J) begin_env anything.
  Proof.
    unfold begin_env. eapply k_bind; [apply k_group_arg|]. intros name _.
    eapply k_bind; [apply k_environment|]. intros e He.
    eapply k_bind with (V := anything); [ks; fin|]. intros _ _.
    eapply k_bind; [apply (k_lexc G HG J); auto with lexsuf|]. intros hl _.
    eapply k_bind; [apply (k_groupc G HG J)|]. intros g Hg.
    eapply k_bind; [apply k_push_ev; exact He|]. intros _ _.
    ks; fin.
  Qed.

  Lemma k_newline : keeps (Inv G J) newline anything.
  Proof.
    unfold newline. eapply k_bind; [apply k_get|]. intros st _. destruct (i_align st) as [[n m]|]; [|apply k_fail].
    destruct (i_handling st); [apply k_fail|]. eapply k_bind; [ks; fin|]. intros _ _.
    eapply k_bind; [apply (k_optc G HG J)|]. intros o _.
    eapply k_bind with (V := anything); [ks; fin|]. intros sp _. ks; fin.
  Qed.

  Lemma k_buildrel : forall (f : slice -> slice -> str -> P unit),
    (forall c c' oc, G c -> sl_sub (mid_slice c oc 5 (stxt c')) c -> keeps (Inv G J) (f c c' oc) anything) ->
    keeps (Inv G J) (do st <- get ;
      do oc <- lexc (content_with_suffix (lit "\over")) ;
      do st' <- get ; f (i_content st) (i_content st') oc) anything.
  Proof.
    intros f Hf st Hi. unfold bind, get.
    destruct (lexc_run _ (content_with_suffix (lit "\over")) (content_with_suffix_suffix _ over_ne) st) as (sl & E & H1 & H2).
    rewrite !E.
    assert (Hi' : Inv G J (set_content sl st)).
    { apply inv_content; [eapply HG; [exact H1|apply Hi]|exact Hi]. }
    destruct (content_with_suffix (lit "\over") (stxt (i_content st))) as [[a|e|p|] r] eqn:El;
      cbn [fst snd] in *; auto.
    cbn [i_content set_content]. apply Hf; [apply Hi| |exact Hi'].
    assert (Hd := El). apply content_with_suffix_iff in Hd; [|exact over_ne].
    apply delimited_text in Hd. subst sl. cbn [stxt suffix_slice].
    eapply (sl_sub_mid _ _ _ _ [] (lit "\over")); [exact Hd|reflexivity].
  Qed.

  Lemma k_overset_tail : forall n (l : P sarg), keeps (Inv G J) l (sarg_ok G) ->
    keeps (Inv G J) (do over <- l ; handle_arg rec over ;; do evs <- split_off n ;
                   do base <- argc ; handle_arg rec base ;; push evs) anything.
  Proof.
    intros n l Hl. eapply k_bind; [exact Hl|]. intros a Ha. ks; fin.
  Qed.

  Lemma k_hprim_body : forall cs, cs_in G cs -> keeps (Inv G J) (hprim_body rec cs) anything.
  Proof.
    intros cs Hcs. unfold hprim_body. destruct (lookup_prim cs) eqn:EL;
      try solve [ks; fin | apply k_atom_group | apply k_font_group | apply k_sized_delim | apply k_large_op
                | apply k_fraction_like | apply k_text_argument | apply k_begin_env | apply k_newline
                | apply k_new_command].
    - apply k_push_ev. apply leaf_ok; [eapply lookup_leaf; exact EL|eapply lookup_number; exact EL].
    - ks; fin. apply k_atom_group.
    - eapply k_bind; [apply k_group_arg|intros t _]. ks; fin. apply k_color_of.
    - eapply k_bind; [apply k_group_arg|intros t _]. eapply k_bind; [apply k_color_of|intros c _]. ks; fin.
    - eapply k_bind; [apply k_group_arg|intros t _]. eapply k_bind; [apply k_color_of|intros c _]. ks; fin.
      apply k_text_argument.
    - eapply k_bind; [apply k_group_arg|intros t _]. eapply k_bind; [apply k_group_arg|intros u _].
      eapply k_bind; [apply k_color_of|intros c _]. eapply k_bind; [apply k_color_of|intros d _]. ks; fin.
      apply k_text_argument.
    - eapply k_bind; [apply k_left_delim|intros o _]. eapply k_bind; [apply (k_groupc G HG J)|intros g Hg].
      eapply k_bind; [apply k_left_delim|intros c _]. ks; fin.
    - ks; fin; apply k_accent.
    - ks; fin; apply k_underscript.
    - eapply k_bind; [apply k_group_arg|intros t _]. ks; fin.
    - eapply k_bind; [apply k_group_arg|intros t _]. eapply k_bind; [apply k_local|intros w _].
      eapply k_bind; [apply k_group_arg|intros t2 _]. eapply k_bind; [apply k_local|intros w2 _].
      eapply k_bind; [apply k_group_arg|intros t3 _]. ks; fin.
    - eapply k_bind; [apply k_genfrac_delim|intros l _]. eapply k_bind; [apply k_genfrac_delim|intros r _].
      eapply k_bind; [apply (k_argc G HG J)|intros b _].
      eapply k_bind with (V := anything); [ks; fin|intros bar _].
      eapply k_bind; [apply (k_argc G HG J)|intros b' _].
      eapply k_bind with (V := anything); [ks; fin|intros sty _]. apply k_fraction_like.
    - apply (k_buildrel (fun c c' oc => push_ev (EvScript STSup SPAboveBelow) ;;
        do n <- buf_len ; do over <- lift (fst (arg_slice (mid_slice c oc 5 (stxt c')))) ;
        handle_arg rec over ;; do evs <- split_off n ; do base <- argc ; handle_arg rec base ;; push evs)).
      intros c c' oc Hc Hs. eapply k_bind; [ks; fin|intros _ _]. eapply k_bind; [ks; fin|intros n _].
      apply k_overset_tail. eapply k_weaken; [apply k_lift|]. intros a Ha. cbn in Ha.
      pose proof (arg_slice_spec (mid_slice c oc 5 (stxt c'))) as Hsp.
      destruct (arg_slice _) as [r sl]. cbn in Ha. subst r. destruct Hsp as [_ Hsp].
      apply (sarg_spec_ok G HG) in Hsp; [exact Hsp|]. eapply HG; eassumption.
    - assert (Hdef : has_def) by (exists cs; rewrite EL; auto).
      eapply k_bind; [apply (k_lexc_over G HG J); [auto with lexsuf|apply definition_over]|intros d Hd].
      eapply k_bind; [ks|intros _ _]. eapply k_bind; [apply k_lift|intros m Hm].
      apply k_insert; [exact Hdef|eapply make_macro_ok; exact Hm|eapply make_macro_over; [exact (proj1 Hd)|exact (proj2 Hd)|exact Hm]].
    - assert (Hdef : has_def) by (exists cs; rewrite EL; auto).
      eapply k_bind; [apply (k_lexc_over G HG J); [auto with lexsuf|apply let_over]|intros d Hd].
      eapply k_bind; [ks|intros _ _]. apply k_insert; [exact Hdef|exact I|apply alias_over; exact Hd].
    - assert (Hdef : has_def) by (exists cs; rewrite EL; auto).
      apply (k_get_lexc G HG J _ _ futurelet_assignment (fun st0 d => modify (set_skip true) ;;
        modify (fun st => set_macros (ctx_insert (i_macros st) (fst (fst d)) (alias (snd (fst d)))) st) ;;
        modify (set_content (suffix_slice (i_content st0) (snd d))))); [auto with lexsuf|].
      intros st0 [[nm t] b] r Hi E. eapply k_bind; [ks|intros _ _].
      assert (Ht : tok_over (char_in G) t).
      { pose proof (proj2 (futurelet_over (char_in G) _ (over_char_in G _ (proj1 Hi)))) as Ht. rewrite E in Ht. exact Ht. }
      eapply k_bind; [apply k_insert; [exact Hdef|exact I|apply alias_over; exact Ht]|intros _ _]. cbn [fst snd] in *.
      apply k_modify. intros s' Hs'. apply inv_content; [|exact Hs'].
      eapply HG; [apply sl_sub_suffix; eapply futurelet_before; exact E|apply Hi].
    - apply k_new_command. exists cs. rewrite EL. auto.
  Qed.
End KeepPrim.

Section KeepParse.
  Variable G : slice -> Prop.
  Hypothesis HG : forall a b, sl_sub a b -> G b -> G a.
  Variable J : macro_ctx -> Prop.
  Hypothesis HJ : def_closed G J.

  Lemma k_hprim : forall fuel cs, cs_in G cs -> keeps (Inv G J) (hprim fuel cs) anything.
  Proof.
    induction fuel as [|f IH]; intros cs Hcs.
    - intros st Hi. cbn. auto.
    - apply (k_hprim_body G HG J HJ); [intros; apply IH; assumption|exact Hcs].
  Qed.
End KeepParse.
