(** * Frame: a step that neither defines nor uses a macro is the same whatever
    macros are defined. *)

From Coq Require Import List NArith ZArith Bool Lia Arith.
From Verif Require Import Base Float32 Event Tables Prim PrimTable Lex Macros Primitives Spans Parser Terminate SimRun MacroRun.
Import ListNotations.
Open Scope N_scope.

Strategy 1000 [parse parse_fuel].

(** A computation that has left a definition, or has failed. *)
Definition spoiled {A} (x : res A * ist) : Prop := i_macros (snd x) <> [] \/ match fst x with Ok _ => False | _ => True end.

Section Frame.
  Variable m : macro_ctx.

  Definition wm (st : ist) : ist := set_macros m st.

  Definition fr {A} (f : P A) : Prop :=
    (forall st, i_macros st = [] ->
      (i_macros (snd (f st)) = [] /\ f (wm st) = (fst (f st), wm (snd (f st)))) \/ spoiled (f st)) /\
    (forall st, i_macros st <> [] -> i_macros (snd (f st)) <> []).

  Lemma fr_bind : forall A C (f : P A) (k : A -> P C), fr f -> (forall a, fr (k a)) -> fr (bind f k).
  Proof.
    intros A C f k [Hf1 Hf2] Hk. split; intros st H.
    - destruct (Hf1 st H) as [[E1 E2]|Hs].
      + unfold bind. rewrite E2. destruct (f st) as [[a|e|p|] s1]; cbn [fst snd] in *; try (left; split; [assumption|reflexivity]).
        apply (proj1 (Hk a)). exact E1.
      + right. unfold bind, spoiled in *. destruct (f st) as [[a|e|p|] s1]; cbn [fst snd] in *.
        * destruct Hs as [Hs|Hs]; [|contradiction]. left. apply (proj2 (Hk a)). exact Hs.
        * right. exact I.
        * right. exact I.
        * right. exact I.
    - unfold bind. specialize (Hf2 st H). destruct (f st) as [[a|e|p|] s1]; cbn [fst snd] in *; try assumption.
      apply (proj2 (Hk a)). exact Hf2.
  Qed.

  Lemma fr_get : forall C (k : ist -> P C), (forall st, fr (k st)) -> (forall st, k (wm st) = k st) -> fr (bind get k).
  Proof.
    intros C k Hk He. split; intros st H; unfold bind, get; cbn [fst snd].
    - rewrite He. apply (proj1 (Hk st)). exact H.
    - apply (proj2 (Hk st)). exact H.
  Qed.

  Lemma fr_ret : forall A (a : A), fr (ret a).
  Proof. intros. split; intros st H; [left; split; [exact H|reflexivity]|exact H]. Qed.
  Lemma fr_fail : forall A e, fr (@fail ist A e).
  Proof. intros. split; intros st H; [left; split; [exact H|reflexivity]|exact H]. Qed.
  Lemma fr_panic : forall A e, fr (@panic_with ist A e).
  Proof. intros. split; intros st H; [left; split; [exact H|reflexivity]|exact H]. Qed.
  Lemma fr_lift : forall A (r : res A), fr (lift r).
  Proof. intros. split; intros st H; [left; split; [exact H|reflexivity]|exact H]. Qed.
  Lemma fr_ok_or : forall A (o : option A) e, fr (ok_or o e).
  Proof. intros A [a|] e; [apply fr_ret|apply fr_fail]. Qed.

  Lemma fr_modify : forall f, (forall st, f (wm st) = wm (f st)) -> (forall st, i_macros (f st) = i_macros st) -> fr (modify f).
  Proof.
    intros f H1 H2. split; intros st H; unfold modify; cbn [fst snd].
    - left. split; [rewrite H2; exact H|]. rewrite H1. reflexivity.
    - rewrite H2. exact H.
  Qed.

  Lemma fr_insert : forall (f : ist -> ist) n d, (forall st, f st = set_macros (ctx_insert (i_macros st) n d) st) -> fr (modify f).
  Proof. intros f n d Hf. split; intros st H; unfold modify, spoiled; cbn [fst snd]; rewrite Hf; cbn; [right; left|]; discriminate. Qed.

  Lemma fr_lexc : forall A (l : lexer A), fr (lexc l).
  Proof.
    intros A l. split; intros st H; unfold lexc; cbn [wm set_macros i_content]; destruct (l (stxt (i_content st))) as [r s];
      cbn [fst snd]; [left; split; [exact H|reflexivity]|exact H].
  Qed.
  Lemma fr_local : forall A (l : lexer A) t, fr (on_local l t).
  Proof.
    intros A l t. split; intros st H; unfold on_local; destruct (l t) as [[a|e|p|] r];
      cbn [fst snd]; first [left; split; [exact H|reflexivity]|exact H].
  Qed.
  Lemma fr_argc : fr argc.
  Proof.
    split; intros st H; unfold argc; cbn [wm set_macros i_content]; destruct (arg_slice (i_content st)) as [r s];
      cbn [fst snd]; [left; split; [exact H|reflexivity]|exact H].
  Qed.
  Lemma fr_groupc : forall k, fr (groupc k).
  Proof.
    intros k. split; intros st H; unfold groupc; cbn [wm set_macros i_content];
      destruct (group_content k (stxt (i_content st))) as [[a|e|p|] s];
      cbn [fst snd]; first [left; split; [exact H|reflexivity]|exact H].
  Qed.
  Lemma fr_bracec : fr bracec.
  Proof.
    split; intros st H; unfold bracec; cbn [wm set_macros i_content];
      destruct (brace_argument (stxt (i_content st))) as [[a|e|p|] s];
      cbn [fst snd]; first [left; split; [exact H|reflexivity]|exact H].
  Qed.
  Lemma fr_optc : fr optc.
  Proof.
    split; intros st H; unfold optc; cbn [wm set_macros i_content];
      destruct (optional_argument (stxt (i_content st))) as [[[a|]|e|p|] s];
      cbn [fst snd]; first [left; split; [exact H|reflexivity]|exact H].
  Qed.
  Lemma fr_push : forall l, fr (push l).
  Proof. intros l. apply fr_modify; reflexivity. Qed.
  Lemma fr_push_ev : forall e, fr (push_ev e).
  Proof. intros e. apply fr_push. Qed.
  Lemma fr_buf_len : fr buf_len.
  Proof. split; intros st H; [left; split; [exact H|reflexivity]|exact H]. Qed.
  Lemma fr_split_off : forall n, fr (split_off n).
  Proof. intros n. split; intros st H; [left; split; [exact H|reflexivity]|exact H]. Qed.
  Lemma fr_peek : fr peek.
  Proof. split; intros st H; [left; split; [exact H|reflexivity]|exact H]. Qed.
  Lemma fr_drop1 : fr drop1.
  Proof. apply fr_modify; reflexivity. Qed.
End Frame.

(** What follows is spoiled, and so is the whole. *)
Definition sp {A} (f : P A) : Prop := forall st, spoiled (f st).

Lemma sp_skip : forall A C (f : P A) (k : A -> P C), (forall a, sp (k a)) -> sp (bind f k).
Proof.
  intros A C f k Hk st. unfold bind, spoiled. destruct (f st) as [[a|e|p|] s1]; cbn [fst snd]; try (right; exact I).
  apply Hk.
Qed.

Ltac fstep :=
  match goal with
  | |- fr _ (bind get _) => apply fr_get; [intros ?|reflexivity]
  | |- fr _ (bind _ _) => apply fr_bind; [|intros ?]
  | |- fr _ (ret _) => apply fr_ret
  | |- fr _ (fail _) => apply fr_fail
  | |- fr _ (panic_with _) => apply fr_panic
  | |- fr _ (lift _) => apply fr_lift
  | |- fr _ (ok_or _ _) => apply fr_ok_or
  | |- fr _ (lexc _) => apply fr_lexc
  | |- fr _ (on_local _ _) => apply fr_local
  | |- fr _ argc => apply fr_argc
  | |- fr _ (groupc _) => apply fr_groupc
  | |- fr _ bracec => apply fr_bracec
  | |- fr _ optc => apply fr_optc
  | |- fr _ (push_ev _) => apply fr_push_ev
  | |- fr _ (push _) => apply fr_push
  | |- fr _ buf_len => apply fr_buf_len
  | |- fr _ (split_off _) => apply fr_split_off
  | |- fr _ peek => apply fr_peek
  | |- fr _ drop1 => apply fr_drop1
  | |- fr _ (modify _) => first [apply fr_modify; reflexivity | eapply fr_insert; intros; reflexivity]
  | |- fr _ (match ?x with _ => _ end) => destruct x
  | |- fr _ (let (_, _) := ?x in _) => destruct x
  end.

Section FramePrim.
  Variable m : macro_ctx.
  Variable rec : str -> P unit.
  Hypothesis Hrec : forall cs, fr m (rec cs).

  Lemma fr_handle_char : forall c, fr m (handle_char c).
  Proof. intros c. unfold handle_char. cbv zeta. repeat fstep. Qed.
  Lemma fr_handle_arg : forall a, fr m (handle_arg rec a).
  Proof. intros a. unfold handle_arg. repeat fstep; try apply Hrec; try apply fr_handle_char. Qed.

  Ltac fs := repeat first [fstep | apply fr_handle_arg | apply fr_handle_char | apply Hrec].

  Lemma fr_group_arg : forall e, fr m (group_arg e).
  Proof. intros e. unfold group_arg. fs. Qed.
  Lemma fr_sized_delim : forall s, fr m (sized_delim s).
  Proof. intros s. unfold sized_delim. fs. Qed.
  Lemma fr_atom_group : forall k, fr m (atom_group rec k).
  Proof. intros k. unfold atom_group. fs. Qed.
  Lemma fr_font_group : forall f, fr m (font_group rec f).
  Proof. intros f. unfold font_group. fs. Qed.
  Lemma fr_accent : forall c s, fr m (accent rec c s).
  Proof. intros. unfold accent. fs. Qed.
  Lemma fr_underscript : forall c, fr m (underscript rec c).
  Proof. intros. unfold underscript. fs. Qed.
  Lemma fr_text_argument : forall f, fr m (text_argument f).
  Proof. intros. unfold text_argument. fs. Qed.
  Lemma fr_fraction_like : forall o c b s, fr m (fraction_like rec o c b s).
  Proof. intros. unfold fraction_like. fs. Qed.
  Lemma fr_array_environment : fr m array_environment.
  Proof. unfold array_environment. fstep; [apply fr_group_arg|]. fs. Qed.
  Lemma fr_optional_alignment : fr m optional_alignment.
  Proof. unfold optional_alignment. fs. Qed.
  Lemma fr_large_op : forall c b, fr m (large_op c b).
  Proof. intros. unfold large_op. fs. Qed.
  Lemma fr_color_of : forall s, fr m (color_of s).
  Proof. intros. unfold color_of. fs. Qed.
  Lemma fr_genfrac_delim : fr m genfrac_delim.
  Proof. unfold genfrac_delim. fs. Qed.
  Lemma fr_left_delim : fr m left_delim.
  Proof. unfold left_delim. fs. Qed.
  Lemma fr_alignat_pairs : fr m alignat_pairs.
  Proof. unfold alignat_pairs. fs. Qed.
  Lemma fr_pair_count : forall n, fr m (pair_count n).
  Proof. intros. unfold pair_count. fs. Qed.
  Lemma fr_environment : forall n, fr m (environment n).
  Proof.
    intros n. unfold environment. repeat first [fstep | apply fr_array_environment | apply fr_alignat_pairs | apply fr_pair_count
      | apply fr_group_arg | apply fr_optional_alignment].
  Qed.
  Lemma fr_begin_env : fr m begin_env.
  Proof. unfold begin_env. repeat first [fstep | apply fr_group_arg | apply fr_environment]. Qed.
  Lemma fr_newline : fr m newline.
  Proof. unfold newline. fs. Qed.

  (** Defining is not the same whatever is defined, but leaves a definition. *)
  Lemma fr_new_command : forall b, fr m (new_command b).
  Proof.
    intros b. unfold new_command. fstep; [fstep|]. fstep; [fstep|]. cbv zeta.
    set (k := fun ex : bool => (match b with
      | Some b0 => if Bool.eqb b0 ex then ret tt else fail (if b0 then EMacroNotDefined else EMacroAlreadyDefined)
      | None => ret tt end ;;
      do o <- optc ; do t <- ok_or o EArgument ; do n <- ok_or (parse_u8 (stxt t)) ENumber ; do default <- optc ;
      if (9 <? n) && ((if is_some default then 1 else 0) <=? n) then fail ETooManyParams
      else do rep <- bracec ; if ex && negb (is_some b) then ret tt
        else do d <- lift (make_command n (option_map stxt default) (stxt rep)) ;
          modify (fun st => set_macros (ctx_insert (i_macros st) (fst a0) d) st))).
    assert (Hk : forall ex, fr m (k ex)) by (intros ex; subst k; cbv beta; fs).
    change (fr m (do st <- get; k (ctx_contains (i_macros st) (fst a0)))). split; intros st H.
    - right. change (spoiled (k (ctx_contains (i_macros st) (fst a0)) st)). rewrite H. change (ctx_contains [] (fst a0)) with false.
      subst k. cbv beta. change (false && negb (is_some b)) with false. cbv iota.
      match goal with |- spoiled (?f st) => enough (Hs : sp f) by apply Hs end. do 5 (apply sp_skip; intros ?).
      destruct (_ && _); [intros st'; right; exact I|]. do 2 (apply sp_skip; intros ?).
      intros st'. left. cbn. discriminate.
    - apply (proj2 (Hk (ctx_contains (i_macros st) (fst a0)))). exact H.
  Qed.

  Lemma fr_hprim_body : forall cs, fr m (hprim_body rec cs).
  Proof.
    intros cs. unfold hprim_body.
    destruct (lookup_prim cs); repeat first [apply fr_handle_arg | apply fr_handle_char | apply Hrec
      | apply fr_atom_group | apply fr_font_group | apply fr_group_arg | apply fr_color_of | apply fr_text_argument | apply fr_sized_delim
      | apply fr_left_delim | apply fr_large_op | apply fr_accent | apply fr_underscript | apply fr_fraction_like | apply fr_genfrac_delim
      | apply fr_begin_env | apply fr_newline | apply fr_new_command | fstep].
  Qed.
End FramePrim.

Lemma fr_hprim : forall m f cs, fr m (hprim f cs).
Proof.
  intros m. induction f as [|f IH]; intros cs.
  - split; intros st H; [right; right; exact I|exact H].
  - cbn [hprim]. apply fr_hprim_body. exact IH.
Qed.

Lemma fr_handle_prim : forall m cs, fr m (handle_prim cs).
Proof.
  intros m cs. split; intros st H; unfold handle_prim; cbn [wm set_macros i_content].
  - apply (proj1 (fr_hprim m _ cs)). exact H.
  - apply (proj2 (fr_hprim m _ cs)). exact H.
Qed.

Lemma fr_scripts : forall m, fr m parse_scripts.
Proof.
  intros m. unfold parse_scripts. cbv zeta.
  repeat first [apply fr_handle_arg; intros; apply fr_handle_prim | fstep].
Qed.

Lemma fr_atom : forall m f, fr m f -> fr m (parse_atom f).
Proof. intros m f H. unfold parse_atom. apply fr_bind; [exact H|]. intros _. apply fr_scripts. Qed.

(** ** Steps *)

Definition with_macros (m : macro_ctx) (p : parser) : parser :=
  mkParser (p_stack p) (p_buf p) m (p_spans p) (p_next p) (p_alloc p).

(** The first thing in a text is not the name of a macro. *)
Definition no_call (m : macro_ctx) (s : str) : Prop := forall cs r, lex_token s = (Ok (TCs cs), r) -> ctx_get m cs = None.

(** What [next_step] makes of the result of [parse]. *)
Lemma frame_after : forall m f c buf al sp nx ac s p', fr m f ->
  after s (run_inner f (mkPst (mkIst c buf false SPRight false false al []) sp nx ac)) = (OCont, p') -> p_macros p' = [] ->
  after s (run_inner f (mkPst (mkIst c buf false SPRight false false al m) sp nx ac)) = (OCont, with_macros m p').
Proof.
  intros m f c buf al sp nx ac s p' Hf H H3. unfold run_inner in *. cbn [q_ist] in *.
  destruct (proj1 Hf (mkIst c buf false SPRight false false al []) eq_refl) as [[E1 E2]|Hs].
  - change (mkIst c buf false SPRight false false al m) with (wm m (mkIst c buf false SPRight false false al [])). rewrite E2.
    destruct (f (mkIst c buf false SPRight false false al [])) as [r st]. cbn [fst snd] in *. unfold set_ist in *.
    cbn [q_spans q_next q_alloc] in *. unfold after in *. cbn [q_ist q_spans q_next q_alloc wm set_macros i_content i_align i_buf i_macros] in *.
    destruct r as [[[[e a] b]|]|e|pp|]; try discriminate.
    + destruct (order_scripts a b (i_buf st)); try discriminate. injection H as <-. reflexivity.
    + injection H as <-. reflexivity.
    + destruct (new_error _ _ _) as [[?|?|?|] ?]; discriminate.
  - destruct (f (mkIst c buf false SPRight false false al [])) as [r st]. unfold spoiled in Hs. cbn [fst snd] in *.
    unfold after in H. cbn [q_ist set_ist] in H. destruct r as [[[[e a] b]|]|e|pp|]; try discriminate.
    + destruct (order_scripts a b (i_buf st)); try discriminate. injection H as <-. cbn in H3. destruct Hs; contradiction.
    + injection H as <-. cbn in H3. destruct Hs; contradiction.
    + destruct (new_error _ _ _) as [[?|?|?|] ?]; discriminate.
Qed.

Lemma step_frame : forall m p p', p_macros p = [] -> next_step p = (OCont, p') -> p_macros p' = [] ->
  (forall c al s, p_stack p = ISub c al :: s -> no_call m (stxt c)) ->
  next_step (with_macros m p) = (OCont, with_macros m p').
Proof.
  intros m [stk buf mm sp nx ac] p' H1 H2 H3 H4. cbn in H1. subst mm. rewrite next_step_eq in H2 |- *. change (with_macros m (mkParser stk buf [] sp nx ac)) with (mkParser stk buf m sp nx ac). cbn [p_stack p_buf p_macros p_spans p_next p_alloc] in *.
  destruct stk as [|[ev|c al] s]; try discriminate.
  cbn [p_buf p_macros p_spans p_next p_alloc] in *. specialize (H4 c al s eq_refl).
  destruct (is_nil (trim_start (stxt c))); [injection H2 as <-; reflexivity|].
  rewrite parse_fuel_S in H2 |- *. rewrite parse_eq in H2. rewrite parse_eq.
  unfold of_parser in *. cbn [q_ist i_content i_macros p_buf p_macros p_spans p_next p_alloc] in *.
  unfold no_call in H4.
  destruct (lex_token (stxt c)) as [[[cs|ctx]|e|pp|] r].
  - cbn [p_macros]. rewrite (H4 cs r eq_refl). change (ctx_get [] cs) with (@None mdef) in H2. cbv iota in H2 |- *.
    apply (frame_after m (parse_atom (handle_prim cs)) (suffix_slice c r) buf al sp nx ac s p'); auto.
    apply fr_atom, fr_handle_prim.
  - apply (frame_after m (parse_atom (handle_char (suffix_slice c ctx))) (suffix_slice c r) buf al sp nx ac s p'); auto.
    apply fr_atom, fr_handle_char.
  - destruct e; try (cbn [after] in H2; destruct (new_error _ _ _) as [[?|?|?|] ?]; discriminate).
    cbn in H2 |- *. injection H2 as <-. reflexivity.
  - discriminate.
  - discriminate.
Qed.
