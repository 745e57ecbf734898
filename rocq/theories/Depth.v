(** * Depth: the groups opened by the parser, also when it fails. *)

From Coq Require Import List NArith ZArith Bool Lia Arith.
From Verif Require Import Base Float32 Event Tables Prim PrimTable Lex Macros Primitives Spans Parser
  SpecLex LexFacts LexMore PrimFacts Keep Measure Order Terminate KeepRun Api SpecEvent Shape ShapeRun.
Import ListNotations.
Open Scope N_scope.
Open Scope sm_scope.

Strategy 1000 [parse parse_fuel].

(** Starting deeper, one ends deeper. *)
Lemma idepth_more : forall l d x k, idepth d l = Some x -> idepth (k + d) l = Some (k + x)%nat.
Proof.
  induction l as [|i l IH]; intros d x k H; cbn [idepth] in *; [congruence|].
  destruct i as [e|c al]; [|apply IH; exact H]. destruct e; try (apply IH; exact H).
  - rewrite plus_n_Sm. apply IH. exact H.
  - destruct d as [|d]; [discriminate|]. rewrite <- plus_n_Sm. apply IH. exact H.
Qed.

Lemma idepth_at : forall l x k, idepth 0 l = Some x -> idepth k l = Some (k + x)%nat.
Proof. intros l x k H. rewrite <- (Nat.add_0_r k) at 1. apply idepth_more. exact H. Qed.

Lemma idepth_join : forall l m a b, idepth 0 l = Some a -> idepth 0 m = Some b -> idepth 0 (l ++ m) = Some (a + b)%nat.
Proof. intros l m a b Hl Hm. rewrite idepth_app, Hl. apply idepth_at. exact Hm. Qed.

(** The commands that open a group and may fail before they close it. *)
Definition fragile (p : prim) : bool :=
  match p with
  | PPmod | PAtom _ | PMathop | PFontGroup _ | PTextcolor | PColorbox | PFcolorbox | PGenfrac => true
  | PFraction o c _ s => is_some o || is_some c || is_some s
  | _ => false
  end.

Definition wrapped (name : str) : bool :=
  match assoc_str name matrix_table with Some (_, _, _, Some _) => true | _ => false end.

Section Depth.
  Variable G : slice -> Prop.
  Hypothesis HG : forall a b, sl_sub a b -> G b -> G a.
  (** How many groups a failure may leave open. *)
  Variable E : nat -> Prop.
  Hypothesis E0 : E O.
  Notation free := (forall c, E c).
  Hypothesis Hfragile : forall cs, cs_in G cs -> fragile (lookup_prim cs) = true -> free.
  Hypothesis Hwrapped : forall sl, G sl -> wrapped (stxt sl) = true -> free.

  Definition dp {A} (a : nat) (m : P A) (b : nat) (V : A -> Prop) : Prop :=
    forall st base l0, G (i_content st) -> i_buf st = (base ++ l0)%list -> idepth 0 l0 = Some a ->
    match m st with
    | (Ok v, st') => G (i_content st') /\ V v /\ exists l', i_buf st' = (base ++ l')%list /\ idepth 0 l' = Some b
    | (Err _, st') => exists l' c, i_buf st' = (base ++ l')%list /\ E c /\ idepth 0 l' = Some c
    | _ => True
    end.

  Lemma d_bind : forall A B a b c (m : P A) (f : A -> P B) V W, dp a m b V -> (forall v, V v -> dp b (f v) c W) -> dp a (bind m f) c W.
  Proof.
    intros A B a b c m f V W Hm Hf st base l0 H1 H2 H3. specialize (Hm st base l0 H1 H2 H3). unfold bind.
    destruct (m st) as [[v|e|p|] st']; auto. destruct Hm as (H4 & H5 & l' & H6 & H7). exact (Hf v H5 st' base l' H4 H6 H7).
  Qed.

  Lemma d_weaken : forall A a b (m : P A) (V W : A -> Prop), dp a m b V -> (forall v, V v -> W v) -> dp a m b W.
  Proof.
    intros A a b m V W H Hw st base l0 H1 H2 H3. specialize (H st base l0 H1 H2 H3). destruct (m st) as [[v|e|p|] st']; auto.
    destruct H as (H4 & H5 & H6). auto.
  Qed.

  Lemma d_any : forall A a b (m : P A) V, dp a m b V -> dp a m b anything.
  Proof. intros. eapply d_weaken; [eassumption|]. intros; exact I. Qed.

  (** The same below what is there already. *)
  Lemma d_frame : forall A a (m : P A) V, dp 0 m 0 V -> a = O \/ free -> dp a m a V.
  Proof.
    intros A a m V H Ha st base l0 H1 H2 H3. specialize (H st (base ++ l0)%list []). rewrite app_nil_r in H. specialize (H H1 H2 eq_refl).
    destruct (m st) as [[v|e|p|] st']; auto.
    - destruct H as (H4 & H5 & l' & H6 & H7). split; [exact H4|]. split; [exact H5|]. exists (l0 ++ l')%list. rewrite app_assoc. split; [exact H6|].
      rewrite (idepth_join _ _ _ _ H3 H7). f_equal. lia.
    - destruct H as (l' & c & H6 & H7 & H8). exists (l0 ++ l')%list, (a + c)%nat. rewrite app_assoc. split; [exact H6|].
      split; [|apply idepth_join; assumption]. destruct Ha as [->|Ha]; [exact H7|apply Ha].
  Qed.

  Lemma d_still : forall A a (m : P A) V,
    (forall st, G (i_content st) -> let (r, st') := m st in i_buf st' = i_buf st /\
      match r with Ok v => G (i_content st') /\ V v | Err _ => E a | _ => True end) -> dp a m a V.
  Proof.
    intros A a m V H st base l0 H1 H2 H3. specialize (H st H1). destruct (m st) as [[v|e|p|] st']; auto.
    - destruct H as (Hb & H4 & H5). split; [exact H4|]. split; [exact H5|]. exists l0. rewrite Hb. auto.
    - destruct H as (Hb & H4). exists l0, a. rewrite Hb. auto.
  Qed.

  Lemma d_ret : forall A a (v : A) (V : A -> Prop), V v -> dp a (ret v) a V.
  Proof. intros. apply d_still. intros st Hs. cbn. auto. Qed.
  Lemma d_fail : forall A a b e (V : A -> Prop), E a -> dp a (fail e) b V.
  Proof. intros A a b e V He st base l0 H1 H2 H3. cbn. exists l0, a. auto. Qed.
  Lemma d_panic : forall A a b e (V : A -> Prop), dp a (panic_with e) b V.
  Proof. intros A a b e V st base l0 H1 H2 H3. exact I. Qed.
  Lemma d_get : forall a, dp a get a (fun st => G (i_content st)).
  Proof. intros. apply d_still. intros st Hs. cbn. auto. Qed.
  Lemma d_lift : forall A a (r : res A), E a -> dp a (lift r) a (fun v => r = Ok v).
  Proof. intros A a r He. apply d_still. intros st Hs. unfold lift. destruct r; cbn; auto. Qed.
  Lemma d_ok_or : forall A a (o : option A) e, E a -> dp a (ok_or o e) a anything.
  Proof. intros A a [v|] e He; [apply d_ret; exact I|apply d_fail; exact He]. Qed.
  Lemma d_local : forall A a (l : lexer A) t, E a -> dp a (on_local l t) a anything.
  Proof. intros A a l t He. apply d_still. intros st Hs. unfold on_local. destruct (l t) as [[| | |] ?]; cbn; repeat split; auto. Qed.
  Lemma d_modify : forall a f, (forall st, G (i_content st) -> i_buf (f st) = i_buf st /\ G (i_content (f st))) -> dp a (modify f) a anything.
  Proof. intros a f H. apply d_still. intros st Hs. cbn. destruct (H st Hs). repeat split; auto. Qed.
  Lemma d_push : forall a b l, idepth a l = Some b -> dp a (push l) b anything.
  Proof.
    intros a b l Hl st base l0 H1 H2 H3. cbn. split; [exact H1|]. split; [exact I|]. exists (l0 ++ l)%list.
    rewrite H2, <- app_assoc. split; [reflexivity|]. rewrite idepth_app, H3. exact Hl.
  Qed.
  Lemma d_push_ev : forall a b e, idepth a [IEv e] = Some b -> dp a (push_ev e) b anything.
  Proof. intros a b e H. apply d_push. exact H. Qed.
  Lemma d_argc : forall a, E a -> dp a argc a (sarg_ok G).
  Proof.
    intros a He. apply d_still. intros st Hs. destruct (argc_run st) as (r & sl & Eq & H1 & H2). rewrite Eq.
    split; [reflexivity|]. apply (sarg_spec_ok G HG) in H2; [|exact Hs].
    destruct r; auto. split; [|exact H2]. eapply HG; eassumption.
  Qed.
  Lemma d_groupc : forall a k, E a -> dp a (groupc k) a G.
  Proof.
    intros a k He. apply d_still. intros st Hs. destruct (groupc_run k st) as (r & sl & Eq & H1 & H2). rewrite Eq.
    split; [reflexivity|]. destruct r; auto. split; eapply HG; try eassumption. apply H2.
  Qed.
  Lemma d_bracec : forall a, E a -> dp a bracec a G.
  Proof.
    intros a He. apply d_still. intros st Hs. destruct (bracec_run st) as (r & sl & Eq & H1 & H2). rewrite Eq.
    split; [reflexivity|]. destruct r; auto. split; eapply HG; try eassumption. apply H2.
  Qed.
  Lemma d_optc : forall a, E a -> dp a optc a (opt_ok G).
  Proof.
    intros a He. apply d_still. intros st Hs. destruct (optc_run st) as (r & sl & Eq & H1 & H2). rewrite Eq.
    split; [reflexivity|]. destruct r as [[g|]|e|p|]; auto; cbn in *; split; auto; eapply HG; try eassumption. apply H2.
  Qed.
  Lemma d_lexc : forall A a (l : lexer A), leaves_suffix l -> E a -> dp a (lexc l) a anything.
  Proof.
    intros A a l Hl He. apply d_still. intros st Hs. destruct (lexc_run A l Hl st) as (sl & Eq & H1 & _). rewrite Eq.
    split; [reflexivity|]. destruct (fst _); auto. split; [|exact I]. eapply HG; eassumption.
  Qed.

  Variable rec : str -> P unit.
  Hypothesis Hrec : forall cs, cs_in G cs -> dp 0 (rec cs) 0 anything.

  Lemma d_char : forall ctx, G ctx -> dp 0 (handle_char ctx) 0 anything.
  Proof.
    intros ctx Hc. unfold handle_char. eapply d_bind; [apply d_get|]. intros st Hst. cbv zeta.
    destruct (_ =? 92); [apply d_panic|]. destruct (_ =? 37); [apply d_panic|].
    destruct ((_ =? 95) || _).
    { destruct (i_handling st); [apply d_fail; exact E0|].
      eapply d_bind with (b := 1%nat); [apply d_push_ev; reflexivity|]. intros _ _.
      eapply d_bind; [apply d_modify; intros; split; [reflexivity|exact Hc]|]. intros _ _. apply d_push_ev. reflexivity. }
    destruct (_ =? 36); [apply d_fail; exact E0|]. destruct (_ =? 35); [apply d_fail; exact E0|].
    destruct (_ =? 38).
    { destruct (i_align st) as [[n m]|]; [|apply d_fail; exact E0]. destruct (_ && _); [|apply d_fail; exact E0].
      eapply d_bind; [apply d_modify; intros; split; [reflexivity|assumption]|]. intros _ _. apply d_push_ev. reflexivity. }
    destruct (_ =? 123).
    { eapply d_bind; [apply d_groupc; exact E0|]. intros g Hg. apply d_push. reflexivity. }
    destruct (_ =? 125); [apply d_fail; exact E0|].
    destruct (is_digit _).
    { eapply d_bind; [apply d_modify; intros; split; [reflexivity|]|].
      - cbn. eapply HG; [apply sl_sub_suffix|exact Hc]. exists (firstn (length (numeral (i_handling st) (stxt ctx))) (stxt ctx)).
        rewrite firstn_skipn. reflexivity.
      - intros _ _. apply d_push_ev. reflexivity. }
    apply d_push_ev. unfold char_event.
    repeat match goal with |- idepth _ [IEv (if ?b then _ else _)] = _ => destruct b end; try reflexivity.
    destruct (char_delimiter_map _) as [[d []]|]; reflexivity.
  Qed.

  Lemma d_arg : forall x, sarg_ok G x -> dp 0 (handle_arg rec x) 0 anything.
  Proof.
    intros x Ha. destruct x; cbn in *.
    - apply d_push. reflexivity.
    - eapply d_bind; [apply d_modify; intros; split; [reflexivity|assumption]|]. intros _ _. apply Hrec. exact Ha.
    - eapply d_bind; [apply d_modify; intros; split; [reflexivity|assumption]|]. intros _ _. apply d_char. apply Ha.
  Qed.

  Lemma d_arg_at : forall a x, sarg_ok G x -> a = O \/ free -> dp a (handle_arg rec x) a anything.
  Proof. intros a x Hx Ha. apply d_frame; [apply d_arg; exact Hx|exact Ha]. Qed.

  (** An argument, then the base, then the argument again. *)
  Lemma d_swap : forall A (l : P A) (f : A -> P unit) , dp 0 l 0 (fun v => dp 0 (f v) 0 anything) ->
    dp 0 (do n <- buf_len ; do x <- l ; f x ;; do evs <- split_off n ; do base <- argc ; handle_arg rec base ;; push evs) 0 anything.
  Proof.
    intros A l f Hl st base l0 H1 H2 H3. unfold bind at 1, buf_len.
    specialize (Hl st (base ++ l0)%list []). rewrite app_nil_r in Hl. specialize (Hl H1 H2 eq_refl).
    assert (Hadd : forall l' c, E c -> idepth 0 l' = Some c -> exists l2 c2, ((base ++ l0) ++ l')%list = (base ++ l2)%list /\ E c2 /\ idepth 0 l2 = Some c2).
    { intros l' c Hc Hd. exists (l0 ++ l')%list, c. rewrite app_assoc. split; [reflexivity|]. split; [exact Hc|]. apply (idepth_join _ _ _ _ H3 Hd). }
    unfold bind at 1. destruct (l st) as [[x|e|p|] st1]; auto; cycle 1.
    { destruct Hl as (l' & c & Hb & He & Hd). rewrite Hb. apply (Hadd _ _ He Hd). }
    destruct Hl as (G1 & Hf & l1 & B1 & D1). specialize (Hf st1 (base ++ l0)%list l1 G1 B1 D1).
    unfold bind at 1. destruct (f x st1) as [[[]|e|p|] st2]; auto; cycle 1.
    { destruct Hf as (l' & c & Hb & He & Hd). rewrite Hb. apply (Hadd _ _ He Hd). }
    destruct Hf as (G2 & _ & l2 & B2 & D2). unfold bind at 1, split_off. rewrite B2.
    assert (K1 : skipn (length (i_buf st)) ((base ++ l0) ++ l2) = l2).
    { rewrite H2, skipn_app, skipn_all, Nat.sub_diag. reflexivity. }
    assert (K2 : firstn (length (i_buf st)) ((base ++ l0) ++ l2) = (base ++ l0)%list).
    { rewrite H2, firstn_app, firstn_all, Nat.sub_diag, app_nil_r. reflexivity. }
    rewrite K1, K2.
    set (st3 := set_buf (base ++ l0)%list st2).
    pose proof (d_argc O E0 st3 (base ++ l0)%list [] G2) as Ha. rewrite app_nil_r in Ha. specialize (Ha eq_refl eq_refl).
    unfold bind at 1. destruct (argc st3) as [[b|e|p|] st4]; auto; cycle 1.
    { destruct Ha as (l' & c & Hb & He & Hd). rewrite Hb. apply (Hadd _ _ He Hd). }
    destruct Ha as (G4 & Hb & l4 & B4 & D4). pose proof (d_arg b Hb st4 (base ++ l0)%list l4 G4 B4 D4) as Hh.
    unfold bind at 1. destruct (handle_arg rec b st4) as [[[]|e|p|] st5]; auto; cycle 1.
    { destruct Hh as (l' & c & Hb' & He & Hd). rewrite Hb'. apply (Hadd _ _ He Hd). }
    destruct Hh as (G5 & _ & l5 & B5 & D5). cbn. split; [exact G5|]. split; [exact I|].
    exists (l0 ++ l5 ++ l2)%list. rewrite B5, <- !app_assoc. split; [reflexivity|].
    rewrite idepth_app, H3. rewrite idepth_app, D5. exact D2.
  Qed.

  Ltac ee := first [exact E0 | solve [auto]].
  Ltac dstep := first
    [ eapply d_bind; [|intros ? ?]
    | apply d_ret; exact I | apply d_fail; ee | apply d_panic
    | eapply d_any; apply d_get | eapply d_any; apply d_lift; ee | apply d_ok_or; ee | apply d_local; ee
    | apply d_argc; ee | apply d_groupc; ee | apply d_bracec; ee | apply d_optc; ee
    | eapply d_any; apply d_argc; ee | eapply d_any; apply d_groupc; ee | eapply d_any; apply d_bracec; ee | eapply d_any; apply d_optc; ee
    | apply d_lexc; [solve [auto with lexsuf]|ee]
    | apply d_push; reflexivity | apply d_push_ev; reflexivity
    | apply d_modify; intros; split; [reflexivity|assumption]
    | apply d_arg_at; [assumption|solve [auto]] ].
  Ltac dgo := repeat first [dstep | match goal with
    | |- dp _ (match ?x with _ => _ end) _ _ => destruct x
    | |- dp _ (let _ := _ in _) _ _ => cbv zeta
    end].

  Lemma d_group_arg : forall a e, E a -> dp a (group_arg e) a (fun t => exists sl, G sl /\ stxt sl = t).
  Proof.
    intros a e He. unfold group_arg. eapply d_bind; [apply d_argc; exact He|]. intros [g|cs|ctx] Hx; try (apply d_fail; exact He).
    apply d_ret. exists g. auto.
  Qed.

  Lemma d_color_of : forall a s, E a -> dp a (color_of s) a anything.
  Proof. intros a s He. unfold color_of. eapply d_bind; [eapply d_any; apply d_lift; exact He|]. intros. apply d_ok_or. exact He. Qed.

  Lemma d_left_delim : dp 0 left_delim 0 anything.
  Proof.
    unfold left_delim. eapply d_bind; [apply d_get|]. intros st Hst.
    destruct (strip_char 46 (stxt (i_content st))) as [r|] eqn:Eq; [|dgo].
    apply strip_char_some in Eq. eapply d_bind; [apply d_modify|intros; dgo].
    intros s' Hs'. split; [reflexivity|]. cbn. eapply HG; [apply sl_sub_suffix|exact Hst]. rewrite Eq. exists [46]. reflexivity.
  Qed.

  Lemma d_text_argument : forall a f, E a -> dp a (text_argument f) a anything.
  Proof.
    intros a f He. unfold text_argument. eapply d_bind; [apply d_argc; exact He|]. intros x Hx.
    assert (Hp : forall t, dp a match f with
      | Some _ => push [IEv (EvBegin GNormal); IEv (EvState (SCFont f)); IEv (EvContent (CText t)); IEv EvEnd]
      | None => push_ev (EvContent (CText t)) end a anything) by (intros t; destruct f; apply d_push; reflexivity).
    destruct x as [g|cs|ctx]; [apply Hp|apply d_fail; exact He|apply Hp].
  Qed.

  Lemma d_fraction_like : forall o c b s, is_some o || is_some c || is_some s = false \/ free ->
    dp 0 (fraction_like rec o c b s) 0 anything.
  Proof.
    intros o c b s H.
    assert (Hbody : forall a, a = O \/ free -> dp a (push_ev (EvVisual (VFraction b)) ;;
      do num <- argc ; handle_arg rec num ;; do den <- argc ; handle_arg rec den) a anything).
    { intros a Ha. apply d_frame; [|exact Ha]. dgo. }
    unfold fraction_like. cbv zeta.
    destruct (is_some o || is_some c) eqn:Eo.
    - destruct H as [H|H]; [discriminate|]. cbn [orb].
      eapply d_bind with (b := 1%nat); [dgo|]. intros _ _.
      eapply d_bind with (b := 1%nat) (V := anything); [dgo|]. intros _ _.
      eapply d_bind; [dgo|]. intros _ _. dgo.
    - cbn [orb]. eapply d_bind; [dgo|]. intros _ _. destruct s as [s|]; cbn [is_some].
      + destruct H as [H|H]; [discriminate|].
        eapply d_bind with (b := 1%nat) (V := anything).
        { eapply d_bind with (b := 1%nat); [apply d_push_ev; reflexivity|]. intros _ _. apply d_push_ev. reflexivity. }
        intros _ _. eapply d_bind; [dgo|]. intros _ _. dgo.
      + eapply d_bind; [dgo|]. intros _ _. eapply d_bind; [dgo|]. intros _ _. dgo.
  Qed.

  Lemma d_atom_group : forall k, free -> dp 0 (atom_group rec k) 0 anything.
  Proof.
    intros k Hf. unfold atom_group. eapply d_bind; [apply d_argc; exact E0|]. intros x Hx.
    destruct (single_char x); [apply d_push_ev; destruct k; reflexivity|].
    assert (Hg : dp 0 (push_ev (EvBegin GNormal) ;; handle_arg rec x ;; push_ev EvEnd) 0 anything).
    { eapply d_bind with (b := 1%nat); [apply d_push_ev; reflexivity|]. intros _ _.
      eapply d_bind; [apply d_arg_at; auto|]. intros _ _. apply d_push_ev. reflexivity. }
    destruct k; try exact Hg. destruct x; try exact Hg. apply d_push_ev. reflexivity.
  Qed.

  Lemma d_font_group : forall f, free -> dp 0 (font_group rec f) 0 anything.
  Proof.
    intros f Hf. unfold font_group. eapply d_bind; [apply d_argc; exact E0|]. intros x Hx.
    eapply d_bind with (b := 1%nat); [apply d_push; reflexivity|]. intros _ _.
    eapply d_bind with (b := 1%nat) (V := anything); [|intros _ _; apply d_push_ev; reflexivity].
    destruct x; cbn in Hx.
    - apply d_push. reflexivity.
    - apply d_frame; [apply Hrec; exact Hx|auto].
    - apply d_frame; [apply d_char; apply Hx|auto].
  Qed.

  Lemma d_insert : forall a (f : ist -> macro_ctx), dp a (modify (fun st => set_macros (f st) st)) a anything.
  Proof. intros a f. apply d_modify. intros st Hs. split; [reflexivity|exact Hs]. Qed.

  Lemma d_new_command : forall b, dp 0 (new_command b) 0 anything.
  Proof.
    intros b. unfold new_command. eapply d_bind; [apply d_bracec; exact E0|]. intros g _.
    eapply d_bind; [apply d_local; exact E0|]. intros csr _. cbv zeta. eapply d_bind; [apply d_get|]. intros st _.
    eapply d_bind with (b := O) (V := anything); [dgo|]. intros _ _.
    eapply d_bind; [apply d_optc; exact E0|]. intros o _. eapply d_bind; [apply d_ok_or; exact E0|]. intros t _.
    eapply d_bind; [apply d_ok_or; exact E0|]. intros n _. eapply d_bind; [apply d_optc; exact E0|]. intros d _.
    destruct (_ && _); [apply d_fail; exact E0|]. eapply d_bind; [apply d_bracec; exact E0|]. intros rep _.
    destruct (_ && _); [apply d_ret; exact I|]. eapply d_bind; [apply d_lift; exact E0|]. intros m _. apply d_insert.
  Qed.

  Definition e_fine (name : str) (e : env_desc) : Prop := is_some (e_wrap e) = true -> wrapped name = true.

  Lemma d_array : dp 0 array_environment 0 anything.
  Proof.
    unfold array_environment. eapply d_bind; [apply d_group_arg; exact E0|]. intros t _.
    eapply d_bind; [apply d_lift; exact E0|]. intros p _. dgo.
  Qed.

  Lemma d_pairs : dp 0 alignat_pairs 0 anything.
  Proof. unfold alignat_pairs. dgo. Qed.

  Lemma d_count : forall n, dp 0 (pair_count n) 0 anything.
  Proof. intros n. unfold pair_count. dgo. Qed.

  Lemma d_environment : forall name, dp 0 (environment name) 0 (e_fine name).
  Proof.
    intros name. unfold environment.
    repeat match goal with |- dp _ (if ?b then _ else _) _ _ => destruct b end;
      try (eapply d_bind; [apply d_array|]; intros g _; apply d_ret; intros Hw; discriminate Hw);
      try (eapply d_bind; [apply d_pairs|]; intros p _; eapply d_bind; [apply d_count|]; intros n _; apply d_ret; intros Hw; discriminate Hw).
    - eapply d_bind; [apply d_group_arg; exact E0|]. intros t _. eapply d_bind; [apply d_ok_or; exact E0|]. intros ? _.
      apply d_ret. intros Hw. discriminate Hw.
    - destruct (assoc_str name matrix_table) as [[[[ty starred] st] wrap]|] eqn:Em.
      + eapply d_bind with (b := O) (V := anything); [destruct starred; [unfold optional_alignment; dgo|apply d_ret; exact I]|].
        intros ? _. apply d_ret. unfold e_fine, wrapped. cbn [e_wrap]. rewrite Em. destruct wrap; [reflexivity|discriminate].
      + destruct (assoc_str name plain_table) as [[[[g n] k] st]|]; [|apply d_fail; exact E0].
        apply d_ret. intros Hw. discriminate Hw.
  Qed.

  Lemma d_begin_env : dp 0 begin_env 0 anything.
  Proof.
    unfold begin_env. eapply d_bind; [apply d_group_arg; exact E0|]. intros name (sl & Hsl & Hn).
    eapply d_bind; [apply d_environment|]. intros e He. unfold e_fine in He.
    set (k := if is_some (e_wrap e) then 1%nat else O).
    assert (Hk : E k).
    { unfold k. destruct (is_some (e_wrap e)) eqn:Ew; [|exact E0]. apply (Hwrapped sl Hsl). rewrite Hn. apply He. reflexivity. }
    eapply d_bind with (b := k) (V := anything).
    { unfold k. destruct (e_wrap e) as [[l r]|]; cbn [is_some]; dgo. }
    intros _ _. eapply d_bind; [apply d_lexc; [auto with lexsuf|exact Hk]|]. intros hl _.
    eapply d_bind; [apply d_groupc; exact Hk|]. intros g _.
    eapply d_bind with (b := S k); [apply d_push_ev; reflexivity|]. intros _ _.
    eapply d_bind with (b := S k) (V := anything); [destruct (e_style e); dgo|]. intros _ _.
    eapply d_bind with (b := S k) (V := anything); [destruct (is_nil hl); dgo|]. intros _ _.
    eapply d_bind with (b := k); [apply d_push; reflexivity|]. intros _ _.
    unfold k. destruct (is_some (e_wrap e)); dgo.
  Qed.

  Lemma d_newline : dp 0 newline 0 anything.
  Proof.
    unfold newline. eapply d_bind; [apply d_get|]. intros st _. destruct (i_align st) as [[n m]|]; [|apply d_fail; exact E0].
    destruct (i_handling st); [apply d_fail; exact E0|]. eapply d_bind; [dgo|]. intros _ _.
    eapply d_bind; [apply d_optc; exact E0|]. intros o _.
    eapply d_bind with (b := O) (V := anything); [dgo|]. intros sp _. dgo.
  Qed.

  Lemma d_genfrac_delim : dp 0 genfrac_delim 0 anything.
  Proof. unfold genfrac_delim. dgo. Qed.

  Lemma d_buildrel : dp 0 (do st <- get ;
      do oc <- lexc (content_with_suffix (lit "\over")) ;
      do st' <- get ;
      push_ev (EvScript STSup SPAboveBelow) ;;
      do n <- buf_len ;
      do over <- lift (fst (arg_slice (mid_slice (i_content st) oc 5 (stxt (i_content st'))))) ;
      handle_arg rec over ;;
      do evs <- split_off n ;
      do base <- argc ;
      handle_arg rec base ;;
      push evs) 0 anything.
  Proof.
    intros st base l0 H1 H2 H3. unfold bind at 1, get at 1. unfold bind at 1.
    destruct (lexc_run _ (content_with_suffix (lit "\over")) (content_with_suffix_suffix _ over_ne) st) as (sl & Eq & Hs & Hsl).
    rewrite Eq. destruct (content_with_suffix (lit "\over") (stxt (i_content st))) as [[oc|e|p|] r] eqn:El; cbn [fst snd] in *; auto; cycle 1.
    { exists l0, O. cbn. auto. }
    unfold bind at 1, get at 1. cbn [i_content set_content].
    assert (Hm : G (mid_slice (i_content st) oc 5 (stxt sl))).
    { assert (Hd := El). apply content_with_suffix_iff in Hd; [|exact over_ne]. apply delimited_text in Hd. subst sl. cbn [stxt suffix_slice].
      eapply HG; [|exact H1]. eapply (sl_sub_mid _ _ _ _ [] (lit "\over")); [exact Hd|reflexivity]. }
    assert (Hs' : G (i_content (set_content sl st))) by (cbn; eapply HG; eassumption).
    refine (d_bind _ _ _ _ _ _ _ anything anything _ _ (set_content sl st) base l0 Hs' H2 H3); [apply d_push_ev; reflexivity|]. intros _ _.
    apply (d_swap _ (lift (fst (arg_slice (mid_slice (i_content st) oc 5 (stxt sl))))) (handle_arg rec)).
    eapply d_weaken; [apply d_lift; exact E0|]. intros a Ha.
    pose proof (arg_slice_spec (mid_slice (i_content st) oc 5 (stxt sl))) as Hsp.
    destruct (arg_slice _) as [r2 sl2]. cbn in Ha. subst r2. destruct Hsp as [_ Hsp].
    apply (sarg_spec_ok G HG) in Hsp; [|exact Hm]. apply d_arg. exact Hsp.
  Qed.

  Lemma d_hprim_body : forall cs, cs_in G cs -> dp 0 (hprim_body rec cs) 0 anything.
  Proof.
    intros cs Hcs. pose proof (Hfragile cs Hcs) as Hf. unfold hprim_body. destruct (lookup_prim cs) eqn:EL; cbn [fragile] in Hf;
      try (specialize (Hf eq_refl));
      try solve [dgo | apply d_atom_group; assumption | apply d_font_group; assumption | apply d_begin_env | apply d_newline
                | apply d_new_command | apply d_buildrel | apply d_text_argument; exact E0].
    - apply d_push_ev. pose proof (lookup_leaf _ _ EL) as Hl. destruct e; try discriminate; reflexivity.
    - eapply d_bind with (b := O) (V := anything); [dgo|]. intros _ _. eapply d_bind with (b := O) (V := anything); [dgo|]. intros _ _.
      apply d_atom_group. exact Hf.
    - eapply d_bind; [apply d_left_delim|]. intros o _. eapply d_bind; [apply d_groupc; exact E0|]. intros g _.
      eapply d_bind; [apply d_left_delim|]. intros c _. apply d_push. reflexivity.
    - apply d_fraction_like. destruct (is_some o || is_some c || is_some s); [right; apply Hf; reflexivity|left; reflexivity].
    - eapply d_bind; [apply d_genfrac_delim|]. intros l _. eapply d_bind; [apply d_genfrac_delim|]. intros r _.
      eapply d_bind; [apply d_argc; exact E0|]. intros b _.
      eapply d_bind with (b := O) (V := anything); [dgo|]. intros bar _.
      eapply d_bind; [apply d_argc; exact E0|]. intros b' _.
      eapply d_bind with (b := O) (V := anything); [dgo|]. intros sty _. apply d_fraction_like. right. exact Hf.
    - eapply d_bind with (b := O) (V := anything); [dgo|]. intros _ _. apply (d_swap _ argc (handle_arg rec)).
      eapply d_weaken; [apply d_argc; exact E0|]. intros x Hx. apply d_arg. exact Hx.
    - intros st base l0 H1 H2 H3. unfold bind at 1, get at 1. unfold bind at 1.
      destruct (lexc_run _ futurelet_assignment futurelet_suffix st) as (sl & Eq & Hs & Hsl).
      rewrite Eq. destruct (futurelet_assignment (stxt (i_content st))) as [[[[nm t] b]|e|p|] r] eqn:El; cbn [fst snd] in *; auto; cycle 1.
      { exists l0, O. cbn. auto. }
      cbn. split; [|split; [exact I|]].
      + eapply HG; [apply sl_sub_suffix; eapply futurelet_before; exact El|exact H1].
      + exists l0. auto.
  Qed.
End Depth.

(** ** One call of [parse] *)

Section DepthRun.
  Variable G : slice -> Prop.
  Hypothesis HG : forall a b, sl_sub a b -> G b -> G a.
  Variable E : nat -> Prop.
  Hypothesis E0 : E O.
  Hypothesis HE : forall c, E c -> c = O \/ forall c, E c.
  Hypothesis Hfragile : forall cs, cs_in G cs -> fragile (lookup_prim cs) = true -> forall c, E c.
  Hypothesis Hwrapped : forall sl, G sl -> wrapped (stxt sl) = true -> forall c, E c.
  Variable J : macro_ctx -> Prop.
  Hypothesis HJ : def_closed G J.
  Hypothesis HX : forall m cs d r txt k n sl, J m -> ctx_get m cs = Some d -> G sl -> suffix r (stxt sl) -> expand_definition d r = Ok (txt, k) -> G (mkSlice n 0 txt).

  Lemma d_hprim : forall fuel cs, cs_in G cs -> dp G E 0 (hprim fuel cs) 0 anything.
  Proof.
    induction fuel as [|f IH]; intros cs Hcs; cbn [hprim]; [intros st base l0 _ _ _; exact I|].
    apply (d_hprim_body G HG E E0 Hfragile Hwrapped (hprim f) IH). exact Hcs.
  Qed.

  Lemma d_handle_prim : forall cs, cs_in G cs -> dp G E 0 (handle_prim cs) 0 anything.
  Proof. intros cs Hcs st. unfold handle_prim. apply d_hprim. exact Hcs. Qed.

  (** What is left after a failure. *)
  Definition failed (l : list instr) : Prop := exists c, E c /\ idepth 0 l = Some c.

  Definition wpd {A} (m : P A) (st : ist) (Q : A -> ist -> Prop) : Prop :=
    match m st with (Ok v, st') => Q v st' | (Err _, st') => failed (i_buf st') | _ => True end.

  Lemma wpd_bind : forall A B (m : P A) (f : A -> P B) st Q, wpd m st (fun v st' => wpd (f v) st' Q) -> wpd (bind m f) st Q.
  Proof. intros A B m f st Q H. unfold wpd, bind in *. destruct (m st) as [[v|e|p|] st']; auto. Qed.

  Lemma wpd_conseq : forall A (m : P A) st (Q R : A -> ist -> Prop), wpd m st Q -> (forall v st', Q v st' -> R v st') -> wpd m st R.
  Proof. intros A m st Q R H HQ. unfold wpd in *. destruct (m st) as [[v|e|p|] st']; auto. Qed.

  Lemma wpd_level : forall A (m : P A) V st a (Q : A -> ist -> Prop), dp G E 0 m 0 V -> G (i_content st) -> idepth 0 (i_buf st) = Some a -> E a ->
    (forall v st' l, G (i_content st') -> V v -> i_buf st' = (i_buf st ++ l)%list -> idepth 0 l = Some O -> Q v st') -> wpd m st Q.
  Proof.
    intros A m V st a Q H Hg Ha He HQ. specialize (H st (i_buf st) []). rewrite app_nil_r in H. specialize (H Hg eq_refl eq_refl). unfold wpd.
    destruct (m st) as [[v|e|p|] st']; auto.
    - destruct H as (H1 & H2 & l & H3 & H4). eapply HQ; eassumption.
    - destruct H as (l & c & H1 & H2 & H3). exists (a + c)%nat. rewrite H1. split; [|apply idepth_join; assumption].
      destruct (HE a He) as [->|Hf]; [exact H2|apply Hf].
  Qed.

  Lemma wpd_argc : forall st a (Q : sarg -> ist -> Prop), G (i_content st) -> idepth 0 (i_buf st) = Some a -> E a ->
    (forall v st', G (i_content st') -> sarg_ok G v -> i_buf st' = i_buf st -> Q v st') -> wpd argc st Q.
  Proof.
    intros st a Q Hg Ha He HQ. unfold wpd. destruct (argc_run st) as (r & sl & Eq & H1 & H2). rewrite Eq.
    apply (sarg_spec_ok G HG) in H2; [|exact Hg]. destruct r; auto.
    - apply HQ; auto. cbn. eapply HG; eassumption.
    - exists a. auto.
  Qed.

  Definition scripted (l0 : list instr) (o : option script) (l : list instr) : Prop :=
    match o with
    | None => l = l0
    | Some (e, sub, sup) => (exists t q, e = EvScript t q) /\ exists s1 s2, l = (l0 ++ s1 ++ s2)%list /\
        idepth 0 s1 = Some O /\ idepth 0 s2 = Some O /\
        ((sub = length l0 /\ sup = length (l0 ++ s1)) \/ (sup = length l0 /\ sub = length (l0 ++ s1)))
    end.

  Lemma wpd_scripts : forall st a, G (i_content st) -> idepth 0 (i_buf st) = Some a -> E a ->
    wpd parse_scripts st (fun o st' => scripted (i_buf st) o (i_buf st')).
  Proof.
    intros st a Hg Ha He. unfold parse_scripts. apply wpd_bind. unfold wpd at 1, get.
    destruct (i_skip st); [reflexivity|]. apply wpd_bind.
    assert (Hl : wpd (if i_allow st then do l <- lexc limit_modifiers ;
       match l with Some true => modify (set_pos SPAboveBelow) | Some false => modify (set_pos SPRight) | None => ret tt end
       else ret tt) st (fun _ st' => G (i_content st') /\ i_buf st' = i_buf st)).
    { destruct (i_allow st); [|split; [exact Hg|reflexivity]]. apply wpd_bind. unfold wpd at 1.
      destruct (lexc_run _ limit_modifiers limit_modifiers_suffix st) as (sl & Eq & H1 & H2). rewrite Eq.
      assert (Hs : G sl) by (eapply HG; eassumption).
      destruct (fst (limit_modifiers (stxt (i_content st)))) as [[[|]|]|e|p|]; auto; try (split; [exact Hs|reflexivity]).
      exists a. auto. }
    eapply wpd_conseq; [exact Hl|]. intros _ st1 [G1 B1]. clear Hl.
    apply wpd_bind. unfold wpd at 1, modify. set (st2 := set_content _ st1).
    assert (G2 : G (i_content st2)). { cbn. eapply HG; [apply sl_sub_suffix; apply suffix_trim|exact G1]. }
    assert (B2 : i_buf st2 = i_buf st) by exact B1. clearbody st2.
    apply wpd_bind. unfold wpd at 1, peek. set (c := match stxt (i_content st2) with c :: _ => Some c | [] => None end).
    destruct (is_char 94 c || is_char 95 c); [|exact B2]. cbv zeta. set (sf := is_char 95 c). clearbody sf. clear c.
    assert (Hdrop : forall s, G (i_content s) -> G (i_content (set_content (suffix_slice (i_content s) (tl (stxt (i_content s)))) s))).
    { intros s Hs. cbn. eapply HG; [apply sl_sub_suffix|exact Hs]. destruct (stxt (i_content s)); [apply suffix_nil|apply suffix_cons, suffix_refl]. }
    apply wpd_bind. unfold wpd at 1, drop1, modify. set (st3 := set_content _ st2).
    assert (G3 : G (i_content st3)) by (apply Hdrop; exact G2). assert (B3 : i_buf st3 = i_buf st) by exact B2. clearbody st3.
    apply wpd_bind. unfold wpd at 1, buf_len. rewrite B3.
    apply wpd_bind. apply wpd_argc with (a := a); [exact G3|rewrite B3; exact Ha|exact He|]. intros x st4 G4 X4 B4. rewrite B3 in B4.
    apply wpd_bind. eapply wpd_level with (a := a); [apply (d_arg G HG E E0 _ d_handle_prim); exact X4|exact G4|rewrite B4; exact Ha|exact He|].
    intros _ st5 s1 G5 _ B5 D1. rewrite B4 in B5. assert (A5 : idepth 0 (i_buf st5) = Some a).
    { rewrite B5, (idepth_join _ _ _ _ Ha D1). f_equal. lia. }
    apply wpd_bind. unfold wpd at 1, buf_len. rewrite B5.
    apply wpd_bind. unfold wpd at 1, peek. set (nc := match stxt (i_content st5) with c :: _ => Some c | [] => None end). clearbody nc.
    apply wpd_bind.
    assert (Hend : forall s2 st6, i_buf st6 = ((i_buf st ++ s1) ++ s2)%list -> idepth 0 s2 = Some O ->
      wpd (do end_ <- buf_len ;
      do st <- get ;
      if Nat.eqb (length (i_buf st5)) end_ then
        if sf then ret (Some (EvScript STSub (i_pos st), length (i_buf st3), length (i_buf st5)))
        else ret (Some (EvScript STSup (i_pos st), length (i_buf st5), length (i_buf st3)))
      else
        if sf then ret (Some (EvScript STSubSup (i_pos st), length (i_buf st3), length (i_buf st5)))
        else ret (Some (EvScript STSubSup (i_pos st), length (i_buf st5), length (i_buf st3)))) st6 (fun o st' => scripted (i_buf st) o (i_buf st'))).
    { intros s2 st6 B6 D2. apply wpd_bind. unfold wpd at 1, buf_len. apply wpd_bind. unfold wpd at 1, get. rewrite B5, B3.
      destruct (Nat.eqb _ _), sf; unfold wpd, ret, scripted; (split; [eauto|]; exists s1, s2; rewrite B6; split; [rewrite <- app_assoc; reflexivity|]; auto). }
    rewrite B5, B3 in Hend.
    destruct ((is_char 95 nc && negb sf) || (is_char 94 nc && sf)).
    - apply wpd_bind. unfold wpd at 1, drop1, modify. set (st6 := set_content _ st5).
      assert (G6 : G (i_content st6)) by (apply Hdrop; exact G5). assert (B6 : i_buf st6 = i_buf st5) by reflexivity. clearbody st6.
      apply wpd_bind. apply wpd_argc with (a := a); [exact G6|rewrite B6; exact A5|exact He|]. intros x2 st7 G7 X7 B7. rewrite B6 in B7.
      apply wpd_bind. eapply wpd_level with (a := a); [apply (d_arg G HG E E0 _ d_handle_prim); exact X7|exact G7|rewrite B7; exact A5|exact He|].
      intros _ st8 s2 G8 _ B8 D2. rewrite B7 in B8.
      assert (Hf : failed (i_buf st8)).
      { exists a. split; [exact He|]. rewrite B8, (idepth_join _ _ _ _ A5 D2). f_equal. lia. }
      apply wpd_bind. unfold wpd at 1, peek. destruct (is_char 95 _); [exact Hf|]. destruct (is_char 94 _); [exact Hf|].
      unfold wpd at 1, ret. apply (Hend s2); [rewrite B8, B5; reflexivity|exact D2].
    - destruct (is_char 95 nc || is_char 94 nc).
      + unfold wpd, fail. exists a. auto.
      + unfold wpd at 1, ret. apply (Hend []); [rewrite B5, app_nil_r; reflexivity|reflexivity].
  Qed.

  Lemma wpd_atom : forall m st a, dp G E 0 m 0 anything -> G (i_content st) -> idepth 0 (i_buf st) = Some a -> E a ->
    wpd (parse_atom m) st (fun o st' => exists l0, idepth 0 l0 = Some a /\ scripted l0 o (i_buf st')).
  Proof.
    intros m st a Hm Hg Ha He. unfold parse_atom. apply wpd_bind. eapply wpd_level; try eassumption.
    intros _ st' l G1 _ B1 D1. assert (A1 : idepth 0 (i_buf st') = Some a).
    { rewrite B1, (idepth_join _ _ _ _ Ha D1). f_equal. lia. }
    pose proof (wpd_scripts st' a G1 A1 He) as H. unfold wpd in *. destruct (parse_scripts st') as [[o|e|p|] st2]; auto.
    exists (i_buf st'). auto.
  Qed.

  Definition parsed_q (a : nat) (x : res (option script) * pst) : Prop :=
    match fst x with
    | Ok o => exists l0, idepth 0 l0 = Some a /\ scripted l0 o (i_buf (q_ist (snd x)))
    | Err _ => failed (i_buf (q_ist (snd x)))
    | _ => True
    end.

  Lemma depth_parse : forall f q a, Inv G J (q_ist q) -> idepth 0 (i_buf (q_ist q)) = Some a -> E a -> parsed_q a (parse f q).
  Proof.
    induction f as [|f IH]; intros q a Hi Ha He; [exact I|]. cbn [parse].
    pose proof (lex_token_suffix (stxt (i_content (q_ist q)))) as Hs.
    assert (Hfail : failed (i_buf (q_ist q))) by (exists a; auto).
    assert (Hset : forall r m, suffix r (stxt (i_content (q_ist q))) -> dp G E 0 m 0 anything ->
      parsed_q a (run_inner (parse_atom m) (set_ist (set_content (suffix_slice (i_content (q_ist q)) r) (q_ist q)) q))).
    { intros r m Hr Hm. set (st := set_content (suffix_slice (i_content (q_ist q)) r) (q_ist q)).
      assert (Hst : G (i_content st)) by (cbn; eapply HG; [apply sl_sub_suffix; exact Hr|apply Hi]).
      pose proof (wpd_atom m st a Hm Hst Ha He) as H. unfold wpd in H. unfold run_inner, parsed_q. cbn [q_ist set_ist].
      destruct (parse_atom m st) as [[o|e|p|] st']; auto. }
    destruct (lex_token (stxt (i_content (q_ist q)))) as [[[cs|ctx]|e|p|] r] eqn:El; cbn [snd] in Hs.
    - destruct (ctx_get (i_macros (q_ist q)) cs) as [d|] eqn:Em.
      + destruct (expand_definition d r) as [[txt k]|e|p|] eqn:Ee; try exact I; try exact Hfail.
        destruct (_ || _); [exact Hfail|]. destruct (add_span _ _ _ _) as [[[]|e|p|] sp]; try exact I; try exact Hfail.
        apply IH; [|exact Ha|exact He]. cbn [q_ist]. apply inv_content; [|exact Hi]. eapply HX; [apply Hi|exact Em|apply Hi|exact Hs|exact Ee].
      + apply Hset; [exact Hs|]. apply d_handle_prim.
        destruct (lex_token_cs _ _ _ El) as (b & w & _ & _ & Hcs & Eq). split; [exact Hcs|].
        exists (i_content (q_ist q)). split; [apply Hi|]. exists b, (w ++ r)%list. rewrite Eq. reflexivity.
    - apply Hset; [exact Hs|]. apply (d_char G HG E E0).
      destruct (lex_token_chr _ _ _ El) as (b & c & _ & -> & Eq & _).
      eapply HG; [apply sl_sub_suffix|apply Hi]. rewrite Eq. apply suffix_app.
    - destruct e; try exact Hfail. exists (i_buf (q_ist q)). split; [exact Ha|reflexivity].
    - exact I.
    - exact I.
  Qed.

  (** ** The iterator *)

  (** [d] groups are open in what was emitted. *)
  Definition standing (d : nat) (p : parser) : Prop :=
    PInv G J p /\ (exists a, E a /\ idepth 0 (p_buf p) = Some a) /\ exists x, idepth d (p_stack p) = Some x /\ E x.

  Lemma ordered : forall l0 a e sub sup buf l, idepth 0 l0 = Some a -> scripted l0 (Some (e, sub, sup)) buf ->
    order_scripts sub sup buf = Ok l -> idepth 0 (IEv e :: firstn (Nat.min sub sup) buf ++ l) = Some a.
  Proof.
    intros l0 a e sub sup buf l Ha ((t & q & ->) & s1 & s2 & -> & D1 & D2 & Hl) Ho. cbn [idepth].
    assert (Hmin : Nat.min sub sup = length l0) by (rewrite app_length in Hl; lia). rewrite Hmin.
    rewrite firstn_app, Nat.sub_diag, firstn_all, app_nil_r.
    assert (Hd : idepth 0 l = Some O).
    { apply order_perm in Ho as [->|(H1 & H2 & ->)].
      - rewrite Hmin, skipn_app, Nat.sub_diag, skipn_all. cbn [skipn app]. rewrite idepth_app, D1. exact D2.
      - destruct Hl as [[H3 H4]|[H3 H4]]; [rewrite app_length in H4; lia|]. subst sup sub.
        assert (K1 : skipn (length (l0 ++ s1)) (l0 ++ s1 ++ s2) = s2) by (rewrite app_assoc, skipn_app, Nat.sub_diag, skipn_all; reflexivity).
        assert (K2 : skipn (length l0) (l0 ++ s1 ++ s2) = (s1 ++ s2)%list) by (rewrite skipn_app, Nat.sub_diag, skipn_all; reflexivity).
        assert (K3 : firstn (length (l0 ++ s1) - length l0) (s1 ++ s2) = s1).
        { rewrite app_length. replace (length l0 + length s1 - length l0)%nat with (length s1) by lia.
          rewrite firstn_app, Nat.sub_diag, firstn_all, app_nil_r. reflexivity. }
        rewrite K1, K2, K3, idepth_app, D2. exact D1. }
    rewrite (idepth_join _ _ _ _ Ha Hd). f_equal. lia.
  Qed.

  Lemma standing_step : forall d p, standing d p ->
    match next_step p with
    | (OItem (ItEvent e), p') => exists d', (forall l, depth d (e :: l) = depth d' l) /\ standing d' p'
    | (OItem (ItError _), p') | (OCont, p') => standing d p'
    | (ODone, _) => E d
    | _ => True
    end.
  Proof.
    intros d p (Hp & (a & He & Ha) & x & Hx & Hex). pose proof (keep_step G HG J HJ HX p Hp) as Hk. revert Hk. unfold next_step.
    destruct (p_stack p) as [|[e|c al] s] eqn:Es.
    - intros _. cbn in Hx. injection Hx as <-. exact Hex.
    - intros [Hk _]. destruct e; cbn [idepth] in Hx; cbn [SpecEvent.depth];
        try (exists d; split; [reflexivity|]; split; [exact Hk|]; split; [exists a; auto|exists x; auto]; fail).
      + exists (S d). split; [reflexivity|]. split; [exact Hk|]. split; [exists a; auto|exists x; auto].
      + destruct d as [|d]; [discriminate|]. exists d. split; [reflexivity|]. split; [exact Hk|]. split; [exists a; auto|exists x; auto].
    - cbn [idepth] in Hx. destruct (is_nil _); [intros Hk; split; [exact Hk|]; split; [exists a; auto|exists x; auto]|].
      assert (Hi : Inv G J (q_ist (of_parser p c al))).
      { destruct Hp as (Hs & Hb & Hm). rewrite Es in Hs. inversion Hs as [|? ? Hc Hs']; subst. split; [exact Hc|split; assumption]. }
      pose proof (depth_parse parse_fuel (of_parser p c al) a Hi Ha He) as H. revert H.
      generalize (parse parse_fuel (of_parser p c al)). intros [r q] H. unfold parsed_q in H. cbn [fst snd] in H.
      assert (Hup : forall l top, idepth 0 l = Some a -> idepth d (l ++ ISub (fst top) (snd top) :: s) = Some (a + x)%nat).
      { intros l top Hl. rewrite idepth_app, (idepth_at _ _ d Hl), Nat.add_comm. cbn [idepth]. apply idepth_more. exact Hx. }
      assert (Hax : E (a + x)%nat). { destruct (HE a He) as [->|Hf]; [exact Hex|apply Hf]. }
      destruct r as [[[[e sub] sup]|]|e|y|].
      + destruct H as (l0 & D0 & H). destruct (order_scripts sub sup (i_buf (q_ist q))) as [l|e'|y|] eqn:Eo; try (intros _; exact I).
        * intros Hk. split; [exact Hk|]. split; [exists O; auto|]. exists (a + x)%nat. split; [|exact Hax].
          cbn [to_parser p_stack]. rewrite app_assoc, app_comm_cons.
          exact (Hup _ (i_content (q_ist q), i_align (q_ist q)) (ordered _ _ _ _ _ _ _ D0 H Eo)).
      + destruct H as (l0 & D0 & H). intros Hk. split; [exact Hk|]. split; [exists O; auto|]. exists (a + x)%nat. split; [|exact Hax].
        cbn [to_parser p_stack]. cbn in H. rewrite H. exact (Hup _ (i_content (q_ist q), i_align (q_ist q)) D0).
      + destruct (new_error e (i_content (q_ist q)) (q_spans q)) as [[pe|e'|y|] sp]; try (intros _; exact I).
        intros [Hk _]. split; [exact Hk|]. split; [exact H|]. exists x. split; [exact Hx|exact Hex].
      + intros _. exact I.
      + intros _. exact I.
  Qed.

  Lemma standing_run : forall n d p, standing d p ->
    let '(l, o, p') := run n p in exists d', depth d (events l) = Some d' /\ (o = ODone -> E d').
  Proof.
    induction n as [|n IH]; intros d p Hp; cbn [run]; [exists d; split; [reflexivity|discriminate]|].
    pose proof (standing_step d p Hp) as Hs. destruct (next_step p) as [[[e|pe]| | |x| ] p'].
    - destruct Hs as (d' & E1 & Hs). specialize (IH d' p' Hs). destruct (run n p') as [[l o] p'']. cbn [events]. rewrite E1. exact IH.
    - specialize (IH d p' Hs). destruct (run n p') as [[l o] p'']. cbn [events]. exact IH.
    - apply IH. exact Hs.
    - exists d. auto.
    - exists d. split; [reflexivity|discriminate].
    - exists d. split; [reflexivity|discriminate].
  Qed.
End DepthRun.
