(** * KeepRun: the invariants of Keep, for whole runs of the parser. *)

From Coq Require Import List NArith ZArith Bool Lia Arith.
From Verif Require Import Base Float32 Event Tables Prim PrimTable Lex Macros Primitives Spans Parser
  SpecLex LexFacts LexMore PrimFacts Keep Order.
Import ListNotations.
Open Scope N_scope.
Open Scope sm_scope.

Section KeepRun.
  Variable G : slice -> Prop.
  Hypothesis HG : forall a b, sl_sub a b -> G b -> G a.
  Variable J : macro_ctx -> Prop.
  Hypothesis HJ : def_closed G J.
  (** What an expansion gives is admissible text. *)
  Hypothesis HX : forall m cs d r txt k n sl, J m -> ctx_get m cs = Some d -> G sl -> suffix r (stxt sl) ->
    expand_definition d r = Ok (txt, k) -> G (mkSlice n 0 txt).

  Lemma k_handle_prim : forall cs, cs_in G cs -> keeps (Inv G J) (handle_prim cs) anything.
  Proof. intros cs Hcs st Hi. unfold handle_prim. apply (k_hprim G HG J HJ); assumption. Qed.

  Lemma k_drop1 : keeps (Inv G J) drop1 anything.
  Proof.
    apply k_modify. intros st Hi. apply (inv_suffix G HG J); [|exact Hi].
    destruct (stxt (i_content st)); [apply suffix_nil|apply suffix_cons, suffix_refl].
  Qed.

  Definition script_ok (o : option script) : Prop :=
    match o with Some (EvScript _ _, _, _) | None => True | _ => False end.

  Lemma k_parse_scripts : keeps (Inv G J) parse_scripts script_ok.
  Proof.
    assert (Ha : keeps (Inv G J) (do a <- argc ; handle_arg handle_prim a) anything).
    { eapply k_bind; [apply (k_argc G HG J)|]. intros a Haa. apply (k_handle_arg G HG J _ k_handle_prim). exact Haa. }
    unfold parse_scripts. eapply k_bind; [apply k_get|]. intros st0 _. destruct (i_skip st0); [apply k_ret; exact I|].
    eapply k_bind with (V := anything).
    { destruct (i_allow st0); [|apply k_ret; exact I].
      eapply k_bind; [apply (k_lexc G HG J); auto with lexsuf|]. intros [[]|] _;
        [apply k_modify; intros ? [? ?]; split; assumption| |apply k_ret; exact I].
      apply k_modify; intros ? [? ?]; split; assumption. }
    intros _ _. eapply k_bind; [apply k_modify; intros st Hi; apply (inv_suffix G HG J); [apply suffix_trim|exact Hi]|].
    intros _ _. eapply k_bind with (V := anything); [intros st Hi; cbn; split; [exact Hi|exact I]|]. intros c _.
    destruct (_ || _); [|apply k_ret; exact I]. cbv zeta.
    eapply k_bind; [apply k_drop1|]. intros _ _. eapply k_bind; [apply k_buf_len|]. intros first _.
    eapply k_bind; [apply (k_argc G HG J)|]. intros a Haa.
    eapply k_bind; [apply (k_handle_arg G HG J _ k_handle_prim); exact Haa|]. intros _ _.
    eapply k_bind; [apply k_buf_len|]. intros second _.
    eapply k_bind with (V := anything); [intros st Hi; cbn; split; [exact Hi|exact I]|]. intros nc _.
    eapply k_bind with (V := anything).
    { destruct (_ || _).
      - eapply k_bind; [apply k_drop1|]. intros _ _.
        eapply k_bind; [apply (k_argc G HG J)|]. intros a2 Ha2.
        eapply k_bind; [apply (k_handle_arg G HG J _ k_handle_prim); exact Ha2|]. intros _ _.
        eapply k_bind with (V := anything); [intros st Hi; cbn; split; [exact Hi|exact I]|]. intros nc2 _.
        destruct (is_char 95 nc2); [apply k_fail|]. destruct (is_char 94 nc2); [apply k_fail|apply k_ret; exact I].
      - destruct (_ || _); [apply k_fail|apply k_ret; exact I]. }
    intros _ _. eapply k_bind; [apply k_buf_len|]. intros e_ _. eapply k_bind; [apply k_get|]. intros st _.
    destruct (Nat.eqb _ _); destruct (is_char 95 c); apply k_ret; exact I.
  Qed.

  Definition keeps_q (q : pst) (x : res (option script) * pst) : Prop :=
    Inv G J (q_ist (snd x)) /\ match fst x with Ok o => script_ok o | _ => True end.

  Lemma keep_inner : forall (m : P (option script)) q, keeps (Inv G J) m script_ok -> Inv G J (q_ist q) ->
    keeps_q q (run_inner m q).
  Proof.
    intros m q Hm Hi. unfold run_inner, keeps_q. specialize (Hm _ Hi). destruct (m (q_ist q)). exact Hm.
  Qed.

  Lemma keep_parse : forall f q, Inv G J (q_ist q) -> keeps_q q (parse f q).
  Proof.
    induction f as [|f IH]; intros q Hi; [split; [exact Hi|exact I]|]. cbn [parse].
    pose proof (lex_token_suffix (stxt (i_content (q_ist q)))) as Hs.
    assert (Hset : forall r, suffix r (stxt (i_content (q_ist q))) ->
      Inv G J (set_content (suffix_slice (i_content (q_ist q)) r) (q_ist q))).
    { intros r Hr. apply (inv_suffix G HG J); assumption. }
    destruct (lex_token (stxt (i_content (q_ist q)))) as [[[cs|ctx]|e|p|] r] eqn:El; cbn [snd] in Hs.
    - destruct (ctx_get (i_macros (q_ist q)) cs) as [d|] eqn:Em.
      + destruct (expand_definition d r) as [[txt k]|e|p|] eqn:Ee; try (unfold keeps_q; cbn; auto).
        destruct (_ || _); [unfold keeps_q; cbn; auto|]. destruct (add_span _ _ _ _) as [[[]|e|p|] sp]; try (unfold keeps_q; cbn; auto).
        apply IH. cbn [q_ist]. apply inv_content; [|exact Hi]. eapply HX; [apply Hi|exact Em|apply Hi|exact Hs|exact Ee].
      + apply keep_inner; [|apply Hset; exact Hs].
        unfold parse_atom. eapply k_bind; [apply k_handle_prim|intros; apply k_parse_scripts].
        destruct (lex_token_cs _ _ _ El) as (b & w & _ & _ & Hcs & E). split; [exact Hcs|].
        exists (i_content (q_ist q)). split; [apply Hi|]. exists b, (w ++ r)%list. rewrite E. reflexivity.
    - apply keep_inner; [|apply Hset; exact Hs].
      unfold parse_atom. eapply k_bind; [apply (k_handle_char G HG J)|intros; apply k_parse_scripts].
      destruct (lex_token_chr _ _ _ El) as (b & c & _ & -> & E & _).
      eapply HG; [apply sl_sub_suffix|apply Hi]. rewrite E. apply suffix_app.
    - destruct e; unfold keeps_q; cbn; auto.
    - split; [exact Hi|exact I].
    - split; [exact Hi|exact I].
  Qed.

  (** ** The iterator *)

  Definition PInv (p : parser) : Prop :=
    Forall (instr_ok G) (p_stack p) /\ Forall (instr_ok G) (p_buf p) /\ J (p_macros p).

  Definition item_ok (i : item) : Prop := match i with ItEvent e => ev_ok e | ItError _ => True end.

  Lemma in_skipn : forall A n (l : list A) x, In x (skipn n l) -> In x l.
  Proof. intros A n l x H. rewrite <- (firstn_skipn n l). apply in_or_app. right. exact H. Qed.
  Lemma in_firstn : forall A n (l : list A) x, In x (firstn n l) -> In x l.
  Proof. intros A n l x H. rewrite <- (firstn_skipn n l). apply in_or_app. left. exact H. Qed.

  (** Whether or not a script is reordered, nothing new appears on the stack. *)
  Lemma order_in : forall sub sup buf l, order_scripts sub sup buf = Ok l -> forall x, In x l -> In x buf.
  Proof.
    intros sub sup buf l H x Hx. apply order_perm in H as [->|(_ & _ & ->)].
    - apply in_skipn in Hx. exact Hx.
    - apply in_app_or in Hx as [Hx|Hx]; [eapply in_skipn; exact Hx|].
      apply in_firstn in Hx. apply in_skipn in Hx. exact Hx.
  Qed.

  Lemma keep_step : forall p, PInv p ->
    match next_step p with
    | (OItem i, p') => PInv p' /\ item_ok i
    | (_, p') => PInv p'
    end.
  Proof.
    intros p (Hs & Hb & Hm). unfold next_step. destruct (p_stack p) as [|[e|c al] s] eqn:Es.
    - split; [rewrite Es; constructor|]. auto.
    - inversion Hs; subst. split; [|assumption]. split; [assumption|]. auto.
    - inversion Hs as [|? ? Hc Hs']; subst. cbn in Hc.
      destruct (is_nil _); [split; auto|].
      assert (Hi : Inv G J (q_ist (of_parser p c al))) by (split; [exact Hc|split; assumption]).
      pose proof (keep_parse parse_fuel _ Hi) as ((H1 & H2 & H3) & H4).
      destruct (parse parse_fuel (of_parser p c al)) as [r q]. cbn [fst snd] in *.
      assert (Htop : Forall (instr_ok G) (ISub (i_content (q_ist q)) (i_align (q_ist q)) :: s)) by (constructor; assumption).
      destruct r as [[[[e sub] sup]|]|e|x|].
      + destruct (order_scripts sub sup (i_buf (q_ist q))) as [l|e'|x|] eqn:Eo; try (split; [exact Htop|split; assumption]).
        cbn. split; [|split; [constructor|assumption]].
        constructor; [destruct e; try contradiction; exact I|].
        rewrite Forall_forall in H2. apply Forall_app. split; [|apply Forall_app; split; [|exact Htop]]; apply Forall_forall.
        * intros x Hx. apply H2. eapply in_firstn. exact Hx.
        * intros x Hx. apply H2. eapply order_in; eassumption.
      + split; [|split; [constructor|assumption]]. cbn. apply Forall_app. auto.
      + destruct (new_error e (i_content (q_ist q)) (q_spans q)) as [[pe|e'|x|] sp];
          try (split; [exact Htop|split; assumption]).
        split; [|exact I]. split; [exact Htop|split; assumption].
      + split; [exact Htop|split; assumption].
      + split; [exact Htop|split; assumption].
  Qed.

  Lemma keep_run : forall n p, PInv p ->
    let '(l, o, p') := run n p in PInv p' /\ Forall item_ok l.
  Proof.
    induction n as [|n IH]; intros p Hp; cbn [run]; [split; [exact Hp|constructor]|].
    pose proof (keep_step p Hp) as Hs. destruct (next_step p) as [[i| | |x| ] p']; try (split; [exact Hs|constructor]).
    - destruct Hs as [Hs Hi]. specialize (IH p' Hs). destruct (run n p') as [[l o] p''].
      split; [apply IH|constructor; [exact Hi|apply IH]].
    - apply IH. exact Hs.
  Qed.
End KeepRun.
