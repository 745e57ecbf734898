(** * FineRun: the values in the events of whole runs of the parser. *)

From Coq Require Import List NArith ZArith Bool Lia Arith.
From Verif Require Import Base Float32 Event Tables Prim PrimTable Lex Macros Primitives Spans Parser
  SpecLex LexFacts LexMore PrimFacts Keep KeepRun Order SpecEvent SpecStream SpecClean EvFine.
Import ListNotations.
Open Scope N_scope.
Open Scope sm_scope.

Section FineRun.
  Variable na : bool.
  Variable md : option bool.
  Variable G : slice -> Prop.
  Hypothesis HG : forall a b, sl_sub a b -> G b -> G a.
  Hypothesis HV : forall s, G s -> valid_str (stxt s).
  Hypothesis Hlt : md <> None -> forall s, G s -> ~ In 60 (stxt s).
  Hypothesis Hraw : forall cs, cs_in G cs -> raw_prim (lookup_prim cs) = true -> md <> None -> forall s, G s -> ~ In 38 (stxt s).
  Hypothesis Hbad : forall cs, cs_in G cs -> bad_prim md (lookup_prim cs) = false.
  Hypothesis Hna : na = true -> forall s, G s -> no_array_names (stxt s).
  Variable J : macro_ctx -> Prop.
  Hypothesis HJ : forall cs name d m, cs_in G cs -> is_def_prim (lookup_prim cs) = true -> defn_ok d -> defn_valid d -> J m ->
    J (ctx_insert m name d).
  (** What an expansion gives is admissible text. *)
  Hypothesis HX : forall m cs d r txt k n, J m -> ctx_get m cs = Some d -> valid_str r ->
    expand_definition d r = Ok (txt, k) -> G (mkSlice n 0 txt).

  Notation FI := (FInv na md G J).

  Lemma f_hprim : forall fuel cs, cs_in G cs -> keeps FI (hprim fuel cs) anything.
  Proof.
    induction fuel as [|f IH]; intros cs Hcs.
    - intros st Hi. cbn. auto.
    - apply (f_hprim_body na md G HG HV Hlt Hraw Hbad Hna J HJ); [intros; apply IH; assumption|exact Hcs].
  Qed.

  Lemma f_handle_prim : forall cs, cs_in G cs -> keeps FI (handle_prim cs) anything.
  Proof. intros cs Hcs st Hi. unfold handle_prim. apply f_hprim; assumption. Qed.

  Lemma f_drop1 : keeps FI drop1 anything.
  Proof.
    apply k_modify. intros st Hi. apply (f_suffix na md G HG J); [|exact Hi].
    destruct (stxt (i_content st)); [apply suffix_nil|apply suffix_cons, suffix_refl].
  Qed.

  Lemma f_parse_scripts : keeps FI parse_scripts script_ok.
  Proof.
    assert (Ha : keeps FI (do a <- argc ; handle_arg handle_prim a) anything).
    { eapply k_bind; [apply (f_argc na md G HG J)|]. intros a Haa. apply (f_handle_arg na md G HG HV Hlt Hraw Hbad J _ f_handle_prim). exact Haa. }
    unfold parse_scripts. eapply k_bind; [apply k_get|]. intros st0 _. destruct (i_skip st0); [apply k_ret; exact I|].
    eapply k_bind with (V := anything).
    { destruct (i_allow st0); [|apply k_ret; exact I].
      eapply k_bind; [apply (f_lexc_any na md G HG HV J); auto with lexsuf|]. intros [[]|] _;
        [apply k_modify; intros ? [? ?]; split; assumption| |apply k_ret; exact I].
      apply k_modify; intros ? [? ?]; split; assumption. }
    intros _ _. eapply k_bind; [apply k_modify; intros st Hi; apply (f_suffix na md G HG J); [apply suffix_trim|exact Hi]|].
    intros _ _. eapply k_bind with (V := anything); [intros st Hi; cbn; split; [exact Hi|exact I]|]. intros c _.
    destruct (_ || _); [|apply k_ret; exact I]. cbv zeta.
    eapply k_bind; [apply f_drop1|]. intros _ _. eapply k_bind; [apply f_buf_len|]. intros first _.
    eapply k_bind; [apply (f_argc na md G HG J)|]. intros a Haa.
    eapply k_bind; [apply (f_handle_arg na md G HG HV Hlt Hraw Hbad J _ f_handle_prim); exact Haa|]. intros _ _.
    eapply k_bind; [apply f_buf_len|]. intros second _.
    eapply k_bind with (V := anything); [intros st Hi; cbn; split; [exact Hi|exact I]|]. intros nc _.
    eapply k_bind with (V := anything).
    { destruct (_ || _).
      - eapply k_bind; [apply f_drop1|]. intros _ _.
        eapply k_bind; [apply (f_argc na md G HG J)|]. intros a2 Ha2.
        eapply k_bind; [apply (f_handle_arg na md G HG HV Hlt Hraw Hbad J _ f_handle_prim); exact Ha2|]. intros _ _.
        eapply k_bind with (V := anything); [intros st Hi; cbn; split; [exact Hi|exact I]|]. intros nc2 _.
        destruct (is_char 95 nc2); [apply k_fail|]. destruct (is_char 94 nc2); [apply k_fail|apply k_ret; exact I].
      - destruct (_ || _); [apply k_fail|apply k_ret; exact I]. }
    intros _ _. eapply k_bind; [apply f_buf_len|]. intros e_ _. eapply k_bind; [apply k_get|]. intros st _.
    destruct (Nat.eqb _ _); destruct (is_char 95 c); apply k_ret; exact I.
  Qed.

  Definition fkeeps_q (q : pst) (x : res (option script) * pst) : Prop :=
    FI (q_ist (snd x)) /\ match fst x with Ok o => script_ok o | _ => True end.

  Lemma fine_inner : forall (m : P (option script)) q, keeps FI m script_ok -> FI (q_ist q) ->
    fkeeps_q q (run_inner m q).
  Proof.
    intros m q Hm Hi. unfold run_inner, fkeeps_q. specialize (Hm _ Hi). destruct (m (q_ist q)). exact Hm.
  Qed.

  Lemma fine_parse : forall f q, FI (q_ist q) -> fkeeps_q q (parse f q).
  Proof.
    induction f as [|f IH]; intros q Hi; [split; [exact Hi|exact I]|]. cbn [parse].
    pose proof (lex_token_suffix (stxt (i_content (q_ist q)))) as Hs.
    assert (Hset : forall r, suffix r (stxt (i_content (q_ist q))) ->
      FI (set_content (suffix_slice (i_content (q_ist q)) r) (q_ist q))).
    { intros r Hr. apply (f_suffix na md G HG J); assumption. }
    destruct (lex_token (stxt (i_content (q_ist q)))) as [[[cs|ctx]|e|p|] r] eqn:El; cbn [snd] in Hs.
    - destruct (ctx_get (i_macros (q_ist q)) cs) as [d|] eqn:Em.
      + destruct (expand_definition d r) as [[txt k]|e|p|] eqn:Ee; try (unfold fkeeps_q; cbn; auto).
        destruct (_ || _); [unfold fkeeps_q; cbn; auto|]. destruct (add_span _ _ _ _) as [[[]|e|p|] sp]; try (unfold fkeeps_q; cbn; auto).
        apply IH. cbn [q_ist]. apply f_content; [|exact Hi]. eapply HX; [apply Hi|exact Em|eapply valid_suffix; [exact Hs|apply HV; apply Hi]|exact Ee].
      + apply fine_inner; [|apply Hset; exact Hs].
        unfold parse_atom. eapply k_bind; [apply f_handle_prim|intros; apply f_parse_scripts].
        destruct (lex_token_cs _ _ _ El) as (b & w & _ & _ & Hcs & E). split; [exact Hcs|].
        exists (i_content (q_ist q)). split; [apply Hi|]. exists b, (w ++ r)%list. rewrite E. reflexivity.
    - apply fine_inner; [|apply Hset; exact Hs].
      unfold parse_atom. eapply k_bind; [apply (f_handle_char na md G HG HV Hlt Hraw Hbad J)|intros; apply f_parse_scripts].
      destruct (lex_token_chr _ _ _ El) as (b & c & _ & -> & E & _).
      eapply HG; [apply sl_sub_suffix|apply Hi]. rewrite E. apply suffix_app.
    - destruct e; unfold fkeeps_q; cbn; auto.
    - split; [exact Hi|exact I].
    - split; [exact Hi|exact I].
  Qed.

  (** ** The iterator *)

  Definition FPInv (p : parser) : Prop :=
    Forall (finstr na md G) (p_stack p) /\ Forall (finstr na md G) (p_buf p) /\ J (p_macros p).

  Definition item_fine (i : item) : Prop := match i with ItEvent e => lfine na md e | ItError _ => True end.

  Lemma fine_step : forall p, FPInv p ->
    match next_step p with
    | (OItem i, p') => FPInv p' /\ item_fine i
    | (_, p') => FPInv p'
    end.
  Proof.
    intros p (Hs & Hb & Hm). unfold next_step. destruct (p_stack p) as [|[e|c al] s] eqn:Es.
    - split; [rewrite Es; constructor|]. auto.
    - inversion Hs; subst. split; [|assumption]. split; [assumption|]. auto.
    - inversion Hs as [|? ? Hc Hs']; subst. cbn in Hc.
      destruct (is_nil _); [split; auto|].
      assert (Hi : FI (q_ist (of_parser p c al))) by (split; [exact Hc|split; assumption]).
      pose proof (fine_parse parse_fuel _ Hi) as ((H1 & H2 & H3) & H4).
      destruct (parse parse_fuel (of_parser p c al)) as [r q]. cbn [fst snd] in *.
      assert (Htop : Forall (finstr na md G) (ISub (i_content (q_ist q)) (i_align (q_ist q)) :: s)) by (constructor; assumption).
      destruct r as [[[[e sub] sup]|]|e|x|].
      + destruct (order_scripts sub sup (i_buf (q_ist q))) as [l|e'|x|] eqn:Eo; try (split; [exact Htop|split; assumption]).
        cbn. split; [|split; [constructor|assumption]].
        constructor; [destruct e; try contradiction; exact I|].
        rewrite Forall_forall in H2. apply Forall_app. split; [|apply Forall_app; split; [|exact Htop]]; apply Forall_forall.
        * intros x Hx. apply H2. eapply in_firstn. exact Hx.
        * intros x Hx. apply H2. eapply order_in; eassumption.
      + split; [|split; [constructor|assumption]]. cbn. apply Forall_app. auto.
      + destruct (new_error e (i_content (q_ist q)) (q_spans q)) as [[pe|e'|x|] sp];
          try (split; [exact Htop|split; assumption]).
        split; [|exact I]. split; [exact Htop|split; assumption].
      + split; [exact Htop|split; assumption].
      + split; [exact Htop|split; assumption].
  Qed.

  Lemma fine_run : forall n p, FPInv p ->
    let '(l, o, p') := run n p in FPInv p' /\ Forall item_fine l.
  Proof.
    induction n as [|n IH]; intros p Hp; cbn [run]; [split; [exact Hp|constructor]|].
    pose proof (fine_step p Hp) as Hs. destruct (next_step p) as [[i| | |x| ] p']; try (split; [exact Hs|constructor]).
    - destruct Hs as [Hs Hi]. specialize (IH p' Hs). destruct (run n p') as [[l o] p''].
      split; [apply IH|constructor; [exact Hi|apply IH]].
    - apply IH. exact Hs.
  Qed.
End FineRun.
