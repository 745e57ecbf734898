(** * FormulaNucleus2: every rule for nuclei. *)

From Coq Require Import Ascii String List NArith ZArith Bool Lia Arith.
From Verif Require Import Base Float32 Event Tables Prim PrimTable Lex Macros Primitives Spans Parser
  SpecLex SpecNum LexFacts LexMore LexNum SpecFormula FormulaLex FormulaActs FormulaNucleus.
Import ListNotations.
Open Scope N_scope.
Open Scope list_scope.
Open Scope sm_scope.


Section Known.
Context {KN : Known}.

Lemma overset_acts : forall f ty t es1 t1 es2 r st n,
  does true t es1 no_limits t1 -> does true t1 es2 no_limits r -> stxt (i_content st) = t ->
  (length t <= f)%nat -> (length t <= n)%nat ->
  acts (push_ev (EvScript ty SPAboveBelow) ;; do n <- buf_len ; do over <- argc ; handle_arg (hprim f) over ;;
        do evs <- split_off n ; do base <- argc ; handle_arg (hprim f) base ;; push evs) st n
    (EvScript ty SPAboveBelow :: es2 ++ es1) no_limits r.
Proof.
  intros f ty t es1 t1 es2 r st n H1 H2 Hs Hf Hn. apply push_ev_then. intros st1 E1 _ _. rewrite <- E1 in Hs. clear E1 st.
  destruct (arg_does _ _ _ H1 f st1 Hs Hf) as (a & c & Ha & H3). destruct (H3 (set_content c st1) eq_refl) as (L1 & c1 & h1 & H4 & H5 & H6).
  assert (Hl : (length t1 < length t)%nat) by apply H1.
  set (st2 := mkIst c1 (i_buf st1) (i_allow st1) (i_pos st1) (i_skip st1) h1 (i_align st1) (i_macros st1)).
  destruct (arg_does _ _ _ H2 f st2 H5 ltac:(lia)) as (a2 & c2 & Ha2 & H7). destruct (H7 (set_content c2 st2) eq_refl) as (L2 & c3 & h2 & H8 & H9 & H10).
  exists (L2 ++ L1), c3, h2. split; [|split; [exact H9|apply means_app; eapply means_more; try eassumption; lia]].
  unfold bind, buf_len. rewrite Ha, H4. unfold split_off, result. cbn [i_buf i_content i_allow i_pos i_skip i_handling i_align i_macros set_content set_buf no_limits fst snd].
  rewrite skipn_app, skipn_all, Nat.sub_diag, firstn_app, firstn_all, Nat.sub_diag. cbn [skipn firstn app]. rewrite app_nil_r, orb_false_r.
  change (argc (set_buf _ _)) with (argc st2). rewrite Ha2, H8.
  unfold push, modify, set_buf, result. cbn. rewrite app_assoc, orb_false_r. reflexivity.
Qed.

Lemma accent_acts : forall f e1 e2 t es r st n, does true t es no_limits r -> stxt (i_content st) = t ->
  (length t <= f)%nat -> (length t <= n)%nat ->
  acts (do a <- argc ; push_ev e1 ;; handle_arg (hprim f) a ;; push_ev e2) st n (e1 :: es ++ [e2]) no_limits r.
Proof.
  intros f e1 e2 t es r st n H Hs Hf Hn.
  apply (arg_between t es r H f st n [] _ (e1 :: es ++ [e2]) no_limits r Hs Hf Hn). intros a c Ha. cbn [app].
  apply push_ev_then. intros st1 E1 _ _. eapply acts_end; [apply Ha, E1|]. intros st2 E2. apply push_ev_acts, E2.
Qed.

Lemma set_pos_then : forall (b : bool) p (k : P unit) st n es r,
  (forall st', i_content st' = i_content st -> acts k st' n es no_limits r) ->
  acts ((if b then modify (set_pos p) else ret tt) ;; k) st n es (false, if b then Some p else None) r.
Proof. intros [] p k st n es r H; [apply pos_then, H; reflexivity|apply ret_then, H; reflexivity]. Qed.

Lemma command_acts : forall cs c h s ess r, prim_command cs (lookup_prim cs) = Some c -> args_do h (c_args c) s ess r ->
  forall f st n, i_handling st = h -> stxt (i_content st) = s -> (length s < f)%nat -> (length s < n)%nat ->
  acts (hprim f cs) st n (fill ess (c_body c)) (c_limits c) r.
Proof.
  intros cs c h s ess r Hp Ha [|f] st n Hh Hs Hf Hn; [lia|]. cbn [hprim]. unfold hprim_body.
  destruct (lookup_prim cs); try discriminate; injection Hp as <-; cbn [c_args c_body c_limits args_do] in *;
    repeat match goal with
    | H : exists _, _ |- _ => destruct H
    | H : _ /\ _ |- _ => destruct H
    end; subst ess; cbn [fill flat_map app nth];
    repeat match goal with H : does _ ?t _ _ ?t1 |- _ => assert (length t1 < length t)%nat by apply H; revert H end; intros.
  - (* function *) subst r. apply push_ev_acts, Hs.
  - subst r. apply allow_then, pos_then, push_ev_acts, Hs.
  - subst r. apply allow_then, pos_then, push_ev_acts, Hs.
  - (* pmod *) subst. match goal with Hd : does _ _ ?es _ _ |- _ => rename Hd into Hd0; set (es0 := es) in * end. 
    eapply (arg_between _ _ _ Hd0 f st n []); [exact eq_refl|lia|lia|]. intros a c Hc. cbn [app].
    eapply (push_then [_; _; _; _]). intros st1 E1 _ _. eapply acts_end; [apply Hc, E1|]. intros st2 E2. apply push_acts; [apply (means_evs n [_; _])|exact E2].
  - (* font *) subst. means_is (EvBegin GNormal :: EvState (SCFont f0) :: x ++ [EvEnd]). eapply font_acts; [eassumption|reflexivity|reflexivity|lia|lia].
  - (* large operator *) subst r. unfold large_op. apply allow_then, pos_then, push_ev_acts, Hs.
  - subst r. apply allow_then, push_ev_acts, Hs.
  - (* accent *) subst. apply set_pos_then. intros st' E'. eapply accent_acts; [eassumption|rewrite E'; reflexivity|lia|lia].
  - subst. apply set_pos_then. intros st' E'. eapply accent_acts; [eassumption|rewrite E'; reflexivity|lia|lia].
  - (* fraction *) subst. eapply (fraction_acts f); try eassumption; try reflexivity; lia.
  - (* overset *) subst. rewrite app_nil_r. eapply overset_acts; try eassumption; try reflexivity; lia.
  - (* surd *) subst r. apply push_acts; [apply (means_evs n [_; _])|exact Hs].
  - (* not *) subst. rewrite app_nil_r. apply push_ev_then. intros st1 E1 _ _. eapply arg_then; [eassumption|rewrite E1; reflexivity|lia|lia].
Qed.

End Known.
