(** * CallRun: the parser yields the meaning of a text with macros. *)

From Coq Require Import List NArith ZArith Bool Lia Arith.
From Verif Require Import Base Float32 Event Tables Prim PrimTable Lex Macros Primitives Spans Parser
  SpecLex SpecNum LexFacts LexMore PrimFacts Keep KeepRun Terminate Api Sim SimRun SpanFacts MacroRun SpecFormula FormulaLex FormulaActs FormulaStep FormulaPrefix
  FormulaHole SpecFault FormulaFault SpecMacro MacroFacts Preamble SpanRun MacroErr Frame SpecCall.
Import ListNotations.
Open Scope N_scope.
Open Scope list_scope.

Strategy 1000 [parse parse_fuel].

(** ** How many expansions a text is inside of *)

Definition older (b : N) (l : list espan) : list espan := filter (fun x => sbase (x_full x) <=? b) l.
Definition count (b : N) (l : list espan) : nat := length (older b l).

Lemma older_all : forall l top b, descending top l -> top <= b + 1 -> older b l = l.
Proof.
  induction l as [|x l IH]; intros top b H Hb; [reflexivity|]. destruct H as [H1 H2]. cbn [older filter].
  destruct (N.leb_spec (sbase (x_full x)) b); [|lia]. f_equal. apply (IH _ b H2). lia.
Qed.

Lemma reach_count : forall c inp tot l top, descending top l -> placed (mkSpans inp l tot) c ->
  (forall b, b <= sbase c -> older b (snd (Spans.reach c l)) = older b l) /\ older (sbase c) (snd (Spans.reach c l)) = snd (Spans.reach c l).
Proof.
  intros c inp tot. induction l as [|y l IH]; intros top Hd Hp; [split; reflexivity|]. destruct Hd as [Hy Hd]. cbn [Spans.reach].
  destruct (ptr_in c (x_full y)) eqn:E.
  - split; [reflexivity|]. cbn [snd]. apply andb_true_iff in E as [E _]. apply N.eqb_eq in E.
    apply (older_all _ (sbase c + 1)); [|lia]. split; [lia|]. rewrite <- E in Hd. rewrite <- E. exact Hd.
  - assert (Hp' : placed (mkSpans inp l tot) c).
    { destruct Hp as [H|(x & [<-|Hx] & H2 & H3)]; [left; exact H| |right; exists x; auto].
      exfalso. unfold ptr_in in E. cbn [stxt] in H3. rewrite H2, N.eqb_refl in E. cbn [andb] in E. apply N.leb_gt in E. lia. }
    assert (Hlt : sbase c < sbase (x_full y)).
    { destruct Hp' as [[H _]|(x & Hx & H2 & _)]; [rewrite H; eapply descending_pos; exact Hd|].
      cbn [s_exp] in Hx. pose proof (descending_in _ _ _ Hd Hx). lia. }
    destruct (IH _ Hd Hp') as [H1 H2]. split; [|exact H2]. intros b Hb. rewrite (H1 b Hb). cbn [older filter].
    destruct (N.leb_spec (sbase (x_full y)) b); [lia|reflexivity].
Qed.

(** ** The texts left by a step are parts of the one that was read *)

Definition same_base (b : N) (i : instr) : Prop := instr_ok (fun s => sbase s = b) i.

Lemma base_sub : forall b x y, sl_sub x y -> sbase y = b -> sbase x = b.
Proof. intros b x y (p & q & _ & Hb & _) E. congruence. Qed.

Lemma after_base : forall b x p', Inv (fun s => sbase s = b) (fun _ => True) (q_ist (snd x)) ->
  match fst x with Ok o => script_ok o | _ => True end ->
  after [] x = (OCont, p') -> Forall (same_base b) (p_stack p').
Proof.
  intros b [r q] p' (H1 & H2 & _) Ho H. cbn [fst snd] in *.
  assert (Htop : Forall (same_base b) [ISub (i_content (q_ist q)) (i_align (q_ist q))]) by (repeat constructor; exact H1).
  destruct r as [[[[e n] k]|]|e|y|]; cbn [after] in H; try discriminate.
  - destruct (order_scripts n k (i_buf (q_ist q))) as [l| | |] eqn:El; try discriminate. injection H as <-. cbn [to_parser p_stack].
    constructor; [destruct e; try contradiction; exact I|]. apply Forall_app. rewrite Forall_forall in H2. split.
    + apply Forall_forall. intros i Hi. apply H2. eapply in_firstn. exact Hi.
    + apply Forall_app. split; [|exact Htop]. apply Forall_forall. intros i Hi. apply H2. eapply order_in; eassumption.
  - injection H as <-. cbn [to_parser p_stack]. apply Forall_app. auto.
  - destruct (new_error _ _ _) as [[?|?|?|] ?]; discriminate.
Qed.

Lemma step_base : forall c al sp nx ac p', next_step (at_top c al [] sp nx ac) = (OCont, p') -> Forall (same_base (sbase c)) (p_stack p').
Proof.
  intros c al sp nx ac p' H. rewrite next_step_eq in H. unfold at_top in H. cbn [p_stack p_buf p_macros p_spans p_next p_alloc] in H.
  destruct (is_nil (trim_start (stxt c))); [injection H as <-; constructor|].
  rewrite parse_fuel_S in H. rewrite parse_eq in H. unfold of_parser in H. cbn [q_ist i_content i_macros p_buf p_macros p_spans p_next p_alloc set_ist q_spans q_next q_alloc] in H.
  pose proof (lex_token_suffix (stxt c)) as Hs.
  assert (Hc : def_closed (fun s => sbase s = sbase c) (fun _ => True)) by (intros ? ? ? ? ? ? ? ? ?; exact I).
  assert (Hi : forall r, suffix r (stxt c) -> Inv (fun s => sbase s = sbase c) (fun _ => True) (mkIst (suffix_slice c r) [] false SPRight false false al [])).
  { intros r Hr. split; [reflexivity|]. split; [constructor|exact I]. }
  destruct (lex_token (stxt c)) as [[[cs|ctx]|x|y|] r] eqn:El; cbn [snd] in Hs.
  - change (ctx_get [] cs) with (@None mdef) in H. cbv iota in H.
    pose proof (keep_inner (fun s => sbase s = sbase c) (fun _ => True) (parse_atom (handle_prim cs))
      (mkPst (mkIst (suffix_slice c r) [] false SPRight false false al []) sp nx ac)) as Hk.
    assert (Hcs : cs_in (fun s => sbase s = sbase c) cs).
    { destruct (lex_token_cs _ _ _ El) as (b & w & _ & _ & Hcs & E). split; [exact Hcs|].
      exists c. split; [reflexivity|]. exists b, (w ++ r)%list. rewrite E. reflexivity. }
    destruct Hk as [K1 K2].
    { unfold parse_atom. eapply k_bind; [apply (k_handle_prim _ (base_sub _) _ Hc); exact Hcs|intros; apply (k_parse_scripts _ (base_sub _) _ Hc)]. }
    { apply Hi, Hs. }
    exact (after_base _ _ _ K1 K2 H).
  - pose proof (keep_inner (fun s => sbase s = sbase c) (fun _ => True) (parse_atom (handle_char (suffix_slice c ctx)))
      (mkPst (mkIst (suffix_slice c r) [] false SPRight false false al []) sp nx ac)) as Hk.
    destruct Hk as [K1 K2].
    { unfold parse_atom. eapply k_bind; [apply (k_handle_char _ (base_sub _)); reflexivity|intros; apply (k_parse_scripts _ (base_sub _) _ Hc)]. }
    { apply Hi, Hs. }
    exact (after_base _ _ _ K1 K2 H).
  - destruct x; try (cbn [after] in H; destruct (new_error _ _ _) as [[?|?|?|] ?]; discriminate).
    cbn [after q_ist set_ist i_buf set_content app] in H. injection H as <-. cbn. repeat constructor.
  - discriminate.
  - discriminate.
Qed.

Section Calls.
  Variables (e : Preamble.env) (m : macro_ctx) (T : nat).
  Hypothesis Hrep : represents e m.
  Hypothesis Hnew : new_names e.

  Definition top (c : slice) (al : option (N * N)) (K : list instr) (sp : spans) (nx ac : N) : parser :=
    mkParser (ISub c al :: K) [] m sp nx ac.

  (** The error of a limit that has been reached. *)
  Definition limited (p : parser) : Prop := exists pe p', next_step p = (OItem (ItError pe), p') /\
    pe_kind pe = EMacroRecursionLimit /\ ((64 <= T)%nat \/ 2 ^ 20 <= s_total (p_spans p')).

  Definition arrive (p : parser) (es : list event) (Q : parser -> Prop) : Prop :=
    (exists p', steps p es p' /\ Q p') \/ (exists es1 es2 p1, es = es1 ++ es2 /\ steps p es1 p1 /\ limited p1).

  Lemma arrive_then : forall p es es' Q Q', arrive p es Q -> (forall p', Q p' -> arrive p' es' Q') -> arrive p (es ++ es') Q'.
  Proof.
    intros p es es' Q Q' [(p1 & H1 & H2)|(es1 & es2 & p1 & -> & H1 & H2)] H.
    - destruct (H p1 H2) as [(p2 & H3 & H4)|(es1 & es2 & p2 & -> & H3 & H4)].
      + left. exists p2. split; [eapply steps_trans; eassumption|exact H4].
      + right. exists (es ++ es1), es2, p2. split; [apply app_assoc|]. split; [eapply steps_trans; eassumption|exact H4].
    - right. exists es1, (es2 ++ es'), p1. split; [symmetry; apply app_assoc|]. auto.
  Qed.

  Lemma arrive_steps : forall p p1 es es' Q, steps p es p1 -> arrive p1 es' Q -> arrive p (es ++ es') Q.
  Proof. intros p p1 es es' Q H1 H2. apply (arrive_then p es es' (fun q => q = p1)); [left; eauto|]. intros ? ->. exact H2. Qed.

  (** What is kept: the texts are in place, and the expansions that texts of
      allocations up to [b] are inside of stay the same. *)
  Definition held (b : N) (K : list instr) (sp : spans) (p : parser) : Prop := exists sp' nx' ac',
    p = mkParser K [] m sp' nx' ac' /\ in_place p /\ (length (s_exp sp') <= T)%nat /\
    forall b', b' <= b -> older b' (s_exp sp') = older b' (s_exp sp).

  Definition ends (k : nat) (s : str) (al : option (N * N)) (es : list event) : Prop :=
    forall c K sp nx ac, trim_start (stxt c) = trim_start s -> in_place (top c al K sp nx ac) ->
      (length (s_exp sp) <= T)%nat -> (count (sbase c) (s_exp sp) + k <= T)%nat ->
      arrive (top c al K sp nx ac) es (held (sbase c) K sp).

  Lemma means_arrive : forall (KN : Known) k n L es, @FormulaActs.means KN n L es ->
    (forall s al es, (length s < n)%nat -> @formula KN al s es -> ends k s al es) ->
    forall b K sp nx ac, Forall (same_base b) L -> in_place (mkParser (L ++ K) [] m sp nx ac) -> (length (s_exp sp) <= T)%nat ->
      (count b (s_exp sp) + k <= T)%nat -> arrive (mkParser (L ++ K) [] m sp nx ac) es (held b K sp).
  Proof.
    intros KN k n L es H Hp. induction H as [|ev L es H IH|c al es L es' Hl Hf H IH]; intros b K sp nx ac HL Hpl Hle Hc.
    - left. exists (mkParser K [] m sp nx ac). split; [constructor|]. exists sp, nx, ac. auto.
    - change (ev :: es) with ([ev] ++ es). eapply arrive_steps; [eapply st_item; [reflexivity|constructor]|].
      apply IH; [inversion HL; assumption|exact (place_step (mkParser ((IEv ev :: L) ++ K) [] m sp nx ac) Hpl)|exact Hle|exact Hc].
    - inversion HL as [|? ? Hb HL']; subst. cbn in Hb. subst b.
      apply (arrive_then _ _ _ _ _ (Hp (stxt c) al es Hl Hf c (L ++ K) sp nx ac eq_refl Hpl Hle Hc)).
      intros p' (sp' & nx' & ac' & -> & Hpl' & Hle' & Ho). 
      assert (Hc' : (count (sbase c) (s_exp sp') + k <= T)%nat) by (unfold count in *; rewrite Ho by lia; exact Hc).
      destruct (IH (sbase c) K sp' nx' ac' HL' Hpl' Hle' Hc') as [(p2 & H1 & sp2 & nx2 & ac2 & -> & H2 & H3 & H4)|Hlim]; [|right; exact Hlim].
      left. eexists. split; [exact H1|]. exists sp2, nx2, ac2. split; [reflexivity|]. split; [exact H2|]. split; [exact H3|].
      intros b' Hb'. rewrite H4, Ho; auto.
  Qed.

  (** The first thing read is not a macro. *)
  Lemma not_call : forall c al K sp nx ac p', next_step (at_top c al K sp nx ac) = (OCont, p') -> no_call m (stxt c).
  Proof.
    intros c al K sp nx ac p' H cs r Hl. destruct (ctx_get m cs) as [d|] eqn:E; [|reflexivity]. exfalso.
    pose proof (represents_find e m cs Hrep) as Hf. rewrite E in Hf. destruct (find cs e) as [x|] eqn:Ef; [|contradiction].
    assert (Hu : lookup_prim cs = PUnknown) by (apply unknown_prim, Hnew; congruence).
    rewrite (prim_step (at_top c al K sp nx ac) c al K cs r eq_refl Hl eq_refl) in H.
    unfold run_inner, parse_atom, handle_prim in H. cbn [q_ist of_parser hprim] in H. unfold hprim_body in H. rewrite Hu in H.
    unfold bind, fail in H. cbn [after] in H. destruct (new_error _ _ _) as [[?|?|?|] ?]; discriminate.
  Qed.

  Lemma turns_arrive : forall (KN : Known) k s al es al' r es', @turns KN s al es al' r ->
    (forall s1 al1 es1, (length s1 < length s)%nat -> @formula KN al1 s1 es1 -> ends k s1 al1 es1) -> @formula KN al' r es' ->
    ends k s al (es ++ es').
  Proof.
    intros KN k s al es al' r es' (Hl & H) IH Hf c K sp nx ac Hc Hpl Hle Hcnt.
    destruct (H c K sp nx ac Hc) as (IL & c' & H1 & H2 & H3).
    assert (Hstep : next_step (top c al K sp nx ac) = (OCont, mkParser (IL ++ ISub c' al' :: K) [] m sp nx ac)).
    { apply (step_frame m (at_top c al K sp nx ac) _ eq_refl H1 eq_refl). intros c0 al0 s0 E. injection E as <- <- <-.
      eapply not_call. exact H1. }
    assert (Hbase : Forall (same_base (sbase c)) IL /\ sbase c' = sbase c).
    { destruct (H c [] sp nx ac Hc) as (IL0 & c0 & H1' & _ & _).
      pose proof (next_step_above K (at_top c al [] sp nx ac) ltac:(discriminate)) as Ha.
      change (above_stack K (at_top c al [] sp nx ac)) with (at_top c al K sp nx ac) in Ha. rewrite H1, H1' in Ha. cbn [fst snd] in Ha.
      unfold above_stack in Ha. cbn [p_stack] in Ha. injection Ha as Ha.
      change (IL ++ ISub c' al' :: K) with (IL ++ [ISub c' al'] ++ K) in Ha. rewrite app_assoc in Ha. apply app_inv_tail in Ha.
      pose proof (step_base _ _ _ _ _ _ H1') as Hb. cbn [p_stack] in Hb. rewrite <- Ha in Hb. apply Forall_app in Hb as [Hb1 Hb2].
      split; [exact Hb1|]. inversion Hb2; subst. assumption. }
    destruct Hbase as [HIL Hc'].
    assert (Hpl1 : in_place (mkParser (IL ++ ISub c' al' :: K) [] m sp nx ac)).
    { pose proof (place_step _ Hpl) as Hp. rewrite Hstep in Hp. exact Hp. }
    change (es ++ es') with ([] ++ (es ++ es')). eapply arrive_steps; [eapply st_cont; [exact Hstep|constructor]|].
    eapply arrive_then; [eapply means_arrive; [exact H2|exact IH|exact HIL|exact Hpl1|exact Hle|exact Hcnt]|].
    intros p' (sp' & nx' & ac' & -> & Hpl' & Hle' & Ho).
    assert (Hcnt' : (count (sbase c') (s_exp sp') + k <= T)%nat) by (unfold count in *; rewrite Hc', Ho by lia; exact Hcnt).
    destruct (IH r al' es' Hl Hf c' K sp' nx' ac' H3 Hpl' Hle' Hcnt') as [(p2 & E1 & sp2 & nx2 & ac2 & -> & E2 & E3 & E4)|Hlim]; [|right; exact Hlim].
    left. eexists. split; [exact E1|]. exists sp2, nx2, ac2. split; [reflexivity|]. split; [exact E2|]. split; [exact E3|].
    intros b' Hb'. rewrite E4, Ho; auto. lia.
  Qed.

  (** ** The use of a macro *)

  Lemma call_step : forall c al K sp nx ac n s2 d txt j, in_place (top c al K sp nx ac) -> lex_token (stxt c) = (Ok (TCs n), s2) ->
    ctx_get m n = Some d -> expand_definition d s2 = Ok (txt, j) -> (length (s_exp sp) <= T)%nat -> (count (sbase c) (s_exp sp) < T)%nat ->
    limited (top c al K sp nx ac) \/
    exists new sp', stxt new = txt /\ in_place (top new al K sp' (nx + 1) (ac + blen txt)) /\ (length (s_exp sp') <= T)%nat /\
      (forall b, b <= sbase c -> older b (s_exp sp') = older b (s_exp sp)) /\ sbase c < sbase new /\
      count (sbase new) (s_exp sp') = S (count (sbase c) (s_exp sp)) /\
      (next_step (top c al K sp nx ac) = after K (parse parse_fuel (of_parser (top new al K sp' (nx + 1) (ac + blen txt)) new al))).
  Proof.
    intros c al K sp nx ac n s2 d txt j Hpl Hl Hd Hx Hle Hcnt.
    assert (Hstep : next_step (top c al K sp nx ac) = after K (parse 66 (of_parser (top c al K sp nx ac) c al))).
    { rewrite next_step_eq. unfold top at 1. cbn [p_stack]. rewrite (not_blank _ _ _ Hl), parse_fuel_S. reflexivity. }
    pose proof (step_smaller (top c al K sp nx ac)) as Hnf. rewrite Hstep in Hnf.
    rewrite parse_eq in Hstep, Hnf. unfold of_parser, top in Hstep, Hnf.
    cbn [q_ist i_content i_macros p_buf p_macros p_spans p_next p_alloc set_ist q_spans q_next q_alloc] in Hstep, Hnf.
    rewrite Hl, Hd, Hx in Hstep, Hnf.
    destruct (_ || _) eqn:Elim in Hstep, Hnf.
    - left. apply orb_true_iff in Elim as Elim'. rewrite !N.leb_le in Elim'. unfold max_expansion_depth, max_expansion_bytes in Elim'.
      destruct (limit_reported (top c al K sp nx ac) c al K n s2 d Hpl eq_refl Hl Hd Elim') as [(pe & p' & E1 & E2)|(x & p' & _ & E2)]; [|congruence].
      exists pe, p'. split; [exact E1|]. split; [exact E2|]. unfold top in E1. rewrite E1 in Hstep. cbn [after q_spans q_ist] in Hstep.
      destruct (new_error _ _ sp) as [rr s'] eqn:En in Hstep. apply new_error_never in En.
      destruct rr as [pe'|?|?|]; try discriminate. destruct En as [En _]. injection Hstep as <- ->. cbn [p_spans].
      destruct Elim' as [Hlim|Hlim]; [left; lia|right; rewrite En; exact Hlim].
    - right. set (new := mkSlice nx 0 txt) in *.
      destruct Hpl as (Hdesc & (b0 & Hst) & Hdefs & _ & Hsp). cbn [p_spans p_stack p_next p_macros top stacked] in Hdesc, Hst, Hdefs, Hsp.
      destruct Hst as (_ & Hc & HK).
      set (orig := suffix_slice c (trim_start (stxt c))) in *.
      assert (Ho : sl_sub orig c) by (apply sl_sub_suffix, suffix_trim).
      assert (Hob : sbase orig = sbase c) by reflexivity.
      assert (Hpo : placed (add_total (blen txt) sp) orig) by (apply (placed_sub _ _ c Ho); exact Hc).
      destruct (reach_placed nx orig (add_total (blen txt) sp) Hdesc Hpo) as (l & u & Hu & Er & Hk). cbn [add_total s_exp s_input s_total] in *.
      assert (El : l = snd (Spans.reach orig (s_exp sp))).
      { unfold reach_original_call_site in Er. cbn [add_total s_exp s_input s_total] in Er. destruct (Spans.reach orig (s_exp sp)) as [[i|] l0].
        - injection Er as _ ->. reflexivity.
        - cbv zeta in Er. destruct (ptr_in _ _); [injection Er as ->; reflexivity|discriminate]. }
      destruct (reach_count orig (s_input sp) (s_total sp) (s_exp sp) nx Hdesc) as [Hold Hall].
      { apply (placed_sub _ _ c Ho). destruct sp. exact Hc. }
      rewrite <- El, Hob in Hold, Hall.
      unfold add_span in Hstep. rewrite Er in Hstep. cbn [fst snd s_input s_exp s_total] in Hstep.
      match type of Hstep with _ = after K (parse 65 (mkPst _ ?x _ _)) => set (sp' := x) in * end.
      assert (Hlt : sbase c < nx) by (eapply placed_base; eassumption).
      assert (Hlen : length l = count (sbase c) (s_exp sp)) by (unfold count; rewrite <- (Hold (sbase c) (N.le_refl _)), Hall; reflexivity).
      destruct (descending_app u l nx) as (t & Ht1 & Ht2); [rewrite <- Hu; exact Hdesc|].
      apply orb_false_iff in Elim as [Elim _]. apply N.leb_gt in Elim. unfold max_expansion_depth in Elim.
      assert (Hll : (length l <= length (s_exp sp))%nat) by (rewrite Hu, app_length; lia).
      exists new, sp'. split; [reflexivity|]. split; [|split; [|split; [|split; [|split]]]].
      + split; [|split; [|split; [exact Hdefs|split; [reflexivity|]]]]; cbn [top p_spans p_next p_stack].
        * unfold sp'. cbn [s_exp descending x_full]. split; [unfold new; cbn [sbase]; lia|]. eapply descending_weaken; [|exact Ht2]. exact Ht1.
        * exists nx. cbn [stacked]. split; [unfold new; cbn [sbase]; lia|]. split.
          { right. eexists. unfold sp'. cbn [s_exp]. split; [left; reflexivity|]. cbn [x_full]. split; [reflexivity|]. unfold new. cbn [soff stxt]. lia. }
          apply (stacked_mono sp sp' K (sbase c)); [change (sbase new) with nx; lia| |exact HK].
          intros c' Hc' Hp'. destruct (Hk c' ltac:(rewrite Hob; exact Hc') Hp' 0) as [Hin|(x & X1 & X2 & X3)]; [left; exact Hin|].
          right. exists x. split; [unfold sp'; cbn [s_exp]; right; exact X1|auto].
        * destruct Hsp as [Hor _]. split; [|unfold sp'; cbn [s_exp length]; lia].
          unfold sp'. cbn [s_exp]. constructor; [unfold ordered; cbn [x_start x_end]; lia|]. rewrite Hu in Hor. apply Forall_app in Hor. apply Hor.
      + unfold sp'. cbn [s_exp length]. lia.
      + intros b Hb. unfold sp'. cbn [s_exp older filter x_full]. destruct (N.leb_spec (sbase new) b) as [H|H]; [cbn [new sbase] in H; lia|]. apply Hold, Hb.
      + exact Hlt.
      + unfold count at 1. unfold sp'. cbn [s_exp older filter x_full]. destruct (N.leb_spec (sbase new) (sbase new)); [|lia]. cbn [length]. f_equal.
        rewrite <- Hlen. f_equal. apply (older_all l t); [exact Ht2|]. change (sbase new) with nx. lia.
      + refine (eq_trans Hstep _).
        change (set_content new (mkIst c [] false SPRight false false al m)) with (mkIst new [] false SPRight false false al m).
        change (of_parser (top new al K sp' (nx + 1) (ac + blen txt)) new al)
          with (mkPst (mkIst new [] false SPRight false false al m) sp' (nx + 1) (ac + blen txt)).
        unfold add_span in Hnf. rewrite Er in Hnf. cbn [fst snd s_input s_exp s_total] in Hnf. fold new orig sp' in Hnf.
        change (set_content new (mkIst c [] false SPRight false false al m)) with (mkIst new [] false SPRight false false al m) in Hnf.
        rewrite parse_fuel_S, (parse_mono 65); [reflexivity|]. intros Ef.
        destruct (parse 65 (mkPst (mkIst new [] false SPRight false false al m) sp' (nx + 1) (ac + blen txt))) as [rr qq].
        cbn [fst] in Ef. subst rr. exact Hnf.
  Qed.

  Lemma calls_arrive : forall k, (forall s al es, @formula (calls e k) al s es -> ends k s al es) ->
    forall s al es, calls e (S k) al s es -> ends (S k) s al es.
  Proof.
    intros k IH s al es (b & use & n & x & s2 & out & r & -> & Hb & Hn & Hf & Hx & Hfm) c K sp nx ac Hc Hpl Hle Hcnt.
    assert (Hl : lex_token (stxt c) = (Ok (TCs n), s2)) by (rewrite (lex_token_same _ _ Hc); apply token_cs; assumption).
    pose proof (represents_find e m n Hrep) as Hr. rewrite Hf in Hr. destruct (ctx_get m n) as [d|] eqn:Ed; [|contradiction].
    destruct (expands_ok _ _ _ _ _ Hr Hx) as [j Hj].
    destruct (call_step c al K sp nx ac n s2 d (out ++ r) j Hpl Hl Ed Hj Hle ltac:(lia)) as [Hlim|(new & sp' & Et & Hpl' & Hle' & Hold & Hlt & Hcn & Hstep)].
    { right. exists [], es, (top c al K sp nx ac). split; [reflexivity|]. split; [constructor|exact Hlim]. }
    assert (Har : arrive (top new al K sp' (nx + 1) (ac + blen (out ++ r))) es (held (sbase new) K sp')).
    { apply (IH _ _ _ Hfm); [rewrite Et; reflexivity|exact Hpl'|exact Hle'|lia]. }
    assert (Hheld : forall p, held (sbase new) K sp' p -> held (sbase c) K sp p).
    { intros p (sp2 & nx2 & ac2 & -> & E1 & E2 & E3). exists sp2, nx2, ac2. split; [reflexivity|]. split; [exact E1|]. split; [exact E2|].
      intros b' Hb'. rewrite E3, Hold; auto. lia. }
    assert (Hfirst : next_step (top new al K sp' (nx + 1) (ac + blen (out ++ r))) = next_step (top c al K sp nx ac) \/
      exists q q', next_step (top c al K sp nx ac) = (OCont, q) /\ next_step q = (OCont, q') /\ next_step (top new al K sp' (nx + 1) (ac + blen (out ++ r))) = (OCont, q')).
    { rewrite Hstep, next_step_eq. unfold top at 1. cbn [p_stack]. destruct (is_nil (trim_start (stxt new))) eqn:En; [|left; reflexivity].
      right. assert (En' : trim_start (stxt new) = []) by (destruct (trim_start (stxt new)); [reflexivity|discriminate]). rewrite parse_fuel_S, parse_eq. unfold of_parser. cbn [q_ist i_content top p_buf p_macros p_spans p_next p_alloc].
      rewrite (blank_token _ En'). cbn [after q_ist set_ist set_content i_buf i_content i_align app]. 
      exists (top (suffix_slice new []) al K sp' (nx + 1) (ac + blen (out ++ r))), (mkParser K [] m sp' (nx + 1) (ac + blen (out ++ r))).
      split; [reflexivity|]. split; [rewrite next_step_eq; reflexivity|]. cbn [top p_stack]. rewrite En'. reflexivity. }
    destruct Hfirst as [Hsame|(q & q' & Hq1 & Hq2 & Hq3)].
    - destruct Har as [(p' & Hs & Hq)|(es1 & es2 & p1 & -> & Hs & Hlim)].
      + left. exists p'. split; [|apply Hheld; exact Hq]. inversion Hs as [p0 E1 E2 E3|p0 p2 es0 p3 E1 E2 E3 E4 E5|p0 ev p2 es0 p3 E1 E2 E3 E4 E5].
        * exfalso. subst p'. destruct Hq as (sp2 & nx2 & ac2 & E & _). unfold top in E. apply (f_equal (fun p => length (p_stack p))) in E. cbn in E. lia.
        * subst. eapply st_cont; [rewrite <- Hsame; exact E1|exact E2].
        * subst. eapply st_item; [rewrite <- Hsame; exact E1|exact E2].
      + inversion Hs as [p0 E1 E2 E3|p0 p2 es0 p3 E1 E2 E3 E4 E5|p0 ev p2 es0 p3 E1 E2 E3 E4 E5].
        * subst. right. exists [], es2, (top c al K sp nx ac). split; [reflexivity|]. split; [constructor|].
          destruct Hlim as (pe & p2 & L1 & L2). exists pe, p2. split; [rewrite <- Hsame; exact L1|exact L2].
        * subst. right. exists es1, es2, p1. split; [reflexivity|]. split; [|exact Hlim]. eapply st_cont; [rewrite <- Hsame; exact E1|exact E2].
        * subst. right. eexists (ev :: es0), es2, p1. split; [reflexivity|]. split; [|exact Hlim]. eapply st_item; [rewrite <- Hsame; exact E1|exact E2].
    - assert (Har' : arrive q' es (held (sbase new) K sp')).
      { destruct Har as [(p' & Hs & Hq)|(es1 & es2 & p1 & -> & Hs & Hlim)].
        - left. exists p'. split; [|exact Hq]. inversion Hs as [p0 E1 E2 E3|p0 p2 es0 p3 E1 E2 E3 E4 E5|p0 ev p2 es0 p3 E1 E2 E3 E4 E5].
          + exfalso. subst p'. destruct Hq as (sp2 & nx2 & ac2 & E & _). unfold top in E. apply (f_equal (fun p => length (p_stack p))) in E. cbn in E. lia.
          + subst. rewrite Hq3 in E1. injection E1 as <-. exact E2.
          + subst. rewrite Hq3 in E1. discriminate.
        - inversion Hs as [p0 E1 E2 E3|p0 p2 es0 p3 E1 E2 E3 E4 E5|p0 ev p2 es0 p3 E1 E2 E3 E4 E5].
          + subst. destruct Hlim as (pe & p2 & L1 & L2). rewrite Hq3 in L1. discriminate.
          + subst. rewrite Hq3 in E1. injection E1 as <-. right. exists es1, es2, p1. auto.
          + subst. rewrite Hq3 in E1. discriminate. }
      apply (arrive_steps _ q' [] es); [eapply st_cont; [exact Hq1|eapply st_cont; [exact Hq2|constructor]]|].
      destruct Har' as [(p' & H1 & H2)|H]; [left; exists p'; auto|right; exact H].
  Qed.

  Lemma end_arrive : forall k s al, lex_token s = (Err EToken, []) -> ends k s al [].
  Proof.
    intros k s al H c K sp nx ac Hc Hpl Hle Hcnt.
    assert (Hlast : forall p', steps (top c al K sp nx ac) [] p' -> p' = mkParser K [] m sp nx ac -> arrive (top c al K sp nx ac) [] (held (sbase c) K sp)).
    { intros p' Hs E. left. exists p'. split; [exact Hs|]. exists sp, nx, ac. split; [exact E|]. split; [eapply steps_place; eassumption|]. auto. }
    destruct (blank_end (top c al K sp nx ac) c al K [] eq_refl eq_refl) as (c' & [E|[E1 E2]]).
    { rewrite (lex_token_same _ _ Hc). exact H. } { reflexivity. }
    - eapply Hlast; [eapply st_cont; [exact E|constructor]|reflexivity].
    - eapply Hlast; [eapply st_cont; [exact E2|]; eapply st_cont; [|constructor]|reflexivity].
      erewrite next_step_text by reflexivity. rewrite E1. reflexivity.
  Qed.

  Theorem formula_arrive : forall k s al es, @formula (calls e k) al s es -> ends k s al es.
  Proof.
    assert (Hgo : forall k, (forall s al es, calls e k al s es -> ends k s al es) ->
      forall n s al es, (length s < n)%nat -> @formula (calls e k) al s es -> ends k s al es).
    { intros k Hk. induction n as [|n IH]; intros s al es Hn H; [lia|].
      assert (IH' : forall s1 al1 es1, (length s1 < length s)%nat -> @formula (calls e k) al1 s1 es1 -> ends k s1 al1 es1) by (intros; eapply IH; [lia|eassumption]).
      clear IH. destruct H as [al s es Hkn|al b Hb|al b t Hb Ht|al s es r es' He Hf|kk mm b s es Hb Hkm H1 H2 Hf|kk mm b cs t s d s1 ls s2 es Hb Hin Hc Hd Hls H1 H2 Hf].
      - apply Hk, Hkn.
      - apply end_arrive, blank_token_end, Hb.
      - apply end_arrive, comment_token_end; assumption.
      - eapply (turns_arrive (calls e k)); [apply (@element_turn (calls e k)); exact He|exact IH'|exact Hf].
      - apply (turns_arrive (calls e k) k _ _ [EvFlow EFAlignment] _ _ es (@mark_turn (calls e k) kk mm b s Hb Hkm H1 H2)); assumption.
      - apply (turns_arrive (calls e k) k _ _ [EvFlow (EFNewLine d ls)] _ _ es (@row_turn (calls e k) kk mm b cs t s d s1 ls s2 Hb Hin Hc Hd Hls H1 H2)); assumption. }
    induction k as [|k IHk]; intros s al es H.
    - apply (Hgo 0%nat) with (n := S (length s)); [intros s' al' es' []|lia|exact H].
    - apply (Hgo (S k)) with (n := S (length s)); [apply calls_arrive; exact IHk|lia|exact H].
  Qed.
End Calls.

(** ** A text with definitions and uses *)

Lemma steps_reached : forall p es p', steps p es p' -> forall d, (exists n l, run n (new_parser d) = (l, OFuel, p)) ->
  exists n l, run n (new_parser d) = (l, OFuel, p').
Proof.
  intros p es p' H. induction H as [p|p p1 es p2 H1 H2 IH|p ev p1 es p2 H1 H2 IH]; intros d (n & l & Hn); [eauto|apply IH..].
  - exists (S n), l. eapply run_cont; eassumption.
  - exists (S n). eexists. eapply run_item; eassumption.
Qed.

(** The limit on the length of all expansions is reached in the run of [d]. *)
Definition bytes_reached (d : str) : Prop := exists n l p, run n (new_parser d) = (l, OFuel, p) /\ 2 ^ 20 <= s_total (p_spans p).

Theorem macros_arrive : forall k d es, text_with_macros k d es ->
  (exists n p, run n (new_parser d) = (map ItEvent es, ODone, p)) \/
  (exists es1 es2, es = es1 ++ es2 /\ shows (new_parser d) (es1, EndError EMacroRecursionLimit) /\ ((64 <= k)%nat \/ bytes_reached d)).
Proof.
  intros k d es (e & t & Hpre & Hnew & Hf).
  destruct (preamble_runs _ _ _ _ Hpre _ (ready_new d)) as (p & (c & E & B & Tx & R) & Hsp & Hsh & Q).
  assert (Hp : in_place p) by (apply Q; [exact place_cont|apply place_new]).
  destruct (Q (fun p => exists n, run n (new_parser d) = ([], OFuel, p))) as [n Hn].
  { intros a b Hab (n & Hn). eexists. eapply run_cont; eassumption. }
  { exists 0%nat. reflexivity. }
  destruct p as [st bf ms sp nx ac]. cbn [p_stack p_buf p_macros p_spans] in *. subst st bf.
  assert (Hexp : s_exp sp = []) by (rewrite Hsp; reflexivity).
  destruct (formula_arrive e ms k R Hnew k t None es Hf c [] sp nx ac) as [(p' & Hs & Hh)|(es1 & es2 & p1 & -> & Hs & Hlim)].
  - rewrite Tx. reflexivity.
  - exact Hp.
  - rewrite Hexp. cbn. lia.
  - rewrite Hexp. cbn. lia.
  - left. destruct Hh as (sp' & nx' & ac' & -> & _). destruct (steps_run _ _ _ Hs eq_refl) as [i Hi].
    assert (Hj : forall n p l q, run n p = ([], OFuel, q) -> forall i o z, run i q = (l, o, z) -> exists j, run j p = (l, o, z)).
    { clear. induction n as [|n IH]; intros p l q H i o z Hi.
      - injection H as <-. eauto.
      - cbn [run] in H. destruct (next_step p) as [[it| | |y| ] p1] eqn:En; try discriminate.
        + destruct (run n p1) as [[l1 o1] z1]. discriminate.
        + destruct (IH _ _ _ H _ _ _ Hi) as [j Hj]. exists (S j). cbn [run]. rewrite En. exact Hj.
        + pose proof (step_smaller p) as Hsm. rewrite En in Hsm. contradiction. }
    destruct (Hj _ _ _ _ Hn _ _ _ Hi) as [j Hrun]. eauto.
  - right. exists es1, es2. split; [reflexivity|]. destruct Hlim as (pe & q & Hq1 & Hq2 & Hq3). split.
    + apply Hsh. apply (steps_shows _ _ _ Hs). exists ([], EndError EMacroRecursionLimit). split; [|cbn; rewrite app_nil_r; reflexivity].
      apply shows_step. rewrite Hq1. cbn [shows_of]. congruence.
    + destruct Hq3 as [H|H]; [left; exact H|right].
      destruct (steps_reached _ _ _ Hs d) as (i & l & Hi); [exists n, []; exact Hn|].
      exists (S i), (l ++ [ItError pe]), q. split; [eapply run_item; eassumption|exact H].
Qed.
