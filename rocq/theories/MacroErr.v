(** * MacroErr: definitions that are refused, and expansions that fail. *)

From Coq Require Import List NArith ZArith Bool Lia Arith.
From Verif Require Import Base Float32 Event Tables Prim PrimTable Lex Macros Primitives Spans Parser
  SpecLex LexFacts LexMore PrimFacts Keep Measure Terminate KeepRun Api SpecNum LexNum SpecMacro MacroFacts Sim SimRun
  SpanFacts MacroRun Quiet Preamble LexPanic SpanRun SpecDefect.
Import ListNotations.
Open Scope N_scope.

Strategy 1000 [parse parse_fuel].

(** ** An error before any other *)

Lemma place_error : forall p s e c al, in_place p -> next_step p = after s (Err e, of_parser p c al) ->
  exists pe p', next_step p = (OItem (ItError pe), p') /\ pe_kind pe = e /\ p_macros p' = p_macros p.
Proof.
  intros p s e c al Hp Hn. pose proof (place_step p Hp) as Hs. rewrite Hn in *. cbn [after] in *.
  cbn [of_parser q_ist i_content q_spans i_align] in *. destruct Hp as (_ & _ & _ & _ & Ho & _).
  destruct (new_error_ok e c (p_spans p) Ho) as [(pe & s' & E & Ek)|(s' & E & _)]; rewrite E in *.
  - eexists. eexists. split; [reflexivity|]. split; [exact Ek|reflexivity].
  - congruence.
Qed.

Lemma place_cont : forall a b, next_step a = (OCont, b) -> in_place a -> in_place b.
Proof. intros a b H Ha. pose proof (place_step a Ha) as Hs. rewrite H in Hs. exact Hs. Qed.

(** ** Definitions with [\def] *)

(** [definition_body x rest]: after the name, the text [x] is a parameter text,
    a replacement text that fits it in braces, and [rest]. *)
Definition definition_body (x rest : str) : Prop :=
  exists brace pre (sufs : list str) rep,
    x = parameter_text brace pre sufs ++ 123 :: rep ++ 125 :: rest /\
    Forall param_char (parameter_text brace pre sufs) /\ ~ In 35 pre /\ Forall (fun s => ~ In 35 s) sufs /\ (length sufs <= 9)%nat /\
    balanced 123 125 rep /\ replacement (N.of_nat (length sufs)) rep.

Lemma split_once_some : forall c s u t, split_once_char c s = Some (u, t) -> s = u ++ c :: t /\ ~ In c u.
Proof.
  intros c. induction s as [|x s IH]; intros u t H; cbn [split_once_char] in H; [discriminate|].
  destruct (N.eqb_spec x c) as [->|Hx]; [injection H as <- <-; split; [reflexivity|intros []]|].
  destruct (split_once_char c s) as [[u' t']|]; [|discriminate]. injection H as <- <-. destruct (IH _ _ eq_refl) as [-> Hn].
  split; [reflexivity|]. intros [E|Hi]; [congruence|contradiction].
Qed.

Lemma bad_param_some : forall s c, bad_param_char s = Some c -> (c = 37 \/ c = 125) /\ exists u v, s = u ++ c :: v /\ ~ In 37 u /\ ~ In 125 u.
Proof.
  induction s as [|x s IH]; intros c H; cbn [bad_param_char] in H; [discriminate|].
  destruct ((x =? 37) || (x =? 125)) eqn:E.
  - injection H as <-. split; [apply orb_prop in E as [E|E]; apply N.eqb_eq in E; auto|]. exists [], s. repeat split; intros [].
  - apply orb_false_elim in E as [E1 E2]. apply N.eqb_neq in E1, E2. destruct (IH _ H) as (Hc & u & v & -> & H1 & H2). split; [exact Hc|].
    exists (x :: u), v. split; [reflexivity|]. split; (intros [Hx|Hx]; [congruence|contradiction]).
Qed.

Lemma bad_param_ok : forall s, bad_param_char s = None -> ~ In 123 s -> Forall param_char s.
Proof.
  induction s as [|x s IH]; intros H Hn; [constructor|]. cbn [bad_param_char] in H.
  destruct (N.eqb_spec x 37), (N.eqb_spec x 125); cbn [orb] in H; try discriminate.
  constructor; [unfold param_char; repeat split; try assumption; intros ->; apply Hn; left; reflexivity|].
  apply IH; [exact H|]. intros Hi. apply Hn. right. exact Hi.
Qed.

Lemma replacement_app : forall n u v, replacement n u -> replacement n v -> replacement n (u ++ v).
Proof. intros n u v H Hv. induction H; cbn [app]; [exact Hv|apply rep_char|apply rep_hash|eapply rep_param]; eauto. Qed.

Lemma replacement_errors : forall rep n e, parse_replacement rep n = Err e -> replacement_fault n rep e.
Proof.
  enough (Hall : forall k rep n e, (length rep <= k)%nat -> parse_replacement rep n = Err e -> replacement_fault n rep e) by (intros; eapply Hall; eauto).
  assert (Hpre : forall n u v e, replacement n u -> replacement_fault n v e -> replacement_fault n (u ++ v) e).
  { intros n u v e Hu [pre y H1 H2|pre c i y H1 H2 H3 H4]; rewrite app_assoc.
    - apply rf_alone; [apply replacement_app; assumption|exact H2].
    - apply rf_number; [apply replacement_app; assumption|assumption..]. }
  induction k as [|k IH]; intros rep n e Hk H.
  { destruct rep; [discriminate|cbn in Hk; lia]. }
  destruct (first_hash rep) as [Hn|(u & v & -> & Hu)]; [rewrite rep_nohash in H by exact Hn; discriminate|].
  assert (Hru : replacement n u) by (rewrite <- (app_nil_r u); apply replacement_prefix; [exact Hu|constructor]).
  rewrite app_length in Hk. cbn [length] in Hk.
  destruct v as [|c v]; [rewrite rep_end_hash in H by exact Hu; injection H as <-; apply rf_alone; [exact Hru|exact I]|]. cbn [length] in Hk.
  destruct (N.eq_dec c 35) as [->|Hc].
  - rewrite rep_two_hash in H by exact Hu. destruct (parse_replacement v n) as [l'|e'|?|] eqn:E; try discriminate. cbn [and_then] in H. injection H as <-.
    apply IH in E; [|lia]. change (u ++ 35 :: 35 :: v) with (u ++ [35; 35] ++ v). rewrite app_assoc. apply Hpre; [|exact E].
    apply replacement_prefix; [exact Hu|]. apply rep_hash. constructor.
  - destruct (is_digit c) eqn:Ed.
    + rewrite rep_digit in H by assumption. pose proof (proj1 (is_digit_iff c) Ed) as Hd. unfold digit, digit_val in *.
      destruct ((n <? c - 48) || (c - 48 =? 0)) eqn:Eb.
      * injection H as <-. apply rf_number; [exact Hru|lia|lia|]. apply orb_prop in Eb as [Eb|Eb]; [right; apply N.ltb_lt, Eb|left; apply N.eqb_eq, Eb].
      * apply orb_false_elim in Eb as [Eb1 Eb2]. apply N.ltb_ge in Eb1. apply N.eqb_neq in Eb2.
        destruct (parse_replacement v n) as [l'|e'|?|] eqn:E; try discriminate. cbn [and_then] in H. injection H as <-.
        apply IH in E; [|lia]. change (u ++ 35 :: c :: v) with (u ++ [35; c] ++ v). rewrite app_assoc. apply Hpre; [|exact E].
        apply replacement_prefix; [exact Hu|]. apply (rep_param n c (c - 48)); [lia|lia|lia|constructor].
    + rewrite rep_other in H by assumption. injection H as <-. apply rf_alone; [exact Hru|]. cbn. intros [Hd|Hd]; [|contradiction].
      apply is_digit_iff in Hd. congruence.
Qed.

Lemma params_errors : forall (ps : list str) i e, 1 <= i <= 10 -> Forall (fun p => ~ In 35 p) ps -> parse_params i ps = Err e ->
  exists q, flat_map (fun p => 35 :: p) ps = q /\ (forall z, not_next digit z -> z <> [] -> parameters_fault i (q ++ z) e) /\
    (ends_with_char 35 q = false -> parameters_fault i q e).
Proof.
  assert (Hstep : forall i suf q e, ~ In 35 suf -> i <= 9 -> parameters_fault (i + 1) q e -> parameters_fault i ((35 :: 48 + i :: suf) ++ q) e).
  { intros i suf q e Hsuf Hi [sufs y H1 H2 H3 H4|sufs c k y H1 H2 H3 H4 H5].
    - rewrite app_assoc. apply (pf_alone i (suf :: sufs) y); [constructor; assumption|cbn [length]; lia|assumption..].
    - rewrite app_assoc. replace (i + 1 + N.of_nat (length sufs)) with (i + N.of_nat (length (suf :: sufs))) by (cbn [length]; lia).
      apply (pf_order i (suf :: sufs) c k y); [constructor; assumption|cbn [length]; lia|assumption|assumption|cbn [length]; lia]. }
  induction ps as [|p ps IH]; intros i e Hi Hps H; cbn [parse_params] in H; [discriminate|].
  eexists. split; [reflexivity|]. inversion Hps as [|? ? Hp Hps']; subst. cbn [flat_map].
  destruct p as [|c suf].
  { injection H as <-. split.
    - intros z Hz Hne. destruct ps as [|p ps]; cbn [flat_map app].
      + apply (pf_alone i [] z); [constructor|cbn; lia|exact Hz|exact Hne].
      + apply (pf_alone i [] (35 :: (p ++ flat_map (fun p => 35 :: p) ps) ++ z)); [constructor|cbn; lia|cbn; unfold digit; lia|discriminate].
    - intros He. destruct ps as [|p ps]; [discriminate|]. cbn [flat_map app].
      apply (pf_alone i [] (35 :: p ++ flat_map (fun p => 35 :: p) ps)); [constructor|cbn; lia|cbn; unfold digit; lia|discriminate]. }
  destruct (is_digit c) eqn:Ed.
  - pose proof (proj1 (is_digit_iff c) Ed) as Hd. unfold digit, digit_val in *. destruct (N.eqb_spec (c - 48) i) as [Ei|Ei].
    + destruct (parse_params (i + 1) ps) as [|e'| |] eqn:E; try discriminate. injection H as <-.
      assert (Hsuf : ~ In 35 suf) by (intros Hx; apply Hp; right; exact Hx). replace c with (48 + i) by lia.
      destruct (IH (i + 1) e' ltac:(lia) Hps' E) as (q & Eq & Hq1 & Hq2). rewrite Eq. cbn [app].
      split.
      * intros z Hz Hne. cbn [app]. rewrite <- app_assoc. apply (Hstep i suf (q ++ z) e'); [exact Hsuf|lia|]. apply Hq1; assumption.
      * intros He. apply (Hstep i suf q e'); [exact Hsuf|lia|]. apply Hq2. rewrite <- He.
        destruct q as [|x q]; [destruct ps as [|? ?]; [discriminate E|discriminate Eq]|]. symmetry.
        change (35 :: 48 + i :: suf ++ x :: q) with ((35 :: 48 + i :: suf) ++ x :: q).
        generalize (35 :: 48 + i :: suf). intros l. clear. induction l as [|y l IHl]; [reflexivity|]. cbn [app ends_with_char].
        destruct (l ++ x :: q) eqn:El; [destruct l; discriminate|]. exact IHl.
    + injection H as <-.
      assert (Hall : forall y, parameters_fault i (35 :: c :: y) (EIncorrectMacroParams (c - 48) i)).
      { intros y. pose proof (pf_order i [] c (c - 48) y) as G. cbn [length N.of_nat parameters app] in G. rewrite N.add_0_r in G.
        apply G; [constructor|lia|lia|lia|exact Ei]. }
      split; [intros z _ _|intros _]; apply Hall.
  - injection H as <-. assert (Hnd : ~ digit c) by (intros Hx; apply is_digit_iff in Hx; congruence). split.
    + intros z _ _. apply (pf_alone i [] (c :: (suf ++ flat_map (fun p => 35 :: p) ps) ++ z)); [constructor|cbn; lia|exact Hnd|discriminate].
    + intros _. apply (pf_alone i [] (c :: suf ++ flat_map (fun p => 35 :: p) ps)); [constructor|cbn; lia|exact Hnd|discriminate].
Qed.

Lemma make_macro_errors : forall pt rep e, make_macro pt rep = Err e ->
  (exists pre q, pt = pre ++ q /\ ~ In 35 pre /\ parameters_fault 1 q e) \/
  exists brace pre (sufs : list str), pt = parameter_text brace pre sufs /\ ~ In 35 pre /\ Forall (fun s => ~ In 35 s) sufs /\ (length sufs <= 9)%nat /\
    replacement_fault (N.of_nat (length sufs)) rep e.
Proof.
  intros pt rep e H. unfold make_macro in H.
  assert (Hb : exists (brace : bool) (t : str), pt = t ++ (if brace then [35] else [] : str) /\ ends_with_char 35 pt = brace /\
     (if ends_with_char 35 pt then removelast pt else pt) = t).
  { destruct (ends_hash_cases pt) as [E|(u & -> & E)].
    - exists false, pt. rewrite E, app_nil_r. auto.
    - exists true, u. rewrite E, removelast_last. auto. }
  destruct Hb as (brace & t & -> & Ebr & Et). rewrite Et in H.
  destruct (split_char 35 t) as [|u ps] eqn:Es; [discriminate|]. apply split_join in Es as (H1 & H2 & ->).
  destruct (parse_params 1 ps) as [params|e'|?|] eqn:Ep; try discriminate.
  - right. apply parse_params_inv in Ep; [|lia]. destruct Ep as (sufs & -> & -> & Hl).
    rewrite map_length in H. destruct (parse_replacement rep _) as [l|e'|?|] eqn:Er; try discriminate. injection H as <-.
    exists brace, u, sufs. unfold parameter_text. rewrite pieces_text, <- app_assoc. split; [reflexivity|]. split; [exact H1|].
    split; [eapply pieces_nohash; exact H2|]. split; [clear - Hl; destruct Hl as [Hl|Hl]; [subst sufs; apply Nat.le_0_l|lia]|].
    apply replacement_errors, Er.
  - left. injection H as <-. destruct (params_errors ps 1 e' ltac:(lia) H2 Ep) as (q & Eq & Hq1 & Hq2). rewrite Eq, <- app_assoc.
    exists u, (q ++ (if brace then [35] else [])). split; [reflexivity|]. split; [exact H1|]. destruct brace.
    + apply Hq1; [cbn; unfold digit; lia|discriminate].
    + rewrite app_nil_r. apply Hq2. rewrite app_nil_r, Eq in Ebr.
      destruct q as [|x q]; [reflexivity|]. rewrite <- Ebr. clear. induction u as [|y u IHu]; [reflexivity|]. cbn [app]. rewrite IHu. cbn [ends_with_char].
      destruct (u ++ x :: q) eqn:El; [destruct u; discriminate|]. reflexivity.
Qed.

Lemma def_fail : forall p c al s r0 e r, p_stack p = ISub c al :: s -> p_buf p = [] ->
  lex_token (stxt c) = (Ok (TCs (lit "def")), r0) -> ctx_get (p_macros p) (lit "def") = None ->
  (lex_definition r0 = (Err e, r) \/ exists n pt rep, lex_definition r0 = (Ok (n, pt, rep), r) /\ make_macro pt rep = Err e) ->
  next_step p = after s (Err e, of_parser p (suffix_slice (suffix_slice c r0) r) al).
Proof.
  intros p c al s r0 e r Hs Hb Hl Hm Hd. rewrite (prim_step _ _ _ _ _ _ Hs Hl Hm).
  unfold run_inner, parse_atom, handle_prim. cbn [q_ist of_parser bind].
  cbn [hprim]. unfold hprim_body. replace (lookup_prim (lit "def")) with PDef by (vm_compute; reflexivity).
  unfold bind, lexc, modify, lift. cbn [i_content set_content q_ist of_parser stxt suffix_slice].
  destruct Hd as [Hd|(n & pt & rep & Hd & Hmk)]; rewrite Hd; cbn [fst snd]; [reflexivity|]. rewrite Hmk. reflexivity.
Qed.

(** Reading a definition after its name. *)
Lemma definition_cases : forall s n x, named s n x ->
  (exists rest pt rep d, definition_body x rest /\ lex_definition (92 :: s) = (Ok (n, pt, rep), rest) /\ make_macro pt rep = Ok d) \/
  ((forall rest, ~ definition_body x rest) /\ exists e r, definition_fault x e /\
    (lex_definition (92 :: s) = (Err e, r) \/ exists pt rep, lex_definition (92 :: s) = (Ok (n, pt, rep), r) /\ make_macro pt rep = Err e)).
Proof.
  intros s n x Hn.
  assert (Hb : forall rest, definition_body x rest -> exists pt rep d, lex_definition (92 :: s) = (Ok (n, pt, rep), rest) /\ make_macro pt rep = Ok d).
  { intros rest (brace & pre & sufs & rep & Hx & H1 & H2 & H3 & H4 & H5 & H6). apply replacement_iff in H6 as [l Hl].
    exists (parameter_text brace pre sufs), rep, (MDMacro (delimiter pre) (map delimiter sufs) brace l). split.
    - apply read_definition; [rewrite <- Hx; exact Hn|exact H1|exact H5].
    - apply make_macro_iff. exists brace, pre, sufs, l. auto 8. }
  assert (Hread : lex_definition (92 :: s) = match split_once_char 123 x with
    | None => (Err EMissingExpansion, x)
    | Some (ptext, rest) => match bad_param_char ptext with
       | Some c => (Err (if c =? 37 then ECommentInParamText else EBracesInParamText), x)
       | None => match group_content GKNormal rest with (Ok rep, r) => (Ok (n, ptext, rep), r) | (Err e, r) => (Err e, r) | (Panic q, r) => (Panic q, r) | (Fuel, r) => (Fuel, r) end
       end end).
  { unfold lex_definition, bind, control_sequence. cbn [N.eqb Pos.eqb]. rewrite (rhs_cs_named _ _ _ Hn). unfold get.
    destruct (split_once_char 123 x) as [[pt rest]|]; [|reflexivity]. destruct (bad_param_char pt); [reflexivity|]. unfold put.
    destruct (group_content GKNormal rest) as [[?|?|?|] ?]; reflexivity. }
  assert (Hfail : forall e r, definition_fault x e ->
    (lex_definition (92 :: s) = (Err e, r) \/ exists pt rep, lex_definition (92 :: s) = (Ok (n, pt, rep), r) /\ make_macro pt rep = Err e) ->
    (forall rest, ~ definition_body x rest) /\ exists e r, definition_fault x e /\
    (lex_definition (92 :: s) = (Err e, r) \/ exists pt rep, lex_definition (92 :: s) = (Ok (n, pt, rep), r) /\ make_macro pt rep = Err e)).
  { intros e r He H. split; [|exists e, r; auto]. intros rest Hbody. destruct (Hb rest Hbody) as (pt & rep & d & E1 & E2).
    destruct H as [H|(pt' & rep' & H & H')]; [congruence|]. rewrite E1 in H. injection H as <- <- <-. congruence. }
  destruct (split_once_char 123 x) as [[pt rest]|] eqn:Es; [|right; eapply (Hfail EMissingExpansion); [apply df_missing, split_once_char_none, Es|left; exact Hread]].
  pose proof (split_once_some _ _ _ _ Es) as [Ex Hno].
  destruct (bad_param_char pt) as [c|] eqn:Ep.
  { right. eapply Hfail; [|left; exact Hread]. rewrite Ex. destruct (bad_param_some _ _ Ep) as (Hc & u & v & -> & H1 & H2).
    assert (H3 : ~ In 123 (u ++ v)) by (intros Hi; apply Hno; rewrite in_app_iff in Hi |- *; cbn [In]; tauto).
    destruct Hc as [-> | ->]; [apply df_comment|apply df_brace]; assumption. }
  destruct (group_content_cases GKNormal rest) as [(rep & r & E)|(r & E & _)]; rewrite E in Hread;
    [|right; eapply (Hfail (EUnbalancedGroup (Some GKNormal))); [|left; exact Hread]].
  2:{ rewrite Ex. apply df_open; [apply bad_param_ok; assumption|]. intros g r' Hg ->. pose proof (proj2 (group_content_balanced GKNormal 123 125 (or_introl (conj eq_refl (conj eq_refl eq_refl))) (g ++ 125 :: r') g r') (conj eq_refl Hg)) as E'. congruence. }
  pose proof (make_macro_tame (fun _ => False) pt rep) as Ht. pose proof (nf_make_macro pt rep) as Hnf.
  destruct (make_macro pt rep) as [d|e|q|] eqn:Em; cbn [tame] in Ht; [|right|contradiction|congruence].
  - left. exists r, pt, rep, d. split; [|auto]. apply make_macro_iff in Em as (brace & pre & sufs & l & -> & H1 & H2 & H3 & H4 & _).
    rewrite Ex. apply (group_content_balanced GKNormal 123 125) in E as [-> Hbal]; [|left; auto].
    exists brace, pre, sufs, rep. split; [reflexivity|]. split; [apply bad_param_ok; assumption|]. repeat (split; [assumption|]).
    apply replacement_iff. eauto.
  - eapply Hfail; [|right; eauto]. rewrite Ex. apply (group_content_balanced GKNormal 123 125) in E as [-> Hbal]; [|left; auto].
    destruct (make_macro_errors _ _ _ Em) as [(pre & q & -> & H1 & H2)|(brace & pre & sufs & -> & H1 & H2 & H3 & H4)].
    + apply df_parameters; try assumption. apply bad_param_ok; assumption.
    + apply df_replacement; try assumption. apply bad_param_ok; assumption.
Qed.

(** One more round. *)
Lemma run_cont : forall n p l q q', run n p = (l, OFuel, q) -> next_step q = (OCont, q') -> run (S n) p = (l, OFuel, q').
Proof.
  induction n as [|n IH]; intros p l q q' H Hq.
  - cbn [run] in H |- *. injection H as <- <-. rewrite Hq. reflexivity.
  - cbn [run] in H. pose proof (step_smaller p) as Hs. change (run (S (S n)) p) with (match next_step p with
      | (OCont, p') => run (S n) p' | (OItem i, p') => let '(l, o, p'') := run (S n) p' in (i :: l, o, p'') | (o, p') => ([], o, p') end).
    destruct (next_step p) as [[i| | |y| ] p1]; try discriminate; [| |contradiction].
    + destruct (run n p1) as [[l1 o1] z] eqn:E. injection H as <- -> ->. rewrite (IH _ _ _ _ E Hq). reflexivity.
    + apply IH with (q := q); assumption.
Qed.

Lemma run_item : forall n p l q i q', run n p = (l, OFuel, q) -> next_step q = (OItem i, q') -> run (S n) p = ((l ++ [i])%list, OFuel, q').
Proof.
  induction n as [|n IH]; intros p l q i q' H Hq.
  - cbn [run] in H |- *. injection H as <- <-. rewrite Hq. reflexivity.
  - cbn [run] in H. pose proof (step_smaller p) as Hs. change (run (S (S n)) p) with (match next_step p with
      | (OCont, p') => run (S n) p' | (OItem i, p') => let '(l, o, p'') := run (S n) p' in (i :: l, o, p'') | (o, p') => ([], o, p') end).
    destruct (next_step p) as [[j| | |y| ] p1]; try discriminate; [| |contradiction].
    + destruct (run n p1) as [[l1 o1] z] eqn:E. injection H as <- -> ->. rewrite (IH _ _ _ _ _ E Hq). reflexivity.
    + apply IH with (q := q); assumption.
Qed.

(** The run of a parser whose first item is an error. *)
Lemma first_error_spans : forall e d s x, preamble [] e d s ->
  (forall p c, p_stack p = [ISub c None] -> p_buf p = [] -> stxt c = s -> represents e (p_macros p) -> p_spans p = p_spans (new_parser d) ->
    exists c2, next_step p = after [] (Err x, of_parser p c2 None)) ->
  shows (new_parser d) ([], EndError x) /\
  exists n pe q, run n (new_parser d) = ([ItError pe], OFuel, q) /\ pe_kind pe = x /\ represents e (p_macros q).
Proof.
  intros e d s x Hpre Hstep.
  destruct (preamble_runs _ _ _ _ Hpre _ (ready_new d)) as (p & (c & E & B & T & R) & Hsp & S & Q).
  assert (Hp : in_place p) by (apply Q; [exact place_cont|apply place_new]).
  destruct (Hstep p c E B T R Hsp) as [c2 En]. destruct (place_error _ _ _ _ _ Hp En) as (pe & q & En' & Ek & Em).
  split; [apply S, shows_step; rewrite En'; cbn [shows_of]; congruence|].
  destruct (Q (fun p => exists n, run n (new_parser d) = ([], OFuel, p))) as [n Hn].
  - intros a b Hab (n & Hn). eexists. eapply run_cont; eassumption.
  - exists 0%nat. reflexivity.
  - exists (Datatypes.S n), pe, q. split; [apply (run_item _ _ _ _ _ _ Hn En')|]. split; [exact Ek|]. rewrite Em. exact R.
Qed.

Lemma first_error : forall e d s x, preamble [] e d s ->
  (forall p c, p_stack p = [ISub c None] -> p_buf p = [] -> stxt c = s -> represents e (p_macros p) ->
    exists c2, next_step p = after [] (Err x, of_parser p c2 None)) ->
  shows (new_parser d) ([], EndError x) /\
  exists n pe q, run n (new_parser d) = ([ItError pe], OFuel, q) /\ pe_kind pe = x /\ represents e (p_macros q).
Proof. intros e d s x Hpre Hstep. eapply first_error_spans; [exact Hpre|]. intros. eapply Hstep; eassumption. Qed.

(** A definition that is not valid is refused, and changes no meaning. *)
Theorem def_refused : forall e d b w s n x, preamble [] e d (b ++ 92 :: lit "def" ++ w ++ 92 :: s) -> blank b -> Forall white w ->
  find (lit "def") e = None -> named s n x -> (forall rest, ~ definition_body x rest) ->
  exists k, definition_fault x k /\ shows (new_parser d) ([], EndError k) /\
    exists i pe q, run i (new_parser d) = ([ItError pe], OFuel, q) /\ pe_kind pe = k /\ represents e (p_macros q).
Proof.
  intros e d b w s n x Hpre Hb Hw Hf Hn Hbad.
  destruct (definition_cases s n x Hn) as [(rest & _ & _ & _ & Hx & _)|(_ & k & r & Hk & Hd)]; [exfalso; eapply Hbad; exact Hx|].
  exists k. split; [exact Hk|]. eapply first_error; [exact Hpre|]. intros p c Hs Hbuf Hc Hm. eexists.
  eapply def_fail; [exact Hs|exact Hbuf|rewrite Hc; apply def_token; assumption|eapply represents_none; eassumption|].
  destruct Hd as [Hd|(pt & rep & Hd & Hmk)]; [left; exact Hd|right; eauto].
Qed.

(** A blank text shows nothing. *)
Lemma blank_shows : forall p c, p_stack p = [ISub c None] -> p_buf p = [] -> blank (stxt c) -> shows p ([], EndDone).
Proof.
  intros p c Hs Hb Hc.
  assert (Hpop : forall p, p_stack p = [] -> shows p ([], EndDone)).
  { intros p0 H. apply shows_step. rewrite next_step_eq, H. reflexivity. }
  apply shows_step. rewrite (next_step_text _ _ _ _ Hs). destruct (is_nil (trim_start (stxt c))); [apply Hpop; reflexivity|].
  rewrite parse_fuel_S, parse_eq. cbn [q_ist of_parser i_content].
  assert (Hl : lex_token (stxt c) = (Err EToken, [])).
  { unfold lex_token. rewrite <- (app_nil_r (stxt c)), skip_blank_app; [reflexivity|exact Hc]. }
  rewrite Hl. cbn [after q_ist set_ist set_content i_buf of_parser shows_of]. rewrite Hb. cbn [app to_parser q_ist set_ist set_content i_content i_align].
  apply shows_step. rewrite (next_step_text _ (suffix_slice c []) None []) by reflexivity.
  cbn [suffix_slice stxt trim_start is_nil]. apply Hpop. reflexivity.
Qed.

Theorem def_accepted : forall e d b w s n x rest, preamble [] e d (b ++ 92 :: lit "def" ++ w ++ 92 :: s) -> blank b -> Forall white w ->
  find (lit "def") e = None -> named s n x -> definition_body x rest -> blank rest -> shows (new_parser d) ([], EndDone).
Proof.
  intros e d b w s n x rest Hpre Hb Hw Hf Hn Hx Hrest.
  destruct (preamble_runs _ _ _ _ Hpre _ (ready_new d)) as (p & (c & E & B & T & R) & _ & S & _).
  apply S. destruct (definition_cases s n x Hn) as [(rest' & pt & rep & d' & Hx' & Hl & Hmk)|(Hno & _)]; [|exfalso; eapply Hno; exact Hx].
  assert (rest' = rest).
  { destruct Hx as (br & pre & sufs & rep1 & Hx1 & H1 & H2 & H3 & H4 & H5 & H6).
    assert (Hn' : named s n (parameter_text br pre sufs ++ 123 :: rep1 ++ 125 :: rest)) by (rewrite <- Hx1; exact Hn).
    pose proof (read_definition s n _ rep1 rest Hn' H1 H5) as Hr. rewrite Hr in Hl. congruence. }
  subst rest'. apply shows_step. rewrite (def_step p c None [] (92 :: s) n pt rep rest d' E B); try assumption.
  - cbn [shows_of]. eapply blank_shows; [reflexivity|reflexivity|]. exact Hrest.
  - rewrite T. apply def_token; assumption.
  - eapply represents_none; eassumption.
Qed.

(** ** The [\newcommand] family *)

Theorem command_refused : forall e d s bb n k dflt rep rest, preamble [] e d s -> command_text (Some bb) n k dflt rep rest s ->
  k <= 9 -> replacement k rep -> not_next (fun c => white c \/ c = 94 \/ c = 95) rest -> find (command_name (Some bb)) e = None ->
  (if bb then find n e = None else find n e <> None) ->
  let x := if bb then EMacroNotDefined else EMacroAlreadyDefined in
  shows (new_parser d) ([], EndError x) /\
  exists i pe q, run i (new_parser d) = ([ItError pe], OFuel, q) /\ pe_kind pe = x /\ represents e (p_macros q).
Proof.
  intros e d s bb n k dflt rep rest Hpre Ht Hk Hr Hn Hf Hc. cbv zeta. eapply first_error; [exact Hpre|].
  intros p c Hs Hb Ec Hm. rewrite <- Ec in Ht.
  destruct (command_step (Some bb) p c None [] n k dflt rep rest Hs Hb (represents_none _ _ _ Hm Hf) Ht Hk Hr Hn) as (l & c' & _ & H). cbv zeta in H.
  rewrite (represents_known _ _ _ Hm) in H. exists c'. destruct bb.
  - rewrite Hc in H. exact H.
  - destruct (find n e); [exact H|contradiction].
Qed.

(** ** Arguments are never missing *)

Definition no_end (s : str) : Prop := s = [] \/ last s 0 <> 92.

Lemma last_app_cons : forall (u : str) c r d, last (u ++ c :: r) d = last (c :: r) d.
Proof.
  induction u as [|x u IH]; intros c r d; [reflexivity|]. cbn [app]. rewrite last_cons; [apply IH|]. destruct u; discriminate.
Qed.

Lemma no_end_suffix : forall r s, suffix r s -> no_end s -> no_end r.
Proof.
  intros r s [u ->] H. destruct r as [|c r]; [left; reflexivity|]. right. destruct H as [H|H]; [destruct u; discriminate|].
  rewrite last_app_cons in H. exact H.
Qed.

Lemma args_index : forall lb ps s, Forall some_ne ps -> no_end s -> tame (fun x => x <> PIndex) (fst (macro_args lb ps s)).
Proof.
  intros lb. induction ps as [|p ps IH]; intros s Hp Hs; [exact I|]. inversion Hp as [|? ? H1 H2]; subst. cbn [macro_args].
  destruct (is_nil ps && lb).
  - unfold bind at 1, get. destruct (split_once_str _ s) as [[b ?]|]; exact I.
  - apply bind_tame.
    + destruct p as [suf|]; apply bind_tame; try (intros; exact I); [|apply argument_tame].
      destruct (content_with_suffix suf s) as [[?|?|x|] r] eqn:E; try exact I. apply content_with_suffix_panic in E as (-> & Hne & Hl); [|exact H1].
      destruct Hs; contradiction.
    + intros a r Hr. apply bind_tame; [apply IH; [exact H2|]|intros; exact I].
      eapply no_end_suffix; [|exact Hs]. change r with (snd (Ok a, r)). rewrite <- Hr.
      destruct p as [suf|]; (apply ls_bind; [|intros; apply ls_ret]); [apply content_with_suffix_suffix; exact H1|apply lex_argument_suffix].
Qed.

Theorem expand_index : forall d s, defn_ok d -> expand_definition d s = Panic PIndex -> s <> [] /\ last s 0 = 92.
Proof.
  intros d s Hd H.
  assert (Hx : no_end s -> tame (fun x => x <> PIndex) (expand_definition d s)).
  { intros Hs. unfold expand_definition. assert (Hc : tame (fun x => x <> PIndex) (fst (expand_call d s))).
    { unfold expand_call. destruct d as [pre ps lb rep|t|n def rep].
      - unfold bind at 1, get. apply bind_tame.
        + destruct pre as [p|]; [destruct (strip_prefix p s)|]; exact I.
        + intros u r Hr. apply bind_tame; [apply args_index; [apply Hd|]|].
          * eapply no_end_suffix; [|exact Hs]. destruct pre as [p|]; [|injection Hr as _ <-; exists []; reflexivity].
            destruct (strip_prefix p s) as [z|] eqn:Ez; [|discriminate]. injection Hr as _ <-. apply strip_prefix_some in Ez. exists p. exact Ez.
          * intros args r2 Ha. apply macro_args_length in Ha. destruct Hd as [Hrep _].
            destruct (rep_ok_expands _ _ args Hrep) as [out Eo]; [congruence|]. rewrite Eo. exact I.
      - destruct t; exact I.
      - destruct Hd as [Hrep _]. apply bind_tame.
        + destruct def; [|exact I]. apply bind_tame; [apply optional_tame|intros; exact I].
        + intros first r Hr. destruct (N.ltb_spec n (match def with None => 0 | Some _ => 1 end)) as [|Hle]; [discriminate|].
          apply bind_tame; [apply n_args_tame|]. intros l r2 Ha. apply n_args_length in Ha.
          destruct (rep_ok_expands _ _ (first ++ l) Hrep) as [out Eo]; [|rewrite Eo; exact I].
          rewrite app_length, Ha. assert (Hf : length first = match def with None => 0%nat | Some _ => 1%nat end).
          { destruct def as [t|]; [|injection Hr as <- _; reflexivity]. unfold bind in Hr. destruct (optional_argument s) as [[?|?|?|] ?]; try discriminate.
            injection Hr as <- _. reflexivity. }
          rewrite Hf. destruct def; lia. }
    destruct (expand_call d s) as [[?|?|?|] ?]; exact Hc. }
  destruct s as [|c s]; [exfalso|split; [discriminate|]].
  - rewrite H in Hx. apply Hx; [left; reflexivity|reflexivity].
  - destruct (N.eq_dec (last (c :: s) 0) 92) as [E|E]; [exact E|]. exfalso. rewrite H in Hx. apply Hx; [right; exact E|reflexivity].
Qed.

Lemma reached_definitions : forall input n, defs_ok (p_macros (parser_of (run n (new_parser input)))).
Proof.
  intros input n. assert (H : let '(l, o, p) := run n (new_parser input) in PInv (fun _ => True) defs_ok p /\ Forall item_ok l).
  { apply keep_run.
    - auto.
    - apply defs_closed.
    - auto.
    - split; [repeat constructor|]. split; [constructor|]. intros k d H. discriminate. }
  destruct (run n (new_parser input)) as [[l o] p]. apply H.
Qed.

(** ** The limits *)

Lemma add_span_total : forall new orig len s, s_total (snd (add_span new orig len s)) = s_total s.
Proof.
  intros. destruct (add_span new orig len s) as [r s'] eqn:E. apply add_span_never in E as (E & _). exact E.
Qed.

Lemma parse_limit : forall f q, max_expansion_bytes <= s_total (q_spans q) -> s_total (q_spans (snd (parse f q))) = s_total (q_spans q).
Proof.
  intros [|f] q H; [reflexivity|]. rewrite parse_eq.
  destruct (lex_token (stxt (i_content (q_ist q)))) as [[[cs|ctx]|e|p|] r]; try reflexivity.
  - destruct (ctx_get (i_macros (q_ist q)) cs) as [d|]; [|unfold run_inner; destruct (parse_atom _ _); reflexivity].
    destruct (N.leb_spec max_expansion_bytes (s_total (q_spans q))); [|lia]. rewrite orb_true_r.
    destruct (expand_definition d r) as [[txt k]|e|p|]; reflexivity.
  - unfold run_inner. destruct (parse_atom _ _). reflexivity.
  - destruct e; reflexivity.
Qed.

Lemma step_limit : forall p, max_expansion_bytes <= s_total (p_spans p) -> s_total (p_spans (snd (next_step p))) = s_total (p_spans p).
Proof.
  intros p H. rewrite next_step_eq. destruct (p_stack p) as [|[e|c al] s]; [reflexivity|reflexivity|]. destruct (is_nil _); [reflexivity|].
  pose proof (parse_limit parse_fuel (of_parser p c al) H) as Hp. revert Hp. generalize (parse parse_fuel (of_parser p c al)). intros [r q] Hp.
  cbn [snd of_parser q_spans] in Hp. rewrite <- Hp. destruct r as [[[[e n] m]|]|e|x|]; cbn [after]; try reflexivity.
  - destruct (order_scripts _ _ _); reflexivity.
  - destruct (new_error e _ _) as [re sp] eqn:Ee. apply new_error_never in Ee. destruct re as [pe|?|?|]; try contradiction; [|reflexivity].
    destruct Ee as [Ee _]. exact Ee.
Qed.

(** Without an error, what is allocated is what is counted. *)
Lemma parse_counted : forall f q, q_alloc q = s_total (q_spans q) ->
  match fst (parse f q) with Ok _ => q_alloc (snd (parse f q)) = s_total (q_spans (snd (parse f q))) | _ => True end.
Proof.
  induction f as [|f IH]; intros q H; [exact I|]. rewrite parse_eq.
  destruct (lex_token (stxt (i_content (q_ist q)))) as [[[cs|ctx]|e|p|] r]; try exact I.
  - destruct (ctx_get (i_macros (q_ist q)) cs) as [d|].
    + destruct (expand_definition d r) as [[txt k]|e|p|]; try exact I. destruct (_ || _); [exact I|].
      pose proof (add_span_total (mkSlice (q_next q) 0 txt) (suffix_slice (i_content (q_ist q)) (trim_start (stxt (i_content (q_ist q)))))
        (blen cs + k + 1) (add_total (blen txt) (q_spans q))) as Ht.
      destruct (add_span _ _ _ _) as [[?|?|?|] sp]; try exact I. apply IH. cbn [q_alloc q_spans]. cbn [snd add_total s_total] in Ht. rewrite Ht, H. reflexivity.
    + unfold run_inner. destruct (parse_atom _ _) as [[?|?|?|] ?]; try exact I. exact H.
  - unfold run_inner. destruct (parse_atom _ _) as [[?|?|?|] ?]; try exact I. exact H.
  - destruct e; try exact I. exact H.
Qed.

Lemma run_counted : forall n p l o q, run n p = (l, o, q) -> p_alloc p = s_total (p_spans p) -> error_free l ->
  match o with OPanic _ => True | _ => p_alloc q = s_total (p_spans q) end.
Proof.
  induction n as [|n IH]; intros p l o q H Hp Hl; cbn [run] in H; [injection H as <- <- <-; exact Hp|].
  assert (Hstep : match next_step p with
    | (OItem (ItEvent _), p') | (OCont, p') | (ODone, p') => p_alloc p' = s_total (p_spans p') | _ => True end).
  { rewrite next_step_eq. destruct (p_stack p) as [|[e|c al] s]; [exact Hp|exact Hp|]. destruct (is_nil _); [exact Hp|].
    pose proof (parse_counted parse_fuel (of_parser p c al) Hp) as Hc. revert Hc.
    generalize (parse parse_fuel (of_parser p c al)). intros [[[[[e n0] m]|]|e|z|] q0]; cbn [after fst snd]; intros Hc; try exact I.
    - destruct (order_scripts _ _ _); try exact I. exact Hc.
    - exact Hc.
    - destruct (new_error _ _ _) as [[?|?|?|] ?]; exact I. }
  pose proof (step_smaller p) as Hsm.
  destruct (next_step p) as [[[e|pe]| | |x| ] p'] eqn:E; try contradiction.
  - destruct (run n p') as [[l' o'] q'] eqn:Er. injection H as <- <- <-. eapply IH; eassumption.
  - destruct (run n p') as [[l' o'] q'] eqn:Er. injection H as <- <- <-. discriminate.
  - eapply IH; eassumption.
  - injection H as <- <- <-. exact Hstep.
  - injection H as <- <- <-. exact I.
Qed.

(** Past a limit, the use of a macro is an error. *)
Lemma limit_reported : forall p c al s cs r d, in_place p -> p_stack p = ISub c al :: s -> lex_token (stxt c) = (Ok (TCs cs), r) ->
  ctx_get (p_macros p) cs = Some d -> 64 <= N.of_nat (length (s_exp (p_spans p))) \/ 2 ^ 20 <= s_total (p_spans p) ->
  (exists pe p', next_step p = (OItem (ItError pe), p') /\ pe_kind pe = EMacroRecursionLimit) \/
  (exists x p', next_step p = (OPanic x, p') /\ expand_definition d r = Panic x).
Proof.
  intros p c al s cs r d Hp Hs Hl Hd Hlim. rewrite (next_step_text _ _ _ _ Hs), (not_blank _ _ _ Hl), parse_fuel_S, parse_eq.
  cbn [q_ist of_parser i_content i_macros q_spans]. rewrite Hl, Hd.
  assert (Hx : (max_expansion_depth <=? N.of_nat (length (s_exp (p_spans p)))) || (max_expansion_bytes <=? s_total (p_spans p)) = true).
  { apply orb_true_iff. rewrite !N.leb_le. unfold max_expansion_depth, max_expansion_bytes. destruct Hlim; [left|right]; assumption. }
  rewrite Hx. assert (Herr : forall q, i_content (q_ist q) = suffix_slice c r -> q_spans q = p_spans p ->
    exists pe p', after s (Err EMacroRecursionLimit, q) = (OItem (ItError pe), p') /\ pe_kind pe = EMacroRecursionLimit).
  { intros q Ec Es. cbn [after]. rewrite Ec, Es. destruct Hp as (Hd1 & (b & Hst) & _ & _ & Ho & _).
    destruct (new_error_ok EMacroRecursionLimit (suffix_slice c r) (p_spans p) Ho) as [(pe & s' & E & Ek)|(s' & E & Hr)].
    - rewrite E. eauto.
    - exfalso. rewrite Hs in Hst. cbn [stacked] in Hst. destruct Hst as (_ & Hpl & _).
      assert (Hpl' : placed (p_spans p) (suffix_slice c r)).
      { eapply placed_sub; [|exact Hpl]. apply sl_sub_suffix. pose proof (lex_token_suffix (stxt c)) as Hsf. rewrite Hl in Hsf. exact Hsf. }
      destruct (reach_placed _ _ _ Hd1 Hpl') as (l & u & _ & Er & _). rewrite Er in Hr. discriminate. }
  destruct (expand_definition d r) as [[txt k]|e|x|] eqn:Ee.
  - left. apply Herr; reflexivity.
  - left. apply Herr; reflexivity.
  - right. exists x. eexists. split; [reflexivity|reflexivity].
  - exfalso. eapply nf_expand. exact Ee.
Qed.
