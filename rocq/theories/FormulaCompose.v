(** * FormulaCompose: a text without definitions means the same inside any formula. *)

From Coq Require Import Ascii String List NArith ZArith Bool Lia Arith.
From Verif Require Import Base Float32 Event Tables Prim PrimTable Lex Macros Primitives Spans Parser
  SpecLex SpecNum LexFacts LexMore LexNum PrimFacts Keep KeepRun Measure Order Terminate Api Sim SimRun SpanFacts MacroRun
  SpecFormula FormulaLex FormulaActs FormulaNucleus FormulaNucleus2 FormulaNucleus3 FormulaNucleus4 FormulaStep FormulaPrefix.
Import ListNotations.
Open Scope N_scope.
Open Scope list_scope.

Strategy 1000 [parse parse_fuel].

(** The text [s], parsed alone where [al] tells how rows are treated, yields the
    events [es] and no error. *)
Definition parses_in (al : option (N * N)) (s : str) (es : list event) : Prop :=
  exists n p, run n (mkParser [ISub (mkSlice 0 0 s) al] [] [] (mkSpans s [] 0) 1 0) = (map ItEvent es, ODone, p).

Lemma parses_in_none : forall s es, parses_in None s es <-> parses s (map ItEvent es).
Proof. intros s es. reflexivity. Qed.

(** ** Steps without macros *)

Lemma csim_nil : forall m, csim [] m -> m = [].
Proof.
  intros [|[k d] m] H; [reflexivity|]. specialize (H k). unfold ctx_get in H. cbn [assoc_str] in H. rewrite str_eqb_refl in H. discriminate.
Qed.

Definition isim0 (i j : instr) : Prop :=
  match i, j with
  | IEv e, IEv f => e = f
  | ISub a al, ISub b bl => trim_start (stxt a) = trim_start (stxt b) /\ al = bl
  | _, _ => False
  end.

Lemma isim_weak : forall i j, isim i j -> isim0 i j.
Proof. intros [e|a al] [f|b bl]; cbn; try tauto. intros [-> ->]. auto. Qed.

Lemma Forall2_weak : forall l l', Forall2 isim l l' -> Forall2 isim0 l l'.
Proof. induction 1; constructor; auto using isim_weak. Qed.

Lemma token_parse : forall sp nx ac sp' nx' ac' c c' al f, lex_token (stxt c) = lex_token (stxt c') ->
  let x := parse (S f) (mkPst (mkIst c [] false SPRight false false al []) sp nx ac) in
  let x' := parse (S f) (mkPst (mkIst c' [] false SPRight false false al []) sp' nx' ac') in
  ((same_res (script_sim [] []) (fst x) (fst x') /\ R [] [] (q_ist (snd x)) (q_ist (snd x'))) \/
   match fst x with Panic _ | Fuel => True | _ => False end) /\
  (q_spans (snd x) = sp /\ q_next (snd x) = nx /\ q_alloc (snd x) = ac) /\
  (q_spans (snd x') = sp' /\ q_next (snd x') = nx' /\ q_alloc (snd x') = ac').
Proof.
  intros sp nx ac sp' nx' ac' c c' al f Hl. cbv zeta.
  assert (HR : forall d d', stxt d = stxt d' -> R [] [] (mkIst d [] false SPRight false false al []) (mkIst d' [] false SPRight false false al [])).
  { intros d d' E. split; [exact E|]. split; [exists [], []; repeat split; constructor|cbn; repeat split]. }
  rewrite !parse_eq. cbn [q_ist i_content i_macros]. rewrite <- Hl. unfold ctx_get. cbn [assoc_str].
  destruct (lex_token (stxt c)) as [[[cs|ctx]|e|y|] r] eqn:Er.
  - unfold run_inner. cbn [q_ist set_ist q_spans q_next q_alloc].
    pose proof (r_atom [] [] _ _ (r_handle_prim [] [] cs) _ _ (HR (suffix_slice c r) (suffix_slice c' r) eq_refl)) as H.
    unfold set_content. cbn [i_content i_buf i_allow i_pos i_skip i_handling i_align i_macros].
    destruct (parse_atom _ _) as [a b], (parse_atom _ _) as [a' b']. cbn. split; [left; exact H|auto].
  - unfold run_inner. cbn [q_ist set_ist q_spans q_next q_alloc].
    pose proof (r_atom [] [] _ _ (r_handle_char [] [] (suffix_slice c ctx) (suffix_slice c' ctx) eq_refl)
      _ _ (HR (suffix_slice c r) (suffix_slice c' r) eq_refl)) as H.
    unfold set_content. cbn [i_content i_buf i_allow i_pos i_skip i_handling i_align i_macros].
    destruct (parse_atom _ _) as [a b], (parse_atom _ _) as [a' b']. cbn. split; [left; exact H|auto].
  - destruct e; (split; [left; split; [first [reflexivity|exact I]|apply (HR (suffix_slice c r) (suffix_slice c' r) eq_refl)]|cbn; tauto]).
  - split; [right; exact I|cbn; auto].
  - split; [right; exact I|cbn; auto].
Qed.

Lemma step_compose : forall st sp nx ac o p1 st' sp' nx' ac' K,
  next_step (mkParser st [] [] sp nx ac) = (o, p1) -> going o = true -> p_macros p1 = [] -> Forall2 isim0 st st' ->
  p_buf p1 = [] /\ p_spans p1 = sp /\ p_next p1 = nx /\ p_alloc p1 = ac /\
  exists st1', next_step (mkParser (st' ++ K) [] [] sp' nx' ac') = (o, mkParser (st1' ++ K) [] [] sp' nx' ac') /\
    Forall2 isim0 (p_stack p1) st1'.
Proof.
  intros st sp nx ac o p1 st' sp' nx' ac' K H Hg Hm Hs. rewrite next_step_eq in H |- *. cbn [p_stack p_buf p_macros p_spans p_next p_alloc] in *.
  destruct Hs as [|i i' st st' Hi Hs].
  - injection H as <- <-. discriminate.
  - destruct i as [e|c al], i' as [e'|c' al']; cbn in Hi; try contradiction; cbn [app].
    + subst e'. injection H as <- <-. cbn. repeat split. exists st'. auto.
    + destruct Hi as [Hc ->]. rewrite <- Hc. destruct (is_nil _) eqn:En.
      { injection H as <- <-. cbn. repeat split. exists st'. auto. }
      unfold of_parser in *. cbn [p_buf p_macros p_spans p_next p_alloc] in *. rewrite parse_fuel_S in *.
      pose proof (token_parse sp nx ac sp' nx' ac' c c' al' 65 (lex_token_same _ _ Hc)) as Hx. cbv zeta in Hx. revert Hx H.
      generalize (parse 66 (mkPst (mkIst c [] false SPRight false false al' []) sp nx ac))
        (parse 66 (mkPst (mkIst c' [] false SPRight false false al' []) sp' nx' ac')).
      intros [r q] [r' q'] ([[H1 H2]|H1] & (E1 & E2 & E3) & (E1' & E2' & E3')) H; cbn [fst snd] in *.
      * destruct H2 as (Hc2 & (b & b' & Eb & Eb' & Hb) & _ & _ & _ & _ & Hal & Hm2). cbn [app] in Eb, Eb'.
        assert (Htop : Forall2 isim0 (ISub (i_content (q_ist q)) (i_align (q_ist q)) :: st) (ISub (i_content (q_ist q')) (i_align (q_ist q')) :: st')).
        { constructor; [split; [rewrite Hc2; reflexivity|exact Hal]|exact Hs]. }
        destruct r as [[[[e n] m]|]|e|y|], r' as [[[[e' n'] m']|]|e'|y'|]; cbn in H1; try contradiction; cbn [after] in H |- *.
        -- destruct H1 as (<- & (k & -> & ->) & (j & -> & ->)). cbn [length Nat.add] in *. rewrite Eb in H. rewrite Eb'.
           pose proof (order_sim k j b b' Hb) as Ho. pose proof (order_never k j b) as Hn. destruct (order_scripts k j b), (order_scripts k j b'); cbn in Ho; try contradiction.
           2: injection H as <- <-; discriminate.
           injection H as <- <-. unfold to_parser in *. cbn in Hm |- *. rewrite Hm in Hm2. apply csim_nil in Hm2. rewrite Hm2, E1', E2', E3'. repeat split; auto.
           eexists (IEv e :: firstn (Nat.min k j) b' ++ a0 ++ ISub (i_content (q_ist q')) (i_align (q_ist q')) :: st'). split.
           { cbn [app]. repeat (rewrite <- app_assoc; cbn [app]). reflexivity. }
           constructor; [reflexivity|]. apply Forall2_app; [apply Forall2_weak, Forall2_firstn; exact Hb|].
           apply Forall2_app; [apply Forall2_weak; exact Ho|exact Htop].
        -- rewrite Eb in H. rewrite Eb'. injection H as <- <-. unfold to_parser in *. cbn in Hm |- *. rewrite Hm in Hm2. apply csim_nil in Hm2.
           rewrite Hm2, E1', E2', E3'. repeat split; auto.
           eexists (b' ++ ISub (i_content (q_ist q')) (i_align (q_ist q')) :: st'). split.
           { rewrite <- app_assoc. reflexivity. }
           apply Forall2_app; [apply Forall2_weak; exact Hb|exact Htop].
        -- destruct (new_error _ _ (q_spans q)) as [re s0] eqn:E. apply new_error_never in E. destruct re; try contradiction; injection H as <- <-; discriminate.
        -- injection H as <- <-. discriminate.
        -- injection H as <- <-. discriminate.
      * destruct r as [o0|e|y|]; try contradiction; cbn [after] in H; injection H as <- <-; discriminate.
Qed.

Lemma undefining_step : forall p, PInv undefining (fun m => m = []) p -> PInv undefining (fun m => m = []) (snd (next_step p)).
Proof.
  intros p Hp. assert (Hx := keep_step undefining undefining_sub _ undefining_closed
    (fun m cs d r txt k n' sl (E : m = []) Hg => ltac:(subst m; discriminate)) p Hp).
  destruct (next_step p) as [[i| | |x| ] p']; try exact Hx. apply Hx.
Qed.

Lemma run_compose : forall n st sp nx ac es p, run n (mkParser st [] [] sp nx ac) = (map ItEvent es, ODone, p) ->
  PInv undefining (fun m => m = []) (mkParser st [] [] sp nx ac) -> forall st' sp' nx' ac' K, Forall2 isim0 st st' ->
  steps (mkParser (st' ++ K) [] [] sp' nx' ac') es (mkParser K [] [] sp' nx' ac').
Proof.
  induction n as [|n IH]; intros st sp nx ac es p H Hp st' sp' nx' ac' K Hs; [discriminate|]. cbn [run] in H.
  pose proof (undefining_step _ Hp) as Hp1. destruct (next_step (mkParser st [] [] sp nx ac)) as [o p1] eqn:E. cbn [snd] in Hp1.
  destruct o as [[e|pe]| | |x| ]; try discriminate.
  - destruct (run n p1) as [[l o] p2] eqn:En. destruct es as [|e' es]; [discriminate|]. cbn [map] in H. injection H as <- -> -> ->.
    destruct (step_compose _ _ _ _ _ _ st' sp' nx' ac' K E eq_refl (proj2 (proj2 Hp1)) Hs) as (B1 & B2 & B3 & B4 & st1 & S1 & S2).
    eapply st_item; [exact S1|]. destruct p1 as [pst pb pm psp pn pa]. cbn [p_buf p_spans p_next p_alloc p_stack] in *. pose proof (proj2 (proj2 Hp1)) as Em. cbn in Em.
    subst. eapply IH; eassumption.
  - destruct (run n p1) as [[l o] p2] eqn:En. destruct es; discriminate.
  - destruct (step_compose _ _ _ _ _ _ st' sp' nx' ac' K E eq_refl (proj2 (proj2 Hp1)) Hs) as (B1 & B2 & B3 & B4 & st1 & S1 & S2).
    eapply st_cont; [exact S1|]. destruct p1 as [pst pb pm psp pn pa]. cbn [p_buf p_spans p_next p_alloc p_stack] in *. pose proof (proj2 (proj2 Hp1)) as Em. cbn in Em.
    subst. eapply IH; eassumption.
  - injection H as H <-. destruct es; [|discriminate]. rewrite next_step_eq in E. cbn [p_stack] in E. destruct Hs as [|i i' st st' Hi Hs]; [constructor|].
    exfalso. clear -E. destruct i as [e|c al]; [discriminate|]. destruct (is_nil _); [discriminate|]. revert E. generalize (parse parse_fuel (of_parser (mkParser (ISub c al :: st) [] [] sp nx ac) c al)).
    intros [r q]. destruct r as [[[[e n] m]|]|e|y|]; cbn [after]; try discriminate.
    + destruct (order_scripts _ _ _); discriminate.
    + destruct (new_error _ _ _) as [[]]; discriminate.
Qed.

(** A text that parses without error and defines nothing is what it is in any
    context. *)
Theorem parses_pops : forall al s es, parses_in al s es -> defines_nothing s -> pops s al es.
Proof.
  intros al s es (n & p & H) Hd c K sp nx ac Hc. apply (run_compose _ _ _ _ _ _ _ H) with (st' := [ISub c al]).
  - split; [repeat constructor; exact Hd|]. split; [constructor|reflexivity].
  - constructor; [split; [symmetry; exact Hc|reflexivity]|constructor].
Qed.

(** The texts that parse by themselves. *)
Definition parsed : Known := fun al s es => parses_in al s es /\ defines_nothing s.

Theorem parsed_sound : @sound parsed.
Proof. intros al s es [H1 H2]. apply parses_pops; assumption. Qed.

Theorem nothing_sound : @sound nothing_known.
Proof. intros al s es []. Qed.
