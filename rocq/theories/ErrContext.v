(** * ErrContext: what the context of an error shows. *)

From Coq Require Import List NArith ZArith Bool Lia Arith.
From Verif Require Import Base Float32 Event Tables Prim PrimTable Lex Macros Primitives Spans Parser
  SpecNum SpecLex LexFacts LexMore LexNum FloorFacts PrimFacts Keep KeepRun MacroFacts Quiet LexPanic Terminate SimRun SpanFacts Api SpanRun NoPanic.
Import ListNotations.
Open Scope N_scope.

Strategy 1000 [parse parse_fuel].

(** Three bytes at most are given up to reach a boundary. *)
Lemma floor_near : forall s i, i <= blen s -> exists j, floor_char_boundary s i = Some j /\ boundary s j /\ j <= i <= j + 3.
Proof.
  intros s i Hi. destruct (floor_greatest s i) as (j & Ej & Bj & Lj & Gj). exists j. split; [exact Ej|]. split; [exact Bj|]. split; [exact Lj|].
  destruct (N.leb_spec i (j + 3)) as [|Hlt]; [assumption|]. exfalso. destruct Bj as (a & b & -> & <-).
  destruct b as [|c b]; [rewrite app_nil_r in Hi; lia|].
  assert (Hc : clen c <= 4) by (unfold clen; destruct (c <? 128), (c <? 2048), (c <? 65536); lia).
  assert (H := Gj (blen (a ++ [c]))). rewrite blen_app in H. cbn [blen] in H. pose proof (clen_pos c).
  specialize (H ltac:(exists (a ++ [c])%list, b; rewrite <- app_assoc; split; [reflexivity|rewrite blen_app; reflexivity]) ltac:(lia)). lia.
Qed.

(** Without expansions, the context is the text around the place. *)
Lemma context_window : forall e c inp tot, sbase c = 0 -> boundary inp (soff c) ->
  exists a q b, inp = (a ++ q ++ b)%list /\ blen a <= soff c <= blen a + 15 /\ soff c <= blen a + blen q <= soff c + 12 /\
    (b <> [] -> soff c + 9 <= blen a + blen q) /\
    new_error e c (mkSpans inp [] tot) = (Ok (mkError e (context_prefix ++ context_str q true (is_nonzero (blen a)))%list), mkSpans inp [] tot).
Proof.
  intros e c inp tot Hb Hbd. pose proof (boundary_le _ _ Hbd) as Hle. unfold new_error, reach_original_call_site. cbn [s_exp reach s_input s_total].
  unfold ptr_in. rewrite Hb. cbn [sbase stxt N.eqb andb]. destruct (N.leb_spec (soff c) (blen inp)); [|lia]. cbn [s_exp s_input].
  destruct (floor_near inp (soff c - context_size)) as (lo & -> & Blo & Llo); [lia|].
  assert (Hhi : exists hi, floor_char_boundary inp (soff c + context_size) = Some hi /\ boundary inp hi /\ soff c <= hi <= soff c + 12 /\
    (hi <> blen inp -> soff c + 9 <= hi)).
  { destruct (floor_greatest inp (soff c + context_size)) as (hi & Ehi & Bhi & Lhi & Ghi). exists hi. split; [exact Ehi|]. split; [exact Bhi|].
    assert (Hge : soff c <= hi) by (apply Ghi; [exact Hbd|lia]). split; [unfold context_size in Lhi; lia|].
    intros Hne. destruct (N.leb_spec (soff c + context_size) (blen inp)) as [Hs|Hs].
    - destruct (floor_near inp _ Hs) as (hi' & E & _ & Hn). rewrite Ehi in E. injection E as <-. unfold context_size in Hn. lia.
    - exfalso. apply Hne. assert (blen inp <= hi) by (apply Ghi; [apply boundary_len|lia]). pose proof (boundary_le _ _ Bhi). lia. }
  destruct Hhi as (hi & -> & Bhi & Lhi & Hfar). unfold context_size in Llo.
  destruct (byte_range_ok inp lo hi Blo Bhi) as (a & t & b & E & Ei & La & Lt); [lia|].
  exists a, t, b. split; [exact Ei|]. split; [lia|]. split; [lia|]. split.
  - intros Hn. rewrite La, Lt. replace (lo + (hi - lo)) with hi by lia. apply Hfar. intros ->. rewrite Ei, !blen_app in Lt.
    destruct b as [|x b]; [congruence|]. cbn [blen] in Lt. pose proof (clen_pos x). lia.
  - cbn [context_loop]. rewrite E, La. reflexivity.
Qed.

Section NoDefs.
  Variable input : str.
  Hypothesis Hdef : defines_nothing input.

  Lemma nodef_closed : def_closed (part input) (fun m => m = []).
  Proof.
    intros cs name d m Hcs Hd _ _ _. exfalso. apply (Hdef (92 :: cs)); [apply definition_commands_all; exact Hd|].
    apply part_cs. exact Hcs.
  Qed.

  Definition plain (p : parser) : Prop := PInv (part input) (fun m => m = []) p /\ s_exp (p_spans p) = [] /\ s_input (p_spans p) = input.

  Lemma plain_parse : forall f q, i_macros (q_ist q) = [] -> q_spans (snd (parse f q)) = q_spans q.
  Proof.
    intros [|f] q Hm; [reflexivity|]. rewrite parse_eq.
    assert (Hr : forall (m : P (option script)) st, q_spans (snd (run_inner m (set_ist st q))) = q_spans q).
    { intros m st. unfold run_inner. destruct (m _). reflexivity. }
    destruct (lex_token _) as [[[cs|ctx]|e|x|] r]; try reflexivity.
    - rewrite Hm. cbn [ctx_get assoc_str]. apply Hr.
    - apply Hr.
    - destruct e; reflexivity.
  Qed.

  Lemma part_boundary : forall c, part input c -> sbase c = 0 /\ boundary input (soff c).
  Proof.
    intros c (p & q & E & Hb & Ho). cbn [stxt sbase soff] in *. split; [exact Hb|]. exists p, (stxt c ++ q)%list. split; [exact E|lia].
  Qed.

  Lemma plain_step : forall p, plain p ->
    match next_step p with
    | (OPanic _, _) => True
    | (OItem (ItError pe), p') => plain p' /\ exists c al s a q b, p_stack p' = ISub c al :: s /\ part input c /\ input = (a ++ q ++ b)%list /\
        blen a <= soff c <= blen a + 15 /\ soff c <= blen a + blen q <= soff c + 12 /\ (b <> [] -> soff c + 9 <= blen a + blen q) /\
        pe_context pe = (context_prefix ++ context_str q true (is_nonzero (blen a)))%list
    | (_, p') => plain p'
    end.
  Proof.
    intros p (Hp & He & Hi).
    assert (HX : forall m cs d r txt k n sl, m = [] -> ctx_get m cs = Some d -> part input sl -> suffix r (stxt sl) -> expand_definition d r = Ok (txt, k) -> part input (mkSlice n 0 txt)).
    { intros m cs d r txt k n sl -> Hg. discriminate. }
    pose proof (keep_step (part input) (part_sub input) _ nodef_closed HX p Hp) as Hk. revert Hk.
    rewrite next_step_eq. destruct (p_stack p) as [|[e|c al] s] eqn:Es; [intros Hk; split; auto|intros [Hk _]; split; auto|].
    destruct (is_nil _); [intros Hk; split; auto|].
    destruct Hp as (Hs & Hb & Hm). rewrite Es in Hs. inversion Hs as [|? ? Hc Hs']; subst. cbn in Hc.
    assert (Hiv : Inv (part input) (fun m => m = []) (q_ist (of_parser p c al))) by (split; [exact Hc|split; assumption]).
    pose proof (plain_parse parse_fuel (of_parser p c al) Hm) as H2.
    pose proof (keep_parse (part input) (part_sub input) _ nodef_closed HX parse_fuel _ Hiv) as ((H3 & _) & _).
    revert H2 H3. generalize (parse parse_fuel (of_parser p c al)). intros [r q] H2 H3. cbn [fst snd of_parser q_spans] in *. unfold after.
    destruct r as [[[[e n] m]|]|e|x|].
    - destruct (order_scripts _ _ _) as [l|?|?|]; intros Hk; try exact I; (split; [exact Hk|cbn [to_parser p_spans]; rewrite H2; auto]).
    - intros Hk. split; [exact Hk|cbn [to_parser p_spans]; rewrite H2; auto].
    - destruct (part_boundary _ H3) as [B1 B2]. rewrite H2. destruct (p_spans p) as [inp ex tot]. cbn [s_exp s_input] in *. subst ex inp.
      destruct (context_window e (i_content (q_ist q)) input tot B1 B2) as (a & t & b & W1 & W2 & W3 & W4 & W5). rewrite W5. intros [Hk _].
      split; [split; [exact Hk|auto]|]. exists (i_content (q_ist q)), (i_align (q_ist q)), s, a, t, b. cbn [p_stack pe_context]. auto 10.
    - intros _. exact I.
    - intros Hk. split; [exact Hk|cbn [to_parser p_spans]; rewrite H2; auto].
  Qed.

  Lemma plain_new : plain (new_parser input).
  Proof. split; [|split; reflexivity]. split; [repeat constructor; apply sl_sub_refl|]. split; [constructor|reflexivity]. Qed.

  Lemma plain_run : forall n p l o q, plain p -> run n p = (l, o, q) -> (forall x, o <> OPanic x) -> plain q.
  Proof.
    induction n as [|n IH]; intros p l o q Hp H Ho; cbn [run] in H; [injection H as <- <- <-; exact Hp|].
    pose proof (plain_step p Hp) as Hs. destruct (next_step p) as [[[e|pe]| | |x| ] p'].
    - destruct (run n p') as [[l' o'] q'] eqn:Er. injection H as <- <- <-. eapply IH; eassumption.
    - destruct (run n p') as [[l' o'] q'] eqn:Er. injection H as <- <- <-. eapply IH; [apply Hs|eassumption|exact Ho].
    - eapply IH; eassumption.
    - injection H as <- <- <-. exact Hs.
    - injection H as <- <- <-. exfalso. eapply Ho. reflexivity.
    - injection H as <- <- <-. exact Hs.
  Qed.
End NoDefs.

(** The context of an error is cut from the input around the place where the
    parser stopped. *)
Lemma error_window : forall input n l p pe p', defines_nothing input -> run n (new_parser input) = (l, OFuel, p) -> next_step p = (OItem (ItError pe), p') ->
  exists rest al s a q b, p_stack p' = ISub rest al :: s /\ contains (stxt rest) input /\ input = (a ++ q ++ b)%list /\
    blen a <= soff rest <= blen a + 15 /\ soff rest <= blen a + blen q <= soff rest + 12 /\
    (b <> [] -> soff rest + 9 <= blen a + blen q) /\
    (exists before, exists after, input = (before ++ stxt rest ++ after)%list /\ blen before = soff rest) /\
    pe_context pe = (context_prefix ++ context_str q true (is_nonzero (blen a)))%list.
Proof.
  intros input n l p pe p' Hd Hr Hs.
  pose proof (plain_step input Hd p (plain_run input Hd _ _ _ _ _ (plain_new input) Hr ltac:(discriminate))) as H. rewrite Hs in H.
  destruct H as (_ & c & al & s & a & q & b & H1 & H2 & H3 & H4 & H5 & H6 & H7).
  exists c, al, s, a, q, b. destruct H2 as (u & v & E & _ & Eo). cbn [stxt soff] in E, Eo.
  split; [exact H1|]. split; [exists u, v; exact E|]. split; [exact H3|]. split; [exact H4|]. split; [exact H5|]. split; [exact H6|]. split; [|exact H7].
  exists u, v. split; [exact E|]. lia.
Qed.
