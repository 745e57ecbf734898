(** * OverRun: the texts that the parser works on are made of the characters
    of its input, of braces and of backslashes, whatever is defined. *)

From Coq Require Import List NArith ZArith Bool Lia Arith.
From Verif Require Import Base Float32 Event Tables Prim PrimTable Lex Macros Primitives Spans Parser
  SpecNum SpecLex LexFacts LexMore LexNum PrimFacts Over Keep KeepRun MacroFacts Quiet LexPanic Terminate SimRun SpanFacts Api SpanRun NoPanic SpecMessage.
Import ListNotations.
Open Scope N_scope.
Open Scope sm_scope.

Strategy 1000 [parse parse_fuel].

Section OverRun.
  Variable P : char -> Prop.
  Hypothesis P_backslash : P 92.
  Hypothesis P_open : P 123.
  Hypothesis P_close : P 125.

  Notation over := (over P).
  Notation lover := (lover P).
  Notation tok_over := (tok_over P).
  Notation arg_over := (arg_over P).
  Notation rep_over := (rep_over P).
  Notation defn_over := (defn_over P).

Definition rarg_over (a : rarg) : Prop := match a with RArg a => arg_over a | RRaw s => over s end.

Lemma split_once_over : forall t s a b, split_once_str t s = Some (a, b) -> over s -> over a.
Proof.
  intros t s. induction s as [|x s IH]; intros a b H Hs; cbn [split_once_str] in H;
    destruct (strip_prefix t _); try (injection H as <- <-; constructor); try discriminate.
  destruct (split_once_str t s) as [[a' b']|]; [|discriminate]. injection H as <- <-. inversion Hs; subst.
  constructor; [assumption|]. eapply IH; [reflexivity|assumption].
Qed.

Lemma macro_args_over : forall lb ps, Forall some_ne ps -> lover (macro_args lb ps) (Forall rarg_over).
Proof.
  intros lb ps. induction ps as [|p ps IH]; intros Hne; [apply lo_ret; constructor|]. inversion Hne; subst.
  cbn [macro_args]. destruct (_ && _).
  - eapply lo_bind; [apply lo_get|]. intros s Hs. destruct (split_once_str _ s) as [[a b]|] eqn:E; [|apply lo_fail].
    eapply lo_bind; [apply lo_put|intros; apply lo_ret].
    + eapply over_suffix; [|exact Hs]. exists (firstn (length a) s). rewrite firstn_skipn. reflexivity.
    + repeat constructor. eapply split_once_over; eassumption.
  - eapply lo_bind with (V := rarg_over).
    + destruct p as [suf|]; [eapply lo_bind; [apply suffixed_over; assumption|]|eapply lo_bind; [apply argument_over|]];
        intros a Ha; apply lo_ret; exact Ha.
    + intros a Ha. eapply lo_bind; [apply IH; assumption|]. intros l Hl. apply lo_ret. constructor; assumption.
Qed.

Lemma n_args_over : forall n, lover (n_args n) (Forall rarg_over).
Proof.
  induction n as [|n IH]; [apply lo_ret; constructor|]. cbn [n_args]. eapply lo_bind; [apply argument_over|].
  intros a Ha. eapply lo_bind; [exact IH|]. intros l Hl. apply lo_ret. constructor; assumption.
Qed.

Lemma arg_text_over : forall a, rarg_over a -> over (arg_text a).
Proof.
  intros [[[cs|ctx]|g]|s] H; cbn in *; auto.
  - constructor; [exact P_backslash|exact H].
  - destruct H as [H1 H2]. repeat constructor. apply ctx_char_over; assumption.
  - constructor; [exact P_open|]. apply over_app. split; [exact H|repeat constructor; exact P_close].
Qed.

Lemma expand_rep_over : forall args rep t, Forall rarg_over args -> rep_over rep -> expand_rep args rep = Some t -> over t.
Proof.
  intros args rep. induction rep as [|x rep IH]; intros t Ha Hr H; cbn [expand_rep] in H; [injection H as <-; constructor|].
  inversion Hr; subst. destruct (expand_rep args rep) as [r|]; [|discriminate]. specialize (IH r Ha H3 eq_refl).
  destruct x as [i|s].
  - destruct (nth_error args _) as [a|] eqn:E; [|discriminate]. injection H as <-. apply over_app. split; [|exact IH].
    apply arg_text_over. rewrite Forall_forall in Ha. apply Ha. eapply nth_error_In. exact E.
  - injection H as <-. apply over_app. split; assumption.
Qed.

Lemma expand_call_over : forall d, defn_ok d -> defn_over d -> lover (expand_call d) over.
Proof.
  intros d Hok Hd. destruct d as [pre ps lb rep|t|n dflt rep]; cbn [expand_call].
  - destruct Hok as (_ & _ & Hps & _). eapply lo_bind; [apply lo_get|]. intros s Hs.
    eapply lo_bind with (V := fun _ => True).
    { destruct pre as [p|]; [|apply lo_ret; exact I]. destruct (strip_prefix p s) as [r|] eqn:E; [|apply lo_fail].
      apply lo_put. eapply over_suffix; [|exact Hs]. apply strip_prefix_some in E. exists p. exact E. }
    intros _ _. eapply lo_bind; [apply macro_args_over; exact Hps|]. intros l Hl.
    destruct (expand_rep l rep) eqn:E; [|apply lo_panic]. apply lo_ret. eapply expand_rep_over; [exact Hl|exact (proj1 Hd)|exact E].
  - destruct t as [cs|ctx]; apply lo_ret; [constructor; [exact P_backslash|exact Hd]|].
    destruct Hd as [Hd1 Hd2]. repeat constructor. apply ctx_char_over; assumption.
  - destruct Hd as [Hd Hr]. eapply lo_bind with (V := Forall rarg_over).
    { destruct dflt as [d|]; [|apply lo_ret; constructor]. eapply lo_bind; [apply optional_over|]. intros o Ho.
      apply lo_ret. repeat constructor. destruct o; assumption. }
    intros first Hf. destruct (_ <? _); [apply lo_panic|]. eapply lo_bind; [apply n_args_over|]. intros l Hl.
    destruct (expand_rep _ rep) eqn:E; [|apply lo_panic]. apply lo_ret.
    eapply expand_rep_over; [|exact Hr|exact E]. apply Forall_app. split; assumption.
Qed.

Lemma expansion_over : forall d r txt k, defn_ok d -> defn_over d -> over r -> expand_definition d r = Ok (txt, k) -> over txt.
Proof.
  intros d r txt k H1 H2 Hr H. unfold expand_definition in H. destruct (expand_call_over d H1 H2 r Hr) as [H3 H4].
  destruct (expand_call d r) as [[t|e|p|] r']; try discriminate. injection H as <- _. apply over_app. split; assumption.
Qed.

  (** ** Runs *)

  Definition text_over (s : slice) : Prop := over (stxt s).
  Definition defs_over (m : macro_ctx) : Prop := forall n d, ctx_get m n = Some d -> defn_ok d /\ defn_over d.

  Lemma text_over_sub : forall a b, sl_sub a b -> text_over b -> text_over a.
  Proof. intros a b. apply over_sub. Qed.

  Lemma over_mono : forall (R : char -> Prop), (forall c, R c -> P c) -> forall d, Over.defn_over R d -> defn_over d.
  Proof.
    intros R HR. assert (Hs : forall s, Over.over R s -> over s) by (intros s; apply Forall_impl; exact HR).
    assert (Hr : forall l, Over.rep_over R l -> rep_over l).
    { intros l. apply Forall_impl. intros [i|s]; [apply HR|apply Hs]. }
    intros [pre ps lb rep|[cs|ctx]|n d rep]; cbn.
    - intros [H1 H2]. split; [apply Hr; exact H1|]. intros Hn. apply HR. apply H2. exact Hn.
    - apply Hs.
    - intros [H1 H2]. split; [apply Hs; exact H1|exact H2].
    - intros [H1 H2]. split; [destruct d; [apply Hs; exact H1|exact I]|apply Hr; exact H2].
  Qed.

  Lemma defs_over_closed : def_closed text_over defs_over.
  Proof.
    intros cs name d m _ _ Hd Ho Hm k dd. unfold ctx_get, ctx_insert. cbn [assoc_str]. destruct (str_eqb name k); [|apply Hm].
    intros H. injection H as <-. split; [exact Hd|]. eapply over_mono; [|exact Ho].
    intros c (s & Hs & Hc). unfold text_over, Over.over in Hs. rewrite Forall_forall in Hs. apply Hs. exact Hc.
  Qed.

  Lemma text_over_expansion : forall m cs d r txt k n sl, defs_over m -> ctx_get m cs = Some d -> text_over sl -> suffix r (stxt sl) ->
    expand_definition d r = Ok (txt, k) -> text_over (mkSlice n 0 txt).
  Proof.
    intros m cs d r txt k n sl Hm Hg Hsl Hr E. destruct (Hm _ _ Hg) as [H1 H2]. unfold text_over. cbn [stxt].
    eapply expansion_over; [exact H1|exact H2|eapply over_suffix; [exact Hr|exact Hsl]|exact E].
  Qed.

  Lemma over_start : forall input, over input -> PInv text_over defs_over (new_parser input).
  Proof. intros input H. split; [repeat constructor; exact H|]. split; [constructor|]. intros k d E. discriminate. Qed.

  (** ** The texts that errors quote *)

  Definition spans_over (s : spans) : Prop := over (s_input s) /\ Forall (fun x => over (stxt (x_full x))) (s_exp s).

  Lemma reach_in : forall p l r l', reach p l = (r, l') -> forall x, In x l' -> In x l.
  Proof.
    intros p l. induction l as [|y l IH]; intros r l' H x Hx; cbn [reach] in H.
    - injection H as _ <-. exact Hx.
    - destruct (ptr_in p (x_full y)); [injection H as _ <-; exact Hx|]. right. eapply IH; [exact H|exact Hx].
  Qed.

  Lemma reach_over : forall p s, spans_over s -> spans_over (snd (reach_original_call_site p s)).
  Proof.
    intros p s [H1 H2]. unfold reach_original_call_site. destruct (reach p (s_exp s)) as [r l] eqn:E.
    assert (H : spans_over (mkSpans (s_input s) l (s_total s))).
    { split; [exact H1|]. apply Forall_forall. intros x Hx. cbn [s_exp] in Hx. rewrite Forall_forall in H2. apply H2. eapply reach_in; eassumption. }
    destruct r; [exact H|]. destruct (ptr_in _ _); exact H.
  Qed.

  Lemma add_over : forall full c k s, text_over full -> spans_over s -> spans_over (snd (add_span full c k s)).
  Proof.
    intros full c k s Hf Hs. unfold add_span. pose proof (reach_over c s Hs) as H.
    destruct (reach_original_call_site c s) as [[i|e|p|] s']; cbn [snd] in *; try exact H.
    destruct H as [H1 H2]. split; [exact H1|]. constructor; [exact Hf|exact H2].
  Qed.

  Lemma parse_over : forall f q, Inv text_over defs_over (q_ist q) -> spans_over (q_spans q) -> spans_over (q_spans (snd (parse f q))).
  Proof.
    induction f as [|f IH]; intros q Hi Hf; [exact Hf|]. rewrite parse_eq.
    pose proof (lex_token_suffix (stxt (i_content (q_ist q)))) as Hs.
    assert (Hr : forall (m : Primitives.P (option script)) st, q_spans (snd (run_inner m (set_ist st q))) = q_spans q).
    { intros m st. unfold run_inner. destruct (m _). reflexivity. }
    destruct (lex_token (stxt (i_content (q_ist q)))) as [[[cs|ctx]|e|p|] r] eqn:El; cbn [snd] in Hs.
    - destruct (ctx_get (i_macros (q_ist q)) cs) as [d|] eqn:Em; [|rewrite Hr; exact Hf].
      destruct (expand_definition d r) as [[txt k]|e|p|] eqn:Ee; cbn [fst snd]; try exact Hf.
      destruct (_ || _); [exact Hf|].
      assert (Ht : forall n, text_over (mkSlice n 0 txt)) by (intros n; eapply text_over_expansion; [apply Hi|exact Em|apply Hi|exact Hs|exact Ee]).
      match goal with |- context [add_span ?a ?b ?c ?d] => pose proof (add_over a b c d (Ht _) Hf) as Ha; destruct (add_span a b c d) as [[[]|e|p|] sp] end;
        cbn [snd q_spans] in *; try exact Ha.
      apply IH; [|exact Ha]. cbn [q_ist]. apply inv_content; [apply Ht|exact Hi].
    - rewrite Hr. exact Hf.
    - destruct e; exact Hf.
    - exact Hf.
    - exact Hf.
  Qed.

  (** What a message may contain. *)
  Definition told (s : str) : Prop := Forall (fun c => P c \/ own_char c = true) s.

  Lemma told_app : forall a b, told (a ++ b) <-> told a /\ told b.
  Proof. intros. apply Forall_app. Qed.
  Lemma told_own : forall s, forallb own_char s = true -> told s.
  Proof. intros s H. apply Forall_forall. intros c Hc. right. eapply (proj1 (forallb_forall _ _) H). exact Hc. Qed.
  Lemma told_over : forall s, over s -> told s.
  Proof. intros s. apply Forall_impl. auto. Qed.
  Lemma told_repeat : forall c n, own_char c = true -> told (repeat c n).
  Proof. intros c n H. apply Forall_forall. intros x Hx. apply repeat_spec in Hx. subst. right. exact H. Qed.

  Lemma own_dec : forall f n, forallb own_char (n_dec_fuel f n) = true.
  Proof.
    assert (A : forall d, d < 10 -> forallb own_char [48 + d] = true).
    { intros d Hd. assert (Hf : forallb (fun d => forallb own_char [48 + d]) [0;1;2;3;4;5;6;7;8;9] = true) by (vm_compute; reflexivity).
      apply (proj1 (forallb_forall _ _) Hf). assert (d = 0 \/ d = 1 \/ d = 2 \/ d = 3 \/ d = 4 \/ d = 5 \/ d = 6 \/ d = 7 \/ d = 8 \/ d = 9) by lia.
      cbn. intuition. }
    induction f as [|f IH]; intro n; [reflexivity|]. cbn [n_dec_fuel]. destruct (N.ltb_spec n 10); [apply A; assumption|].
    rewrite forallb_app, IH. cbn [andb]. apply A. apply N.mod_lt. discriminate.
  Qed.

  Lemma own_message : forall e, forallb own_char (error_message e) = true.
  Proof.
    destruct e; try (vm_compute; reflexivity); cbn [error_message]; [|rewrite !forallb_app; unfold n_dec; rewrite !own_dec; vm_compute; reflexivity..].
    match goal with k : option gkind |- _ => destruct k as [k|] end; [|vm_compute; reflexivity].
    destruct k; repeat match goal with b : bool |- _ => destruct b | m : matrix_type |- _ => destruct m end; vm_compute; reflexivity.
  Qed.

  Lemma lines_over : forall s, over s -> Forall over (str_lines s).
  Proof.
    intros s H. unfold str_lines. apply Forall_map.
    assert (A : Forall over (lines_of s)).
    { induction H as [|c s H1 H2 IH]; [constructor|]. cbn [lines_of].
      destruct (c =? 10); [constructor; [constructor; [exact H1|constructor]|exact IH]|].
      inversion IH as [|p ps Hp Hps]; subst; (constructor; [|]); try constructor; auto. }
    eapply Forall_impl; [|exact A]. intros l Hl. unfold chomp. destruct (ends_with_char 10 l); [|exact Hl].
    destruct (ends_with_char 13 _); [apply removelast_over|]; apply removelast_over; exact Hl.
  Qed.

  Lemma context_told : forall s f p, over s -> told (context_str s f p).
  Proof.
    intros s f p H. pose proof (lines_over s H) as L. unfold context_str. apply told_app. split; [apply told_own; vm_compute; reflexivity|].
    assert (T : told ([9474; 32] ++ repeat 94 (N.to_nat (blen (last (str_lines s) []))) ++ [10]
      ++ if f then [9584; 9472] ++ repeat 9472 (N.to_nat (blen (last (str_lines s) []))) else [9500])).
    { apply told_app. split; [apply told_own; vm_compute; reflexivity|]. apply told_app. split; [apply told_repeat; reflexivity|].
      apply told_app. split; [apply told_own; vm_compute; reflexivity|]. destruct f; [|apply told_own; vm_compute; reflexivity].
      apply told_app. split; [apply told_own; vm_compute; reflexivity|apply told_repeat; reflexivity]. }
    apply told_app. split; [|exact T]. clear T. destruct L as [|l ls L1 L2]; [constructor|].
    apply told_app. split; [apply told_own; destruct p; vm_compute; reflexivity|]. apply told_app. split; [apply told_over; exact L1|].
    apply told_app. split; [apply told_own; vm_compute; reflexivity|].
    induction L2 as [|x ls Hx _ IH]; [constructor|]. cbn [flat_map]. apply told_app. split; [|exact IH].
    apply told_app. split; [apply told_own; vm_compute; reflexivity|]. apply told_app. split; [apply told_over; exact Hx|apply told_own; vm_compute; reflexivity].
  Qed.

  Lemma split_bytes_over : forall n s a b, split_bytes n s = Some (a, b) -> over s -> over a /\ over b.
  Proof.
    intros n s a b H Hs. apply split_bytes_spec in H as [-> _]. apply over_app in Hs. exact Hs.
  Qed.

  Lemma byte_range_over : forall lo hi s t, byte_range lo hi s = Some t -> over s -> over t.
  Proof.
    intros lo hi s t H Hs. unfold byte_range in H. destruct (hi <? lo); [discriminate|].
    destruct (split_bytes lo s) as [[a r]|] eqn:E1; [|discriminate].
    destruct (split_bytes (hi - lo) r) as [[a2 r2]|] eqn:E2; [|discriminate]. injection H as <-.
    apply split_bytes_over in E1 as [_ E1]; [|exact Hs]. apply split_bytes_over in E2 as [E2 _]; [exact E2|exact E1].
  Qed.

  Lemma context_loop_told : forall input l lo hi t, over input -> Forall (fun x => over (stxt (x_full x))) l ->
    context_loop input lo hi l = Ok t -> told t.
  Proof.
    intros input l. induction l as [|x l IH]; intros lo hi t Hi Hl H; cbn [context_loop] in H.
    - destruct (byte_range lo hi input) as [a|] eqn:E; [|discriminate]. injection H as <-. apply context_told. eapply byte_range_over; eassumption.
    - inversion Hl as [|? ? Hx Hl']; subst. destruct (_ <? _).
      + destruct (floor_char_boundary _ _); [|discriminate]. destruct (floor_char_boundary _ _); [|discriminate]. eapply IH; eassumption.
      + destruct (byte_range lo hi _) as [a|] eqn:E; [|discriminate].
        destruct (floor_char_boundary _ _); [|discriminate]. destruct (floor_char_boundary _ _); [|discriminate].
        destruct (context_loop _ _ _ _) as [r|?|?|] eqn:Er; try discriminate.
        assert (Et : t = (context_str a false (is_nonzero lo) ++ expansion_prefix ++ r)%list) by congruence. rewrite Et. clear H Et.
        apply told_app. split; [apply context_told; eapply byte_range_over; eassumption|]. apply told_app.
        split; [apply told_own; vm_compute; reflexivity|eapply IH; eassumption].
  Qed.

  Lemma new_error_told : forall e c s pe s', spans_over s -> new_error e c s = (Ok pe, s') -> told (error_display pe) /\ spans_over s'.
  Proof.
    intros e c s pe s' Hs H. unfold new_error in H. pose proof (reach_over c s Hs) as [H1 H2].
    destruct (reach_original_call_site c s) as [[i|?|?|] s1]; try discriminate. cbn [snd] in *.
    destruct (floor_char_boundary _ _); [|discriminate]. destruct (floor_char_boundary _ _); [|discriminate].
    destruct (context_loop _ _ _ _) as [t|?|?|] eqn:E; try discriminate.
    assert (Ep : pe = mkError e (context_prefix ++ t)%list) by congruence. assert (Es : s' = s1) by congruence. rewrite Ep, Es. clear H Ep Es.
    split; [|split; assumption]. unfold error_display. cbn [pe_kind pe_context]. apply told_app. split; [apply told_own; vm_compute; reflexivity|].
    apply told_app. split; [apply told_own; apply own_message|]. apply told_app. split; [apply told_own; vm_compute; reflexivity|].
    apply told_app. split; [apply told_own; vm_compute; reflexivity|]. eapply context_loop_told; eassumption.
  Qed.

  Definition over_inv (p : parser) : Prop := PInv text_over defs_over p /\ spans_over (p_spans p).
  Definition told_item (i : item) : Prop := match i with ItEvent _ => True | ItError pe => told (error_display pe) end.

  Lemma told_step : forall p, over_inv p ->
    match next_step p with
    | (OItem i, p') => over_inv p' /\ told_item i
    | (OCont, p') => over_inv p'
    | _ => True
    end.
  Proof.
    intros p [Hp Hsp].
    pose proof (keep_step text_over text_over_sub defs_over defs_over_closed text_over_expansion p Hp) as Hk. revert Hk.
    rewrite next_step_eq. destruct (p_stack p) as [|[e|c al] s] eqn:Es; [auto|intros [Hk _]; split; [split; [exact Hk|exact Hsp]|exact I]|].
    destruct (is_nil _); [intros Hk; split; [exact Hk|exact Hsp]|].
    destruct Hp as (Hs & Hb & Hm). rewrite Es in Hs. inversion Hs as [|? ? Hc Hs']; subst. cbn in Hc.
    assert (Hiv : Inv text_over defs_over (q_ist (of_parser p c al))) by (split; [exact Hc|split; assumption]).
    pose proof (parse_over parse_fuel (of_parser p c al) Hiv Hsp) as H2. revert H2.
    generalize (parse parse_fuel (of_parser p c al)). intros [r q] H2. cbn [snd] in H2. unfold after.
    destruct r as [[[[e n] m]|]|e|x|].
    - destruct (order_scripts _ _ _) as [l|?|?|]; auto; intros Hk; (split; [exact Hk|exact H2]).
    - intros Hk. split; [exact Hk|exact H2].
    - destruct (new_error e (i_content (q_ist q)) (q_spans q)) as [[pe|?|?|] sp] eqn:En; auto.
      apply new_error_told in En as [H3 H4]; [|exact H2]. intros [Hk _]. split; [split; [exact Hk|exact H4]|exact H3].
    - auto.
    - auto.
  Qed.

  Lemma told_run : forall n p, over_inv p -> Forall told_item (items_of (run n p)).
  Proof.
    induction n as [|n IH]; intros p Hp; [constructor|]. unfold items_of. cbn [run].
    pose proof (told_step p Hp) as Hs. destruct (next_step p) as [[i| | |x| ] p']; try constructor.
    - destruct Hs as [Hs Hi]. specialize (IH p' Hs). unfold items_of in IH. destruct (run n p') as [[l' o'] q']. constructor; [exact Hi|exact IH].
    - specialize (IH p' Hs). unfold items_of in IH. destruct (run n p') as [[l' o'] q']. exact IH.
  Qed.
End OverRun.

(** ** Every character of a message is quoted from the input or printable *)

Lemma message_chars : forall input l pe c, yields input l -> In (ItError pe) l -> In c (error_display pe) ->
  In c input \/ own_char c = true.
Proof.
  intros input l pe c (n & <-) Hi Hc.
  set (P := fun c => In c input \/ own_char c = true).
  assert (H : Forall (told_item P) (items_of (run n (new_parser input)))).
  { apply told_run; try (right; reflexivity). split.
    - apply over_start. apply Forall_forall. intros x Hx. left. exact Hx.
    - split; [|constructor]. apply Forall_forall. intros x Hx. left. exact Hx. }
  rewrite Forall_forall in H. specialize (H _ Hi). cbn in H. unfold told in H. rewrite Forall_forall in H.
  destruct (H c Hc) as [Hp|Hp]; [exact Hp|right; exact Hp].
Qed.

(** ** Panics *)

Lemma ascii_integer : forall (Q : panic -> Prop) s, Q POverflow -> ascii s -> tame Q (fst (unsigned_integer s)).
Proof.
  intros Q s Ho Ha. destruct s as [|c s1]; [exact I|]. cbn [unsigned_integer].
  assert (H1 : Q PBoundary \/ no_wide (c :: s1)) by (right; apply ascii_no_wide; exact Ha).
  assert (Hc : clen c = 1) by (inversion Ha as [|? ? Hc _]; subst; unfold clen; apply N.ltb_lt in Hc; rewrite Hc; reflexivity).
  assert (H2 : Q PBoundary \/ no_wide s1) by (right; inversion Ha; apply ascii_no_wide; assumption).
  destruct (is_digit c); [apply number_tame; auto|]. rewrite Hc. cbn [N.eqb Pos.eqb negb].
  destruct (c =? 96). { destruct s1 as [|b s2]; [exact I|]. destruct (b =? 92); [destruct s2 as [|b' s3]; [exact I|]|]; destruct (_ <? 128); exact I. }
  destruct (c =? 39); [apply number_tame; auto|]. destruct (c =? 34); [apply number_tame; auto|exact I].
Qed.

Lemma expand_plain : forall (Q : panic -> Prop) d s, defn_ok d -> defn_over (fun c => c <> 35) d -> Q POverflow -> tame Q (expand_definition d s).
Proof.
  assert (Hrep : forall args rep, rep_over (fun c => c <> 35) rep -> exists t, expand_rep args rep = Some t).
  { intros args rep H. induction H as [|[i|t] rep Hx H [r IH]]; [exists []; reflexivity|exfalso; apply Hx; reflexivity|].
    cbn [expand_rep]. rewrite IH. eauto. }
  intros Q d s Hok Hd Ho. unfold expand_definition. assert (H : tame Q (fst (expand_call d s))).
  { unfold expand_call. destruct d as [pre ps lb rep|t|n def rep].
    - destruct Hd as [Hr Hps]. assert (ps = []) as -> by (destruct ps; [reflexivity|exfalso; apply Hps; [discriminate|reflexivity]]).
      unfold bind at 1, get. apply bind_tame.
      + destruct pre as [p|]; [destruct (strip_prefix p s)|]; exact I.
      + intros _ r _. apply bind_tame; [exact I|]. intros args r2 _. destruct (Hrep args rep Hr) as [t ->]. exact I.
    - destruct t; exact I.
    - destruct Hd as [_ Hr]. apply bind_tame.
      + destruct def; [|exact I]. apply bind_tame; [apply optional_tame|intros; exact I].
      + intros first r _. destruct (n <? _); [exact Ho|]. apply bind_tame; [apply n_args_tame|]. intros l r2 _.
        destruct (Hrep (first ++ l)%list rep Hr) as [t ->]. exact I. }
  destruct (expand_call d s) as [[?|?|?|] ?]; exact H.
Qed.

Section Kinds.
  Variable P : char -> Prop.
  Hypothesis P_backslash : P 92.
  Hypothesis P_open : P 123.
  Hypothesis P_close : P 125.
  Variable Q : panic -> Prop.
  Hypothesis Q_over : Q POverflow.
  Hypothesis Q_assert : Q PAssert.
  Hypothesis Q_bound : Q PBoundary \/ forall c, P c -> c < 128.
  Hypothesis Q_index : Q PIndex \/ ~ P 35.

  Lemma kinds_run : forall input l x, Forall P input -> panics input l x -> Q x.
  Proof.
    intros input l x Hin (n & p & H).
    assert (Hascii : forall sl, text_over P sl -> Q PBoundary \/ ascii (stxt sl)).
    { intros sl Hs. destruct Q_bound as [Hq|Hq]; [left; exact Hq|right]. eapply Forall_impl; [exact Hq|exact Hs]. }
    assert (Hwide : forall sl, text_over P sl -> Q PBoundary \/ no_wide (stxt sl)).
    { intros sl Hs. destruct (Hascii sl Hs) as [Hq|Hq]; [left; exact Hq|right; apply ascii_no_wide; exact Hq]. }
    assert (Hint : forall sl, text_over P sl -> tame Q (fst (unsigned_integer (stxt sl)))).
    { intros sl Hs. destruct (Hascii sl Hs) as [Hq|Hq]; [apply integer_tame; assumption|apply ascii_integer; assumption]. }
    assert (Hcol : forall sl, text_over P sl -> tame Q (lex_color (stxt sl))).
    { intros sl Hs. apply color_tame. destruct (Hascii sl Hs) as [Hq|Hq]; auto. }
    refine (panic_run (text_over P) (text_over_sub P) (defs_over P) (defs_over_closed P)
      (text_over_expansion P P_backslash P_open P_close) Q input _ _ _ _ n (new_parser input) l x p _ H).
    - intros m cs d r Hm Hd. destruct (Hm _ _ Hd) as [H1 H2]. destruct Q_index as [Hq|Hq]; [apply expand_tame; auto|].
      apply expand_plain; [exact H1| |exact Q_over]. eapply over_mono; [|exact H2]. intros c Hc ->. contradiction.
    - left. exact Q_assert.
    - intros cs Hcs. apply o_atom_cs; try assumption; try apply text_over_sub; try apply defs_over_closed; intros; auto.
      + apply dimension_tame. auto.
      + apply glue_tame. auto.
      + apply or_braced_tame; [intros; apply dimension_tame; assumption|auto].
      + apply or_braced_tame; [intros; apply glue_tame; assumption|auto].
      + apply columns_tame. left. exact Q_over.
      + apply long_suffix_tame. vm_compute. discriminate.
    - intros ctx H1 H2. eapply o_atom_char with (Q := Q); try assumption; try apply text_over_sub; try apply defs_over_closed; intros; auto.
      + apply dimension_tame. auto.
      + apply glue_tame. auto.
      + apply or_braced_tame; [intros; apply dimension_tame; assumption|auto].
      + apply or_braced_tame; [intros; apply glue_tame; assumption|auto].
      + apply columns_tame. left. exact Q_over.
      + apply long_suffix_tame. vm_compute. discriminate.
    - split; [apply over_start; exact Hin|]. split; [left; exact Q_assert|]. split; [constructor|cbn; lia].
  Qed.
End Kinds.

Lemma ascii_panics : forall input l, ascii input -> ~ panics input l PBoundary.
Proof.
  intros input l Ha H. apply (kinds_run (fun c => c < 128)) with (Q := fun x => x <> PBoundary) in H; try discriminate; try lia; auto.
  all: try (left; discriminate); try (vm_compute; reflexivity).
Qed.

Lemma plain_panics : forall input l, ~ In 35 input -> ~ panics input l PIndex.
Proof.
  intros input l Hn H. apply (kinds_run (fun c => c <> 35)) with (Q := fun x => x <> PIndex) in H; try discriminate; auto.
  all: try (left; discriminate). apply Forall_forall. intros c Hc ->. contradiction.
Qed.
