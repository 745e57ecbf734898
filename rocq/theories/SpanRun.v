(** * SpanRun: every text being read lies in a known expansion, up to the first error. *)

From Coq Require Import List NArith ZArith Bool Lia Arith.
From Verif Require Import Base Float32 Event Tables Prim PrimTable Lex Macros Primitives Spans Parser
  SpecLex LexFacts LexMore PrimFacts Keep KeepRun MacroFacts Quiet LexPanic Terminate SimRun SpanFacts Api.
Import ListNotations.
Open Scope N_scope.

Strategy 1000 [parse parse_fuel].

(** ** Where a slice lies *)

(** The slice is a part of the input or of an expansion on the stack. *)
Definition placed (sp : spans) (c : slice) : Prop :=
  (sbase c = 0 /\ soff c + blen (stxt c) <= blen (s_input sp)) \/
  exists x, In x (s_exp sp) /\ sbase (x_full x) = sbase c /\ soff c + blen (stxt c) <= blen (stxt (x_full x)).

Lemma placed_sub : forall sp a b, sl_sub a b -> placed sp b -> placed sp a.
Proof.
  intros sp a b (p & q & Ht & Hb & Ho) [[H1 H2]|(x & H1 & H2 & H3)]; rewrite Ht, !blen_app in *.
  - left. split; [congruence|lia].
  - right. exists x. split; [exact H1|]. split; [congruence|]. lia.
Qed.

(** Expansions are stacked in the order of their allocation. *)
Fixpoint descending (top : N) (l : list espan) : Prop :=
  match l with
  | [] => 0 < top
  | x :: l' => sbase (x_full x) < top /\ descending (sbase (x_full x)) l'
  end.

Lemma descending_pos : forall l top, descending top l -> 0 < top.
Proof. intros [|x l] top H; [exact H|]. destruct H as [H _]. lia. Qed.

Lemma descending_in : forall l top x, descending top l -> In x l -> 0 < sbase (x_full x) < top.
Proof.
  induction l as [|y l IH]; intros top x Hd Hx; [contradiction|]. destruct Hd as [H1 H2]. destruct Hx as [->|Hx].
  - split; [eapply descending_pos; exact H2|exact H1].
  - specialize (IH _ _ H2 Hx). lia.
Qed.

Lemma descending_app : forall u l top, descending top (u ++ l) -> exists top', top' <= top /\ descending top' l.
Proof.
  induction u as [|x u IH]; intros l top H; [exists top; split; [lia|exact H]|]. destruct H as [H1 H2].
  destruct (IH l _ H2) as (t & Ht & Hd). exists t. split; [lia|exact Hd].
Qed.

Lemma descending_weaken : forall l a b, a <= b -> descending a l -> descending b l.
Proof. intros [|x l] a b H Hd; cbn in *; [lia|]. destruct Hd. split; [lia|assumption]. Qed.

Lemma reach_placed : forall top c sp, descending top (s_exp sp) -> placed sp c ->
  exists l u, s_exp sp = u ++ l /\ reach_original_call_site c sp = (Ok (soff c), mkSpans (s_input sp) l (s_total sp)) /\
    forall c', sbase c' <= sbase c -> placed sp c' -> forall n, placed (mkSpans (s_input sp) l n) c'.
Proof.
  intros top c [inp l0 tot] Hd Hp. cbn [s_exp s_input s_total] in *. unfold reach_original_call_site. cbn [s_exp s_input s_total].
  assert (Hc : forall l top, descending top l -> placed (mkSpans inp l tot) c ->
    exists u, l = u ++ snd (reach c l) /\
      (fst (reach c l) = Some (soff c) \/ (fst (reach c l) = None /\ sbase c = 0 /\ soff c + blen (stxt c) <= blen inp)) /\
      forall c', sbase c' <= sbase c -> placed (mkSpans inp l tot) c' -> forall n, placed (mkSpans inp (snd (reach c l)) n) c').
  { clear l0 top Hd Hp. induction l as [|y l IH]; intros top Hd Hp.
    - exists []. split; [reflexivity|]. split.
      + right. destruct Hp as [[H1 H2]|(x & [] & _)]. auto.
      + intros c' _ [H|(x & [] & _)] n. left. exact H.
    - cbn [reach]. destruct (ptr_in c (x_full y)) eqn:E.
      + exists []. split; [reflexivity|]. split; [left; reflexivity|]. intros c' _ H n. exact H.
      + destruct Hd as [Hy Hd].
        assert (Hp' : placed (mkSpans inp l tot) c).
        { destruct Hp as [H|(x & [<-|Hx] & H2 & H3)]; [left; exact H| |right; exists x; auto].
          exfalso. unfold ptr_in in E. cbn [stxt] in H3. rewrite H2, N.eqb_refl in E. cbn [andb] in E. apply N.leb_gt in E. lia. }
        assert (Hlt : sbase c < sbase (x_full y)).
        { destruct Hp' as [[H _]|(x & Hx & H2 & _)]; [rewrite H; eapply descending_pos; exact Hd|].
          cbn [s_exp] in Hx. pose proof (descending_in _ _ _ Hd Hx). lia. }
        destruct (IH _ Hd Hp') as (u & Hu & Hr & Hk). exists (y :: u). split; [cbn [app]; f_equal; exact Hu|]. split; [exact Hr|].
        intros c' Hc' Hpc n. apply Hk; [exact Hc'|]. destruct Hpc as [H|(x & [<-|Hx] & H2 & H3)]; [left; exact H|lia|right; exists x; auto]. }
  destruct (Hc _ _ Hd Hp) as (u & Hu & Hr & Hk). destruct (reach c l0) as [o l]. cbn [fst snd] in *.
  exists l, u. split; [exact Hu|]. split; [|exact Hk]. destruct Hr as [->|(-> & H1 & H2)]; [reflexivity|].
  unfold ptr_in. cbn [sbase stxt]. rewrite H1. cbn [N.eqb andb]. destruct (N.leb_spec (soff c) (blen inp)); [reflexivity|lia].
Qed.

(** ** One call of [parse] *)

(** Slices of one allocation that are in place. *)
Definition within (sp : spans) (b : N) (c : slice) : Prop := sbase c = b /\ placed sp c.

Lemma within_sub : forall sp b x y, sl_sub x y -> within sp b y -> within sp b x.
Proof. intros sp b x y Hs [H1 H2]. split; [|eapply placed_sub; eassumption]. destruct Hs as (p & q & _ & Hb & _). congruence. Qed.

Definition defs_ok (m : macro_ctx) : Prop := forall n d, ctx_get m n = Some d -> defn_ok d.

Lemma defs_closed : forall G, def_closed G defs_ok.
Proof.
  intros G cs name d m _ _ Hd _ Hm k dd. unfold ctx_get, ctx_insert. cbn [assoc_str]. destruct (str_eqb name k); [congruence|apply Hm].
Qed.

Definition not_assert (p : panic) : Prop := p <> PAssert.

Record places (q : pst) (r : res (option script)) (q' : pst) : Prop := {
  pl_panic : r <> Panic PAssert;
  pl_desc : descending (q_next q') (s_exp (q_spans q'));
  pl_next : q_next q <= q_next q';
  pl_defs : defs_ok (i_macros (q_ist q'));
  pl_base : sbase (i_content (q_ist q)) <= sbase (i_content (q_ist q'));
  pl_content : placed (q_spans q') (i_content (q_ist q'));
  pl_buf : Forall (instr_ok (within (q_spans q') (sbase (i_content (q_ist q'))))) (i_buf (q_ist q'));
  pl_old : forall c, sbase c <= sbase (i_content (q_ist q)) -> placed (q_spans q) c -> placed (q_spans q') c
}.

Section Inner.
  Variable sp : spans.
  Variable b : N.

  Lemma inner_char : forall ctx, within sp b ctx -> (exists x r, stxt ctx = x :: r /\ x <> 37 /\ x <> 92) ->
    only not_assert (Inv (within sp b) defs_ok) (parse_atom (handle_char ctx)) script_ok.
  Proof.
    intros ctx H1 H2. eapply o_atom_char with (Q := not_assert); try assumption; try apply defs_closed; try (intros; apply within_sub with (y := b0); assumption).
    all: try (intros; eapply within_sub; eassumption).
    all: try (intros; apply dimension_tame; left; discriminate).
    all: try (intros; apply glue_tame; left; discriminate).
    all: try (intros; apply or_braced_tame; [intros; first [apply dimension_tame|apply glue_tame]; assumption|left; discriminate]).
    all: try (intros; apply integer_tame; discriminate).
    all: try (intros; apply color_tame; left; discriminate).
    all: try (intros; apply columns_tame; left; discriminate).
    all: try (intros; discriminate).
    all: try (intros; apply over_tame; discriminate).
  Qed.

  Lemma inner_cs : forall cs, cs_in (within sp b) cs ->
    only not_assert (Inv (within sp b) defs_ok) (parse_atom (handle_prim cs)) script_ok.
  Proof.
    intros cs H1. eapply o_atom_cs with (Q := not_assert); try assumption; try apply defs_closed.
    all: try (intros; eapply within_sub; eassumption).
    all: try (intros; apply dimension_tame; left; discriminate).
    all: try (intros; apply glue_tame; left; discriminate).
    all: try (intros; apply or_braced_tame; [intros; first [apply dimension_tame|apply glue_tame]; assumption|left; discriminate]).
    all: try (intros; apply integer_tame; discriminate).
    all: try (intros; apply color_tame; left; discriminate).
    all: try (intros; apply columns_tame; left; discriminate).
    all: try (intros; discriminate).
    all: try (intros; apply over_tame; discriminate).
  Qed.
End Inner.

Lemma places_inner : forall q (m : P (option script)) st,
  only not_assert (Inv (within (q_spans q) (sbase (i_content (q_ist q)))) defs_ok) m script_ok ->
  Inv (within (q_spans q) (sbase (i_content (q_ist q)))) defs_ok st ->
  descending (q_next q) (s_exp (q_spans q)) ->
  places q (fst (run_inner m (set_ist st q))) (snd (run_inner m (set_ist st q))).
Proof.
  intros q m st Hm Hi Hd. unfold run_inner. cbn [set_ist q_ist]. destruct (Hm st Hi) as [((H1 & H1') & H2 & H3) H4].
  destruct (m st) as [r st']. cbn [fst snd set_ist q_ist q_spans q_next] in *. split; cbn [set_ist q_ist q_spans q_next].
  - intros ->. apply H4. reflexivity.
  - exact Hd.
  - lia.
  - exact H3.
  - rewrite H1. lia.
  - exact H1'.
  - rewrite H1. exact H2.
  - auto.
Qed.

Lemma places_here : forall q r st, r <> Panic PAssert -> descending (q_next q) (s_exp (q_spans q)) -> i_buf st = [] -> defs_ok (i_macros st) ->
  within (q_spans q) (sbase (i_content (q_ist q))) (i_content st) -> forall n, q_next q <= n -> forall a,
  places q r (mkPst st (q_spans q) n a).
Proof.
  intros q r st Hr Hd Hb Hm [H1 H2] n Hn a. split; cbn [q_ist q_spans q_next].
  - exact Hr.
  - eapply descending_weaken; eassumption.
  - exact Hn.
  - exact Hm.
  - rewrite H1. lia.
  - exact H2.
  - rewrite Hb. constructor.
  - auto.
Qed.

Lemma parse_places : forall f q, descending (q_next q) (s_exp (q_spans q)) -> placed (q_spans q) (i_content (q_ist q)) ->
  sbase (i_content (q_ist q)) < q_next q -> i_buf (q_ist q) = [] -> defs_ok (i_macros (q_ist q)) ->
  places q (fst (parse f q)) (snd (parse f q)).
Proof.
  induction f as [|f IH]; intros q Hd Hp Hlt Hb Hm.
  { cbn [fst snd parse]. destruct q as [st sp n a]. cbn [q_ist q_spans q_next] in *. apply places_here with (q := mkPst st sp n a); cbn; auto; [discriminate|split; auto|lia]. }
  rewrite parse_eq. set (c0 := i_content (q_ist q)) in *.
  pose proof (lex_token_suffix (stxt c0)) as Hs.
  assert (W : within (q_spans q) (sbase c0) c0) by (split; auto).
  assert (Wr : forall r, suffix r (stxt c0) -> within (q_spans q) (sbase c0) (suffix_slice c0 r)).
  { intros r Hr. eapply within_sub; [apply sl_sub_suffix; exact Hr|exact W]. }
  assert (Hset : forall r, suffix r (stxt c0) -> Inv (within (q_spans q) (sbase c0)) defs_ok (set_content (suffix_slice c0 r) (q_ist q))).
  { intros r Hr. split; [apply Wr; exact Hr|]. cbn. rewrite Hb. split; [constructor|exact Hm]. }
  assert (Hst : forall rr r, suffix r (stxt c0) -> rr <> Panic PAssert -> forall n, q_next q <= n -> forall a,
    places q rr (mkPst (set_content (suffix_slice c0 r) (q_ist q)) (q_spans q) n a)).
  { intros rr r Hr Hrr n Hn a. apply places_here; auto; apply Wr; exact Hr. }
  destruct (lex_token (stxt c0)) as [[[cs|ctx]|e|p|] r] eqn:El; cbn [snd] in Hs.
  - destruct (ctx_get (i_macros (q_ist q)) cs) as [d|] eqn:Em.
    + pose proof (expand_tame not_assert d r (Hm _ _ Em) ltac:(discriminate) ltac:(discriminate)) as Ht.
      destruct (expand_definition d r) as [[txt k]|e|p|] eqn:Ee.
      * destruct (_ || _); [cbn [fst snd]; apply Hst; [exact Hs|discriminate|lia]|].
        set (new := mkSlice (q_next q) 0 txt).
        assert (Wo : within (add_total (blen txt) (q_spans q)) (sbase c0) (suffix_slice c0 (trim_start (stxt c0)))).
        { destruct (Wr _ (suffix_trim (stxt c0))) as [Ha Hb']. split; [exact Ha|exact Hb']. }
        destruct (reach_placed (q_next q) _ (add_total (blen txt) (q_spans q)) Hd (proj2 Wo)) as (l & u & Hu & Er & Hk).
        unfold add_span. rewrite Er. cbn [fst snd].
        match goal with |- context [parse f ?x] => set (q2 := x) end.
        destruct (descending_app u l (q_next q)) as (t & Ht1 & Ht2); [rewrite <- Hu; exact Hd|].
        assert (H2 : places q2 (fst (parse f q2)) (snd (parse f q2))).
        { apply IH; unfold q2; cbn [q_ist q_spans q_next set_content i_content i_buf i_macros s_exp s_input x_full sbase].
          - cbn [descending x_full sbase]. split; [unfold new; cbn [sbase]; lia|]. eapply descending_weaken; [|exact Ht2]. unfold new. cbn [sbase]. lia.
          - right. exists (mkSpan new (Z.to_N ((Z.of_N (blen cs + k + 1) - (Z.of_N (blen (stxt (suffix_slice c0 (trim_start (stxt c0))))) - Z.of_N (blen (stxt new)))) mod Z.of_N usize_mod)) (soff (suffix_slice c0 (trim_start (stxt c0)))) (soff (suffix_slice c0 (trim_start (stxt c0))) + (blen cs + k + 1))).
            split; [left; reflexivity|]. cbn [x_full]. split; [reflexivity|]. unfold new. cbn [soff stxt]. lia.
          - unfold new. cbn [sbase]. lia.
          - exact Hb.
          - exact Hm. }
        assert (E1 : q_next q2 = q_next q + 1) by reflexivity. assert (E2 : sbase (i_content (q_ist q2)) = q_next q) by reflexivity.
        destruct H2. rewrite E1 in *. rewrite E2 in *. split; try assumption; try lia.
        -- fold c0. lia.
        -- intros c Hc Hpc. apply pl_old0; [fold c0 in Hc; lia|].
           assert (Hpc' : placed (add_total (blen txt) (q_spans q)) c) by exact Hpc.
           destruct Wo as [Wo1 _]. specialize (Hk c ltac:(rewrite Wo1; exact Hc) Hpc' 0).
           destruct Hk as [H|(x & H1 & H2 & H3)]; [left; exact H|right; exists x; split; [right; exact H1|auto]].
      * cbn [fst snd]. apply Hst; [exact Hs|discriminate|lia].
      * cbn [fst snd]. apply Hst; [exact Hs| |lia]. intros E. injection E as ->. apply Ht. reflexivity.
      * cbn [fst snd]. apply Hst; [exact Hs|discriminate|lia].
    + apply places_inner; [|apply Hset; exact Hs|exact Hd]. apply inner_cs.
      destruct (lex_token_cs _ _ _ El) as (b & w & _ & _ & Hcs & E). split; [exact Hcs|].
      exists c0. split; [exact W|]. exists b, (w ++ r)%list. rewrite E. reflexivity.
  - apply places_inner; [|apply Hset; exact Hs|exact Hd].
    destruct (lex_token_chr _ _ _ El) as (b & c & _ & -> & E & Hx). apply inner_char; [|].
    + apply Wr. rewrite E. apply suffix_app.
    + exists c, r. split; [reflexivity|]. tauto.
  - destruct e; cbn [fst snd]; apply Hst; try exact Hs; try discriminate; lia.
  - exfalso. pose proof (lex_token_no_panic (stxt c0)) as H. rewrite El in H. exact H.
  - cbn [fst snd]. destruct q as [st sp n a]. cbn [q_ist q_spans q_next] in *. apply places_here with (q := mkPst st sp n a); cbn; auto; [discriminate|lia].
Qed.

(** ** The run *)

Fixpoint stacked (sp : spans) (b : N) (l : list instr) : Prop :=
  match l with
  | [] => True
  | IEv _ :: l' => stacked sp b l'
  | ISub c _ :: l' => sbase c <= b /\ placed sp c /\ stacked sp (sbase c) l'
  end.

Lemma stacked_mono : forall sp sp' l b b', b <= b' ->
  (forall c, sbase c <= b -> placed sp c -> placed sp' c) -> stacked sp b l -> stacked sp' b' l.
Proof.
  induction l as [|[e|c al] l IH]; intros b b' Hb Hp Hs; cbn [stacked] in *; [exact I|eapply IH; eassumption|].
  destruct Hs as (H1 & H2 & H3). split; [lia|]. split; [apply Hp; assumption|]. eapply IH; [apply N.le_refl| |exact H3].
  intros c' Hc'. apply Hp. lia.
Qed.

Lemma stacked_app : forall sp b l r, Forall (instr_ok (within sp b)) l -> stacked sp b r -> stacked sp b (l ++ r).
Proof.
  intros sp b l r H Hr. induction H as [|[e|c al] l H1 H2 IH]; cbn [app stacked]; [exact Hr|exact IH|].
  destruct H1 as [<- H1]. split; [lia|]. split; [exact H1|exact IH].
Qed.

Definition in_place (p : parser) : Prop :=
  descending (p_next p) (s_exp (p_spans p)) /\ (exists b, stacked (p_spans p) b (p_stack p)) /\ defs_ok (p_macros p) /\
  p_buf p = [] /\ spans_ok (p_spans p).

Lemma placed_base : forall sp top c, descending top (s_exp sp) -> placed sp c -> sbase c < top.
Proof.
  intros sp top c Hd [[H _]|(x & H1 & H2 & _)]; [rewrite H; eapply descending_pos; exact Hd|].
  pose proof (descending_in _ _ _ Hd H1). lia.
Qed.

Lemma place_step : forall p, in_place p ->
  match next_step p with
  | (OItem (ItEvent _), p') | (OCont, p') => in_place p'
  | (OPanic x, _) => x <> PAssert
  | _ => True
  end.
Proof.
  intros p (Hd & (b & Hs) & Hm & Hb & Ho). rewrite next_step_eq. destruct (p_stack p) as [|[e|c al] s]; [exact I| |].
  - split; [exact Hd|]. split; [exists b; exact Hs|]. auto.
  - cbn [stacked] in Hs. destruct Hs as (Hs1 & Hs2 & Hs3). destruct (is_nil _).
    { split; [exact Hd|]. split; [exists (sbase c); exact Hs3|]. auto. }
    pose proof (parse_places parse_fuel (of_parser p c al) Hd Hs2 (placed_base _ _ _ Hd Hs2) Hb Hm) as Hp.
    pose proof (parse_spans parse_fuel (of_parser p c al) Ho) as Ho'. revert Hp Ho'.
    generalize (parse parse_fuel (of_parser p c al)). intros [r q] Hp Ho'. cbn [fst snd] in *. destruct Hp.
    cbn [of_parser q_ist q_spans q_next i_content] in *.
    set (bb := sbase (i_content (q_ist q))) in *.
    assert (Hrest : stacked (q_spans q) bb (ISub (i_content (q_ist q)) (i_align (q_ist q)) :: s)).
    { cbn [stacked]. split; [fold bb; lia|]. split; [exact pl_content0|]. fold bb. eapply stacked_mono; [exact pl_base0|exact pl_old0|exact Hs3]. }
    unfold after. destruct r as [[[[e n] m]|]|e|x|].
    + destruct (order_scripts n m (i_buf (q_ist q))) as [l|e'|x|] eqn:Eo; try exact I.
      * split; [exact pl_desc0|]. split; [|split; [exact pl_defs0|split; [reflexivity|exact Ho']]].
        exists bb. cbn [to_parser p_stack stacked p_spans].
        apply stacked_app; [|apply stacked_app; [|exact Hrest]]; apply Forall_forall; rewrite Forall_forall in pl_buf0; intros x Hx; apply pl_buf0.
        -- eapply in_firstn. exact Hx.
        -- eapply order_in; eassumption.
      * unfold order_scripts in Eo. destruct (Nat.ltb m n); [|discriminate]. destruct (spare_loop _ _ _ _); [|congruence].
        destruct (all_init _); congruence.
    + split; [exact pl_desc0|]. split; [|split; [exact pl_defs0|split; [reflexivity|exact Ho']]].
      exists bb. cbn [to_parser p_stack p_spans]. apply stacked_app; [exact pl_buf0|exact Hrest].
    + destruct (new_error_ok e (i_content (q_ist q)) (q_spans q) (proj1 Ho')) as [(pe & s' & -> & _)|(s' & _ & Hr)]; [exact I|].
      destruct (reach_placed _ _ _ pl_desc0 pl_content0) as (l & u & _ & Er & _). rewrite Er in Hr. discriminate.
    + intros ->. apply pl_panic0. reflexivity.
    + exact I.
Qed.

Lemma place_run : forall n p l o q, in_place p -> run n p = (l, o, q) -> error_free l -> o <> OPanic PAssert.
Proof.
  induction n as [|n IH]; intros p l o q Hp H Hl; cbn [run] in H; [injection H as <- <- <-; discriminate|].
  pose proof (place_step p Hp) as Hs. destruct (next_step p) as [[[e|pe]| | |x| ] p'] eqn:E.
  - destruct (run n p') as [[l' o'] q'] eqn:Er. injection H as <- <- <-. eapply IH; eassumption.
  - destruct (run n p') as [[l' o'] q'] eqn:Er. injection H as <- <- <-. discriminate.
  - eapply IH; eassumption.
  - injection H as <- <- <-. discriminate.
  - injection H as <- <- <-. congruence.
  - injection H as <- <- <-. discriminate.
Qed.

Lemma place_new : forall input, in_place (new_parser input).
Proof.
  intros input. split; [reflexivity|]. split.
  - exists 0. cbn. split; [lia|]. split; [|exact I]. left. cbn. split; [reflexivity|lia].
  - split; [intros n d H; discriminate|]. split; [reflexivity|]. split; [constructor|cbn; lia].
Qed.

(** Until an error is reported, the assertion of [reach_original_call_site] holds. *)
Theorem assert_holds : forall input l x, panics input l x -> error_free l -> x <> PAssert.
Proof.
  intros input l x (n & p & H) Hl E. subst x. eapply place_run; [apply place_new|exact H|exact Hl|reflexivity].
Qed.
