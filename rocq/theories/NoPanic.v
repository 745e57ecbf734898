(** * NoPanic: the panics a run of the parser may end with. *)

From Coq Require Import List NArith ZArith Bool Lia Arith.
From Verif Require Import Base Float32 Event Tables Prim PrimTable Lex Macros Primitives Spans Parser
  SpecLex LexFacts LexMore PrimFacts Keep KeepRun MacroFacts Quiet LexPanic Terminate ShapeRun SimRun SpanFacts Api SpanRun.
Import ListNotations.
Open Scope N_scope.

Strategy 1000 [parse parse_fuel].

Section PanicRun.
  Variable G : slice -> Prop.
  Hypothesis HG : forall a b, sl_sub a b -> G b -> G a.
  Variable J : macro_ctx -> Prop.
  Hypothesis HJ : def_closed G J.
  Hypothesis HX : forall m cs d r txt k n sl, J m -> ctx_get m cs = Some d -> G sl -> suffix r (stxt sl) ->
    expand_definition d r = Ok (txt, k) -> G (mkSlice n 0 txt).
  Variable Q : panic -> Prop.
  Variable input : str.
  Hypothesis HE : forall m cs d r, J m -> ctx_get m cs = Some d -> tame Q (expand_definition d r).
  (** The assertion is allowed to fail, or nothing is ever expanded. *)
  Hypothesis HA : Q PAssert \/ ((forall m cs, J m -> ctx_get m cs = None) /\ forall sl, G sl -> ptr_in sl (mkSlice 0 0 input) = true).
  Hypothesis HC : forall cs, cs_in G cs -> only Q (Inv G J) (parse_atom (handle_prim cs)) script_ok.
  Hypothesis HH : forall ctx, G ctx -> (exists x r, stxt ctx = x :: r /\ x <> 37 /\ x <> 92) ->
    only Q (Inv G J) (parse_atom (handle_char ctx)) script_ok.

  (** The stack of expansions is empty when the assertion must hold. *)
  Definition flat (s : spans) : Prop := Q PAssert \/ (s_exp s = [] /\ s_input s = input).

  Lemma reach_flat : forall c s, G c -> flat s -> tame Q (fst (reach_original_call_site c s)) /\ flat (snd (reach_original_call_site c s)).
  Proof.
    intros c s Hc Hf. unfold reach_original_call_site. destruct Hf as [Hq|[He Hi]].
    - split; [|left; exact Hq]. destruct (reach c (s_exp s)) as [[i|] l]; [exact I|]. destruct (ptr_in _ _); [exact I|exact Hq].
    - rewrite He. cbn [reach]. rewrite Hi. destruct HA as [Hq|[_ Hp]].
      + split; [|left; exact Hq]. destruct (ptr_in _ _); [exact I|exact Hq].
      + rewrite (Hp c Hc). split; [exact I|]. right. split; reflexivity.
  Qed.

  Lemma panic_parse : forall f q, Inv G J (q_ist q) -> flat (q_spans q) ->
    tame Q (fst (parse f q)) /\ flat (q_spans (snd (parse f q))).
  Proof.
    induction f as [|f IH]; intros q Hi Hf; [split; [exact I|exact Hf]|]. rewrite parse_eq.
    pose proof (lex_token_suffix (stxt (i_content (q_ist q)))) as Hs.
    assert (Hset : forall r, suffix r (stxt (i_content (q_ist q))) ->
      Inv G J (set_content (suffix_slice (i_content (q_ist q)) r) (q_ist q))).
    { intros r Hr. apply (inv_suffix G HG J); assumption. }
    assert (Hin : forall r (m : P (option script)), suffix r (stxt (i_content (q_ist q))) -> only Q (Inv G J) m script_ok ->
      tame Q (fst (run_inner m (set_ist (set_content (suffix_slice (i_content (q_ist q)) r) (q_ist q)) q))) /\
      flat (q_spans (snd (run_inner m (set_ist (set_content (suffix_slice (i_content (q_ist q)) r) (q_ist q)) q))))).
    { intros r m Hr Hm. unfold run_inner. cbn [set_ist q_ist]. destruct (Hm _ (Hset r Hr)) as [_ H].
      destruct (m _) as [x st']. cbn [fst snd] in *. split; [|exact Hf]. destruct x; try exact I. exact H. }
    destruct (lex_token (stxt (i_content (q_ist q)))) as [[[cs|ctx]|e|p|] r] eqn:El; cbn [snd] in Hs.
    - destruct (ctx_get (i_macros (q_ist q)) cs) as [d|] eqn:Em.
      + pose proof (HE _ _ _ r (proj2 (proj2 Hi)) Em) as Ht.
        destruct (expand_definition d r) as [[txt k]|e|p|] eqn:Ee; cbn [fst snd]; try (split; [exact Ht|exact Hf]).
        destruct (_ || _); [split; [exact I|exact Hf]|].
        destruct HA as [Hq|[Hn _]]; [|rewrite (Hn _ cs (proj2 (proj2 Hi))) in Em; discriminate].
        destruct (add_span _ _ _ _) as [[[]|e|p|] sp] eqn:Ea.
        * apply IH; [|left; exact Hq]. cbn [q_ist]. apply inv_content; [|exact Hi]. eapply HX; [apply Hi|exact Em|apply Hi|exact Hs|exact Ee].
        * split; [exact I|left; exact Hq].
        * split; [|left; exact Hq]. cbn [fst tame]. unfold add_span in Ea.
          match type of Ea with context [reach_original_call_site ?c ?s] =>
            assert (Hc : G c) by (eapply HG; [apply sl_sub_suffix, suffix_trim|apply Hi]);
            pose proof (proj1 (reach_flat c s Hc (or_introl Hq))) as Ht2;
            destruct (reach_original_call_site c s) as [[?|?|?|] ?] end; try discriminate.
          injection Ea as -> _. exact Ht2.
        * split; [exact I|left; exact Hq].
      + apply Hin; [exact Hs|]. apply HC.
        destruct (lex_token_cs _ _ _ El) as (b & w & _ & _ & Hcs & E). split; [exact Hcs|].
        exists (i_content (q_ist q)). split; [apply Hi|]. exists b, (w ++ r)%list. rewrite E. reflexivity.
    - apply Hin; [exact Hs|]. destruct (lex_token_chr _ _ _ El) as (b & c & _ & -> & E & Hx). apply HH.
      + eapply HG; [apply sl_sub_suffix|apply Hi]. rewrite E. apply suffix_app.
      + exists c, r. split; [reflexivity|]. tauto.
    - destruct e; split; try exact I; exact Hf.
    - exfalso. pose proof (lex_token_no_panic (stxt (i_content (q_ist q)))) as H. rewrite El in H. exact H.
    - split; [exact I|exact Hf].
  Qed.

  Lemma new_error_flat : forall e c s, G c -> flat s -> Forall ordered (s_exp s) ->
    tame Q (fst (new_error e c s)) /\ (forall pe s', new_error e c s = (Ok pe, s') -> flat s').
  Proof.
    intros e c s Hc Hf Ho. destruct (reach_flat c s Hc Hf) as [H1 H2].
    destruct (new_error_ok e c s Ho) as [(pe & s' & E & _)|(s' & E & Er)]; rewrite E.
    - split; [exact I|]. intros pe' s2 E2. injection E2 as <- <-. unfold new_error in E.
      destruct (reach_original_call_site c s) as [[i|?|?|] s1]; try discriminate. cbn [snd] in H2.
      destruct (floor_char_boundary _ _); [|discriminate]. destruct (floor_char_boundary _ _); [|discriminate].
      destruct (context_loop _ _ _ _); try discriminate. injection E as _ <-. exact H2.
    - rewrite Er in H1. split; [exact H1|]. intros; discriminate.
  Qed.

  Definition panic_inv (p : parser) : Prop := PInv G J p /\ flat (p_spans p) /\ spans_ok (p_spans p).

  Lemma panic_step : forall p, panic_inv p ->
    panic_inv (snd (next_step p)) /\ match fst (next_step p) with OPanic x => Q x | _ => True end.
  Proof.
    intros p (Hp & Hf & Ho).
    assert (Hk := keep_step G HG J HJ HX p Hp). pose proof (step_spans p Ho) as Ho'.
    assert (Hflat : flat (p_spans (snd (next_step p))) /\ match fst (next_step p) with OPanic x => Q x | _ => True end).
    { clear Hk Ho'. destruct Hp as (Hs & Hb & Hm). rewrite next_step_eq. destruct (p_stack p) as [|[e|c al] s] eqn:Es; [split; [exact Hf|exact I]|split; [exact Hf|exact I]|].
      destruct (is_nil _); [split; [exact Hf|exact I]|]. inversion Hs as [|? ? Hc Hs']; subst. cbn in Hc.
      assert (Hi : Inv G J (q_ist (of_parser p c al))) by (split; [exact Hc|split; assumption]).
      pose proof (panic_parse parse_fuel _ Hi Hf) as [H1 H2]. pose proof (keep_parse G HG J HJ HX parse_fuel _ Hi) as ((H3 & _) & _).
      pose proof (parse_spans parse_fuel (of_parser p c al) Ho) as H4.
      assert (H5 := script_order parse_fuel (of_parser p c al)). revert H1 H2 H3 H4 H5.
      generalize (parse parse_fuel (of_parser p c al)). intros [r q] H1 H2 H3 H4 H5. cbn [fst snd] in *. unfold after.
      destruct r as [[[[e n] m]|]|e|x|].
      - destruct (H5 e n m q eq_refl) as (base & s1 & s2 & l & _ & _ & -> & _). split; [exact H2|exact I].
      - split; [exact H2|exact I].
      - destruct (new_error_flat e (i_content (q_ist q)) (q_spans q) H3 H2 (proj1 H4)) as [H6 H7].
        destruct (new_error e (i_content (q_ist q)) (q_spans q)) as [[pe|?|?|] sp]; cbn [fst snd p_spans to_parser] in *; try (split; [exact H2|exact I]).
        + split; [eapply H7; reflexivity|exact I].
        + split; [exact H2|exact H6].
      - split; [exact H2|exact H1].
      - split; [exact H2|exact I]. }
    destruct Hflat as [Hfl Hq]. split; [|exact Hq]. split; [|split; [exact Hfl|exact Ho']].
    destruct (next_step p) as [[i| | |x| ] p']; cbn [snd]; try exact Hk. apply Hk.
  Qed.

  Lemma panic_run : forall n p l x q, panic_inv p -> run n p = (l, OPanic x, q) -> Q x.
  Proof.
    induction n as [|n IH]; intros p l x q Hp H; cbn [run] in H; [discriminate|].
    destruct (panic_step p Hp) as [H1 H2]. destruct (next_step p) as [[i| | |y| ] p']; cbn [fst snd] in *.
    - destruct (run n p') as [[l' o'] q'] eqn:Er. injection H as _ -> _. eapply IH; eassumption.
    - eapply IH; eassumption.
    - discriminate.
    - injection H as _ <- _. exact H2.
    - discriminate.
  Qed.
End PanicRun.

(** ** Every input *)

(** The panics of checked operations: an index, a boundary of characters, an
    overflow, an assertion. The others stand for undefined behaviour or for
    an internal error. *)
Definition checked (x : panic) : Prop := x = PIndex \/ x = PBoundary \/ x = POverflow \/ x = PAssert.

Lemma panic_kinds : forall input l x, panics input l x -> checked x.
Proof.
  intros input l x (n & p & H).
  assert (Ho : checked POverflow) by (unfold checked; auto). assert (Hb : checked PBoundary) by (unfold checked; auto).
  assert (Hx : checked PIndex) by (unfold checked; auto). assert (Ha : checked PAssert) by (unfold checked; auto).
  refine (panic_run (fun _ => True) _ defs_ok _ _ checked input _ _ _ _ n (new_parser input) l x p _ H).
  - auto.
  - apply defs_closed.
  - auto.
  - intros m cs d r Hm Hd. apply expand_tame; auto. eapply Hm. exact Hd.
  - left. exact Ha.
  - intros cs Hcs. apply o_atom_cs; try assumption; try apply defs_closed; auto; intros.
    all: try (apply dimension_tame; left; exact Hb).
    all: try (apply glue_tame; left; exact Hb).
    all: try (apply or_braced_tame; [intros; first [apply dimension_tame|apply glue_tame]; assumption|left; exact Hb]).
    all: try (apply integer_tame; assumption).
    all: try (apply color_tame; left; exact Hb).
    all: try (apply columns_tame; left; exact Ho).
    all: try (apply over_tame; [discriminate|exact Hx]).
  - intros ctx H1 H2. eapply o_atom_char with (Q := checked); try assumption; try apply defs_closed; auto; intros.
    all: try (apply dimension_tame; left; exact Hb).
    all: try (apply glue_tame; left; exact Hb).
    all: try (apply or_braced_tame; [intros; first [apply dimension_tame|apply glue_tame]; assumption|left; exact Hb]).
    all: try (apply integer_tame; assumption).
    all: try (apply color_tame; left; exact Hb).
    all: try (apply columns_tame; left; exact Ho).
    all: try (apply over_tame; [discriminate|exact Hx]).
  - split; [|split; [left; exact Ha|split; [constructor|cbn; lia]]]. split; [repeat constructor|]. split; [constructor|]. intros k d E. discriminate.
Qed.

(** ** Inputs on which the parser does not panic *)

(** No definition; no white space of several bytes; a hash sign only in an
    ASCII text; small numbers, or no command that reads one; no column specification of
    65535 characters. *)
Definition calm (s : str) : Prop :=
  defines_nothing s /\ no_wide s /\ (ascii s \/ ~ In 35 s) /\
  (small_text s \/ (~ contains (lit "\char") s /\ ~ contains (lit "alignat") s /\ ~ contains (lit "alignedat") s)) /\
  run_free is_col 65535 s.

Lemma infix_Forall : forall (P : char -> Prop) a b, sl_sub a b -> Forall P (stxt b) -> Forall P (stxt a).
Proof. intros P a b (p & q & -> & _) H. apply Forall_app in H as [_ H]. apply Forall_app in H. apply H. Qed.

Lemma infix_in : forall c a b, sl_sub a b -> In c (stxt a) -> In c (stxt b).
Proof. intros c a b (p & q & -> & _) H. apply in_or_app. right. apply in_or_app. left. exact H. Qed.

Lemma infix_run : forall f k a b, sl_sub a b -> run_free f k (stxt b) -> run_free f k (stxt a).
Proof.
  intros f k a b (p & q & E & _) H u v w Ea Hv. apply (H (p ++ u)%list v (w ++ q)%list); [|exact Hv].
  rewrite E, Ea, <- !app_assoc. reflexivity.
Qed.

Lemma calm_sub : forall a b, sl_sub a b -> calm (stxt b) -> calm (stxt a).
Proof.
  intros a b Hs (H1 & H2 & H3 & H4 & H6).
  assert (Hn : forall t, ~ contains t (stxt b) -> ~ contains t (stxt a)) by (intros t H Hc; apply H; eapply contains_sub; eassumption).
  split; [intros c Hc; apply Hn; auto|]. split; [eapply infix_Forall; eassumption|]. split.
  { destruct H3 as [H3|H3]; [left; eapply infix_Forall; eassumption|right; intros H; apply H3; eapply infix_in; eassumption]. }
  split; [|eapply infix_run; eassumption].
  destruct H4 as [(A & B & C)|(A & B & C)]; [left|right; auto].
  split; [eapply infix_Forall; eassumption|]. split; [eapply infix_run; eassumption|]. intros H; apply C; eapply infix_in; eassumption.
Qed.

Definition named (f : prim -> bool) (n : str) : bool :=
  forallb (fun x => negb (f (snd x)) || str_eqb n (fst x)) prim_table.

Lemma named_cs : forall f n, named f n = true -> (forall e, f (PSimple e) = false) -> f PUnknown = false ->
  forall cs, f (lookup_prim cs) = true -> cs = n.
Proof.
  intros f n Ht Hs Hu cs H. unfold lookup_prim in H. destruct (assoc_str cs prim_table) as [p|] eqn:E.
  - apply assoc_str_in in E. pose proof (proj1 (forallb_forall _ _) Ht _ E) as H1. cbn [fst snd] in H1.
    rewrite H in H1. cbn [negb orb] in H1. apply str_eqb_eq in H1. congruence.
  - destruct (control_sequence_delimiter_map cs) as [[c t]|]; [rewrite Hs in H; discriminate|].
    destruct (is_nil (trim_start cs)); [rewrite Hs in H|rewrite Hu in H]; discriminate.
Qed.

Lemma char_name : forall cs, lookup_prim cs = PChar -> cs = lit "char".
Proof.
  intros cs H. apply (named_cs (fun p => match p with PChar => true | _ => false end)); try reflexivity.
  rewrite H. reflexivity.
Qed.

Lemma calm_small : forall s name, In name pair_names -> calm s -> contains name s -> small_text s.
Proof.
  intros s name Hn (_ & _ & _ & [H|(_ & H1 & H2)] & _) Hc; [exact H|]. exfalso.
  assert (Hp : forall t u, contains (t ++ u) s -> contains t s).
  { intros t u (x & y & ->). exists x, (u ++ y)%list. rewrite <- app_assoc. reflexivity. }
  cbn [pair_names In] in Hn. destruct Hn as [<-|[<-|[<-|[]]]].
  - contradiction.
  - apply H1. apply (Hp (lit "alignat") (lit "*")). exact Hc.
  - contradiction.
Qed.

Lemma small_sub : forall a b, sl_sub a b -> small_text (stxt b) -> small_text (stxt a).
Proof.
  intros a b Hs (A & B & C). split; [eapply infix_Forall; eassumption|]. split; [eapply infix_run; eassumption|].
  intros H; apply C; eapply infix_in; eassumption.
Qed.

Section Calm.
  Variable input : str.
  Hypothesis Hcalm : calm input.

  (** The slices of the input. *)
  Definition part (s : slice) : Prop := sl_sub s (mkSlice 0 0 input).

  Lemma part_sub : forall a b, sl_sub a b -> part b -> part a.
  Proof. intros a b H1 H2. eapply sl_sub_trans; eassumption. Qed.

  Lemma part_calm : forall s, part s -> calm (stxt s).
  Proof. intros s H. eapply calm_sub; [exact H|exact Hcalm]. Qed.

  Lemma part_cs : forall cs, cs_in part cs -> contains (92 :: cs) input.
  Proof. intros cs (_ & sl & Hs & Hc). apply (contains_sub _ sl (mkSlice 0 0 input)); assumption. Qed.

  Lemma part_closed : def_closed part (fun m => m = []).
  Proof.
    intros cs name d m Hcs Hd _ _ _. exfalso. apply (proj1 Hcalm (92 :: cs)); [apply definition_commands_all; exact Hd|apply part_cs; exact Hcs].
  Qed.

  Definition never (x : panic) : Prop := False.

  Lemma part_pair : forall name sl, str_ok part name -> In name pair_names -> part sl -> small_text (stxt sl).
  Proof.
    intros name sl (s & Hs & <-) Hn Hsl. apply (small_sub sl (mkSlice 0 0 input)); [exact Hsl|].
    eapply calm_small; [exact Hn|exact Hcalm|]. destruct Hs as (p & q & E & _). exists p, q. exact E.
  Qed.

  Lemma part_char : forall cs sl, cs_in part cs -> lookup_prim cs = PChar -> part sl -> small_text (stxt sl).
  Proof.
    intros cs sl Hcs Hl Hsl. apply (small_sub sl (mkSlice 0 0 input)); [exact Hsl|]. apply part_cs in Hcs. apply char_name in Hl. subst cs.
    destruct Hcalm as (_ & _ & _ & [H|(H & _)] & _); [exact H|]. exfalso. apply H. exact Hcs.
  Qed.

  Lemma part_cs_quiet : forall cs, cs_in part cs -> only never (Inv part (fun m => m = [])) (parse_atom (handle_prim cs)) script_ok.
  Proof.
    intros cs Hcs. apply o_atom_cs; try assumption; try apply part_sub; try apply part_closed; intros;
      try match goal with H : part ?sl |- _ => pose proof (part_calm _ H) as (P1 & P2 & P3 & _ & P6) end.
    - apply dimension_tame. right. exact P2.
    - apply glue_tame. right. exact P2.
    - apply or_braced_tame; [intros; apply dimension_tame; assumption|right; exact P2].
    - apply or_braced_tame; [intros; apply glue_tame; assumption|right; exact P2].
    - apply small_integer. eapply part_char; eassumption.
    - apply small_integer. eapply part_pair; eassumption.
    - apply color_tame. right. exact P3.
    - apply columns_tame. right. exact P6.
    - destruct (small_integer never (stxt sl)) as [_ Hn]; [eapply part_pair; eassumption|]. specialize (Hn n r H2).
      rewrite N.mod_small in H3 by lia. lia.
    - apply long_suffix_tame. vm_compute. discriminate.
  Qed.

  Lemma part_char_quiet : forall ctx, part ctx -> (exists x r, stxt ctx = x :: r /\ x <> 37 /\ x <> 92) ->
    only never (Inv part (fun m => m = [])) (parse_atom (handle_char ctx)) script_ok.
  Proof.
    intros ctx Hctx Hx. eapply o_atom_char with (Q := never); try assumption; try apply part_sub; try apply part_closed; intros;
      try match goal with H : part ?sl |- tame _ _ => pose proof (part_calm _ H) as (P1 & P2 & P3 & _ & P6) end.
    - apply dimension_tame. right. exact P2.
    - apply glue_tame. right. exact P2.
    - apply or_braced_tame; [intros; apply dimension_tame; assumption|right; exact P2].
    - apply or_braced_tame; [intros; apply glue_tame; assumption|right; exact P2].
    - apply small_integer. eapply part_char; eassumption.
    - apply small_integer. eapply part_pair; eassumption.
    - apply color_tame. right. exact P3.
    - apply columns_tame. right. exact P6.
    - destruct (small_integer never (stxt sl)) as [_ Hn]; [eapply part_pair; eassumption|]. specialize (Hn n r H2).
      rewrite N.mod_small in H3 by lia. lia.
    - apply long_suffix_tame. vm_compute. discriminate.
  Qed.

  Lemma calm_quiet : forall l x, ~ panics input l x.
  Proof.
    intros l x (n & p & H).
    refine (panic_run part part_sub (fun m => m = []) part_closed _ never input _ _ part_cs_quiet part_char_quiet n (new_parser input) l x p _ H).
    - intros m cs d r txt k n' sl -> Hg. discriminate.
    - intros m cs d r -> Hg. discriminate.
    - right. split; [intros m cs ->; reflexivity|]. intros sl (a & b & E & Hb & Ho). unfold ptr_in. cbn [sbase soff stxt] in *.
      rewrite Hb, Ho, E, !blen_app. cbn [N.eqb andb]. apply N.leb_le. lia.
    - split; [|split; [right; split; reflexivity|split; [constructor|cbn; lia]]]. split; [repeat constructor; apply sl_sub_refl|]. split; [constructor|reflexivity].
  Qed.
End Calm.

Lemma calm_parses : forall input, calm input -> exists l, parses input l.
Proof.
  intros input H. destruct (run_terminates input) as [Hp|(l & x & Hp)]; [exact Hp|]. exfalso. eapply calm_quiet; eassumption.
Qed.

(** ** A decision procedure, for the examples *)

Fixpoint contains_b (t s : str) : bool :=
  starts_with t s || match s with [] => false | _ :: s' => contains_b t s' end.

Lemma contains_b_ok : forall t s, contains t s -> contains_b t s = true.
Proof.
  intros t s (p & q & ->). induction p as [|c p IH]; cbn [app].
  - destruct (t ++ q)%list eqn:E; cbn [contains_b]; rewrite <- E, (proj2 (starts_with_spec t (t ++ q)%list)) by (exists q; reflexivity); reflexivity.
  - cbn [contains_b]. rewrite IH. apply orb_true_r.
Qed.

Lemma contains_b_not : forall t s, contains_b t s = false -> ~ contains t s.
Proof. intros t s H Hc. apply contains_b_ok in Hc. congruence. Qed.

Fixpoint run_b (f : char -> bool) (k cur : N) (s : str) : bool :=
  match s with
  | [] => true
  | c :: s' => if f c then (cur + 1 <? k) && run_b f k (cur + 1) s' else run_b f k 0 s'
  end.

Lemma run_b_prefix : forall f k s cur, cur < k -> run_b f k cur s = true -> forall v w, s = (v ++ w)%list -> forallb f v = true ->
  cur + N.of_nat (length v) < k.
Proof.
  intros f k. induction s as [|c s IH]; intros cur Hk H v w E Hv.
  - destruct v; [cbn; lia|discriminate].
  - destruct v as [|c' v]; [cbn; lia|]. injection E as <- E. cbn [forallb] in Hv. apply andb_prop in Hv as [H1 H2].
    cbn [run_b] in H. rewrite H1 in H. apply andb_prop in H as [H3 H4]. apply N.ltb_lt in H3.
    specialize (IH (cur + 1) H3 H4 v w E H2). cbn [length]. lia.
Qed.

Lemma run_b_ok : forall f k s, 0 < k -> run_b f k 0 s = true -> run_free f k s.
Proof.
  intros f k s Hk H u v w E Hv.
  assert (Hg : forall u s cur, cur < k -> run_b f k cur s = true -> s = (u ++ v ++ w)%list -> N.of_nat (length v) < k).
  { clear - Hv. induction u as [|c u IH]; intros s cur Hc H E.
    - pose proof (run_b_prefix _ _ _ _ Hc H v w E Hv). lia.
    - destruct s as [|c' s]; [discriminate|]. injection E as <- E. cbn [run_b] in H. destruct (f c').
      + apply andb_prop in H as [H1 H2]. apply N.ltb_lt in H1. eapply IH; [exact H1|exact H2|exact E].
      + eapply IH; [|exact H|exact E]. lia. }
  eapply Hg; eassumption.
Qed.

Definition wide_b (c : char) : bool := is_ws c && negb (clen c =? 1).

Definition calm_b (s : str) : bool :=
  forallb (fun c => negb (contains_b c s)) definition_commands && forallb (fun c => negb (wide_b c)) s &&
  (forallb (fun c => c <? 128) s || forallb (fun c => negb (c =? 35)) s) &&
  ((forallb (fun c => c <? 128) s && run_b is_digit 5 0 s && forallb (fun c => negb (c =? 34)) s) ||
   (negb (contains_b (lit "\char") s) && negb (contains_b (lit "alignat") s) && negb (contains_b (lit "alignedat") s))) &&
  run_b is_col 65535 0 s.

Lemma ascii_b : forall s, forallb (fun c => c <? 128) s = true -> ascii s.
Proof. intros s H. rewrite forallb_forall in H. apply Forall_forall. intros c Hc. apply N.ltb_lt. auto. Qed.
Lemma absent_b : forall x s, forallb (fun c => negb (c =? x)) s = true -> ~ In x s.
Proof. intros x s H Hi. rewrite forallb_forall in H. specialize (H x Hi). rewrite N.eqb_refl in H. discriminate. Qed.

Lemma calm_b_ok : forall s, calm_b s = true -> calm s.
Proof.
  intros s H. unfold calm_b in H. apply andb_prop in H as [H H0].
  apply andb_prop in H as [H H2]. apply andb_prop in H as [H H3]. apply andb_prop in H as [H H4].
  split.
  { intros c Hc. rewrite forallb_forall in H. specialize (H c Hc). apply negb_true_iff in H. apply contains_b_not. exact H. }
  split.
  { apply Forall_forall. intros c Hc [Hw1 Hw2]. rewrite forallb_forall in H4. specialize (H4 c Hc). unfold wide_b in H4. rewrite Hw1 in H4.
    destruct (N.eqb_spec (clen c) 1); [contradiction|discriminate]. }
  split. { apply orb_prop in H3 as [H3|H3]; [left; apply ascii_b; exact H3|right; apply absent_b; exact H3]. }
  split.
  { apply orb_prop in H2 as [H2|H2]; apply andb_prop in H2 as [H2 H6]; apply andb_prop in H2 as [H2 H5].
    - left. split; [apply ascii_b; exact H2|]. split; [apply run_b_ok; [lia|assumption]|apply absent_b; assumption].
    - right. repeat split; apply contains_b_not; apply negb_true_iff; assumption. }
  apply run_b_ok; [lia|assumption].
Qed.
