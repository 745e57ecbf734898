(** * MacroRun: definitions and uses of macros in whole runs. *)

From Coq Require Import List NArith ZArith Bool Lia Arith.
From Verif Require Import Base Float32 Event Tables Prim PrimTable Lex Macros Primitives Spans Parser
  SpecLex LexFacts LexMore PrimFacts Keep Terminate KeepRun Api SpecNum LexNum SpecMacro MacroFacts Sim SimRun.
Import ListNotations.
Open Scope N_scope.

Strategy 1000 [parse parse_fuel].

Definition after_def (c : slice) (al : option (N * N)) (s : list instr) (n : str) (d : mdef) (p : parser) : parser :=
  mkParser (ISub c al :: s) [] (ctx_insert (p_macros p) n d) (p_spans p) (p_next p) (p_alloc p).

Lemma not_blank : forall s t r, lex_token s = (Ok t, r) -> is_nil (trim_start s) = false.
Proof. intros s t r H. destruct (trim_start s) eqn:Et; [|reflexivity]. rewrite (blank_token _ Et) in H. discriminate. Qed.

(** A round on a control sequence that is not a macro. *)
Lemma prim_step : forall p c al s cs r, p_stack p = ISub c al :: s -> lex_token (stxt c) = (Ok (TCs cs), r) ->
  ctx_get (p_macros p) cs = None ->
  next_step p = after s (run_inner (parse_atom (handle_prim cs)) (of_parser p (suffix_slice c r) al)).
Proof.
  intros p c al s cs r Hs Hl Hm. rewrite (next_step_text _ _ _ _ Hs), (not_blank _ _ _ Hl), parse_fuel_S, parse_eq.
  cbn [q_ist of_parser i_content i_macros]. rewrite Hl, Hm. reflexivity.
Qed.

Lemma char_step : forall p c al s ctx r, p_stack p = ISub c al :: s -> lex_token (stxt c) = (Ok (TChr ctx), r) ->
  next_step p = after s (run_inner (parse_atom (handle_char (suffix_slice c ctx))) (of_parser p (suffix_slice c r) al)).
Proof.
  intros p c al s cs r Hs Hl. rewrite (next_step_text _ _ _ _ Hs), (not_blank _ _ _ Hl), parse_fuel_S, parse_eq.
  cbn [q_ist of_parser i_content i_macros]. rewrite Hl. reflexivity.
Qed.

Lemma def_step : forall p c al s r0 n pt rep r d, p_stack p = ISub c al :: s -> p_buf p = [] ->
  lex_token (stxt c) = (Ok (TCs (lit "def")), r0) -> ctx_get (p_macros p) (lit "def") = None ->
  lex_definition r0 = (Ok (n, pt, rep), r) -> make_macro pt rep = Ok d ->
  next_step p = (OCont, after_def (suffix_slice (suffix_slice c r0) r) al s n d p).
Proof.
  intros p c al s r0 n pt rep r d Hs Hb Hl Hm Hd Hmk. rewrite (prim_step _ _ _ _ _ _ Hs Hl Hm).
  unfold run_inner, parse_atom, handle_prim. cbn [q_ist of_parser bind].
  cbn [hprim]. unfold hprim_body. replace (lookup_prim (lit "def")) with PDef by (vm_compute; reflexivity).
  unfold bind, lexc, modify, lift. cbn [i_content set_content q_ist of_parser stxt suffix_slice]. rewrite Hd.
  cbn [fst snd]. rewrite Hmk. unfold parse_scripts, bind, get, ret. cbn [i_skip set_macros set_skip after q_ist set_ist i_buf set_content of_parser].
  rewrite Hb. reflexivity.
Qed.

(** ** Texts *)

(** What the parameter text of a macro may contain. *)
Definition param_char (c : char) : Prop := c <> 37 /\ c <> 123 /\ c <> 125.

Lemma bad_param_none : forall s, Forall param_char s -> bad_param_char s = None.
Proof.
  intros s H. induction H as [|c s (H1 & H2 & H3) Hs IH]; [reflexivity|]. cbn [bad_param_char].
  destruct (N.eqb_spec c 37); [contradiction|]. destruct (N.eqb_spec c 125); [contradiction|]. exact IH.
Qed.

Lemma param_no_brace : forall s, Forall param_char s -> ~ In 123 s.
Proof. intros s H Hi. rewrite Forall_forall in H. destruct (H _ Hi) as (_ & Hx & _). congruence. Qed.

Lemma split_once_char_app : forall c u t, ~ In c u -> split_once_char c (u ++ c :: t) = Some (u, t).
Proof.
  intros c. induction u as [|x u IH]; intros t H; cbn [app split_once_char].
  - rewrite N.eqb_refl. reflexivity.
  - destruct (N.eqb_spec x c) as [->|]; [exfalso; apply H; left; reflexivity|].
    rewrite IH by (intros Hi; apply H; right; exact Hi). reflexivity.
Qed.

Lemma read_definition : forall s n pt rep r, named s n (pt ++ 123 :: rep ++ 125 :: r) -> Forall param_char pt -> balanced 123 125 rep ->
  lex_definition (92 :: s) = (Ok (n, pt, rep), r).
Proof.
  intros s n pt rep r Hn Hp Hr. unfold lex_definition, bind, control_sequence. cbn [N.eqb Pos.eqb].
  rewrite (rhs_cs_named _ _ _ Hn). unfold get. rewrite split_once_char_app by (apply param_no_brace; exact Hp).
  rewrite bad_param_none by exact Hp. unfold put.
  rewrite (proj2 (group_content_balanced GKNormal 123 125 ltac:(left; auto) _ rep r)); [reflexivity|]. auto.
Qed.

Lemma params_chars : forall (sufs : list str) i, Forall (Forall param_char) sufs -> i + N.of_nat (length sufs) <= 10 ->
  Forall param_char (parameters i sufs).
Proof.
  induction sufs as [|s sufs IH]; intros i Hs Hi; cbn [parameters]; [constructor|]. inversion Hs; subst.
  cbn [length] in Hi. constructor; [unfold param_char; lia|]. constructor; [unfold param_char; lia|].
  apply Forall_app. split; [assumption|]. apply IH; [assumption|lia].
Qed.

Lemma substitutes_replacement : forall args rep out, substitutes args rep out -> replacement (N.of_nat (length args)) rep.
Proof.
  intros args rep out H. induction H as [|c rep out Hc Hs IH|rep out Hs IH|c i a rep out Hc Hi Ha Hs IH].
  - constructor.
  - apply rep_char; assumption.
  - apply rep_hash; assumption.
  - apply (rep_param _ c i); try assumption; try lia.
    assert (N.to_nat (i - 1) < length args)%nat by (apply nth_error_Some; congruence). lia.
Qed.

Lemma blank_white : forall w, Forall white w -> blank w.
Proof. intros w H. induction H; [constructor|]. apply blank_ws; assumption. Qed.

(** The text that defines the macro [n]: [pre] and [sufs] are the delimiters of
    its parameters, [rep] its replacement. *)
Inductive def_text (n : str) (pre : str) (sufs : list str) (rep rest : str) : str -> Prop :=
| def_text_i : forall b w s, blank b -> Forall white w ->
    named s n (pre ++ parameters 1 sufs ++ 123 :: rep ++ 125 :: rest) ->
    def_text n pre sufs rep rest (b ++ 92 :: lit "def" ++ w ++ 92 :: s).

Definition def_ok (pre : str) (sufs : list str) (rep : str) : Prop :=
  Forall param_char pre /\ ~ In 35 pre /\ Forall (Forall param_char) sufs /\ Forall (fun s => ~ In 35 s) sufs /\
  (length sufs <= 9)%nat /\ balanced 123 125 rep /\ replacement (N.of_nat (length sufs)) rep.

Lemma white_not_letter : forall c, white c -> ~ letter c.
Proof.
  intros c Hc Hl. unfold white, is_ws in Hc. unfold letter in Hl.
  repeat rewrite orb_true_iff in Hc. rewrite ?andb_true_iff, ?N.leb_le, ?N.eqb_eq in Hc. lia.
Qed.

Lemma def_token : forall b w s, blank b -> Forall white w -> lex_token (b ++ 92 :: lit "def" ++ w ++ 92 :: s) = (Ok (TCs (lit "def")), 92 :: s).
Proof.
  intros b w s Hb Hw. apply token_cs; [exact Hb|]. apply named_word.
  - discriminate.
  - change (lit "def") with ([100; 101; 102] : str). repeat (apply Forall_cons; [unfold letter; lia|]). apply Forall_nil.
  - exact Hw.
  - destruct Hw as [|c w Hc Hw]; cbn [app not_next]; [unfold letter; lia|].
    intros Hl. exact (white_not_letter c Hc Hl).
  - cbn [not_next]. unfold white. discriminate.
Qed.

Theorem def_runs : forall p c al s n pre sufs rep rest, p_stack p = ISub c al :: s -> p_buf p = [] ->
  ctx_get (p_macros p) (lit "def") = None -> def_ok pre sufs rep -> def_text n pre sufs rep rest (stxt c) ->
  exists sl l, stxt sl = rest /\ parse_replacement rep (N.of_nat (length sufs)) = Ok l /\
  next_step p = (OCont, after_def sl al s n (MDMacro (delimiter pre) (map delimiter sufs) false l) p).
Proof.
  intros p c al s n pre sufs rep rest Hs Hb Hm (H1 & H2 & H3 & H4 & H5 & H6 & H7) Ht. inversion Ht as [b w x Hbl Hw Hn Hx].
  apply replacement_iff in H7 as [l Hl].
  assert (Hd : lex_definition (92 :: x) = (Ok (n, pre ++ parameters 1 sufs, rep), rest)).
  { apply read_definition; [rewrite <- app_assoc; exact Hn| |exact H6]. apply Forall_app. split; [exact H1|]. apply params_chars; [exact H3|lia]. }
  assert (Hmk : make_macro (pre ++ parameters 1 sufs) rep = Ok (MDMacro (delimiter pre) (map delimiter sufs) false l)).
  { apply make_macro_iff. exists false, pre, sufs, l. unfold parameter_text. rewrite app_nil_r. auto 8. }
  symmetry in Hx. rename Hx into Hc0. assert (Hl0 : lex_token (stxt c) = (Ok (TCs (lit "def")), 92 :: x)) by (rewrite Hc0; apply def_token; assumption).
  eexists. exists l. split; [|split; [exact Hl|]]; cycle 1.
  - apply (def_step p c al s _ n _ rep rest _ Hs Hb Hl0 Hm Hd Hmk).
  - reflexivity.
Qed.

(** The same with [#] before the brace: the parameter text ends with it. *)
Inductive brace_text (n : str) (pre : str) (sufs : list str) (rep rest : str) : str -> Prop :=
| brace_text_i : forall b w s, blank b -> Forall white w ->
    named s n (pre ++ parameters 1 sufs ++ 35 :: 123 :: rep ++ 125 :: rest) ->
    brace_text n pre sufs rep rest (b ++ 92 :: lit "def" ++ w ++ 92 :: s).

Theorem brace_runs : forall p c al s n pre sufs rep rest, p_stack p = ISub c al :: s -> p_buf p = [] ->
  ctx_get (p_macros p) (lit "def") = None -> def_ok pre sufs rep -> brace_text n pre sufs rep rest (stxt c) ->
  exists sl l, stxt sl = rest /\ parse_replacement rep (N.of_nat (length sufs)) = Ok l /\
  next_step p = (OCont, after_def sl al s n (MDMacro (delimiter pre) (map delimiter sufs) true l) p).
Proof.
  intros p c al s n pre sufs rep rest Hs Hb Hm (H1 & H2 & H3 & H4 & H5 & H6 & H7) Ht. inversion Ht as [b w x Hbl Hw Hn Hx].
  apply replacement_iff in H7 as [l Hl].
  assert (Hd : lex_definition (92 :: x) = (Ok (n, parameter_text true pre sufs, rep), rest)).
  { unfold parameter_text. apply read_definition; [rewrite <- !app_assoc; exact Hn| |exact H6]. apply Forall_app. split; [exact H1|].
    apply Forall_app. split; [apply params_chars; [exact H3|lia]|]. constructor; [unfold param_char; lia|constructor]. }
  assert (Hmk : make_macro (parameter_text true pre sufs) rep = Ok (MDMacro (delimiter pre) (map delimiter sufs) true l)).
  { apply make_macro_iff. exists true, pre, sufs, l. auto 8. }
  symmetry in Hx. rename Hx into Hc0. assert (Hl0 : lex_token (stxt c) = (Ok (TCs (lit "def")), 92 :: x)) by (rewrite Hc0; apply def_token; assumption).
  eexists. exists l. split; [|split; [exact Hl|]]; cycle 1.
  - apply (def_step p c al s _ n _ rep rest _ Hs Hb Hl0 Hm Hd Hmk).
  - reflexivity.
Qed.

Lemma psim_refl : forall p, psim p p.
Proof. intros p. split; [apply isims_refl|]. split; [apply isims_refl|apply csim_refl]. Qed.

(** In any state before an error, a use of a macro shows what its expansion shows. *)
Theorem use_shows : forall p c al s n pre sufs rep l b use s2 args r out p' v v',
  p_stack p = ISub c al :: s -> p_buf p = [] ->
  ctx_get (p_macros p) n = Some (MDMacro (delimiter pre) (map delimiter sufs) false l) ->
  parse_replacement rep (N.of_nat (length sufs)) = Ok l ->
  stxt c = b ++ 92 :: use -> blank b -> named use n (pre ++ s2) ->
  arguments (map delimiter sufs) s2 args r -> substitutes args rep out ->
  psim (with_text (out ++ r) al p) p' ->
  shows p v -> shows p' v' -> complete v -> complete v' -> v = v'.
Proof.
  intros p c al s n pre sufs rep l b use s2 args r out p' v v' Hs Hb Hg Hl Hc Hbl Hn Ha Hsub Hp Hv Hv' Hc1 Hc2.
  assert (Ht : lex_token (stxt c) = (Ok (TCs n), pre ++ s2)) by (rewrite Hc; apply token_cs; assumption).
  pose proof (macro_expands pre sufs rep l s2 args r out Hl Ha Hsub) as He.
  exact (expansion_shows p c al s n (pre ++ s2) _ _ _ p' v v' Hs Hb Ht Hg He Hp Hv Hv' Hc1 Hc2).
Qed.

Lemma ctx_get_insert : forall m n d, ctx_get (ctx_insert m n d) n = Some d.
Proof. intros m n d. unfold ctx_get, ctx_insert. cbn [assoc_str]. rewrite str_eqb_refl. reflexivity. Qed.

Lemma ctx_get_other : forall m n d k, k <> n -> ctx_get (ctx_insert m n d) k = ctx_get m k.
Proof.
  intros m n d k H. unfold ctx_get, ctx_insert. cbn [assoc_str]. destruct (str_eqb n k) eqn:E; [|reflexivity].
  apply str_eqb_eq in E. congruence.
Qed.

(** A macro defined, then used at once: it shows what its expansion shows. *)
Theorem def_use : forall n pre sufs rep b use s2 args r out i1 i2 v v',
  def_ok pre sufs rep -> blank b -> named use n (pre ++ s2) -> arguments (map delimiter sufs) s2 args r ->
  substitutes args rep out ->
  def_text n pre sufs rep (b ++ 92 :: use) i1 -> def_text n pre sufs rep (out ++ r) i2 ->
  shows (new_parser i1) v -> shows (new_parser i2) v' -> complete v -> complete v' -> v = v'.
Proof.
  intros n pre sufs rep b use s2 args r out i1 i2 v v' Hd Hb Hn Ha Hs H1 H2 Hv Hv' Hc Hc'.
  destruct (def_runs (new_parser i1) (mkSlice 0 0 i1) None [] n pre sufs rep _ eq_refl eq_refl eq_refl Hd H1) as (sl1 & l & E1 & El & N1).
  destruct (def_runs (new_parser i2) (mkSlice 0 0 i2) None [] n pre sufs rep _ eq_refl eq_refl eq_refl Hd H2) as (sl2 & l' & E2 & El' & N2).
  rewrite El in El'. injection El' as <-.
  apply shows_step in Hv. rewrite N1 in Hv. cbn [shows_of] in Hv. apply shows_step in Hv'. rewrite N2 in Hv'. cbn [shows_of] in Hv'.
  set (d := MDMacro _ _ _ _) in *. set (p1 := after_def _ _ _ _ _ (new_parser i1)) in *. set (p2 := after_def _ _ _ _ _ (new_parser i2)) in *.
  assert (Hps : psim (with_text (out ++ r) None p1) p2).
  { split; [|split; [constructor|apply csim_refl]]. constructor; [|constructor]. split; [symmetry; exact E2|reflexivity]. }
  eapply (use_shows p1 sl1 None [] n pre sufs rep l b use s2 args r out p2 v v' eq_refl eq_refl); try eassumption.
  apply ctx_get_insert.
Qed.

(** ** The [\newcommand] family *)

Definition command_name (sae : option bool) : str :=
  match sae with Some false => lit "newcommand" | Some true => lit "renewcommand" | None => lit "providecommand" end.

Definition default_text (d : option str) : str := match d with Some t => 91 :: t ++ [93] | None => [] end.

(** The text that defines [n] with [k] parameters, the first one optional if
    there is a default value. *)
Inductive command_text (sae : option bool) (n : str) (k : N) (dflt : option str) (rep rest : str) : str -> Prop :=
| command_text_i : forall b w1 w2 w3 w4 s x, blank b -> Forall white w1 -> Forall white w2 -> Forall white w3 -> Forall white w4 ->
    named s n x -> balanced 123 125 (92 :: s) ->
    (forall d, dflt = Some d -> balanced 91 93 d) -> balanced 123 125 rep ->
    command_text sae n k dflt rep rest
      (b ++ 92 :: command_name sae ++ w1 ++ 123 :: (92 :: s) ++ 125 :: w2 ++ 91 :: 48 + k :: 93 ::
       w3 ++ default_text dflt ++ w4 ++ 123 :: rep ++ 125 :: rest).

Lemma white_not_next : forall w c r, Forall white w -> ~ letter c -> not_next letter (w ++ c :: r).
Proof. intros [|x w] c r Hw Hc; cbn [app not_next]; [exact Hc|]. inversion Hw; subst. apply white_not_letter. assumption. Qed.

Lemma command_token : forall sae b w r, blank b -> Forall white w ->
  lex_token (b ++ 92 :: command_name sae ++ w ++ 123 :: r) = (Ok (TCs (command_name sae)), 123 :: r).
Proof.
  intros sae b w r Hb Hw. apply token_cs; [exact Hb|]. apply named_word.
  - destruct sae as [[]|]; discriminate.
  - assert (H : forallb is_alpha (command_name sae) = true) by (destruct sae as [[]|]; vm_compute; reflexivity).
    apply Forall_forall. intros c Hc. apply is_alpha_iff. eapply forallb_forall; eassumption.
  - exact Hw.
  - apply white_not_next; [exact Hw|unfold letter; lia].
  - cbn [not_next]. unfold white. discriminate.
Qed.

Lemma white_strip : forall c w r, Forall white w -> ~ white c -> strip_char c (trim_start (w ++ c :: r)) = Some r.
Proof. intros c w r Hw Hc. rewrite trim_white; [|exact Hw|exact Hc]. cbn [strip_char]. rewrite N.eqb_refl. reflexivity. Qed.

Lemma read_brace : forall w g r, Forall white w -> balanced 123 125 g -> brace_argument (w ++ 123 :: g ++ 125 :: r) = (Ok g, r).
Proof.
  intros w g r Hw Hg. unfold brace_argument. rewrite white_strip; [|exact Hw|unfold white; discriminate].
  apply (group_content_balanced GKNormal 123 125); [left; auto|auto].
Qed.

Lemma read_optional : forall w g r, Forall white w -> balanced 91 93 g -> optional_argument (w ++ 91 :: g ++ 93 :: r) = (Ok (Some g), r).
Proof.
  intros w g r Hw Hg. unfold optional_argument. rewrite white_strip; [|exact Hw|unfold white; discriminate].
  rewrite (proj2 (group_content_balanced GKOptional 91 93 ltac:(right; auto) _ g r)); auto.
Qed.

Lemma read_no_optional : forall w r, Forall white w -> optional_argument (w ++ 123 :: r) = (Ok None, w ++ 123 :: r).
Proof.
  intros w r Hw. unfold optional_argument. rewrite trim_white; [|exact Hw|cbn [not_next]; unfold white; discriminate]. reflexivity.
Qed.

Lemma bracec_run : forall st w g r, stxt (i_content st) = w ++ 123 :: g ++ 125 :: r -> Forall white w -> balanced 123 125 g ->
  exists sl c, bracec st = (Ok sl, set_content c st) /\ stxt sl = g /\ stxt c = r.
Proof.
  intros st w g r H Hw Hg. unfold bracec. rewrite H, read_brace by assumption.
  eexists. eexists. split; [reflexivity|]. split; reflexivity.
Qed.

Lemma optc_run : forall st w g r, stxt (i_content st) = w ++ 91 :: g ++ 93 :: r -> Forall white w -> balanced 91 93 g ->
  exists sl c, optc st = (Ok (Some sl), set_content c st) /\ stxt sl = g /\ stxt c = r.
Proof.
  intros st w g r H Hw Hg. unfold optc. rewrite H, read_optional by assumption.
  eexists. eexists. split; [reflexivity|]. split; reflexivity.
Qed.

Lemma optc_none : forall st w r, stxt (i_content st) = w ++ 123 :: r -> Forall white w ->
  exists c, optc st = (Ok None, set_content c st) /\ stxt c = w ++ 123 :: r.
Proof.
  intros st w r H Hw. unfold optc. rewrite H, read_no_optional by assumption.
  eexists. split; reflexivity.
Qed.

Lemma set_content_twice : forall a b st, set_content a (set_content b st) = set_content a st.
Proof. reflexivity. Qed.

Lemma new_command_run : forall sae st n k dflt rep rest w2 w3 w4 s x l,
  Forall white w2 -> Forall white w3 -> Forall white w4 -> named s n x -> balanced 123 125 (92 :: s) ->
  (forall d, dflt = Some d -> balanced 91 93 d) -> balanced 123 125 rep -> k <= 9 ->
  parse_replacement rep k = Ok l ->
  stxt (i_content st) = 123 :: (92 :: s) ++ 125 :: w2 ++ 91 :: 48 + k :: 93 :: w3 ++ default_text dflt ++ w4 ++ 123 :: rep ++ 125 :: rest ->
  exists c, 
  let known := ctx_contains (i_macros st) n in
  let r := new_command sae st in
  match sae with
  | Some b => if Bool.eqb b known then r = (Ok tt, set_macros (ctx_insert (i_macros st) n (MDCommand k dflt l)) (set_content c st)) /\ stxt c = rest
              else r = (Err (if b then EMacroNotDefined else EMacroAlreadyDefined), set_content c st)
  | None => (if known then r = (Ok tt, set_content c st)
             else r = (Ok tt, set_macros (ctx_insert (i_macros st) n (MDCommand k dflt l)) (set_content c st))) /\ stxt c = rest
  end.
Proof.
  intros sae st n k dflt rep rest w2 w3 w4 s x l Hw2 Hw3 Hw4 Hn Hs Hd Hr Hk Hl Ht. cbv zeta.
  remember (new_command sae st) as res eqn:Er. unfold new_command in Er. unfold bind at 1 in Er.
  destruct (bracec_run st [] (92 :: s) _ Ht (Forall_nil _) Hs) as (g & c1 & E0 & Eg & Ec1). rewrite E0 in Er.
  unfold bind at 1 in Er. unfold on_local at 1 in Er. rewrite Eg in Er. unfold control_sequence in Er. cbn [N.eqb Pos.eqb] in Er.
  rewrite (rhs_cs_named _ _ _ Hn) in Er.
  cbn [fst snd] in Er. unfold bind at 1 in Er. unfold get at 1 in Er. cbn [i_macros set_content] in Er.
  set (known := ctx_contains (i_macros st) n).
  (* reading what follows *)
  assert (Hopt : exists t c2, optc (set_content c1 st) = (Ok (Some t), set_content c2 st) /\ stxt t = [48 + k] /\
    stxt c2 = w3 ++ default_text dflt ++ w4 ++ 123 :: rep ++ 125 :: rest).
  { destruct (optc_run (set_content c1 st) w2 [48 + k] (w3 ++ default_text dflt ++ w4 ++ 123 :: rep ++ 125 :: rest)) as (t & c2 & E & H1 & H2); auto.
    - constructor; try lia. constructor.
    - exists t, c2. rewrite E. auto. }
  destruct Hopt as (t & c2 & Eo & Et & Ec2).
  assert (Hdf : exists o c3, optc (set_content c2 st) = (Ok o, set_content c3 st) /\ option_map stxt o = dflt /\
    exists w, Forall white w /\ stxt c3 = w ++ 123 :: rep ++ 125 :: rest).
  { destruct dflt as [d|]; cbn [default_text] in Ec2.
    - cbn [app] in Ec2. rewrite <- app_assoc in Ec2.
      destruct (optc_run (set_content c2 st) w3 d _ Ec2 Hw3 (Hd _ eq_refl)) as (t2 & c3 & E & H1 & H2).
      exists (Some t2), c3. rewrite E. split; [reflexivity|]. split; [cbn; congruence|]. exists w4. auto.
    - cbn [app] in Ec2. rewrite app_assoc in Ec2.
      destruct (optc_none (set_content c2 st) (w3 ++ w4) _ Ec2 ltac:(apply Forall_app; auto)) as (c3 & E & H).
      exists None, c3. rewrite E. split; [reflexivity|]. split; [reflexivity|]. exists (w3 ++ w4). split; [apply Forall_app; auto|exact H]. }
  destruct Hdf as (o & c3 & Eo2 & Eod & w & Hw & Ec3).
  destruct (bracec_run (set_content c3 st) w rep rest Ec3 Hw Hr) as (rp & c4 & Eb & Erp & Ec4).
  assert (Hu : parse_u8 [48 + k] = Some k).
  { unfold parse_u8. destruct (N.eqb_spec (48 + k) 43); [lia|]. cbn [dec_digits].
    rewrite (proj2 (is_digit_iff (48 + k))) by (unfold digit; lia). unfold digit_val. replace (48 + k - 48) with k by lia.
    cbn. destruct (N.ltb_spec k 256); [reflexivity|lia]. }
  destruct sae as [b|].
  - fold known in Er. destruct (Bool.eqb b known) eqn:Ek.
    + exists c4. unfold bind at 1 in Er. unfold ret at 1 in Er. unfold bind at 1 in Er. rewrite Eo in Er. unfold bind at 1 in Er.
      unfold ok_or at 1 in Er. cbn [ret] in Er.
      unfold bind at 1 in Er. rewrite Et, Hu in Er. unfold ok_or at 1 in Er. cbn [ret] in Er. unfold bind at 1 in Er. rewrite Eo2 in Er.
      destruct (N.ltb_spec 9 k); [lia|]. cbn [andb] in Er. unfold bind at 1 in Er. rewrite Eb in Er. cbn [is_some negb] in Er. rewrite andb_false_r in Er.
      unfold bind, lift, make_command in Er. rewrite Erp, Hl, Eod in Er. split; [exact Er|exact Ec4].
    + exists c1. unfold bind at 1 in Er. unfold fail at 1 in Er. destruct b; exact Er.
  - fold known in Er. exists c4. split; [|exact Ec4]. unfold bind at 1 in Er. unfold ret at 1 in Er. unfold bind at 1 in Er. rewrite Eo in Er. unfold bind at 1 in Er.
      unfold ok_or at 1 in Er. cbn [ret] in Er.
      unfold bind at 1 in Er. rewrite Et, Hu in Er. unfold ok_or at 1 in Er. cbn [ret] in Er. unfold bind at 1 in Er. rewrite Eo2 in Er.
      destruct (N.ltb_spec 9 k); [lia|]. cbn [andb] in Er. unfold bind at 1 in Er. rewrite Eb in Er. cbn [is_some negb] in Er. rewrite andb_true_r in Er.
      destruct known; [exact Er|]. unfold bind, lift, make_command in Er. rewrite Erp, Hl, Eod in Er. exact Er.
Qed.
