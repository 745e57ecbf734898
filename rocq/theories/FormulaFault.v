(** * FormulaFault: the parser reports the errors of SpecFault. *)

From Coq Require Import Ascii String List NArith ZArith Bool Lia Arith.
From Verif Require Import Base Float32 Event Tables Prim PrimTable Lex Macros Primitives Spans Parser
  SpecLex SpecNum LexFacts LexMore LexNum Keep PrimFacts Api SimRun SpanFacts MacroRun SpanRun
  SpecFormula FormulaLex FormulaActs FormulaNucleus FormulaNucleus3 FormulaNucleus4 FormulaStep FormulaHole FormulaDerive SpecFault.
Import ListNotations.
Open Scope N_scope.
Open Scope list_scope.
Open Scope sm_scope.

Definition errs {A} (m : P A) (st : ist) (e : error) : Prop := exists st', m st = (Err e, st').

Lemma errs_first : forall A B (m : P A) (k : A -> P B) st e, errs m st e -> errs (bind m k) st e.
Proof. intros A B m k st e (st' & H). exists st'. unfold bind. rewrite H. reflexivity. Qed.

Lemma errs_next : forall A B (m : P A) (k : A -> P B) st a st1 e, m st = (Ok a, st1) -> errs (k a) st1 e -> errs (bind m k) st e.
Proof. intros A B m k st a st1 e H (st' & H'). exists st'. unfold bind. rewrite H. exact H'. Qed.

Lemma errs_fail : forall A st e, errs (@fail ist A e) st e.
Proof. intros. exists st. reflexivity. Qed.

Section Fault.
Context {KN : Known}.
Variable al : option (N * N).

Definition breaks (h : bool) (s : str) (e : error) : Prop :=
  match lex_token s with
  | (Ok (TCs cs), r0) => (length r0 < length s)%nat /\
      forall f st, i_handling st = h -> i_align st = al -> stxt (i_content st) = r0 -> (length r0 < f)%nat -> errs (hprim f cs) st e
  | (Ok (TChr ctx), r0) =>
      forall sl st, i_handling st = h -> i_align st = al -> stxt (i_content st) = r0 -> stxt sl = ctx -> errs (handle_char sl) st e
  | (Err x, _) => e = x /\ (h = false -> x <> EToken)
  | _ => False
  end.

(** An argument that breaks. *)
Lemma arg_breaks : forall s e, breaks true s e -> forall hp st, stxt (i_content st) = s -> i_align st = al -> enough (length s) hp ->
  forall B (k : sarg -> P B),
  (forall a c, (forall st2, i_content st2 = c -> i_align st2 = al -> errs (handle_arg hp a) st2 e) -> errs (k a) (set_content c st) e) ->
  errs (do a <- argc ; k a) st e.
Proof.
  intros s e H hp st Hs Hal Hf B k Hk. unfold breaks in H. destruct (strip_char 123 (trim_start s)) as [r'|] eqn:E.
  - apply strip_char_some in E. destruct (trim_start_suffix s) as (w & Ew & Hw). rewrite E in Ew. clear E. rewrite Ew in H, Hs, Hf. clear Ew s.
    rewrite char_token in H; try reflexivity; try discriminate.
    2:{ clear -Hw. induction w as [|c w IH]; [constructor|]. cbn in Hw. apply andb_prop in Hw as [H1 H2]. constructor; auto. }
    destruct (H (mkSlice 0 0 (123 :: r')) (mkIst (mkSlice 0 0 r') [] false SPRight false true al []) eq_refl eq_refl eq_refl eq_refl) as (st' & H1).
    rewrite (handle_brace _ r') in H1 by reflexivity. unfold bind, groupc in H1. cbn [i_content stxt] in H1.
    destruct (group_content GKNormal r') as [[g|e'|p|] r0] eqn:Eg; try discriminate. injection H1 as -> _.
    apply errs_first. unfold errs, argc, arg_slice. rewrite Hs.
    assert (Ea : lex_argument (w ++ 123 :: r') = (Err e, r0)).
    { unfold lex_argument. rewrite trim_to by (try exact Hw; reflexivity). rewrite strip_char_head. unfold bind. rewrite Eg. reflexivity. }
    rewrite Ea. eexists. reflexivity.
  - assert (Ea : lex_argument s = (do t <- lex_token ; ret (AToken t)) s) by (unfold lex_argument; rewrite E; reflexivity). unfold bind in Ea.
    destruct (lex_token s) as [[[cs|ctx]|x|p|] r0] eqn:Et; try contradiction.
    + destruct H as (Hr0 & H). eapply errs_next; [unfold argc, arg_slice; rewrite Hs, Ea; reflexivity|]. apply Hk.
      intros st2 Hst Hal2. cbn [handle_arg]. destruct (Hf cs (set_handling true st2)) as (f & Hf1 & Hf2); [cbn; rewrite Hst; exact Hr0|].
      eapply errs_next; [reflexivity|]. unfold errs. rewrite Hf2. apply H; [reflexivity|exact Hal2|cbn; rewrite Hst; reflexivity|].
      cbn in Hf1. rewrite Hst in Hf1. exact Hf1.
    + eapply errs_next; [unfold argc, arg_slice; rewrite Hs, Ea; reflexivity|]. apply Hk.
      intros st2 Hst Hal2. cbn [handle_arg]. eapply errs_next; [reflexivity|]. apply H; [reflexivity|exact Hal2|cbn; rewrite Hst; reflexivity|reflexivity].
    + destruct H as [-> _]. apply errs_first. unfold errs, argc, arg_slice. rewrite Hs, Ea. eexists. reflexivity.
Qed.

Lemma enough_fuel : forall n f, (n <= f)%nat -> enough n (hprim f).
Proof. intros n f H cs st Hl. exists f. split; [lia|reflexivity]. Qed.

(** The usual place of an argument. *)
Lemma arg_breaks_at : forall s e, breaks true s e -> forall f st, stxt (i_content st) = s -> i_align st = al -> (length s <= f)%nat ->
  forall B (k : sarg -> P B),
  (forall a c, (forall st2, i_content st2 = c -> i_align st2 = al -> errs (handle_arg (hprim f) a) st2 e) -> errs (k a) (set_content c st) e) ->
  errs (do a <- argc ; k a) st e.
Proof. intros s e H f st Hs Hal Hf B k Hk. apply (arg_breaks s e H (hprim f) st Hs Hal (enough_fuel _ _ Hf)), Hk. Qed.

Lemma control_breaks : forall h b cs t r e, blank b -> control cs t r ->
  (forall f st, i_handling st = h -> i_align st = al -> stxt (i_content st) = r -> (length r <= f)%nat -> errs (hprim_body (hprim f) cs) st e) ->
  breaks h (b ++ t) e.
Proof.
  intros h b cs t r e Hb Hc H. unfold breaks. rewrite (control_token _ _ _ _ Hb Hc). split.
  - apply control_length in Hc. rewrite app_length. lia.
  - intros [|f] st H1 H2 H3 H4; [lia|]. apply H; [assumption..|lia].
Qed.

Lemma char_breaks : forall h b c r e, blank b -> is_ws c = false -> c <> 37 -> c <> 92 ->
  (forall sl st, i_handling st = h -> i_align st = al -> stxt (i_content st) = r -> stxt sl = c :: r -> errs (handle_char sl) st e) ->
  breaks h (b ++ c :: r) e.
Proof. intros h b c r e Hb H1 H2 H3 H. unfold breaks. rewrite char_token by assumption. exact H. Qed.

Definition brace_args (h : bool) (ks : list akind) (s : str) (e : error) : Prop :=
  match ks with
  | [Whole] => breaks true s e
  | [Whole; Whole] => breaks true s e \/ exists es s', does true s es no_limits s' /\ breaks true s' e
  | [Inside] => (~ starts 123 s /\ breaks h s e) \/ (exists x, lex_argument s = (Err e, x))
  | _ => False
  end.

Lemma frac_breaks : forall o c bar sty s e f st, stxt (i_content st) = s -> i_align st = al -> (length s <= f)%nat ->
  brace_args true [Whole; Whole] s e -> errs (fraction_like (hprim f) o c bar sty) st e.
Proof.
  intros o c bar sty s e f st Hs Hal Hf H. unfold fraction_like.
  assert (Hmain : forall st0, stxt (i_content st0) = s -> i_align st0 = al ->
    errs (do num <- argc ; handle_arg (hprim f) num ;; do den <- argc ; handle_arg (hprim f) den ;;
      (if is_some o || is_some c || is_some sty then push_ev EvEnd else ret tt)) st0 e).
  { intros st0 Hs0 Hal0. destruct H as [H|(es & s' & Hd & H)].
    - apply (arg_breaks_at s e H f st0 Hs0 Hal0 Hf). intros a cc Ha. apply errs_first, Ha; [reflexivity|exact Hal0].
    - pose proof Hd as (_ & Hl & _). destruct (arg_does s es s' Hd f st0 Hs0 Hf) as (a & cc & H1 & H2).
      eapply errs_next; [exact H1|]. destruct (H2 (set_content cc st0) eq_refl) as (L & c' & h & H3 & H4 & H5).
      eapply errs_next; [exact H3|]. apply (arg_breaks_at s' e H f (result (set_content cc st0) L c' h no_limits) H4 Hal0); [lia|].
      intros a' c1 Ha. apply errs_first, Ha; [reflexivity|exact Hal0]. }
  destruct (is_some o || is_some c) eqn:Eoc, sty as [sy|]; (eapply errs_next; [reflexivity|]); (eapply errs_next; [reflexivity|]);
    (eapply errs_next; [reflexivity|]); apply Hmain; assumption.
Qed.

Lemma command_breaks : forall cs c h s e f st, In (cs, c) commands -> brace_args h (c_args c) s e ->
  i_handling st = h -> i_align st = al -> stxt (i_content st) = s -> (length s <= f)%nat -> errs (hprim_body (hprim f) cs) st e.
Proof.
  intros cs c h s e f st Hin H Hh Hal Hs Hf. apply command_prim in Hin. unfold hprim_body. destruct (lookup_prim cs) eqn:Ep;
    cbn [prim_command] in Hin; try discriminate; injection Hin as <-; cbn [c_args brace_args] in H; try contradiction.
  - (* pmod *) apply (arg_breaks_at s e H f st Hs Hal Hf). intros a cc Ha. eapply errs_next; [reflexivity|]. apply errs_first, Ha; [reflexivity|exact Hal].
  - (* font *) unfold font_group. destruct H as [[Hn H]|(x & H)].
    + unfold breaks in H. assert (Ea : lex_argument s = (do t <- lex_token ; ret (AToken t)) s).
      { unfold lex_argument. rewrite no_starts; [reflexivity|reflexivity|exact Hn]. } unfold bind in Ea.
      destruct (lex_token s) as [[[cs'|ctx]|x|p|] r0] eqn:Et; try contradiction.
      * destruct H as (Hr0 & H). eapply errs_next; [unfold argc, arg_slice; rewrite Hs, Ea; reflexivity|]. eapply errs_next; [reflexivity|].
        apply errs_first, H; [exact Hh|exact Hal|reflexivity|lia].
      * eapply errs_next; [unfold argc, arg_slice; rewrite Hs, Ea; reflexivity|]. eapply errs_next; [reflexivity|].
        apply errs_first, H; [exact Hh|exact Hal|reflexivity|reflexivity].
      * destruct H as [-> _]. apply errs_first. unfold errs, argc, arg_slice. rewrite Hs, Ea. eexists. reflexivity.
    + apply errs_first. unfold errs, argc, arg_slice. rewrite Hs, H. eexists. reflexivity.
  - (* accent *) destruct setpos; (eapply errs_next; [reflexivity|]); unfold accent; (eapply (arg_breaks_at s e H f); [assumption..|]);
      intros a cc Ha; (eapply errs_next; [reflexivity|]); apply errs_first, Ha; [reflexivity|exact Hal|reflexivity|exact Hal].
  - destruct setpos; (eapply errs_next; [reflexivity|]); unfold underscript; (eapply (arg_breaks_at s e H f); [assumption..|]);
      intros a cc Ha; (eapply errs_next; [reflexivity|]); apply errs_first, Ha; [reflexivity|exact Hal|reflexivity|exact Hal].
  - eapply frac_breaks; eassumption.
  - (* overset *) eapply errs_next; [reflexivity|]. eapply errs_next; [reflexivity|]. destruct H as [H|(es & s' & Hd & H)].
    + eapply (arg_breaks_at s e H f); [assumption..|]. intros a cc Ha. apply errs_first, Ha; [reflexivity|exact Hal].
    + pose proof Hd as (_ & Hl & _). set (st0 := set_buf _ st) in |- *.
      destruct (arg_does s es s' Hd f st0 Hs Hf) as (a & cc & H1 & H2).
      eapply errs_next; [exact H1|]. destruct (H2 (set_content cc st0) eq_refl) as (L & c' & h' & H3 & H4 & H5).
      eapply errs_next; [exact H3|]. eapply errs_next; [reflexivity|].
      eapply (arg_breaks_at s' e H f); [exact H4|exact Hal|lia|]. intros a' c1 Ha. apply errs_first, Ha; [reflexivity|exact Hal].
  - (* not *) eapply errs_next; [reflexivity|]. eapply (arg_breaks_at s e H f); [assumption..|]. intros a cc Ha. apply Ha; [reflexivity|exact Hal].
Qed.

(** ** Tokens and delimiters, read backwards *)

Lemma nothing_token : forall s, nothing_left s -> lex_token s = (Err EToken, []).
Proof. intros s [b Hb|b t Hb Ht]; [apply blank_token_end, Hb|apply comment_token_end; assumption]. Qed.

Lemma skip_blank_nil : forall s com, skip_blank com s = [] ->
  if com then ~ In 10 s \/ exists t s', s = t ++ 10 :: s' /\ ~ In 10 t /\ nothing_left s' else nothing_left s.
Proof.
  induction s as [|x s IH]; intros com H.
  - destruct com; [left; intros []|apply NL_blank; constructor].
  - cbn [skip_blank] in H. destruct com.
    + apply IH in H. destruct (N.eqb_spec x 10) as [->|Hx]; cbn [negb] in H.
      * right. exists [], s. auto.
      * destruct H as [H|(t & s' & -> & Ht & Hs)]; [left; intros [E|Hi]; [congruence|auto]|].
        right. exists (x :: t), s'. split; [reflexivity|]. split; [intros [E|Hi]; [congruence|auto]|exact Hs].
    + destruct (is_ws x) eqn:Ew.
      { apply IH in H. destruct H as [b Hb|b t Hb Ht]; [apply NL_blank, blank_ws; assumption|].
        change (x :: b ++ 37 :: t) with ((x :: b) ++ 37 :: t). apply NL_comment; [apply blank_ws; assumption|exact Ht]. }
      destruct (N.eqb_spec x 37) as [->|Hx]; [|discriminate]. apply IH in H. destruct H as [H|(t & s' & -> & Ht & Hs)].
      { apply (NL_comment [] s); [constructor|exact H]. }
      destruct Hs as [b Hb|b t' Hb Ht']; [apply NL_blank, blank_comment; assumption|].
      replace (37 :: t ++ 10 :: b ++ 37 :: t') with ((37 :: t ++ 10 :: b) ++ 37 :: t') by (cbn; rewrite <- app_assoc; reflexivity).
      apply NL_comment; [apply blank_comment; assumption|exact Ht'].
Qed.

Lemma trim_next : forall s, not_next (fun c => is_ws c = true) (trim_start s).
Proof. intros s. pose proof (trim_start_head s) as H. destruct (trim_start s); [exact I|]. cbn. congruence. Qed.

Lemma rhs_control : forall s cs r, rhs_control_sequence s = (Ok cs, r) -> control cs (92 :: s) r.
Proof.
  intros [|c s] cs r H; [discriminate|]. cbn [rhs_control_sequence] in H. unfold control. destruct (is_alpha c) eqn:Ea.
  - destruct (span_while is_alpha (c :: s)) as [a b] eqn:E. injection H as <- <-.
    pose proof (span_while_spec _ _ _ _ E) as (E1 & E2 & E3). destruct (trim_start_suffix b) as (w & Hw & Hf). exists w.
    split; [f_equal; rewrite <- Hw; exact E1|]. split; [exact Hf|]. split; [apply trim_next|]. left. split; [|split].
    + intros ->. cbn in E1. subst b. rewrite Ea in E3. discriminate.
    + rewrite forallb_forall in E2. apply Forall_forall. intros x Hx. apply letter_alpha, E2, Hx.
    + rewrite <- Hw. destruct b as [|y b]; [exact I|]. cbn. rewrite <- letter_alpha. congruence.
  - injection H as <- <-. destruct (trim_start_suffix s) as (w & Hw & Hf). exists w. split; [cbn; f_equal; f_equal; exact Hw|].
    split; [exact Hf|]. split; [apply trim_next|]. right. exists c. split; [reflexivity|]. rewrite <- letter_alpha. congruence.
Qed.

Lemma token_back : forall s, match lex_token s with
  | (Ok (TCs cs), r) => exists b t, blank b /\ s = b ++ t /\ control cs t r
  | (Ok (TChr ctx), r) => exists b c, blank b /\ ctx = c :: r /\ s = b ++ c :: r /\ is_ws c = false /\ c <> 37 /\ c <> 92
  | (Err EToken, _) => nothing_left s
  | (Err e, _) => e = EEmptyControlSequence /\ exists b, blank b /\ s = b ++ [92]
  | _ => False
  end.
Proof.
  intros s. destruct (lex_token s) as [[[cs|ctx]|e|p|] r] eqn:E.
  - unfold lex_token in E. destruct (skip_blank false s) as [|c s'] eqn:Eb; [discriminate|]. destruct (N.eqb_spec c 92) as [->|]; [|discriminate].
    destruct (rhs_control_sequence s') as [[?|?|?|] ?] eqn:Er; try discriminate. injection E as -> ->.
    apply skip_blank_sound in Eb as (b & -> & Hb). exists b, (92 :: s'). split; [exact Hb|]. split; [reflexivity|]. apply rhs_control, Er.
  - apply lex_token_chr in E. exact E.
  - unfold lex_token in E. destruct (skip_blank false s) as [|c s'] eqn:Eb.
    + injection E as <- _. apply (skip_blank_nil s false Eb).
    + destruct (N.eqb_spec c 92) as [->|]; [|discriminate]. apply skip_blank_sound in Eb as (b & -> & Hb).
      destruct s' as [|x s'].
      * cbn in E. injection E as <- _. split; [reflexivity|]. exists b. auto.
      * cbn [rhs_control_sequence] in E. destruct (is_alpha x); [destruct (span_while is_alpha (x :: s'))|]; discriminate.
  - pose proof (lex_token_no_panic s) as H. rewrite E in H. exact H.
  - pose proof (lex_token_no_panic s) as H. rewrite E in H. exact H.
Qed.

Lemma delimiter_back : forall s c ty r, lex_delimiter s = (Ok (c, ty), r) -> delimiter s c ty r.
Proof.
  intros s c ty r H. unfold lex_delimiter, bind in H. pose proof (token_back s) as Hb. destruct (lex_token s) as [[[cs|ctx]|e|p|] r0]; try discriminate; cbn [token_to_delim] in H.
  - destruct (control_sequence_delimiter_map cs) as [d|] eqn:E; [|discriminate]. injection H as -> ->. apply assoc_str_in in E.
    destruct Hb as (b & t & Hb & -> & Hc). eapply D_command; eassumption.
  - destruct Hb as (b & x & Hb & -> & -> & Hx). unfold char_delimiter_map in H. cbn [ctx_char] in H. destruct (assoc_char x char_delims) as [y|] eqn:E; [|discriminate].
    injection H as <- <- <-. apply D_char; [exact Hb|]. clear -E. revert E. generalize char_delims. intros l. induction l as [|[k v] l IH]; cbn; [discriminate|].
    destruct (N.eqb_spec k x) as [->|]; [intros H; injection H as ->; auto|auto].
Qed.

Lemma nothing_token' : forall s, nothing_left s -> lex_token s = (Err EToken, []).
Proof. intros s [b Hb|b t Hb Ht]; [apply blank_token_end, Hb|apply comment_token_end; assumption]. Qed.

Lemma no_delimiter_read : forall s e, no_delimiter s e -> exists r, lex_delimiter s = (Err e, r).
Proof.
  intros s e H. destruct H as [s Hn|b Hb|s Hd Hn Hb].
  - exists []. unfold lex_delimiter, bind. rewrite (nothing_token' _ Hn). reflexivity.
  - exists []. unfold lex_delimiter, bind. rewrite lex_token_blank by exact Hb. reflexivity.
  - destruct (lex_delimiter s) as [[[c ty]|e|p|] r] eqn:E.
    + apply delimiter_back in E. exfalso. exact (Hd _ _ _ E).
    + unfold lex_delimiter, bind in E. pose proof (token_back s) as Hk. destruct (lex_token s) as [[t|e'|p|] r0]; try discriminate.
      * destruct (token_to_delim t); [discriminate|]. injection E as <- <-. exists r0. reflexivity.
      * injection E as <- <-. destruct e'; try (destruct Hk as [? _]; discriminate); [|contradiction]. destruct Hk as (_ & b & Hb1 & ->). exfalso. exact (Hb b Hb1 eq_refl).
    + unfold lex_delimiter, bind in E. pose proof (token_back s) as Hk. destruct (lex_token s) as [[t|e'|p'|] r0]; try discriminate; [destruct (token_to_delim t); discriminate|contradiction].
    + unfold lex_delimiter, bind in E. pose proof (token_back s) as Hk. destruct (lex_token s) as [[t|e'|p'|] r0]; try discriminate; [destruct (token_to_delim t); discriminate|contradiction].
Qed.

(** ** Names *)

Lemma unknown_prim : forall cs, ~ supported cs -> lookup_prim cs = PUnknown.
Proof.
  intros cs H. unfold supported in H. unfold lookup_prim. destruct (assoc_str cs prim_table) as [p|] eqn:E.
  { apply assoc_str_in in E. exfalso. apply H. left. exact (in_map fst _ _ E). }
  unfold control_sequence_delimiter_map. destruct (assoc_str cs cs_delims) as [[c ty]|] eqn:E'.
  { apply assoc_str_in in E'. exfalso. apply H. right. left. exact (in_map fst _ _ E'). }
  destruct (trim_start_suffix cs) as (w & Ew & Hw). destruct (trim_start cs) as [|x t]; [|reflexivity].
  exfalso. apply H. right. right. rewrite app_nil_r in Ew. subst w. apply Forall_forall. rewrite forallb_forall in Hw. exact Hw.
Qed.

Lemma unknown_environment : forall name st, ~ In name environment_names -> environment name st = (Err EEnvironment, st).
Proof.
  intros name st H. unfold environment.
  assert (Hin : forall k, str_eqb name k = true -> In k environment_names -> False) by (intros k E Hk; apply str_eqb_eq in E; subst k; auto).
  assert (Hx : forall k, In k environment_names -> str_eqb name k = false) by (intros k Hk; destruct (str_eqb name k) eqn:E; [exfalso; eauto|reflexivity]).
  repeat (rewrite Hx by (vm_compute; tauto)).
  destruct (assoc_str name matrix_table) as [[[[ty starred] sty] wrap]|] eqn:E.
  { exfalso. apply H. apply assoc_str_in, (in_map fst) in E. cbn [fst] in E. revert E. clear. generalize name. apply Forall_forall.
    repeat (constructor; [vm_compute; tauto|]). constructor. }
  destruct (assoc_str name plain_table) as [[[[g n] k] sty]|] eqn:E'; [|reflexivity].
  exfalso. apply H. apply assoc_str_in, (in_map fst) in E'. cbn [fst] in E'. revert E'. clear. generalize name. apply Forall_forall.
  repeat (constructor; [vm_compute; tauto|]). constructor.
Qed.


Lemma kind_decodes : forall k, In k (map snd kinds) -> find (fun p => str_eqb (opening_str (snd p)) (opening_str k)) kinds <> None.
Proof. apply Forall_forall. unfold kinds. cbn [map snd]. repeat (constructor; [vm_compute; discriminate|]). constructor. Qed.

Lemma opening_find : forall k, match find (fun p => str_eqb (opening_str (snd p)) (opening_str k)) kinds with Some p => snd p = k | None => True end.
Proof. intros k. destruct k as [| | | |[]|[] []|[] []|[]|[]| | |[]| |[]| | | ]; vm_compute; exact I || reflexivity. Qed.

Lemma kinds_open : Forall (fun p => opening_str (snd p) = begin_of (fst p)) kinds.
Proof. unfold kinds. cbn [map fst snd]. repeat (constructor; [vm_compute; reflexivity|]). constructor. Qed.

Lemma name_kind : forall k name k', delimits k name -> In (name, k') kinds -> k = k'.
Proof.
  intros k name k' [Ho _] Hin. pose proof (proj1 (Forall_forall _ _) kinds_open _ Hin) as Ho'. cbn [fst snd] in Ho'.
  pose proof (opening_find k) as H1. pose proof (opening_find k') as H2. rewrite Ho' in H2. rewrite Ho in H1.
  pose proof (kind_decodes k' (in_map snd _ _ Hin)) as Hn. rewrite Ho' in Hn.
  destruct (find _ kinds) as [p|]; [congruence|contradiction Hn; reflexivity].
Qed.

Lemma group_open : forall k s, unclosed (opening_str k) (closing_str k) s -> exists r, group_content k s = (Err (EUnbalancedGroup (Some k)), r).
Proof. intros k s H. apply group_content_fails. exact H. Qed.

Lemma brace_open : forall s, unclosed [123] [125] s -> exists r, group_content GKNormal s = (Err (EUnbalancedGroup (Some GKNormal)), r).
Proof. intros s H. apply group_open. exact H. Qed.

Lemma argument_open : forall w s, white w -> unclosed [123] [125] s -> exists r, lex_argument (w ++ 123 :: s) = (Err (EUnbalancedGroup (Some GKNormal)), r).
Proof.
  intros w s Hw Hu. destruct (brace_open s Hu) as [r Hr]. exists r. unfold lex_argument. rewrite trim_to by (try exact Hw; reflexivity). rewrite strip_char_head.
  unfold bind. rewrite Hr. reflexivity.
Qed.

Lemma argument_end : forall s, nothing_left s -> lex_argument s = (Err EToken, []).
Proof.
  intros s H. unfold lex_argument. destruct (strip_char 123 (trim_start s)) as [r|] eqn:E.
  - exfalso. apply strip_char_some in E. apply nothing_token in H. rewrite (lex_token_same s (trim_start s)) in H by (symmetry; apply trim_either; auto).
    rewrite E in H. discriminate.
  - unfold bind. rewrite (nothing_token _ H). reflexivity.
Qed.

Lemma argc_err : forall st e r, lex_argument (stxt (i_content st)) = (Err e, r) -> errs argc st e.
Proof. intros st e r H. unfold errs, argc, arg_slice. rewrite H. eexists. reflexivity. Qed.

Lemma takes_prim : forall cs, takes_text cs -> cs = lit "operatorname" \/ exists f, lookup_prim cs = PText f.
Proof.
  intros cs [H|H]; [left; auto|right]. apply in_map_iff in H as ((cs' & f) & <- & H). exists f. apply text_prim, H.
Qed.


Lemma text_breaks : forall cs f s st e, takes_text cs -> stxt (i_content st) = s ->
  ((exists r, lex_argument s = (Err e, r)) \/ e = EControlSequenceAsArgument /\ exists c r, lex_argument s = (Ok (AToken (TCs c)), r)) ->
  errs (hprim_body (hprim f) cs) st e.
Proof.
  intros cs f s st e Hcs Hs H.
  assert (Hx : forall B (k : sarg -> P B) st, stxt (i_content st) = s -> (forall c st', k (SCs c) st' = (Err EControlSequenceAsArgument, st')) -> errs (do a <- argc ; k a) st e).
  { intros B k st0 Hs0 Hk. destruct H as [(r & H)|(-> & c & r & H)].
    - apply errs_first. eapply argc_err. rewrite Hs0. exact H.
    - eapply errs_next; [unfold argc, arg_slice; rewrite Hs0, H; reflexivity|]. eexists. apply Hk. }
  destruct (takes_prim cs Hcs) as [->|[fn E]]; unfold hprim_body.
  - replace (lookup_prim (lit "operatorname")) with POperatorname by (vm_compute; reflexivity). eapply errs_next; [reflexivity|]. apply Hx; [exact Hs|reflexivity].
  - rewrite E. unfold text_argument. apply Hx; [exact Hs|reflexivity].
Qed.

Lemma control_argument : forall b cs t r, blank b -> control cs t r -> lex_argument (b ++ t) = (Ok (AToken (TCs cs)), r).
Proof.
  intros b cs t r Hb Hc. pose proof (control_token _ _ _ _ Hb Hc) as Ht. apply token_argument; [|exact Ht].
  intros (w & x & Hw & E). rewrite E in Ht. rewrite char_token in Ht; try discriminate; [|reflexivity].
  clear -Hw. induction w as [|c w IH]; [constructor|]. cbn in Hw. apply andb_prop in Hw as [H1 H2]. constructor; auto.
Qed.

Ltac at_char Hsl := unfold handle_char; eapply errs_next; [reflexivity|]; rewrite Hsl; cbn [ctx_char].

Lemma left_breaks : forall st s e, stxt (i_content st) = s -> not_next (eq 46) s -> no_delimiter s e -> errs left_delim st e.
Proof.
  intros st s e Hs Hn Hd. apply no_delimiter_read in Hd as [r Hd]. unfold left_delim. eapply errs_next; [reflexivity|].
  assert (E : strip_char 46 s = None).
  { destruct (strip_char 46 s) as [x|] eqn:E; [|reflexivity]. apply strip_char_some in E. rewrite E in Hn. cbn in Hn. exfalso. apply Hn. reflexivity. }
  rewrite Hs, E. apply errs_first. unfold errs, lexc. rewrite Hs, Hd. eexists. reflexivity.
Qed.

Lemma group_arg_any : forall e0 st s e, stxt (i_content st) = s -> no_group s e -> errs (group_arg e0) st (match e with EArgument => e0 | _ => e end).
Proof.
  intros e0 st s e Hs H. unfold group_arg. destruct H as [s H|b Hb|w s Hw Hu|b c r Hb H1 H2 H3 H4|b cs t r Hb Hc].
  - apply errs_first. eapply argc_err. rewrite Hs. apply argument_end, H.
  - apply errs_first. eapply argc_err. rewrite Hs. unfold lex_argument. destruct (strip_char 123 (trim_start (b ++ [92]))) as [r|] eqn:E.
    + exfalso. apply strip_char_some in E. assert (Ht : lex_token (b ++ [92]) = lex_token (trim_start (b ++ [92]))) by (apply lex_token_same; symmetry; apply trim_either; auto).
      rewrite E, lex_token_blank in Ht by exact Hb. discriminate.
    + unfold bind. rewrite lex_token_blank by exact Hb. reflexivity.
  - apply errs_first. destruct (argument_open w s Hw Hu) as [r Hr]. eapply argc_err. rewrite Hs. exact Hr.
  - eapply errs_next; [unfold argc, arg_slice; rewrite Hs, (token_argument _ _ _ H4 (char_token b c r Hb H1 H2 H3)); reflexivity|]. apply errs_fail.
  - eapply errs_next; [unfold argc, arg_slice; rewrite Hs, (control_argument _ _ _ _ Hb Hc); reflexivity|]. apply errs_fail.
Qed.

Lemma group_arg_breaks : forall st s e, stxt (i_content st) = s -> no_group s e -> errs (group_arg EArgument) st e.
Proof. intros st s e Hs H. pose proof (group_arg_any EArgument _ _ _ Hs H) as Ha. destruct e; exact Ha. Qed.

Lemma delim_breaks : forall cs f st s e, In cs (lit "left" :: lit "middle" :: map fst sizes) -> stxt (i_content st) = s ->
  (exists r, lex_delimiter s = (Err e, r)) -> not_next (eq 46) s \/ cs <> lit "left" -> errs (hprim_body (hprim f) cs) st e.
Proof.
  intros cs f st s e Hin Hs (r & Hd) Hn. unfold hprim_body.
  assert (Hx : errs (lexc lex_delimiter) st e) by (unfold errs, lexc; rewrite Hs, Hd; eexists; reflexivity).
  destruct Hin as [<-|[<-|Hin]].
  - replace (lookup_prim (lit "left")) with PLeft by (vm_compute; reflexivity). apply errs_first. unfold left_delim. eapply errs_next; [reflexivity|].
    assert (E : strip_char 46 s = None).
    { destruct (strip_char 46 s) as [x|] eqn:E; [|reflexivity]. apply strip_char_some in E. destruct Hn as [Hn|Hn]; [|congruence]. rewrite E in Hn. cbn in Hn. exfalso. apply Hn. reflexivity. }
    rewrite Hs, E. apply errs_first, Hx.
  - replace (lookup_prim (lit "middle")) with PMiddle by (vm_compute; reflexivity). apply errs_first, Hx.
  - apply in_map_iff in Hin as ((cs' & z) & <- & Hin). cbn [fst]. rewrite (size_prim _ _ Hin). apply errs_first, Hx.
Qed.

Scheme wrong_mut := Minimality for wrong Sort Prop
  with wrong_argument_mut := Minimality for wrong_argument Sort Prop.
Combined Scheme wrong_both from wrong_mut, wrong_argument_mut.

Ltac prim_is cs v := unfold hprim_body; replace (lookup_prim cs) with v by (vm_compute; reflexivity).


Fixpoint breaks_args (h : bool) (ks : list akind) (s : str) (e : error) : Prop :=
  match ks with
  | Whole :: ks' => breaks true s e \/ exists es s', does true s es no_limits s' /\ breaks_args h ks' s' e
  | Inside :: _ => (~ starts 123 s /\ breaks h s e) \/ (exists x, lex_argument s = (Err e, x))
  | [] => False
  end.

Lemma command_args : forall cs c h s e, In (cs, c) commands -> breaks_args h (c_args c) s e -> brace_args h (c_args c) s e.
Proof.
  assert (Hall : forallb (fun p => match c_args (snd p) with [] | [Whole] | [Whole; Whole] | [Inside] => true | _ => false end) commands = true) by (vm_compute; reflexivity).
  intros cs c h s e Hin H. apply (proj1 (forallb_forall _ _) Hall) in Hin. cbn [snd] in Hin.
  destruct (c_args c) as [|[] [|[] [|? ?]]]; try discriminate; cbn [breaks_args brace_args] in *; [exact H| | |exact H].
  - destruct H as [H|(es & s' & _ & [])]; exact H.
  - destruct H as [H|(es & s' & Hd & [H|(es' & s'' & _ & [])])]; [left; exact H|right; exists es, s'; auto].
Qed.

Lemma space_breaks : forall cs g mu f st s e r, In (cs, (g, mu)) spaces -> stxt (i_content st) = s ->
  dimension_or_braced s = (Err e, r) -> (g = true -> glue_or_braced s = (Err e, r)) -> errs (hprim_body (hprim f) cs) st e.
Proof.
  intros cs g mu f st s e r Hin Hs Hd Hg. unfold hprim_body.
  assert (H1 : errs (lexc dimension_or_braced) st e) by (unfold errs, lexc; rewrite Hs, Hd; eexists; reflexivity).
  assert (H2 : g = true -> errs (lexc glue_or_braced) st e) by (intros E; unfold errs, lexc; rewrite Hs, (Hg E); eexists; reflexivity).
  repeat destruct Hin as [Hin|Hin]; try contradiction; injection Hin as <- <- <-.
  - replace (lookup_prim (lit "kern")) with PKern by (vm_compute; reflexivity). apply errs_first, H1.
  - replace (lookup_prim (lit "mkern")) with PMkern by (vm_compute; reflexivity). apply errs_first, H1.
  - replace (lookup_prim (lit "hskip")) with PHskip by (vm_compute; reflexivity). apply errs_first, H2, eq_refl.
  - replace (lookup_prim (lit "mskip")) with PMskip by (vm_compute; reflexivity). apply errs_first, H2, eq_refl.
Qed.

Lemma unit_breaks : forall cs g f st s d r, In (cs, (g, true)) spaces -> stxt (i_content st) = s -> dunit d <> UMu ->
  dimension_or_braced s = (Ok d, r) -> (g = true -> glue_or_braced s = (Ok (d, None, None), r)) -> errs (hprim_body (hprim f) cs) st EMathUnit.
Proof.
  intros cs g f st s d r Hin Hs Hu Hd Hg. unfold hprim_body.
  assert (E : is_mu d = false) by (destruct d as [v u]; cbn in Hu |- *; destruct u; try reflexivity; contradiction Hu; reflexivity).
  repeat destruct Hin as [Hin|Hin]; try contradiction; try discriminate Hin; injection Hin as <- <-.
  - replace (lookup_prim (lit "mkern")) with PMkern by (vm_compute; reflexivity). eapply errs_next; [unfold lexc; rewrite Hs, Hd; reflexivity|].
    rewrite E. apply errs_fail.
  - replace (lookup_prim (lit "mskip")) with PMskip by (vm_compute; reflexivity). eapply errs_next; [unfold lexc; rewrite Hs, (Hg eq_refl); reflexivity|].
    cbn [fst snd]. rewrite E. apply errs_fail.
Qed.

Lemma fraction_rest : forall sg ds p fs rest, Forall sign sg -> digits ds -> digits fs -> p = 46 \/ p = 44 -> not_next digit rest ->
  exists v, floating_point (sg ++ ds ++ p :: fs ++ rest) = (Ok v, rest).
Proof.
  intros sg ds p fs rest Hsg Hds Hfs Hp Hn. unfold floating_point, bind, get, ret, put.
  assert (Hns : not_next sign (ds ++ p :: fs ++ rest)).
  { destruct ds as [|c ds]; cbn; unfold sign.
    - destruct Hp; subst; intros [?|[?|?]]; try lia; discriminate.
    - inversion Hds; subst. unfold digit in *. intros [?|[?|Hw]]; try lia.
      unfold is_ws in Hw. repeat (apply orb_prop in Hw as [Hw|Hw]); rewrite ?andb_true_iff, ?N.leb_le, ?N.eqb_eq in Hw; lia. }
  rewrite signs_app by assumption. rewrite (span_while_app is_digit digit is_digit_iff).
  - replace ((p =? 46) || (p =? 44)) with true by (destruct Hp; subst; reflexivity).
    rewrite (span_while_app is_digit digit is_digit_iff) by assumption. eexists. reflexivity.
  - exact Hds.
  - destruct Hp; subst; cbn; unfold digit; lia.
Qed.

Lemma no_length_read : forall x, no_length x -> exists z, lex_dimension x = (Err EDimensionUnit, z) /\ lex_glue x = (Err EDimensionUnit, z).
Proof.
  intros x H. assert (E : exists z, lex_dimension x = (Err EDimensionUnit, z)).
  { destruct H as [sg ds w x Hsg Hds Hw He Hn [Hx Hu]|sg ds p fs w x Hsg Hds Hp Hfs Hw Hn [Hx Hu]]; exists x; unfold lex_dimension, bind at 1.
    - rewrite fp_value; try assumption.
      + unfold bind at 1. rewrite unit_fails by assumption. reflexivity.
      + destruct ds as [|c ds]; [exact (He eq_refl)|apply digits_not_sign; [exact Hds|discriminate]].
      + destruct (w ++ x); [exact I|]. cbn in Hn |- *. unfold numeric. tauto.
    - destruct (fraction_rest sg ds p fs (w ++ x) Hsg Hds Hfs Hp Hn) as [v ->]. unfold bind at 1. rewrite unit_fails by assumption. reflexivity. }
  destruct E as [z E]. exists z. split; [exact E|]. unfold lex_glue, bind at 1. rewrite E. reflexivity.
Qed.
Lemma short_glue_read : forall x, short_glue x -> exists z, lex_glue x = (Err EDimensionUnit, z).
Proof.
  intros x [x0 d s s1 y Hx Hs Hp Hn|x0 d s s1 p s2 y Hx Hs Hp Hm Hn]; destruct (no_length_read _ Hn) as (z & Hd & _); exists z; unfold lex_glue, bind; rewrite (dimension_spaced _ _ _ _ Hx Hs).
  - unfold glue_part at 1, bind, get. rewrite (goes_strip _ _ _ (or_introl eq_refl) Hp). unfold put. rewrite Hd. reflexivity.
  - rewrite (stretch_read _ _ _ _ (or_introl eq_refl) Hp). unfold glue_part, bind, get. rewrite (goes_strip _ _ _ (or_intror eq_refl) Hm). unfold put. rewrite Hd. reflexivity.
Qed.
Lemma unit_missing : forall g x, no_length x \/ g = true /\ short_glue x ->
  (g = true /\ exists z, lex_glue x = (Err EDimensionUnit, z)) \/ exists z, lex_dimension x = (Err EDimensionUnit, z) /\ lex_glue x = (Err EDimensionUnit, z).
Proof. intros g x [H|[Hg H]]; [right; exact (no_length_read _ H)|left; split; [exact Hg|exact (short_glue_read _ H)]]. Qed.
Lemma skip_breaks : forall f cs mu st s e r, In (cs, (true, mu)) spaces -> stxt (i_content st) = s -> glue_or_braced s = (Err e, r) -> errs (hprim_body (hprim f) cs) st e.
Proof.
  intros f cs mu st s e r Hin Hs Hg. assert (H : errs (lexc glue_or_braced) st e) by (unfold errs, lexc; rewrite Hs, Hg; eexists; reflexivity).
  repeat destruct Hin as [Hin|Hin]; try contradiction; try discriminate Hin; injection Hin as <- <-; [prim_is (lit "hskip") PHskip|prim_is (lit "mskip") PMskip]; apply errs_first, H.
Qed.

Lemma no_argument_read : forall s e, no_argument s e -> exists r, lex_argument s = (Err e, r).
Proof.
  intros s e [s0 H|b Hb|w s0 Hw Hu].
  - exists []. apply argument_end, H.
  - exists []. unfold lex_argument. destruct (strip_char 123 (trim_start (b ++ [92]))) as [r|] eqn:E.
    + exfalso. apply strip_char_some in E. assert (Hk : lex_token (b ++ [92]) = lex_token (trim_start (b ++ [92]))) by (apply lex_token_same; symmetry; apply trim_either; auto).
      rewrite E, lex_token_blank in Hk by exact Hb. discriminate.
    + unfold bind. rewrite lex_token_blank by exact Hb. reflexivity.
  - apply argument_open; assumption.
Qed.

Lemma no_text_breaks : forall fn s e st, no_text s e -> stxt (i_content st) = s -> errs (text_argument fn) st e.
Proof.
  intros fn s e st H Hs. unfold text_argument. destruct H as [s e H|b cs t r Hb Hc].
  - apply errs_first. apply no_argument_read in H as [r H]. eapply argc_err. rewrite Hs. exact H.
  - eapply errs_next; [unfold argc, arg_slice; rewrite Hs, (control_argument _ _ _ _ Hb Hc); reflexivity|]. apply errs_fail.
Qed.

Lemma class_names_prim : forall cs, In cs class_names -> lookup_prim cs = PMathop \/ exists a, lookup_prim cs = PAtom a.
Proof.
  intros cs [<-|H]; [left; vm_compute; reflexivity|right]. apply in_map_iff in H as ((cs' & k) & <- & H). destruct (class_prim _ _ H) as (a & Hp & _). exists a. exact Hp.
Qed.

Lemma class_breaks : forall cs f st s e, In cs class_names -> stxt (i_content st) = s -> i_align st = al -> (length s <= f)%nat ->
  no_argument s e \/ (exists b cs' t r, blank b /\ control cs' t r /\ s = b ++ t /\ breaks true s e) -> errs (hprim_body (hprim f) cs) st e.
Proof.
  intros cs f st s e Hin Hs Hal Hf H.
  assert (Hx : forall a st, stxt (i_content st) = s -> i_align st = al -> errs (atom_group (hprim f) a) st e).
  { clear st Hs Hal. intros a st Hs Hal. unfold atom_group. destruct H as [H|(b & cs' & t & r & Hb & Hc & -> & Hd)].
    - apply errs_first. apply no_argument_read in H as [r H]. eapply argc_err. rewrite Hs. exact H.
    - unfold breaks in Hd. rewrite (control_token _ _ _ _ Hb Hc) in Hd. destruct Hd as (Hl & Hd).
      eapply errs_next; [unfold argc, arg_slice; rewrite Hs, (control_argument _ _ _ _ Hb Hc); reflexivity|]. cbn [single_char].
      assert (Hy : errs (push_ev (EvBegin GNormal) ;; handle_arg (hprim f) (SCs cs') ;; push_ev EvEnd) (set_content (suffix_slice (i_content st) r) st) e).
      { eapply errs_next; [reflexivity|]. apply errs_first. cbn [handle_arg]. eapply errs_next; [reflexivity|]. apply Hd; [reflexivity|exact Hal|reflexivity|lia]. }
      destruct a; exact Hy. }
  unfold hprim_body. destruct (class_names_prim cs Hin) as [->|[a ->]].
  - eapply errs_next; [reflexivity|]. eapply errs_next; [reflexivity|]. apply Hx; assumption.
  - apply Hx; assumption.
Qed.

Lemma gscan_no_comment : forall s o c m esc d, ~ In 37 s -> m <> MCom -> gscan o c m esc d s <> GNoNl.
Proof.
  induction s as [|x s IH]; intros o c m esc d Hn Hm H.
  - cbn [gscan] in H. destruct m; [|discriminate|contradiction Hm; reflexivity]. repeat match type of H with (if ?x then _ else _) = _ => destruct x end; discriminate.
  - assert (Hx : x <> 37) by (intros ->; apply Hn; left; reflexivity). assert (Hs : ~ In 37 s) by (intros X; apply Hn; right; exact X).
    assert (G : forall m esc d, m <> MCom -> gcons x (gscan o c m esc d s) <> GNoNl).
    { intros m' esc' d' Hm'. specialize (IH o c m' esc' d' Hs Hm'). destruct (gscan o c m' esc' d' s); cbn; congruence. }
    assert (Hk : forall n, skip_mode n <> MCom) by (intros [|n]; discriminate).
    cbn [gscan] in H. destruct m; [|revert H; apply G, Hk|contradiction Hm; reflexivity].
    destruct (negb esc && (d =? 0) && starts_with c (x :: s)); [discriminate|]. destruct (negb (has_bytes (blen c) (x :: s))); [discriminate|].
    destruct (negb esc && starts_with o (x :: s)); [revert H; apply G, Hk|]. destruct (negb esc && starts_with c (x :: s)); [revert H; apply G, Hk|].
    destruct (x =? 92); [revert H; apply G; discriminate|]. rewrite (proj2 (N.eqb_neq x 37) Hx) in H. cbn in H. revert H. apply G. discriminate.
Qed.

Lemma option_open : forall w s, white w -> unclosed [91] [93] s -> ~ In 37 s -> optional_argument (w ++ 91 :: s) = (Ok None, []).
Proof.
  intros w s Hw Hu Hn. unfold optional_argument. rewrite trim_to by (try exact Hw; reflexivity). rewrite strip_char_head.
  pose proof (gscan_no_comment s [91] [93] MNorm false 0 Hn ltac:(discriminate)) as G. unfold group_content. change (opening_str GKOptional) with [91]. change (closing_str GKOptional) with [93].
  destruct (gscan [91] [93] MNorm false 0 s) as [a r| |] eqn:E; [|reflexivity|congruence].
  exfalso. apply Hu. exists a, r. apply (group_content_iff GKOptional). unfold group_content. change (opening_str GKOptional) with [91]. change (closing_str GKOptional) with [93].
  rewrite E. reflexivity.
Qed.

(** ** Arguments of environments *)

Lemma no_alignment : forall x, ~ In x (map fst alignments) -> col_align_of x = None.
Proof.
  intros x H. unfold col_align_of. repeat match goal with |- context [str_eqb x ?k] => let E := fresh in destruct (str_eqb x k) eqn:E; [exfalso; apply H; apply str_eqb_eq in E; subst x; vm_compute; tauto|] end. reflexivity.
Qed.

Lemma columns_stop : forall a cols, columns a cols -> forall count c y, count + N.of_nat (column_count cols) < 65535 -> ~ In c (map fst column_chars) ->
  array_columns count (a ++ c :: y) = Err EArgument.
Proof.
  induction 1 as [|d x a cols Hd H IH]; intros count c y Hn Hc; cbn [app array_columns].
  - cbn in Hn. replace (65535 <=? count) with false by (symmetry; apply N.leb_gt; lia).
    repeat match goal with |- context [c =? ?k] => destruct (N.eqb_spec c k); [exfalso; apply Hc; subst c; vm_compute; tauto|] end. reflexivity.
  - assert (E : 65535 <=? count = false) by (apply N.leb_gt; lia). rewrite E. clear E.
    destruct Hd as [Hd|[Hd|[Hd|[Hd|[Hd|[]]]]]]; injection Hd as <- <-; cbn [column_count filter length] in *;
      cbn [N.eqb Pos.eqb]; unfold column_count in *; cbn [filter length] in *; rewrite IH by (assumption || lia); reflexivity.
Qed.

Lemma no_column_exists : forall cols, column_count cols = O -> existsb is_column cols = false.
Proof. induction cols as [|[a|l] cols IH]; intros H; [reflexivity|discriminate|]. cbn. apply IH. exact H. Qed.

Lemma arrays_run : forall name, In name [lit "array"; lit "darray"] -> exists k sty, forall st,
  environment name st = (do g <- array_environment ; ret (mkEnv (fst g) (snd g) k sty None)) st.
Proof. intros name [<-|[<-|[]]]; do 2 eexists; intros st; reflexivity. Qed.

Lemma subarray_run : forall st, environment (lit "subarray") st =
  (do t <- group_arg EArgument ; do a <- ok_or (col_align_of t) EArgument ; ret (mkEnv (GSubArray a) 0 GKSubArray None None)) st.
Proof. reflexivity. Qed.

Lemma number_missing : forall x, not_next (fun c => digit c \/ number_sign c) x -> exists r, unsigned_integer x = (Err ENumber, r).
Proof.
  intros [|c x] H; [eexists; reflexivity|]. cbn in H. cbn [unsigned_integer]. unfold number_sign in H.
  assert (Hd : is_digit c = false) by (destruct (is_digit c) eqn:E; [exfalso; apply H; left; apply digit_is; exact E|reflexivity]). rewrite Hd.
  assert (Hl : clen c = 1) by (unfold clen; replace (c <? 128) with true by (symmetry; apply N.ltb_lt; lia); reflexivity). rewrite Hl.
  cbn [N.eqb Pos.eqb negb]. repeat match goal with |- context [c =? ?k] => destruct (N.eqb_spec c k); [exfalso; apply H; tauto|] end. eexists; reflexivity.
Qed.

Lemma no_env_args_breaks : forall name s e, no_env_args name s e -> forall st, stxt (i_content st) = s -> errs (environment name) st e.
Proof.
  intros name s e H st Hs.
  destruct H as [name s e Hin Hg|name w x r Hin Hw Hx Hn|name w a cols c y r Hin Hw Hx Hc Hn Hnc|name w x cols r Hin Hw Hc Hn|w x r Hw Hx Hn|name w x r Hin Hw Hx Hn].
  - pose proof (group_arg_breaks st s e Hs Hg) as He. apply in_app_or in Hin as [Hin|Hin].
    + destruct Hin as [<-|[<-|[<-|[]]]].
      * destruct (arrays_run (lit "array") ltac:(left; reflexivity)) as (k & sty & E). unfold errs. rewrite E. apply errs_first. unfold array_environment. apply errs_first, He.
      * destruct (arrays_run (lit "darray") ltac:(right; left; reflexivity)) as (k & sty & E). unfold errs. rewrite E. apply errs_first. unfold array_environment. apply errs_first, He.
      * unfold errs. rewrite subarray_run. apply errs_first, He.
    + apply in_map_iff in Hin as ((name' & g) & <- & Hin). cbn [fst]. destruct (proj1 (Forall_forall _ _) pair_envs _ Hin) as (H1 & _ & _). cbn [fst snd] in H1.
      unfold errs. rewrite H1. apply errs_first. clear -He. unfold alignat_pairs. unfold group_arg in He. unfold errs, bind in *.
      destruct He as [st2 He].
      destruct (argc st) as [[a|?|?|] st'] eqn:Ea; try discriminate He; [destruct a; try discriminate He|]; injection He as -> ->; eexists; reflexivity.
  - apply in_map_iff in Hin as ((name' & d) & <- & Hin). cbn [fst]. destruct (proj1 (Forall_forall _ _) starred_envs _ Hin) as (H1 & _ & _). cbn [fst snd] in H1.
    destruct (optc_some st w x r Hs Hw Hx) as (sl & c & Ho & Hsl & Hc). unfold errs. rewrite H1. apply errs_first. unfold optional_alignment.
    eapply errs_next; [exact Ho|]. cbv beta iota. rewrite Hsl, no_alignment by exact Hn. apply errs_fail.
  - destruct (arrays_run name Hin) as (k & sty & E). destruct (group_arg_braced EArgument st w _ r Hs Hw Hx) as (c' & Hg & Hr). unfold errs. rewrite E. apply errs_first.
    unfold array_environment. eapply errs_next; [exact Hg|]. apply errs_first. unfold errs, lift. rewrite (columns_stop _ _ Hc) by assumption. eexists. reflexivity.
  - destruct (arrays_run name Hin) as (k & sty & E). destruct (group_arg_braced EArgument st w x r Hs Hw) as (c' & Hg & Hr); [apply plain_balanced, (columns_chars _ _ Hc)|].
    unfold errs. rewrite E. apply errs_first. unfold array_environment. eapply errs_next; [exact Hg|].
    eapply errs_next; [unfold lift; rewrite (columns_read _ _ Hc) by (rewrite Hn; cbn; lia); reflexivity|]. cbn [fst]. rewrite no_column_exists by exact Hn. apply errs_fail.
  - destruct (group_arg_braced EArgument st w x r Hs Hw Hx) as (c' & Hg & Hr). unfold errs. rewrite subarray_run. eapply errs_next; [exact Hg|]. rewrite no_alignment by exact Hn. apply errs_first, errs_fail.
  - apply in_map_iff in Hin as ((name' & g) & <- & Hin). cbn [fst]. destruct (proj1 (Forall_forall _ _) pair_envs _ Hin) as (H1 & _ & _). cbn [fst snd] in H1.
    destruct (argc_braced st w x r Hs Hw Hx) as (sl & c & Ha & Hsl & Hc). unfold errs. rewrite H1. apply errs_first. unfold alignat_pairs. eapply errs_next; [exact Ha|].
    apply errs_first. unfold errs, on_local. rewrite Hsl. destruct (number_missing x Hn) as [r' ->]. eexists. reflexivity.
Qed.

Lemma no_env_args_balanced : forall name s e, no_env_args name s e -> balanced 123 125 name.
Proof.
  intros name s e H. assert (Hin : In name (map fst starred_matrices ++ [lit "array"; lit "darray"; lit "subarray"] ++ map fst pair_environments)).
  { destruct H; repeat rewrite in_app_iff in *; cbn [In] in *; tauto. }
  clear H. revert name Hin. clear. intros name H. assert (X : Forall (fun c => c <> 92 /\ c <> 37 /\ c <> 123 /\ c <> 125) name); [|apply plain_balanced, X].
  revert name H. apply Forall_forall. vm_compute. repeat constructor; congruence.
Qed.

Lemma empty_unclosed : forall k, unclosed (opening_str k) (closing_str k) [].
Proof. intros k (g & r & H). apply enclosed_text in H. destruct g; [|discriminate]. cbn [app] in H. destruct k as [| | | |[]|[] []|[] []|[]|[]| | |[]| |[]| | | ]; discriminate H. Qed.

(** ** [\Space], [\sideset] and [\genfrac] *)

Lemma for_length_group : forall s e st, no_group s e -> stxt (i_content st) = s -> errs (group_arg EDimensionArgument) st (for_length e).
Proof. intros s e st H Hs. exact (group_arg_any EDimensionArgument st s e Hs H). Qed.

Definition length_group : P dimension := do t <- group_arg EDimensionArgument ; do d <- on_local lex_dimension t ; ret (fst d).

Lemma length_group_run : forall st w x d r, stxt (i_content st) = w ++ 123 :: x ++ 125 :: r -> white w -> dimension_text x d ->
  exists c, group_arg EDimensionArgument st = (Ok x, set_content c st) /\ stxt c = r /\ forall st', on_local lex_dimension x st' = (Ok (d, []), st').
Proof.
  intros st w x d r Hs Hw Hd. destruct (group_arg_braced EDimensionArgument st w x r Hs Hw (dimension_text_braces _ _ Hd)) as (c & Hg & Hc).
  exists c. split; [exact Hg|]. split; [exact Hc|]. intros st'. unfold on_local. rewrite (dimension_alone _ _ Hd). destruct st'; reflexivity.
Qed.

Lemma strut_first : forall n s e, strut_fault (S n) s e -> forall st B (k : dimension * str -> P B), stxt (i_content st) = s ->
  (forall w x d r, s = w ++ 123 :: x ++ 125 :: r -> strut_fault n r e -> forall c, stxt c = r -> errs (k (d, [])) (set_content c st) e) ->
  errs (do t <- group_arg EDimensionArgument ; do d <- on_local lex_dimension t ; k d) st e.
Proof.
  intros n s e H. inversion H as [n0 s0 e0 Hg|n0 w x r Hw Hx Hn|n0 w x d r e0 Hw Hd Hr]; subst; intros st B k Hs Hk.
  - apply errs_first. eapply for_length_group; [exact Hg|exact Hs].
  - destruct (group_arg_braced EDimensionArgument st w x r Hs Hw Hx) as (c & Hg & Hc). eapply errs_next; [exact Hg|]. apply errs_first.
    destruct (no_length_read _ Hn) as (z & Hz & _). unfold errs, on_local. rewrite Hz. eexists. reflexivity.
  - destruct (length_group_run st w x d r Hs Hw Hd) as (c & Hg & Hc & Hl). eapply errs_next; [exact Hg|]. eapply errs_next; [apply Hl|].
    eapply Hk; [reflexivity|exact Hr|exact Hc].
Qed.

Lemma frac_delimiter_breaks : forall s e st, no_frac_delimiter s e -> stxt (i_content st) = s -> errs genfrac_delim st e.
Proof.
  intros s e st H Hs. unfold genfrac_delim. destruct H as [s e H|s Hn H|w x r Hw Hx Hne].
  - apply errs_first. apply no_argument_read in H as [r H]. eapply argc_err. rewrite Hs. exact H.
  - apply no_delimiter_read in H as [r H]. unfold lex_delimiter, bind in H. destruct (lex_token s) as [[t|e'|p|] r0] eqn:E; try discriminate.
    + destruct (token_to_delim t) eqn:Et; [discriminate|].
      assert (Ha : exists a c', argc st = (Ok a, set_content c' st) /\ sarg_token a = Some t).
      { unfold argc, arg_slice. rewrite Hs, (token_argument _ _ _ Hn E). destruct t as [cs|ctx]; do 2 eexists; (split; [reflexivity|reflexivity]). }
      destruct Ha as (a & c' & Ha & Hta). eapply errs_next; [exact Ha|]. rewrite Hta, Et. apply errs_first, errs_fail.
    + apply errs_first. injection H as -> ->. eapply argc_err. rewrite Hs. unfold lex_argument. rewrite no_starts by (try exact Hn; reflexivity). unfold bind. rewrite E. reflexivity.
  - destruct (argc_braced st w x r Hs Hw Hx) as (sl & c & Ha & Hsl & Hc). eapply errs_next; [exact Ha|]. cbn [sarg_token]. rewrite Hsl.
    destruct x as [|y x]; [contradiction Hne; reflexivity|]. apply errs_fail.
Qed.

Definition frac_bar_of (b : sarg) : P (option dimension) :=
  match b with
  | SGroup g => if is_nil (stxt g) then ret None
      else do d <- on_local lex_dimension (stxt g) ; if is_nil (snd d) then ret (Some (fst d)) else fail EDimensionArgument
  | _ => fail EDimensionArgument
  end.

Lemma frac_bar_breaks : forall s e st, no_frac_bar s e -> stxt (i_content st) = s -> errs (do a <- argc ; frac_bar_of a) st e.
Proof.
  intros s e st H Hs. destruct H as [s e H|w x r Hw Hx Hne Hn|w x d y z r Hw Hd Hx Hy Hz].
  - pose proof (for_length_group _ _ _ H Hs) as He. unfold group_arg, errs, bind in *. destruct He as [st2 He].
    destruct (argc st) as [[[g|cs|ctx]|?|?|] st']; try discriminate He; [injection He as He ->..|injection He as -> ->]; eexists; cbn; rewrite ?He; reflexivity.
  - destruct (argc_braced st w x r Hs Hw Hx) as (sl & c & Ha & Hsl & Hc). eapply errs_next; [exact Ha|]. cbn [frac_bar_of]. rewrite Hsl.
    destruct x as [|x0 x]; [contradiction Hne; reflexivity|]. cbn [is_nil]. apply errs_first. destruct (no_length_read _ Hn) as (z & Hz & _). unfold errs, on_local. rewrite Hz. eexists. reflexivity.
  - destruct (argc_braced st w (x ++ y) r Hs Hw Hx) as (sl & c & Ha & Hsl & Hc). eapply errs_next; [exact Ha|]. cbn [frac_bar_of]. rewrite Hsl.
    destruct (x ++ y) as [|x0 xs] eqn:Ex.
    { destruct x as [|x1 x]; [destruct (dimension_text_visible _ _ Hd) as [X _]; contradiction X; reflexivity|discriminate]. }
    cbn [is_nil]. rewrite <- Ex. eapply errs_next; [unfold on_local; rewrite (dimension_spaced _ _ _ _ Hd Hy); reflexivity|]. cbn [snd].
    destruct z; [contradiction Hz; reflexivity|]. apply errs_fail.
Qed.

Lemma frac_style_breaks : forall s e st, no_frac_style s e -> stxt (i_content st) = s -> errs (do a <- argc ; genfrac_style a) st e.
Proof.
  assert (Hdig : forall c, ~ In [c] (map fst frac_styles) -> style_digit c = None).
  { intros c H. unfold style_digit. repeat match goal with |- context [c =? ?k] => destruct (N.eqb_spec c k); [exfalso; apply H; subst c; vm_compute; tauto|] end. reflexivity. }
  intros s e st H Hs. destruct H as [s e H|b cs t r Hb Hc|b c r Hb H1 H2 H3 H4 Hn|w x r Hw Hx Hn].
  - apply errs_first. apply no_argument_read in H as [r H]. eapply argc_err. rewrite Hs. exact H.
  - eapply errs_next; [unfold argc, arg_slice; rewrite Hs, (control_argument _ _ _ _ Hb Hc); reflexivity|]. apply errs_fail.
  - eapply errs_next; [unfold argc, arg_slice; rewrite Hs, (token_argument _ _ _ (brace_unbraced b c r Hb H1 H2 H3 H4) (char_token b c r Hb H1 H2 H3)); reflexivity|].
    cbn [genfrac_style stxt suffix_slice ctx_char]. rewrite Hdig by exact Hn. apply errs_first, errs_fail.
  - destruct (argc_braced st w x r Hs Hw Hx) as (sl & c & Ha & Hsl & Hc). eapply errs_next; [exact Ha|]. cbn [genfrac_style]. rewrite Hsl.
    destruct x as [|x0 [|x1 x]]; [exfalso; apply Hn; left; reflexivity|rewrite Hdig by exact Hn; apply errs_first, errs_fail|apply errs_fail].
Qed.

Lemma frac_bar_run : forall st w x bar r, stxt (i_content st) = w ++ 123 :: x ++ 125 :: r -> white w -> frac_bar x bar ->
  exists a c, argc st = (Ok a, set_content c st) /\ stxt c = r /\ forall st', frac_bar_of a st' = (Ok bar, st').
Proof.
  intros st w x bar r Hs Hw Hbar.
  assert (Hbx : balanced 123 125 x) by (eapply frac_bar_braces, Hbar).
  destruct (argc_braced st w x r Hs Hw Hbx) as (sl & c & Ha & Hsl & Hc). exists (SGroup sl), c. split; [exact Ha|]. split; [exact Hc|]. intros st'.
  cbn [frac_bar_of]. rewrite Hsl. destruct Hbar as [[-> ->]|(x1 & y & d & -> & Hd & Hy & ->)]; [reflexivity|].
  destruct (x1 ++ y) as [|x0 xs] eqn:Ex; [destruct x1; [destruct (dimension_text_visible _ _ Hd) as [Hn _]; contradiction|discriminate]|].
  cbn [is_nil]. unfold bind, on_local. rewrite <- Ex, (dimension_spaced _ _ _ _ Hd Hy). destruct st'; reflexivity.
Qed.

Lemma errs_split : forall A B C (m : P A) (g : A -> P B) (k : B -> P C) st e, errs (do a <- m ; g a) st e -> errs (do a <- m ; do b <- g a ; k b) st e.
Proof.
  intros A B C m g k st e [st' H]. unfold errs, bind in *. destruct (m st) as [[a|x|x|] st1]; try discriminate H; [|exists st'; injection H as -> ->; reflexivity].
  rewrite H. exists st'. reflexivity.
Qed.

Definition genfrac_rest (rec : str -> P unit) : P unit :=
  do l <- genfrac_delim ; do r <- genfrac_delim ; do b <- argc ; do bar <- frac_bar_of b ; do a <- argc ; do sty <- genfrac_style a ; fraction_like rec l r bar sty.

Lemma genfrac_breaks : forall s e rec st, genfrac_fault s e -> stxt (i_content st) = s -> errs (genfrac_rest rec) st e.
Proof.
  intros s e rec st H Hs. unfold genfrac_rest. destruct H as [s e H|s o s1 e Ho H|s o s1 c s2 e Ho Hc H|s o s1 c w x bar s2 e Ho Hc Hw Hbar H].
  - apply errs_first. eapply frac_delimiter_breaks; eassumption.
  - destruct (frac_delimiter_run _ _ _ st Ho Hs) as (_ & c1 & H1 & Hc1). eapply errs_next; [exact H1|]. apply errs_first. eapply frac_delimiter_breaks; eassumption.
  - destruct (frac_delimiter_run _ _ _ st Ho Hs) as (_ & c1 & H1 & Hc1). eapply errs_next; [exact H1|].
    destruct (frac_delimiter_run _ _ _ (set_content c1 st) Hc Hc1) as (_ & c2 & H2 & Hc2). eapply errs_next; [exact H2|].
    apply errs_split. eapply frac_bar_breaks; eassumption.
  - destruct (frac_delimiter_run _ _ _ st Ho Hs) as (_ & c1 & H1 & Hc1). eapply errs_next; [exact H1|].
    destruct (frac_delimiter_run _ _ _ (set_content c1 st) Hc Hc1) as (_ & c2 & H2 & Hc2). eapply errs_next; [exact H2|].
    match goal with |- errs _ ?st1 _ => destruct (frac_bar_run st1 w x bar s2 Hc2 Hw Hbar) as (a & c3 & H3 & Hc3 & Hb3) end. eapply errs_next; [exact H3|].
    eapply errs_next; [apply Hb3|]. apply errs_split. eapply frac_style_breaks; eassumption.
Qed.

Theorem wrong_breaks :
  (forall h s e, wrong al h s e -> breaks h s e) /\ (forall h ks s e, wrong_argument al h ks s e -> breaks_args h ks s e).
Proof.
  apply wrong_both.
  - (* end *) intros s H. unfold breaks. rewrite (nothing_token _ H). split; [reflexivity|discriminate].
  - (* backslash *) intros h b Hb. unfold breaks. rewrite lex_token_blank by exact Hb. cbn. split; [reflexivity|discriminate].
  - intros h b r Hb. apply char_breaks; [exact Hb|reflexivity|discriminate..|]. intros sl st H1 H2 H3 H4. at_char H4. apply errs_fail.
  - intros h b r Hb. apply char_breaks; [exact Hb|reflexivity|discriminate..|]. intros sl st H1 H2 H3 H4. at_char H4. apply errs_fail.
  - intros h b r Hb. apply char_breaks; [exact Hb|reflexivity|discriminate..|]. intros sl st H1 H2 H3 H4. at_char H4. apply errs_fail.
  - (* open *) intros h b s Hb Hu. apply char_breaks; [exact Hb|reflexivity|discriminate..|]. intros sl st H1 H2 H3 H4. at_char H4. apply errs_first.
    destruct (brace_open s Hu) as [r Hr]. unfold errs, groupc. rewrite H3, Hr. eexists. reflexivity.
  - (* mark *) intros h b r Hb Hm. apply char_breaks; [exact Hb|reflexivity|discriminate..|]. intros sl st H1 H2 H3 H4. at_char H4.
    change (38 =? 92) with false. change (38 =? 37) with false. change ((38 =? 95) || (38 =? 94)) with false. change (38 =? 36) with false.
    change (38 =? 35) with false. change (38 =? 38) with true. cbv iota. rewrite H1, H2. destruct al as [[k m]|] eqn:Ea; [|apply errs_fail].
    replace ((k <? m) && negb h) with false; [apply errs_fail|]. destruct Hm as [->|Hm]; [rewrite andb_false_r; reflexivity|].
    cbn in Hm. apply N.ltb_ge in Hm. rewrite Hm. reflexivity.
  - (* script *) intros b c r Hb Hc. apply char_breaks; [exact Hb|destruct Hc as [-> | ->]; reflexivity|destruct Hc as [-> | ->]; discriminate..|].
    intros sl st H1 H2 H3 H4. at_char H4. rewrite H1. destruct Hc as [-> | ->]; apply errs_fail.
  - (* row *) intros h b cs t r Hb Hin Hc Hr. eapply control_breaks; [exact Hb|exact Hc|]. intros f st H1 H2 H3 H4. unfold hprim_body. rewrite (newline_prim _ Hin).
    unfold newline. eapply errs_next; [reflexivity|]. rewrite H1, H2. destruct Hr as [->| ->]; [|apply errs_fail]. destruct al as [[k m]|]; apply errs_fail.
  - (* unbalanced *) intros h b cs t r Hb Hin Hc. eapply control_breaks; [exact Hb|exact Hc|]. intros f st H1 H2 H3 H4. unfold hprim_body.
    replace (lookup_prim cs) with PUnbalanced; [apply errs_fail|]. repeat destruct Hin as [Hin|Hin]; try contradiction; subst cs; vm_compute; reflexivity.
  - (* unknown *) intros h b cs t r Hb Hc Hu. eapply control_breaks; [exact Hb|exact Hc|]. intros f st H1 H2 H3 H4. unfold hprim_body. rewrite (unknown_prim _ Hu). apply errs_fail.
  - (* relax *) intros b t r Hb Hc. eapply control_breaks; [exact Hb|exact Hc|]. intros f st H1 H2 H3 H4. prim_is (lit "relax") PRelax.
    eapply errs_next; [reflexivity|]. rewrite H1. apply errs_fail.
  - (* command *) intros h b cs t s c e Hb Hc Hin _ Ha. eapply control_breaks; [exact Hb|exact Hc|]. intros f st H1 H2 H3 H4.
    eapply command_breaks; [exact Hin|apply (command_args _ _ _ _ _ Hin Ha)|assumption..].
  - (* sqrt *) intros h b t s e Hb Hc Hns _ Hd. eapply control_breaks; [exact Hb|exact Hc|]. intros f st H1 H2 H3 H4. prim_is (lit "sqrt") PSqrt.
    rewrite <- H3 in Hns. destruct (optc_none st Hns) as (c & Ho & Hcs). eapply errs_next; [exact Ho|]. cbv iota. eapply errs_next; [reflexivity|].
    eapply (arg_breaks_at s e Hd f); [cbn; congruence|exact H2|lia|]. intros a cc Ha. apply Ha; [reflexivity|exact H2].
  - (* root *) intros h b t w i s e Hb Hc Hw Hi _ Hd. eapply control_breaks; [exact Hb|exact Hc|]. intros f st H1 H2 H3 H4. prim_is (lit "sqrt") PSqrt.
    destruct (optc_some st w i s H3 Hw Hi) as (sl & c & Ho & Hsl & Hcs). eapply errs_next; [exact Ho|]. cbv iota. eapply errs_next; [reflexivity|].
    eapply (arg_breaks_at s e Hd f); [cbn; congruence|exact H2|lens|]. intros a cc Ha. apply errs_first, Ha; [reflexivity|exact H2].
  - (* xarrow *) intros h b cs t c s e Hb Hc Hin Hns _ Hd. eapply control_breaks; [exact Hb|exact Hc|]. intros f st H1 H2 H3 H4. unfold hprim_body. rewrite (xarrow_prim _ _ Hin).
    rewrite <- H3 in Hns. destruct (optc_none st Hns) as (c' & Ho & Hcs). eapply errs_next; [exact Ho|].
    eapply (arg_breaks_at s e Hd f); [cbn; congruence|exact H2|lia|]. intros a cc Ha. eapply errs_next; [reflexivity|]. eapply errs_next; [reflexivity|]. apply Ha; [reflexivity|exact H2].
  - (* xarrow below *) intros h b cs t c w i s e Hb Hc Hin Hw Hi _ Hd. eapply control_breaks; [exact Hb|exact Hc|]. intros f st H1 H2 H3 H4. unfold hprim_body. rewrite (xarrow_prim _ _ Hin).
    destruct (optc_some st w i s H3 Hw Hi) as (sl & c' & Ho & Hsl & Hcs). eapply errs_next; [exact Ho|].
    eapply (arg_breaks_at s e Hd f); [cbn; congruence|exact H2|lens|]. intros a cc Ha. eapply errs_next; [reflexivity|]. eapply errs_next; [reflexivity|]. apply Ha; [reflexivity|exact H2].
  - (* text of a command *) intros h b cs t b' cs' t' r Hb Hc Ht Hb' Hc'. eapply control_breaks; [exact Hb|exact Hc|]. intros f st H1 H2 H3 H4.
    eapply text_breaks; [exact Ht|exact H3|]. right. split; [reflexivity|]. exists cs', r. apply control_argument; assumption.
  - (* text at the end *) intros h b cs t s Hb Hc Ht Hn. eapply control_breaks; [exact Hb|exact Hc|]. intros f st H1 H2 H3 H4.
    eapply text_breaks; [exact Ht|exact H3|]. left. exists []. apply argument_end, Hn.
  - (* text backslash *) intros h b cs t b' Hb Hc Ht Hb'. eapply control_breaks; [exact Hb|exact Hc|]. intros f st H1 H2 H3 H4.
    eapply text_breaks; [exact Ht|exact H3|]. left. exists []. unfold lex_argument. destruct (strip_char 123 (trim_start (b' ++ [92]))) as [r|] eqn:E.
    + exfalso. apply strip_char_some in E. assert (Hk : lex_token (b' ++ [92]) = lex_token (trim_start (b' ++ [92]))) by (apply lex_token_same; symmetry; apply trim_either; auto).
      rewrite E, lex_token_blank in Hk by exact Hb'. discriminate.
    + unfold bind. rewrite lex_token_blank by exact Hb'. reflexivity.
  - (* text not closed *) intros h b cs t w s Hb Hc Ht Hw Hu. eapply control_breaks; [exact Hb|exact Hc|]. intros f st H1 H2 H3 H4.
    eapply text_breaks; [exact Ht|exact H3|]. left. apply argument_open; assumption.
  - (* colour *) intros h b cs t w x r Hb Hin Hc Hw Hx Hcol. eapply control_breaks; [exact Hb|exact Hc|]. intros f st H1 H2 H3 H4.
    destruct (group_arg_braced EArgument st w x r H3 Hw Hx) as (c & Hg & Hcs).
    assert (Hco : forall st0, errs (color_of x) st0 EUnknownColor) by (intros st0; unfold color_of, errs, bind, lift; rewrite Hcol; eexists; reflexivity).
    unfold hprim_body. repeat destruct Hin as [Hin|Hin]; try contradiction; subst cs.
    + replace (lookup_prim (lit "color")) with PColor by (vm_compute; reflexivity). eapply errs_next; [exact Hg|]. eapply errs_next; [reflexivity|]. apply errs_first, Hco.
    + replace (lookup_prim (lit "textcolor")) with PTextcolor by (vm_compute; reflexivity). eapply errs_next; [exact Hg|]. apply errs_first, Hco.
    + replace (lookup_prim (lit "colorbox")) with PColorbox by (vm_compute; reflexivity). eapply errs_next; [exact Hg|]. apply errs_first, Hco.
  - (* coloured *) intros h b t w x c s e Hb Hc Hw Hx Hcol _ Hd. eapply control_breaks; [exact Hb|exact Hc|]. intros f st H1 H2 H3 H4. prim_is (lit "textcolor") PTextcolor.
    destruct (group_arg_braced EArgument st w x s H3 Hw Hx) as (c1 & Hg & Hcs). eapply errs_next; [exact Hg|].
    eapply errs_next; [unfold color_of, bind, lift; rewrite Hcol; reflexivity|].
    eapply (arg_breaks_at s e Hd f); [exact Hcs|exact H2|lens|]. intros a cc Ha. eapply errs_next; [reflexivity|]. apply errs_first, Ha; [reflexivity|exact H2].
  - (* delimiter *) intros h b cs t s e Hb Hc Hin Hdot Hd. eapply control_breaks; [exact Hb|exact Hc|]. intros f st H1 H2 H3 H4.
    eapply delim_breaks; [exact Hin|exact H3|apply no_delimiter_read; assumption|exact Hdot].
  - (* left *) intros h b t s o s' Hb Hc Ho Hu. eapply control_breaks; [exact Hb|exact Hc|]. intros f st H1 H2 H3 H4. prim_is (lit "left") PLeft.
    destruct (left_delim_run _ _ _ st Ho H3) as (_ & c1 & Hl & Hc1). eapply errs_next; [exact Hl|]. apply errs_first.
    destruct (group_open GKLeftRight s' Hu) as [r Hr]. unfold errs, groupc. cbn [i_content set_content]. rewrite Hc1, Hr. eexists. reflexivity.
  - (* right *) intros h b t s o s1 g s2 e Hb Hc Ho Hg Hn Hd. eapply control_breaks; [exact Hb|exact Hc|]. intros f st H1 H2 H3 H4. prim_is (lit "left") PLeft.
    destruct (left_delim_run _ _ _ st Ho H3) as (_ & c1 & Hl & Hc1). eapply errs_next; [exact Hl|].
    apply (group_content_iff GKLeftRight) in Hg. eapply errs_next; [unfold groupc; cbn [i_content set_content]; rewrite Hc1, Hg; reflexivity|].
    apply errs_first. eapply left_breaks; [reflexivity|exact Hn|exact Hd].
  - (* no group *) intros h b cs t s e Hb Hc Hin Hg. eapply control_breaks; [exact Hb|exact Hc|]. intros f st H1 H2 H3 H4.
    pose proof (group_arg_breaks _ _ _ H3 Hg) as He. unfold hprim_body. repeat destruct Hin as [Hin|Hin]; try contradiction; subst cs.
    + replace (lookup_prim (lit "begin")) with PBegin by (vm_compute; reflexivity). unfold begin_env. apply errs_first, He.
    + replace (lookup_prim (lit "color")) with PColor by (vm_compute; reflexivity). apply errs_first, He.
    + replace (lookup_prim (lit "textcolor")) with PTextcolor by (vm_compute; reflexivity). apply errs_first, He.
    + replace (lookup_prim (lit "colorbox")) with PColorbox by (vm_compute; reflexivity). apply errs_first, He.
    + replace (lookup_prim (lit "fcolorbox")) with PFcolorbox by (vm_compute; reflexivity). apply errs_first, He.
  - (* environment *) intros h b t w name s Hb Hc Hw Hn Hin. eapply control_breaks; [exact Hb|exact Hc|]. intros f st H1 H2 H3 H4. prim_is (lit "begin") PBegin.
    destruct (group_arg_braced EArgument st w name s H3 Hw Hn) as (c & Hg & Hcs). unfold begin_env. eapply errs_next; [exact Hg|]. apply errs_first.
    eexists. apply unknown_environment, Hin.
  - (* environment not closed *) intros h b t w name s e s1 ls s2 k Hb Hc Hw He Hl Hu Hk. eapply control_breaks; [exact Hb|exact Hc|]. intros f st H1 H2 H3 H4. prim_is (lit "begin") PBegin.
    assert (Hbal : balanced 123 125 name) by apply (env_args_run _ _ _ _ He (mkIst (mkSlice 0 0 s) [] false SPRight false false None []) eq_refl).
    destruct (group_arg_braced EArgument st w name s H3 Hw Hbal) as (c & Hg & Hcs). unfold begin_env. eapply errs_next; [exact Hg|].
    destruct (env_args_run _ _ _ _ He (set_content c st) Hcs) as (_ & _ & c1 & k' & He' & Hc1 & Hdel). pose proof (name_kind _ _ _ Hdel Hk) as ->.
    eapply errs_next; [exact He'|]. cbn [e_wrap e_kind desc_of].
    destruct (v_around e) as [[l r]|]; (eapply errs_next; [reflexivity|]); (eapply errs_next; [unfold lexc; cbn [i_content set_content set_buf]; rewrite Hc1, (lines_lexer _ _ _ Hl); reflexivity|]);
      apply errs_first; destruct Hdel as [Ho Hcl]; rewrite <- Ho, <- Hcl in Hu; destruct (group_open k s2 Hu) as [r0 Hr]; unfold errs, groupc; cbn [i_content set_content set_buf stxt suffix_slice]; rewrite Hr; eexists; reflexivity.
  - (* unit *) intros h b cs g t w x y d r Hb Hin Hc Hw Hd Ht Hu. eapply control_breaks; [exact Hb|exact Hc|]. intros f st H1 H2 H3 H4.
    pose proof (length_braces _ _ _ Hd Ht) as Hbal. destruct Ht as (z & Hz & Hzw).
    eapply unit_breaks; [exact Hin|exact H3|exact Hu|exact (braced_then _ _ w _ _ z r Hw Hbal (dimension_spaced _ _ _ _ Hd Hz) Hzw)|].
    intros _. exact (braced_then _ _ w _ _ z r Hw Hbal (glue_trailing _ _ _ _ Hd Hz Hzw) Hzw).
  - (* unit without braces *) intros h b cs g t x d s r Hb Hin Hc Hd Hs Hu Hg. eapply control_breaks; [exact Hb|exact Hc|]. intros f st H1 H2 H3 H4.
    eapply unit_breaks; [exact Hin|exact H3|exact Hu|exact (kern_read _ _ _ _ Hd Hs)|]. intros E. exact (hskip_read _ _ _ _ Hd Hs (Hg E)).
  - (* unit of a stretchable length *) intros h b cs t w x d p m z r Hb Hin Hc Hw Hbal Hd Hz Hu. repeat destruct Hin as [Hin|Hin]; try contradiction; try discriminate Hin. injection Hin as <-.
    eapply control_breaks; [exact Hb|exact Hc|]. intros f st H1 H2 H3 H4. prim_is (lit "mskip") PMskip.
    pose proof (braced_then _ _ w x _ z r Hw Hbal (stretched_read _ _ _ _ _ Hd) Hz) as Hx.
    eapply errs_next; [unfold lexc, glue_or_braced; rewrite H3, Hx; reflexivity|]. cbn [fst snd]. rewrite (not_in_mu _ _ _ Hu). apply errs_fail.
  - (* and without braces *) intros h b cs t s d p m r Hb Hin Hc Hd Hu. repeat destruct Hin as [Hin|Hin]; try contradiction; try discriminate Hin. injection Hin as <-.
    eapply control_breaks; [exact Hb|exact Hc|]. intros f st H1 H2 H3 H4. prim_is (lit "mskip") PMskip.
    eapply errs_next; [unfold lexc; rewrite H3, (stretched_hskip _ _ _ _ _ Hd); reflexivity|]. cbn [fst snd]. rewrite (not_in_mu _ _ _ Hu). apply errs_fail.
  - (* no unit *) intros h b cs g mu t w x r Hb Hin Hc Hw Hbal Hn. eapply control_breaks; [exact Hb|exact Hc|]. intros f st H1 H2 H3 H4.
    destruct (unit_missing _ _ Hn) as [(-> & z & Hg)|(z & Hd & Hg)].
    + eapply skip_breaks; [exact Hin|exact H3|exact (braced_wrong _ _ _ _ _ r _ Hw Hbal Hg)].
    + eapply space_breaks; [exact Hin|exact H3|exact (braced_wrong _ _ _ _ _ r _ Hw Hbal Hd)|intros _; exact (braced_wrong _ _ _ _ _ r _ Hw Hbal Hg)].
  - (* no unit without braces *) intros h b cs g mu t s Hb Hin Hc Hs Hn. eapply control_breaks; [exact Hb|exact Hc|]. intros f st H1 H2 H3 H4.
    assert (Hnb : forall A (l : lexer A), or_braced l s = l s) by (intros A l; unfold or_braced, bind, get; rewrite no_starts by (try exact Hs; reflexivity); reflexivity).
    destruct (unit_missing _ _ Hn) as [(-> & z & Hg)|(z & Hd & Hg)].
    + eapply skip_breaks; [exact Hin|exact H3|unfold glue_or_braced; rewrite Hnb; exact Hg].
    + eapply space_breaks; [exact Hin|exact H3|unfold dimension_or_braced; rewrite Hnb; exact Hd|intros _; unfold glue_or_braced; rewrite Hnb; exact Hg].
  - (* no unit in a space *) intros h b t w x r Hb Hc Hw Hbal Hn. eapply control_breaks; [exact Hb|exact Hc|]. intros f st H1 H2 H3 H4. prim_is (lit "hspace") PHspace.
    assert (Hg : exists z, lex_glue x = (Err EDimensionUnit, z)) by (destruct Hn as [Hn|Hn]; [destruct (no_length_read _ Hn) as (z & _ & Hg); eauto|exact (short_glue_read _ Hn)]).
    destruct Hg as [z Hg]. destruct (group_arg_braced EDimensionArgument st w x r H3 Hw Hbal) as (c & Ha & Hcs).
    eapply errs_next; [exact Ha|]. apply errs_first. unfold errs, on_local. rewrite Hg. eexists. reflexivity.
  - (* no group for a space *) intros h b t s e Hb Hc Hg. eapply control_breaks; [exact Hb|exact Hc|]. intros f st H1 H2 H3 H4. prim_is (lit "hspace") PHspace.
    apply errs_first. eapply group_arg_any; eassumption.
  - (* length not closed *) intros h b cs k t w s Hb Hin Hc Hw Hu. eapply control_breaks; [exact Hb|exact Hc|]. intros f st H1 H2 H3 H4.
    destruct (brace_open s Hu) as [r Hr]. destruct k as [g mu].
    assert (Hnb : forall A (l : lexer A), or_braced l (w ++ 123 :: s) = (Err (EUnbalancedGroup (Some GKNormal)), r)).
    { intros A l. unfold or_braced, bind, get. rewrite trim_to by (try exact Hw; reflexivity). rewrite strip_char_head.
      unfold brace_argument. rewrite trim_to by (try exact Hw; reflexivity). rewrite strip_char_head, Hr. reflexivity. }
    eapply space_breaks; [exact Hin|exact H3|apply Hnb|intros _; apply Hnb].
  - (* something after a length *) intros h b cs g mu t w x d y z r Hb Hin Hc Hw Hd Hbal Hy Hz Hg. eapply control_breaks; [exact Hb|exact Hc|]. intros f st H1 H2 H3 H4.
    eapply space_breaks; [exact Hin|exact H3| |].
    + eapply braced_long; [exact Hw|exact Hbal|exact (dimension_spaced _ _ _ _ Hd Hy)|exact Hz].
    + intros E. eapply braced_long; [exact Hw|exact Hbal|exact (glue_read _ _ _ _ Hd Hy (Hg E))|exact Hz].
  - (* something after a stretchable length *) intros h b cs mu t w x d p m z r Hb Hin Hc Hw Hbal Hd Hz. eapply control_breaks; [exact Hb|exact Hc|]. intros f st H1 H2 H3 H4.
    eapply skip_breaks; [exact Hin|exact H3|]. eapply braced_long; [exact Hw|exact Hbal|exact (stretched_read _ _ _ _ _ Hd)|exact Hz].
  - (* char code *) intros h b t s z r Hb Hc Hct Hz. eapply control_breaks; [exact Hb|exact Hc|]. intros f st H1 H2 H3 H4. prim_is (lit "char") PChar.
    eapply errs_next; [unfold lexc; rewrite H3, (code_read _ _ _ Hct) by lia; reflexivity|].
    replace (255 <? Z.to_N z) with true by (symmetry; apply N.ltb_lt; lia). apply errs_fail.
  - (* no character *) intros h b t s Hb Hc Hs. eapply control_breaks; [exact Hb|exact Hc|]. intros f st H1 H2 H3 H4. prim_is (lit "char") PChar.
    apply errs_first. unfold errs, lexc. rewrite H3. destruct Hs as [-> | ->]; eexists; reflexivity.
  - (* wide character *) intros h b t m c r Hb Hc Hs Hw. eapply control_breaks; [exact Hb|exact Hc|]. intros f st H1 H2 H3 H4. prim_is (lit "char") PChar.
    apply errs_first. unfold errs, lexc. rewrite H3. assert (Hn : c <? 128 = false) by (apply N.ltb_ge; exact Hw). assert (Hb' : c =? 92 = false) by (apply N.eqb_neq; lia).
    destruct Hs as [-> | ->]; cbn [app unsigned_integer]; change (is_digit 96) with false; change (clen 96) with 1; cbn [N.eqb Pos.eqb negb]; rewrite ?Hb', ?Hn; eexists; reflexivity.
  - (* no char code *) intros h b t s Hb Hc Hn. eapply control_breaks; [exact Hb|exact Hc|]. intros f st H1 H2 H3 H4. prim_is (lit "char") PChar.
    destruct (number_missing _ Hn) as [r Hr]. apply errs_first. unfold errs, lexc. rewrite H3, Hr. eexists. reflexivity.
  - (* class *) intros h b cs t s e Hb Hc Hin Ha. eapply control_breaks; [exact Hb|exact Hc|]. intros f st H1 H2 H3 H4. eapply class_breaks; [exact Hin|exact H3|exact H2|exact H4|left; exact Ha].
  - (* class of a command *) intros h b cs t b' cs' t' r e Hb Hc Hin Hb' Hc' _ Hd. eapply control_breaks; [exact Hb|exact Hc|]. intros f st H1 H2 H3 H4.
    eapply class_breaks; [exact Hin|exact H3|exact H2|exact H4|right]. exists b', cs', t', r. auto.
  - (* substack *) intros h b t s Hb Hc Hn. eapply control_breaks; [exact Hb|exact Hc|]. intros f st H1 H2 H3 H4. prim_is (lit "substack") PSubstack.
    apply errs_first. unfold errs, bracec, brace_argument. rewrite H3, no_starts by (try exact Hn; reflexivity). eexists. reflexivity.
  - (* substack not closed *) intros h b t w s Hb Hc Hw Hu. eapply control_breaks; [exact Hb|exact Hc|]. intros f st H1 H2 H3 H4. prim_is (lit "substack") PSubstack.
    apply errs_first. destruct (brace_open s Hu) as [r Hr]. unfold errs, bracec, brace_argument. rewrite H3, trim_to by (try exact Hw; reflexivity). rewrite strip_char_head, Hr. eexists. reflexivity.
  - (* text in a box *) intros h b t w x c s e Hb Hc Hw Hx Hcol Ht. eapply control_breaks; [exact Hb|exact Hc|]. intros f st H1 H2 H3 H4. prim_is (lit "colorbox") PColorbox.
    destruct (group_arg_braced EArgument st w x s H3 Hw Hx) as (c1 & Hg & Hcs). eapply errs_next; [exact Hg|].
    eapply errs_next; [unfold color_of, bind, lift; rewrite Hcol; reflexivity|]. eapply errs_next; [reflexivity|]. apply errs_first. eapply no_text_breaks; [exact Ht|exact Hcs].
  - (* no background *) intros h b t w x s e Hb Hc Hw Hx Hg. eapply control_breaks; [exact Hb|exact Hc|]. intros f st H1 H2 H3 H4. prim_is (lit "fcolorbox") PFcolorbox.
    destruct (group_arg_braced EArgument st w x s H3 Hw Hx) as (c1 & Hg1 & Hcs). eapply errs_next; [exact Hg1|]. apply errs_first. eapply group_arg_breaks; [exact Hcs|exact Hg].
  - (* colours of a frame *) intros h b t w x w' x' s Hb Hc Hw Hw' Hx Hx' Hcol. eapply control_breaks; [exact Hb|exact Hc|]. intros f st H1 H2 H3 H4. prim_is (lit "fcolorbox") PFcolorbox.
    destruct (group_arg_braced EArgument st w x _ H3 Hw Hx) as (c1 & Hg1 & Hc1). eapply errs_next; [exact Hg1|].
    destruct (group_arg_braced EArgument (set_content c1 st) w' x' _ Hc1 Hw' Hx') as (c2 & Hg2 & Hc2). eapply errs_next; [exact Hg2|].
    assert (Hco : forall y st0, lex_color y = Ok None -> errs (color_of y) st0 EUnknownColor) by (intros y st0 E; unfold color_of, errs, bind, lift; rewrite E; eexists; reflexivity).
    destruct Hcol as [Hcol|((c & Hcol) & Hcol')]; [apply errs_first, Hco, Hcol|]. eapply errs_next; [unfold color_of, bind, lift; rewrite Hcol; reflexivity|]. apply errs_first, Hco, Hcol'.
  - (* text in a frame *) intros h b t w x c w' x' c' s e Hb Hc Hw Hw' Hx Hx' Hcol Hcol' Ht. eapply control_breaks; [exact Hb|exact Hc|]. intros f st H1 H2 H3 H4. prim_is (lit "fcolorbox") PFcolorbox.
    destruct (group_arg_braced EArgument st w x _ H3 Hw Hx) as (c1 & Hg1 & Hc1). eapply errs_next; [exact Hg1|].
    destruct (group_arg_braced EArgument (set_content c1 st) w' x' _ Hc1 Hw' Hx') as (c2 & Hg2 & Hc2). eapply errs_next; [exact Hg2|].
    eapply errs_next; [unfold color_of, bind, lift; rewrite Hcol; reflexivity|]. eapply errs_next; [unfold color_of, bind, lift; rewrite Hcol'; reflexivity|].
    eapply errs_next; [reflexivity|]. apply errs_first. eapply no_text_breaks; [exact Ht|exact Hc2].
  - (* option not closed *) intros h b cs t w s Hb Hc Hin Hw Hu Hn. eapply control_breaks; [exact Hb|exact Hc|]. intros f st H1 H2 H3 H4.
    assert (Ho : exists c, optc st = (Ok None, set_content c st) /\ stxt c = []) by (unfold optc; rewrite H3, option_open by assumption; eexists; split; reflexivity).
    destruct Ho as (c & Ho & Ec). assert (Ha : forall st0, i_content st0 = c -> errs argc st0 EToken).
    { intros st0 E. eapply argc_err. rewrite E, Ec. reflexivity. }
    unfold hprim_body. destruct Hin as [<-|Hin].
    + replace (lookup_prim (lit "sqrt")) with PSqrt by (vm_compute; reflexivity). eapply errs_next; [exact Ho|]. eapply errs_next; [reflexivity|]. apply errs_first, Ha. reflexivity.
    + apply in_map_iff in Hin as ((cs' & k) & <- & Hin). cbn [fst]. rewrite (xarrow_prim _ _ Hin). eapply errs_next; [exact Ho|]. apply errs_first, Ha. reflexivity.
  - (* arguments of an environment *) intros h b t w name s e Hb Hc Hw He. eapply control_breaks; [exact Hb|exact Hc|]. intros f st H1 H2 H3 H4. prim_is (lit "begin") PBegin.
    destruct (group_arg_braced EArgument st w name s H3 Hw (no_env_args_balanced _ _ _ He)) as (c & Hg & Hcs). unfold begin_env. eapply errs_next; [exact Hg|]. apply errs_first.
    eapply no_env_args_breaks; [exact He|exact Hcs].
  - (* option of an environment not closed *) intros h b t w name w' s k Hb Hc Hw Hw' Hin Hu Hn Hk. eapply control_breaks; [exact Hb|exact Hc|]. intros f st H1 H2 H3 H4. prim_is (lit "begin") PBegin.
    apply in_map_iff in Hin as ((name' & d) & <- & Hin). cbn [fst] in *. destruct (proj1 (Forall_forall _ _) starred_envs _ Hin) as (He & Hdel & Hch). cbn [fst snd] in He, Hdel, Hch.
    pose proof (name_kind _ _ _ Hdel Hk) as Ek. destruct (group_arg_braced EArgument st w name' _ H3 Hw (plain_balanced _ _ _ Hch)) as (c & Hg & Hcs). unfold begin_env. eapply errs_next; [exact Hg|].
    assert (Ho : exists c', optc (set_content c st) = (Ok None, set_content c' st) /\ stxt c' = []) by (unfold optc; cbn [i_content set_content]; rewrite Hcs, option_open by assumption; eexists; split; reflexivity).
    destruct Ho as (c' & Ho & Ec). eapply errs_next; [rewrite He; unfold bind, optional_alignment, bind; rewrite Ho; reflexivity|]. cbn [e_wrap e_kind desc_of starred_env v_around].
    rewrite Ek. destruct d as [[l r]|]; (eapply errs_next; [reflexivity|]); (eapply errs_next; [unfold lexc; cbn [i_content set_content set_buf]; rewrite Ec; reflexivity|]);
      apply errs_first; destruct (group_open k [] (empty_unclosed k)) as [r0 Hr]; unfold errs, groupc; cbn [i_content set_content set_buf stxt suffix_slice]; rewrite Hr; eexists; reflexivity.
  - (* Space *) intros h b t s e Hb Hc Hf. eapply control_breaks; [exact Hb|exact Hc|]. intros f st H1 H2 H3 H4. prim_is (lit "Space") PSpaceCmd.
    eapply (strut_first 2 s e Hf); [exact H3|]. intros w x d r _ Hf1 c1 Hc1.
    eapply (strut_first 1 r e Hf1); [exact Hc1|]. intros w1 x1 d1 r1 _ Hf2 c2 Hc2.
    eapply (strut_first 0 r1 e Hf2); [exact Hc2|]. intros w2 x2 d2 r2 _ Hf3. inversion Hf3.
  - (* before the base of sideset *) intros h b t s e Hb Hc Hf. eapply control_breaks; [exact Hb|exact Hc|]. intros f st H1 H2 H3 H4. prim_is (lit "sideset") PSideset.
    destruct Hf as [s e Ha|s s1 e Ho Ha].
    + apply errs_first. apply no_argument_read in Ha as [r Ha]. eapply argc_err. rewrite H3. exact Ha.
    + destruct (one_argument_run _ _ st Ho H3) as (_ & a1 & c1 & Ha1 & Hc1). eapply errs_next; [exact Ha1|]. apply errs_first. apply no_argument_read in Ha as [r Ha].
      eapply argc_err. cbn [i_content set_content]. rewrite Hc1. exact Ha.
  - (* sideset *) intros h b t s s1 s2 e Hb Hc Ho Ho' _ Hd. eapply control_breaks; [exact Hb|exact Hc|]. intros f st H1 H2 H3 H4. prim_is (lit "sideset") PSideset.
    destruct (one_argument_run _ _ st Ho H3) as (Hl1 & a1 & c1 & Ha1 & Hc1). eapply errs_next; [exact Ha1|].
    destruct (one_argument_run _ _ (set_content c1 st) Ho' Hc1) as (Hl2 & a2 & c2 & Ha2 & Hc2). eapply errs_next; [exact Ha2|].
    eapply (arg_breaks_at s2 e Hd f); [exact Hc2|exact H2|lia|]. intros a cc Ha. apply Ha; [reflexivity|exact H2].
  - (* genfrac *) intros h b t s e Hb Hc Hf. eapply control_breaks; [exact Hb|exact Hc|]. intros f st H1 H2 H3 H4. prim_is (lit "genfrac") PGenfrac.
    exact (genfrac_breaks s e (hprim f) st Hf H3).
  - (* the parts of genfrac *) intros h b t s1 o s2 c w x bar s2' sty s3 e Hb Hc Ho Hcl Hw Hbar Hsty _ Ha. eapply control_breaks; [exact Hb|exact Hc|]. intros f st H1 H2 H3 H4. prim_is (lit "genfrac") PGenfrac.
    change (errs (genfrac_rest (hprim f)) st e). unfold genfrac_rest.
    destruct (frac_delimiter_run _ _ _ st Ho H3) as (L1 & c1 & G1 & Hc1). eapply errs_next; [exact G1|].
    destruct (frac_delimiter_run _ _ _ (set_content c1 st) Hcl Hc1) as (L2 & c2 & G2 & Hc2). eapply errs_next; [exact G2|].
    match goal with |- errs _ ?st1 _ => destruct (frac_bar_run st1 w x bar s2' Hc2 Hw Hbar) as (a3 & c3 & G3 & Hc3 & Hb3) end. eapply errs_next; [exact G3|].
    eapply errs_next; [apply Hb3|].
    match goal with |- errs _ ?st1 _ => destruct (frac_style_run _ _ _ st1 Hsty Hc3) as (L4 & a4 & c4 & G4 & Hc4 & Hb4) end. eapply errs_next; [exact G4|].
    eapply errs_next; [apply Hb4|]. rewrite app_length in L2; cbn [length] in L2; rewrite app_length in L2; cbn [length] in L2.
    eapply frac_breaks; [exact Hc4|exact H2|lia|]. cbn [breaks_args brace_args] in *. destruct Ha as [Ha|(es & s' & Hd & [Ha|(es' & s'' & _ & [])])]; [left; exact Ha|right; exists es, s'; auto].
  - (* arguments *) intros h ks s e _ H. left. exact H.
  - intros h ks s es s' e Hn _ H. right. exists es, s'. split; [apply (proj1 nucleus_does), Hn|exact H].
  - intros h ks s e Hns _ H. left. auto.
  - intros h ks s H. right. exists []. apply argument_end, H.
  - intros h ks w s Hw Hu. right. apply argument_open; assumption.
Qed.

(** ** Scripts *)

Lemma script_mark_char : forall c, script_mark c -> is_ws c = false /\ c <> 37 /\ c <> 92 /\ is_char 94 (Some c) || is_char 95 (Some c) = true.
Proof. intros c [-> | ->]; repeat split; discriminate. Qed.

Lemma script_arg_breaks : forall s e, breaks true s e -> forall st B (k : P B), stxt (i_content st) = s -> i_align st = al ->
  errs (do a <- argc ; handle_arg handle_prim a ;; k) st e.
Proof.
  intros s e H st B k Hs Hal. apply (arg_breaks s e H handle_prim st Hs Hal (enough_prim _)). intros a c Ha. apply errs_first, Ha; [reflexivity|exact Hal].
Qed.

Lemma mark_double : forall c st, script_mark c -> forall s, stxt (i_content st) = c :: s ->
  errs (do nc <- peek ; if is_char 95 nc then fail EDoubleSubscript else if is_char 94 nc then fail EDoubleSuperscript else ret tt) st (double_script c).
Proof. intros c st Hc s Hs. eapply errs_next; [eapply peek_is; exact Hs|]. unfold double_script. cbn [is_char]. destruct Hc as [-> | ->]; apply errs_fail. Qed.

Lemma scripts_break : forall s e, wrong_scripts al s e -> forall st, stxt (i_content st) = s -> i_align st = al -> errs script_part st e.
Proof.
  intros s e H st Hs Hal.
  assert (Hgo : forall w c s', white w -> script_mark c -> s = w ++ c :: s' -> forall e,
    (forall st1 first, stxt (i_content st1) = s' -> i_align st1 = al ->
      errs (do a <- argc ; handle_arg handle_prim a ;; do second <- buf_len ; script_second (is_char 95 (Some c)) ;; script_end (is_char 95 (Some c)) first second) st1 e) ->
    errs script_part st e).
  { intros w c s' Hw Hc -> e' He. destruct (script_mark_char c Hc) as (Hws & _ & _ & Hm). unfold script_part. eapply errs_next; [reflexivity|].
    set (st0 := set_content _ st). assert (E0 : stxt (i_content st0) = c :: s') by (unfold st0; cbn [i_content set_content stxt suffix_slice]; rewrite Hs, trim_to by assumption; reflexivity).
    eapply errs_next; [eapply peek_is; exact E0|]. rewrite Hm. eapply errs_next; [eapply drop1_is; exact E0|]. eapply errs_next; [reflexivity|]. apply He; [reflexivity|exact Hal]. }
  assert (Hfirst : forall st1 s' a s'' B (k : P B) e, nucleus true s' a no_limits s'' -> stxt (i_content st1) = s' -> i_align st1 = al ->
    (forall st2, stxt (i_content st2) = s'' -> i_align st2 = al -> errs k st2 e) -> errs (do a <- argc ; handle_arg handle_prim a ;; k) st1 e).
  { intros st1 s' a s'' B k e' Hn E1 E2 Hk. unfold errs. rewrite bind_arg. destruct (script_arg _ _ _ Hn st1 (length s') (ret tt) E1 (le_n _)) as (_ & L & c & h & _ & _ & Hc & Hr).
    eapply errs_next; [exact Hr|]. apply Hk; [exact Hc|exact E2]. }
  destruct H as [w c s' e Hw Hc H|w c s' a c' s'' e Hw Hc Hn Hc' Hne H|w c s' a s'' Hw Hc Hn|w c s' a c' s'' b c'' s3 Hw Hc Hn Hc' Hne Hn' Hc''].
  - eapply Hgo; [exact Hw|exact Hc|reflexivity|]. intros st1 first E1 E2. eapply script_arg_breaks; [apply wrong_breaks, H|exact E1|exact E2].
  - eapply Hgo; [exact Hw|exact Hc|reflexivity|]. intros st1 first E1 E2. eapply Hfirst; [exact Hn|exact E1|exact E2|].
    intros st2 E3 E4. eapply errs_next; [reflexivity|]. apply errs_first. unfold script_second. eapply errs_next; [eapply peek_is; exact E3|].
    replace (is_char 95 (Some c') && negb (is_char 95 (Some c)) || is_char 94 (Some c') && is_char 95 (Some c)) with true
      by (destruct Hc as [-> | ->], Hc' as [-> | ->]; reflexivity || congruence).
    eapply errs_next; [eapply drop1_is; exact E3|]. eapply script_arg_breaks; [apply wrong_breaks, H|reflexivity|exact E4].
  - eapply Hgo; [exact Hw|exact Hc|reflexivity|]. intros st1 first E1 E2. eapply Hfirst; [exact Hn|exact E1|exact E2|].
    intros st2 E3 E4. eapply errs_next; [reflexivity|]. apply errs_first. unfold script_second. eapply errs_next; [eapply peek_is; exact E3|].
    destruct Hc as [-> | ->]; apply errs_fail.
  - eapply Hgo; [exact Hw|exact Hc|reflexivity|]. intros st1 first E1 E2. eapply Hfirst; [exact Hn|exact E1|exact E2|].
    intros st2 E3 E4. eapply errs_next; [reflexivity|]. apply errs_first. unfold script_second. eapply errs_next; [eapply peek_is; exact E3|].
    replace (is_char 95 (Some c') && negb (is_char 95 (Some c)) || is_char 94 (Some c') && is_char 95 (Some c)) with true
      by (destruct Hc as [-> | ->], Hc' as [-> | ->]; reflexivity || congruence).
    eapply errs_next; [eapply drop1_is; exact E3|]. eapply Hfirst; [exact Hn'|reflexivity|exact E4|]. intros st3 E5 E6. eapply mark_double; [exact Hc''|exact E5].
Qed.

(** ** The iterator *)

Section Place.
  Variables (c : slice) (K : list instr) (sp : spans) (nx ac : N).
  Hypotheses (Hplace : in_place (at_top c al K sp nx ac)) (Hexp : s_exp sp = []).
  Let p := at_top c al K sp nx ac.

  Lemma top_error : forall e q, next_step p = after K (Err e, q) -> q_spans q = sp -> shows p ([], EndError e).
  Proof.
    intros e q Hs Hq. apply shows_step. pose proof (place_step _ Hplace) as Hp. fold p in Hp. rewrite Hs in Hp |- *. unfold after in Hp |- *. rewrite Hq in Hp |- *.
    assert (Ho : Forall ordered (s_exp sp)) by (rewrite Hexp; constructor).
    destruct (new_error_ok e (i_content (q_ist q)) sp Ho) as [(pe & s' & E & Hk)|(s' & E & _)]; rewrite E in Hp |- *.
    - cbn. rewrite Hk. reflexivity.
    - contradiction Hp; reflexivity.
  Qed.

  Lemma atom_error : forall e m q, next_step p = after K (run_inner (parse_atom m) q) -> q_spans q = sp ->
    errs (parse_atom m) (q_ist q) e -> shows p ([], EndError e).
  Proof.
    intros e m q Hs Hq (st' & He). unfold run_inner in Hs. rewrite He in Hs. eapply top_error; [exact Hs|exact Hq].
  Qed.

  Lemma breaks_top : forall s e, trim_start (stxt c) = trim_start s -> breaks false s e -> shows p ([], EndError e).
  Proof.
    intros s e Hc H. unfold breaks in H. rewrite <- (lex_token_same _ _ Hc) in H. destruct (lex_token (stxt c)) as [[[cs|ctx]|x|y|] r0] eqn:E; try contradiction.
    - destruct H as (_ & H). eapply atom_error; [apply (prim_step p c al K cs r0 eq_refl E eq_refl)|reflexivity|].
      apply errs_first. apply (H (S (length r0))); [reflexivity..|lia].
    - eapply atom_error; [apply (char_step p c al K ctx r0 eq_refl E)|reflexivity|]. apply errs_first. apply H; reflexivity.
    - destruct H as [-> H]. specialize (H eq_refl).
      assert (Hn : next_step p = after K (Err x, set_ist (set_content (suffix_slice c r0) (q_ist (of_parser p c al))) (of_parser p c al))).
      { rewrite (next_step_text p c al K eq_refl). destruct (is_nil (trim_start (stxt c))) eqn:En.
        { exfalso. apply H. assert (E2 : trim_start (stxt c) = []) by (destruct (trim_start (stxt c)); [reflexivity|discriminate]).
          rewrite (lex_token_same (stxt c) []) in E by exact E2. cbn in E. congruence. }
        rewrite parse_fuel_S, parse_eq. cbn [q_ist of_parser i_content stxt]. rewrite E. destruct x; try reflexivity. congruence. }
      eapply top_error; [exact Hn|reflexivity].
  Qed.

  Theorem fault_top : forall s e, trim_start (stxt c) = trim_start s -> fault al s e -> shows p ([], EndError e).
  Proof.
    intros s e Hc Hf. revert Hc. destruct Hf as [s0 e0 H|s0 es l s' p0 s'' e0 Hn Hp Hs|b x s' e0 Hb Hx Hs]; intros Hc.
    - eapply breaks_top; [exact Hc|]. apply wrong_breaks, H.
    - apply (proj1 nucleus_does) in Hn as (_ & _ & Hn).
      assert (Ha : forall m st0, acts m st0 (length s0) es l s' -> i_allow st0 = false -> i_pos st0 = SPRight -> i_skip st0 = false -> i_align st0 = al ->
        errs (parse_atom m) st0 e0).
      { intros m st0 (L & c' & h & H1 & H2 & H3) E1 E2 E3 E4. unfold parse_atom. eapply errs_next; [exact H1|].
        destruct (placed_scripts _ _ _ _ Hp (result st0 L c' h l)) as (_ & st2 & P1 & P2 & P3 & P4 & P5 & P6); [exact E3|cbn; rewrite E1; reflexivity|cbn; rewrite E2; reflexivity|exact H2|].
        unfold errs. rewrite P1. apply (scripts_break _ _ Hs); [exact P3|rewrite P5; exact E4]. }
      rewrite <- (lex_token_same _ _ Hc) in Hn. destruct (lex_token (stxt c)) as [[[cs|ctx]|x|y|] r0] eqn:E; try contradiction.
      + destruct Hn as (_ & Hn). eapply atom_error; [apply (prim_step p c al K cs r0 eq_refl E eq_refl)|reflexivity|].
        apply Ha; try reflexivity. apply (Hn (S (length r0))); [reflexivity..|lia].
      + eapply atom_error; [apply (char_step p c al K ctx r0 eq_refl E)|reflexivity|]. apply Ha; try reflexivity. apply Hn; reflexivity.
    - destruct (script_mark_char x Hx) as (H1 & H2 & H3 & _).
      eapply atom_error; [apply (char_step p c al K (x :: s') s' eq_refl); rewrite (lex_token_same _ _ Hc); apply char_token; assumption|reflexivity|].
      unfold parse_atom.
      set (st0 := q_ist (of_parser p (suffix_slice c s') al)).
      set (sl := suffix_slice c (x :: s')).
      eapply (errs_next _ _ _ _ _ tt (set_buf [IEv (EvBegin GNormal); IEv EvEnd] (set_content sl st0))).
      { unfold handle_char. rewrite (bind_ok _ _ get _ st0 st0 st0 eq_refl). cbn [sl stxt suffix_slice ctx_char]. destruct Hx as [-> | ->]; reflexivity. }
      unfold errs. rewrite parse_scripts_eq. cbn [st0 i_skip set_buf set_content of_parser q_ist i_allow]. eapply errs_next; [reflexivity|].
      apply (scripts_break _ _ Hs); reflexivity.
  Qed.
End Place.

End Fault.

(** ** Faults inside formulas *)

Lemma steps_place : forall p es p', steps p es p' -> in_place p -> in_place p'.
Proof.
  intros p es p' H. induction H as [p|p p1 es p2 H1 H2 IH|p e p1 es p2 H1 H2 IH]; intros Hp; [exact Hp|..]; pose proof (place_step p Hp) as Hs; rewrite H1 in Hs; auto.
Qed.

Lemma steps_view : forall p es p', steps p es p' -> forall v, shows p' v -> shows p (es ++ fst v, snd v).
Proof.
  intros p es p' H. induction H as [p|p p1 es p2 H1 H2 IH|p e p1 es p2 H1 H2 IH]; intros v Hv.
  - destruct v; exact Hv.
  - apply shows_step. rewrite H1. apply IH, Hv.
  - apply shows_step. rewrite H1. cbn [shows_of]. exists (es ++ fst v, snd v). split; [apply IH, Hv|reflexivity].
Qed.

(** Wherever a fault is, it is what the reader of the events learns, after the events before it. *)
Theorem fault_inside : forall t al g pre post e, has_inside t al g pre post -> @fault anything al g e ->
  shows (new_parser t) (pre, EndError e).
Proof.
  intros t al g pre post e H Hf. destruct (inside_steps _ _ _ _ _ H) as (c & K & Hc & Hs).
  rewrite <- (app_nil_r pre). apply (steps_view _ _ _ Hs ([], EndError e)).
  eapply (@fault_top anything); [eapply steps_place; [exact Hs|apply place_new]|reflexivity|exact Hc|exact Hf].
Qed.

(** ** For the examples *)

Lemma not_in_dec : forall x l, existsb (str_eqb x) l = false -> ~ In x l.
Proof.
  intros x l H Hin. assert (E : existsb (str_eqb x) l = true) by (apply existsb_exists; exists x; split; [exact Hin|apply str_eqb_refl]). congruence.
Qed.

Lemma unclosed_dec : forall k s, match group_content k s with (Ok _, _) => false | _ => true end = true -> unclosed (opening_str k) (closing_str k) s.
Proof. intros k s H (g & r & He). apply group_content_iff in He. rewrite He in H. discriminate. Qed.

Lemma unsupported_dec : forall cs, existsb (str_eqb cs) (map fst prim_table ++ map fst cs_delims) || forallb is_ws cs = false -> ~ supported cs.
Proof.
  intros cs H [X|[X|X]]; apply orb_false_iff in H as [H1 H2].
  - apply not_in_dec in H1. apply H1, in_or_app. auto.
  - apply not_in_dec in H1. apply H1, in_or_app. auto.
  - assert (E : forallb is_ws cs = true) by (apply forallb_forall; rewrite Forall_forall in X; exact X). congruence.
Qed.

(** ** Environments *)

(** The names that have an environment. *)
Lemma names_accepted : forall name, In name environment_names -> exists s e r, env_args name s e r.
Proof.
  intros name H. unfold environment_names in H. repeat (apply in_app_or in H as [H|H]).
  - apply in_map_iff in H as ([n e] & <- & H). exists [], e, []. apply EA_plain, H.
  - apply in_map_iff in H as ([n d] & <- & H). do 3 eexists. apply (EA_starred n d []); [exact H|]. apply starts_dec; reflexivity.
  - destruct H as [<-|[<-|[<-|[]]]].
    + do 3 eexists. apply (EA_array [] [99] [ACColumn CACenter] [] 0); try reflexivity. constructor; [cbn; auto|constructor].
    + do 3 eexists. apply (EA_darray [] [99] [ACColumn CACenter] [] 0); try reflexivity. constructor; [cbn; auto|constructor].
    + do 3 eexists. apply (EA_subarray [] [99] CACenter []); [reflexivity|]. cbn. auto.
  - apply in_map_iff in H as ([n g] & <- & H). do 3 eexists. apply (EA_pairs n g [] [49] 1 []); [exact H|reflexivity| |discriminate|reflexivity|lia].
    unfold digits. repeat constructor; unfold digit; lia.
Qed.

(** No other name has one. *)
Lemma accepted_names : forall name s e r, env_args name s e r -> In name environment_names.
Proof.
  intros name s e r H. unfold environment_names. destruct H; repeat rewrite in_app_iff.
  - left. apply (in_map fst) in H. exact H.
  - right. left. apply (in_map fst) in H. exact H.
  - right. left. apply (in_map fst) in H. exact H.
  - right. right. left. cbn. auto.
  - right. right. left. cbn. auto.
  - right. right. left. cbn. auto.
  - right. right. right. apply (in_map fst) in H. exact H.
Qed.
