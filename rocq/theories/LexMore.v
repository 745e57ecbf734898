(** * LexMore: every lexer leaves a suffix of what it is given, and what the
    arguments it returns are made of. *)

From Coq Require Import List NArith ZArith Bool Lia Arith.
From Verif Require Import Base Float32 Event Tables Lex SpecLex LexFacts.
Import ListNotations.
Open Scope N_scope.
Open Scope sm_scope.

Lemma ls_ret : forall A (a : A), leaves_suffix (ret a).
Proof. intros A a s. apply suffix_refl. Qed.

Lemma ls_fail : forall A e, leaves_suffix (@fail str A e).
Proof. intros A e s. apply suffix_refl. Qed.

Lemma ls_bind : forall A B (m : lexer A) (f : A -> lexer B),
  leaves_suffix m -> (forall a, leaves_suffix (f a)) -> leaves_suffix (bind m f).
Proof.
  intros A B m f Hm Hf s. unfold bind. specialize (Hm s).
  destruct (m s) as [[a|e|p|] s']; cbn in *; auto.
  eapply suffix_trans; [apply Hf|exact Hm].
Qed.

Lemma ls_get : forall B (f : str -> lexer B),
  (forall s, suffix (snd (f s s)) s) -> leaves_suffix (bind get f).
Proof. intros B f H s. apply H. Qed.

Lemma ls_put : forall r B (f : unit -> lexer B) s, suffix r s -> leaves_suffix (f tt) ->
  suffix (snd (bind (put r) f s)) s.
Proof. intros r B f s Hr Hf. cbn. eapply suffix_trans; [apply Hf|exact Hr]. Qed.

Lemma suffix_strip_char : forall c s r, strip_char c s = Some r -> suffix r s.
Proof. intros c s r H. apply strip_char_some in H. subst. apply suffix_cons, suffix_refl. Qed.

Lemma suffix_strip_trim : forall c s r, strip_char c (trim_start s) = Some r -> suffix r s.
Proof. intros. eapply suffix_trans; [eapply suffix_strip_char; eassumption|apply suffix_trim]. Qed.

Lemma suffix_strip_prefix : forall p s r, strip_prefix p s = Some r -> suffix r s.
Proof. intros p s r H. apply strip_prefix_some in H. subst. apply suffix_app. Qed.

Lemma suffix_span : forall f s a b, span_while f s = (a, b) -> suffix b s.
Proof. intros f s a b H. apply span_while_spec in H. destruct H as [-> _]. apply suffix_app. Qed.

Lemma control_sequence_suffix : leaves_suffix control_sequence.
Proof.
  intros s. destruct s as [|c s]; [apply suffix_refl|]. cbn [control_sequence].
  destruct (c =? 92); [apply suffix_cons, rhs_cs_leaves|apply suffix_refl].
Qed.

Lemma lex_argument_suffix : leaves_suffix lex_argument.
Proof.
  intros s. unfold lex_argument. destruct (strip_char 123 (trim_start s)) eqn:E.
  - apply suffix_strip_trim in E. eapply suffix_trans; [|exact E].
    apply ls_bind; [apply group_content_suffix|intros; apply ls_ret].
  - apply ls_bind; [apply lex_token_suffix|intros; apply ls_ret].
Qed.

Lemma optional_argument_suffix : leaves_suffix optional_argument.
Proof.
  intros s. unfold optional_argument. destruct (strip_char 91 (trim_start s)) eqn:E; [|apply suffix_refl].
  apply suffix_strip_trim in E. eapply suffix_trans; [|exact E].
  pose proof (group_content_suffix GKOptional s0) as H. destruct (group_content GKOptional s0) as [[?|?|?|] ?]; exact H.
Qed.

Lemma brace_argument_suffix : leaves_suffix brace_argument.
Proof.
  intros s. unfold brace_argument. destruct (strip_char 123 (trim_start s)) eqn:E; [|apply suffix_refl].
  apply suffix_strip_trim in E. eapply suffix_trans; [|exact E]. apply group_content_suffix.
Qed.

Lemma lex_delimiter_suffix : leaves_suffix lex_delimiter.
Proof.
  apply ls_bind; [apply lex_token_suffix|]. intros t. destruct (token_to_delim t); [apply ls_ret|apply ls_fail].
Qed.

Lemma split_once_char_suffix : forall c s a b, split_once_char c s = Some (a, b) -> suffix b s.
Proof. intros c s a b H. apply split_once_char_sound in H. destruct H as [-> _].
  exists (a ++ [c])%list. rewrite <- app_assoc. reflexivity. Qed.

Lemma lex_definition_suffix : leaves_suffix lex_definition.
Proof.
  apply ls_bind; [apply control_sequence_suffix|]. intros cs. apply ls_get. intros s.
  destruct (split_once_char 123 s) as [[p r]|] eqn:E; [|apply suffix_refl].
  destruct (bad_param_char p); [apply suffix_refl|].
  apply ls_put; [eapply split_once_char_suffix; exact E|].
  apply ls_bind; [apply group_content_suffix|intros; apply ls_ret].
Qed.

Lemma futurelet_suffix : leaves_suffix futurelet_assignment.
Proof.
  apply ls_bind; [apply control_sequence_suffix|]. intros cs. apply ls_get. intros s.
  apply ls_bind; [apply lex_token_suffix|]. intros _.
  apply ls_bind; [apply lex_token_suffix|]. intros; apply ls_ret.
Qed.

Lemma futurelet_before : forall s cs t b r, futurelet_assignment s = (Ok (cs, t, b), r) -> suffix b s.
Proof.
  intros s cs t b r H. unfold futurelet_assignment, bind in H.
  pose proof (control_sequence_suffix s) as Hs.
  destruct (control_sequence s) as [[x|?|?|] s1]; try discriminate. cbn in H.
  destruct (lex_token s1) as [[?|?|?|] s2]; try discriminate.
  destruct (lex_token s2) as [[?|?|?|] s3]; try discriminate. cbn in H. injection H as <- <- <- <-. exact Hs.
Qed.

Lemma let_suffix : leaves_suffix let_assignment.
Proof.
  apply ls_bind; [apply control_sequence_suffix|]. intros cs. apply ls_get. intros s.
  assert (L : leaves_suffix (do t <- lex_token ; ret (cs, t)))
    by (apply ls_bind; [apply lex_token_suffix|intros; apply ls_ret]).
  destruct (strip_char 61 (trim_start s)) eqn:E.
  - apply ls_put; [eapply suffix_strip_trim; exact E|exact L].
  - apply L.
Qed.

Lemma limit_loop_suffix : forall f o s, suffix (snd (limit_loop f o s)) s.
Proof.
  induction f as [|f IH]; intros o s; cbn [limit_loop]; [apply suffix_refl|].
  destruct (strip_prefix (lit "\limits") (trim_start s)) eqn:E.
  - eapply suffix_trans; [apply IH|]. eapply suffix_trans; [eapply suffix_strip_prefix; exact E|apply suffix_trim].
  - destruct (strip_prefix (lit "\nolimits") (trim_start s)) eqn:E2; [|apply suffix_refl].
    eapply suffix_trans; [apply IH|]. eapply suffix_trans; [eapply suffix_strip_prefix; exact E2|apply suffix_trim].
Qed.

Lemma limit_modifiers_suffix : leaves_suffix limit_modifiers.
Proof.
  intros s. unfold limit_modifiers. pose proof (limit_loop_suffix (S (length s)) None s).
  destruct (limit_loop _ _ _). exact H.
Qed.

Lemma hlines_loop_suffix : forall f s, suffix (snd (hlines_loop f s)) s.
Proof.
  induction f as [|f IH]; intros s; cbn [hlines_loop]; [apply suffix_refl|].
  destruct (strip_prefix (lit "\hline") (trim_start s)) eqn:E.
  - specialize (IH s0). destruct (hlines_loop f s0). cbn [snd] in *.
    eapply suffix_trans; [exact IH|]. eapply suffix_trans; [eapply suffix_strip_prefix; exact E|apply suffix_trim].
  - destruct (strip_prefix (lit "\hdashline") (trim_start s)) eqn:E2; [|apply suffix_refl].
    specialize (IH s0). destruct (hlines_loop f s0). cbn [snd] in *.
    eapply suffix_trans; [exact IH|]. eapply suffix_trans; [eapply suffix_strip_prefix; exact E2|apply suffix_trim].
Qed.

Lemma horizontal_lines_suffix : leaves_suffix horizontal_lines.
Proof.
  intros s. unfold horizontal_lines. pose proof (hlines_loop_suffix (S (length s)) s).
  destruct (hlines_loop _ _). exact H.
Qed.

Lemma one_optional_space_suffix : leaves_suffix one_optional_space.
Proof.
  intros s. destruct s as [|c s]; [apply suffix_refl|]. cbn [one_optional_space].
  destruct (is_ws c); [|apply suffix_refl].
  destruct (clen c =? 1); [apply suffix_cons|]; apply suffix_refl.
Qed.

Lemma number_run_suffix : forall f v b, leaves_suffix (number_run f v b).
Proof.
  intros f v b s. unfold number_run. destruct (span_while f s) as [ds r] eqn:E. apply suffix_span in E.
  destruct (fold_digits b 0 (map v ds)); [|exact E].
  eapply suffix_trans; [|exact E]. apply ls_bind; [apply one_optional_space_suffix|intros; apply ls_ret].
Qed.

Lemma unsigned_integer_suffix : leaves_suffix unsigned_integer.
Proof.
  intros s. destruct s as [|c s]; [apply suffix_refl|]. cbn [unsigned_integer].
  destruct (is_digit c); [apply number_run_suffix|].
  destruct (negb (clen c =? 1)); [apply suffix_refl|].
  destruct (c =? 96).
  { destruct s as [|b s]; [apply suffix_cons, suffix_refl|]. destruct (b =? 92).
    - destruct s as [|b' s]; [do 2 apply suffix_cons; apply suffix_refl|].
      destruct (b' <? 128); cbn; repeat (apply suffix_refl || apply suffix_cons).
    - destruct (b <? 128); cbn; repeat (apply suffix_refl || apply suffix_cons). }
  destruct (c =? 39); [apply suffix_cons, number_run_suffix|].
  destruct (c =? 34); [apply suffix_cons, number_run_suffix|]. apply suffix_cons, suffix_refl.
Qed.

Lemma signs_suffix : leaves_suffix signs.
Proof.
  intros s. unfold signs. destruct (span_while is_sign s) eqn:E. cbn.
  eapply suffix_trans; [apply suffix_trim|eapply suffix_span; exact E].
Qed.

Lemma floating_point_suffix : leaves_suffix floating_point.
Proof.
  apply ls_bind; [apply signs_suffix|]. intros neg. apply ls_get. intros s.
  destruct (span_while is_digit s) as [ds r] eqn:E. apply suffix_span in E.
  destruct r as [|c r]; [apply suffix_nil|].
  destruct ((c =? 46) || (c =? 44)); [|exact E].
  destruct (span_while is_digit r) as [fs r2] eqn:E2. cbn.
  eapply suffix_trans; [|exact E]. apply suffix_cons. eapply suffix_span. exact E2.
Qed.

Lemma dimension_unit_suffix : leaves_suffix dimension_unit.
Proof.
  intros s. unfold dimension_unit. pose proof (suffix_trim s) as Ht.
  destruct (trim_start s) as [|a [|b r]]; try exact Ht.
  destruct (assoc_str [a; b] unit_table); [|exact Ht].
  eapply suffix_trans; [|exact Ht]. do 2 apply suffix_cons.
  apply ls_bind; [apply one_optional_space_suffix|intros; apply ls_ret].
Qed.

Lemma lex_dimension_suffix : leaves_suffix lex_dimension.
Proof.
  apply ls_bind; [apply floating_point_suffix|]. intros v.
  apply ls_bind; [apply dimension_unit_suffix|]. intros; apply ls_ret.
Qed.

Lemma glue_part_suffix : forall kw, leaves_suffix (glue_part kw).
Proof.
  intros kw. apply ls_get. intros s. destruct (strip_prefix kw (trim_start s)) eqn:E; [|apply suffix_refl].
  apply ls_put.
  - eapply suffix_trans; [eapply suffix_strip_prefix; exact E|apply suffix_trim].
  - apply ls_bind; [apply lex_dimension_suffix|intros; apply ls_ret].
Qed.

Lemma lex_glue_suffix : leaves_suffix lex_glue.
Proof.
  apply ls_bind; [apply lex_dimension_suffix|]. intros d.
  apply ls_bind; [apply glue_part_suffix|]. intros p.
  apply ls_bind; [apply glue_part_suffix|]. intros; apply ls_ret.
Qed.

Lemma run_on_state : forall A (l : lexer A) t s, snd (run_on l t s) = s.
Proof. intros. unfold run_on. destruct (l t) as [[?|?|?|] ?]; reflexivity. Qed.

Lemma or_braced_suffix : forall A (l : lexer A), leaves_suffix l -> leaves_suffix (or_braced l).
Proof.
  intros A l Hl. apply ls_get. intros s. destruct (strip_char 123 (trim_start s)); [|apply Hl].
  apply ls_bind; [apply brace_argument_suffix|]. intros t.
  apply ls_bind; [intros s'; rewrite run_on_state; apply suffix_refl|].
  intros r. destruct (is_nil (trim_start (snd r))); [apply ls_ret|apply ls_fail].
Qed.

Lemma dimension_or_braced_suffix : leaves_suffix dimension_or_braced.
Proof. apply or_braced_suffix, lex_dimension_suffix. Qed.
Lemma glue_or_braced_suffix : leaves_suffix glue_or_braced.
Proof. apply or_braced_suffix, lex_glue_suffix. Qed.

(** ** Arguments *)

Lemma lex_argument_group : forall s g r, lex_argument s = (Ok (AGroup g), r) ->
  exists w, forallb is_ws w = true /\ s = (w ++ 123 :: g ++ 125 :: r)%list /\ balanced 123 125 g.
Proof.
  intros s g r H. unfold lex_argument in H. destruct (strip_char 123 (trim_start s)) eqn:E.
  - unfold bind in H. destruct (group_content GKNormal s0) as [[a|?|?|] r0] eqn:Eg; try discriminate.
    cbn in H. injection H as -> ->.
    apply (group_content_balanced GKNormal 123 125) in Eg; [|left; auto]. destruct Eg as [-> Hb].
    apply strip_char_some in E. destruct (trim_start_suffix s) as (w & Hw & Hf).
    exists w. rewrite E in Hw. auto.
  - unfold bind in H. destruct (lex_token s) as [[a|?|?|] r0]; discriminate.
Qed.

Lemma lex_argument_token : forall s t r, lex_argument s = (Ok (AToken t), r) ->
  lex_token s = (Ok t, r) /\ (forall x, trim_start s <> 123 :: x).
Proof.
  intros s t r H. unfold lex_argument in H. destruct (strip_char 123 (trim_start s)) eqn:E.
  - unfold bind in H. destruct (group_content GKNormal s0) as [[a|?|?|] r0]; discriminate.
  - unfold bind in H. destruct (lex_token s) as [[a|?|?|] r0] eqn:Et; try discriminate.
    cbn in H. injection H as -> ->. split; [reflexivity|]. intros x Hx. rewrite Hx in E. discriminate.
Qed.

Lemma optional_argument_some : forall s g r, optional_argument s = (Ok (Some g), r) ->
  exists w, forallb is_ws w = true /\ s = (w ++ 91 :: g ++ 93 :: r)%list /\ balanced 91 93 g.
Proof.
  intros s g r H. unfold optional_argument in H.
  destruct (strip_char 91 (trim_start s)) eqn:E; [|discriminate].
  destruct (group_content GKOptional s0) as [[a|?|?|] r0] eqn:Eg; try discriminate.
  injection H as -> ->. apply (group_content_balanced GKOptional 91 93) in Eg; [|right; auto].
  destruct Eg as [-> Hb]. apply strip_char_some in E. destruct (trim_start_suffix s) as (w & Hw & Hf).
  exists w. rewrite E in Hw. auto.
Qed.

Lemma brace_argument_ok : forall s g r, brace_argument s = (Ok g, r) ->
  exists w, forallb is_ws w = true /\ s = (w ++ 123 :: g ++ 125 :: r)%list /\ balanced 123 125 g.
Proof.
  intros s g r H. unfold brace_argument in H.
  destruct (strip_char 123 (trim_start s)) eqn:E; [|discriminate].
  apply (group_content_balanced GKNormal 123 125) in H; [|left; auto]. destruct H as [-> Hb].
  apply strip_char_some in E. destruct (trim_start_suffix s) as (w & Hw & Hf).
  exists w. rewrite E in Hw. auto.
Qed.
