(** * Measure: what a primitive can add to the work left, for any input and any
    nesting. *)

From Coq Require Import List NArith ZArith Bool Lia Arith.
From Verif Require Import Base Float32 Event Tables Prim PrimTable Lex Macros Primitives SpecLex LexFacts LexMore PrimFacts Keep.
Import ListNotations.
Open Scope nat_scope.
Open Scope sm_scope.

Definition iweight (i : instr) : nat :=
  match i with IEv _ => 1 | ISub s _ => 3 * slen s + 1 end.

Fixpoint weight (l : list instr) : nat :=
  match l with [] => 0 | i :: l' => iweight i + weight l' end.

Lemma weight_app : forall a b, weight (a ++ b) = weight a + weight b.
Proof. induction a as [|i a IH]; intros b; cbn [app weight]; [reflexivity|]. rewrite IH. lia. Qed.

(** [tri c w m Q E]: from a state with at most [c] characters to read and a
    buffer of weight at most [w], [m] does not run out of fuel; when it
    succeeds, [Q] holds of its result and of bounds for the new state; when it
    fails, three times the characters left plus the weight is at most [E]. *)
Definition bounded (c w : nat) (st : ist) : Prop := slen (i_content st) <= c /\ weight (i_buf st) <= w.

Definition tri {A} (c w : nat) (m : P A) (Q : A -> nat -> nat -> Prop) (E : nat) : Prop :=
  forall st, bounded c w st ->
    match m st with
    | (Ok a, st') => exists c' w', bounded c' w' st' /\ Q a c' w'
    | (Fuel, _) => False
    | (_, st') => exists c' w', bounded c' w' st' /\ 3 * c' + w' <= E
    end.

Lemma t_bind : forall A B c w (m : P A) (f : A -> P B) Q R E,
  tri c w m Q E -> (forall a c' w', Q a c' w' -> tri c' w' (f a) R E) -> tri c w (bind m f) R E.
Proof.
  intros A B c w m f Q R E Hm Hf st Hi. specialize (Hm st Hi). unfold bind.
  destruct (m st) as [[a|e|p|] st']; auto.
  destruct Hm as (c' & w' & H1 & H2). eapply Hf; eassumption.
Qed.

Lemma t_weaken : forall A c w (m : P A) (Q R : A -> nat -> nat -> Prop) E F,
  tri c w m Q E -> (forall a c' w', Q a c' w' -> R a c' w') -> E <= F -> tri c w m R F.
Proof.
  intros A c w m Q R E F H1 H2 H3 st Hi. specialize (H1 st Hi).
  destruct (m st) as [[a|e|p|] st']; auto; destruct H1 as (c' & w' & Hb & H1); exists c', w';
    split; auto; lia.
Qed.

Lemma t_conseq : forall A c w (m : P A) (Q R : A -> nat -> nat -> Prop) E,
  tri c w m Q E -> (forall a c' w', Q a c' w' -> R a c' w') -> tri c w m R E.
Proof. intros. eapply t_weaken; eauto. Qed.

Lemma t_raise : forall A c w (m : P A) (Q : A -> nat -> nat -> Prop) E F,
  tri c w m Q E -> E <= F -> tri c w m Q F.
Proof. intros. eapply t_weaken; eauto. Qed.

Lemma t_assoc : forall A B C c w (m : P A) (f : A -> P B) (g : B -> P C) Q E,
  tri c w (bind m (fun a => bind (f a) g)) Q E -> tri c w (bind (bind m f) g) Q E.
Proof.
  intros A B C c w m f g Q E H st Hb. specialize (H st Hb). unfold bind in *.
  destruct (m st) as [[?|?|?|] ?]; auto.
Qed.

Lemma t_ret : forall A c w (a : A) (Q : A -> nat -> nat -> Prop) E, Q a c w -> tri c w (ret a) Q E.
Proof. intros A c w a Q E H st Hi. cbn. eauto. Qed.

Lemma t_ret_eq : forall A c w (a : A) E, tri c w (ret a) (fun a' c' w' => a' = a /\ c' = c /\ w' = w) E.
Proof. intros. apply t_ret. auto. Qed.

Lemma t_fail : forall A c w e (Q : A -> nat -> nat -> Prop) E, 3 * c + w <= E -> tri c w (fail e) Q E.
Proof. intros A c w e Q E H st Hi. cbn. eauto. Qed.

Lemma t_panic : forall A c w e (Q : A -> nat -> nat -> Prop) E, 3 * c + w <= E -> tri c w (panic_with e) Q E.
Proof. intros A c w e Q E H st Hi. cbn. eauto. Qed.

Lemma t_fail_any : forall A c w e E, 3 * c + w <= E -> @tri A c w (fail e) (fun _ _ _ => False) E.
Proof. intros. apply t_fail. assumption. Qed.

Lemma t_panic_any : forall A c w e E, 3 * c + w <= E -> @tri A c w (panic_with e) (fun _ _ _ => False) E.
Proof. intros. apply t_panic. assumption. Qed.

(** Results of a pure kind: the state is as before. *)
Definition same {A} (c w : nat) (V : A -> Prop) (a : A) (c' w' : nat) : Prop := c' = c /\ w' = w /\ V a.

Lemma t_get : forall c w E, tri c w get (fun st c' w' => c' = c /\ w' = w /\ bounded c w st) E.
Proof. intros c w E st Hi. cbn. eauto 6. Qed.

Lemma t_lift : forall A c w (r : res A) E, r <> Fuel -> 3 * c + w <= E ->
  tri c w (lift r) (fun a c' w' => c' = c /\ w' = w /\ r = Ok a) E.
Proof. intros A c w r E Hr H st Hi. cbn. destruct r; eauto 6. Qed.

Lemma t_ok_or : forall A c w (o : option A) e E, 3 * c + w <= E ->
  tri c w (ok_or o e) (fun a c' w' => c' = c /\ w' = w /\ o = Some a) E.
Proof. intros A c w o e E H. destruct o; [apply t_ret; auto|apply t_fail; exact H]. Qed.

Definition no_fuel {A} (l : lexer A) : Prop := forall s, fst (l s) <> Fuel.

Lemma t_local : forall A c w (l : lexer A) t E, no_fuel l -> 3 * c + w <= E ->
  tri c w (on_local l t) (fun _ c' w' => c' = c /\ w' = w) E.
Proof.
  intros A c w l t E Hl H st Hi. specialize (Hl t). unfold on_local.
  destruct (l t) as [[?|?|?|] ?]; cbn in *; try congruence; eauto 6.
Qed.

Lemma t_modify : forall c w f E, (forall st, bounded c w st -> bounded c w (f st)) ->
  tri c w (modify f) (fun _ c' w' => c' = c /\ w' = w) E.
Proof. intros c w f E H st Hi. cbn. eauto 6. Qed.

Lemma t_set_content : forall c w sl E,
  tri c w (modify (set_content sl)) (fun _ c' w' => c' = slen sl /\ w' = w) E.
Proof.
  intros c w sl E st [H1 H2]. cbn. exists (slen sl), w. split; [|auto]. split; cbn; [lia|exact H2].
Qed.

Lemma t_push : forall c w l E, tri c w (push l) (fun _ c' w' => c' = c /\ w' = w + weight l) E.
Proof.
  intros c w l E st [H1 H2]. cbn. eexists c, (w + weight l). split; [|auto]. split; cbn; [exact H1|].
  rewrite weight_app. lia.
Qed.

Lemma t_push_ev : forall c w e E, tri c w (push_ev e) (fun _ c' w' => c' = c /\ w' = w + 1) E.
Proof. intros. eapply t_weaken; [apply t_push| |apply Nat.le_refl]. cbn. intros. lia. Qed.

Lemma t_argc : forall c w E, 3 * c + w <= E ->
  tri c w argc (fun a c' w' => w' = w /\
    match a with
    | SGroup g => slen g + c' + 2 <= c
    | SCs _ => c' + 2 <= c
    | SChr ctx => c' + 1 <= c /\ slen ctx = c' + 1
    end) E.
Proof.
  intros c w E HE st [Hc Hw]. destruct (argc_run st) as (r & sl & Er & H1 & H2). rewrite Er.
  assert (Hl := sl_sub_len _ _ H1).
  destruct r as [[g|cs|ctx]|e|p|]; cbn [sarg_spec] in H2; try contradiction.
  - exists (slen sl), w. split; [split; cbn; [lia|exact Hw]|]. split; [reflexivity|]. lia.
  - exists (slen sl), w. split; [split; cbn; [lia|exact Hw]|]. split; [reflexivity|]. lia.
  - destruct H2 as (H2 & H3 & x & H4 & _). exists (slen sl), w.
    split; [split; cbn; [lia|exact Hw]|]. split; [reflexivity|]. split; [lia|].
    unfold slen. rewrite H4. cbn. lia.
  - exists (slen sl), w. split; [split; cbn; [lia|exact Hw]|]. lia.
Qed.

Lemma t_groupc : forall c w k E, 3 * c + w <= E ->
  tri c w (groupc k) (fun g c' w' => w' = w /\ slen g + c' + 1 <= c) E.
Proof.
  intros c w k E HE st [Hc Hw]. destruct (groupc_run k st) as (r & sl & Er & H1 & H2). rewrite Er.
  assert (Hl := sl_sub_len _ _ H1).
  destruct r as [g|e|p|]; cbn [slice_res] in H2; try contradiction; exists (slen sl), w;
    (split; [split; cbn; [lia|exact Hw]|]); lia.
Qed.

Lemma t_bracec : forall c w E, 3 * c + w <= E ->
  tri c w bracec (fun g c' w' => w' = w /\ slen g + c' + 2 <= c) E.
Proof.
  intros c w E HE st [Hc Hw]. destruct (bracec_run st) as (r & sl & Er & H1 & H2). rewrite Er.
  assert (Hl := sl_sub_len _ _ H1).
  destruct r as [g|e|p|]; cbn [slice_res] in H2; try contradiction; exists (slen sl), w;
    (split; [split; cbn; [lia|exact Hw]|]); lia.
Qed.

Lemma t_optc : forall c w E, 3 * c + w <= E ->
  tri c w optc (fun o c' w' => w' = w /\ c' <= c /\ match o with Some g => slen g + c' + 2 <= c | None => True end) E.
Proof.
  intros c w E HE st [Hc Hw]. destruct (optc_run st) as (r & sl & Er & H1 & H2). rewrite Er.
  assert (Hl := sl_sub_len _ _ H1).
  destruct r as [[g|]|e|p|]; cbn [opt_slice_res] in H2; try contradiction; exists (slen sl), w;
    (split; [split; cbn; [lia|exact Hw]|]); lia.
Qed.

Lemma t_lexc : forall A c w (l : lexer A) E, leaves_suffix l -> no_fuel l -> 3 * c + w <= E ->
  tri c w (lexc l) (fun _ c' w' => w' = w /\ c' <= c) E.
Proof.
  intros A c w l E Hs Hf HE st [Hc Hw]. destruct (lexc_run A l Hs st) as (sl & Er & H1 & _). rewrite Er.
  assert (Hl := sl_sub_len _ _ H1). specialize (Hf (stxt (i_content st))).
  destruct (fst (l _)) as [a|e|p|]; try congruence; exists (slen sl), w;
    (split; [split; cbn; [lia|exact Hw]|]); lia.
Qed.

Lemma t_buf_len : forall c w E, tri c w buf_len (fun _ c' w' => c' = c /\ w' = w) E.
Proof. intros c w E st Hi. cbn. eauto 6. Qed.

Lemma t_split_off : forall c w n E,
  tri c w (split_off n) (fun l c' w' => c' = c /\ w' + weight l <= w) E.
Proof.
  intros c w n E st [Hc Hw]. cbn. rewrite <- (firstn_skipn n (i_buf st)), weight_app in Hw.
  exists c, (weight (firstn n (i_buf st))). split; [split; cbn; [exact Hc|lia]|]. lia.
Qed.

Lemma removelast_length : forall A (x : A) l, length (removelast (x :: l)) = length l.
Proof. intros A x l. revert x. induction l as [|y l IH]; intros x; [reflexivity|]. change (S (length (removelast (y :: l))) = S (length l)). now rewrite IH. Qed.

Lemma numeral_pos : forall h x r, is_digit x = true -> 1 <= length (numeral h (x :: r)).
Proof.
  intros h x r Hd. unfold numeral. destruct h; [cbn; lia|].
  destruct (_ || _) eqn:Ew; [|cbn; lia]. rewrite removelast_length.
  destruct (fst (span_while is_numeral r)); [|cbn; lia]. exfalso. cbn in Ew.
  apply orb_true_iff in Ew. rewrite !N.eqb_eq in Ew. destruct Ew as [-> | ->]; discriminate.
Qed.

(** [handle_char]: only a script character gives back what was read, and only
    outside an argument. *)
Lemma t_handle_char : forall (h : bool) c w ctx E M, stxt ctx <> [] ->
  c <= M -> slen ctx <= M + 1 -> 3 * c + w <= E ->
  forall st, bounded c w st -> (i_handling st = true -> h = true) -> (h = true -> i_handling st = true) ->
    match handle_char ctx st with
    | (Ok _, st') => exists c' w', bounded c' w' st' /\
        ((c' <= M /\ 3 * c' + w' <= 3 * M + w + 1) \/
         (h = false /\ i_content st' = ctx /\ c' = slen ctx /\ w' = w + 2 /\ i_skip st' = i_skip st /\
          (ctx_char (stxt ctx) = 95 \/ ctx_char (stxt ctx) = 94)%N))
    | (Fuel, _) => False
    | (_, st') => exists c' w', bounded c' w' st' /\ 3 * c' + w' <= E
    end.
Proof.
  intros h c w ctx E M Hne HM Hx HE st Hb Hh1 Hh2. unfold handle_char, bind at 1, get.
  destruct (_ =? 92)%N; [cbn; eauto|]. destruct (_ =? 37)%N; [cbn; eauto|].
  destruct ((_ =? 95) || _)%N eqn:Es.
  { destruct (i_handling st) eqn:Eh; [cbn; eauto|].
    destruct h; [specialize (Hh2 eq_refl); discriminate|].
    cbn. exists (slen ctx), (w + 2). split.
    - split; cbn; [lia|]. destruct Hb as [_ Hb]. rewrite !weight_app. cbn. lia.
    - right. apply orb_true_iff in Es. rewrite !N.eqb_eq in Es. auto 7. }
  destruct (_ =? 36)%N; [cbn; eauto|]. destruct (_ =? 35)%N; [cbn; eauto|].
  assert (Hpush : forall e c1 w1 s1, bounded c1 w1 s1 -> c1 <= M -> 3 * c1 + w1 <= 3 * M + w ->
    match push_ev e s1 with
    | (Ok _, st') => exists c' w', bounded c' w' st' /\
        ((c' <= M /\ 3 * c' + w' <= 3 * M + w + 1) \/
         (h = false /\ i_content st' = ctx /\ c' = slen ctx /\ w' = w + 2 /\ i_skip st' = i_skip st /\
          (ctx_char (stxt ctx) = 95 \/ ctx_char (stxt ctx) = 94)%N))
    | (Fuel, _) => False
    | (_, st') => exists c' w', bounded c' w' st' /\ 3 * c' + w' <= E
    end).
  { intros e c1 w1 s1 [H1 H2] H3 H4. cbn. exists c1, (w1 + 1). split; [|left; lia].
    split; cbn; [exact H1|]. rewrite weight_app. cbn. lia. }
  destruct (_ =? 38)%N.
  { destruct (i_align st) as [[n m]|]; [|cbn; eauto]. destruct (_ && _); [|cbn; eauto].
    unfold bind, modify. apply (Hpush _ c w); [exact Hb|lia|lia]. }
  destruct (_ =? 123)%N.
  { unfold bind. pose proof (t_groupc c w GKNormal E HE st Hb) as Hg.
    destruct (groupc GKNormal st) as [[g|e|p|] st']; auto.
    destruct Hg as (c' & w' & [H1 H2] & -> & H3). cbn. exists c', (w + 3 * slen g + 3). split.
    - split; cbn; [exact H1|]. rewrite weight_app. cbn. lia.
    - left. lia. }
  destruct (_ =? 125)%N; [cbn; eauto|].
  destruct (is_digit _) eqn:Ed.
  { unfold bind, modify. apply (Hpush _ M w); [|lia|lia]. split; [|apply Hb].
    cbn [i_content set_content]. unfold slen in *. cbn [stxt suffix_slice] in *. rewrite skipn_length.
    destruct (stxt ctx) as [|x r] eqn:Ec; [congruence|].
    pose proof (numeral_pos (i_handling st) x r Ed) as Hp. cbn [length] in *. lia. }
  apply (Hpush _ c w); [exact Hb|lia|lia].
Qed.

(** ** The lexers never run out of fuel *)

Lemma nf_ret : forall A (a : A), no_fuel (ret a).
Proof. intros A a s. cbn. congruence. Qed.
Lemma nf_fail : forall A e, @no_fuel A (fail e).
Proof. intros A e s. cbn. congruence. Qed.
Lemma nf_get : no_fuel get.
Proof. intros s. cbn. congruence. Qed.
Lemma nf_put : forall t, no_fuel (put t).
Proof. intros t s. cbn. congruence. Qed.
Lemma nf_bind : forall A B (m : lexer A) (f : A -> lexer B), no_fuel m -> (forall a, no_fuel (f a)) ->
  no_fuel (bind m f).
Proof.
  intros A B m f H1 H2 s. specialize (H1 s). unfold bind. destruct (m s) as [[?|?|?|] ?]; cbn in *; try congruence; apply H2.
Qed.

Lemma nf_token : no_fuel lex_token.
Proof. intros s H. pose proof (lex_token_no_panic s) as Hp. rewrite H in Hp. exact Hp. Qed.
Lemma nf_group : forall k, no_fuel (group_content k).
Proof. intros k s. unfold group_content. destruct (gscan _ _ _ _ _ _); cbn; congruence. Qed.
Lemma nf_cs : no_fuel control_sequence.
Proof.
  intros s. unfold control_sequence, rhs_control_sequence. destruct s as [|c s]; cbn; [congruence|].
  destruct (c =? 92)%N; cbn; [|congruence]. destruct s as [|d s]; cbn; [congruence|].
  destruct (is_alpha d); cbn; try congruence. destruct (span_while is_alpha s); cbn; congruence.
Qed.
Lemma nf_cws : forall suf, no_fuel (content_with_suffix suf).
Proof. intros suf s. unfold content_with_suffix. destruct (cscan _ _ _ _); cbn; congruence. Qed.
Lemma nf_space : no_fuel one_optional_space.
Proof.
  intros s. unfold one_optional_space. destruct s as [|c s]; cbn; [congruence|].
  destruct (is_ws c); [destruct (clen c =? 1)%N|]; cbn; congruence.
Qed.
Lemma nf_run : forall f v b, no_fuel (number_run f v b).
Proof.
  intros f v b s. unfold number_run. destruct (span_while f s) as [ds r].
  destruct (fold_digits _ _ _); [|cbn; congruence].
  apply (nf_bind _ _ one_optional_space (fun _ => ret n) nf_space (fun _ => nf_ret _ n)).
Qed.
Lemma nf_unsigned : no_fuel unsigned_integer.
Proof.
  intros s. unfold unsigned_integer. destruct s as [|c s]; [cbn; congruence|].
  destruct (is_digit c); [apply nf_run|]. destruct (negb _); [cbn; congruence|].
  destruct (c =? 96)%N.
  { destruct s as [|b s]; [cbn; congruence|]. destruct (b =? 92)%N.
    - destruct s as [|d s]; [cbn; congruence|]. destruct (d <? 128)%N; cbn; congruence.
    - destruct (b <? 128)%N; cbn; congruence. }
  destruct (c =? 39)%N; [apply nf_run|]. destruct (c =? 34)%N; [apply nf_run|cbn; congruence].
Qed.
Lemma nf_float : no_fuel floating_point.
Proof.
  unfold floating_point. apply nf_bind.
  { intros s. unfold signs. destruct (span_while _ _). cbn. congruence. }
  intros neg. apply nf_bind; [apply nf_get|]. intros s. destruct (span_while is_digit s) as [ds r].
  destruct r as [|c r]; [apply nf_bind; [apply nf_put|intros; apply nf_ret]|].
  destruct (_ || _); [|apply nf_bind; [apply nf_put|intros; apply nf_ret]].
  destruct (span_while is_digit r). apply nf_bind; [apply nf_put|intros; apply nf_ret].
Qed.
Lemma nf_unit : no_fuel dimension_unit.
Proof.
  intros s. unfold dimension_unit. destruct (trim_start s) as [|a [|b r]]; try (cbn; congruence).
  destruct (assoc_str _ _) as [u|]; [|cbn; congruence].
  apply (nf_bind _ _ one_optional_space (fun _ => ret u) nf_space (fun _ => nf_ret _ u)).
Qed.
Lemma nf_dimension : no_fuel lex_dimension.
Proof.
  unfold lex_dimension. apply nf_bind; [apply nf_float|]. intros v. apply nf_bind; [apply nf_unit|].
  intros. apply nf_ret.
Qed.
Lemma nf_glue_part : forall kw, no_fuel (glue_part kw).
Proof.
  intros kw. unfold glue_part. apply nf_bind; [apply nf_get|]. intros s. destruct (strip_prefix _ _); [|apply nf_ret].
  apply nf_bind; [apply nf_put|]. intros _. apply nf_bind; [apply nf_dimension|]. intros. apply nf_ret.
Qed.
Lemma nf_glue : no_fuel lex_glue.
Proof.
  unfold lex_glue. apply nf_bind; [apply nf_dimension|]. intros. apply nf_bind; [apply nf_glue_part|]. intros.
  apply nf_bind; [apply nf_glue_part|]. intros. apply nf_ret.
Qed.
Lemma nf_or_braced : forall A (l : lexer A), no_fuel l -> no_fuel (or_braced l).
Proof.
  intros A l Hl. unfold or_braced. apply nf_bind; [apply nf_get|]. intros s. destruct (strip_char _ _); [|exact Hl].
  apply nf_bind.
  { intros t. unfold brace_argument. destruct (strip_char _ _); [apply nf_group|cbn; congruence]. }
  intros inner. apply nf_bind.
  { intros t. unfold run_on. specialize (Hl inner). destruct (l inner) as [[?|?|?|] ?]; cbn in *; congruence. }
  intros r. destruct (is_nil _); [apply nf_ret|apply nf_fail].
Qed.
Lemma nf_dob : no_fuel dimension_or_braced. Proof. apply nf_or_braced, nf_dimension. Qed.
Lemma nf_gob : no_fuel glue_or_braced. Proof. apply nf_or_braced, nf_glue. Qed.
Lemma nf_limits : no_fuel limit_modifiers.
Proof. intros s. unfold limit_modifiers. destruct (limit_loop _ _ _). cbn. congruence. Qed.
Lemma nf_hlines : no_fuel horizontal_lines.
Proof. intros s. unfold horizontal_lines. destruct (hlines_loop _ _). cbn. congruence. Qed.
Lemma nf_delim : no_fuel lex_delimiter.
Proof.
  unfold lex_delimiter. apply nf_bind; [apply nf_token|]. intros t. destruct (token_to_delim t); [apply nf_ret|apply nf_fail].
Qed.
Lemma nf_definition : no_fuel lex_definition.
Proof.
  unfold lex_definition. apply nf_bind; [apply nf_cs|]. intros cs. apply nf_bind; [apply nf_get|]. intros s.
  destruct (split_once_char _ _) as [[a b]|]; [|apply nf_fail]. destruct (bad_param_char a); [apply nf_fail|].
  apply nf_bind; [apply nf_put|]. intros _. apply nf_bind; [apply nf_group|]. intros. apply nf_ret.
Qed.
Lemma nf_futurelet : no_fuel futurelet_assignment.
Proof.
  unfold futurelet_assignment. apply nf_bind; [apply nf_cs|]. intros cs. apply nf_bind; [apply nf_get|]. intros s.
  apply nf_bind; [apply nf_token|]. intros _. apply nf_bind; [apply nf_token|]. intros. apply nf_ret.
Qed.
Lemma nf_let : no_fuel let_assignment.
Proof.
  unfold let_assignment. apply nf_bind; [apply nf_cs|]. intros cs. apply nf_bind; [apply nf_get|]. intros s.
  apply nf_bind; [destruct (strip_char _ _); [apply nf_put|apply nf_ret]|]. intros _.
  apply nf_bind; [apply nf_token|]. intros. apply nf_ret.
Qed.

#[export] Hint Resolve nf_delim nf_definition nf_futurelet nf_let nf_limits nf_hlines nf_unsigned nf_dob nf_gob
  nf_glue nf_dimension nf_cs nf_cws : lexnf.
#[export] Hint Resolve over_ne content_with_suffix_suffix : lexsuf.

Definition acost (a : sarg) : nat :=
  match a with SGroup g => 3 * slen g + 3 | SCs _ => 5 | SChr _ => 1 end.

Section Prims.
  Variable N : nat.
  Variable rec : str -> P unit.
  Hypothesis Hrec : forall cs c w, c < N ->
    tri c w (rec cs) (fun _ c' w' => c' <= c /\ 3 * c' + w' <= 3 * c + w + 5) (3 * c + w + 5).

  Definition aok (M : nat) (a : sarg) : Prop :=
    match a with
    | SGroup _ => True
    | SCs _ => M < N
    | SChr ctx => slen ctx <= M + 1 /\ stxt ctx <> []
    end.

  Lemma t_handle_arg : forall a M c w E, aok M a -> c <= M -> 3 * M + w + acost a <= E ->
    tri c w (handle_arg rec a) (fun _ c' w' => c' <= M /\ 3 * c' + w' <= 3 * M + w + acost a) E.
  Proof.
    intros a M c w E Ha HM HE. destruct a as [g|cs|ctx]; cbn [handle_arg aok acost] in *.
    - eapply t_weaken; [apply t_push| |apply Nat.le_refl]. cbn. intros _ ? ? (-> & ->). lia.
    - eapply t_bind; [apply t_modify; intros s' [H1 H2]; split; assumption|]. intros _ ? ? (-> & ->).
      eapply t_weaken; [apply Hrec; lia| |lia]. cbn. intros. lia.
    - intros st Hb. unfold bind, modify.
      pose proof (t_handle_char true c w ctx E M (proj2 Ha) HM (proj1 Ha) ltac:(lia)
        (set_handling true st) Hb ltac:(auto) ltac:(auto)) as H.
      destruct (handle_char ctx (set_handling true st)) as [[[]|e|p|] st']; auto.
      destruct H as (c' & w' & H1 & [H2|(H2 & _)]); [|discriminate]. eauto.
  Qed.

  Lemma argc_aok : forall a c c' (w w' : nat), c <= N ->
    w' = w /\ match a with
    | SGroup g => slen g + c' + 2 <= c
    | SCs _ => c' + 2 <= c
    | SChr ctx => c' + 1 <= c /\ slen ctx = c' + 1
    end -> w' = w /\ aok c' a /\ 3 * c' + acost a + 1 <= 3 * c /\ c' + 1 <= c /\
      match a with
      | SGroup g => slen g + c' + 2 <= c
      | SCs _ => c' + 2 <= c
      | SChr ctx => c' + 1 <= c /\ slen ctx = c' + 1 /\ stxt ctx <> []
      end.
  Proof.
    intros a c c' w w' Hc [-> H]. destruct a as [g|cs|ctx]; cbn; try lia.
    destruct H as [H1 H2].
    assert (stxt ctx <> []) by (unfold slen in H2; destruct (stxt ctx); cbn in *; [lia|congruence]).
    repeat split; auto; lia.
  Qed.

  Lemma t_argc' : forall c w E, c <= N -> 3 * c + w <= E ->
    tri c w argc (fun a c' w' => w' = w /\ aok c' a /\ 3 * c' + acost a + 1 <= 3 * c /\ c' + 1 <= c /\
      match a with
      | SGroup g => slen g + c' + 2 <= c
      | SCs _ => c' + 2 <= c
      | SChr ctx => c' + 1 <= c /\ slen ctx = c' + 1 /\ stxt ctx <> []
      end) E.
  Proof.
    intros c w E Hc HE. eapply t_weaken; [apply t_argc; exact HE| |apply Nat.le_refl].
    intros a c' w' H. eapply argc_aok; eassumption.
  Qed.
End Prims.

Ltac tintro :=
  intros; cbv beta in *; repeat match goal with
  | H : _ /\ _ |- _ => destruct H
  | H : True |- _ => clear H
  | H : ?x = _ |- _ => is_var x; subst x
  | H : _ = ?x |- _ => is_var x; subst x
  end; cbn [fst snd acost weight iweight group_instrs] in *.

(** A command whose postcondition is still unknown. *)
Ltac tprim N rec Hrec :=
  lazymatch goal with
  | |- tri _ _ (ret _) _ _ => apply t_ret_eq
  | |- tri _ _ (fail _) _ _ => apply t_fail_any
  | |- tri _ _ (panic_with _) _ _ => apply t_panic_any
  | |- tri _ _ get _ _ => apply t_get
  | |- tri _ _ (lift _) _ _ => apply t_lift; [auto with lexnf|]
  | |- tri _ _ (ok_or _ _) _ _ => apply t_ok_or
  | |- tri _ _ (on_local _ _) _ _ => apply t_local; [auto with lexnf|]
  | |- tri _ _ (lexc _) _ _ => apply t_lexc; [auto with lexsuf|auto with lexnf|]
  | |- tri _ _ (push_ev _) _ _ => apply t_push_ev
  | |- tri _ _ (push _) _ _ => apply t_push
  | |- tri _ _ argc _ _ => apply (t_argc' N)
  | |- tri _ _ (groupc _) _ _ => apply t_groupc
  | |- tri _ _ bracec _ _ => apply t_bracec
  | |- tri _ _ optc _ _ => apply t_optc
  | |- tri _ _ (handle_arg _ (SGroup _)) _ _ => cbn [handle_arg]; apply t_push
  | |- tri _ _ (handle_arg _ _) _ _ =>
      eapply (t_handle_arg N rec Hrec); [first [eassumption|exact I]|apply Nat.le_refl|cbn [acost]]
  | |- tri _ _ (split_off _) _ _ => apply t_split_off
  | |- tri _ _ buf_len _ _ => apply t_buf_len
  | |- tri _ _ (modify (set_content _)) _ _ => apply t_set_content
  | |- tri _ _ (modify _) _ _ => apply t_modify; intros ? [? ?]; split; assumption
  end; try lia.

(** One step. *)
Ltac tstep N rec Hrec :=
  lazymatch goal with
  | |- tri _ _ (bind (bind _ _) _) _ _ => apply t_assoc
  | |- tri _ _ (bind (match ?x with _ => _ end) _) _ _ => destruct x eqn:?; tintro
  | |- tri _ _ (bind _ _) _ _ => eapply t_bind; [tprim N rec Hrec|tintro]
  | |- tri _ _ (match ?x with _ => _ end) _ _ => destruct x eqn:?; tintro
  | |- tri _ _ (ret _) _ _ => apply t_ret; try lia
  | |- tri _ _ (fail _) _ _ => apply t_fail; try lia
  | |- tri _ _ (panic_with _) _ _ => apply t_panic; try lia
  | |- tri _ _ _ _ _ => eapply t_conseq; [tprim N rec Hrec|tintro; try lia]
  end.

Lemma nf_array_columns : forall s n, array_columns n s <> Fuel.
Proof.
  induction s as [|c s IH]; intros n; cbn [array_columns]; [congruence|].
  destruct (_ <=? _)%N; [congruence|].
  match goal with |- match ?x with _ => _ end <> _ => destruct x as [[col n']|]; [|congruence] end.
  specialize (IH n'). destruct (array_columns n' s) as [[? ?]|?|?|]; congruence.
Qed.

Lemma nf_color : forall s, lex_color s <> Fuel.
Proof.
  intros s. unfold lex_color. destruct (strip_char 35 s) as [h|].
  - destruct (_ =? _)%N; [|congruence]. destruct (split_bytes 2 h) as [[a h1]|]; [|congruence].
    destruct (u8_from_hex a); [|congruence]. destruct (split_bytes 2 h1) as [[b h2]|]; [|congruence].
    destruct (u8_from_hex b); [|congruence]. destruct (u8_from_hex h2); congruence.
  - destruct (dvipsnames_color s); congruence.
Qed.

Lemma nf_rep : forall rest cur n, rep_loop n cur rest <> Fuel.
Proof.
  intros rest. remember (length rest) as k eqn:Ek. assert (Hk : length rest <= k) by lia. clear Ek.
  revert rest Hk. induction k as [|k IH]; intros [|x rest] Hk cur n; cbn [rep_loop]; cbn in Hk;
    try (destruct (is_nil cur); [congruence|]; destruct (ends_with_char 35 cur); congruence); try lia.
  destruct x as [|fc nt]; [congruence|]. destruct (fc =? 35)%N.
  - destruct rest as [|n2 rest]; [congruence|]. cbn in Hk. specialize (IH rest ltac:(lia) n2 n).
    destruct (rep_loop n n2 rest); congruence.
  - destruct (is_digit fc); [|congruence]. destruct (_ || _); [congruence|].
    specialize (IH rest ltac:(lia) nt n). destruct (rep_loop n nt rest); try congruence.
    destruct (_ =? _)%N; congruence.
Qed.

Lemma nf_replacement : forall s n, parse_replacement s n <> Fuel.
Proof. intros s n. unfold parse_replacement. destruct (split_incl 35 s); [congruence|apply nf_rep]. Qed.

Lemma nf_params : forall l i, parse_params i l <> Fuel.
Proof.
  induction l as [|p l IH]; intros i; cbn [parse_params]; [congruence|].
  destruct p as [|c suf]; [congruence|]. destruct (is_digit c); [|congruence].
  destruct (_ =? _)%N; [|congruence]. specialize (IH (i + 1)%N). destruct (parse_params (i + 1)%N l); congruence.
Qed.

Lemma nf_make_macro : forall a b, make_macro a b <> Fuel.
Proof.
  intros a b. unfold make_macro. destruct (split_char _ _) as [|p ps]; [congruence|].
  pose proof (nf_params ps 1%N). destruct (parse_params 1%N ps) as [l|?|?|]; try congruence.
  pose proof (nf_replacement b (N.of_nat (length l))). destruct (parse_replacement b _); congruence.
Qed.

Lemma nf_make_command : forall n d r, make_command n d r <> Fuel.
Proof.
  intros n d r. unfold make_command. pose proof (nf_replacement r n). destruct (parse_replacement r n); congruence.
Qed.

Lemma nf_arg_slice : forall c, fst (arg_slice c) <> Fuel.
Proof.
  intros c H. pose proof (arg_slice_spec c) as Hs. destruct (arg_slice c) as [r sl]. cbn in H. subst r.
  destruct Hs as [_ []].
Qed.

#[export] Hint Resolve nf_array_columns nf_color nf_make_macro nf_make_command nf_arg_slice : lexnf.

Section Body.
  Variable N : nat.
  Variable rec : str -> P unit.
  Hypothesis Hrec : forall cs c w, c < N ->
    tri c w (rec cs) (fun _ c' w' => c' <= c /\ 3 * c' + w' <= 3 * c + w + 5) (3 * c + w + 5).

  Ltac ts := repeat tstep N rec Hrec.

  Definition within (c w : nat) : unit -> nat -> nat -> Prop :=
    fun _ c' w' => c' <= c /\ 3 * c' + w' <= 3 * c + w + 5.

  Lemma t_fraction_like : forall o d b s c w E, c <= N -> 3 * c + w + 5 <= E ->
    tri c w (fraction_like rec o d b s) (within c w) E.
  Proof.
    intros o d b s c w E Hc HE. unfold fraction_like, within.
    destruct (is_some o || is_some d), s; cbn [is_some orb]; ts; try lia.
  Qed.

  Lemma t_left_delim : forall c w E, 3 * c + w <= E ->
    tri c w left_delim (fun _ c' w' => c' <= c /\ w' = w) E.
  Proof.
    intros c w E HE. unfold left_delim. intros st Hb. unfold bind at 1, get.
    destruct (strip_char 46%N (stxt (i_content st))) as [r|] eqn:Er.
    - apply strip_char_some in Er. cbn. exists c, w. split; [|lia]. destruct Hb as [Hb Hw].
      split; [|exact Hw]. cbn. unfold slen in *. cbn. rewrite Er in Hb. cbn in Hb. lia.
    - revert st Hb Er. intros st Hb _. revert st Hb.
      match goal with |- forall st, bounded _ _ st -> match ?m st with _ => _ end =>
        change (tri c w m (fun _ c' w' => c' <= c /\ w' = w) E) end.
      ts.
  Qed.

  Lemma t_genfrac_delim : forall c w E, c <= N -> 3 * c + w <= E ->
    tri c w genfrac_delim (fun _ c' w' => c' <= c /\ w' = w) E.
  Proof. intros c w E Hc HE. unfold genfrac_delim. ts. Qed.

  Lemma t_environment : forall name c w E, c <= N -> 3 * c + w <= E ->
    tri c w (environment name) (fun _ c' w' => c' <= c /\ w' = w) E.
  Proof.
    intros name c w E Hc HE. unfold environment, array_environment, alignat_pairs, pair_count, group_arg, optional_alignment.
    ts.
  Qed.

  Lemma t_begin_env : forall c w, c <= N -> tri c w begin_env (within c w) (3 * c + w + 5).
  Proof.
    intros c w Hc. unfold begin_env, group_arg, within. ts.
    all: eapply t_bind; [apply t_environment; lia|tintro]; ts.
  Qed.

  Lemma t_font_group : forall f c w, c <= N -> tri c w (font_group rec f) (within c w) (3 * c + w + 5).
  Proof.
    intros f c w Hc. unfold font_group, within. tstep N rec Hrec. tstep N rec Hrec.
    destruct a as [g|cs|ctx]; tintro.
    - ts.
    - eapply t_bind; [eapply t_raise; [apply Hrec; lia|lia]|tintro]. ts.
    - eapply t_bind; [|tintro].
      + intros st Hb.
        pose proof (t_handle_char (i_handling st) c' (w + (1 + (1 + 0))) ctx (3 * c + w + 5) c' ltac:(assumption)
          ltac:(lia) ltac:(lia) ltac:(lia) st Hb ltac:(auto) ltac:(auto)) as HC.
        destruct (handle_char ctx st) as [[[]|e|p|] st']; auto.
        destruct HC as (c1 & w1 & Hb1 & HC). exists c1, w1. split; [exact Hb1|].
        instantiate (1 := fun _ c1 w1 => c1 <= c /\ 3 * c1 + w1 <= 3 * c + w + 4). cbv beta.
        destruct HC as [HC|(_ & _ & HC & HC' & _)]; lia.
      + ts.
  Qed.

  Lemma t_buildrel : forall c w, c <= N ->
    tri c w (do st <- get ;
      do oc <- lexc (content_with_suffix (lit "\over")) ;
      do st' <- get ;
      push_ev (EvScript STSup SPAboveBelow) ;;
      do n <- buf_len ;
      do over <- lift (fst (arg_slice (mid_slice (i_content st) oc 5 (stxt (i_content st'))))) ;
      handle_arg rec over ;;
      do evs <- split_off n ;
      do base <- argc ;
      handle_arg rec base ;;
      push evs) (within c w) (3 * c + w + 5).
  Proof.
    intros c w Hc st Hb. unfold bind at 1, get at 1. unfold bind at 1.
    destruct (lexc_run _ (content_with_suffix (lit "\over")) (content_with_suffix_suffix _ over_ne) st) as (sl & Er & H1 & H2).
    rewrite Er. pose proof (sl_sub_len _ _ H1) as Hl.
    destruct (content_with_suffix (lit "\over") (stxt (i_content st))) as [[oc|e|p|] r] eqn:El; cbn [fst snd] in *.
    - apply content_with_suffix_iff in El; [|exact over_ne]. apply delimited_text in El.
      assert (Hlen : length oc + 5 + length r <= c).
      { destruct Hb as [Hb _]. unfold slen in Hb. rewrite El, !app_length in Hb. cbn in Hb. lia. }
      assert (Hb' : bounded (length r) w (set_content sl st)).
      { split; [subst sl; cbn; unfold slen; cbn; lia|apply Hb]. }
      unfold bind at 1, get at 1.
      generalize (mid_slice (i_content st) oc 5 (stxt (i_content (set_content sl st)))) as mid,
        (eq_refl : stxt (mid_slice (i_content st) oc 5 (stxt (i_content (set_content sl st)))) = oc).
      intros mid Hmid. subst oc. generalize dependent (set_content sl st). intros s0 _ Hs0. revert s0 Hs0.
      match goal with |- forall s0, bounded _ _ s0 -> match ?m s0 with _ => _ end =>
        change (tri (length r) w m (within c w) (3 * c + w + 5)) end.
      unfold within. do 3 tstep N rec Hrec.
      pose proof (arg_slice_spec mid) as Hsp. destruct (arg_slice mid) as [ra sa]. cbn [fst] in *. subst ra.
      assert (Ha : exists M, aok N M a1 /\ length r <= M /\ 3 * M + acost a1 <= 3 * (length (stxt mid) + length r) + 5
        /\ M <= length (stxt mid) + length r).
      { destruct Hsp as [_ Hsp]. destruct a1 as [g|cs'|ctx]; cbn in Hsp |- *.
        - exists (length r). unfold slen in *. lia.
        - exists (length r). lia.
        - destruct Hsp as (Hs & _ & x & Hx & _). apply sl_sub_len in Hs. unfold slen in *.
          exists (length (stxt mid) + length r). split; [|lia]. split; [lia|]. rewrite Hx. discriminate. }
      destruct Ha as (M & Ha & HM1 & HM2 & HM3).
      eapply t_bind; [eapply (t_handle_arg N rec Hrec); [apply Ha|lia|lia]|tintro].
      ts.
    - exists (slen sl), w. split; [split; [cbn; lia|apply Hb]|destruct Hb; lia].
    - exists (slen sl), w. split; [split; [cbn; lia|apply Hb]|destruct Hb; lia].
    - pose proof (nf_cws (lit "\over") (stxt (i_content st))) as Hn. rewrite El in Hn. apply Hn. reflexivity.
  Qed.

  Lemma t_futurelet : forall c w,
    tri c w (do st0 <- get ;
      do d <- lexc futurelet_assignment ;
      modify (set_skip true) ;;
      modify (fun st => set_macros (ctx_insert (i_macros st) (fst (fst d)) (alias (snd (fst d)))) st) ;;
      modify (set_content (suffix_slice (i_content st0) (snd d)))) (within c w) (3 * c + w + 5).
  Proof.
    intros c w st Hb. unfold bind at 1, get at 1. unfold bind at 1.
    destruct (lexc_run _ _ futurelet_suffix st) as (sl & Er & H1 & H2).
    rewrite Er. pose proof (sl_sub_len _ _ H1) as Hl.
    pose proof (nf_futurelet (stxt (i_content st))) as Hn.
    destruct (futurelet_assignment (stxt (i_content st))) as [[[[cs t] b]|e|p|] r] eqn:El; cbn [fst snd] in *;
      try congruence.
    - apply futurelet_before in El. apply suffix_length in El. cbn. exists c, w. unfold within.
      split; [|lia]. destruct Hb as [Hb Hw]. split; [|exact Hw]. cbn. unfold slen in *. cbn. lia.
    - exists (slen sl), w. split; [split; [cbn; lia|apply Hb]|destruct Hb; lia].
    - exists (slen sl), w. split; [split; [cbn; lia|apply Hb]|destruct Hb; lia].
  Qed.

  Lemma t_hprim_body : forall cs c w, c <= N ->
    tri c w (hprim_body rec cs) (within c w) (3 * c + w + 5).
  Proof.
    intros cs c w Hc. unfold hprim_body.
    destruct (lookup_prim cs) eqn:EL; 
    unfold within, group_arg, sized_delim, atom_group, font_group, accent, underscript, text_argument,
      large_op, color_of, new_command;
    try solve [apply t_begin_env; exact Hc | apply t_font_group; exact Hc
              | apply t_fraction_like; [exact Hc|lia] | apply t_buildrel; exact Hc | apply t_futurelet].
    all: lazymatch goal with
         | H : _ = PLeft |- _ =>
             eapply t_bind; [apply t_left_delim; lia|tintro];
             tstep N rec Hrec; eapply t_bind; [apply t_left_delim; lia|tintro]; ts
         | H : _ = PGenfrac |- _ =>
             eapply t_bind; [apply t_genfrac_delim; lia|tintro];
             eapply t_bind; [apply t_genfrac_delim; lia|tintro]; ts;
             (eapply t_conseq; [apply t_fraction_like; lia|]; unfold within; tintro; lia)
         | H : _ = PNewline |- _ => unfold newline; ts
         | _ => ts
         end.
  Qed.
End Body.

Lemma t_hprim : forall fuel cs c w, c < fuel ->
  tri c w (hprim fuel cs) (fun _ c' w' => c' <= c /\ 3 * c' + w' <= 3 * c + w + 5) (3 * c + w + 5).
Proof.
  induction fuel as [|f IH]; intros cs c w Hc; [lia|].
  cbn [hprim]. apply (t_hprim_body f (hprim f)); [exact IH|lia].
Qed.
