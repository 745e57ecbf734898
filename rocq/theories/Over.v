(** * Over: texts made of some characters only stay so when they are cut up
    and stored in definitions. *)

From Coq Require Import List NArith ZArith Bool Lia Arith.
From Verif Require Import Base Float32 Event Tables Prim PrimTable Lex Macros Primitives SpecLex LexFacts LexMore PrimFacts.
Import ListNotations.
Open Scope N_scope.
Open Scope sm_scope.

Section Over.
  Variable P : char -> Prop.

  Definition over (s : str) : Prop := Forall P s.

Definition rep_over (rep : list rtoken) : Prop := Forall (fun t => match t with RStr s => over s | RParam _ => P 35 end) rep.
Definition tok_over (t : token) : Prop := match t with TCs cs => over cs | TChr c => over c /\ c <> [] end.

Definition defn_over (d : mdef) : Prop :=
  match d with
  | MDMacro _ ps _ rep => rep_over rep /\ (ps <> [] -> P 35)
  | MDAlias t => tok_over t
  | MDCommand _ d rep => match d with Some s => over s | None => True end /\ rep_over rep
  end.

(** ** Texts read by the lexers *)

Lemma over_app : forall a b, over (a ++ b) <-> over a /\ over b.
Proof. intros. apply Forall_app. Qed.
Lemma over_suffix : forall r s, suffix r s -> over s -> over r.
Proof. intros r s [p ->] H. apply over_app in H. apply H. Qed.
Lemma over_contains : forall t s, contains t s -> over s -> over t.
Proof. intros t s (p & q & ->) H. apply over_app in H as [_ H]. apply over_app in H. apply H. Qed.
Lemma over_sub : forall a b, sl_sub a b -> over (stxt b) -> over (stxt a).
Proof. intros a b H. apply over_contains. eapply contains_sub; [exact H|]. exists [], []. rewrite app_nil_r. reflexivity. Qed.

Lemma split_incl_over : forall c s, over s -> Forall over (split_incl c s).
Proof.
  induction s as [|x s IH]; intros H; [constructor|]. inversion H; subst. cbn [split_incl]. specialize (IH H3).
  destruct (x =? c); [constructor; [repeat constructor; assumption|exact IH]|].
  destruct (split_incl c s); [repeat constructor; assumption|]. inversion IH; subst. constructor; [constructor; assumption|assumption].
Qed.

Lemma removelast_over : forall s, over s -> over (removelast s).
Proof.
  induction s as [|x [|y s] IH]; intros H; [constructor|constructor|]. inversion H; subst.
  constructor; [assumption|]. apply IH. assumption.
Qed.

Lemma rep_loop_over : forall n rest cur l, over cur -> Forall over rest -> (rest <> [] -> P 35) -> rep_loop n cur rest = Ok l -> rep_over l.
Proof.
  intros n rest. induction rest as [rest IH] using (well_founded_induction
    (well_founded_ltof _ (@length str))). intros cur l Hc Hr H35 H. unfold ltof in IH.
  destruct rest as [|next rest']; cbn [rep_loop] in H.
  - destruct (is_nil cur); [injection H as <-; constructor|].
    destruct (ends_with_char 35 cur); [discriminate|]. injection H as <-. repeat constructor. exact Hc.
  - inversion Hr as [|? ? Hn Hr']; subst. destruct next as [|fc nt]; [discriminate|]. destruct (fc =? 35).
    + destruct rest' as [|n2 r2]; [injection H as <-; repeat constructor; exact Hc|]. inversion Hr'; subst.
      destruct (rep_loop n n2 r2) eqn:E; try discriminate. injection H as <-.
      constructor; [exact Hc|]. eapply IH; [|eassumption|eassumption| |exact E]; [cbn; lia|]. intros _. apply H35. discriminate.
    + destruct (is_digit fc); [|discriminate]. destruct (_ || _) eqn:Ei; [discriminate|].
      inversion Hn; subst. destruct (rep_loop n nt rest') eqn:E; try discriminate.
      apply IH in E; [|cbn; lia|assumption|assumption|intros _; apply H35; discriminate].
      assert (H35' : P 35) by (apply H35; discriminate).
      destruct (blen cur =? 1); injection H as <-; repeat (constructor; auto). apply removelast_over. exact Hc.
Qed.

Lemma split_incl_two : forall c s a b l, split_incl c s = a :: b :: l -> In c s.
Proof.
  induction s as [|x s IH]; intros a b l H; [discriminate|]. cbn [split_incl] in H. destruct (N.eqb_spec x c) as [->|_]; [left; reflexivity|].
  right. destruct (split_incl c s) as [|p ps]; [discriminate|]. injection H as <- ->. eapply IH. reflexivity.
Qed.

Lemma split_char_two : forall c s a b l, split_char c s = a :: b :: l -> In c s.
Proof.
  induction s as [|x s IH]; intros a b l H; [discriminate|]. cbn [split_char] in H. destruct (N.eqb_spec x c) as [->|_]; [left; reflexivity|].
  right. destruct (split_char c s) as [|p ps]; [discriminate|]. injection H as <- ->. eapply IH. reflexivity.
Qed.

Lemma over_in : forall c s, over s -> In c s -> P c.
Proof. intros c s H. apply Forall_forall. exact H. Qed.

Lemma replacement_over : forall s n l, over s -> parse_replacement s n = Ok l -> rep_over l.
Proof.
  intros s n l Hs H. unfold parse_replacement in H. pose proof (split_incl_over 35 s Hs) as Hp.
  destruct (split_incl 35 s) as [|a l'] eqn:E; [injection H as <-; constructor|]. inversion Hp; subst. eapply rep_loop_over; try eassumption.
  intros Hn. destruct l'; [contradiction|]. eapply over_in; [exact Hs|eapply split_incl_two; exact E].
Qed.

Lemma make_macro_over : forall a b d, over a -> over b -> make_macro a b = Ok d -> defn_over d.
Proof.
  intros a b d Ha Hb H. unfold make_macro in H. destruct (split_char 35 _) as [|p ps] eqn:Es; [discriminate|].
  destruct (parse_params 1 ps) as [params|?|?|] eqn:Ep; try discriminate.
  destruct (parse_replacement b _) as [r|?|?|] eqn:Er; try discriminate. injection H as <-.
  split; [eapply replacement_over; eassumption|]. intros Hn. destruct ps as [|q ps]; [injection Ep as <-; contradiction|].
  apply split_char_two in Es. eapply over_in; [|exact Es]. destruct (ends_with_char 35 a); [apply removelast_over|]; exact Ha.
Qed.

Lemma make_command_over : forall n d rep m, match d with Some s => over s | None => True end -> over rep ->
  make_command n d rep = Ok m -> defn_over m.
Proof.
  intros n d rep m Hd Hr H. unfold make_command in H. destruct (parse_replacement rep n) eqn:E; try discriminate.
  injection H as <-. split; [exact Hd|eapply replacement_over; eassumption].
Qed.

(** [l] gives [V] on valid text. *)
Definition lover {A} (l : lexer A) (V : A -> Prop) : Prop :=
  forall s, over s -> over (snd (l s)) /\ match fst (l s) with Ok a => V a | _ => True end.

Lemma lo_ret : forall A (a : A) (V : A -> Prop), V a -> lover (ret a) V.
Proof. intros A a V H s Hs. split; assumption. Qed.
Lemma lo_fail : forall A e (V : A -> Prop), lover (fail e) V.
Proof. intros A e V s Hs. split; [exact Hs|exact I]. Qed.
Lemma lo_panic : forall A e (V : A -> Prop), lover (panic_with e) V.
Proof. intros A e V s Hs. split; [exact Hs|exact I]. Qed.
Lemma lo_bind : forall A B (l : lexer A) (f : A -> lexer B) V W, lover l V -> (forall a, V a -> lover (f a) W) -> lover (bind l f) W.
Proof.
  intros A B l f V W Hl Hf s Hs. unfold bind. destruct (Hl s Hs) as [H1 H2]. destruct (l s) as [[a|e|p|] r]; cbn [fst snd] in *;
    try (split; [exact H1|exact I]). apply Hf; assumption.
Qed.
Lemma lo_get : lover get over.
Proof. intros s Hs. split; exact Hs. Qed.
Lemma lo_put : forall r, over r -> lover (put r) (fun _ => True).
Proof. intros r Hr s Hs. split; [exact Hr|exact I]. Qed.

Lemma group_over : forall k, lover (group_content k) over.
Proof.
  intros k s Hs. split; [eapply over_suffix; [apply group_content_suffix|exact Hs]|].
  destruct (group_content k s) as [[g|e|p|] r] eqn:E; try exact I. cbn.
  eapply over_contains; [|exact Hs]. apply group_content_text in E. rewrite E. exists [], (closing_str k ++ r)%list. reflexivity.
Qed.

Lemma token_over : lover lex_token tok_over.
Proof.
  intros s Hs. split; [eapply over_suffix; [apply lex_token_suffix|exact Hs]|].
  destruct (lex_token s) as [[[cs|ctx]|e|p|] r] eqn:E; try exact I; cbn [fst tok_over].
  - destruct (lex_token_cs _ _ _ E) as (b & w & _ & _ & _ & ->). apply over_app in Hs as [_ Hs]. inversion Hs; subst.
    apply over_app in H2. apply H2.
  - destruct (lex_token_chr _ _ _ E) as (b & c & _ & -> & E' & _). rewrite E' in Hs. apply over_app in Hs. split; [apply Hs|discriminate].
Qed.

Lemma strip_over : forall c s r, strip_char c s = Some r -> over s -> over r.
Proof. intros c s r H Hs. apply strip_char_some in H. subst. inversion Hs; assumption. Qed.

Definition arg_over (a : argument) : Prop := match a with AToken t => tok_over t | AGroup g => over g end.

Lemma trim_start_over : forall s, over s -> over (trim_start s).
Proof. intros s. apply over_suffix, suffix_trim. Qed.

Lemma argument_over : lover lex_argument arg_over.
Proof.
  intros s Hs. unfold lex_argument. destruct (strip_char 123 (trim_start s)) as [r|] eqn:E.
  - refine (lo_bind _ _ _ _ _ _ (group_over GKNormal) _ r _); [intros a Ha; apply lo_ret; exact Ha|].
    eapply strip_over; [exact E|apply trim_start_over; exact Hs].
  - refine (lo_bind _ _ _ _ _ _ token_over _ s Hs). intros a Ha. apply lo_ret. exact Ha.
Qed.

Lemma optional_over : lover optional_argument (fun o => match o with Some a => over a | None => True end).
Proof.
  intros s Hs. unfold optional_argument. destruct (strip_char 91 (trim_start s)) as [r|] eqn:E; [|split; [exact Hs|exact I]].
  assert (Hr : over r) by (eapply strip_over; [exact E|apply trim_start_over; exact Hs]).
  destruct (group_over GKOptional r Hr) as [H1 H2]. destruct (group_content GKOptional r) as [[g|e|p|] r']; split; try exact H1; auto.
Qed.

Lemma suffixed_over : forall suf, suf <> [] -> lover (content_with_suffix suf) over.
Proof.
  intros suf Hn s Hs. split; [eapply over_suffix; [apply content_with_suffix_suffix; exact Hn|exact Hs]|].
  destruct (content_with_suffix suf s) as [[g|e|p|] r] eqn:E; try exact I. cbn.
  apply content_with_suffix_iff in E; [|exact Hn]. apply delimited_text in E. rewrite E in Hs. apply over_app in Hs. apply Hs.
Qed.

Lemma ctx_char_over : forall s, over s -> s <> [] -> P (ctx_char s).
Proof. intros [|c s] H Hn; [contradiction|]. inversion H; assumption. Qed.

Lemma control_over : lover control_sequence over.
Proof.
  intros s Hs. split; [eapply over_suffix; [apply control_sequence_suffix|exact Hs]|].
  unfold control_sequence. destruct s as [|c s]; [exact I|]. destruct (c =? 92); [|exact I]. inversion Hs; subst.
  unfold rhs_control_sequence. destruct s as [|x s]; [exact I|]. destruct (is_alpha x); [|cbn; inversion H2; repeat constructor; assumption].
  destruct (span_while is_alpha (x :: s)) as [a b] eqn:E. destruct (span_while_spec _ _ _ _ E) as (E' & _). rewrite E' in H2. apply over_app in H2. apply H2.
Qed.

Lemma split_once_char_over : forall c s a b, split_once_char c s = Some (a, b) -> over s -> over a /\ over b.
Proof.
  intros c s. induction s as [|x s IH]; intros a b H Hs; cbn [split_once_char] in H; [discriminate|]. inversion Hs; subst.
  destruct (x =? c); [injection H as <- <-; split; [constructor|assumption]|].
  destruct (split_once_char c s) as [[a' b']|]; [|discriminate]. injection H as <- <-.
  destruct (IH a' b' eq_refl H3). split; [constructor|]; assumption.
Qed.

Lemma definition_over : lover lex_definition (fun d => over (snd (fst d)) /\ over (snd d)).
Proof.
  unfold lex_definition. eapply lo_bind; [apply control_over|]. intros cs _. eapply lo_bind; [apply lo_get|]. intros s Hs.
  destruct (split_once_char 123 s) as [[p r]|] eqn:E; [|apply lo_fail]. destruct (bad_param_char p); [apply lo_fail|].
  eapply lo_bind; [apply lo_put; eapply split_once_char_over; eassumption|]. intros _ _.
  eapply lo_bind; [apply group_over|]. intros g Hg. apply lo_ret. split; [|exact Hg]. eapply split_once_char_over in E; [|exact Hs]. apply E.
Qed.

Lemma let_over : lover let_assignment (fun d => tok_over (snd d)).
Proof.
  unfold let_assignment. eapply lo_bind; [apply control_over|]. intros cs _. eapply lo_bind; [apply lo_get|]. intros s Hs.
  eapply lo_bind with (V := fun _ => True).
  { destruct (strip_char 61 (trim_start s)) as [r|] eqn:E; [|apply lo_ret; exact I]. apply lo_put.
    eapply strip_over; [exact E|apply trim_start_over; exact Hs]. }
  intros _ _. eapply lo_bind; [apply token_over|]. intros t Ht. apply lo_ret. exact Ht.
Qed.

Lemma futurelet_over : lover futurelet_assignment (fun d => tok_over (snd (fst d))).
Proof.
  unfold futurelet_assignment. eapply lo_bind; [apply control_over|]. intros cs _. eapply lo_bind; [apply lo_get|]. intros s Hs.
  eapply lo_bind; [apply token_over|]. intros t Ht. eapply lo_bind; [apply token_over|]. intros t2 Ht2. apply lo_ret. exact Ht2.
Qed.

Lemma alias_over : forall t, tok_over t -> defn_over (alias t).
Proof. intros [cs|ctx] H; [exact H|]. destruct H as [H1 H2]. split; [repeat constructor; apply ctx_char_over; assumption|discriminate]. Qed.

End Over.
