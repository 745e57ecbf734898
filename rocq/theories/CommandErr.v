(** * CommandErr: the errors of [\newcommand] and its like. *)

From Coq Require Import List NArith ZArith Bool Lia Arith.
From Verif Require Import Base Float32 Event Tables Prim PrimTable Lex Macros Primitives Spans Parser
  SpecLex LexFacts LexMore PrimFacts Keep Measure Terminate KeepRun Api SpecNum LexNum SpecMacro MacroFacts Sim SimRun
  SpanFacts MacroRun Quiet Preamble LexPanic SpanRun SpecDefect MacroErr.
Import ListNotations.
Open Scope N_scope.

(** ** Numbers of parameters *)

Lemma dec_digits_iff : forall s acc n, acc < 256 -> dec_digits acc s = Some n <->
  digits s /\ fold_left (fun z c => (10 * z + (Z.of_N c - 48))%Z) s (Z.of_N acc) = Z.of_N n /\ n < 256.
Proof.
  assert (Hbig : forall s z, digits s -> (256 <= z)%Z -> (256 <= fold_left (fun z c => (10 * z + (Z.of_N c - 48))%Z) s z)%Z).
  { induction s as [|c s IH]; intros z Hs Hz; [exact Hz|]. inversion Hs as [|? ? Hc Hs']; subst. unfold digit in Hc. cbn [fold_left]. apply IH; [exact Hs'|lia]. }
  induction s as [|c s IH]; intros acc n Ha; cbn [dec_digits fold_left].
  - split; [intros H; injection H as <-; repeat split; [constructor|lia]|]. intros (_ & H & _). f_equal. lia.
  - destruct (is_digit c) eqn:Ed.
    + pose proof (proj1 (is_digit_iff c) Ed) as Hd. unfold digit_val. assert (E : (10 * Z.of_N acc + (Z.of_N c - 48))%Z = Z.of_N (acc * 10 + (c - 48))) by (unfold digit in Hd; lia).
      rewrite E. destruct (N.ltb_spec (acc * 10 + (c - 48)) 256) as [Hl|Hl].
      * rewrite IH by exact Hl. split; [intros (H1 & H2 & H3)|intros (H1 & H2 & H3)]; repeat split; try assumption; [constructor; assumption|inversion H1; assumption].
      * split; [discriminate|]. intros (H1 & H2 & H3). inversion H1; subst.
        assert (Hz : (256 <= Z.of_N (acc * 10 + (c - 48)))%Z) by lia. pose proof (Hbig s _ H5 Hz). lia.
    + split; [discriminate|]. intros (H1 & _). inversion H1 as [|? ? Hc ?]; subst. apply is_digit_iff in Hc. congruence.
Qed.

Lemma parse_u8_iff : forall t n, parse_u8 t = Some n <-> count t n.
Proof.
  intros t n. assert (Hd : forall ds, dec_digits 0 ds = Some n <-> digits ds /\ decimal_of ds = Z.of_N n /\ n < 256) by (intros ds; apply (dec_digits_iff ds 0 n); lia).
  destruct t as [|c t]; cbn [parse_u8].
  - split; [discriminate|]. intros H. inversion H; subst. congruence.
  - destruct (N.eqb_spec c 43) as [->|Hc].
    + destruct t as [|c t]; cbn [is_nil].
      * split; [discriminate|]. intros H. inversion H as [? ? ? Hg|? ? Hne]; subst; [|congruence]. inversion Hg as [|? ? Hx]; subst. unfold digit in Hx. lia.
      * rewrite Hd. split; [intros (H1 & H2 & H3); apply count_plus; [discriminate|assumption|assumption|lia]|].
        intros H. inversion H as [? ? ? Hg|? ? Hne H1 H2 H3]; subst; [|repeat split; try assumption; lia].
        inversion Hg as [|? ? Hx]; subst. unfold digit in Hx. lia.
    + rewrite Hd. split; [intros (H1 & H2 & H3); apply count_digits; [discriminate|assumption|assumption|lia]|].
      intros H. inversion H as [? ? ? H1 H2 H3|? ? ? ? ?]; subst; [repeat split; try assumption; lia|congruence].
Qed.

Lemma replacement_fault_err : forall n rep e, replacement_fault n rep e -> parse_replacement rep n = Err e.
Proof.
  assert (Hpre : forall n pre y e, replacement n pre -> parse_replacement y n = Err e -> (forall u, ~ In 35 u -> parse_replacement (u ++ y) n = Err e) ->
    forall u, ~ In 35 u -> parse_replacement (u ++ pre ++ y) n = Err e).
  { intros n pre y e H Hy Hyu. induction H as [|c rep Hc Hr IH|rep Hr IH|c i rep Hc Hi Hi9 Hr IH]; intros u Hu; cbn [app].
    - apply Hyu, Hu.
    - change (u ++ c :: rep ++ y) with (u ++ [c] ++ rep ++ y). rewrite app_assoc. apply IH. rewrite in_app_iff. cbn. intuition.
    - rewrite rep_two_hash by exact Hu. rewrite <- (app_nil_l (rep ++ y)), (IH [] ltac:(intros [])). reflexivity.
    - rewrite rep_digit; [|exact Hu|apply is_digit_iff; unfold digit; lia]. unfold digit_val.
      replace ((n <? c - 48) || (c - 48 =? 0)) with false by (symmetry; apply orb_false_intro; [apply N.ltb_ge|apply N.eqb_neq]; lia).
      rewrite <- (app_nil_l (rep ++ y)), (IH [] ltac:(intros [])). reflexivity. }
  intros n rep e [pre y Hr Hy|pre c i y Hr Hc Hi Hn].
  - assert (Ha : forall u, ~ In 35 u -> parse_replacement (u ++ 35 :: y) n = Err EStandaloneHashSign).
    { intros u Hu. destruct y as [|c y]; [apply rep_end_hash, Hu|]. cbn in Hy. apply rep_other; [exact Hu| |tauto].
      destruct (is_digit c) eqn:E; [|reflexivity]. apply is_digit_iff in E. tauto. }
    rewrite <- (app_nil_l (pre ++ _)). apply Hpre; [exact Hr|apply (Ha []); intros []|exact Ha|intros []].
  - assert (Ha : forall u, ~ In 35 u -> parse_replacement (u ++ 35 :: c :: y) n = Err (EIncorrectReplacementParams i n)).
    { intros u Hu. rewrite rep_digit; [|exact Hu|apply is_digit_iff; unfold digit; lia]. unfold digit_val. subst c. replace (48 + i - 48) with i by lia.
      replace ((n <? i) || (i =? 0)) with true; [reflexivity|]. symmetry. apply orb_true_iff. destruct Hn as [->|Hn]; [right; reflexivity|left; apply N.ltb_lt, Hn]. }
    rewrite <- (app_nil_l (pre ++ _)). apply Hpre; [exact Hr|apply (Ha []); intros []|exact Ha|intros []].
Qed.

(** ** Reading with errors *)

Definition fails {A} (m : P A) (st : ist) (x : error) : Prop := exists c, m st = (Err x, set_content c st).

Lemma fails_first : forall A B (m : P A) (f : A -> P B) st x, fails m st x -> fails (bind m f) st x.
Proof. intros A B m f st x [c H]. exists c. unfold bind. rewrite H. reflexivity. Qed.

Lemma fails_next : forall A B (m : P A) (f : A -> P B) st a c x, m st = (Ok a, set_content c st) -> fails (f a) (set_content c st) x -> fails (bind m f) st x.
Proof. intros A B m f st a c x H [c' H']. exists c'. unfold bind. rewrite H. exact H'. Qed.

Lemma fails_here : forall A st x, fails (fail x : P A) st x.
Proof. intros A st x. exists (i_content st). destruct st. reflexivity. Qed.

Lemma trim_whites : forall w s, Forall white w -> not_next white s -> trim_start (w ++ s) = s.
Proof.
  induction w as [|c w IH]; intros s Hw Hs.
  - destruct s as [|c s]; [reflexivity|]. cbn in Hs |- *. unfold white in Hs. destruct (is_ws c); [contradiction Hs; reflexivity|reflexivity].
  - inversion Hw as [|? ? Hc Hw']; subst. cbn [app trim_start]. unfold white in Hc. rewrite Hc. apply IH; assumption.
Qed.

Lemma strip_other : forall x s, not_next (eq x) s -> strip_char x s = None.
Proof. intros x [|c s] H; [reflexivity|]. cbn in H |- *. destruct (N.eqb_spec c x) as [->|]; [contradiction H; reflexivity|reflexivity]. Qed.

Lemma bracec_none : forall st w s, stxt (i_content st) = w ++ s -> Forall white w -> not_next (fun c => white c \/ c = 123) s ->
  fails bracec st EGroupArgument.
Proof.
  intros st w s H Hw Hs. unfold fails, bracec, brace_argument. rewrite H, trim_whites; [|exact Hw|destruct s; [exact I|cbn in Hs |- *; tauto]].
  rewrite strip_other; [eexists; reflexivity|]. destruct s; [exact I|]. cbn in Hs |- *. intuition.
Qed.

Lemma bracec_open : forall st r, stxt (i_content st) = 123 :: r -> (forall g r', balanced 123 125 g -> r <> g ++ 125 :: r') ->
  fails bracec st (EUnbalancedGroup (Some GKNormal)).
Proof.
  intros st r H Hr. unfold fails, bracec, brace_argument. rewrite H. cbn [trim_start]. change (is_ws 123) with false. cbn [strip_char]. change (123 =? 123) with true. cbv iota.
  destruct (group_content_cases GKNormal r) as [(a & r' & E)|(r' & E & _)]; rewrite E; [|eexists; reflexivity].
  apply (group_content_balanced GKNormal 123 125) in E as [E Hb]; [|left; auto]. exfalso. exact (Hr _ _ Hb E).
Qed.

Lemma optc_absent : forall st w s, stxt (i_content st) = w ++ s -> Forall white w -> not_next (fun c => white c \/ c = 91) s ->
  exists c, optc st = (Ok None, set_content c st) /\ stxt c = w ++ s.
Proof.
  intros st w s H Hw Hs. unfold optc, optional_argument. rewrite H, trim_whites; [|exact Hw|destruct s; [exact I|cbn in Hs |- *; tauto]].
  rewrite strip_other; [eexists; split; reflexivity|]. destruct s; [exact I|]. cbn in Hs |- *. intuition.
Qed.

Lemma optc_total : forall st, exists o c, optc st = (Ok o, set_content c st).
Proof.
  intros st. unfold optc, optional_argument. destruct (strip_char 91 _) as [r|]; [|eauto]. destruct (group_content GKOptional r) as [[a|?|?|] r']; eauto.
Qed.

(** The part of [new_command] after the name. *)
Definition after_name (sae : option bool) (exists_ : bool) (cs : str) : P unit :=
  do o <- optc ;
  do t <- ok_or o EArgument ;
  do n <- ok_or (parse_u8 (stxt t)) ENumber ;
  do default <- optc ;
  if (9 <? n) && ((if is_some default then 1 else 0) <=? n) then fail ETooManyParams
  else
    do rep <- bracec ;
    if exists_ && negb (is_some sae) then ret tt
    else
      do d <- lift (make_command n (option_map stxt default) (stxt rep)) ;
      modify (fun st => set_macros (ctx_insert (i_macros st) cs d) st).

Section Command.
  Variables (sae : option bool) (known : str -> Prop) (st : ist).
  Hypothesis Hknown : forall n, ctx_contains (i_macros st) n = true <-> known n.

  Lemma name_read : forall g r B (f : slice -> P B) x, stxt (i_content st) = 123 :: g ++ 125 :: r -> balanced 123 125 g ->
    (forall sl c, stxt sl = g -> stxt c = r -> fails (f sl) (set_content c st) x) -> fails (bind bracec f) st x.
  Proof.
    intros g r B f x H Hg Hf. destruct (bracec_run st [] g r H (Forall_nil _) Hg) as (sl & c & E & H1 & H2).
    eapply fails_next; [exact E|]. apply Hf; assumption.
  Qed.

  Lemma named_fails : forall g n r x, name_part g n -> stxt (i_content st) = 123 :: g ++ 125 :: r ->
    (may_define sae known n -> forall c, stxt c = r -> fails (after_name sae (ctx_contains (i_macros st) n) n) (set_content c st) x) ->
    (~ may_define sae known n -> x = match sae with Some true => EMacroNotDefined | _ => EMacroAlreadyDefined end) ->
    fails (new_command sae) st x.
  Proof.
    intros g n r x Hn Ht Hf Hx. destruct Hn as [s y -> Hn Hg]. unfold new_command. eapply name_read; [exact Ht|exact Hg|]. intros sl c Hsl Hc.
    eapply (fails_next _ _ _ _ _ (n, y) c). { unfold on_local. rewrite Hsl. unfold control_sequence. cbn [N.eqb Pos.eqb]. rewrite (rhs_cs_named _ _ _ Hn). reflexivity. }
    cbn [fst]. eapply (fails_next _ _ _ _ _ (set_content c st) c); [reflexivity|]. cbn [i_macros set_content]. cbv zeta.
    pose proof (Hknown n) as Hk. unfold may_define in *. destruct (ctx_contains (i_macros st) n) eqn:Ek.
    - assert (K : known n) by tauto. destruct sae as [[]|].
      + eapply (fails_next _ _ _ _ _ tt c); [reflexivity|]. apply Hf; assumption.
      + eapply fails_first. rewrite Hx by tauto. apply fails_here.
      + eapply (fails_next _ _ _ _ _ tt c); [reflexivity|]. apply Hf; [exact I|assumption].
    - assert (K : ~ known n) by (rewrite <- Hk; discriminate). destruct sae as [[]|].
      + eapply fails_first. rewrite Hx by exact K. apply fails_here.
      + eapply (fails_next _ _ _ _ _ tt c); [reflexivity|]. apply Hf; assumption.
      + eapply (fails_next _ _ _ _ _ tt c); [reflexivity|]. apply Hf; [exact I|assumption].
  Qed.

  (** After the name: the number of parameters and the default value. *)
  Lemma count_fails : forall b cs c w t k r x, stxt c = w ++ 91 :: t ++ 93 :: r -> Forall white w -> balanced 91 93 t -> count t k ->
    (forall c', stxt c' = r -> fails (do default <- optc ;
      if (9 <? k) && ((if is_some default then 1 else 0) <=? k) then fail ETooManyParams
      else
        do rep <- bracec ;
        if b && negb (is_some sae) then ret tt
        else
          do d <- lift (make_command k (option_map stxt default) (stxt rep)) ;
          modify (fun st => set_macros (ctx_insert (i_macros st) cs d) st)) (set_content c' st) x) ->
    fails (after_name sae b cs) (set_content c st) x.
  Proof.
    intros b cs c w t k r x Hc Hw Ht Hk H. unfold after_name. destruct (optc_run (set_content c st) w t r Hc Hw Ht) as (sl & c1 & E & H1 & H2).
    eapply fails_next; [exact E|]. eapply (fails_next _ _ _ _ _ sl c1); [reflexivity|]. rewrite H1.
    eapply (fails_next _ _ _ _ _ k c1). { apply parse_u8_iff in Hk. rewrite Hk. reflexivity. }
    apply H. exact H2.
  Qed.

  Lemma default_read : forall c w dflt w' y, stxt c = w ++ default_text dflt ++ w' ++ y -> Forall white w -> Forall white w' ->
    (forall d, dflt = Some d -> balanced 91 93 d) -> not_next (fun c => white c \/ c = 91) y ->
    exists o c', optc (set_content c st) = (Ok o, set_content c' st) /\ option_map stxt o = dflt /\ exists w2, Forall white w2 /\ stxt c' = w2 ++ y.
  Proof.
    intros c w dflt w' y Hc Hw Hw' Hd Hy. destruct dflt as [d|]; cbn [default_text] in Hc.
    - cbn [app] in Hc. rewrite <- app_assoc in Hc. cbn [app] in Hc.
      destruct (optc_run (set_content c st) w d _ Hc Hw (Hd _ eq_refl)) as (t2 & c3 & E & H1 & H2).
      exists (Some t2), c3. rewrite E. split; [reflexivity|]. split; [cbn; congruence|]. exists w'. auto.
    - cbn [app] in Hc. rewrite app_assoc in Hc.
      destruct (optc_absent (set_content c st) (w ++ w') y Hc ltac:(apply Forall_app; auto) Hy) as (c3 & E & H).
      exists None, c3. rewrite E. split; [reflexivity|]. split; [reflexivity|]. exists (w ++ w'). split; [apply Forall_app; auto|exact H].
  Qed.

  Theorem command_fails : forall s x, command_fault sae known s x -> stxt (i_content st) = s -> fails (new_command sae) st x.
  Proof.
    intros s x H Hs. destruct H.
    - unfold new_command. apply fails_first. apply (bracec_none st [] s); [exact Hs|constructor|assumption].
    - unfold new_command. apply fails_first. eapply bracec_open; [exact Hs|assumption].
    - unfold new_command. eapply (name_read []); [exact Hs|constructor|]. intros sl c Hsl Hc. apply fails_first.
      exists c. unfold on_local. rewrite Hsl. reflexivity.
    - unfold new_command. eapply (name_read (c :: g)); [exact Hs|assumption|]. intros sl c' Hsl Hc. apply fails_first.
      exists c'. unfold on_local. rewrite Hsl. cbn [control_sequence]. destruct (N.eqb_spec c 92); [contradiction|]. reflexivity.
    - eapply named_fails; [eassumption|exact Hs|rewrite H; cbn; tauto|rewrite H; reflexivity].
    - eapply named_fails; [eassumption|exact Hs|rewrite H; cbn; tauto|rewrite H; reflexivity].
    - eapply named_fails; [eassumption|exact Hs| |contradiction]. intros _ c Hc. unfold after_name.
      destruct (optc_absent (set_content c st) w r Hc) as (c1 & E & _); [assumption..|]. eapply fails_next; [exact E|]. apply fails_first. apply fails_here.
    - eapply named_fails; [eassumption|exact Hs| |contradiction]. intros _ c Hc. unfold after_name.
      destruct (optc_run (set_content c st) w t r Hc) as (sl & c1 & E & E1 & _); [assumption..|]. eapply fails_next; [exact E|].
      eapply (fails_next _ _ _ _ _ sl c1); [reflexivity|]. apply fails_first. rewrite E1. destruct (parse_u8 t) as [k|] eqn:Ek; [|apply fails_here].
      apply parse_u8_iff in Ek. exfalso. eapply H3; exact Ek.
    - eapply named_fails; [eassumption|exact Hs| |contradiction]. intros _ c Hc. eapply count_fails; [exact Hc|eassumption..|]. intros c' _.
      destruct (optc_total (set_content c' st)) as (o & c2 & E). eapply fails_next; [exact E|].
      replace (9 <? k) with true by (symmetry; apply N.ltb_lt; assumption). replace ((if is_some o then 1 else 0) <=? k) with true; [apply fails_here|].
      symmetry. apply N.leb_le. destruct o; cbn; lia.
    - eapply named_fails; [eassumption|exact Hs| |contradiction]. intros _ c Hc. eapply count_fails; [exact Hc|eassumption..|]. intros c' Hc'.
      edestruct default_read as (o & c2 & E & _ & w2 & Hw2 & E2); [exact Hc'|eassumption..| |]; [destruct r; [exact I|cbn in *; tauto]|].
      eapply fails_next; [exact E|]. replace (9 <? k) with false by (symmetry; apply N.ltb_ge; assumption). cbn [andb]. apply fails_first.
      eapply (bracec_none _ w2 r); [exact E2|exact Hw2|]. destruct r; [exact I|cbn in *; tauto].
    - eapply named_fails; [eassumption|exact Hs| |contradiction]. intros _ c Hc. eapply count_fails; [exact Hc|eassumption..|]. intros c' Hc'.
      edestruct default_read as (o & c2 & E & E' & w2 & Hw2 & E2); [exact Hc'|eassumption..| |]; [cbn; unfold white; intros [Hx|Hx]; discriminate|].
      eapply fails_next; [exact E|]. replace (9 <? k) with false by (symmetry; apply N.ltb_ge; assumption). cbn [andb].
      destruct (bracec_run (set_content c2 st) w2 rep r E2) as (rp & c4 & Eb & Erp & _); [assumption..|]. eapply fails_next; [exact Eb|].
      replace (ctx_contains (i_macros st) n && negb (is_some sae)) with false.
      + apply fails_first. exists c4. unfold lift, make_command. rewrite Erp, (replacement_fault_err _ _ _ H10). reflexivity.
      + symmetry. destruct sae as [?|]; [apply andb_false_r|]. rewrite andb_true_r. destruct (ctx_contains (i_macros st) n) eqn:Ek; [|reflexivity].
        apply Hknown in Ek. exfalso. apply H1; auto.
  Qed.
End Command.

Theorem command_fault_reported : forall e d b t sae s x, preamble [] e d (b ++ 92 :: t) -> blank b -> named t (command_name sae) s ->
  find (command_name sae) e = None -> command_fault sae (fun n => find n e <> None) s x ->
  shows (new_parser d) ([], EndError x) /\
  exists i pe q, run i (new_parser d) = ([ItError pe], OFuel, q) /\ pe_kind pe = x /\ represents e (p_macros q).
Proof.
  intros e d b t sae s x Hpre Hb Hn Hf H. eapply first_error; [exact Hpre|]. intros p c Hs Hbuf Hc Hm.
  assert (Hl : lex_token (stxt c) = (Ok (TCs (command_name sae)), s)) by (rewrite Hc; apply token_cs; assumption).
  rewrite (prim_step _ _ _ _ _ _ Hs Hl (represents_none _ _ _ Hm Hf)).
  set (st := q_ist (of_parser p (suffix_slice c s) None)).
  destruct (command_fails sae (fun n => find n e <> None) st) with (s := s) (x := x) as [c2 E]; [|exact H|reflexivity|].
  - intros n. unfold st. cbn [q_ist of_parser i_macros]. rewrite (represents_known _ _ _ Hm). destruct (find n e); split; congruence.
  - exists c2. unfold run_inner. fold st. unfold parse_atom. rewrite (bind_err _ _ _ _ _ x (set_content c2 st)); [reflexivity|].
    unfold handle_prim. cbn [hprim]. unfold hprim_body. rewrite command_prim. exact E.
Qed.
