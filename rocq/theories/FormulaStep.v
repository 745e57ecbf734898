(** * FormulaStep: one round of the iterator on an element of a formula. *)

From Coq Require Import Ascii String List NArith ZArith Bool Lia Arith.
From Verif Require Import Base Float32 Event Tables Prim PrimTable Lex Macros Primitives Spans Parser
  SpecLex SpecNum LexFacts LexMore LexNum Order SimRun MacroRun
  SpecFormula FormulaLex FormulaActs FormulaNucleus FormulaNucleus2 FormulaNucleus3 FormulaNucleus4.
Import ListNotations.
Open Scope N_scope.
Open Scope list_scope.
Open Scope sm_scope.

Strategy 1000 [parse parse_fuel].


Section Known.
Context {KN : Known}.

Definition script_second (sub_first : bool) : P unit :=
  do nc <- peek ;
  if (is_char 95 nc && negb sub_first) || (is_char 94 nc && sub_first) then
    drop1 ;;
    do a <- argc ;
    handle_arg handle_prim a ;;
    do nc <- peek ;
    if is_char 95 nc then fail EDoubleSubscript
    else if is_char 94 nc then fail EDoubleSuperscript
    else ret tt
  else if is_char 95 nc || is_char 94 nc then
    fail (if sub_first then EDoubleSubscript else EDoubleSuperscript)
  else ret tt.

Definition script_end (sub_first : bool) (first second : nat) : P (option script) :=
  do end_ <- buf_len ;
  do st <- get ;
  if Nat.eqb second end_ then
    if sub_first then ret (Some (EvScript STSub (i_pos st), first, second))
    else ret (Some (EvScript STSup (i_pos st), second, first))
  else
    if sub_first then ret (Some (EvScript STSubSup (i_pos st), first, second))
    else ret (Some (EvScript STSubSup (i_pos st), second, first)).

Definition script_part : P (option script) :=
  modify (fun st => set_content (suffix_slice (i_content st) (trim_start (stxt (i_content st)))) st) ;;
  do c <- peek ;
  if is_char 94 c || is_char 95 c then
    drop1 ;;
    do first <- buf_len ;
    do a <- argc ;
    handle_arg handle_prim a ;;
    do second <- buf_len ;
    script_second (is_char 95 c) ;;
    script_end (is_char 95 c) first second
  else ret None.

Lemma parse_scripts_eq : forall st, parse_scripts st =
  if i_skip st then (Ok None, st)
  else ((if i_allow st then
           do l <- lexc limit_modifiers ;
           match l with
           | Some true => modify (set_pos SPAboveBelow)
           | Some false => modify (set_pos SPRight)
           | None => ret tt
           end
         else ret tt) ;; script_part) st.
Proof.
  intros st. unfold parse_scripts, bind at 1, get at 1. destruct (i_skip st); [reflexivity|].
  destruct (i_allow st); reflexivity.
Qed.

Lemma enough_prim : forall n, enough n handle_prim.
Proof. intros n cs st _. exists (S (length (stxt (i_content st)))). split; [lia|reflexivity]. Qed.

(** An argument of a script. *)
Lemma script_arg : forall s a r, nucleus true s a no_limits r -> forall st n (k : P unit) , stxt (i_content st) = s -> (length s <= n)%nat ->
  (length r < length s)%nat /\ exists L c h, L <> [] /\ means n L a /\ stxt c = r /\
    (do x <- argc ; handle_arg handle_prim x) st = (Ok tt, result st L c h no_limits).
Proof.
  intros s a r H st n k Hs Hn. apply (proj1 nucleus_does) in H. pose proof H as (Hne & Hl & _). split; [exact Hl|].
  destruct (arg_does_any _ _ _ H handle_prim st Hs (enough_prim _)) as (x & c & H1 & H2).
  destruct (H2 (set_content c st) eq_refl) as (L & c' & h & H3 & H4 & H5). exists L, c', h.
  split; [eapply means_ne; eassumption|]. split; [eapply means_more; eassumption|]. split; [exact H4|].
  unfold bind. rewrite H1. exact H3.
Qed.

Lemma bind_arg : forall B (k : P B) st, (do a <- argc ; handle_arg handle_prim a ;; k) st =
  ((do a <- argc ; handle_arg handle_prim a) ;; k) st.
Proof. intros B k st. unfold bind. destruct (argc st) as [[a|e|p|] st']; reflexivity. Qed.

Lemma peek_not : forall r, no_script r -> forall st, stxt (i_content st) = r -> exists o, peek st = (Ok o, st) /\ is_char 95 o = false /\ is_char 94 o = false.
Proof.
  intros r H st E. unfold peek. rewrite E. eexists. split; [reflexivity|]. destruct r as [|c r]; [split; reflexivity|].
  cbn in H. cbn [is_char]. split; apply N.eqb_neq; intros ->; apply H; auto.
Qed.

Lemma peek_is : forall c r st, stxt (i_content st) = c :: r -> peek st = (Ok (Some c), st).
Proof. intros c r st E. unfold peek. rewrite E. reflexivity. Qed.

Lemma drop1_is : forall c r st, stxt (i_content st) = c :: r -> drop1 st = (Ok tt, set_content (suffix_slice (i_content st) r) st).
Proof. intros c r st E. unfold drop1, modify. rewrite E. reflexivity. Qed.

Lemma bind_ok : forall A B (m : P A) (k : A -> P B) st a st', m st = (Ok a, st') -> bind m k st = k a st'.
Proof. intros A B m k st a st' H. unfold bind. rewrite H. reflexivity. Qed.

Lemma second_none : forall b r st, no_script r -> stxt (i_content st) = r -> script_second b st = (Ok tt, st).
Proof.
  intros b r st Hn E. destruct (peek_not r Hn st E) as (o & H1 & H2 & H3). unfold script_second. rewrite (bind_ok _ _ _ _ _ _ _ H1), H2, H3. reflexivity.
Qed.

Lemma second_some : forall (b : bool) c s' a r st n, c = (if b then 94 else 95) -> nucleus true s' a no_limits r -> no_script r ->
  stxt (i_content st) = c :: s' -> (length s' <= n)%nat ->
  (length r < length s')%nat /\ exists L c' h, L <> [] /\ means n L a /\ stxt c' = r /\ script_second b st = (Ok tt, result st L c' h no_limits).
Proof.
  intros b c s' a r st n Hc Ha Hn E Hl.
  destruct (script_arg _ _ _ Ha (set_content (suffix_slice (i_content st) s') st) n (ret tt) eq_refl Hl) as (Hlr & L & c' & h & H1 & H2 & H3 & H4).
  split; [exact Hlr|]. exists L, c', h. repeat split; try assumption.
  unfold script_second. rewrite (bind_ok _ _ _ _ _ _ _ (peek_is _ _ _ E)).
  replace ((is_char 95 (Some c) && negb b) || (is_char 94 (Some c) && b)) with true by (subst c; destruct b; reflexivity).
  rewrite (bind_ok _ _ _ _ _ _ _ (drop1_is _ _ _ E)), bind_arg, (bind_ok _ _ _ _ _ _ _ H4).
  destruct (peek_not r Hn (result (set_content (suffix_slice (i_content st) s') st) L c' h no_limits) H3) as (o & Ho & Ho1 & Ho2).
  rewrite (bind_ok _ _ _ _ _ _ _ Ho), Ho1, Ho2. reflexivity.
Qed.

(** What the iterator does with the buffer after [parse]. *)
Definition unrolls (o : option script) (buf : list instr) (IL : list instr) : Prop :=
  match o with
  | None => IL = buf
  | Some (e, sub, sup) => exists l, order_scripts sub sup buf = Ok l /\ IL = IEv e :: firstn (Nat.min sub sup) buf ++ l
  end.

Lemma skipn_app_exact : forall A (a b : list A) n, n = length a -> skipn n (a ++ b) = b.
Proof. intros A a b n ->. apply skipn_length_app. Qed.

Lemma firstn_app_exact : forall A (a b : list A) n, n = length a -> firstn n (a ++ b) = a.
Proof. intros A a b n ->. rewrite firstn_app, Nat.sub_diag, firstn_all. cbn. apply app_nil_r. Qed.

Lemma script_some : forall (b : bool) w s es a p st n L1, white w -> stxt (i_content st) = w ++ (if b then 95 else 94) :: s ->
  i_pos st = p -> i_buf st = L1 -> means n L1 es -> (length s <= n)%nat ->
  (forall r, nucleus true s a no_limits r -> no_script r ->
    (length r < length s)%nat /\ exists o st' IL, script_part st = (Ok o, st') /\ i_align st' = i_align st /\ i_macros st' = i_macros st /\
      stxt (i_content st') = r /\ unrolls o (i_buf st') IL /\ means n IL (EvScript (if b then STSub else STSup) p :: es ++ a)) /\
  (forall s' a' r, nucleus true s a no_limits ((if b then 94 else 95) :: s') -> nucleus true s' a' no_limits r -> no_script r ->
    (length r < length s)%nat /\ exists o st' IL, script_part st = (Ok o, st') /\ i_align st' = i_align st /\ i_macros st' = i_macros st /\
      stxt (i_content st') = r /\ unrolls o (i_buf st') IL /\
      means n IL (EvScript STSubSup p :: es ++ (if b then a ++ a' else a' ++ a))).
Proof.
  intros b w s es a p st n L1 Hw Hs Hp Hbuf HL1 Hn.
  set (st0 := set_content (suffix_slice (i_content st) (trim_start (stxt (i_content st)))) st).
  set (st1 := set_content (suffix_slice (i_content st0) s) st0).
  assert (Hpre : forall r, nucleus true s a no_limits r -> (length r < length s)%nat /\ exists L c h, L <> [] /\ means n L a /\ stxt c = r /\
    script_part st = (script_second b ;; script_end b (length L1) (length (L1 ++ L))) (result st1 L c h no_limits)).
  { intros r Ha. destruct (script_arg _ _ _ Ha st1 n (ret tt) eq_refl Hn) as (Hl & L & c & h & H1 & H2 & H3 & H4).
    split; [exact Hl|]. exists L, c, h. repeat split; try assumption. unfold script_part. rewrite (bind_ok _ _ (modify (fun st => set_content (suffix_slice (i_content st) (trim_start (stxt (i_content st)))) st)) _ st tt st0 eq_refl).
    assert (E0 : stxt (i_content st0) = (if b then 95 else 94) :: s).
    { unfold st0. cbn [i_content set_content stxt suffix_slice]. rewrite Hs, trim_to; [reflexivity|exact Hw|destruct b; reflexivity]. }
    rewrite (bind_ok _ _ _ _ _ _ _ (peek_is _ _ _ E0)).
    replace (is_char 94 (Some (if b then 95 else 94)) || is_char 95 (Some (if b then 95 else 94))) with true by (destruct b; reflexivity).
    replace (is_char 95 (Some (if b then 95 else 94))) with b by (destruct b; reflexivity).
    rewrite (bind_ok _ _ _ _ _ _ _ (drop1_is _ _ _ E0)).
    change (set_content (suffix_slice (i_content st0) s) st0) with st1.
    rewrite (bind_ok _ _ buf_len _ st1 (length L1) st1) by (unfold buf_len, st1, st0; cbn [i_buf set_content]; rewrite Hbuf; reflexivity).
    rewrite bind_arg, (bind_ok _ _ _ _ _ _ _ H4). 
    rewrite (bind_ok _ _ buf_len _ _ (length (L1 ++ L)) (result st1 L c h no_limits)) by (unfold buf_len, result, st1, st0; cbn [i_buf set_content]; rewrite Hbuf; reflexivity).
    reflexivity. }
  split.
  - intros r Ha Hr. destruct (Hpre r Ha) as (Hl & L & c & h & H1 & H2 & H3 & H4). split; [exact Hl|].
    rewrite (bind_ok _ _ _ _ _ _ _ (second_none b r (result st1 L c h no_limits) Hr H3)) in H4.
    unfold script_end in H4. rewrite (bind_ok _ _ buf_len _ _ (length (L1 ++ L)) (result st1 L c h no_limits)) in H4 by (unfold buf_len, result, st1, st0; cbn [i_buf set_content]; rewrite Hbuf; reflexivity).
    rewrite Nat.eqb_refl in H4. unfold bind, get, ret in H4. cbn [i_pos result snd no_limits st1 st0 set_content] in H4.
    rewrite Hp in H4. destruct b; (do 3 eexists; split; [exact H4|]; split; [reflexivity|]; split; [reflexivity|]; split; [exact H3|];
      cbn [i_buf result st1 st0 set_content unrolls]; rewrite Hbuf).
    + split; [eexists; split; [apply order_sub_first; rewrite app_length; lia|reflexivity]|].
      rewrite Nat.min_l by (rewrite app_length; lia). rewrite firstn_app_exact, skipn_app_exact by reflexivity. constructor. apply means_app; assumption.
    + assert (length L <> 0)%nat by (destruct L; [congruence|discriminate]).
      split; [eexists; split; [apply order_sup_first; rewrite ?app_length; lia|reflexivity]|].
      rewrite Nat.min_r by (rewrite app_length; lia). rewrite (firstn_app_exact _ L1 L _ eq_refl), (skipn_app_exact _ L1 L _ eq_refl).
      rewrite skipn_all2 by lia. cbn [app]. rewrite firstn_all2 by (rewrite app_length; lia). constructor. apply means_app; assumption.
  - intros s' a' r Ha Ha' Hr. destruct (Hpre _ Ha) as (Hl & L & c & h & H1 & H2 & H3 & H4). cbn [length] in Hl.
    destruct (second_some b _ s' a' r (result st1 L c h no_limits) n eq_refl Ha' Hr H3 ltac:(lia)) as (Hl' & L' & c' & h' & G1 & G2 & G3 & G4).
    split; [lia|]. rewrite (bind_ok _ _ _ _ _ _ _ G4) in H4. unfold script_end in H4.
    rewrite (bind_ok _ _ buf_len _ _ (length (L1 ++ L ++ L')) (result (result st1 L c h no_limits) L' c' h' no_limits)) in H4
      by (unfold buf_len, result, st1, st0; cbn [i_buf set_content]; rewrite Hbuf, app_assoc; reflexivity).
    assert (E : Nat.eqb (length (L1 ++ L)) (length (L1 ++ L ++ L')) = false).
    { apply Nat.eqb_neq. rewrite !app_length. destruct L'; [congruence|cbn; lia]. }
    rewrite E in H4. unfold bind, get, ret in H4. cbn [i_pos result snd no_limits st1 st0 set_content] in H4. rewrite Hp in H4.
    destruct b; (do 3 eexists; split; [exact H4|]; split; [reflexivity|]; split; [reflexivity|]; split; [exact G3|];
      cbn [i_buf result st1 st0 set_content unrolls]; rewrite Hbuf, <- app_assoc).
    + split; [eexists; split; [apply order_sub_first; rewrite app_length; lia|reflexivity]|].
      rewrite Nat.min_l by (rewrite app_length; lia). rewrite firstn_app_exact, skipn_app_exact by reflexivity. constructor. apply means_app; [assumption|]. apply means_app; assumption.
    + assert (length L <> 0)%nat by (destruct L; [congruence|discriminate]).
      split; [eexists; split; [apply order_sup_first; rewrite ?app_length; lia|reflexivity]|].
      rewrite Nat.min_r by (rewrite app_length; lia). rewrite (firstn_app_exact _ L1 (L ++ L') _ eq_refl), (skipn_app_exact _ L1 (L ++ L') _ eq_refl).
      rewrite (app_assoc L1 L L'), (skipn_app_exact _ (L1 ++ L) L' _ eq_refl), (firstn_app_exact _ L L') by (rewrite app_length; lia). constructor. apply means_app; [assumption|]. apply means_app; assumption.
Qed.

Lemma scripts_part : forall p es s es' r, scripts p es s es' r -> forall st n, i_pos st = p -> stxt (i_content st) = s ->
  means n (i_buf st) es -> (length s <= n)%nat ->
  (length r <= length s)%nat /\
  exists o st' IL, script_part st = (Ok o, st') /\ i_align st' = i_align st /\ i_macros st' = i_macros st /\
    (stxt (i_content st') = r \/ stxt (i_content st') = trim_start r) /\ unrolls o (i_buf st') IL /\ means n IL es'.
Proof.
  intros p es s es' r H st n Hp Hs Hm Hn. destruct H as [p es s H1 H2|p es w s a r Hw Ha Hr|p es w s a r Hw Ha Hr|p es w s a s' b r Hw Ha Hb Hr|p es w s a s' b r Hw Ha Hb Hr].
  - split; [lia|]. apply no_starts_head in H1, H2. exists None, (set_content (suffix_slice (i_content st) (trim_start s)) st), (i_buf st).
    split; [|split; [reflexivity|split; [reflexivity|split; [right; reflexivity|split; [reflexivity|exact Hm]]]]].
    unfold script_part. rewrite (bind_ok _ _ (modify (fun st => set_content (suffix_slice (i_content st) (trim_start (stxt (i_content st)))) st)) _ st tt _ eq_refl).
    unfold bind at 1, peek. cbn [i_content set_content stxt suffix_slice]. rewrite Hs. destruct (trim_start s) as [|x t]; [reflexivity|].
    cbn [is_char]. apply N.eqb_neq in H1, H2. rewrite H1, H2. reflexivity.
  - destruct (script_some true w s es a p st n (i_buf st) Hw Hs Hp eq_refl Hm) as [H _]; [rewrite app_length in Hn; cbn in Hn; lia|].
    destruct (H r Ha Hr) as (Hl & o & st' & IL & G1 & G2 & G3 & G4 & G5 & G6). split; [rewrite app_length; cbn; lia|]. exists o, st', IL. auto 10.
  - destruct (script_some false w s es a p st n (i_buf st) Hw Hs Hp eq_refl Hm) as [H _]; [rewrite app_length in Hn; cbn in Hn; lia|].
    destruct (H r Ha Hr) as (Hl & o & st' & IL & G1 & G2 & G3 & G4 & G5 & G6). split; [rewrite app_length; cbn; lia|]. exists o, st', IL. auto 10.
  - destruct (script_some true w s es a p st n (i_buf st) Hw Hs Hp eq_refl Hm) as [_ H]; [rewrite app_length in Hn; cbn in Hn; lia|].
    destruct (H s' b r Ha Hb Hr) as (Hl & o & st' & IL & G1 & G2 & G3 & G4 & G5 & G6). split; [rewrite app_length; cbn; lia|]. exists o, st', IL. auto 10.
  - destruct (script_some false w s es a p st n (i_buf st) Hw Hs Hp eq_refl Hm) as [_ H]; [rewrite app_length in Hn; cbn in Hn; lia|].
    destruct (H s' b r Ha Hb Hr) as (Hl & o & st' & IL & G1 & G2 & G3 & G4 & G5 & G6). split; [rewrite app_length; cbn; lia|]. exists o, st', IL. auto 10.
Qed.

Lemma modifiers_length : forall p s p' r, modifiers p s p' r -> (length r <= length s)%nat.
Proof. intros p s p' r H. induction H; rewrite ?app_length in *; cbn [length] in *; lia. Qed.

Definition start_pos (l : limits) : script_pos := match snd l with Some p => p | None => SPRight end.

Lemma placed_scripts : forall l s p s', placed l s p s' -> forall st, i_skip st = false -> i_allow st = fst l -> i_pos st = start_pos l ->
  stxt (i_content st) = s -> (length s' <= length s)%nat /\
  exists st', parse_scripts st = script_part st' /\ i_pos st' = p /\ stxt (i_content st') = s' /\ i_buf st' = i_buf st /\
    i_align st' = i_align st /\ i_macros st' = i_macros st.
Proof.
  intros l s p s' H st Hk Ha Hp Hs. unfold placed in H. rewrite parse_scripts_eq, Hk, Ha. destruct (fst l).
  - split; [eapply modifiers_length; exact H|]. apply modifiers_lexer in H as (o & H1 & H2). fold (start_pos l) in H2.
    assert (El : lexc limit_modifiers st = (Ok o, set_content (suffix_slice (i_content st) s') st)) by (unfold lexc; rewrite Hs, H1; reflexivity).
    unfold bind at 1. rewrite (bind_ok _ _ _ _ _ _ _ El).
    destruct o as [[|]|]; cbn [pos_of] in H2; (eexists; split; [reflexivity|]); repeat split; cbn; congruence.
  - destruct H as [-> ->]. split; [lia|]. exists st. repeat split; auto.
Qed.

Lemma after_run : forall K m st0 sp nx ac st1 o st' IL, m st0 = (Ok tt, st1) -> parse_scripts st1 = (Ok o, st') ->
  unrolls o (i_buf st') IL -> i_macros st' = [] ->
  after K (run_inner (parse_atom m) (mkPst st0 sp nx ac)) = (OCont, mkParser (IL ++ ISub (i_content st') (i_align st') :: K) [] [] sp nx ac).
Proof.
  intros K m st0 sp nx ac st1 o st' IL H1 H2 H3 H4. unfold run_inner, parse_atom. cbn [q_ist]. rewrite (bind_ok _ _ _ _ _ _ _ H1), H2.
  unfold after. cbn [q_ist set_ist]. destruct o as [[[e sub] sup]|]; cbn [unrolls] in H3.
  - destruct H3 as (l & -> & ->). unfold to_parser. cbn [q_ist set_ist q_spans q_next q_alloc]. rewrite H4. cbn [app]. rewrite <- app_assoc. reflexivity.
  - subst IL. unfold to_parser. cbn [q_ist set_ist q_spans q_next q_alloc]. rewrite H4. reflexivity.
Qed.

Lemma skip_blank_trim : forall s, skip_blank false (trim_start s) = skip_blank false s.
Proof. induction s as [|c s IH]; [reflexivity|]. cbn [trim_start skip_blank]. destruct (is_ws c) eqn:E; [exact IH|]. cbn [skip_blank]. rewrite E. reflexivity. Qed.

Lemma lex_token_same : forall s t, trim_start s = trim_start t -> lex_token s = lex_token t.
Proof. intros s t H. unfold lex_token. rewrite <- (skip_blank_trim s), H, skip_blank_trim. reflexivity. Qed.

Definition at_top (c : slice) (al : option (N * N)) (K : list instr) (sp : spans) (nx ac : N) : parser :=
  mkParser (ISub c al :: K) [] [] sp nx ac.

(** One round on the text [s] leaves instructions that mean [es], then the text [r]. *)
Definition turns (s : str) (al : option (N * N)) (es : list event) (al' : option (N * N)) (r : str) : Prop :=
  (length r < length s)%nat /\
  forall c K sp nx ac, trim_start (stxt c) = trim_start s ->
    exists IL c', next_step (at_top c al K sp nx ac) = (OCont, mkParser (IL ++ ISub c' al' :: K) [] [] sp nx ac) /\
      means (length s) IL es /\ trim_start (stxt c') = trim_start r.

Lemma trim_either : forall s r, s = r \/ s = trim_start r -> trim_start s = trim_start r.
Proof.
  intros s r [->| ->]; [reflexivity|]. pose proof (trim_start_head r) as H. destruct (trim_start r) as [|x t]; [reflexivity|].
  cbn in H |- *. rewrite H. reflexivity.
Qed.

(** Rounds on a command and on a character. *)
Lemma turn_cs : forall s cs r0 m al, lex_token s = (Ok (TCs cs), r0) -> (forall st, stxt (i_content st) = r0 -> handle_prim cs st = m st) ->
  forall es al' r, (length r < length s)%nat ->
  (forall st0, stxt (i_content st0) = r0 -> i_buf st0 = [] -> i_allow st0 = false -> i_pos st0 = SPRight -> i_skip st0 = false ->
     i_handling st0 = false -> i_align st0 = al -> i_macros st0 = [] ->
     exists st1 o st' IL, m st0 = (Ok tt, st1) /\ parse_scripts st1 = (Ok o, st') /\ unrolls o (i_buf st') IL /\ i_macros st' = [] /\
       i_align st' = al' /\ means (length s) IL es /\ (stxt (i_content st') = r \/ stxt (i_content st') = trim_start r)) ->
  turns s al es al' r.
Proof.
  intros s cs r0 m al Ht Hm es al' r Hl H. split; [exact Hl|]. intros c K sp nx ac Hc.
  rewrite (prim_step (at_top c al K sp nx ac) c al K cs r0 eq_refl) by (try reflexivity; rewrite (lex_token_same _ _ Hc); exact Ht).
  set (st0 := mkIst (suffix_slice c r0) [] false SPRight false false al []).
  destruct (H st0 eq_refl eq_refl eq_refl eq_refl eq_refl eq_refl eq_refl eq_refl) as (st1 & o & st' & IL & H1 & H2 & H3 & H4 & H5 & H6 & H7).
  exists IL, (i_content st'). split; [|split; [exact H6|apply trim_either, H7]]. rewrite <- H5.
  change (of_parser (at_top c al K sp nx ac) (suffix_slice c r0) al) with (mkPst st0 sp nx ac).
  eapply after_run; [rewrite Hm by reflexivity; exact H1|exact H2|exact H3|exact H4].
Qed.

Lemma turn_chr : forall s ctx r0 al, lex_token s = (Ok (TChr ctx), r0) ->
  forall es al' r, (length r < length s)%nat ->
  (forall sl st0, stxt sl = ctx -> stxt (i_content st0) = r0 -> i_buf st0 = [] -> i_allow st0 = false -> i_pos st0 = SPRight -> i_skip st0 = false ->
     i_handling st0 = false -> i_align st0 = al -> i_macros st0 = [] ->
     exists st1 o st' IL, handle_char sl st0 = (Ok tt, st1) /\ parse_scripts st1 = (Ok o, st') /\ unrolls o (i_buf st') IL /\ i_macros st' = [] /\
       i_align st' = al' /\ means (length s) IL es /\ (stxt (i_content st') = r \/ stxt (i_content st') = trim_start r)) ->
  turns s al es al' r.
Proof.
  intros s ctx r0 al Ht es al' r Hl H. split; [exact Hl|]. intros c K sp nx ac Hc.
  rewrite (char_step (at_top c al K sp nx ac) c al K ctx r0 eq_refl) by (rewrite (lex_token_same _ _ Hc); exact Ht).
  set (st0 := mkIst (suffix_slice c r0) [] false SPRight false false al []).
  destruct (H (suffix_slice c ctx) st0 eq_refl eq_refl eq_refl eq_refl eq_refl eq_refl eq_refl eq_refl eq_refl) as (st1 & o & st' & IL & H1 & H2 & H3 & H4 & H5 & H6 & H7).
  exists IL, (i_content st'). split; [|split; [exact H6|apply trim_either, H7]]. rewrite <- H5.
  change (of_parser (at_top c al K sp nx ac) (suffix_slice c r0) al) with (mkPst st0 sp nx ac).
  eapply after_run; [exact H1|exact H2|exact H3|exact H4].
Qed.

Lemma nucleus_turn : forall s es l s' p s'' es' r al, nucleus false s es l s' -> placed l s' p s'' -> scripts p es s'' es' r ->
  turns s al es' al r.
Proof.
  intros s es l s' p s'' es' r al Hn Hp Hs. apply (proj1 nucleus_does) in Hn as (Hne & Hl & Hn).
  assert (Hdone : forall m st0, acts m st0 (length s) es l s' -> i_buf st0 = [] -> i_allow st0 = false -> i_pos st0 = SPRight -> i_skip st0 = false ->
     i_align st0 = al -> i_macros st0 = [] -> (length r < length s)%nat /\
     exists st1 o st' IL, m st0 = (Ok tt, st1) /\ parse_scripts st1 = (Ok o, st') /\ unrolls o (i_buf st') IL /\ i_macros st' = [] /\
       i_align st' = al /\ means (length s) IL es' /\ (stxt (i_content st') = r \/ stxt (i_content st') = trim_start r)).
  { intros m st0 (L & c & h & H1 & H2 & H3) E1 E2 E3 E4 E5 E6.
    destruct (placed_scripts _ _ _ _ Hp (result st0 L c h l)) as (Hl2 & st2 & P1 & P2 & P3 & P4 & P5 & P6).
    { exact E4. } { cbn. rewrite E2. reflexivity. } { cbn. rewrite E3. reflexivity. } { exact H2. }
    destruct (scripts_part _ _ _ _ _ Hs st2 (length s) P2 P3) as (Hl3 & o & st' & IL & S1 & S2 & S3 & S4 & S5 & S6).
    { rewrite P4. cbn [result i_buf]. rewrite E1. exact H3. } { lia. }
    split; [lia|]. exists (result st0 L c h l), o, st', IL. split; [exact H1|]. split; [rewrite P1; exact S1|]. split; [exact S5|].
    split; [rewrite S3, P6; exact E6|]. split; [rewrite S2, P5; exact E5|]. split; [exact S6|exact S4]. }
  assert (Hlr : (length r < length s)%nat).
  { destruct (lex_token s) as [[[cs|ctx]|e|x|] r0]; try contradiction.
    - destruct Hn as (_ & Hn). apply (Hdone _ _ (Hn (S (length r0)) (mkIst (mkSlice 0 0 r0) [] false SPRight false false al []) eq_refl eq_refl ltac:(lia))); reflexivity.
    - apply (Hdone _ _ (Hn (mkSlice 0 0 ctx) (mkIst (mkSlice 0 0 r0) [] false SPRight false false al []) eq_refl eq_refl eq_refl)); reflexivity. }
  destruct (lex_token s) as [[[cs|ctx]|e|x|] r0] eqn:Et; try contradiction.
  - destruct Hn as (Hr0 & Hn). eapply (turn_cs s cs r0 (hprim (S (length r0)) cs)); [exact Et|intros st E; unfold handle_prim; rewrite E; reflexivity|exact Hlr|].
    intros st0 E1 E2 E3 E4 E5 E6 E7 E8. apply (Hdone _ st0 (Hn (S (length r0)) st0 E6 E1 ltac:(lia))); assumption.
  - eapply turn_chr; [exact Et|exact Hlr|]. intros sl st0 E0 E1 E2 E3 E4 E5 E6 E7 E8. apply (Hdone _ st0 (Hn sl st0 E6 E1 E0)); assumption.
Qed.

(** ** The other elements *)

Lemma nucleus_length : forall h s es l r, nucleus h s es l r -> (length r < length s)%nat.
Proof. intros h s es l r H. apply (proj1 nucleus_does) in H. apply H. Qed.

Lemma scripts_length : forall p es s es' r, scripts p es s es' r -> starts 94 s \/ starts 95 s -> (length r < length s)%nat.
Proof.
  intros p es s es' r H Hs. destruct H as [p es s H1 H2|p es w s a r Hw Ha Hr|p es w s a r Hw Ha Hr|p es w s a s' b r Hw Ha Hb Hr|p es w s a s' b r Hw Ha Hb Hr];
    [tauto|..]; apply nucleus_length in Ha; try apply nucleus_length in Hb; rewrite ?app_length in *; cbn [length] in *; lia.
Qed.

Lemma orphan_turn : forall b s c s' es r al, blank b -> s = c :: s' -> c = 94 \/ c = 95 ->
  scripts SPRight [EvBegin GNormal; EvEnd] s es r -> turns (b ++ s) al es al r.
Proof.
  intros b s c s' es r al Hb -> Hc Hs.
  assert (Hl : (length r < length (c :: s'))%nat).
  { eapply scripts_length; [exact Hs|]. destruct Hc as [-> | ->]; [left|right]; exists [], s'; split; reflexivity. }
  eapply turn_chr; [apply char_token; [exact Hb|destruct Hc as [-> | ->]; reflexivity|destruct Hc as [-> | ->]; discriminate..]|rewrite app_length; lia|].
  intros sl st0 E0 E1 E2 E3 E4 E5 E6 E7 E8.
  set (st1 := set_buf [IEv (EvBegin GNormal); IEv EvEnd] (set_content sl st0)).
  destruct (scripts_part _ _ _ _ _ Hs st1 (length (b ++ c :: s'))) as (_ & o & st' & IL & S1 & S2 & S3 & S4 & S5 & S6).
  { exact E4. } { exact E0. } { repeat constructor. } { rewrite app_length. lia. }
  exists st1, o, st', IL. split.
  { unfold handle_char. rewrite (bind_ok _ _ get _ st0 st0 st0 eq_refl), E0. cbn [ctx_char]. rewrite E6.
    destruct Hc as [-> | ->]; unfold bind, push_ev, push, modify, st1; cbn; rewrite E2; reflexivity. }
  split; [rewrite parse_scripts_eq; cbn [st1 i_skip set_buf set_content i_allow]; rewrite E5, E3; exact S1|].
  split; [exact S5|]. split; [rewrite S3; exact E8|]. split; [rewrite S2; exact E7|]. split; [exact S6|exact S4].
Qed.

Lemma switch_prim : forall cs x, In (cs, x) switches -> forall rec,
  hprim_body rec cs = (modify (set_skip true) ;; push_ev (EvState x)).
Proof. intros cs x H rec. repeat destruct H as [H|H]; try contradiction; injection H as <- <-; unfold hprim_body; vm_compute; reflexivity. Qed.

Lemma switch_turn : forall b cs t x r al, blank b -> control cs t r -> In (cs, x) switches -> turns (b ++ t) al [EvState x] al r.
Proof.
  intros b cs t x r al Hb Hc Hin. pose proof (control_length _ _ _ Hc) as Hl.
  eapply (turn_cs _ cs r (hprim_body (hprim (length r)) cs)); [apply control_token; assumption|intros st E; unfold handle_prim; rewrite E; reflexivity|rewrite app_length; lia|].
  intros st0 E1 E2 E3 E4 E5 E6 E7 E8. rewrite (switch_prim _ _ Hin).
  exists (set_buf [IEv (EvState x)] (set_skip true st0)), None, (set_buf [IEv (EvState x)] (set_skip true st0)), [IEv (EvState x)].
  split; [unfold bind, push_ev, push, modify; cbn; rewrite E2; reflexivity|]. split; [rewrite parse_scripts_eq; reflexivity|].
  split; [reflexivity|]. split; [exact E8|]. split; [exact E7|]. split; [repeat constructor|left; exact E1].
Qed.

Lemma color_turn : forall b t w x c r al, blank b -> control (lit "color") t (w ++ 123 :: x ++ 125 :: r) -> white w ->
  balanced 123 125 x -> colour x c -> turns (b ++ t) al [EvState (SCColor c CTText)] al r.
Proof.
  intros b t w x c r al Hb Hc Hw Hx Hcol. pose proof (control_length _ _ _ Hc) as Hl.
  eapply (turn_cs _ (lit "color") _ (hprim_body (hprim (length (w ++ 123 :: x ++ 125 :: r))) (lit "color"))); [apply control_token; eassumption|intros st E; unfold handle_prim; rewrite E; reflexivity|lens|].
  intros st0 E1 E2 E3 E4 E5 E6 E7 E8. unfold hprim_body. replace (lookup_prim (lit "color")) with PColor by (vm_compute; reflexivity).
  destruct (group_arg_braced EArgument st0 w x r E1 Hw Hx) as (c1 & H1 & Hc1).
  exists (set_buf [IEv (EvState (SCColor c CTText))] (set_skip true (set_content c1 st0))), None, (set_buf [IEv (EvState (SCColor c CTText))] (set_skip true (set_content c1 st0))), [IEv (EvState (SCColor c CTText))].
  split.
  { rewrite (bind_ok _ _ _ _ _ _ _ H1). rewrite (bind_ok _ _ (modify (set_skip true)) _ _ tt _ eq_refl). unfold color_of, bind, lift. rewrite Hcol.
    unfold push_ev, push, modify. cbn. rewrite E2. reflexivity. }
  split; [rewrite parse_scripts_eq; reflexivity|]. split; [reflexivity|]. split; [exact E8|]. split; [exact E7|]. split; [repeat constructor|left; exact Hc1].
Qed.

(** After the event of an alignment mark or the end of a row no script follows. *)
Lemma quiet_scripts : forall st n es, ~ starts 94 (stxt (i_content st)) -> ~ starts 95 (stxt (i_content st)) -> i_skip st = false -> i_allow st = false ->
  means n (i_buf st) es -> exists st', parse_scripts st = (Ok None, st') /\ i_buf st' = i_buf st /\ i_macros st' = i_macros st /\
    i_align st' = i_align st /\ stxt (i_content st') = trim_start (stxt (i_content st)).
Proof.
  intros st n es H1 H2 Hk Ha Hm. apply no_starts_head in H1, H2. rewrite parse_scripts_eq, Hk, Ha.
  exists (set_content (suffix_slice (i_content st) (trim_start (stxt (i_content st)))) st). split; [|repeat split].
  rewrite (bind_ok _ _ (ret tt) _ st tt st eq_refl). unfold script_part.
  rewrite (bind_ok _ _ (modify (fun st => set_content (suffix_slice (i_content st) (trim_start (stxt (i_content st)))) st)) _ st tt _ eq_refl).
  unfold bind at 1, peek. cbn [i_content set_content stxt suffix_slice]. destruct (trim_start (stxt (i_content st))) as [|x t]; [reflexivity|].
  cbn [is_char]. apply N.eqb_neq in H1, H2. rewrite H1, H2. reflexivity.
Qed.

Lemma mark_turn : forall k m b s, blank b -> k < m -> ~ starts 94 s -> ~ starts 95 s ->
  turns (b ++ 38 :: s) (Some (k, m)) [EvFlow EFAlignment] (Some (k + 1, m)) s.
Proof.
  intros k m b s Hb Hk H1 H2. eapply turn_chr; [apply char_token; [exact Hb|reflexivity|discriminate..]|lens|].
  intros sl st0 E0 E1 E2 E3 E4 E5 E6 E7 E8.
  set (st1 := set_buf [IEv (EvFlow EFAlignment)] (set_align (Some (k + 1, m)) st0)).
  destruct (quiet_scripts st1 (length (b ++ 38 :: s)) [EvFlow EFAlignment]) as (st' & S1 & S2 & S3 & S4 & S5).
  { cbn. rewrite E1. exact H1. } { cbn. rewrite E1. exact H2. } { exact E5. } { exact E3. } { repeat constructor. }
  exists st1, None, st', [IEv (EvFlow EFAlignment)]. split.
  { unfold handle_char. rewrite (bind_ok _ _ get _ st0 st0 st0 eq_refl), E0. cbn [ctx_char]. rewrite E7, E6. apply N.ltb_lt in Hk.
    change (38 =? 92) with false. change (38 =? 37) with false. change ((38 =? 95) || (38 =? 94)) with false. change (38 =? 36) with false.
    change (38 =? 35) with false. change (38 =? 38) with true. cbv iota beta. rewrite Hk. cbn [andb negb]. unfold bind, push_ev, push, modify, st1. cbn. rewrite E2. reflexivity. }
  split; [exact S1|]. split; [cbn [unrolls]; rewrite S2; reflexivity|]. split; [rewrite S3; exact E8|]. split; [rewrite S4; reflexivity|].
  split; [repeat constructor|]. right. rewrite S5. cbn. rewrite E1. reflexivity.
Qed.

Lemma newline_prim : forall cs, In cs newline_commands -> lookup_prim cs = PNewline.
Proof. intros cs H. repeat destruct H as [H|H]; try contradiction; subst; vm_compute; reflexivity. Qed.

Lemma row_space_run : forall s d r st, row_space s d r -> stxt (i_content st) = s ->
  (length r <= length s)%nat /\ exists c, stxt c = r /\
  (do o <- optc ; match o with
                  | Some a => do d <- on_local lex_dimension (stxt a) ; ret (Some (fst d))
                  | None => ret None
                  end) st = (Ok d, set_content c st).
Proof.
  intros s d r st H Hs. destruct H as [s H|w t d r Hw Hd].
  - split; [lia|]. rewrite <- Hs in H. destruct (optc_none st H) as (c & H1 & H2). exists c. split; [congruence|].
    rewrite (bind_ok _ _ _ _ _ _ _ H1). reflexivity.
  - split; [lens|]. destruct (optc_some st w t r Hs Hw (dimension_text_balanced _ _ Hd)) as (sl & c & H1 & H2 & H3). exists c. split; [exact H3|].
    rewrite (bind_ok _ _ _ _ _ _ _ H1). rewrite H2. unfold bind, on_local. 
    rewrite <- (app_nil_r t), (dimension_read t d [] [] Hd I (or_introl eq_refl)). reflexivity.
Qed.

Lemma row_turn : forall k m b cs t s d s1 ls s2, blank b -> In cs newline_commands -> control cs t s ->
  row_space s d s1 -> lines s1 ls s2 -> ~ starts 94 s2 -> ~ starts 95 s2 ->
  turns (b ++ t) (Some (k, m)) [EvFlow (EFNewLine d ls)] (Some (0, m)) s2.
Proof.
  intros k m b cs t s d s1 ls s2 Hb Hin Hc Hrs Hls H1 H2. pose proof (control_length _ _ _ Hc) as Hl.
  pose proof (lines_suffix _ _ _ Hls) as Hx.
  assert (Hl1 : (length s1 <= length s)%nat) by (destruct Hrs; lens).
  eapply (turn_cs _ cs _ (hprim_body (hprim (length s)) cs)); [apply control_token; eassumption|intros st E; unfold handle_prim; rewrite E; reflexivity|lens|].
  intros st0 E1 E2 E3 E4 E5 E6 E7 E8. unfold hprim_body. rewrite (newline_prim _ Hin). unfold newline.
  rewrite (bind_ok _ _ get _ st0 st0 st0 eq_refl), E7, E6.
  destruct (row_space_run s d s1 (set_align (Some (0, m)) st0) Hrs E1) as (_ & c & Hc1 & Hr).
  set (st1 := set_buf [IEv (EvFlow (EFNewLine d ls))] (set_content (suffix_slice c s2) (set_align (Some (0, m)) st0))).
  destruct (quiet_scripts st1 (length (b ++ t)) [EvFlow (EFNewLine d ls)]) as (st' & S1 & S2 & S3 & S4 & S5).
  { exact H1. } { exact H2. } { exact E5. } { exact E3. } { repeat constructor. }
  exists st1, None, st', [IEv (EvFlow (EFNewLine d ls))]. split.
  { rewrite (bind_ok _ _ (modify (set_align (Some (0, m)))) _ st0 tt _ eq_refl).
    match type of Hr with ?x _ = _ => match goal with |- bind optc ?k ?s = _ => transitivity (bind x (fun sp => do hl <- lexc horizontal_lines ; push_ev (EvFlow (EFNewLine sp hl))) s) end end.
    { unfold bind. destruct (optc (set_align (Some (0, m)) st0)) as [[o|e|p|] st3]; reflexivity. }
    rewrite (bind_ok _ _ _ _ _ _ _ Hr). unfold bind, lexc. cbn [i_content set_content]. rewrite Hc1, (lines_lexer _ _ _ Hls).
    unfold push_ev, push, modify, st1. cbn. rewrite E2. reflexivity. }
  split; [exact S1|]. split; [cbn [unrolls]; rewrite S2; reflexivity|]. split; [rewrite S3; exact E8|]. split; [rewrite S4; reflexivity|].
  split; [repeat constructor|]. right. rewrite S5. reflexivity.
Qed.

Lemma relax_turn : forall b t r al, blank b -> control (lit "relax") t r -> ~ starts 94 r -> ~ starts 95 r -> turns (b ++ t) al [] al r.
Proof.
  intros b t r al Hb Hc H1 H2. pose proof (control_length _ _ _ Hc) as Hl.
  eapply (turn_cs _ (lit "relax") r (hprim_body (hprim (length r)) (lit "relax"))); [apply control_token; assumption|intros st E; unfold handle_prim; rewrite E; reflexivity|rewrite app_length; lia|].
  intros st0 E1 E2 E3 E4 E5 E6 E7 E8. unfold hprim_body. replace (lookup_prim (lit "relax")) with PRelax by (vm_compute; reflexivity).
  destruct (quiet_scripts st0 (length (b ++ t)) []) as (st' & S1 & S2 & S3 & S4 & S5).
  { rewrite E1. exact H1. } { rewrite E1. exact H2. } { exact E5. } { exact E3. } { rewrite E2. constructor. }
  exists st0, None, st', []. split; [unfold bind, get; rewrite E6; reflexivity|].
  split; [exact S1|]. split; [cbn [unrolls]; rewrite S2, E2; reflexivity|]. split; [rewrite S3; exact E8|]. split; [rewrite S4; exact E7|].
  split; [constructor|]. right. rewrite S5, E1. reflexivity.
Qed.

Lemma element_turn : forall s es r al, element s es r -> turns s al es al r.
Proof.
  intros s es r al H. destruct H as [s es l s' p s'' es' r Hn Hp Hs|b s c s' es r Hb E Hc Hs|b cs t x r Hb Hc Hin|b t w x c r Hb Hc Hw Hx Hcol|b t r Hb Hc H1 H2].
  - eapply nucleus_turn; eassumption.
  - eapply orphan_turn; eassumption.
  - eapply switch_turn; eassumption.
  - eapply color_turn; eassumption.
  - apply relax_turn; assumption.
Qed.

(** ** Runs *)

Inductive steps : parser -> list event -> parser -> Prop :=
| st_refl : forall p, steps p [] p
| st_cont : forall p p1 es p2, next_step p = (OCont, p1) -> steps p1 es p2 -> steps p es p2
| st_item : forall p e p1 es p2, next_step p = (OItem (ItEvent e), p1) -> steps p1 es p2 -> steps p (e :: es) p2.

Lemma steps_trans : forall p es p' es' p'', steps p es p' -> steps p' es' p'' -> steps p (es ++ es') p''.
Proof.
  intros p es p' es' p'' H H'. induction H as [p|p p1 es p2 H1 H2 IH|p e p1 es p2 H1 H2 IH]; [exact H'|eapply st_cont; eauto|cbn; eapply st_item; eauto].
Qed.

Definition pops (s : str) (al : option (N * N)) (es : list event) : Prop :=
  forall c K sp nx ac, trim_start (stxt c) = trim_start s -> steps (at_top c al K sp nx ac) es (mkParser K [] [] sp nx ac).

Lemma means_steps : forall n L es, means n L es -> (forall s al es, (length s < n)%nat -> formula al s es -> pops s al es) ->
  forall K sp nx ac, steps (mkParser (L ++ K) [] [] sp nx ac) es (mkParser K [] [] sp nx ac).
Proof.
  intros n L es H Hp. induction H as [|e L es H IH|c al es L es' Hl Hf H IH]; intros K sp nx ac.
  - constructor.
  - eapply st_item; [reflexivity|apply IH].
  - eapply steps_trans; [|apply IH]. apply (Hp (stxt c) al es Hl Hf c (L ++ K)). reflexivity.
Qed.

Lemma blank_end : forall p c al K r, p_stack p = ISub c al :: K -> p_buf p = [] -> lex_token (stxt c) = (Err EToken, r) -> r = [] ->
  exists c', next_step p = (OCont, mkParser K [] (p_macros p) (p_spans p) (p_next p) (p_alloc p)) \/
    stxt c' = [] /\ next_step p = (OCont, mkParser (ISub c' al :: K) [] (p_macros p) (p_spans p) (p_next p) (p_alloc p)).
Proof.
  intros p c al K r Hs Hb Hl ->. rewrite (next_step_text _ _ _ _ Hs). destruct (is_nil (trim_start (stxt c))) eqn:E.
  - exists c. left. unfold with_stack. rewrite Hb. reflexivity.
  - exists (suffix_slice c []). right. split; [reflexivity|]. rewrite parse_fuel_S, parse_eq. cbn [q_ist of_parser i_content]. rewrite Hl.
    cbn [after of_parser q_ist set_ist i_buf set_content i_content i_align q_spans q_next q_alloc i_macros]. rewrite Hb. reflexivity.
Qed.

Lemma end_pops : forall s al, lex_token s = (Err EToken, []) -> pops s al [].
Proof.
  intros s al H c K sp nx ac Hc.
  destruct (blank_end (at_top c al K sp nx ac) c al K [] eq_refl eq_refl) as (c' & [E|[E1 E2]]).
  { rewrite (lex_token_same _ _ Hc). exact H. } { reflexivity. }
  - eapply st_cont; [exact E|constructor].
  - eapply st_cont; [exact E2|]. eapply st_cont; [|constructor].
    erewrite next_step_text by reflexivity. rewrite E1. reflexivity.
Qed.

Lemma turns_pops : forall s al es al' r es', turns s al es al' r ->
  (forall s1 al1 es1, (length s1 < length s)%nat -> formula al1 s1 es1 -> pops s1 al1 es1) -> formula al' r es' ->
  pops s al (es ++ es').
Proof.
  intros s al es al' r es' (Hl & H) IH Hf c K sp nx ac Hc. destruct (H c K sp nx ac Hc) as (IL & c' & H1 & H2 & H3).
  eapply st_cont; [exact H1|]. eapply steps_trans; [eapply means_steps; [exact H2|exact IH]|].
  apply (IH r al' es' Hl Hf c' K sp nx ac H3).
Qed.

(** What is known of texts must be true. *)
Definition sound : Prop := forall al s es, known al s es -> pops s al es.

Lemma formula_pops : sound -> forall n s al es, (length s < n)%nat -> formula al s es -> pops s al es.
Proof.
  intros Hsound. induction n as [|n IH]; intros s al es Hn H; [lia|].
  assert (IH' : forall s1 al1 es1, (length s1 < length s)%nat -> formula al1 s1 es1 -> pops s1 al1 es1) by (intros; eapply IH; [lia|eassumption]).
  clear IH. destruct H as [al s es Hk|al b Hb|al b t Hb Ht|al s es r es' He Hf|k m b s es Hb Hk H1 H2 Hf|k m b cs t s d s1 ls s2 es Hb Hin Hc Hd Hls H1 H2 Hf].
  - apply Hsound, Hk.
  - apply end_pops, blank_token_end, Hb.
  - apply end_pops, comment_token_end; assumption.
  - eapply turns_pops; [apply element_turn; exact He|exact IH'|exact Hf].
  - apply (turns_pops _ _ [EvFlow EFAlignment] _ _ es (mark_turn k m b s Hb Hk H1 H2)); assumption.
  - apply (turns_pops _ _ [EvFlow (EFNewLine d ls)] _ _ es (row_turn k m b cs t s d s1 ls s2 Hb Hin Hc Hd Hls H1 H2)); assumption.
Qed.

(** The items of a text with a meaning are the events of its meaning. *)
Lemma steps_run : forall p es p', steps p es p' -> p_stack p' = [] -> exists n, run n p = (map ItEvent es, ODone, p').
Proof.
  intros p es p' H He. induction H as [p|p p1 es p2 H1 H2 IH|p e p1 es p2 H1 H2 IH].
  - exists 1%nat. cbn [run]. unfold next_step. rewrite He. reflexivity.
  - destruct (IH He) as [n Hn]. exists (S n). cbn [run]. rewrite H1. exact Hn.
  - destruct (IH He) as [n Hn]. exists (S n). cbn [run]. rewrite H1, Hn. reflexivity.
Qed.

Theorem formula_parses : sound -> forall s es, formula None s es -> exists n p, run n (new_parser s) = (map ItEvent es, ODone, p).
Proof.
  intros Hsound s es H. pose proof (formula_pops Hsound (S (length s)) s None es (Nat.lt_succ_diag_r _) H) as Hp.
  destruct (steps_run _ _ _ (Hp (mkSlice 0 0 s) [] (mkSpans s [] 0) 1 0 eq_refl) eq_refl) as [n Hn]. exists n. eexists. exact Hn.
Qed.

End Known.
