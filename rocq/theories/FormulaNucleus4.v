(** * FormulaNucleus4: the induction over nuclei. *)

From Coq Require Import Ascii String List NArith ZArith Bool Lia Arith.
From Verif Require Import Base Float32 Event Tables Prim PrimTable Lex Macros Primitives Spans Parser
  SpecLex SpecNum LexFacts LexMore LexNum SpecFormula FormulaLex FormulaActs FormulaNucleus FormulaNucleus2 FormulaNucleus3.
Import ListNotations.
Open Scope N_scope.
Open Scope list_scope.
Open Scope sm_scope.

Ltac lens := repeat rewrite ?app_length in *; cbn [length] in *; repeat (rewrite ?app_length in *; cbn [length] in *); try lia.

Section Known.
Context {KN : Known}.

Lemma does_control : forall h b cs t s es l r, blank b -> control cs t s -> es <> [] -> (length r <= length s)%nat ->
  (forall f st, i_handling st = h -> stxt (i_content st) = s -> (length s <= f)%nat ->
    acts (hprim_body (hprim f) cs) st (S (length s)) es l r) ->
  does h (b ++ t) es l r.
Proof.
  intros h b cs t s es l r Hb Hc Hne Hl H. pose proof (control_length _ _ _ Hc) as Hlen. split; [exact Hne|].
  split; [rewrite app_length; lia|]. rewrite (control_token b cs t s Hb Hc). split; [rewrite app_length; lia|].
  intros [|f] st Hh Hs Hf; [lia|]. eapply acts_more; [|rewrite app_length; instantiate (1 := S (length s)); lia].
  apply H; [exact Hh|exact Hs|lia].
Qed.

Lemma does_char : forall h b c r0 es l r, blank b -> is_ws c = false -> c <> 37 -> c <> 92 -> es <> [] -> (length r <= length r0)%nat ->
  (forall sl st, i_handling st = h -> stxt (i_content st) = r0 -> stxt sl = c :: r0 ->
    acts (handle_char sl) st (length (b ++ c :: r0)) es l r) ->
  does h (b ++ c :: r0) es l r.
Proof.
  intros h b c r0 es l r Hb H1 H2 H3 Hne Hl H. split; [exact Hne|]. split; [rewrite app_length; cbn; lia|].
  rewrite char_token by assumption. exact H.
Qed.

Lemma handle_plain : forall sl c r st, special c = false -> stxt sl = c :: r -> handle_char sl st = push_ev (char_meaning c) st.
Proof.
  intros sl c r st H E. apply special_false in H as (H1 & H2 & H3 & H4 & H5 & H6 & H7 & H8 & H9 & H10 & H11).
  unfold handle_char, bind at 1, get. rewrite E. cbn [ctx_char].
  apply N.eqb_neq in H2, H3, H4, H5, H6, H7, H8, H9, H10. rewrite H2, H3, H4, H5, H6, H7, H8, H9, H10, H11. cbn [orb].
  rewrite char_event_meaning. reflexivity.
Qed.

Lemma digit_not_ws : forall c, digit c -> is_ws c = false.
Proof.
  intros c H. unfold digit in H. unfold is_ws.
  repeat match goal with |- context [?a <=? ?b] => destruct (N.leb_spec a b); try lia
    | |- context [?a =? ?b] => destruct (N.eqb_spec a b); try lia end; reflexivity.
Qed.

Lemma handle_digit : forall sl c r st, digit c -> stxt sl = c :: r -> handle_char sl st =
  (let n := numeral (i_handling st) (c :: r) in
   (modify (set_content (suffix_slice sl (skipn (length n) (c :: r)))) ;; push_ev (EvContent (CNumber n))) st).
Proof.
  intros sl c r st H E. unfold handle_char, bind at 1, get. rewrite E. cbn [ctx_char].
  assert (Hd : is_digit c = true) by (apply digit_is, H). unfold digit in H.
  repeat match goal with |- context [c =? ?b] => destruct (N.eqb_spec c b); [lia|] end. cbn [orb]. rewrite Hd. reflexivity.
Qed.

(** Goes through the steps of a primitive that succeed. *)
Lemma step_ok : forall A (m : P A) (k : A -> P unit) st a c n es l r, m st = (Ok a, set_content c st) ->
  acts (k a) (set_content c st) n es l r -> acts (do x <- m ; k x) st n es l r.
Proof. intros A m k st a c n es l r H (L & c' & h & H1). exists L, c', h. unfold bind. rewrite H. exact H1. Qed.

Lemma content_then : forall c (k : P unit) st n es l r,
  acts k (set_content c st) n es l r -> acts (modify (set_content c) ;; k) st n es l r.
Proof. intros c k st n es l r (L & c' & h & H). exists L, c', h. exact H. Qed.

Lemma skipn_length_app : forall A (a b : list A), skipn (length a) (a ++ b) = b.
Proof. intros A a b. induction a as [|x a IH]; [reflexivity|exact IH]. Qed.

Lemma number_does : forall b n r, blank b -> number n -> after_number n r ->
  does false (b ++ n ++ r) [EvContent (CNumber n)] no_limits r.
Proof.
  intros b n r Hb Hn Hr. pose proof Hn as (H1 & (c & m & -> & Hc)). cbn [app].
  apply does_char; [exact Hb|apply digit_not_ws, Hc|unfold digit in Hc; lia|unfold digit in Hc; lia|discriminate|rewrite app_length; lia|].
  intros sl st Hh Hs Hsl. unfold acts. rewrite (handle_digit _ _ _ _ Hc Hsl), Hh. cbv zeta.
  change (c :: m ++ r) with ((c :: m) ++ r). rewrite (numeral_number _ _ Hn Hr). apply content_then, push_ev_acts. cbn [i_content set_content stxt suffix_slice].
  apply skipn_length_app.
Qed.

Lemma digit_does : forall b c r, blank b -> digit c -> does true (b ++ c :: r) [EvContent (CNumber [c])] no_limits r.
Proof.
  intros b c r Hb Hc.
  apply does_char; [exact Hb|apply digit_not_ws, Hc|unfold digit in Hc; lia|unfold digit in Hc; lia|discriminate|lia|].
  intros sl st Hh Hs Hsl. unfold acts. rewrite (handle_digit _ _ _ _ Hc Hsl), Hh. apply content_then, push_ev_acts. reflexivity.
Qed.

Lemma group_does : forall h b g es r, blank b -> balanced 123 125 g -> formula None g es ->
  does h (b ++ 123 :: g ++ 125 :: r) (EvBegin GNormal :: es ++ [EvEnd]) no_limits r.
Proof.
  intros h b g es r Hb Hg Hf.
  apply does_char; [exact Hb|reflexivity|discriminate|discriminate|discriminate|rewrite app_length; cbn; lia|].
  intros sl st Hh Hs Hsl. unfold acts. rewrite (handle_brace _ _ _ Hsl).
  eapply step_ok; [unfold groupc; rewrite Hs, (brace_group g r Hg); reflexivity|].
  apply push_acts; [apply means_group; [|exact Hf]|reflexivity]. cbn [stxt mid_slice]. rewrite !app_length. cbn [length]. rewrite app_length. cbn [length]. lia.
Qed.

(** ** Tables *)

Lemma xarrow_prim : forall cs c, In (cs, c) xarrows -> lookup_prim cs = PXArrow c.
Proof. intros cs c [H|[H|[]]]; injection H as <- <-; vm_compute; reflexivity. Qed.

Lemma text_prim : forall cs f, In (cs, f) text_commands -> lookup_prim cs = PText f.
Proof. intros cs f H. repeat destruct H as [H|H]; try contradiction; injection H as <- <-; vm_compute; reflexivity. Qed.

Lemma class_prim : forall cs k, In (cs, k) classes -> exists a, lookup_prim cs = PAtom a /\ a <> AtOp /\ forall c, atom_event a c = k c.
Proof.
  intros cs k H. repeat destruct H as [H|H]; try contradiction; injection H as <- <-; eexists;
    (split; [vm_compute; reflexivity|split; [discriminate|intros c; reflexivity]]).
Qed.

Lemma size_prim : forall cs z, In (cs, z) sizes -> lookup_prim cs = PSized z.
Proof.
  assert (H : map (fun p => lookup_prim (fst p)) sizes = map (fun p => PSized (snd p)) sizes) by (vm_compute; reflexivity).
  intros cs z Hin. exact (map_eq_in _ _ (fun p => lookup_prim (fst p)) (fun p => PSized (snd p)) _ (cs, z) H Hin).
Qed.

Lemma trim_single : forall x c y, white x -> white y -> is_ws c = false -> trim (x ++ c :: y) = [c].
Proof.
  intros x c y Hx Hy Hc. unfold trim. rewrite trim_to by assumption. cbn [rev]. rewrite trim_to; [reflexivity| |exact Hc].
  unfold white in *. rewrite forallb_forall in *. intros z Hz. apply Hy, in_rev, Hz.
Qed.

Lemma trim_single_inv : forall g c, trim g = [c] -> exists x y, white x /\ white y /\ is_ws c = false /\ g = x ++ c :: y.
Proof.
  intros g c H. unfold trim in H. destruct (trim_start_suffix g) as (x & Hx & Hwx). destruct (trim_start_suffix (rev (trim_start g))) as (y & Hy & Hwy).
  assert (E : trim_start (rev (trim_start g)) = [c]) by (rewrite <- (rev_involutive (trim_start (rev _))), H; reflexivity).
  rewrite E in Hy. exists x, (rev y). split; [exact Hwx|]. split.
  - unfold white. rewrite forallb_forall in *. intros z Hz. apply Hwy, in_rev, Hz.
  - pose proof (trim_start_head (rev (trim_start g))) as Hh. rewrite E in Hh. split; [exact Hh|].
    rewrite Hx at 1. f_equal. rewrite <- (rev_involutive (trim_start g)), Hy, rev_app_distr. reflexivity.
Qed.

Lemma left_delim_run : forall s o r st, delimiter_opt s o r -> stxt (i_content st) = s ->
  (length r < length s)%nat /\ exists c, left_delim st = (Ok o, set_content c st) /\ stxt c = r.
Proof.
  intros s o r st H Hs. destruct H as [r|s c ty r Hn Hd]; unfold left_delim, bind, get; rewrite Hs.
  - rewrite strip_char_head. split; [cbn; lia|]. eexists. split; reflexivity.
  - apply delimiter_read in Hd as [Hd Hl]. split; [exact Hl|].
    assert (E : strip_char 46 s = None).
    { destruct (strip_char 46 s) as [x|] eqn:E; [|reflexivity]. apply strip_char_some in E. rewrite E in Hn. cbn in Hn. exfalso. apply Hn. reflexivity. }
    rewrite E. unfold lexc. rewrite Hs, Hd. eexists. split; reflexivity.
Qed.

Lemma mu_unit : forall d, dunit d = UMu -> is_mu d = true.
Proof. intros [v u] H. cbn in H. subst u. reflexivity. Qed.

Lemma in_mu_units : forall d p m, in_mu d p m -> is_mu d && mu_or_none p && mu_or_none m = true.
Proof.
  intros d p m [Hd H]. rewrite (mu_unit _ Hd). destruct p as [p|], m as [m|]; cbn; rewrite ?(mu_unit p), ?(mu_unit m); auto.
Qed.
Lemma not_in_mu : forall d p m, ~ in_mu d p m -> is_mu d && mu_or_none p && mu_or_none m = false.
Proof.
  intros d p m H. destruct (is_mu d && mu_or_none p && mu_or_none m) eqn:E; [|reflexivity]. exfalso. apply H.
  apply andb_prop in E as [E E3]. apply andb_prop in E as [E1 E2].
  assert (Hu : forall x, is_mu x = true -> dunit x = UMu) by (intros [v u]; destruct u; cbn; intros; congruence).
  split; [apply Hu, E1|]. intros x [->| ->]; apply Hu; assumption.
Qed.

Lemma delimiter_token : forall s c ty r, delimiter s c ty r -> exists t, lex_token s = (Ok t, r) /\ token_to_delim t = Some (c, ty).
Proof.
  intros s c ty r H. apply delimiter_read in H as [H _]. unfold lex_delimiter, bind in H. destruct (lex_token s) as [[t|e|p|] r0]; try discriminate.
  exists t. destruct (token_to_delim t) as [d|]; [|discriminate]. injection H as -> ->. auto.
Qed.

Lemma frac_delimiter_run : forall s o r st, frac_delimiter s o r -> stxt (i_content st) = s ->
  (length r < length s)%nat /\ exists c, genfrac_delim st = (Ok o, set_content c st) /\ stxt c = r.
Proof.
  intros s o r st H Hs. destruct H as [w r Hw|s c ty r Hn Hd].
  - split; [rewrite app_length; cbn; lia|]. destruct (argc_braced st w [] r Hs Hw) as (sl & c & Ha & Hsl & Hc); [constructor|].
    exists c. unfold genfrac_delim, bind. rewrite Ha. cbn [sarg_token]. rewrite Hsl. auto.
  - split; [apply delimiter_read in Hd as [_ Hl]; exact Hl|]. destruct (delimiter_token _ _ _ _ Hd) as (t & Ht & Hdt).
    assert (Ha : exists a c', argc st = (Ok a, set_content c' st) /\ sarg_token a = Some t /\ stxt c' = r).
    { unfold argc, arg_slice. rewrite Hs, (token_argument _ _ _ Hn Ht). destruct t as [cs|ctx]; do 2 eexists; (split; [reflexivity|split; reflexivity]). }
    destruct Ha as (a & c' & Ha & Hta & Hc'). exists c'. unfold genfrac_delim, bind. rewrite Ha, Hta, Hdt. auto.
Qed.

Lemma frac_bar_braces : forall x bar, frac_bar x bar -> balanced 123 125 x.
Proof.
  intros x bar [[-> _]|(x1 & y & d & -> & Hd & Hy & _)]; [constructor|]. apply plain_balanced.
  apply (Forall_impl (P := plain_char)); [unfold plain_char; tauto|]. apply Forall_app. split; [exact (dimension_text_chars _ _ Hd)|].
  destruct Hy as [[-> _]|(c & Hc & _ & ->)]; [constructor|]. apply white_plain. unfold white. cbn [forallb]. rewrite Hc. reflexivity.
Qed.

Definition genfrac_style (a : sarg) : P (option style) :=
  match a with
  | SCs _ => fail EArgument
  | SChr ctx => do s <- ok_or (style_digit (ctx_char (stxt ctx))) EArgument ; ret (Some s)
  | SGroup g =>
      match stxt g with
      | [] => ret None
      | [c] => do s <- ok_or (style_digit c) EArgument ; ret (Some s)
      | _ => fail EArgument
      end
  end.

Lemma brace_unbraced : forall b c r, blank b -> is_ws c = false -> c <> 37 -> c <> 92 -> c <> 123 \/ ~ white b -> ~ starts 123 (b ++ c :: r).
Proof.
  intros b c r Hb H1 H2 H3 H4 (w & r' & Hw & E). revert w Hw E. induction Hb as [|d b Hd Hb IH|t b Ht Hb IH]; intros w Hw E.
  - destruct w as [|d w].
    + injection E as -> _. destruct H4 as [H4|H4]; apply H4; reflexivity.
    + unfold white in Hw. cbn [forallb] in Hw. apply andb_prop in Hw as [Hd _]. injection E as <- _. congruence.
  - destruct w as [|d' w].
    + injection E as -> _. discriminate Hd.
    + unfold white in Hw. cbn [forallb] in Hw. apply andb_prop in Hw as [_ Hw]. injection E as <- E. eapply IH; [|exact Hw|exact E].
      destruct H4 as [H4|H4]; [left; exact H4|right]. intros X. apply H4. unfold white in *. cbn [forallb]. rewrite Hd. exact X.
  - destruct w as [|d' w]; [discriminate E|]. injection E as <- _. discriminate Hw.
Qed.

Lemma char_unbraced : forall b c r, blank b -> is_ws c = false -> c <> 37 -> c <> 92 -> c <> 123 -> ~ starts 123 (b ++ c :: r).
Proof.
  intros b c r Hb H1 H2 H3 H4 (w & r' & Hw & E). pose proof (char_token b c r Hb H1 H2 H3) as Ht. rewrite E, char_token in Ht; try reflexivity; try discriminate.
  - injection Ht as Ht _. congruence.
  - clear -Hw. induction w as [|x w IH]; [constructor|]. cbn in Hw. apply andb_prop in Hw as [Hx Hw]. constructor; auto.
Qed.

Lemma frac_style_run : forall s sty r st, frac_style s sty r -> stxt (i_content st) = s ->
  (length r < length s)%nat /\ exists a c, argc st = (Ok a, set_content c st) /\ stxt c = r /\ forall st, genfrac_style a st = (Ok sty, st).
Proof.
  intros s sty r st H Hs. destruct H as [w y sty r Hw Hy|b c sty r Hb Hc].
  - split; [lens|].
    assert (Hby : balanced 123 125 y) by (apply plain_balanced; repeat destruct Hy as [Hy|Hy]; try contradiction; injection Hy as <- _; repeat constructor; discriminate).
    destruct (argc_braced st w y r Hs Hw Hby) as (sl & c & H1 & Hsl & Hc). exists (SGroup sl), c. split; [exact H1|]. split; [exact Hc|].
    intros st'. unfold genfrac_style. rewrite Hsl. repeat destruct Hy as [Hy|Hy]; try contradiction; injection Hy as <- <-; reflexivity.
  - split; [lens|].
    assert (Hx : is_ws c = false /\ c <> 37 /\ c <> 92 /\ c <> 123)
      by (repeat destruct Hc as [Hc|Hc]; try contradiction; try discriminate Hc; injection Hc as <- <-; repeat split; discriminate).
    destruct Hx as (H1 & H2 & H3 & H4). unfold argc, arg_slice.
    rewrite Hs, (token_argument _ _ _ (char_unbraced b c r Hb H1 H2 H3 H4) (char_token b c r Hb H1 H2 H3)).
    do 2 eexists. split; [reflexivity|]. split; [reflexivity|]. intros st'. unfold genfrac_style. cbn [stxt ctx_char suffix_slice].
    repeat destruct Hc as [Hc|Hc]; try contradiction; try discriminate Hc; injection Hc as <- <-; reflexivity.
Qed.

Lemma one_argument_run : forall s r st, one_argument s r -> stxt (i_content st) = s ->
  (length r < length s)%nat /\ exists a c, argc st = (Ok a, set_content c st) /\ stxt c = r.
Proof.
  intros s r st H Hs. destruct H as [w g r Hw Hg|b c r Hb H1 H2 H3 H4|b cs t r Hb Hc].
  - split; [lens|]. destruct (argc_braced st w g r Hs Hw Hg) as (sl & c & H1 & _ & H3). eauto.
  - split; [lens|]. pose proof (brace_unbraced b c r Hb H1 H2 H3 H4) as Hns.
    unfold argc, arg_slice. rewrite Hs, (token_argument _ _ _ Hns (char_token b c r Hb H1 H2 H3)). do 2 eexists. split; reflexivity.
  - pose proof (control_length _ _ _ Hc) as Hlen. split; [lens|]. assert (Hns : ~ starts 123 (b ++ t)).
    { intros (w & r' & Hw & E). pose proof (control_token b cs t r Hb Hc) as Ht. rewrite E, char_token in Ht; try reflexivity; try discriminate.
      clear -Hw. induction w as [|x w IH]; [constructor|]. cbn in Hw. apply andb_prop in Hw as [Hx Hw]. constructor; auto. }
    unfold argc, arg_slice. rewrite Hs, (token_argument _ _ _ Hns (control_token b cs t r Hb Hc)). do 2 eexists. split; reflexivity.
Qed.

(** The argument of [\buildrel] is handled without reading the text. *)
Lemma over_run : forall x es, over x es -> forall sl f n, stxt sl = x -> (length x < n)%nat -> exists a,
  fst (arg_slice sl) = Ok a /\ forall st, exists L h,
    handle_arg (hprim (S f)) a st = (Ok tt, result st L (i_content st) h no_limits) /\ means n L es.
Proof.
  intros x es H sl f n Hs Hn. destruct H as [w g es w' Hw Hg Hf _|b c w Hb Hc _|b cs t e w Hb Hc He _]; unfold arg_slice; rewrite Hs.
  - rewrite (braced_argument w g w' Hw Hg). eexists. split; [reflexivity|]. intros st. exists (group_instrs (mid_slice sl g 1 w')), (i_handling st).
    split; [|apply means_group; cbn [stxt mid_slice]; [lens|exact Hf]].
    cbn [handle_arg]. unfold push, modify, result, set_buf. cbn. rewrite orb_false_r. reflexivity.
  - pose proof (special_false _ Hc) as (H1 & H2 & H3 & H4 & H5 & H6 & H7 & H8 & H9 & H10 & H11).
    assert (Hns : ~ starts 123 (b ++ c :: w)).
    { intros (w0 & r' & Hw & E). pose proof (char_token b c w Hb H1 H3 H2) as Ht. rewrite E, char_token in Ht; try reflexivity; try discriminate.
      - injection Ht as Ht _. congruence.
      - clear -Hw. induction w0 as [|y w0 IH]; [constructor|]. cbn in Hw. apply andb_prop in Hw as [Hx Hw]. constructor; auto. }
    rewrite (token_argument _ _ _ Hns (char_token b c w Hb H1 H3 H2)). eexists. split; [reflexivity|].
    intros st. exists [IEv (char_meaning c)], true. split; [|repeat constructor]. cbn [handle_arg]. unfold bind, modify.
    rewrite (handle_plain (suffix_slice sl (c :: w)) c w _ Hc eq_refl). unfold push_ev, push, modify, result, set_buf, set_handling. cbn. rewrite orb_false_r. reflexivity.
  - assert (Hns : ~ starts 123 (b ++ t)).
    { intros (w0 & r' & Hw & E). pose proof (control_token b cs t w Hb Hc) as Ht. rewrite E, char_token in Ht; try reflexivity; try discriminate.
      clear -Hw. induction w0 as [|y w0 IH]; [constructor|]. cbn in Hw. apply andb_prop in Hw as [Hx Hw]. constructor; auto. }
    rewrite (token_argument _ _ _ Hns (control_token b cs t w Hb Hc)). eexists. split; [reflexivity|].
    intros st. exists [IEv e], true. split; [|repeat constructor]. cbn [handle_arg]. unfold bind, modify. cbn [hprim]. unfold hprim_body. rewrite He.
    unfold push_ev, push, modify, result, set_buf, set_handling. cbn. rewrite orb_false_r. reflexivity.
Qed.

Lemma delimited_split : forall suf s a r, delimited suf s a r -> s = a ++ suf ++ r.
Proof.
  intros suf s a r H. induction H; cbn [app] in *; rewrite <- ?app_assoc; cbn [app]; rewrite <- ?app_assoc; cbn [app]; congruence.
Qed.

Lemma buildrel_acts : forall f s x es1 s' es2 r st n,
  delimited (lit "\over") s x s' -> over x es1 -> does true s' es2 no_limits r -> stxt (i_content st) = s ->
  (length s <= f)%nat -> (length s <= n)%nat ->
  acts (hprim_body (hprim f) (lit "buildrel")) st n (EvScript STSup SPAboveBelow :: es2 ++ es1) no_limits r.
Proof.
  intros f s x es1 s' es2 r st n Hd Ho H2 Hs Hf Hn. unfold hprim_body. replace (lookup_prim (lit "buildrel")) with PBuildrel by (vm_compute; reflexivity).
  pose proof (delimited_split _ _ _ _ Hd) as Hl.
  assert (Hx : (length x < length s /\ length s' < length s)%nat) by (rewrite Hl, !app_length; cbn; lia).
  apply content_with_suffix_iff in Hd; [|discriminate].
  set (st0 := set_content (suffix_slice (i_content st) s') st).
  destruct f as [|f]; [lia|].
  destruct (over_run x es1 Ho (mid_slice (i_content st) x 5 s') f n eq_refl ltac:(lia)) as (a & Ha & H3).
  set (st1 := set_buf (i_buf st0 ++ [IEv (EvScript STSup SPAboveBelow)]) st0).
  destruct (H3 st1) as (L1 & h1 & H4 & H5).
  set (st2 := mkIst (i_content st1) (i_buf st1) (i_allow st1) (i_pos st1) (i_skip st1) h1 (i_align st1) (i_macros st1)).
  destruct (arg_does _ _ _ H2 (S f) st2 eq_refl ltac:(lia)) as (a2 & c2 & Ha2 & H7). destruct (H7 (set_content c2 st2) eq_refl) as (L2 & c3 & h2 & H8 & H9 & H10).
  exists (IEv (EvScript STSup SPAboveBelow) :: L2 ++ L1), c3, h2. split.
  2:{ split; [exact H9|]. constructor. apply means_app; eapply means_more; try eassumption; lia. }
  unfold bind at 1, get. unfold bind at 1, lexc. rewrite Hs, Hd. cbv zeta beta iota. fold st0.
  unfold bind at 1. unfold bind at 1, push_ev, push, modify at 1. fold st1. unfold bind at 1, buf_len. unfold bind at 1, lift.
  replace (stxt (i_content st0)) with s' by reflexivity. rewrite Ha. unfold bind at 1. rewrite H4.
  unfold bind at 1, split_off, result. cbn [i_buf i_content i_allow i_pos i_skip i_handling i_align i_macros set_content set_buf no_limits fst snd].
  rewrite skipn_app, skipn_all, Nat.sub_diag, firstn_app, firstn_all, Nat.sub_diag. cbn [skipn firstn app]. rewrite app_nil_r, orb_false_r.
  match goal with |- context [bind argc _ ?t] => change t with st2 end.
  unfold bind at 1. rewrite Ha2. unfold bind at 1. rewrite H8.
  unfold modify, set_buf, result. cbn. rewrite <- !app_assoc, orb_false_r. reflexivity.
Qed.

(** A character class of a bare character, and of a command. *)
Lemma class_bare_acts : forall a f b c r st n, blank b -> is_ws c = false -> c <> 37 -> c <> 92 -> ~ starts 123 (b ++ c :: r) ->
  stxt (i_content st) = b ++ c :: r -> acts (atom_group (hprim f) a) st n [atom_event a c] no_limits r.
Proof.
  intros a f b c r st n Hb H1 H2 H3 Hn Hs. unfold atom_group.
  eapply step_ok; [unfold argc, arg_slice; rewrite Hs, (token_argument _ _ _ Hn (char_token b c r Hb H1 H2 H3)); reflexivity|].
  apply push_ev_acts. reflexivity.
Qed.

Lemma class_command_acts : forall a f b cs t r0 es r st n, blank b -> control cs t r0 -> does true (b ++ t) es no_limits r ->
  stxt (i_content st) = b ++ t -> (length (b ++ t) <= f)%nat -> (length (b ++ t) <= n)%nat ->
  acts (atom_group (hprim f) a) st n (EvBegin GNormal :: es ++ [EvEnd]) no_limits r.
Proof.
  intros a f b cs t r0 es r st n Hb Hc Hd Hs Hf Hn. pose proof (control_token _ _ _ _ Hb Hc) as Ht.
  assert (Hns : ~ starts 123 (b ++ t)).
  { intros (w & x & Hw & E). rewrite E in Ht. rewrite char_token in Ht; try discriminate; [|reflexivity].
    clear -Hw. induction w as [|c w IH]; [constructor|]. cbn in Hw. apply andb_prop in Hw as [H1 H2]. constructor; auto. }
  destruct Hd as (_ & _ & Hd). rewrite Ht in Hd. destruct Hd as (Hl & Hd). unfold atom_group.
  eapply step_ok; [unfold argc, arg_slice; rewrite Hs, (token_argument _ _ _ Hns Ht); reflexivity|].
  assert (Hx : acts (push_ev (EvBegin GNormal) ;; handle_arg (hprim f) (SCs cs) ;; push_ev EvEnd) (set_content (suffix_slice (i_content st) r0) st) n
    (EvBegin GNormal :: es ++ [EvEnd]) no_limits r).
  { apply push_ev_then. intros st1 E1 _ _. eapply acts_end; [|intros st2 E2; apply push_ev_acts, E2].
    cbn [handle_arg]. destruct (Hd f (set_handling true st1) eq_refl) as (L & c & h & H1 & H2 & H3); [cbn; rewrite E1; reflexivity|lia|].
    exists L, c, h. unfold bind, modify. rewrite H1. split; [reflexivity|]. split; [exact H2|]. eapply means_more; [exact H3|lia]. }
  cbn [single_char]. destruct a; exact Hx.
Qed.

Theorem nucleus_does :
  (forall h s es l r, nucleus h s es l r -> does h s es l r) /\
  (forall h ks s ess r, arguments h ks s ess r -> args_do h ks s ess r).
Proof.
  apply nucleus_arguments.
  - (* char *) intros h b c r Hb Hs. pose proof (special_false _ Hs) as (H1 & H2 & H3 & _).
    apply does_char; try assumption; [discriminate|lia|]. intros sl st Hh Hc Hsl. unfold acts. rewrite (handle_plain _ _ _ _ Hs Hsl).
    apply push_ev_acts, Hc.
  - intros. apply number_does; assumption.
  - intros. apply digit_does; assumption.
  - intros. apply group_does; assumption.
  - (* symbol *) intros h b cs t e r Hb Hc Hs. eapply does_control; [exact Hb|exact Hc|discriminate|lia|].
    intros f st Hh Hst Hf. unfold hprim_body. rewrite Hs. apply push_ev_acts, Hst.
  - (* command *) intros h b cs t s c ess r Hb Hc Hin _ Ha. eapply does_control; [exact Hb|exact Hc|eapply commands_ne; exact Hin|apply args_length in Ha; exact Ha|].
    intros f st Hh Hst Hf. apply (command_acts cs c h s ess r (command_prim _ _ Hin) Ha (S f)); try assumption; lia.
  - (* sqrt *) intros h b t s es r Hb Hc Hns _ Hd. assert (length r < length s)%nat by apply Hd.
    eapply does_control; [exact Hb|exact Hc|discriminate|lia|]. intros f st Hh Hst Hf. unfold hprim_body.
    replace (lookup_prim (lit "sqrt")) with PSqrt by (vm_compute; reflexivity). rewrite <- Hst in Hns. destruct (optc_none st Hns) as (c & Ho & Hcs).
    eapply step_ok; [exact Ho|]. apply push_ev_then. intros st1 E1 _ _. eapply arg_then; [exact Hd|rewrite E1; cbn; congruence|lia|lia].
  - (* root *) intros h b t w i es' s es r Hb Hc Hw Hi Hf _ Hd. assert (length r < length s)%nat by apply Hd.
    eapply does_control; [exact Hb|exact Hc|discriminate|lens|]. intros f st Hh Hst Hfu. unfold hprim_body.
    replace (lookup_prim (lit "sqrt")) with PSqrt by (vm_compute; reflexivity). destruct (optc_some st w i s Hst Hw Hi) as (sl & c & Ho & Hsl & Hcs).
    eapply step_ok; [exact Ho|]. apply push_ev_then. intros st1 E1 _ _. eapply arg_seq; [exact Hd|rewrite E1; exact Hcs|lens|lens|].
    intros st2 E2 _. rewrite <- (app_nil_r es'). apply push_acts; [|exact E2]. constructor; [rewrite Hsl; lens|rewrite Hsl; exact Hf|constructor].
  - (* xarrow *) intros h b cs t c s es r Hb Hc Hin Hns _ Hd. assert (length r < length s)%nat by apply Hd.
    eapply does_control; [exact Hb|exact Hc|discriminate|lia|]. intros f st Hh Hst Hf. unfold hprim_body.
    rewrite (xarrow_prim _ _ Hin). rewrite <- Hst in Hns. destruct (optc_none st Hns) as (c' & Ho & Hcs).
    eapply step_ok; [exact Ho|]. apply (arg_between s es r Hd f _ _ []); [cbn; congruence|lia|lia|]. intros a c1 Ha. cbn [app is_some].
    apply (push_then [above; rel c]). intros st1 E1 _ _. apply ret_then. apply Ha, E1.
  - (* xarrow below *) intros h b cs t c w i es' s es r Hb Hc Hin Hw Hi Hf _ Hd. assert (length r < length s)%nat by apply Hd.
    eapply does_control; [exact Hb|exact Hc|discriminate|lens|]. intros f st Hh Hst Hfu. unfold hprim_body.
    rewrite (xarrow_prim _ _ Hin). destruct (optc_some st w i s Hst Hw Hi) as (sl & c' & Ho & Hsl & Hcs).
    eapply step_ok; [exact Ho|]. apply (arg_between s es r Hd f _ _ []); [exact Hcs|lens|lens|]. intros a c1 Ha. cbn [app is_some].
    apply (push_then [EvScript STSubSup SPAboveBelow; rel c]). intros st1 E1 _ _. cbn [handle_arg].
    replace (EvBegin GNormal :: es' ++ EvEnd :: es) with ((EvBegin GNormal :: es' ++ [EvEnd]) ++ es) by (cbn; rewrite <- app_assoc; reflexivity).
    unfold acts, bind, push, modify. destruct (Ha (set_buf (i_buf st1 ++ group_instrs sl) st1) E1) as (L & c2 & h2 & H1 & H2 & H3).
    exists (group_instrs sl ++ L), c2, h2. rewrite H1. split; [unfold result; cbn [i_buf set_buf]; rewrite app_assoc; reflexivity|].
    split; [exact H2|]. apply means_app; [|exact H3]. apply means_group; [rewrite Hsl; lens|rewrite Hsl; exact Hf].
  - (* text *) intros h b cs t f w x r Hb Hc Hin Hw Hx. eapply does_control; [exact Hb|exact Hc|destruct f; discriminate|lens|].
    intros fu st Hh Hst Hf. unfold hprim_body. rewrite (text_prim _ _ Hin). destruct (argc_braced st w x r Hst Hw Hx) as (sl & c & Ha & Hsl & Hcs).
    eapply step_ok; [exact Ha|]. cbn iota beta. rewrite Hsl. destruct f as [f|]; cbn [text_meaning].
    + apply push_acts; [apply (means_evs _ [_; _; _; _])|exact Hcs].
    + apply push_ev_acts, Hcs.
  - (* operatorname *) intros h b t w x r Hb Hc Hw Hx. eapply does_control; [exact Hb|exact Hc|discriminate|lens|].
    intros fu st Hh Hst Hf. unfold hprim_body. replace (lookup_prim (lit "operatorname")) with POperatorname by (vm_compute; reflexivity).
    apply allow_then. destruct (argc_braced (set_allow true st) w x r Hst Hw Hx) as (sl & c & Ha & Hsl & Hcs).
    eapply step_ok; [exact Ha|]. cbn iota beta. rewrite Hsl. apply push_ev_acts, Hcs.
  - (* class of a character *) intros h b cs t k w x c y r Hb Hc Hin Hw Hx Hy Hcw Hbal. eapply does_control; [exact Hb|exact Hc|discriminate|lens|].
    intros fu st Hh Hst Hf. unfold hprim_body. destruct (class_prim _ _ Hin) as (a & Hp & _ & He). rewrite Hp. unfold atom_group.
    replace (w ++ 123 :: x ++ c :: y ++ 125 :: r) with (w ++ 123 :: (x ++ c :: y) ++ 125 :: r) in Hst by (rewrite <- app_assoc; reflexivity).
    destruct (argc_braced st w _ r Hst Hw Hbal) as (sl & c' & Ha & Hsl & Hcs). eapply step_ok; [exact Ha|]. cbn [single_char]. rewrite Hsl, trim_single by assumption.
    rewrite He. apply push_ev_acts, Hcs.
  - (* class of a group *) intros h b cs t k w g es r Hb Hc Hin Hw Hbal Hmany Hf. eapply does_control; [exact Hb|exact Hc|discriminate|lens|].
    intros fu st Hh Hst Hfu. unfold hprim_body. destruct (class_prim _ _ Hin) as (a & Hp & Hop & He). rewrite Hp. unfold atom_group.
    destruct (argc_braced st w _ r Hst Hw Hbal) as (sl & c' & Ha & Hsl & Hcs). eapply step_ok; [exact Ha|].
    assert (E : single_char (SGroup sl) = None).
    { cbn [single_char]. rewrite Hsl. destruct (trim g) as [|z [|z' l]] eqn:Et; try reflexivity.
      apply trim_single_inv in Et as (x & y & H1 & H2 & H3 & H4). exfalso. exact (Hmany x z y H1 H2 H3 H4). }
    rewrite E. means_is (EvBegin GNormal :: (EvBegin GNormal :: es ++ [EvEnd]) ++ [EvEnd]).
    assert (Hx : acts (push_ev (EvBegin GNormal) ;; handle_arg (hprim fu) (SGroup sl) ;; push_ev EvEnd) (set_content c' st)
      (S (length (w ++ 123 :: g ++ 125 :: r))) (EvBegin GNormal :: (EvBegin GNormal :: es ++ [EvEnd]) ++ [EvEnd]) no_limits r).
    { apply push_ev_then. intros st1 E1 _ _. eapply (acts_end _ _ _ _ _ r).
      - apply push_acts; [apply means_group; [rewrite Hsl; lens|rewrite Hsl; exact Hf]|rewrite E1; exact Hcs].
      - intros st2 E2. apply push_ev_acts, E2. }
    destruct a; try exact Hx. contradiction Hop; reflexivity.
  - (* left *) intros h b t s o g s' c es r Hb Hc Ho Hg Hcl Hf. eapply does_control; [exact Hb|exact Hc|discriminate| |].
    { apply (left_delim_run _ _ _ (mkIst (mkSlice 0 0 s) [] false SPRight false false None [])) in Ho as [Ho _]; [|reflexivity].
      apply (left_delim_run _ _ _ (mkIst (mkSlice 0 0 s') [] false SPRight false false None [])) in Hcl as [Hcl _]; [|reflexivity]. lens. }
    intros fu st Hh Hst Hfu. unfold hprim_body. replace (lookup_prim (lit "left")) with PLeft by (vm_compute; reflexivity).
    destruct (left_delim_run _ _ _ st Ho Hst) as (Hl1 & c1 & H1 & Hc1). eapply step_ok; [exact H1|].
    assert (Hgr : exists sl c2, groupc GKLeftRight (set_content c1 st) = (Ok sl, set_content c2 (set_content c1 st)) /\ stxt sl = g /\ stxt c2 = s').
    { unfold groupc. cbn [i_content set_content]. rewrite Hc1. apply (group_content_iff GKLeftRight) in Hg. rewrite Hg. do 2 eexists. split; [reflexivity|split; reflexivity]. }
    destruct Hgr as (sl & c2 & Hgr & Hsl & Hc2). eapply step_ok; [exact Hgr|].
    destruct (left_delim_run _ _ _ (set_content c2 (set_content c1 st)) Hcl Hc2) as (Hl2 & c3 & H3 & Hc3). eapply step_ok; [exact H3|].
    apply push_acts; [|exact Hc3]. constructor. constructor; [rewrite Hsl; lens|rewrite Hsl; exact Hf|repeat constructor].
  - (* sized *) intros h b cs t z s c ty r Hb Hc Hin Hd. apply delimiter_read in Hd as [Hd Hl]. eapply does_control; [exact Hb|exact Hc|discriminate|lia|].
    intros fu st Hh Hst Hfu. unfold hprim_body. rewrite (size_prim _ _ Hin). unfold sized_delim.
    eapply step_ok; [unfold lexc; rewrite Hst, Hd; reflexivity|]. apply push_ev_acts. reflexivity.
  - (* middle *) intros h b t s c ty r Hb Hc Hd. apply delimiter_read in Hd as [Hd Hl]. eapply does_control; [exact Hb|exact Hc|discriminate|lia|].
    intros fu st Hh Hst Hfu. unfold hprim_body. replace (lookup_prim (lit "middle")) with PMiddle by (vm_compute; reflexivity).
    eapply step_ok; [unfold lexc; rewrite Hst, Hd; reflexivity|]. apply push_ev_acts. reflexivity.
  - (* environment *) intros h b t w name s e s1 ls s2 g es r Hb Hc Hw He Hls Hg Hf.
    pose proof (lines_suffix _ _ _ Hls) as Hl1. pose proof (enclosed_text _ _ _ _ _ Hg) as Hl2.
    destruct (env_args_run _ _ _ _ He (mkIst (mkSlice 0 0 s) [] false SPRight false false None []) eq_refl) as (_ & Hl3 & _).
    eapply does_control; [exact Hb|exact Hc|unfold env_events; destruct (v_around e) as [[? ?]|]; discriminate| |].
    { apply (f_equal (@length N)) in Hl2. lens. }
    intros fu st Hh Hst Hfu. unfold hprim_body. replace (lookup_prim (lit "begin")) with PBegin by (vm_compute; reflexivity).
    eapply begin_acts; [exact Hst|reflexivity|exact Hw|exact He|exact Hls|exact Hg|exact Hf|lia].
  - (* substack *) intros h b t w g es r Hb Hc Hw Hg Hf. eapply does_control; [exact Hb|exact Hc|discriminate|lens|].
    intros fu st Hh Hst Hfu. unfold hprim_body. replace (lookup_prim (lit "substack")) with PSubstack by (vm_compute; reflexivity).
    assert (Hbr : exists sl c, bracec st = (Ok sl, set_content c st) /\ stxt sl = g /\ stxt c = r).
    { unfold bracec, brace_argument. rewrite Hst, trim_to by (try exact Hw; reflexivity). rewrite strip_char_head, brace_group by exact Hg.
      do 2 eexists. split; [reflexivity|split; reflexivity]. }
    destruct Hbr as (sl & c & Hbr & Hsl & Hcs). eapply step_ok; [exact Hbr|].
    apply push_acts; [|exact Hcs]. constructor. constructor; [rewrite Hsl; lens|rewrite Hsl; exact Hf|repeat constructor].
  - (* textcolor *) intros h b t w x c s es r Hb Hc Hw Hx Hcol _ Hd. assert (length r < length s)%nat by apply Hd.
    eapply does_control; [exact Hb|exact Hc|discriminate|lens|]. intros fu st Hh Hst Hfu. unfold hprim_body.
    replace (lookup_prim (lit "textcolor")) with PTextcolor by (vm_compute; reflexivity).
    destruct (group_arg_braced EArgument st w x s Hst Hw Hx) as (c1 & H1 & Hc1). eapply step_ok; [exact H1|].
    eapply (step_ok _ _ _ (set_content c1 st) c c1). { unfold color_of, bind, lift. rewrite Hcol. reflexivity. }
    apply (arg_between s es r Hd fu _ _ []); [exact Hc1|lens|lens|]. intros a c2 Ha. cbn [app].
    apply (push_then [EvBegin GNormal; EvState (SCColor c CTText)]). intros st1 E1 _ _. eapply acts_end; [apply Ha, E1|]. intros st2 E2. apply push_ev_acts, E2.
  - (* colorbox *) intros h b t w x c w' y r Hb Hc Hw Hw' Hx Hy Hcol. eapply does_control; [exact Hb|exact Hc|discriminate|lens|].
    intros fu st Hh Hst Hfu. unfold hprim_body. replace (lookup_prim (lit "colorbox")) with PColorbox by (vm_compute; reflexivity).
    destruct (group_arg_braced EArgument st w x _ Hst Hw Hx) as (c1 & H1 & Hc1). eapply step_ok; [exact H1|].
    eapply (step_ok _ _ _ (set_content c1 st) c c1). { unfold color_of, bind, lift. rewrite Hcol. reflexivity. }
    apply (push_then [EvBegin GNormal; EvState (SCColor c CTBackground)]). intros st1 E1 _ _.
    change [EvContent (CText y); EvEnd] with ([EvContent (CText y)] ++ [EvEnd]). eapply (acts_end _ _ _ _ _ r).
    + unfold text_argument. rewrite <- E1 in Hc1 || (cbn [i_content set_content] in E1; rewrite <- E1 in Hc1).
      destruct (argc_braced st1 w' y r Hc1 Hw' Hy) as (sl & c2 & Ha & Hsl & Hcs). eapply step_ok; [exact Ha|]. cbn iota beta. rewrite Hsl. apply push_ev_acts, Hcs.
    + intros st2 E2. apply push_ev_acts, E2.
  - (* fcolorbox *) intros h b t w x c w' x' c' w'' y r Hb Hc Hw Hw' Hw'' Hx Hx' Hy Hcol Hcol'. eapply does_control; [exact Hb|exact Hc|discriminate|lens|].
    intros fu st Hh Hst Hfu. unfold hprim_body. replace (lookup_prim (lit "fcolorbox")) with PFcolorbox by (vm_compute; reflexivity).
    destruct (group_arg_braced EArgument st w x _ Hst Hw Hx) as (c1 & H1 & Hc1). eapply step_ok; [exact H1|].
    destruct (group_arg_braced EArgument (set_content c1 st) w' x' _ Hc1 Hw' Hx') as (c2 & H2 & Hc2). eapply step_ok; [exact H2|].
    eapply (step_ok _ _ _ _ c c2). { unfold color_of, bind, lift. rewrite Hcol. reflexivity. }
    eapply (step_ok _ _ _ _ c' c2). { unfold color_of, bind, lift. rewrite Hcol'. reflexivity. }
    apply (push_then [EvBegin GNormal; EvState (SCColor c CTBorder); EvState (SCColor c' CTBackground)]). intros st1 E1 _ _.
    change [EvContent (CText y); EvEnd] with ([EvContent (CText y)] ++ [EvEnd]). eapply (acts_end _ _ _ _ _ r).
    + unfold text_argument. cbn [i_content set_content] in E1. rewrite <- E1 in Hc2.
      destruct (argc_braced st1 w'' y r Hc2 Hw'' Hy) as (sl & c3 & Ha & Hsl & Hcs). eapply step_ok; [exact Ha|]. cbn iota beta. rewrite Hsl. apply push_ev_acts, Hcs.
    + intros st2 E2. apply push_ev_acts, E2.
  - (* space *) intros h b cs g mu t x d s r Hb Hin Hc Hd Hs Hmu Hg. eapply does_control; [exact Hb|exact Hc|discriminate|destruct Hs as [[-> _]|(c0 & _ & _ & ->)]; lens|].
    intros fu st Hh Hst Hfu. unfold hprim_body. repeat destruct Hin as [Hin|Hin]; try contradiction; injection Hin as <- <- <-.
    + replace (lookup_prim (lit "kern")) with PKern by (vm_compute; reflexivity).
      eapply step_ok; [unfold lexc; rewrite Hst, (kern_read _ _ _ _ Hd Hs); reflexivity|]. apply push_ev_acts. reflexivity.
    + replace (lookup_prim (lit "mkern")) with PMkern by (vm_compute; reflexivity).
      eapply step_ok; [unfold lexc; rewrite Hst, (kern_read _ _ _ _ Hd Hs); reflexivity|]. rewrite (mu_unit _ (Hmu eq_refl)). apply push_ev_acts. reflexivity.
    + replace (lookup_prim (lit "hskip")) with PHskip by (vm_compute; reflexivity).
      eapply step_ok; [unfold lexc; rewrite Hst, (hskip_read _ _ _ _ Hd Hs (Hg eq_refl)); reflexivity|]. apply push_ev_acts. reflexivity.
    + replace (lookup_prim (lit "mskip")) with PMskip by (vm_compute; reflexivity).
      eapply step_ok; [unfold lexc; rewrite Hst, (hskip_read _ _ _ _ Hd Hs (Hg eq_refl)); reflexivity|]. cbn [fst snd mu_or_none].
      rewrite (mu_unit _ (Hmu eq_refl)). apply push_ev_acts. reflexivity.
  - (* braced space *) intros h b cs g mu t w x y d r Hb Hin Hc Hw Hd Ht Hmu. eapply does_control; [exact Hb|exact Hc|discriminate|lens|].
    pose proof (length_braces _ _ _ Hd Ht) as Hbal. destruct Ht as (z & Hz & Hzw).
    pose proof (braced_then _ _ w (x ++ y) _ z r Hw Hbal (dimension_spaced _ _ _ _ Hd Hz) Hzw) as Hx.
    pose proof (braced_then _ _ w (x ++ y) _ z r Hw Hbal (glue_trailing _ _ _ _ Hd Hz Hzw) Hzw) as Hy.
    intros fu st Hh Hst Hfu. unfold hprim_body. repeat destruct Hin as [Hin|Hin]; try contradiction; injection Hin as <- <- <-.
    + replace (lookup_prim (lit "kern")) with PKern by (vm_compute; reflexivity).
      eapply step_ok; [unfold lexc, dimension_or_braced; rewrite Hst, Hx; reflexivity|]. apply push_ev_acts. reflexivity.
    + replace (lookup_prim (lit "mkern")) with PMkern by (vm_compute; reflexivity).
      eapply step_ok; [unfold lexc, dimension_or_braced; rewrite Hst, Hx; reflexivity|]. rewrite (mu_unit _ (Hmu eq_refl)). apply push_ev_acts. reflexivity.
    + replace (lookup_prim (lit "hskip")) with PHskip by (vm_compute; reflexivity).
      eapply step_ok; [unfold lexc, glue_or_braced; rewrite Hst, Hy; reflexivity|]. apply push_ev_acts. reflexivity.
    + replace (lookup_prim (lit "mskip")) with PMskip by (vm_compute; reflexivity).
      eapply step_ok; [unfold lexc, glue_or_braced; rewrite Hst, Hy; reflexivity|]. cbn [fst snd mu_or_none].
      rewrite (mu_unit _ (Hmu eq_refl)). apply push_ev_acts. reflexivity.
  - (* hspace *) intros h b t w x y d r Hb Hc Hw Hd Ht. eapply does_control; [exact Hb|exact Hc|discriminate|lens|].
    intros fu st Hh Hst Hfu. unfold hprim_body. replace (lookup_prim (lit "hspace")) with PHspace by (vm_compute; reflexivity).
    destruct (group_arg_braced EDimensionArgument st w (x ++ y) r Hst Hw (length_braces _ _ _ Hd Ht)) as (c & Ha & Hcs). eapply step_ok; [exact Ha|].
    destruct Ht as (z & Hz & Hzw). eapply step_ok; [unfold on_local; rewrite (glue_trailing _ _ _ _ Hd Hz Hzw); f_equal; symmetry; apply set_content_same|]. apply push_ev_acts. exact Hcs.
  - (* glue *) intros h b cs mu t s d p m r Hb Hin Hc Hd Hmu. eapply does_control; [exact Hb|exact Hc|discriminate|pose proof (glue_text_rest _ _ _ _ _ Hd); lens|].
    intros fu st Hh Hst Hfu. unfold hprim_body. pose proof (stretched_hskip _ _ _ _ _ Hd) as Hx.
    repeat destruct Hin as [Hin|Hin]; try contradiction; try discriminate; injection Hin as <- <-.
    + replace (lookup_prim (lit "hskip")) with PHskip by (vm_compute; reflexivity).
      eapply step_ok; [unfold lexc; rewrite Hst, Hx; reflexivity|]. apply push_ev_acts. reflexivity.
    + replace (lookup_prim (lit "mskip")) with PMskip by (vm_compute; reflexivity).
      eapply step_ok; [unfold lexc; rewrite Hst, Hx; reflexivity|]. cbn [fst snd]. rewrite (in_mu_units _ _ _ (Hmu eq_refl)). apply push_ev_acts. reflexivity.
  - (* braced glue *) intros h b cs mu t w x d p m z r Hb Hin Hc Hw Hbal Hd Hz Hmu. eapply does_control; [exact Hb|exact Hc|discriminate|lens|].
    pose proof (braced_then _ _ w x _ z r Hw Hbal (stretched_read _ _ _ _ _ Hd) Hz) as Hx.
    intros fu st Hh Hst Hfu. unfold hprim_body. repeat destruct Hin as [Hin|Hin]; try contradiction; try discriminate; injection Hin as <- <-.
    + replace (lookup_prim (lit "hskip")) with PHskip by (vm_compute; reflexivity).
      eapply step_ok; [unfold lexc, glue_or_braced; rewrite Hst, Hx; reflexivity|]. apply push_ev_acts. reflexivity.
    + replace (lookup_prim (lit "mskip")) with PMskip by (vm_compute; reflexivity).
      eapply step_ok; [unfold lexc, glue_or_braced; rewrite Hst, Hx; reflexivity|]. cbn [fst snd]. rewrite (in_mu_units _ _ _ (Hmu eq_refl)). apply push_ev_acts. reflexivity.
  - (* hspace with glue *) intros h b t w x d p m z r Hb Hc Hw Hbal Hd Hz. eapply does_control; [exact Hb|exact Hc|discriminate|lens|].
    intros fu st Hh Hst Hfu. unfold hprim_body. replace (lookup_prim (lit "hspace")) with PHspace by (vm_compute; reflexivity).
    destruct (group_arg_braced EDimensionArgument st w x r Hst Hw Hbal) as (c & Ha & Hcs). eapply step_ok; [exact Ha|].
    eapply step_ok; [unfold on_local; rewrite (stretched_read _ _ _ _ _ Hd); f_equal; symmetry; apply set_content_same|]. apply push_ev_acts. exact Hcs.
  - (* Space *) intros h b t w x d w' x' d' w'' x'' d'' r Hb Hc Hw Hw' Hw'' Hd Hd' Hd''. eapply does_control; [exact Hb|exact Hc|discriminate|lens|].
    intros fu st Hh Hst Hfu. unfold hprim_body. replace (lookup_prim (lit "Space")) with PSpaceCmd by (vm_compute; reflexivity).
    destruct (group_arg_braced EDimensionArgument st w x _ Hst Hw (dimension_text_braces _ _ Hd)) as (c & Ha & Hcs). eapply step_ok; [exact Ha|].
    eapply step_ok; [unfold on_local; rewrite (dimension_alone _ _ Hd); f_equal; symmetry; apply set_content_same|].
    match goal with |- acts _ ?st1 _ _ _ _ => destruct (group_arg_braced EDimensionArgument st1 w' x' _ Hcs Hw' (dimension_text_braces _ _ Hd')) as (c1 & Ha1 & Hcs1) end. eapply step_ok; [exact Ha1|].
    eapply step_ok; [unfold on_local; rewrite (dimension_alone _ _ Hd'); f_equal; symmetry; apply set_content_same|].
    match goal with |- acts _ ?st1 _ _ _ _ => destruct (group_arg_braced EDimensionArgument st1 w'' x'' _ Hcs1 Hw'' (dimension_text_braces _ _ Hd'')) as (c2 & Ha2 & Hcs2) end. eapply step_ok; [exact Ha2|].
    eapply step_ok; [unfold on_local; rewrite (dimension_alone _ _ Hd''); f_equal; symmetry; apply set_content_same|]. apply push_ev_acts. exact Hcs2.
  - (* dots *) intros h b t r Hb Hc. eapply does_control; [exact Hb|exact Hc|discriminate|lens|].
    intros fu st Hh Hst Hfu. unfold hprim_body. replace (lookup_prim (lit "dots")) with PDots by (vm_compute; reflexivity).
    unfold acts, bind, get. rewrite Hst. destruct Hc as (w0 & _ & _ & Hn & _).
    assert (Et : trim_start r = r). { destruct r as [|c r]; [reflexivity|]. cbn in Hn |- *. destruct (is_ws c); [contradiction Hn; reflexivity|reflexivity]. }
    rewrite Et. destruct r as [|c r]; apply push_ev_acts, Hst.
  - (* char code *) intros h b t s p r Hb Hc Hct Hle. destruct (code_shorter _ _ _ Hct) as (a & Ha & Es). eapply does_control; [exact Hb|exact Hc|discriminate|rewrite Es; lens|].
    intros fu st Hh Hst Hfu. unfold hprim_body. replace (lookup_prim (lit "char")) with PChar by (vm_compute; reflexivity).
    eapply step_ok. { unfold lexc. rewrite Hst, (code_read _ _ _ Hct) by lia. rewrite N2Z.id. reflexivity. }
    replace (255 <? p) with false by (symmetry; apply N.ltb_ge; exact Hle). apply push_ev_acts. reflexivity.
  - (* mathop of a character *) intros h b t w x c y r Hb Hc Hw Hx Hy Hcw Hbal. eapply does_control; [exact Hb|exact Hc|discriminate|lens|].
    intros fu st Hh Hst Hf. unfold hprim_body. replace (lookup_prim (lit "mathop")) with PMathop by (vm_compute; reflexivity).
    apply allow_then, pos_then. unfold atom_group.
    replace (w ++ 123 :: x ++ c :: y ++ 125 :: r) with (w ++ 123 :: (x ++ c :: y) ++ 125 :: r) in Hst by (rewrite <- app_assoc; reflexivity).
    destruct (argc_braced (set_pos SPMovable (set_allow true st)) w _ r Hst Hw Hbal) as (sl & c' & Ha & Hsl & Hcs). eapply step_ok; [exact Ha|]. cbn [single_char]. rewrite Hsl, trim_single by assumption.
    apply push_ev_acts, Hcs.
  - (* mathop of a group *) intros h b t w g r Hb Hc Hw Hbal Hmany. eapply does_control; [exact Hb|exact Hc|discriminate|lens|].
    intros fu st Hh Hst Hfu. unfold hprim_body. replace (lookup_prim (lit "mathop")) with PMathop by (vm_compute; reflexivity).
    apply allow_then, pos_then. unfold atom_group.
    destruct (argc_braced (set_pos SPMovable (set_allow true st)) w _ r Hst Hw Hbal) as (sl & c' & Ha & Hsl & Hcs). eapply step_ok; [exact Ha|].
    assert (E : single_char (SGroup sl) = None).
    { cbn [single_char]. rewrite Hsl. destruct (trim g) as [|z [|z' l]] eqn:Et; try reflexivity.
      apply trim_single_inv in Et as (x & y & H1 & H2 & H3 & H4). exfalso. exact (Hmany x z y H1 H2 H3 H4). }
    rewrite E. cbv beta iota. rewrite Hsl. apply push_ev_acts, Hcs.
  - (* genfrac *) intros h b t s1 o s2 c w x bar s2' sty s3 es1 s4 es2 r Hb Hc Ho Hcl Hw Hbar Hsty _ Hd1 _ Hd2.
    assert (Hl1 : (length s4 < length s3)%nat) by apply Hd1. assert (Hl2 : (length r < length s4)%nat) by apply Hd2.
    pose proof (frac_delimiter_run _ _ _ (mkIst (mkSlice 0 0 s1) [] false SPRight false false None []) Ho eq_refl) as (Hl4 & _).
    pose proof (frac_delimiter_run _ _ _ (mkIst (mkSlice 0 0 s2) [] false SPRight false false None []) Hcl eq_refl) as (Hl5 & _).
    pose proof (frac_style_run _ _ _ (mkIst (mkSlice 0 0 s2') [] false SPRight false false None []) Hsty eq_refl) as (Hl6 & _).
    assert (Hl3 : (length s3 < length s2)%nat) by (rewrite app_length in Hl5; cbn [length] in Hl5; rewrite app_length in Hl5; cbn [length] in Hl5; lia).
    eapply does_control; [exact Hb|exact Hc| |lia|].
    { unfold genfrac_meaning. destruct o, c, sty; discriminate. }
    intros fu st Hh Hst Hfu. unfold hprim_body. replace (lookup_prim (lit "genfrac")) with PGenfrac by (vm_compute; reflexivity).
    destruct (frac_delimiter_run _ _ _ st Ho Hst) as (_ & c1 & H1 & Hc1). eapply step_ok; [exact H1|].
    destruct (frac_delimiter_run _ _ _ (set_content c1 st) Hcl Hc1) as (_ & c2 & H2 & Hc2). eapply step_ok; [exact H2|].
    assert (Hbx : balanced 123 125 x) by (eapply frac_bar_braces, Hbar).
    match goal with |- acts _ ?st1 _ _ _ _ => destruct (argc_braced st1 w x _ Hc2 Hw Hbx) as (sl & c3 & H3 & Hsl & Hc3) end. eapply step_ok; [exact H3|].
    eapply (step_ok _ _ _ _ bar c3).
    { cbv beta iota. rewrite Hsl. destruct Hbar as [[-> ->]|(x1 & y & d & -> & Hd & Hy & ->)]; [reflexivity|].
      destruct (x1 ++ y) as [|x0 xs] eqn:Ex; [destruct x1; [destruct (dimension_text_visible _ _ Hd) as [Hn _]; contradiction|discriminate]|].
      cbn [is_nil]. unfold bind, on_local. rewrite <- Ex, (dimension_spaced _ _ _ _ Hd Hy). reflexivity. }
    match goal with |- acts _ ?st1 _ _ _ _ => destruct (frac_style_run _ _ _ st1 Hsty Hc3) as (_ & a4 & c4 & H4 & Hc4 & Ha4) end. eapply step_ok; [exact H4|].
    eapply (step_ok _ _ _ _ sty c4); [apply Ha4|].
    match goal with |- acts _ ?st1 ?n _ _ _ => assert (Hf : acts (fraction_like (hprim fu) o c bar sty) st1 n
      (fill [es1; es2] (ev_list (is_some o || is_some c) (EvBegin (GLeftRight o c)) ++
         match sty with Some s => ev_list (negb (is_some o || is_some c)) (EvBegin GNormal) ++ [E (EvState (SCStyle s))] | None => [] end ++
         [E (EvVisual (VFraction bar)); A 0; A 1] ++ ev_list ((is_some o || is_some c) || is_some sty) EvEnd)) no_limits r) end.
    { eapply fraction_acts; [exact Hd1|exact Hd2|reflexivity|exact Hc4|lia|lia]. }
    match type of Hf with acts _ _ _ ?es _ _ => replace (genfrac_meaning o c bar sty es1 es2) with es; [exact Hf|] end.
    unfold genfrac_meaning. destruct o, c, sty; cbn; rewrite ?app_nil_r, <- ?app_assoc; reflexivity.
  - (* sideset *) intros h b t s s1 s2 es l r Hb Hc H1 H2 _ Hd. assert (Hl : (length r < length s2)%nat) by apply Hd.
    pose proof (one_argument_run _ _ (mkIst (mkSlice 0 0 s) [] false SPRight false false None []) H1 eq_refl) as (Hl1 & _).
    pose proof (one_argument_run _ _ (mkIst (mkSlice 0 0 s1) [] false SPRight false false None []) H2 eq_refl) as (Hl2 & _).
    eapply does_control; [exact Hb|exact Hc|apply Hd|lia|]. intros fu st Hh Hst Hfu. unfold hprim_body.
    replace (lookup_prim (lit "sideset")) with PSideset by (vm_compute; reflexivity).
    destruct (one_argument_run _ _ st H1 Hst) as (_ & a1 & c1 & Ha1 & Hc1). eapply step_ok; [exact Ha1|].
    destruct (one_argument_run _ _ (set_content c1 st) H2 Hc1) as (_ & a2 & c2 & Ha2 & Hc2). eapply step_ok; [exact Ha2|].
    eapply arg_then_limits; [exact Hd|exact Hc2|lia|lia].
  - (* buildrel *) intros h b t s x es1 s' es2 r Hb Hc Hd Ho _ Hn. assert (Hl : (length r < length s')%nat) by apply Hn.
    assert (Hl2 : (length s' < length s)%nat).
    { rewrite (delimited_split _ _ _ _ Hd), !app_length. cbn. lia. }
    eapply does_control; [exact Hb|exact Hc|discriminate|lia|]. intros fu st Hh Hst Hfu. eapply buildrel_acts; try eassumption; lia.
  - (* class of a bare character *) intros h b cs t k b' c r Hb Hc Hin Hb' H1 H2 H3 Hn. eapply does_control; [exact Hb|exact Hc|discriminate|lens|].
    intros fu st Hh Hst Hf. unfold hprim_body. destruct (class_prim _ _ Hin) as (a & Hp & _ & He). rewrite Hp, <- He. eapply class_bare_acts; eassumption.
  - (* class of a command *) intros h b cs t k b' cs' t' r' es r Hb Hc Hin Hb' Hc' _ Hd. assert (Hl : (length r < length (b' ++ t'))%nat) by apply Hd.
    eapply does_control; [exact Hb|exact Hc|discriminate|lia|].
    intros fu st Hh Hst Hf. unfold hprim_body. destruct (class_prim _ _ Hin) as (a & Hp & _ & He). rewrite Hp. eapply class_command_acts; try eassumption. lia.
  - (* mathop of a bare character *) intros h b t b' c r Hb Hc Hb' H1 H2 H3 Hn. eapply does_control; [exact Hb|exact Hc|discriminate|lens|].
    intros fu st Hh Hst Hf. unfold hprim_body. replace (lookup_prim (lit "mathop")) with PMathop by (vm_compute; reflexivity).
    apply allow_then, pos_then. apply (class_bare_acts AtOp fu b'); assumption.
  - (* mathop of a command *) intros h b t b' cs' t' r' es r Hb Hc Hb' Hc' _ Hd. assert (Hl : (length r < length (b' ++ t'))%nat) by apply Hd.
    eapply does_control; [exact Hb|exact Hc|discriminate|lia|].
    intros fu st Hh Hst Hf. unfold hprim_body. replace (lookup_prim (lit "mathop")) with PMathop by (vm_compute; reflexivity).
    apply allow_then, pos_then. eapply class_command_acts; try eassumption. lia.
  - intros h s. split; reflexivity.
  - intros h ks s es s' ess r _ Hd _ Ha. cbn. exists es, ess, s'. auto.
  - intros h ks w g es s' ess r Hw Hg Hf _ Ha. cbn. exists es, ess, s'. split; [reflexivity|]. split; [left; exists w, g; auto|exact Ha].
  - intros h ks s es s' ess r Hns _ Hd _ Ha. cbn. exists es, ess, s'. split; [reflexivity|]. split; [right; auto|exact Ha].
Qed.

End Known.
