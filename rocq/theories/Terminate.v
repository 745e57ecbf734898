(** * Terminate: every round of the parser makes progress. *)

From Coq Require Import List NArith ZArith Bool Lia Arith.
From Verif Require Import Base Float32 Event Tables Prim PrimTable Lex Macros Primitives Spans Parser
  SpecLex LexFacts LexMore PrimFacts Keep Measure Order.
Import ListNotations.
Open Scope nat_scope.
Open Scope sm_scope.

Lemma t_handle_prim : forall cs c w E, 3 * c + w + 5 <= E ->
  tri c w (handle_prim cs) (fun _ c' w' => c' <= c /\ 3 * c' + w' <= 3 * c + w + 5) E.
Proof.
  intros cs c w E HE st [H1 H2]. unfold handle_prim.
  pose proof (t_hprim (S (length (stxt (i_content st)))) cs (slen (i_content st)) w ltac:(unfold slen; lia) st
    (conj (Nat.le_refl _) H2)) as H.
  destruct (hprim _ cs st) as [[[]|e|p|] st']; auto; destruct H as (c' & w' & Hb & H); exists c', w';
    (split; [exact Hb|lia]).
Qed.

(** The two commands used on the characters themselves. *)
Lemma t_peek : forall c w E, tri c w peek (fun _ c' w' => c' = c /\ w' = w) E.
Proof. intros c w E st Hb. cbn. eauto 6. Qed.

Definition extra (o : option script) : nat := match o with Some _ => 1 | None => 0 end.

Lemma t_drop1 : forall c w E, tri c w drop1 (fun _ c' w' => c' = c - 1 /\ w' = w) E.
Proof.
  intros c w E st [H1 H2]. cbn. exists (c - 1), w. split; [|auto]. split; [|exact H2].
  cbn. unfold slen in *. cbn. destruct (stxt (i_content st)); cbn in *; lia.
Qed.

(** After the script character. *)
Definition scripts_tail (sub_first : bool) : P (option script) :=
  drop1 ;;
  do first <- buf_len ;
  do a <- argc ;
  handle_arg handle_prim a ;;
  do second <- buf_len ;
  do nc <- peek ;
  (if (is_char 95 nc && negb sub_first) || (is_char 94 nc && sub_first) then
     drop1 ;;
     do a <- argc ;
     handle_arg handle_prim a ;;
     do nc <- peek ;
     if is_char 95 nc then fail EDoubleSubscript
     else if is_char 94 nc then fail EDoubleSuperscript
     else ret tt
   else if is_char 95 nc || is_char 94 nc then
     fail (if sub_first then EDoubleSubscript else EDoubleSuperscript)
   else ret tt) ;;
  do end_ <- buf_len ;
  do st <- get ;
  if Nat.eqb second end_ then
    if sub_first then ret (Some (EvScript STSub (i_pos st), first, second))
    else ret (Some (EvScript STSup (i_pos st), second, first))
  else
    if sub_first then ret (Some (EvScript STSubSup (i_pos st), first, second))
    else ret (Some (EvScript STSubSup (i_pos st), second, first)).

Lemma parse_scripts_eq : parse_scripts =
  (do st0 <- get ;
  if i_skip st0 then ret None
  else
    (if i_allow st0 then
       do l <- lexc limit_modifiers ;
       match l with
       | Some true => modify (set_pos SPAboveBelow)
       | Some false => modify (set_pos SPRight)
       | None => ret tt
       end
     else ret tt) ;;
    modify (fun st => set_content (suffix_slice (i_content st) (trim_start (stxt (i_content st)))) st) ;;
    do c <- peek ;
    if is_char 94 c || is_char 95 c then scripts_tail (is_char 95 c) else ret None).
Proof. reflexivity. Qed.

Section Scripts.
  Variable N : nat.
  Lemma Hprim : forall cs c w, c < N ->
    tri c w (handle_prim cs) (fun _ c' w' => c' <= c /\ 3 * c' + w' <= 3 * c + w + 5) (3 * c + w + 5).
  Proof. intros. apply t_handle_prim. lia. Qed.

  Ltac ps :=
    first [ eapply t_bind; [apply t_peek|tintro] | eapply t_bind; [apply t_drop1|tintro]
          | eapply t_bind; [eapply (t_handle_arg N handle_prim Hprim); [eassumption|lia|lia]|tintro]
          | tstep N handle_prim Hprim ].

  Lemma t_scripts_tail : forall b c w E, c <= N -> 1 <= c -> 3 * c + w <= E + 3 ->
    tri c w (scripts_tail b) (fun o c' w' => 3 * c' + w' + extra o + 3 <= 3 * c + w) E.
  Proof.
    intros b c w E Hc H1 HE. unfold scripts_tail. repeat ps; cbn [extra]; try lia.
  Qed.
End Scripts.

Lemma t_trim : forall c w E,
  tri c w (modify (fun st => set_content (suffix_slice (i_content st) (trim_start (stxt (i_content st)))) st))
    (fun _ c' w' => c' = c /\ w' = w) E.
Proof.
  intros c w E st [H1 H2]. cbn. exists c, w. split; [|auto]. split; [|exact H2]. cbn. unfold slen in *. cbn.
  pose proof (suffix_length _ _ (suffix_trim (stxt (i_content st)))). lia.
Qed.

Lemma t_peek_tail : forall c w E,  3 * c + w <= E ->
  tri c w (do c <- peek ; if is_char 94 c || is_char 95 c then scripts_tail (is_char 95 c) else ret None)
    (fun o c' w' => 3 * c' + w' + extra o <= 3 * c + w) E.
Proof.
  intros c w E HE st Hb. unfold bind, peek. destruct (is_char 94 _ || is_char 95 _) eqn:Ec.
  - destruct Hb as [H1 H2]. set (c0 := slen (i_content st)).
    assert (Hne : 1 <= c0).
    { unfold c0, slen. destruct (stxt (i_content st)); cbn in *; [discriminate|lia]. }
    pose proof (t_scripts_tail c0 (is_char 95 (match stxt (i_content st) with [] => None | c1 :: _ => Some c1 end))
      c0 w E (Nat.le_refl _) Hne ltac:(lia) st (conj (Nat.le_refl _) H2)) as H.
    destruct (scripts_tail _ st) as [[o|e|p|] st']; auto.
    destruct H as (c' & w' & Hb & H). exists c', w'. split; [exact Hb|]. lia.
  - exists c, w. split; [exact Hb|]. cbn. lia.
Qed.

Lemma t_parse_scripts : forall c w E,  3 * c + w <= E ->
  tri c w parse_scripts (fun o c' w' => 3 * c' + w' + extra o <= 3 * c + w) E.
Proof.
  intros c w E HE. rewrite parse_scripts_eq.
  eapply t_bind; [apply t_get|tintro]. destruct (i_skip _); [apply t_ret; cbn; lia|].
  eapply t_bind with (Q := fun _ c' w' => c' <= c /\ w' = w).
  { destruct (i_allow _); [|apply t_ret; lia]. eapply t_bind; [apply t_lexc; [auto with lexsuf|auto with lexnf|lia]|tintro].
    destruct a0 as [[]|]; try (eapply t_conseq; [apply t_modify; intros ? [? ?]; split; assumption|tintro; lia]). }
  tintro. eapply t_bind; [apply t_trim|tintro].
  eapply t_conseq; [apply t_peek_tail; lia|tintro; lia].
Qed.

(** The scripts right after a script character that was given back. *)
Lemma parse_scripts_given_back : forall st c w E, bounded c w st -> i_skip st = false ->
  (exists x r, stxt (i_content st) = x :: r /\ (x = 94 \/ x = 95)%N /\ slen (i_content st) = c) ->
  3 * c + w <= E + 3 ->
  match parse_scripts st with
  | (Ok o, st') => exists c' w', bounded c' w' st' /\ 3 * c' + w' + extra o + 3 <= 3 * c + w
  | (Fuel, _) => False
  | (_, st') => exists c' w', bounded c' w' st' /\ 3 * c' + w' <= E
  end.
Proof.
  intros st c w E Hb Hsk (x & r & Hx & Hxx & Hc) HE. rewrite parse_scripts_eq.
  assert (Hws : is_ws x = false) by (destruct Hxx as [-> | ->]; reflexivity).
  assert (Htrim : trim_start (x :: r) = x :: r) by (cbn; rewrite Hws; reflexivity).
  assert (Hlim : limit_modifiers (stxt (i_content st)) = (Ok None, stxt (i_content st))).
  { rewrite Hx. unfold limit_modifiers. cbn [length limit_loop]. rewrite Htrim.
    destruct Hxx as [-> | ->]; reflexivity. }
  assert (Hself : set_content (suffix_slice (i_content st) (stxt (i_content st))) st = st).
  { destruct st as [ct b al po sk ha ali ma]. destruct ct. cbn. unfold set_content, suffix_slice. cbn.
    rewrite N.sub_diag, N.add_0_r. reflexivity. }
  unfold bind at 1, get. rewrite Hsk.
  assert (Hpre : (if i_allow st then
       do l <- lexc limit_modifiers ;
       match l with
       | Some true => modify (set_pos SPAboveBelow)
       | Some false => modify (set_pos SPRight)
       | None => ret tt
       end
     else ret tt) st = (Ok tt, st)).
  { destruct (i_allow st); [|reflexivity]. unfold bind, lexc. rewrite Hlim, Hself. reflexivity. }
  unfold bind at 1. rewrite Hpre. unfold bind at 1, modify.
  rewrite Hx, Htrim, <- Hx, Hself. unfold bind, peek. rewrite Hx.
  assert (Hch : is_char 94 (Some x) || is_char 95 (Some x) = true) by (destruct Hxx as [-> | ->]; reflexivity).
  rewrite Hch. apply (t_scripts_tail c); [lia| |exact HE|exact Hb].
  rewrite <- Hc. unfold slen. rewrite Hx. cbn. lia.
Qed.

(** ** One call of [parse] without expansion *)

Lemma t_parse_atom_cs : forall cs c w E, 3 * c + w + 5 <= E ->
  tri c w (parse_atom (handle_prim cs)) (fun o c' w' => 3 * c' + w' + extra o <= 3 * c + w + 5) E.
Proof.
  intros cs c w E HE. unfold parse_atom. eapply t_bind; [apply t_handle_prim; lia|tintro].
  eapply t_conseq; [apply t_parse_scripts; lia|tintro; lia].
Qed.

Lemma parse_atom_char : forall ctx st c w E, bounded c w st -> slen ctx = c + 1 -> i_handling st = false ->
  i_skip st = false -> 3 * c + w + 2 <= E ->
  match parse_atom (handle_char ctx) st with
  | (Ok o, st') => exists c' w', bounded c' w' st' /\ 3 * c' + w' + extra o <= 3 * c + w + 2
  | (Fuel, _) => False
  | (_, st') => exists c' w', bounded c' w' st' /\ 3 * c' + w' <= E
  end.
Proof.
  intros ctx st c w E Hb Hx Hh Hs HE. unfold parse_atom, bind.
  assert (Hne : stxt ctx <> []) by (intro H; unfold slen in Hx; rewrite H in Hx; cbn in Hx; lia).
  pose proof (t_handle_char false c w ctx E c Hne (Nat.le_refl _) ltac:(lia) ltac:(lia) st Hb
    ltac:(congruence) ltac:(discriminate)) as H.
  destruct (handle_char ctx st) as [[[]|e|p|] st']; auto.
  destruct H as (c' & w' & Hb' & [[H1 H2]|(_ & H1 & -> & -> & H2 & H3)]).
  - pose proof (t_parse_scripts c' w' E ltac:(lia) st' Hb') as H.
    destruct (parse_scripts st') as [[o|e|p|] st'']; auto.
    destruct H as (c2 & w2 & Hb2 & H). exists c2, w2. split; [exact Hb2|lia].
  - pose proof (parse_scripts_given_back st' (slen ctx) (w + 2) E Hb' ltac:(congruence)) as H.
    assert (Hex : exists x r, stxt (i_content st') = x :: r /\ (x = 94 \/ x = 95)%N /\ slen (i_content st') = slen ctx).
    { rewrite H1. destruct (stxt ctx) as [|x r]; [congruence|]. exists x, r. cbn in H3. tauto. }
    specialize (H Hex ltac:(lia)).
    destruct (parse_scripts st') as [[o|e|p|] st'']; auto.
    destruct H as (c2 & w2 & Hb2 & H). exists c2, w2. split; [exact Hb2|lia].
Qed.

Lemma lex_token_short : forall s e r, s <> [] -> lex_token s = (Err e, r) -> length r < length s.
Proof.
  intros s e r Hs H. unfold lex_token in H. pose proof (skip_blank_suffix s false) as Hk.
  apply suffix_length in Hk. destruct (skip_blank false s) as [|c s'] eqn:E.
  - injection H as _ <-. destruct s; cbn; [congruence|lia].
  - destruct (c =? 92)%N; [|discriminate].
    pose proof (rhs_cs_leaves s') as Hl. apply suffix_length in Hl.
    destruct (rhs_control_sequence s') as [[?|?|?|] ?]; try discriminate.
    injection H as _ <-. cbn in *. lia.
Qed.

Lemma nf_expand : forall d s, expand_definition d s <> Fuel.
Proof.
  assert (Ha : no_fuel lex_argument).
  { intros s. unfold lex_argument. destruct (strip_char 123 _).
    - apply (nf_bind _ _ (group_content GKNormal) (fun a => ret (AGroup a)) (nf_group _) (fun _ => nf_ret _ _)).
    - apply (nf_bind _ _ lex_token (fun a => ret (AToken a)) nf_token (fun _ => nf_ret _ _)). }
  assert (Ho : no_fuel optional_argument).
  { intros s. unfold optional_argument. destruct (strip_char 91 _); [|cbn; congruence].
    destruct (group_content GKOptional s0) as [[?|?|?|] ?]; cbn; congruence. }
  assert (Hm : forall lb ps, no_fuel (macro_args lb ps)).
  { intros lb. induction ps as [|p ps IH]; [apply nf_ret|]. cbn [macro_args].
    destruct (is_nil ps && lb).
    - apply nf_bind; [apply nf_get|]. intros s. destruct (split_once_str _ _) as [[? ?]|]; [|apply nf_fail].
      apply nf_bind; [apply nf_put|]. intros. apply nf_ret.
    - apply nf_bind.
      + destruct p; (apply nf_bind; [|intros; apply nf_ret]); [apply nf_cws|exact Ha].
      + intros a. apply nf_bind; [exact IH|]. intros. apply nf_ret. }
  assert (Hn : forall n, no_fuel (n_args n)).
  { induction n as [|n IH]; [apply nf_ret|]. cbn [n_args]. apply nf_bind; [exact Ha|]. intros.
    apply nf_bind; [exact IH|]. intros. apply nf_ret. }
  assert (Hp : forall A p, @no_fuel A (panic_with p)) by (intros A p s; cbn; congruence).
  assert (He : forall d, no_fuel (expand_call d)).
  { intros [pre ps lb rep|[cs|ctx]|ac df rep]; cbn [expand_call]; try apply nf_ret.
    - apply nf_bind; [apply nf_get|]. intros s. apply nf_bind.
      { destruct pre; [destruct (strip_prefix _ _); [apply nf_put|apply nf_fail]|apply nf_ret]. }
      intros _. apply nf_bind; [apply Hm|]. intros l. destruct (expand_rep l rep); [apply nf_ret|apply Hp].
    - apply nf_bind.
      { destruct df; [|apply nf_ret]. apply nf_bind; [exact Ho|]. intros. apply nf_ret. }
      intros f. destruct (_ <? _)%N; [apply Hp|]. apply nf_bind; [apply Hn|]. intros l.
      destruct (expand_rep _ rep); [apply nf_ret|apply Hp]. }
  intros d s. unfold expand_definition. specialize (He d s).
  destruct (expand_call d s) as [[?|?|?|] ?]; cbn in *; congruence.
Qed.

Definition qpot (q : pst) : nat := 3 * slen (i_content (q_ist q)) + weight (i_buf (q_ist q)).
Definition total (q : pst) : N := s_total (q_spans q).

Lemma reach_never : forall p s, match reach_original_call_site p s with
  | (Ok _, s') | (Panic _, s') => s_total s' = s_total s /\ s_input s' = s_input s
  | _ => False end.
Proof.
  intros p s. unfold reach_original_call_site. destruct (reach p (s_exp s)) as [[i|] l]; cbn; auto.
  destruct (ptr_in _ _); cbn; auto.
Qed.

(** The content lies in the newest expansion. *)
Definition in_top (q : pst) : Prop :=
  match s_exp (q_spans q) with
  | x :: _ => sbase (i_content (q_ist q)) = sbase (x_full x) /\
              (soff (i_content (q_ist q)) + blen (stxt (i_content (q_ist q))) <= blen (stxt (x_full x)))%N
  | [] => False
  end.

Definition fuel_ok (f : nat) (q : pst) : Prop :=
  1 <= f /\ (66 <= f \/ (in_top q /\ 65 <= f + length (s_exp (q_spans q)))).

Definition ready (q : pst) : Prop := i_handling (q_ist q) = false /\ i_skip (q_ist q) = false.

Definition res_extra (r : res (option script)) : nat := match r with Ok o => extra o | _ => 0 end.

Definition progress (q : pst) (r : res (option script)) (q' : pst) : Prop :=
  (total q < total q' /\ total q < max_expansion_bytes)%N \/
  (total q' = total q /\ qpot q' + res_extra r < qpot q).

Lemma add_span_top : forall new orig len s q, in_top q ->
  q_spans q = s -> sbase orig = sbase (i_content (q_ist q)) ->
  (soff orig + blen (stxt orig) = soff (i_content (q_ist q)) + blen (stxt (i_content (q_ist q))))%N ->
  forall n r s', add_span new orig len (add_total n s) = (r, s') ->
  length (s_exp s') = S (length (s_exp s)).
Proof.
  intros new orig len s q Ht Hq Hb Ho n r s' H. unfold in_top in Ht. rewrite Hq in Ht.
  unfold add_span, reach_original_call_site in H. cbn [add_total s_exp] in H.
  destruct (s_exp s) as [|x l]; [contradiction|]. destruct Ht as [Ht1 Ht2].
  cbn [reach] in H. unfold ptr_in in H. rewrite Hb, Ht1, N.eqb_refl in H. cbn [andb] in H.
  assert (Hle : (soff orig <=? blen (stxt (x_full x)))%N = true) by (apply N.leb_le; lia).
  rewrite Hle in H. injection H as _ <-. reflexivity.
Qed.

Lemma add_span_never : forall new orig len s r s', add_span new orig len s = (r, s') ->
  s_total s' = s_total s /\ s_input s' = s_input s /\
  match r with
  | Ok _ => exists x l, s_exp s' = x :: l /\ x_full x = new
  | Panic p => p = PAssert
  | _ => False
  end.
Proof.
  intros new orig len s r s' H. unfold add_span in H. pose proof (reach_never orig s) as Hr.
  unfold reach_original_call_site in *. destruct (reach orig (s_exp s)) as [[i|] l].
  - injection H as <- <-. cbn. repeat split; eauto.
  - destruct (ptr_in _ _); injection H as <- <-; cbn; repeat split; eauto.
Qed.

Lemma run_inner_total : forall A (m : P A) q, total (snd (run_inner m q)) = total q.
Proof. intros A m q. unfold run_inner. destruct (m (q_ist q)). reflexivity. Qed.

Lemma parse_progress : forall f q, ready q -> fuel_ok f q ->
  let (r, q') := parse f q in
  r <> Fuel /\
  (stxt (i_content (q_ist q)) = [] -> r = Ok None /\ total q' = total q /\ qpot q' = qpot q) /\
  (stxt (i_content (q_ist q)) <> [] -> progress q r q').
Proof.
  induction f as [|f IH]; intros q [Hh Hk] [Hf Hfu]; [lia|]. cbn [parse].
  set (st := q_ist q) in *. set (c0 := i_content st) in *. set (s := stxt c0) in *.
  assert (Hb0 : forall r, suffix r s -> bounded (length r) (weight (i_buf st)) (set_content (suffix_slice c0 r) st)).
  { intros r Hr. split; [unfold slen; cbn; lia|reflexivity]. }
  assert (Hq : qpot q = 3 * length s + weight (i_buf st)) by reflexivity.
  pose proof (lex_token_suffix s) as Hsuf.
  destruct (lex_token s) as [[[cs|ctx]|e|p|] r] eqn:El; cbn [snd] in Hsuf.
  - (* control sequence *)
    destruct (lex_token_cs _ _ _ El) as (b & w & _ & _ & Hcs & Es).
    assert (Hlen : length r + 2 <= length s).
    { rewrite Es. rewrite app_length. cbn. rewrite !app_length. destruct cs; [congruence|cbn; lia]. }
    assert (Hne : s <> []) by (intro E; rewrite E in Hlen; cbn in Hlen; lia).
    destruct (ctx_get (i_macros st) cs) as [d|].
    + pose proof (nf_expand d r) as Hnf.
      set (q1 := set_ist (set_content (suffix_slice c0 r) st) q).
      assert (Hq1 : qpot q1 + 2 <= qpot q).
      { assert (E : qpot q1 = 3 * length r + weight (i_buf st)) by reflexivity. lia. }
      destruct (expand_definition d r) as [[txt consumed]|e|p|] eqn:Ee; try congruence.
      * destruct (_ || _) eqn:Elim.
        -- split; [congruence|]. split; [contradiction|]. intros _. right.
           split; [reflexivity|]. unfold res_extra, qpot at 1. cbn [q_ist]. fold (qpot q1). lia.
        -- apply orb_false_iff in Elim as [El1 El2]. apply N.leb_gt in El1, El2.
           destruct (add_span _ _ _ _) as [ra sp] eqn:Ea.
           pose proof (add_span_never _ _ _ _ _ _ Ea) as (Ht & _ & Hra). cbn [add_total s_total] in Ht.
           destruct ra as [u|e|p|]; try contradiction.
           ++ destruct Hra as (x & l & Hx & Hx2).
              set (q2 := mkPst (set_content (mkSlice (q_next q) 0 txt) st) sp (q_next q + 1) (q_alloc q + blen txt)).
              assert (Hf2 : fuel_ok f q2).
              { assert (Htop : in_top q2).
                { unfold in_top, q2. cbn. rewrite Hx, Hx2. cbn. split; [reflexivity|lia]. }
                destruct Hfu as [Hfu|[Hfu1 Hfu2]].
                - split; [lia|]. right. split; [exact Htop|]. cbn. lia.
                - assert (Hl : length (s_exp sp) = S (length (s_exp (q_spans q)))).
                  { eapply (add_span_top _ _ _ (q_spans q) q Hfu1 eq_refl); [| |exact Ea]; [reflexivity|].
                    cbn. fold st c0 s. pose proof (suffix_blen _ _ (suffix_trim s)). lia. }
                  split; [unfold max_expansion_depth in El1; lia|]. right. split; [exact Htop|].
                  cbn [q2 q_spans]. lia. }
              specialize (IH q2 (conj Hh Hk) Hf2). destruct (parse f q2) as [r2 q3].
              destruct IH as (I1 & I2 & I3). split; [exact I1|]. split; [contradiction|]. intros _.
              assert (Ht2 : total q2 = (total q + blen txt)%N) by exact Ht.
              destruct txt as [|c txt].
              ** destruct (I2 eq_refl) as (-> & Et & Ep). right. split; [rewrite Et, Ht2; cbn; lia|].
                 rewrite Ep. assert (E : qpot q2 = 0 + weight (i_buf st)) by reflexivity. cbn [res_extra extra]. lia.
              ** left. assert (1 <= blen (c :: txt))%N by (cbn; pose proof (clen_pos c); lia).
                 split; [|exact El2]. destruct (I3 ltac:(discriminate)) as [[H1 _]|[H1 _]]; lia.
           ++ split; [congruence|]. split; [contradiction|]. intros _.
              assert (Hqp : qpot (mkPst (q_ist q1) sp (q_next q + 1) (q_alloc q + blen txt)) = qpot q1) by reflexivity.
              assert (Htp : total (mkPst (q_ist q1) sp (q_next q + 1) (q_alloc q + blen txt)) = (total q + blen txt)%N)
                by exact Ht.
              unfold progress. rewrite Hqp, Htp. cbn [res_extra].
              destruct (N.eq_dec (blen txt) 0) as [E0|E0]; [right|left]; (split; [|first [exact El2|lia]]); lia.
      * split; [congruence|]. split; [contradiction|]. intros _. right. split; [reflexivity|]. cbn [res_extra]. lia.
      * split; [congruence|]. split; [contradiction|]. intros _. right. split; [reflexivity|]. cbn [res_extra]. lia.
    + pose proof (t_parse_atom_cs cs (length r) (weight (i_buf st)) _ (Nat.le_refl _) _ (Hb0 r Hsuf)) as H.
      unfold run_inner. cbn [q_ist set_ist]. destruct (parse_atom (handle_prim cs) _) as [[o|e|p|] st'];
        [| | |contradiction]; (split; [congruence|]); (split; [contradiction|]); intros _; right;
        (split; [reflexivity|]); destruct H as (c' & w' & [H1 H2] & H3); unfold qpot at 1; cbn [q_ist set_ist res_extra];
        lia.
  - (* character *)
    destruct (lex_token_chr _ _ _ El) as (b & c & _ & -> & Es & _).
    assert (Hlen : length r + 1 <= length s) by (rewrite Es, app_length; cbn; lia).
    assert (Hne : s <> []) by (intro E; rewrite E in Hlen; cbn in Hlen; lia).
    pose proof (parse_atom_char (suffix_slice c0 (c :: r)) _ (length r) (weight (i_buf st)) (3 * length r + weight (i_buf st) + 2) (Hb0 r Hsuf)) as H.
    unfold run_inner. cbn [q_ist set_ist]. specialize (H ltac:(unfold slen; cbn; lia) Hh Hk ltac:(lia)).
    destruct (parse_atom (handle_char _) _) as [[o|e|p|] st'];
        [| | |contradiction]; (split; [congruence|]); (split; [contradiction|]); intros _; right;
        (split; [reflexivity|]); destruct H as (c' & w' & [H1 H2] & H3); unfold qpot at 1; cbn [q_ist set_ist res_extra];
        lia.
  - assert (Hsh : s <> [] -> length r < length s) by (intros Hs; eapply lex_token_short; eauto).
    pose proof (lex_token_no_panic s) as Hnp. rewrite El in Hnp. cbn in Hnp.
    assert (Hqp : qpot (set_ist (set_content (suffix_slice c0 r) st) q) = 3 * length r + weight (i_buf st)) by reflexivity.
    destruct e; destruct Hnp as [Hnp|Hnp]; try discriminate.
    + split; [congruence|]. split.
      * intros E. rewrite E in El. discriminate.
      * intros E. right. split; [reflexivity|]. cbn [res_extra]. specialize (Hsh E). lia.
    + split; [congruence|]. split.
      * intros E. split; [reflexivity|]. split; [reflexivity|]. rewrite E in El. injection El as <-.
        rewrite Hqp, Hq, E. reflexivity.
      * intros E. right. split; [reflexivity|]. cbn [res_extra extra]. specialize (Hsh E). lia.
  - pose proof (lex_token_no_panic s) as Hnp. rewrite El in Hnp. contradiction.
  - pose proof (lex_token_no_panic s) as Hnp. rewrite El in Hnp. contradiction.
Qed.

(** ** The iterator *)

Lemma context_loop_never : forall input l lo hi,
  match context_loop input lo hi l with Ok _ | Panic _ => True | _ => False end.
Proof.
  intros input. induction l as [|x l IH]; intros lo hi; cbn [context_loop].
  - destruct (byte_range lo hi input); exact I.
  - destruct (_ <? _)%N.
    + destruct (floor_char_boundary _ _); [|exact I]. destruct (floor_char_boundary _ _); [|exact I]. apply IH.
    + destruct (byte_range _ _ _); [|exact I].
      destruct (floor_char_boundary _ _) as [a|]; [|exact I]. destruct (floor_char_boundary _ _) as [b|]; [|exact I].
      specialize (IH a b). destruct (context_loop input a b l); auto.
Qed.

Lemma new_error_never : forall e c s r s', new_error e c s = (r, s') ->
  match r with
  | Ok pe => s_total s' = s_total s /\ pe_kind pe = e
  | Panic _ => True
  | _ => False
  end.
Proof.
  intros e c s r s' H. unfold new_error in H. pose proof (reach_never c s) as Hr.
  destruct (reach_original_call_site c s) as [[i|x|x|] s1]; try contradiction; [|injection H as <- <-; exact I].
  destruct (floor_char_boundary _ _) as [a|]; [|injection H as <- <-; exact I].
  destruct (floor_char_boundary _ _) as [b|]; [|injection H as <- <-; exact I].
  pose proof (context_loop_never (s_input s1) (s_exp s1) a b) as Hc.
  destruct (context_loop _ _ _ _); try contradiction; injection H as <- <-; [|exact I]. cbn. tauto.
Qed.

Definition pot (p : parser) : nat := weight (p_stack p) + weight (p_buf p).
Definition ptotal (p : parser) : N := s_total (p_spans p).

Definition smaller (p' p : parser) : Prop :=
  (ptotal p < ptotal p' /\ ptotal p < max_expansion_bytes)%N \/ (ptotal p' = ptotal p /\ pot p' < pot p).

Lemma order_never : forall sub sup buf, match order_scripts sub sup buf with Ok _ | Panic _ => True | _ => False end.
Proof.
  intros. unfold order_scripts. destruct (Nat.ltb _ _); [|exact I].
  destruct (spare_loop _ _ _ _); [|exact I]. destruct (all_init _); exact I.
Qed.

Lemma weight_split : forall n l, weight (firstn n l) + weight (skipn n l) = weight l.
Proof. intros n l. rewrite <- weight_app, firstn_skipn. reflexivity. Qed.

Lemma order_weight : forall sub sup buf l, order_scripts sub sup buf = Ok l ->
  weight (firstn (Nat.min sub sup) buf) + weight l = weight buf.
Proof.
  intros sub sup buf l H. pose proof (weight_split (Nat.min sub sup) buf) as Hw.
  apply order_perm in H as [->|(H1 & H2 & ->)]; [exact Hw|].
  rewrite weight_app. replace (Nat.min sub sup) with sup in * by lia.
  pose proof (weight_split (sub - sup) (skipn sup buf)) as Hw2. rewrite skipn_skipn' in Hw2.
  replace (sup + (sub - sup)) with sub in Hw2 by lia. lia.
Qed.

Lemma fuel_enough : forall q, fuel_ok parse_fuel q.
Proof. intros q. unfold fuel_ok, parse_fuel. lia. Qed.

(** Every round of the iterator ends it, or makes the rest smaller. *)
Lemma step_smaller : forall p,
  match next_step p with
  | (OItem _, p') | (OCont, p') => smaller p' p
  | (ODone, p') => p' = p /\ p_stack p = []
  | (OPanic _, _) => True
  | (OFuel, _) => False
  end.
Proof.
  intros p. unfold next_step. destruct (p_stack p) as [|[e|c al] s] eqn:Es.
  - auto.
  - right. split; [reflexivity|]. unfold pot. rewrite Es. cbn. lia.
  - destruct (is_nil (trim_start (stxt c))) eqn:En.
    { right. split; [reflexivity|]. unfold pot. rewrite Es. cbn. lia. }
    assert (Hne : stxt c <> []) by (intro E; rewrite E in En; discriminate).
    pose proof (parse_progress parse_fuel (of_parser p c al) (conj eq_refl eq_refl)
      (fuel_enough _)) as Hp.
    destruct (parse parse_fuel (of_parser p c al)) as [r q]. destruct Hp as (Hf & _ & Hp).
    specialize (Hp Hne).
    assert (Hq0 : qpot (of_parser p c al) + 1 + weight s = pot p).
    { unfold pot, qpot. rewrite Es. cbn. lia. }
    assert (Ht0 : total (of_parser p c al) = ptotal p) by reflexivity.
    assert (Htop : weight (ISub (i_content (q_ist q)) (i_align (q_ist q)) :: s) + weight (i_buf (q_ist q))
      = qpot q + 1 + weight s) by (unfold qpot; cbn; lia).
    destruct r as [[[[e sub] sup]|]|e|x|]; [| | |exact I|congruence].
    + pose proof (order_never sub sup (i_buf (q_ist q))) as Hn.
      destruct (order_scripts sub sup (i_buf (q_ist q))) as [l|?|?|] eqn:Eo; try contradiction; [|exact I].
      apply order_weight in Eo.
      assert (Hpot : pot (to_parser (IEv e :: firstn (Nat.min sub sup) (i_buf (q_ist q)) ++ l ++
         ISub (i_content (q_ist q)) (i_align (q_ist q)) :: s) [] q) = qpot q + 2 + weight s).
      { unfold pot. cbn [p_stack p_buf to_parser weight iweight]. rewrite !weight_app. lia. }
      destruct Hp as [Hp|[Hp1 Hp2]]; [left; exact Hp|right]. split; [exact Hp1|]. rewrite Hpot.
      cbn [res_extra extra] in Hp2. lia.
    + assert (Hpot : pot (to_parser (i_buf (q_ist q) ++ ISub (i_content (q_ist q)) (i_align (q_ist q)) :: s) [] q)
        = qpot q + 1 + weight s).
      { unfold pot. cbn [p_stack p_buf to_parser weight iweight]. rewrite !weight_app. lia. }
      destruct Hp as [Hp|[Hp1 Hp2]]; [left; exact Hp|right]. split; [exact Hp1|]. rewrite Hpot.
      cbn [res_extra extra] in Hp2. lia.
    + destruct (new_error e (i_content (q_ist q)) (q_spans q)) as [r sp] eqn:Ee.
      pose proof (new_error_never _ _ _ _ _ Ee) as Hn.
      destruct r as [pe|?|?|]; try contradiction; [|exact I]. destruct Hn as [Hn _].
      assert (Hpot : pot (mkParser (ISub (i_content (q_ist q)) (i_align (q_ist q)) :: s) (i_buf (q_ist q))
        (i_macros (q_ist q)) sp (q_next q) (q_alloc q)) = qpot q + 1 + weight s).
      { unfold pot. cbn [p_stack p_buf]. exact Htop. }
      unfold smaller. rewrite Hpot. unfold ptotal at 2 4. cbn [p_spans]. rewrite Hn.
      destruct Hp as [Hp|[Hp1 Hp2]]; [left; exact Hp|right]. split; [exact Hp1|].
      cbn [res_extra extra] in Hp2. lia.
Qed.

(** Induction over the rounds. *)
Lemma smaller_ind : forall (Q : parser -> Prop),
  (forall p, (forall p', smaller p' p -> Q p') -> Q p) -> forall p, Q p.
Proof.
  intros Q H.
  assert (Ht : forall t k p, N.to_nat (max_expansion_bytes - ptotal p) <= t -> pot p <= k -> Q p).
  { induction t as [|t IHt]; induction k as [|k IHk]; intros p H1 H2; apply H; intros p' [[H3 H4]|[H3 H4]];
      try lia; try (apply IHk; [rewrite H3; exact H1|lia]).
    - apply (IHt (pot p')); lia.
    - apply (IHt (pot p')); lia. }
  intros p. eapply Ht; reflexivity.
Qed.

Definition outcome_of (x : list item * outcome * parser) : outcome := snd (fst x).
Definition items_of (x : list item * outcome * parser) : list item := fst (fst x).
Definition parser_of (x : list item * outcome * parser) : parser := snd x.

Lemma run_halts : forall p, exists n, outcome_of (run n p) <> OFuel.
Proof.
  apply smaller_ind. intros p IH. pose proof (step_smaller p) as Hs.
  destruct (next_step p) as [[i| | |x| ] p'] eqn:E; try contradiction.
  - destruct (IH p' Hs) as [n Hn]. exists (S n). cbn [run]. rewrite E.
    destruct (run n p') as [[l o] p'']. exact Hn.
  - destruct (IH p' Hs) as [n Hn]. exists (S n). cbn [run]. rewrite E. exact Hn.
  - exists 1. cbn [run]. rewrite E. discriminate.
  - exists 1. cbn [run]. rewrite E. discriminate.
Qed.

Lemma next_halts : forall p, exists n, fst (next n p) <> OFuel /\ fst (next n p) <> OCont.
Proof.
  apply smaller_ind. intros p IH. pose proof (step_smaller p) as Hs.
  destruct (next_step p) as [[i| | |x| ] p'] eqn:E; try contradiction;
    try (exists 1; cbn [next]; rewrite E; split; discriminate).
  destruct (IH p' Hs) as [n Hn]. exists (S n). cbn [next]. rewrite E. exact Hn.
Qed.

(** Once there are enough rounds, more change nothing. *)
Lemma run_more : forall n p m, outcome_of (run n p) <> OFuel -> n <= m -> run m p = run n p.
Proof.
  induction n as [|n IH]; intros p m H Hm; [cbn in H; congruence|].
  destruct m as [|m]; [lia|]. cbn [run] in *.
  destruct (next_step p) as [[i| | |x| ] p'] eqn:E; try reflexivity.
  - rewrite (IH p' m); [reflexivity| |lia]. destruct (run n p') as [[l o] p'']. exact H.
  - apply IH; [exact H|lia].
Qed.

(** ** Without expansions, the items are counted *)

Lemma run_count : forall n p, ptotal (parser_of (run n p)) = ptotal p ->
  length (items_of (run n p)) <= pot p.
Proof.
  assert (Hmono : forall n p, (ptotal p <= ptotal (parser_of (run n p)))%N).
  { induction n as [|n IH]; intros p; [cbn; lia|]. cbn [run]. pose proof (step_smaller p) as Hs.
    destruct (next_step p) as [[i| | |x| ] p'] eqn:E; try contradiction.
    - specialize (IH p'). destruct (run n p') as [[l o] p'']. cbn in *. destruct Hs as [[Hs _]|[Hs _]]; lia.
    - specialize (IH p'). destruct Hs as [[Hs _]|[Hs _]]; lia.
    - destruct Hs as [-> _]. cbn. lia.
    - clear Hs. unfold next_step in E. destruct (p_stack p) as [|[e|c al] s]; try discriminate.
      destruct (is_nil (trim_start (stxt c))) eqn:En; [discriminate|].
      assert (Hne : stxt c <> []) by (intro Ec; rewrite Ec in En; discriminate).
      pose proof (parse_progress parse_fuel (of_parser p c al) (conj eq_refl eq_refl)
        (fuel_enough _)) as Hp.
      destruct (parse parse_fuel (of_parser p c al)) as [r q]. destruct Hp as (_ & _ & Hp). specialize (Hp Hne).
      assert (Hle : (ptotal p <= s_total (q_spans q))%N).
      { destruct Hp as [[Hp _]|[Hp _]]; unfold total in Hp; cbn in Hp; unfold ptotal; lia. }
      destruct r as [[[[e sub] sup]|]|e|y|].
      + destruct (order_scripts _ _ _); try discriminate; injection E as _ <-; exact Hle.
      + discriminate.
      + destruct (new_error _ _ _) as [[?|?|?|] ?]; try discriminate; injection E as _ <-; exact Hle.
      + injection E as _ <-; exact Hle.
      + discriminate. }
  induction n as [|n IH]; intros p H; [cbn; lia|]. cbn [run] in *. pose proof (step_smaller p) as Hs.
  destruct (next_step p) as [[i| | |x| ] p'] eqn:E; try (cbn; lia).
  - specialize (Hmono n p'). specialize (IH p'). destruct (run n p') as [[l o] p'']. cbn in *.
    destruct Hs as [[Hs _]|[Hs Hs2]]; [lia|]. specialize (IH ltac:(lia)). lia.
  - specialize (Hmono n p'). specialize (IH p'). destruct Hs as [[Hs _]|[Hs Hs2]]; [lia|].
    specialize (IH ltac:(lia)). lia.
Qed.
