(** * Sim: what the parser does depends only on the text.

    Slices record where a text lies in memory, for the error messages. Two
    states with the same text, and with buffers that agree after some prefixes
    [B] and [B'], behave in the same way. *)

From Coq Require Import List NArith ZArith Bool Lia Arith.
From Verif Require Import Base Float32 Event Tables Prim PrimTable Lex Macros Primitives Spans Parser.
Import ListNotations.
Open Scope N_scope.
Open Scope sm_scope.

Definition ssim (a b : slice) : Prop := stxt a = stxt b.

Definition isim (i j : instr) : Prop :=
  match i, j with
  | IEv e, IEv f => e = f
  | ISub a al, ISub b bl => stxt a = stxt b /\ al = bl
  | _, _ => False
  end.

Definition asim (a b : sarg) : Prop :=
  match a, b with
  | SGroup g, SGroup h => stxt g = stxt h
  | SCs c, SCs d => c = d
  | SChr c, SChr d => stxt c = stxt d
  | _, _ => False
  end.

Definition osim (a b : option slice) : Prop :=
  match a, b with Some x, Some y => stxt x = stxt y | None, None => True | _, _ => False end.

(** The same names have the same meanings. *)
Definition csim (m m' : macro_ctx) : Prop := forall n, ctx_get m n = ctx_get m' n.

Lemma csim_refl : forall m, csim m m.
Proof. intros m n. reflexivity. Qed.

Lemma csim_insert : forall m m' n d, csim m m' -> csim (ctx_insert m n d) (ctx_insert m' n d).
Proof. intros m m' n d H k. unfold ctx_get, ctx_insert. cbn [assoc_str]. destruct (str_eqb n k); [reflexivity|apply H]. Qed.

Lemma csim_contains : forall m m' n, csim m m' -> ctx_contains m n = ctx_contains m' n.
Proof. intros m m' n H. unfold ctx_contains. rewrite (H n). reflexivity. Qed.

Lemma isim_refl : forall i, isim i i.
Proof. intros [e|c al]; cbn; auto. Qed.
Lemma isim_sym : forall i j, isim i j -> isim j i.
Proof. intros [e|c al] [f|d bl]; cbn; intuition congruence. Qed.
Lemma isim_trans : forall i j k, isim i j -> isim j k -> isim i k.
Proof. intros [e|c al] [f|d bl] [g|h cl]; cbn; intuition congruence. Qed.
Lemma isims_refl : forall l, Forall2 isim l l.
Proof. induction l; constructor; auto using isim_refl. Qed.

Lemma Forall2_firstn : forall A (T : A -> A -> Prop) n l l', Forall2 T l l' -> Forall2 T (firstn n l) (firstn n l').
Proof. induction n as [|n IH]; intros l l' H; cbn; [constructor|]. destruct H; constructor; auto. Qed.
Lemma Forall2_skipn : forall A (T : A -> A -> Prop) n l l', Forall2 T l l' -> Forall2 T (skipn n l) (skipn n l').
Proof. induction n as [|n IH]; intros l l' H; cbn; [exact H|]. destruct H; [constructor|auto]. Qed.

Lemma Forall2_len : forall A (T : A -> A -> Prop) l l', Forall2 T l l' -> length l = length l'.
Proof. induction 1; cbn; congruence. Qed.

Section Sim.
  Variables B B' : list instr.

  Definition R (st st' : ist) : Prop :=
    stxt (i_content st) = stxt (i_content st') /\
    (exists b b', i_buf st = B ++ b /\ i_buf st' = B' ++ b' /\ Forall2 isim b b')%list /\
    i_allow st = i_allow st' /\ i_pos st = i_pos st' /\ i_skip st = i_skip st' /\
    i_handling st = i_handling st' /\ i_align st = i_align st' /\ csim (i_macros st) (i_macros st').

  Definition same_res {A} (V : A -> A -> Prop) (r r' : res A) : Prop :=
    match r, r' with
    | Ok a, Ok a' => V a a'
    | Err e, Err e' => e = e'
    | Panic p, Panic p' => p = p'
    | Fuel, Fuel => True
    | _, _ => False
    end.

  Definition rel {A} (V : A -> A -> Prop) (m m' : P A) : Prop :=
    forall st st', R st st' -> same_res V (fst (m st)) (fst (m' st')) /\ R (snd (m st)) (snd (m' st')).

  Lemma same_res_refl : forall A (r : res A), same_res eq r r.
  Proof. intros A [a|e|p|]; cbn; auto. Qed.

  Lemma r_ret : forall A (V : A -> A -> Prop) a a', V a a' -> rel V (ret a) (ret a').
  Proof. intros A V a a' H st st' HR. split; [exact H|exact HR]. Qed.
  Lemma r_fail : forall A (V : A -> A -> Prop) e, rel V (fail e) (fail e).
  Proof. intros A V e st st' HR. split; [reflexivity|exact HR]. Qed.
  Lemma r_panic : forall A (V : A -> A -> Prop) e, rel V (panic_with e) (panic_with e).
  Proof. intros A V e st st' HR. split; [reflexivity|exact HR]. Qed.

  Lemma r_bind : forall A C (V : A -> A -> Prop) (W : C -> C -> Prop) m m' f f',
    rel V m m' -> (forall a a', V a a' -> rel W (f a) (f' a')) -> rel W (bind m f) (bind m' f').
  Proof.
    intros A C V W m m' f f' Hm Hf st st' HR. unfold bind. specialize (Hm st st' HR).
    destruct (m st) as [[a|e|p|] s], (m' st') as [[a'|e'|p'|] s']; cbn in Hm; destruct Hm as [H1 H2]; try contradiction; auto.
    apply Hf; assumption.
  Qed.

  Lemma r_conseq : forall A (V W : A -> A -> Prop) m m', (forall a a', V a a' -> W a a') -> rel V m m' -> rel W m m'.
  Proof.
    intros A V W m m' H Hm st st' HR. specialize (Hm st st' HR). destruct Hm as [H1 H2]. split; [|exact H2].
    destruct (fst (m st)), (fst (m' st')); cbn in *; auto.
  Qed.

  Lemma r_get : rel R get get.
  Proof. intros st st' HR. split; exact HR. Qed.

  Lemma r_modify : forall f f', (forall st st', R st st' -> R (f st) (f' st')) -> rel eq (modify f) (modify f').
  Proof. intros f f' H st st' HR. split; [reflexivity|]. apply H. exact HR. Qed.

  Lemma R_content : forall c c' st st', stxt c = stxt c' -> R st st' -> R (set_content c st) (set_content c' st').
  Proof. intros c c' st st' Hc (H1 & H2 & H3). split; [exact Hc|]. split; [exact H2|exact H3]. Qed.

  Lemma r_set_content : forall c c', stxt c = stxt c' -> rel eq (modify (set_content c)) (modify (set_content c')).
  Proof. intros c c' H. apply r_modify. intros. apply R_content; assumption. Qed.

  Lemma r_lift : forall A (V : A -> A -> Prop) r r', same_res V r r' -> rel V (lift r) (lift r').
  Proof. intros A V r r' H st st' HR. split; [exact H|exact HR]. Qed.
  Lemma r_ok_or : forall A (o : option A) e, rel eq (ok_or o e) (ok_or o e).
  Proof. intros A [a|] e; [apply r_ret; reflexivity|apply r_fail]. Qed.
  Lemma r_ok_or_slice : forall o o' e, osim o o' -> rel ssim (ok_or o e) (ok_or o' e).
  Proof. intros [a|] [a'|] e H; try contradiction; [apply r_ret; exact H|apply r_fail]. Qed.

  Lemma r_lexc : forall A (l : lexer A), rel eq (lexc l) (lexc l).
  Proof.
    intros A l st st' HR. unfold lexc. assert (E : stxt (i_content st) = stxt (i_content st')) by apply HR. rewrite <- E.
    destruct (l (stxt (i_content st))) as [r s]. split; [apply same_res_refl|]. apply R_content; [reflexivity|exact HR].
  Qed.

  Lemma r_local : forall A (l : lexer A) t, rel eq (on_local l t) (on_local l t).
  Proof. intros A l t st st' HR. unfold on_local. destruct (l t) as [[a|e|p|] r]; split; cbn; auto. Qed.

  Lemma arg_slice_sim : forall c c', stxt c = stxt c' -> same_res asim (fst (arg_slice c)) (fst (arg_slice c')) /\
    stxt (snd (arg_slice c)) = stxt (snd (arg_slice c')).
  Proof.
    intros c c' H. unfold arg_slice. rewrite <- H. destruct (lex_argument (stxt c)) as [[[[cs|ctx]|g]|e|p|] r]; cbn; auto.
  Qed.

  Lemma r_argc : rel asim argc argc.
  Proof.
    intros st st' HR. unfold argc. destruct (arg_slice_sim (i_content st) (i_content st') ltac:(apply HR)) as [H1 H2].
    destruct (arg_slice (i_content st)), (arg_slice (i_content st')). split; [exact H1|]. apply R_content; assumption.
  Qed.

  Lemma r_groupc : forall k, rel ssim (groupc k) (groupc k).
  Proof.
    intros k st st' HR. unfold groupc. assert (E : stxt (i_content st) = stxt (i_content st')) by apply HR. rewrite <- E.
    destruct (group_content k (stxt (i_content st))) as [[g|e|p|] r]; (split; [reflexivity || exact I|apply R_content; [reflexivity|exact HR]]).
  Qed.

  Lemma r_bracec : rel ssim bracec bracec.
  Proof.
    intros st st' HR. unfold bracec. assert (E : stxt (i_content st) = stxt (i_content st')) by apply HR. rewrite <- E.
    destruct (brace_argument (stxt (i_content st))) as [[g|e|p|] r]; (split; [reflexivity || exact I|apply R_content; [reflexivity|exact HR]]).
  Qed.

  Lemma r_optc : rel osim optc optc.
  Proof.
    intros st st' HR. unfold optc. assert (E : stxt (i_content st) = stxt (i_content st')) by apply HR. rewrite <- E.
    destruct (optional_argument (stxt (i_content st))) as [[[g|]|e|p|] r];
      (split; [reflexivity || exact I|apply R_content; [reflexivity|exact HR]]).
  Qed.

  Lemma r_push : forall l l', Forall2 isim l l' -> rel eq (push l) (push l').
  Proof.
    intros l l' H. apply r_modify. intros st st' (H1 & (b & b' & E1 & E2 & Hb) & H3). split; [exact H1|]. split; [|exact H3].
    exists (b ++ l)%list, (b' ++ l')%list. cbn. rewrite E1, E2, <- !app_assoc. split; [reflexivity|]. split; [reflexivity|].
    apply Forall2_app; assumption.
  Qed.
  Lemma r_push_ev : forall e, rel eq (push_ev e) (push_ev e).
  Proof. intros e. apply r_push. apply isims_refl. Qed.

  (** A position in the part of the buffer that is the same. *)
  Definition bpos (n n' : nat) : Prop := exists k, (n = length B + k /\ n' = length B' + k)%nat.

  Lemma r_buf_len : rel bpos buf_len buf_len.
  Proof.
    intros st st' HR. split; [|exact HR]. destruct HR as (_ & (b & b' & E1 & E2 & Hb) & _). cbn. rewrite E1, E2, !app_length.
    exists (length b). split; [reflexivity|]. f_equal. symmetry. eapply Forall2_len. exact Hb.
  Qed.

  Lemma firstn_past : forall A (b l : list A) k, firstn (length b + k) (b ++ l) = (b ++ firstn k l)%list.
  Proof. intros. rewrite firstn_app_2. reflexivity. Qed.
  Lemma skipn_past : forall A (b l : list A) k, skipn (length b + k) (b ++ l) = skipn k l.
  Proof.
    intros A b l k. induction b as [|x b IH]; [reflexivity|]. exact IH.
  Qed.

  Lemma r_split_off : forall n n', bpos n n' -> rel (Forall2 isim) (split_off n) (split_off n').
  Proof.
    intros n n' (k & -> & ->) st st' (H1 & (b & b' & E1 & E2 & Hb) & H3). unfold split_off. cbn.
    rewrite E1, E2, !skipn_past, !firstn_past. split; [apply Forall2_skipn; exact Hb|]. split; [exact H1|]. split; [|exact H3].
    exists (firstn k b), (firstn k b'). split; [reflexivity|]. split; [reflexivity|]. apply Forall2_firstn. exact Hb.
  Qed.

  Lemma r_peek : rel eq peek peek.
  Proof. intros st st' HR. split; [|exact HR]. cbn. destruct HR as [-> _]. reflexivity. Qed.

  Lemma r_drop1 : rel eq drop1 drop1.
  Proof. apply r_modify. intros st st' HR. apply R_content; [|exact HR]. cbn. destruct HR as [-> _]. reflexivity. Qed.

  Lemma group_instrs_sim : forall g g', stxt g = stxt g' -> Forall2 isim (group_instrs g) (group_instrs g').
  Proof. intros g g' H. unfold group_instrs. repeat constructor. exact H. Qed.
End Sim.

#[global] Hint Resolve r_fail r_panic r_lexc r_local r_argc r_groupc r_bracec r_optc r_push_ev r_peek r_drop1 group_instrs_sim
  r_ok_or isims_refl : sim.

(** Rewrites the parts of a state by those of the other one. *)
Ltac same_state H :=
  let H1 := fresh in let H2 := fresh in let H3 := fresh in let H4 := fresh in let H5 := fresh in let H6 := fresh in let H7 := fresh in
  destruct H as (H1 & _ & H2 & H3 & H4 & H5 & H6 & H7); rewrite ?H1, ?H2, ?H3, ?H4, ?H5, ?H6, ?(csim_contains _ _ _ H7).

Ltac rmod := apply r_modify; let H := fresh in intros ? ? H;
  destruct H as (? & ? & ? & ? & ? & ? & ? & ?); repeat split; cbn; solve [assumption | congruence | apply csim_insert; assumption].

Ltac rstep :=
  match goal with
  | |- rel _ _ _ (bind (ret _) _) (bind _ _) => eapply r_bind; [apply r_ret; reflexivity|intros ? ? <-]
  | |- rel _ _ _ (bind get _) _ => eapply r_bind; [apply r_get|let H := fresh in intros ? ? H; same_state H]
  | |- rel _ _ _ (bind argc _) _ => eapply r_bind; [apply r_argc|intros ? ? ?]
  | |- rel _ _ _ (bind (groupc _) _) _ => eapply r_bind; [apply r_groupc|intros ? ? ?]
  | |- rel _ _ _ (bind bracec _) _ => eapply r_bind; [apply r_bracec|intros ? ? ?]
  | |- rel _ _ _ (bind optc _) _ => eapply r_bind; [apply r_optc|intros ? ? ?]
  | |- rel _ _ _ (bind (lift (fst (arg_slice _))) _) _ =>
      eapply r_bind with (V := asim); [apply r_lift; apply arg_slice_sim; reflexivity|intros ? ? ?]
  | |- rel _ _ _ (bind buf_len _) _ => eapply r_bind; [apply r_buf_len|intros ? ? ?]
  | |- rel _ _ _ (bind (split_off _) _) _ => eapply r_bind; [apply r_split_off; eassumption|intros ? ? ?]
  | |- rel _ _ _ (bind (match ?x with _ => _ end) _) _ => eapply r_bind with (V := eq); [|intros ? ? <-]
  | |- rel _ _ _ (bind _ _) _ => eapply r_bind with (V := eq); [|intros ? ? <-]
  | |- rel _ _ _ (ret _) _ => apply r_ret; reflexivity
  | |- rel _ _ _ (fail _) _ => apply r_fail
  | |- rel _ _ _ (panic_with _) _ => apply r_panic
  | |- rel _ _ _ (lift ?r) _ => apply r_lift; apply same_res_refl
  | |- rel _ _ _ (ok_or _ _) _ => apply r_ok_or
  | |- rel _ _ _ (lexc _) _ => apply r_lexc
  | |- rel _ _ _ (on_local _ _) _ => apply r_local
  | |- rel _ _ _ (push_ev _) _ => apply r_push_ev
  | |- rel _ _ _ (push _) _ => apply r_push; first [assumption | apply isims_refl | apply group_instrs_sim; assumption
       | repeat (apply Forall2_cons || apply Forall2_nil); cbn; auto]
  | |- rel _ _ _ (modify (set_content _)) _ => apply r_set_content; cbn; congruence
  | |- rel _ _ _ (modify _) _ => rmod
  | |- rel _ _ _ (match ?x with _ => _ end) (match ?x with _ => _ end) => destruct x
  | H : asim ?x ?y |- rel _ _ _ (match ?x with _ => _ end) (match ?y with _ => _ end) =>
      destruct x, y; cbn in H; try contradiction; try subst; try rewrite H
  | H : osim ?x ?y |- rel _ _ _ (match ?x with _ => _ end) (match ?y with _ => _ end) =>
      destruct x, y; cbn in H; try contradiction; try rewrite H
  | |- rel _ _ _ (let (_, _) := ?x in _) _ => destruct x
  end.

Section SimPrim.
  Variables B B' : list instr.
  Variables rec rec' : str -> P unit.
  Hypothesis Hrec : forall cs, rel B B' eq (rec cs) (rec' cs).
  Notation rel := (rel B B').

  Lemma r_handle_char : forall c c', stxt c = stxt c' -> rel eq (handle_char c) (handle_char c').
  Proof.
    intros c c' H. unfold handle_char. rewrite H. rstep. cbv zeta. repeat rstep. all: match goal with |- ?g => idtac g end.
  Qed.

  Lemma r_handle_arg : forall a a', asim a a' -> rel eq (handle_arg rec a) (handle_arg rec' a').
  Proof.
    intros a a' H. unfold handle_arg. repeat rstep; try (apply Hrec); try (apply r_handle_char; assumption).
  Qed.

  Ltac rs := repeat first [rstep | apply r_handle_arg; assumption | apply r_handle_char; assumption | apply Hrec].

  Lemma r_group_arg : forall e, rel eq (group_arg e) (group_arg e).
  Proof. intros e. unfold group_arg. rs. Qed.
  Lemma r_sized_delim : forall s, rel eq (sized_delim s) (sized_delim s).
  Proof. intros s. unfold sized_delim. rs. Qed.
  Lemma single_char_sim : forall a a', asim a a' -> single_char a = single_char a'.
  Proof. intros [g|c|c] [g'|c'|c'] H; cbn in *; try contradiction; rewrite ?H; reflexivity. Qed.
  Lemma sarg_token_sim : forall a a', asim a a' -> sarg_token a = sarg_token a'.
  Proof. intros [g|c|c] [g'|c'|c'] H; cbn in *; try contradiction; rewrite ?H; reflexivity. Qed.

  Lemma r_atom_group : forall k, rel eq (atom_group rec k) (atom_group rec' k).
  Proof.
    intros k. unfold atom_group. rstep. rewrite (single_char_sim _ _ H). destruct (single_char a'); [rs|].
    assert (Hd : rel eq (push_ev (EvBegin GNormal) ;; handle_arg rec a ;; push_ev EvEnd)
      (push_ev (EvBegin GNormal) ;; handle_arg rec' a' ;; push_ev EvEnd)) by rs.
    destruct k; try exact Hd. destruct a, a'; cbn in H; try contradiction; try exact Hd. rewrite H. rs.
  Qed.
  Lemma r_font_group : forall f, rel eq (font_group rec f) (font_group rec' f).
  Proof. intros f. unfold font_group. rs. Qed.
  Lemma r_accent : forall c s, rel eq (accent rec c s) (accent rec' c s).
  Proof. intros. unfold accent. rs. Qed.
  Lemma r_underscript : forall c, rel eq (underscript rec c) (underscript rec' c).
  Proof. intros. unfold underscript. rs. Qed.
  Lemma r_text_argument : forall f, rel eq (text_argument f) (text_argument f).
  Proof. intros. unfold text_argument. rs. Qed.
  Lemma r_fraction_like : forall o c b s, rel eq (fraction_like rec o c b s) (fraction_like rec' o c b s).
  Proof. intros. unfold fraction_like. rs. Qed.
  Lemma r_array_environment : rel eq array_environment array_environment.
  Proof. unfold array_environment. rstep; [apply r_group_arg|]. rs. Qed.
  Lemma r_optional_alignment : rel eq optional_alignment optional_alignment.
  Proof. unfold optional_alignment. rs. Qed.
  Lemma r_new_command : forall b, rel eq (new_command b) (new_command b).
  Proof.
    intros b. unfold new_command. eapply r_bind; [apply r_bracec|]. intros g g' Hg. unfold ssim in Hg. rewrite Hg.
    rstep; [apply r_local|]. cbv zeta. rstep. rstep; [rs|].
    eapply r_bind; [apply r_optc|]. intros o o' Ho.
    eapply r_bind; [apply r_ok_or_slice; exact Ho|]. intros t t' Ht. unfold ssim in Ht. rewrite Ht. rstep; [apply r_ok_or|].
    eapply r_bind; [apply r_optc|]. intros d d' Hd.
    assert (Ed : is_some d = is_some d' /\ option_map stxt d = option_map stxt d').
    { destruct d, d'; cbn in *; try contradiction; try rewrite Hd; auto. }
    destruct Ed as [Ed1 Ed2]. rewrite Ed1, Ed2. rstep; [rstep|].
    eapply r_bind; [apply r_bracec|]. intros q q' Hq. unfold ssim in Hq. rewrite Hq. rs.
  Qed.
  Lemma r_large_op : forall c m, rel eq (large_op c m) (large_op c m).
  Proof. intros. unfold large_op. rs. Qed.
  Lemma r_color_of : forall s, rel eq (color_of s) (color_of s).
  Proof. intros. unfold color_of. rs. Qed.
  Lemma r_genfrac_delim : rel eq genfrac_delim genfrac_delim.
  Proof. unfold genfrac_delim. rstep. rewrite (sarg_token_sim _ _ H). rs. Qed.
  Lemma r_left_delim : rel eq left_delim left_delim.
  Proof. unfold left_delim. rs. Qed.
  Lemma r_alignat_pairs : rel eq alignat_pairs alignat_pairs.
  Proof. unfold alignat_pairs. rs. Qed.
  Lemma r_pair_count : forall n, rel eq (pair_count n) (pair_count n).
  Proof. intros. unfold pair_count. rs. Qed.
  Lemma r_environment : forall n, rel eq (environment n) (environment n).
  Proof.
    intros n. unfold environment. repeat first [rstep | apply r_array_environment | apply r_alignat_pairs | apply r_pair_count
      | apply r_group_arg | apply r_optional_alignment].
  Qed.
  Lemma r_begin_env : rel eq begin_env begin_env.
  Proof.
    unfold begin_env. repeat first [rstep | apply r_group_arg | apply r_environment].
  Qed.
  Lemma r_newline : rel eq newline newline.
  Proof. unfold newline. rs. Qed.

  Lemma r_hprim_body : forall cs, rel eq (hprim_body rec cs) (hprim_body rec' cs).
  Proof.
    intros cs. unfold hprim_body.
    destruct (lookup_prim cs); repeat first [rstep | apply r_handle_arg; assumption | apply r_handle_char; assumption | apply Hrec
      | apply r_atom_group | apply r_font_group | apply r_group_arg | apply r_color_of | apply r_text_argument | apply r_sized_delim
      | apply r_left_delim | apply r_large_op | apply r_accent | apply r_underscript | apply r_fraction_like | apply r_genfrac_delim
      | apply r_begin_env | apply r_newline | apply r_new_command].
    all: match goal with H : osim ?x ?y |- _ => destruct x, y; cbn in H; try contradiction; reflexivity end.
  Qed.
End SimPrim.

Lemma r_hprim : forall B B' f cs, rel B B' eq (hprim f cs) (hprim f cs).
Proof.
  intros B B'. induction f as [|f IH]; intros cs; [intros st st' HR; split; [exact I|exact HR]|].
  cbn [hprim]. apply r_hprim_body. exact IH.
Qed.

Lemma r_handle_prim : forall B B' cs, rel B B' eq (handle_prim cs) (handle_prim cs).
Proof.
  intros B B' cs st st' HR. unfold handle_prim. assert (E : stxt (i_content st) = stxt (i_content st')) by apply HR.
  rewrite <- E. apply r_hprim. exact HR.
Qed.

Section SimScripts.
  Variables B B' : list instr.

  Definition script_sim (a b : option script) : Prop :=
    match a, b with
    | Some (e, n, m), Some (e', n', m') => e = e' /\ bpos B B' n n' /\ bpos B B' m m'
    | None, None => True
    | _, _ => False
    end.

  Lemma bpos_eqb : forall n m n' m', bpos B B' n n' -> bpos B B' m m' -> Nat.eqb n m = Nat.eqb n' m'.
  Proof.
    intros n m n' m' (k & -> & ->) (j & -> & ->). destruct (Nat.eqb_spec (length B + k) (length B + j)), (Nat.eqb_spec (length B' + k) (length B' + j)); lia.
  Qed.

  Lemma r_scripts : rel B B' script_sim parse_scripts parse_scripts.
  Proof.
    unfold parse_scripts. rstep. rstep; [apply r_ret; exact I|]. rstep; [repeat rstep|].
    rstep. { apply r_modify. intros st st' HR. apply R_content; [|exact HR]. cbn. destruct HR as [-> _]. reflexivity. }
    rstep; [apply r_peek|]. rstep; [|apply r_ret; exact I]. cbv zeta. rstep; [apply r_drop1|].
    eapply r_bind; [apply r_buf_len|]. intros f f' Hf. rstep. rstep; [apply r_handle_arg; [apply r_handle_prim|assumption]|].
    eapply r_bind; [apply r_buf_len|]. intros g g' Hg. rstep; [apply r_peek|]. rstep.
    { rstep; [rstep; [apply r_drop1|]; rstep; rstep; [apply r_handle_arg; [apply r_handle_prim|assumption]|]; rstep; [apply r_peek|]; repeat rstep|repeat rstep]. }
    eapply r_bind; [apply r_buf_len|]. intros h h' Hh. rstep. rewrite (bpos_eqb _ _ _ _ Hg Hh).
    rstep; rstep; apply r_ret; cbn; auto.
  Qed.

  Lemma r_atom : forall m m', rel B B' eq m m' -> rel B B' script_sim (parse_atom m) (parse_atom m').
  Proof. intros m m' H. unfold parse_atom. eapply r_bind; [exact H|]. intros _ _ _. apply r_scripts. Qed.
End SimScripts.
