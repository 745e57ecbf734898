(** * FormulaNucleus3: environments, and the induction over nuclei. *)

From Coq Require Import Ascii String List NArith ZArith Bool Lia Arith.
From Verif Require Import Base Float32 Event Tables Prim PrimTable Lex Macros Primitives Spans Parser
  SpecLex SpecNum LexFacts LexMore LexNum SpecFormula FormulaLex FormulaActs FormulaNucleus FormulaNucleus2.
Import ListNotations.
Open Scope N_scope.
Open Scope list_scope.
Open Scope sm_scope.


Section Known.
Context {KN : Known}.

(** ** Environments *)

Definition kind_of (name : str) : gkind :=
  match assoc_str name plain_table with
  | Some (_, _, k, _) => k
  | None => match assoc_str name matrix_table with Some (ty, starred, _, _) => GKMatrix ty starred | None => GKNormal end
  end.

Definition desc_of (e : env) (k : gkind) : env_desc := mkEnv (v_group e) (v_marks e) k (v_style e) (v_around e).

Definition delimits (k : gkind) (name : str) : Prop := opening_str k = begin_of name /\ closing_str k = end_of name.

Lemma plain_envs : Forall (fun p => (forall st, environment (fst p) st = (Ok (desc_of (snd p) (kind_of (fst p))), st)) /\
  delimits (kind_of (fst p)) (fst p) /\ Forall (fun c => c <> 92 /\ c <> 37 /\ c <> 123 /\ c <> 125) (fst p)) environments.
Proof.
  unfold environments. cbn [map fst snd].
  repeat (constructor; [split; [intros st; vm_compute; reflexivity|split; [split; vm_compute; reflexivity|vm_compute; repeat constructor; congruence]]|]).
  constructor.
Qed.

Definition starred_env (d : option (char * char)) (a : col_align) : env := mkEnvironment (GMatrix a) any_marks None d.

Lemma starred_envs : Forall (fun p => (forall st, environment (fst p) st =
    (do a <- optional_alignment ; ret (desc_of (starred_env (snd p) a) (kind_of (fst p)))) st) /\
  delimits (kind_of (fst p)) (fst p) /\ Forall (fun c => c <> 92 /\ c <> 37 /\ c <> 123 /\ c <> 125) (fst p)) starred_matrices.
Proof.
  unfold starred_matrices. cbn [map fst snd].
  repeat (constructor; [split; [intros st; reflexivity|split; [split; vm_compute; reflexivity|vm_compute; repeat constructor; congruence]]|]).
  constructor.
Qed.

Lemma alignments_ok : forall t a, In (t, a) alignments -> col_align_of t = Some a /\ Forall (fun c => c <> 92 /\ c <> 37 /\ c <> 91 /\ c <> 93 /\ c <> 123 /\ c <> 125) t.
Proof.
  intros t a [H|[H|[H|[]]]]; injection H as <- <-; (split; [reflexivity|vm_compute; repeat constructor; congruence]).
Qed.

Lemma columns_read : forall t cols, columns t cols -> forall count, count + N.of_nat (column_count cols) < 65535 ->
  array_columns count t = Ok (cols, count + N.of_nat (column_count cols)).
Proof.
  induction 1 as [|c x t cols Hc H IH]; intros count Hn; cbn [array_columns].
  - cbn. rewrite N.add_0_r. reflexivity.
  - assert (E : 65535 <=? count = false) by (apply N.leb_gt; lia). rewrite E. clear E.
    destruct Hc as [Hc|[Hc|[Hc|[Hc|[Hc|[]]]]]]; injection Hc as <- <-; cbn [column_count filter length] in *;
      cbn [N.eqb Pos.eqb]; unfold column_count in *; cbn [filter length] in *; rewrite IH by lia; f_equal; f_equal; lia.
Qed.

Lemma columns_chars : forall t cols, columns t cols -> Forall (fun c => c <> 92 /\ c <> 37 /\ c <> 123 /\ c <> 125) t.
Proof.
  induction 1 as [|c x t cols Hc H IH]; constructor; [|exact IH].
  destruct Hc as [Hc|[Hc|[Hc|[Hc|[Hc|[]]]]]]; injection Hc as <- _; repeat split; congruence.
Qed.

Lemma column_exists : forall cols n, column_count cols = S n -> existsb is_column cols = true.
Proof.
  induction cols as [|[a|l] cols IH]; intros n H; [discriminate|reflexivity|]. cbn. apply (IH n). exact H.
Qed.

Definition pair_kind (name : str) : gkind :=
  if str_eqb name (lit "alignat") then GKAlignat true else if str_eqb name (lit "alignat*") then GKAlignat false else GKAlignedat.

Lemma pair_envs : Forall (fun x => (forall st, environment (fst x) st =
    (do p <- alignat_pairs ; do n <- pair_count p ; ret (mkEnv (snd x p) n (pair_kind (fst x)) None None)) st) /\
  delimits (pair_kind (fst x)) (fst x) /\ Forall (fun c => c <> 92 /\ c <> 37 /\ c <> 123 /\ c <> 125) (fst x)) pair_environments.
Proof.
  unfold pair_environments. cbn [map fst snd].
  repeat (constructor; [split; [intros st; reflexivity|split; [split; vm_compute; reflexivity|vm_compute; repeat constructor; congruence]]|]).
  constructor.
Qed.

Lemma set_content_same : forall st, set_content (i_content st) st = st.
Proof. intros []. reflexivity. Qed.

Lemma env_args_run : forall name s e r, env_args name s e r -> forall st, stxt (i_content st) = s ->
  balanced 123 125 name /\ (length r <= length s)%nat /\
  exists c k, environment name st = (Ok (desc_of e k), set_content c st) /\ stxt c = r /\ delimits k name.
Proof.
  intros name s e r H st Hs. destruct H as [name e s Hin|name d s Hin Hns|name d w t a r Hin Hw Ht|w t cols r n Hw Hc Hn Hb|w t cols r n Hw Hc Hn Hb|w t a r Hw Ht|name g w ds p r Hin Hw Hd Hne Hp Hle].
  - destruct (proj1 (Forall_forall _ _) plain_envs _ Hin) as (H1 & H2 & H3). cbn [fst snd] in *.
    split; [apply plain_balanced, H3|]. split; [lia|]. exists (i_content st), (kind_of name). rewrite H1, set_content_same. auto.
  - destruct (proj1 (Forall_forall _ _) starred_envs _ Hin) as (H1 & H2 & H3). cbn [fst snd] in *.
    split; [apply plain_balanced, H3|]. split; [lia|]. rewrite <- Hs in Hns. destruct (optc_none st Hns) as (c & Ho & Hc).
    exists c, (kind_of name). rewrite H1. unfold bind, optional_alignment, bind. rewrite Ho. rewrite Hc. auto.
  - destruct (proj1 (Forall_forall _ _) starred_envs _ Hin) as (H1 & H2 & H3). cbn [fst snd] in *.
    split; [apply plain_balanced, H3|]. split; [rewrite !app_length; cbn [length]; rewrite app_length; cbn [length]; lia|].
    apply alignments_ok in Ht as [Ht1 Ht2]. destruct (optc_some st w t r Hs Hw) as (sl & c & Ho & Hsl & Hc).
    { apply plain_balanced. eapply Forall_impl; [|exact Ht2]. cbn. tauto. }
    exists c, (kind_of name). rewrite H1. unfold bind, optional_alignment, bind. rewrite Ho, Hsl, Ht1. auto.
  - split; [apply plain_balanced; vm_compute; repeat constructor; congruence|]. split; [rewrite !app_length; cbn [length]; rewrite app_length; cbn [length]; lia|].
    destruct (group_arg_braced EArgument st w t r Hs Hw) as (c & Hg & Hr); [apply plain_balanced, (columns_chars _ _ Hc)|].
    exists c, (GKArray false). split; [|split; [exact Hr|split; vm_compute; reflexivity]].
    unfold environment. change (str_eqb (lit "array") (lit "array")) with true. cbv iota. unfold array_environment, bind. rewrite Hg. unfold lift.
    rewrite (columns_read _ _ Hc) by lia. cbn [fst snd]. rewrite (column_exists _ _ Hn). unfold ret, desc_of. cbn. rewrite Hn.
    replace (N.of_nat (S n) - 1) with (N.of_nat n) by lia. reflexivity.
  - split; [apply plain_balanced; vm_compute; repeat constructor; congruence|]. split; [rewrite !app_length; cbn [length]; rewrite app_length; cbn [length]; lia|].
    destruct (group_arg_braced EArgument st w t r Hs Hw) as (c & Hg & Hr); [apply plain_balanced, (columns_chars _ _ Hc)|].
    exists c, (GKArray true). split; [|split; [exact Hr|split; vm_compute; reflexivity]].
    unfold environment. change (str_eqb (lit "darray") (lit "array")) with false. change (str_eqb (lit "darray") (lit "darray")) with true.
    cbv iota. unfold array_environment, bind. rewrite Hg. unfold lift.
    rewrite (columns_read _ _ Hc) by lia. cbn [fst snd]. rewrite (column_exists _ _ Hn). unfold ret, desc_of. cbn. rewrite Hn.
    replace (N.of_nat (S n) - 1) with (N.of_nat n) by lia. reflexivity.
  - split; [apply plain_balanced; vm_compute; repeat constructor; congruence|]. split; [rewrite !app_length; cbn [length]; rewrite app_length; cbn [length]; lia|].
    apply alignments_ok in Ht as [Ht1 Ht2]. destruct (group_arg_braced EArgument st w t r Hs Hw) as (c & Hg & Hr).
    { apply plain_balanced. eapply Forall_impl; [|exact Ht2]. cbn. tauto. }
    exists c, GKSubArray. split; [|split; [exact Hr|split; vm_compute; reflexivity]].
    change (environment (lit "subarray")) with (do t <- group_arg EArgument ; do a <- ok_or (col_align_of t) EArgument ;
      ret (mkEnv (GSubArray a) 0 GKSubArray None None)). unfold bind. rewrite Hg, Ht1. reflexivity.
  - destruct (proj1 (Forall_forall _ _) pair_envs _ Hin) as (H1 & H2 & H3). cbn [fst snd] in *.
    split; [apply plain_balanced, H3|]. split; [rewrite !app_length; cbn [length]; rewrite app_length; cbn [length]; lia|].
    destruct (argc_braced st w ds r Hs Hw) as (sl & c & Ha & Hsl & Hc).
    { apply plain_balanced. eapply Forall_impl; [|apply digits_plain, Hd]. unfold plain_char. cbn. tauto. }
    exists c, (pair_kind name). rewrite H1. split; [|auto]. unfold alignat_pairs, bind. rewrite Ha. unfold on_local. rewrite Hsl.
    pose proof (integer_read ds p [] [] Hd Hne Hp) as Hi. rewrite app_nil_r in Hi. rewrite Hi; [|change usize_limit with 18446744073709551616; lia|exact I|left; split; [reflexivity|exact I]].
    unfold ret. cbn [fst]. rewrite N.mod_small by lia. unfold pair_count. replace (65535 <? p * 2) with false by (symmetry; apply N.ltb_ge; lia).
    unfold ret, desc_of. cbn. replace (p * 2) with (2 * p) by lia. reflexivity.
Qed.

Lemma is_nil_lines : forall A (ls : list A) B (x y : B), (if is_nil ls then x else y) = match ls with [] => x | _ => y end.
Proof. intros A [|] B x y; reflexivity. Qed.

Lemma begin_acts : forall st s0 w name s e s1 ls s2 g es r n, stxt (i_content st) = s0 -> s0 = w ++ 123 :: name ++ 125 :: s -> white w ->
  env_args name s e s1 -> lines s1 ls s2 -> enclosed (begin_of name) (end_of name) s2 g r ->
  formula (Some (0, v_marks e)) g es -> (length s0 <= n)%nat ->
  acts begin_env st n (env_events e ls es) no_limits r.
Proof.
  intros st s0 w name s e s1 ls s2 g es r n Hs -> Hw He Hl Hg Hf Hn.
  assert (Hgl : (length g < length s2)%nat).
  { apply enclosed_text in Hg. rewrite Hg, !app_length. unfold end_of. rewrite !app_length. cbn. lia. }
  pose proof (lines_suffix _ _ _ Hl) as Hls.
  assert (Hbal : balanced 123 125 name) by apply (env_args_run _ _ _ _ He (mkIst (mkSlice 0 0 s) [] false SPRight false false None []) eq_refl).
  destruct (group_arg_braced EArgument st w name s Hs Hw Hbal) as (c0 & H0 & Hc0).
  destruct (env_args_run _ _ _ _ He (set_content c0 st) Hc0) as (_ & Hlen & c1 & k & H1 & Hc1 & (Ho & Hc)).
  rewrite app_length in Hn. cbn [length] in Hn. rewrite app_length in Hn. cbn [length] in Hn.
  assert (Hx : acts (match v_around e with
  | Some (l, r) => push_ev (EvBegin (GLeftRight (Some l) (Some r)))
  | None => ret tt
  end ;;
  do hl <- lexc horizontal_lines ;
  do g <- groupc k ;
  push_ev (EvBegin (v_group e)) ;;
  match v_style e with Some s => push_ev (EvState (SCStyle s)) | None => ret tt end ;;
  (if is_nil hl then ret tt else push_ev (EvFlow (EFStartLines hl))) ;;
  push [ISub g (Some (0, v_marks e)); IEv EvEnd] ;;
  (if is_some (v_around e) then push_ev EvEnd else ret tt)) (set_content c1 st) n (env_events e ls es) no_limits r).
  { unfold env_events. eapply (acts_then _ _ _ _ _ s1).
    - destruct (v_around e) as [[l0 r0]|]; [apply push_ev_acts, Hc1|apply acts_ret, Hc1].
    - intros st1 E1 _. 
      assert (Hlx : lexc horizontal_lines st1 = (Ok ls, set_content (suffix_slice (i_content st1) s2) st1)).
      { unfold lexc. rewrite E1, (lines_lexer _ _ _ Hl). reflexivity. }
      assert (Hgr : forall st2, stxt (i_content st2) = s2 -> exists sl, groupc k st2 = (Ok sl, set_content (suffix_slice (i_content st2) r) st2) /\ stxt sl = g).
      { intros st2 E2. unfold groupc. rewrite E2. rewrite <- Ho, <- Hc in Hg. apply group_content_iff in Hg. rewrite Hg. eexists. split; reflexivity. }
      destruct (Hgr (set_content (suffix_slice (i_content st1) s2) st1) eq_refl) as (sl & Hgr' & Hsl).
      assert (Hy : acts (push_ev (EvBegin (v_group e)) ;;
        match v_style e with Some s => push_ev (EvState (SCStyle s)) | None => ret tt end ;;
        (if is_nil ls then ret tt else push_ev (EvFlow (EFStartLines ls))) ;;
        push [ISub sl (Some (0, v_marks e)); IEv EvEnd] ;;
        (if is_some (v_around e) then push_ev EvEnd else ret tt))
        (set_content (suffix_slice (suffix_slice (i_content st1) s2) r) (set_content (suffix_slice (i_content st1) s2) st1)) n
        ([EvBegin (v_group e)] ++ match v_style e with Some s => [EvState (SCStyle s)] | None => [] end ++
          match ls with [] => [] | _ => [EvFlow (EFStartLines ls)] end ++
          es ++ [EvEnd] ++ match v_around e with Some _ => [EvEnd] | None => [] end) no_limits r).
      { eapply acts_then; [apply push_ev_acts; reflexivity|]. intros st2 E2 _.
        eapply (acts_then _ _ _ _ _ r); [destruct (v_style e); [apply push_ev_acts, E2|apply acts_ret, E2]|]. intros st3 E3 _.
        eapply (acts_then _ _ _ _ _ r); [destruct ls; [apply acts_ret, E3|apply push_ev_acts, E3]|]. intros st4 E4 _.
        rewrite app_assoc. eapply (acts_then _ _ _ _ _ r).
        - apply push_acts; [|exact E4]. constructor; [rewrite Hsl; lia|rewrite Hsl; exact Hf|repeat constructor].
        - intros st5 E5 _. destruct (v_around e) as [[? ?]|]; [apply push_ev_acts, E5|apply acts_ret, E5]. }
      destruct Hy as (L & c & h & Hy). exists L, c, h. unfold bind at 1. rewrite Hlx. unfold bind at 1. rewrite Hgr'. exact Hy. }
  destruct Hx as (L & c & h & Hx). exists L, c, h. unfold begin_env, bind at 1. rewrite H0. unfold bind at 1. rewrite H1. exact Hx.
Qed.

End Known.
