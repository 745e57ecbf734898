(** * PrimFacts: slices, and invariants of the state of the primitives. *)

From Coq Require Import List NArith ZArith Bool Lia Arith.
From Verif Require Import Base Float32 Event Tables Prim PrimTable Lex Macros Primitives SpecLex LexFacts LexMore.
Import ListNotations.
Open Scope N_scope.
Open Scope sm_scope.

Ltac len := repeat (rewrite app_length in * || (progress cbn [length app stxt] in * )); lia.

(** ** Sub-slices *)

(** [g] points at a part of [c], at the right offset. *)
Definition sl_sub (g c : slice) : Prop :=
  exists p q, stxt c = (p ++ stxt g ++ q)%list /\ sbase g = sbase c /\ soff g = soff c + blen p.

Definition slen (s : slice) : nat := length (stxt s).

Lemma sl_sub_refl : forall c, sl_sub c c.
Proof. intros c. exists [], []. rewrite app_nil_r. cbn. rewrite N.add_0_r. auto. Qed.

Lemma sl_sub_trans : forall a b c, sl_sub a b -> sl_sub b c -> sl_sub a c.
Proof.
  intros a b c (p & q & H1 & H2 & H3) (p' & q' & H4 & H5 & H6).
  exists (p' ++ p)%list, (q ++ q')%list. rewrite H4, H1, blen_app, <- !app_assoc.
  repeat split; [congruence|lia].
Qed.

Lemma sl_sub_len : forall a b, sl_sub a b -> (slen a <= slen b)%nat.
Proof. intros a b (p & q & H & _). unfold slen. rewrite H, !app_length. lia. Qed.

Lemma sl_sub_suffix : forall c r, suffix r (stxt c) -> sl_sub (suffix_slice c r) c.
Proof.
  intros c r [p Hp]. exists p, []. cbn. rewrite app_nil_r, Hp, blen_app.
  repeat split; lia.
Qed.

Lemma sl_sub_mid : forall c g n r p cl, stxt c = (p ++ g ++ cl ++ r)%list -> blen cl = n ->
  sl_sub (mid_slice c g n r) c.
Proof.
  intros c g n r p cl H Hn. exists p, (cl ++ r)%list. cbn. rewrite H, !blen_app.
  repeat split; lia.
Qed.

Lemma suffix_slice_len : forall c r, slen (suffix_slice c r) = length r.
Proof. reflexivity. Qed.

Definition contains (t s : str) : Prop := exists p q, s = (p ++ t ++ q)%list.

Lemma contains_sub : forall t a b, sl_sub a b -> contains t (stxt a) -> contains t (stxt b).
Proof.
  intros t a b (p & q & H & _) (p' & q' & H'). exists (p ++ p')%list, (q' ++ q)%list.
  rewrite H, H', <- !app_assoc. reflexivity.
Qed.

(** What [lex::argument] returns. *)
Definition sarg_spec (c : slice) (r : res sarg) (sl : slice) : Prop :=
  match r with
  | Ok (SGroup g) => sl_sub g c /\ (slen g + slen sl + 2 <= slen c)%nat
  | Ok (SCs cs) => cs <> [] /\ contains (92 :: cs) (stxt c) /\ (slen sl + 2 <= slen c)%nat
  | Ok (SChr ctx) => sl_sub ctx c /\ (slen sl + 1 <= slen c)%nat /\
      exists x, stxt ctx = x :: stxt sl /\ is_ws x = false /\ x <> 37 /\ x <> 92
  | Err _ => True
  | _ => False
  end.

Lemma lex_argument_no_panic : forall s,
  match fst (lex_argument s) with Ok _ | Err _ => True | _ => False end.
Proof.
  intros s. unfold lex_argument, bind. destruct (strip_char 123 (trim_start s)) as [r|].
  - destruct (group_content_cases GKNormal r) as [(a & r' & ->)|(r' & -> & _)]; exact I.
  - pose proof (lex_token_no_panic s) as H. destruct (lex_token s) as [[?|?|?|] ?]; cbn in *; auto.
Qed.

Lemma arg_slice_spec : forall c, let (r, sl) := arg_slice c in
  sl_sub sl c /\ sarg_spec c r sl.
Proof.
  intros c. unfold arg_slice.
  pose proof (lex_argument_suffix (stxt c)) as Hs. pose proof (lex_argument_no_panic (stxt c)) as Hp.
  destruct (lex_argument (stxt c)) as [[[[cs|ctx]|g]|e|p|] r] eqn:E; cbn [fst snd] in *; try contradiction;
    (split; [apply sl_sub_suffix; exact Hs|]); cbn [sarg_spec]; try exact I.
  - apply lex_argument_token in E. destruct E as [E _]. apply lex_token_cs in E.
    destruct E as (b & w & _ & _ & Hc & E). split; [exact Hc|]. split.
    + exists b, (w ++ r)%list. rewrite E. cbn. reflexivity.
    + rewrite suffix_slice_len. unfold slen. rewrite E. destruct cs; [congruence|]. len.
  - apply lex_argument_token in E. destruct E as [E _]. apply lex_token_chr in E.
    destruct E as (b & x & _ & -> & E & H1 & H2 & H3). split; [|split].
    + apply sl_sub_suffix. rewrite E. apply suffix_app.
    + rewrite suffix_slice_len. unfold slen. rewrite E, app_length. cbn [length]. lia.
    + exists x. auto.
  - apply lex_argument_group in E. destruct E as (w & _ & E & _). split.
    + apply (sl_sub_mid c g 1 r (w ++ [123])%list [125]); [|reflexivity].
      rewrite E, <- !app_assoc. reflexivity.
    + rewrite suffix_slice_len. unfold slen, mid_slice. cbn [stxt]. rewrite E. len.
Qed.

(** The readers of slices, as one step. *)
Lemma argc_run : forall st, exists r sl,
  argc st = (r, set_content sl st) /\ sl_sub sl (i_content st) /\ sarg_spec (i_content st) r sl.
Proof.
  intros st. unfold argc. pose proof (arg_slice_spec (i_content st)) as H.
  destruct (arg_slice (i_content st)) as [r sl]. exists r, sl. tauto.
Qed.

Definition slice_res (c : slice) (n : nat) (r : res slice) (sl : slice) : Prop :=
  match r with
  | Ok g => sl_sub g c /\ (slen g + slen sl + n <= slen c)%nat
  | Err _ => True
  | _ => False
  end.

Lemma closing_length : forall k, (1 <= length (closing_str k))%nat.
Proof. intros k. pose proof (closing_not_nil k). destruct (closing_str k); [congruence|cbn; lia]. Qed.

Lemma groupc_run : forall k st, exists r sl,
  groupc k st = (r, set_content sl st) /\ sl_sub sl (i_content st) /\ slice_res (i_content st) 1 r sl.
Proof.
  intros k st. unfold groupc. pose proof (group_content_suffix k (stxt (i_content st))) as Hs.
  destruct (group_content_cases k (stxt (i_content st))) as [(a & r & E)|(r & E & _)]; rewrite E in *; cbn in Hs.
  - eexists _, _. split; [reflexivity|]. split; [apply sl_sub_suffix; exact Hs|].
    apply group_content_text in E. cbn [slice_res]. split.
    + eapply (sl_sub_mid _ _ _ _ [] (closing_str k)); [exact E|reflexivity].
    + rewrite suffix_slice_len. unfold slen, mid_slice. cbn [stxt]. rewrite E, !app_length.
      pose proof (closing_length k). lia.
  - eexists _, _. split; [reflexivity|]. split; [apply sl_sub_suffix; exact Hs|exact I].
Qed.

Lemma bracec_run : forall st, exists r sl,
  bracec st = (r, set_content sl st) /\ sl_sub sl (i_content st) /\ slice_res (i_content st) 2 r sl.
Proof.
  intros st. unfold bracec. pose proof (brace_argument_suffix (stxt (i_content st))) as Hs.
  assert (Hp : match fst (brace_argument (stxt (i_content st))) with Ok _ | Err _ => True | _ => False end).
  { unfold brace_argument. destruct (strip_char 123 _) as [r|]; [|exact I].
    destruct (group_content_cases GKNormal r) as [(a & r' & ->)|(r' & -> & _)]; exact I. }
  destruct (brace_argument (stxt (i_content st))) as [[g|e|p|] r] eqn:E; cbn in Hs, Hp; try contradiction.
  - eexists _, _. split; [reflexivity|]. split; [apply sl_sub_suffix; exact Hs|].
    apply brace_argument_ok in E. destruct E as (w & _ & E & _). cbn [slice_res]. split.
    + apply (sl_sub_mid _ g 1 r (w ++ [123])%list [125]); [|reflexivity].
      rewrite E, <- !app_assoc. reflexivity.
    + rewrite suffix_slice_len. unfold slen, mid_slice. cbn [stxt]. rewrite E. len.
  - eexists _, _. split; [reflexivity|]. split; [apply sl_sub_suffix; exact Hs|exact I].
Qed.

Definition opt_slice_res (c : slice) (r : res (option slice)) (sl : slice) : Prop :=
  match r with
  | Ok (Some g) => sl_sub g c /\ (slen g + slen sl + 2 <= slen c)%nat
  | Ok None => True
  | _ => False
  end.

Lemma optc_run : forall st, exists r sl,
  optc st = (r, set_content sl st) /\ sl_sub sl (i_content st) /\ opt_slice_res (i_content st) r sl.
Proof.
  intros st. unfold optc. pose proof (optional_argument_suffix (stxt (i_content st))) as Hs.
  assert (Hp : match fst (optional_argument (stxt (i_content st))) with Ok _ => True | _ => False end).
  { unfold optional_argument. destruct (strip_char 91 _) as [r|]; [|exact I].
    destruct (group_content GKOptional r) as [[?|?|?|] ?]; exact I. }
  destruct (optional_argument (stxt (i_content st))) as [[[g|]|e|p|] r] eqn:E; cbn in Hs, Hp; try contradiction.
  - eexists _, _. split; [reflexivity|]. split; [apply sl_sub_suffix; exact Hs|].
    apply optional_argument_some in E. destruct E as (w & _ & E & _). cbn [opt_slice_res]. split.
    + apply (sl_sub_mid _ g 1 r (w ++ [91])%list [93]); [|reflexivity].
      rewrite E, <- !app_assoc. reflexivity.
    + rewrite suffix_slice_len. unfold slen, mid_slice. cbn [stxt]. rewrite E. len.
  - eexists _, _. split; [reflexivity|]. split; [apply sl_sub_suffix; exact Hs|exact I].
Qed.

Lemma lexc_run : forall A (l : lexer A), leaves_suffix l -> forall st,
  exists sl, lexc l st = (fst (l (stxt (i_content st))), set_content sl st) /\
    sl_sub sl (i_content st) /\ sl = suffix_slice (i_content st) (snd (l (stxt (i_content st)))).
Proof.
  intros A l Hl st. unfold lexc. specialize (Hl (stxt (i_content st))).
  destruct (l (stxt (i_content st))) as [r rest]. eexists. split; [reflexivity|]. split; [|reflexivity].
  apply sl_sub_suffix. exact Hl.
Qed.

Lemma on_local_state : forall A (l : lexer A) t st, snd (on_local l t st) = st.
Proof. intros. unfold on_local. destruct (l t) as [[?|?|?|] ?]; reflexivity. Qed.

(** ** Invariants *)

(** [keeps I m V]: [m] keeps [I], and its result satisfies [V]. *)
Definition keeps {A} (I : ist -> Prop) (m : P A) (V : A -> Prop) : Prop :=
  forall st, I st -> I (snd (m st)) /\ match fst (m st) with Ok a => V a | _ => True end.

Definition anything {A} (a : A) : Prop := True.

Lemma k_ret : forall A I (a : A) (V : A -> Prop), V a -> keeps I (ret a) V.
Proof. intros A I a V H st Hi. cbn. auto. Qed.

Lemma k_fail : forall A I e (V : A -> Prop), keeps I (fail e) V.
Proof. intros A I e V st Hi. cbn. auto. Qed.

Lemma k_panic : forall A I e (V : A -> Prop), keeps I (panic_with e) V.
Proof. intros A I e V st Hi. cbn. auto. Qed.

Lemma k_bind : forall A B I (m : P A) (f : A -> P B) V W,
  keeps I m V -> (forall a, V a -> keeps I (f a) W) -> keeps I (bind m f) W.
Proof.
  intros A B I m f V W Hm Hf st Hi. unfold bind. destruct (Hm st Hi) as [H1 H2].
  destruct (m st) as [[a|e|p|] st']; cbn in *; auto. apply (Hf a H2). exact H1.
Qed.

Lemma k_get : forall I, keeps I get I.
Proof. intros I st Hi. cbn. auto. Qed.

Lemma k_modify : forall (I : ist -> Prop) f, (forall st, I st -> I (f st)) -> keeps I (modify f) anything.
Proof. intros I f H st Hi. cbn. unfold anything. auto. Qed.

Lemma k_lift : forall A (I : ist -> Prop) (r : res A),
  keeps I (lift r) (fun a => r = Ok a).
Proof. intros A I r st Hi. cbn. split; [exact Hi|]. destruct r; auto. Qed.

Lemma k_ok_or : forall A I (o : option A) e, keeps I (ok_or o e) (fun a => o = Some a).
Proof. intros A I o e. destruct o; [apply k_ret; reflexivity|apply k_fail]. Qed.

Lemma k_local : forall A (I : ist -> Prop) (l : lexer A) t,
  keeps I (on_local l t) (fun p => l t = (Ok (fst p), snd p)).
Proof.
  intros A I l t st Hi. rewrite on_local_state. split; [exact Hi|]. unfold on_local.
  destruct (l t) as [[?|?|?|] ?]; cbn; auto.
Qed.

Lemma k_weaken : forall A I (m : P A) (V W : A -> Prop), keeps I m V -> (forall a, V a -> W a) -> keeps I m W.
Proof.
  intros A I m V W H Hvw st Hi. destruct (H st Hi) as [H1 H2]. split; [exact H1|].
  destruct (fst (m st)); auto.
Qed.

Lemma k_any : forall A I (m : P A) (V : A -> Prop), keeps I m V -> keeps I m anything.
Proof. intros. eapply k_weaken; [eassumption|]. unfold anything. auto. Qed.
