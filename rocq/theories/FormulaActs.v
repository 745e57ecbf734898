(** * FormulaActs: what the parser pushes for a nucleus. *)

From Coq Require Import Ascii String List NArith ZArith Bool Lia Arith.
From Verif Require Import Base Float32 Event Tables Prim PrimTable Lex Macros Primitives Spans Parser
  SpecLex SpecNum LexFacts LexMore LexNum SpecFormula FormulaLex.
Import ListNotations.
Open Scope N_scope.
Open Scope list_scope.
Open Scope sm_scope.


Section Known.
Context {KN : Known}.

(** ** Instructions that mean events: texts shorter than [n] mean what SpecFormula says. *)
Inductive means (n : nat) : list instr -> list event -> Prop :=
| me_nil : means n [] []
| me_ev : forall e L es, means n L es -> means n (IEv e :: L) (e :: es)
| me_sub : forall c al es L es', (length (stxt c) < n)%nat -> formula al (stxt c) es -> means n L es' ->
    means n (ISub c al :: L) (es ++ es').

Lemma means_app : forall n L1 es1 L2 es2, means n L1 es1 -> means n L2 es2 -> means n (L1 ++ L2) (es1 ++ es2).
Proof.
  intros n L1 es1 L2 es2 H. induction H as [|e L es H IH|c al es L es' Hl Hf H IH]; intros H2; [exact H2| |].
  - cbn. constructor. apply IH, H2.
  - cbn. rewrite <- app_assoc. constructor; [exact Hl|exact Hf|apply IH, H2].
Qed.

Lemma means_more : forall n m L es, means n L es -> (n <= m)%nat -> means m L es.
Proof. intros n m L es H Hm. induction H; constructor; try assumption. lia. Qed.

Lemma means_ne : forall n L es, means n L es -> es <> [] -> L <> [].
Proof. intros n L es H Hn; destruct H; congruence. Qed.

Lemma means_evs : forall n es, means n (map IEv es) es.
Proof. intros n es. induction es; constructor; assumption. Qed.

Lemma means_group : forall n g es, (length (stxt g) < n)%nat -> formula None (stxt g) es ->
  means n (group_instrs g) (EvBegin GNormal :: es ++ [EvEnd]).
Proof. intros n g es Hl Hf. unfold group_instrs. constructor. constructor; [exact Hl|exact Hf|]. repeat constructor. Qed.

Lemma means_group_eq : forall n g g' es, means n (group_instrs g) es -> stxt g' = stxt g -> means n (group_instrs g') es.
Proof.
  intros n g g' es H E. unfold group_instrs in *. inversion H; subst. inversion H3; subst. constructor. constructor; [rewrite E; assumption|rewrite E; assumption|].
  assumption.
Qed.

(** ** Actions *)

Definition result (st : ist) (L : list instr) (c : slice) (h : bool) (l : limits) : ist :=
  mkIst c (i_buf st ++ L) (i_allow st || fst l) (match snd l with Some p => p | None => i_pos st end)
    (i_skip st) h (i_align st) (i_macros st).

(** The computation pushes instructions that mean [es] and leaves [r] to read. *)
Definition acts (m : P unit) (st : ist) (n : nat) (es : list event) (l : limits) (r : str) : Prop :=
  exists L c h, m st = (Ok tt, result st L c h l) /\ stxt c = r /\ means n L es.

Lemma acts_more : forall m st n n' es l r, acts m st n es l r -> (n <= n')%nat -> acts m st n' es l r.
Proof. intros m st n n' es l r (L & c & h & H1 & H2 & H3) Hn. exists L, c, h. eauto using means_more. Qed.

Lemma result_nil : forall st, st = result st [] (i_content st) (i_handling st) no_limits.
Proof. intros []. unfold result. cbn. rewrite app_nil_r, orb_false_r. reflexivity. Qed.

Lemma push_acts : forall L st n es r, means n L es -> stxt (i_content st) = r -> acts (push L) st n es no_limits r.
Proof.
  intros L st n es r Hm Hr. exists L, (i_content st), (i_handling st). split; [|auto].
  unfold push, modify, set_buf, result. cbn. rewrite orb_false_r. reflexivity.
Qed.

Lemma push_ev_acts : forall e st n r, stxt (i_content st) = r -> acts (push_ev e) st n [e] no_limits r.
Proof. intros. apply push_acts; [repeat constructor|assumption]. Qed.

(** Two actions, one after the other. *)
Lemma acts_bind : forall (m k : P unit) st n es l r es' l' r',
  acts m st n es l r -> l = no_limits \/ l' = no_limits ->
  (forall st1, stxt (i_content st1) = r -> i_align st1 = i_align st -> acts k st1 n es' l' r') ->
  acts (m ;; k) st n (es ++ es') (fst l || fst l', match snd l' with Some p => Some p | None => snd l end) r'.
Proof.
  intros m k st n es l r es' l' r' (L & c & h & H1 & H2 & H3) Hl Hk.
  destruct (Hk (result st L c h l) H2 eq_refl) as (L' & c' & h' & H1' & H2' & H3').
  exists (L ++ L'), c', h'. split; [|split; [exact H2'|apply means_app; assumption]].
  unfold bind. rewrite H1, H1'. f_equal. unfold result. cbn. rewrite app_assoc, <- orb_assoc. destruct (snd l'); reflexivity.
Qed.

(** The usual case: at most one of the two concerns the limits. *)
Lemma acts_then : forall (m k : P unit) st n es r es' l' r',
  acts m st n es no_limits r ->
  (forall st1, stxt (i_content st1) = r -> i_align st1 = i_align st -> acts k st1 n es' l' r') ->
  acts (m ;; k) st n (es ++ es') l' r'.
Proof.
  intros m k st n es r es' l' r' H Hk. pose proof (acts_bind m k st n es no_limits r es' l' r' H (or_introl eq_refl) Hk) as H1.
  destruct l' as [a [p|]]; exact H1.
Qed.

Lemma acts_ret : forall st n r, stxt (i_content st) = r -> acts (ret tt) st n [] no_limits r.
Proof.
  intros st n r H. exists [], (i_content st), (i_handling st). split; [|split; [exact H|constructor]].
  unfold ret. f_equal. apply result_nil.
Qed.

(** ** Reading arguments *)

Lemma argc_braced : forall st w g r, stxt (i_content st) = w ++ 123 :: g ++ 125 :: r -> white w -> balanced 123 125 g ->
  exists sl c, argc st = (Ok (SGroup sl), set_content c st) /\ stxt sl = g /\ stxt c = r.
Proof.
  intros st w g r H Hw Hg. unfold argc, arg_slice. rewrite H, braced_argument by assumption.
  do 2 eexists. split; [reflexivity|]. split; reflexivity.
Qed.

Lemma group_arg_braced : forall e st w g r, stxt (i_content st) = w ++ 123 :: g ++ 125 :: r -> white w -> balanced 123 125 g ->
  exists c, group_arg e st = (Ok g, set_content c st) /\ stxt c = r.
Proof.
  intros e st w g r H Hw Hg. destruct (argc_braced st w g r H Hw Hg) as (sl & c & H1 & <- & H3).
  exists c. unfold group_arg, bind. rewrite H1. auto.
Qed.

Lemma optc_none : forall st, ~ starts 91 (stxt (i_content st)) -> exists c,
  optc st = (Ok None, set_content c st) /\ stxt c = stxt (i_content st).
Proof. intros st H. unfold optc. rewrite no_option by exact H. eexists. split; [reflexivity|]. reflexivity. Qed.

Lemma optc_some : forall st w g r, stxt (i_content st) = w ++ 91 :: g ++ 93 :: r -> white w -> balanced 91 93 g ->
  exists sl c, optc st = (Ok (Some sl), set_content c st) /\ stxt sl = g /\ stxt c = r.
Proof.
  intros st w g r H Hw Hg. unfold optc. rewrite H, some_option by assumption.
  do 2 eexists. split; [reflexivity|]. split; reflexivity.
Qed.

(** ** What a nucleus does *)

Definition does (h : bool) (s : str) (es : list event) (l : limits) (r : str) : Prop :=
  es <> [] /\ (length r < length s)%nat /\
  match lex_token s with
  | (Ok (TCs cs), r0) => (length r0 < length s)%nat /\
      forall f st, i_handling st = h -> stxt (i_content st) = r0 -> (length r0 < f)%nat ->
        acts (hprim f cs) st (length s) es l r
  | (Ok (TChr ctx), r0) =>
      forall sl st, i_handling st = h -> stxt (i_content st) = r0 -> stxt sl = ctx ->
        acts (handle_char sl) st (length s) es l r
  | _ => False
  end.

Lemma app_inj_l : forall A (a b c : list A), a ++ b = a ++ c -> b = c.
Proof. intros A a b c H. apply app_inv_head in H. exact H. Qed.

Lemma handle_brace : forall sl g st, stxt sl = 123 :: g ->
  handle_char sl st = (do g <- groupc GKNormal ; push (group_instrs g)) st.
Proof. intros sl g st H. unfold handle_char, bind at 1, get. rewrite H. reflexivity. Qed.

(** [hp] gives [hprim] fuel enough for texts shorter than [n]. *)
Definition enough (n : nat) (hp : str -> P unit) : Prop :=
  forall cs st, (length (stxt (i_content st)) < n)%nat ->
    exists f, (length (stxt (i_content st)) < f)%nat /\ hp cs st = hprim f cs st.

Lemma arg_does_limits : forall s es l r, does true s es l r -> forall hp st, stxt (i_content st) = s -> enough (length s) hp ->
  exists a c, argc st = (Ok a, set_content c st) /\
    forall st2, i_content st2 = c -> acts (handle_arg hp a) st2 (length s) es l r.
Proof.
  intros s es l r (Hn & Hlen & H) hp st Hs Hf. destruct (strip_char 123 (trim_start s)) as [r'|] eqn:E.
  - apply strip_char_some in E. destruct (trim_start_suffix s) as (w & Ew & Hw). rewrite E in Ew. clear E. rewrite Ew in H, Hs, Hf, Hlen |- *. clear Ew s.
    rewrite char_token in H; try reflexivity; try discriminate.
    2:{ clear -Hw. induction w as [|c w IH]; [constructor|]. cbn in Hw. apply andb_prop in Hw as [H1 H2]. constructor; auto. }
    pose proof (H (mkSlice 0 0 (123 :: r')) (mkIst (mkSlice 0 0 r') [] false SPMovable false true None []) eq_refl eq_refl eq_refl) as H'.
    specialize (H (mkSlice 0 0 (123 :: r')) (mkIst (mkSlice 0 0 r') [] false SPRight false true None []) eq_refl eq_refl eq_refl).
    destruct H' as (L' & c' & h' & H1' & _).
    destruct H as (L & c & h & H1 & H2 & H3). rewrite (handle_brace _ r') in H1 by reflexivity.
    unfold bind, groupc in H1. cbn [i_content stxt] in H1.
    destruct (group_content GKNormal r') as [[g|e|p|] r0] eqn:Eg; try discriminate.
    unfold push, modify in H1. cbn in H1. unfold result in H1. cbn in H1. injection H1 as <- <- Hl1 Hl2 _.
    rewrite (handle_brace _ r') in H1' by reflexivity. unfold bind, groupc in H1'. cbn [i_content stxt] in H1'. rewrite Eg in H1'.
    unfold push, modify in H1'. cbn in H1'. unfold result in H1'. cbn in H1'.
    assert (l = no_limits) as ->. { destruct l as [a [p|]]; cbn in Hl1, Hl2, H1'; unfold no_limits; [|congruence]. injection H1' as _ _ _ E _. subst p. discriminate. }
    cbn [stxt suffix_slice] in H2. subst r0.
    assert (Ea : lex_argument (w ++ 123 :: r') = (Ok (AGroup g), r)).
    { unfold lex_argument. rewrite trim_to by (try exact Hw; reflexivity). rewrite strip_char_head. unfold bind. rewrite Eg. reflexivity. }
    unfold argc, arg_slice. rewrite Hs, Ea. do 2 eexists. split; [reflexivity|]. intros st2 Hst. cbn [handle_arg]. apply push_acts.
    + eapply means_group_eq; [exact H3|]. reflexivity.
    + rewrite Hst. reflexivity.
  - assert (Hns : ~ starts 123 s).
    { intros (w & r' & Hw & ->). rewrite trim_to in E by (try exact Hw; reflexivity). rewrite strip_char_head in E. discriminate. }
    destruct (lex_token s) as [[[cs|ctx]|e|p|] r0] eqn:Et; try contradiction.
    + destruct H as (Hr0 & H). unfold argc, arg_slice. rewrite Hs, (token_argument _ _ _ Hns Et). do 2 eexists. split; [reflexivity|].
      intros st2 Hst. cbn [handle_arg]. destruct (Hf cs (set_handling true st2)) as (f & Hf1 & Hf2); [cbn; rewrite Hst; exact Hr0|].
      destruct (H f (set_handling true st2)) as (L & c & h & H1 & H2 & H3); [reflexivity|cbn; rewrite Hst; reflexivity|cbn in Hf1; rewrite Hst in Hf1; exact Hf1|].
      exists L, c, h. split; [|auto]. unfold bind, modify. rewrite Hf2, H1. reflexivity.
    + unfold argc, arg_slice. rewrite Hs, (token_argument _ _ _ Hns Et). do 2 eexists. split; [reflexivity|].
      intros st2 Hst. cbn [handle_arg]. destruct (H (suffix_slice (i_content st) ctx) (set_handling true st2)) as (L & c & h & H1 & H2 & H3); [reflexivity|cbn; rewrite Hst; reflexivity|reflexivity|].
      exists L, c, h. split; [|auto]. unfold bind, modify. rewrite H1. reflexivity.
Qed.

Lemma arg_does_any : forall s es r, does true s es no_limits r -> forall hp st, stxt (i_content st) = s -> enough (length s) hp ->
  exists a c, argc st = (Ok a, set_content c st) /\
    forall st2, i_content st2 = c -> acts (handle_arg hp a) st2 (length s) es no_limits r.
Proof. intros s es r. apply arg_does_limits. Qed.


Lemma arg_does : forall s es r, does true s es no_limits r -> forall f st, stxt (i_content st) = s -> (length s <= f)%nat ->
  exists a c, argc st = (Ok a, set_content c st) /\
    forall st2, i_content st2 = c -> acts (handle_arg (hprim f) a) st2 (length s) es no_limits r.
Proof.
  intros s es r H f st Hs Hf. apply arg_does_any; [exact H|exact Hs|]. intros cs st1 Hl. exists f. split; [lia|reflexivity].
Qed.

(** An argument read and handled at once. *)
Lemma arg_then_limits : forall s es l r, does true s es l r -> forall f st n, stxt (i_content st) = s ->
  (length s <= f)%nat -> (length s <= n)%nat ->
  acts (do a <- argc ; handle_arg (hprim f) a) st n es l r.
Proof.
  intros s es l r H f st n Hs Hf Hn.
  destruct (arg_does_limits s es l r H (hprim f) st Hs) as (a & c & H1 & H2); [intros cs st1 Hl; exists f; split; [lia|reflexivity]|].
  unfold acts, bind. rewrite H1. destruct (H2 (set_content c st) eq_refl) as (L & c' & h & H3 & H4 & H5).
  exists L, c', h. split; [exact H3|]. eauto using means_more.
Qed.

Lemma arg_then : forall s es r, does true s es no_limits r -> forall f st n, stxt (i_content st) = s ->
  (length s <= f)%nat -> (length s <= n)%nat ->
  acts (do a <- argc ; handle_arg (hprim f) a) st n es no_limits r.
Proof. intros s es r. apply arg_then_limits. Qed.

End Known.
