(** * RenderPanic: the renderer on arbitrary items. *)

From Coq Require Import List NArith ZArith Bool Lia.
From Verif Require Import Base Float32 Event Tables Prim Spans DisplayFacts Mathml SpecEvent SpecStream SpecXml XmlFacts RenderFacts TableFacts RenderTree.
Import ListNotations.
Open Scope N_scope.
Open Scope sm_scope.

(** Contents made of characters, no array, and few enough columns. *)
Definition safe_item (i : ritem) : Prop :=
  match i with
  | RIEvent (EvContent c) => content_valid c
  | RIEvent (EvBegin (GArray _)) => False
  | RIEvent (EvBegin (GAlignat n _ | GAlignedat n)) => n <= 32766
  | _ => True
  end.

Definition safe_env (e : env) : Prop :=
  match e with
  | ENGroup (EGArray _ _) => False
  | ENGroup (EGAlignat p _) => p <= 32766
  | _ => True
  end.

(** [k] states are there for groups that are not on the stack yet. *)
Definition inv (k : nat) (r : rst) : Prop :=
  length (r_states r) = S (k + groups (r_envs r))%nat /\ Forall safe_env (r_envs r) /\ Forall safe_item (stream (r_in r)).

Definition any : ropts := mkRopts None (mkOpts false false).

(** A computation that neither panics nor runs out of fuel, keeps the invariant
    and what was written, and does not read back. *)
Definition ext (r r' : rst) : Prop :=
  (exists t, r_out r' = (r_out r ++ t)%list) /\ (length (stream (r_in r')) <= length (stream (r_in r)))%nat.
Definition safe {A} (P : rst -> Prop) (m : R A) (Q : A -> rst -> Prop) : Prop :=
  forall r, P r -> exists x r', m r = (Ok x, r') /\ Q x r' /\ ext r r'.

Lemma ext_refl : forall r, ext r r.
Proof. intro r. split; [exists []; now rewrite app_nil_r|apply le_n]. Qed.
Lemma ext_trans : forall a b c, ext a b -> ext b c -> ext a c.
Proof.
  intros a b c [(t & E) H] [(t' & E') H']. split; [exists (t ++ t')%list; rewrite E', E; now rewrite app_assoc|lia].
Qed.

Lemma safe_bind : forall A B P (m : R A) Q (f : A -> R B) S,
  safe P m Q -> (forall x, safe (Q x) (f x) S) -> safe P (bind m f) S.
Proof.
  intros A B P m Q f S H1 H2 r HP. destruct (H1 r HP) as (x & r1 & E1 & HQ & X1).
  destruct (H2 x r1 HQ) as (y & r2 & E2 & HS & X2). exists y, r2. unfold bind. rewrite E1.
  split; [exact E2|]. split; [exact HS|]. eapply ext_trans; eassumption.
Qed.
Lemma safe_ret : forall A (P : rst -> Prop) (x : A) (Q : A -> rst -> Prop), (forall r, P r -> Q x r) -> safe P (ret x) Q.
Proof. intros A P x Q H r HP. exists x, r. split; [reflexivity|]. split; [auto|apply ext_refl]. Qed.
Lemma safe_weaken : forall A (P P' : rst -> Prop) (m : R A) (Q Q' : A -> rst -> Prop), safe P m Q -> (forall r, P' r -> P r) -> (forall x r, Q x r -> Q' x r) -> safe P' m Q'.
Proof. intros A P P' m Q Q' H1 H2 H3 r HP. destruct (H1 r (H2 r HP)) as (x & r' & E & HQ & X). exists x, r'. auto. Qed.
Lemma safe_modify : forall (P : rst -> Prop) f (Q : unit -> rst -> Prop), (forall r, P r -> Q tt (f r) /\ ext r (f r)) -> safe P (modify f) Q.
Proof. intros P f Q H r HP. destruct (H r HP). exists tt, (f r). auto. Qed.
Lemma safe_get : forall (P : rst -> Prop), safe P get (fun x r => x = r /\ P r).
Proof. intros P r HP. exists r, r. split; [reflexivity|]. split; [auto|apply ext_refl]. Qed.

Section Inv.
Variable k : nat.
Notation inv := (inv k).

Definition ok {A} (_ : A) := inv.
Definition runs (m : R unit) : Prop := safe inv m ok.

Lemma runs_wr : forall s, runs (wr s).
Proof. intros s. apply safe_modify. intros r H. split; [exact H|]. split; [exists s; reflexivity|apply le_n]. Qed.
Lemma runs_then : forall m n, runs m -> runs n -> runs (bind m (fun _ => n)).
Proof. intros m n H1 H2. eapply safe_bind; [exact H1|intros []; exact H2]. Qed.
Lemma runs_ret : runs (ret tt).
Proof. now apply safe_ret. Qed.
Lemma runs_prev : forall a, runs (modify (set_prev a)).
Proof. intros a. apply safe_modify. intros r H. split; [exact H|]. split; [exists []; cbn; now rewrite app_nil_r|apply le_n]. Qed.
Lemma runs_recover : runs recover.
Proof. apply safe_modify. intros r H. split; [exact H|]. split; [exists []; cbn; now rewrite app_nil_r|apply le_n]. Qed.
Lemma runs_when : forall b m, runs m -> runs (when b m).
Proof. intros [] m H; [exact H|apply runs_ret]. Qed.

Lemma inv_state : forall r, inv r -> exists s l, r_states r = s :: l.
Proof. intros r [H _]. destruct (r_states r) as [|s l]; [discriminate|eauto]. Qed.

Lemma runs_mod_state : forall f, runs (mod_state f).
Proof.
  intros f r H. destruct (inv_state r H) as (s & l & E). exists tt, (set_states (f s :: l) r). unfold mod_state. rewrite E.
  split; [reflexivity|]. split; [|split; [exists []; cbn; now rewrite app_nil_r|apply le_n]].
  destruct H as (H1 & H2 & H3). rewrite E in H1. split; [exact H1|]. split; [exact H2|exact H3].
Qed.
Lemma runs_open_tag : forall t c, runs (open_tag t c).
Proof.
  intros t c r H. destruct (inv_state r H) as (s & l & E). rewrite (open_tag_spec t c r s l E).
  eexists _, _. split; [reflexivity|]. split; [exact H|]. split; [eexists; reflexivity|apply le_n].
Qed.
Lemma runs_prev_atom : forall a, runs (set_previous_atom a).
Proof.
  intros a. apply safe_modify. intros r H. destruct (keeps_previous (r_envs r)); (split; [exact H|]); [apply ext_refl|].
  split; [exists []; cbn; now rewrite app_nil_r|apply le_n].
Qed.

Lemma safe_in_first : safe inv in_first (fun i r => inv r /\ match i with Some x => exists l, stream (r_in r) = x :: l | None => True end).
Proof.
  intros r H. unfold in_first. pose proof (peek_first_stream ritem (r_in r)) as P.
  destruct (mp_peek_first (r_in r)) as [x m]. destruct P as [P2 P1].
  exists x, (set_in m r). split; [reflexivity|]. destruct H as (H1 & H2 & H3).
  split; [split; [split; [exact H1|split; [exact H2|cbn; now rewrite P1]]|]|].
  - cbn. rewrite P1. destruct x as [x|]; [|exact I]. destruct (stream (r_in r)); cbn in P2; [discriminate|injection P2 as <-; eauto].
  - split; [exists []; cbn; now rewrite app_nil_r|cbn; rewrite P1; apply le_n].
Qed.
Lemma next_item : forall r, inv r -> (stream (r_in r) = [] /\ in_next r = (Ok None, r)) \/
  exists i r', in_next r = (Ok (Some i), r') /\ inv r' /\ safe_item i /\ ext r r'
    /\ (length (stream (r_in r')) < length (stream (r_in r)))%nat.
Proof.
  intros r (H1 & H2 & H3). unfold in_next. pose proof (next_stream ritem (r_in r)) as P.
  destruct (mp_next (r_in r)) as [[x|] m].
  - right. exists x, (set_in m r). split; [reflexivity|]. rewrite P in H3. inversion H3; subst. rewrite P. cbn [r_in set_in].
    split; [split; [exact H1|split; [exact H2|assumption]]|]. split; [assumption|].
    split; [split; [exists []; cbn; now rewrite app_nil_r|cbn [r_in set_in]; rewrite P; cbn; lia]|cbn; lia].
  - destruct P as [-> P]. left. split; [exact P|]. destruct r; reflexivity.
Qed.

(** Contents. *)
Lemma safe_unmark : forall E E', map unmark E' = map unmark E -> Forall safe_env E -> Forall safe_env E'.
Proof.
  intros E E' H HF. assert (G : forall E, Forall safe_env E <-> Forall safe_env (map unmark E)).
  { induction E0 as [|e E0 IH]; cbn; [tauto|]. rewrite !Forall_cons_iff, IH. destruct e; cbn; tauto. }
  apply G. rewrite H. now apply (proj1 (G E)).
Qed.

Lemma runs_content : forall cfg c neg, content_valid c -> runs (write_content cfg c neg).
Proof.
  intros cfg c neg Hc r H. destruct (inv_state r H) as (s & l & E).
  destruct (write_content_spec any cfg c neg r s l E Hc) as (r' & ts & k0 & E1 & (t & W & _) & _ & [K1 K2] & U & _); [reflexivity|].
  exists tt, r'. split; [exact E1|]. destruct H as (H1 & H2 & H3). split.
  - split; [rewrite K1, H1, (groups_unmark _ _ U); reflexivity|]. split; [eapply safe_unmark; eassumption|now rewrite K2].
  - split; [exists t; exact W|rewrite K2; apply le_n].
Qed.

Lemma runs_fn_apply : runs fn_apply.
Proof.
  intros r H. destruct (fn_apply_spec any r) as (r' & ts & k0 & E1 & (t & W & _) & _ & [K1 K2] & U & _).
  exists tt, r'. split; [exact E1|]. destruct H as (H1 & H2 & H3). split.
  - split; [rewrite K1, H1, U; reflexivity|]. split; [now rewrite U|now rewrite K2].
  - split; [exists t; exact W|rewrite K2; apply le_n].
Qed.

Lemma runs_skip : runs (bind in_next (fun _ => ret tt)).
Proof.
  intros r H. unfold bind. destruct (next_item r H) as [[_ E]|(i & r' & E & H' & _ & X & _)]; rewrite E.
  - exists tt, r. split; [reflexivity|]. split; [exact H|apply ext_refl].
  - exists tt, r'. auto.
Qed.

Lemma runs_start_lines : runs start_lines.
Proof.
  unfold start_lines. eapply safe_bind; [apply safe_in_first|]. intros i.
  eapply safe_weaken with (P := inv) (Q := ok); [|intros r [H _]; exact H|auto].
  destruct i as [[[]|]|]; try apply runs_ret. match goal with f : env_flow |- _ => destruct f; try apply runs_ret end.
  apply runs_then; [apply runs_wr|apply runs_skip].
Qed.

Lemma runs_open_cell : runs open_cell.
Proof. apply runs_then; [apply runs_start_lines|apply runs_wr]. Qed.

Lemma runs_fence : forall d, runs (fence d).
Proof. intros [c|]; [|apply runs_ret]. repeat (apply runs_then; [first [apply runs_open_tag|apply runs_wr]|]). apply runs_wr. Qed.

End Inv.

(** ** Groups *)

Lemma runs_leading : forall f k r, inv k r -> (length (stream (r_in r)) < f)%nat ->
  exists r', leading_changes f r = (Ok tt, r') /\ inv k r' /\ ext r r'.
Proof.
  induction f as [|f IH]; intros k r H L; [lia|]. cbn [leading_changes].
  destruct (safe_in_first k r H) as (i & r1 & E1 & [H1 S1] & X1). unfold bind at 1. rewrite E1.
  assert (N : exists r', (@Ok unit tt, r1) = (Ok tt, r') /\ inv k r' /\ ext r r') by eauto.
  destruct i as [[[]|]|]; try exact N. clear N.
  destruct (runs_mod_state k (apply_change s) r1 H1) as ([] & r2 & E2 & H2 & X2). unfold bind at 1, handle_state_change. rewrite E2.
  unfold bind at 1. destruct (next_item k r2 H2) as [[S2 E3]|(i & r3 & E3 & H3 & _ & X3 & L3)]; rewrite E3.
  - destruct (IH k r2 H2) as (r4 & E4 & H4 & X4).
    + destruct X1, X2. destruct S1 as (l & S1). unfold mod_state in E2. destruct (r_states r1); [discriminate|]. injection E2 as <-. cbn in S2. congruence.
    + exists r4. split; [exact E4|]. split; [exact H4|]. eapply ext_trans; [exact X1|]. eapply ext_trans; eassumption.
  - destruct (IH k r3 H3) as (r4 & E4 & H4 & X4).
    + destruct X1, X2. lia.
    + exists r4. split; [exact E4|]. split; [exact H4|]. eapply ext_trans; [exact X1|]. eapply ext_trans; [exact X2|]. eapply ext_trans; eassumption.
Qed.

Lemma safe_open_group : forall k g, safe_item (RIEvent (EvBegin g)) -> safe (inv k) (open_group g) (fun e r => inv k r /\ safe_env (ENGroup e)).
Proof.
  intros k g Hg.
  assert (G : forall (m : R unit) e, runs k m -> safe_env (ENGroup e) -> safe (inv k) (bind m (fun _ => ret e)) (fun e r => inv k r /\ safe_env (ENGroup e))).
  { intros m e H1 H2. eapply safe_bind; [exact H1|]. intros []. apply safe_ret. auto. }
  assert (G2 : forall s e, safe_env (ENGroup e) -> safe (inv k) (do _ <- wr s ; do _ <- open_cell ; ret e) (fun e r => inv k r /\ safe_env (ENGroup e))).
  { intros s e H. eapply safe_bind; [apply runs_wr|]. intros []. apply G; [apply runs_open_cell|exact H]. }
  destruct g; cbn [open_group]; try (apply G2; exact Hg || exact Logic.I).
  - apply safe_ret. intros r H. split; [exact H|exact Logic.I].
  - eapply safe_bind; [apply runs_fence|]. intros []. apply G; [apply runs_prev|exact Logic.I].
  - destruct Hg.
  - apply G; [apply runs_wr|exact Logic.I].
Qed.

Lemma runs_push : forall k e, safe_env e -> safe (inv (if is_group e then S k else k)) (push_env e) (ok k).
Proof.
  intros k e He. apply safe_modify. intros r (H1 & H2 & H3). split; [|split; [exists []; cbn; now rewrite app_nil_r|apply le_n]].
  split; [|split; [constructor; assumption|exact H3]]. cbn [r_states r_envs set_envs]. rewrite H1. unfold groups. cbn [filter].
  destruct (is_group e); cbn [length]; lia.
Qed.

Lemma runs_push_state : forall k s, safe (inv k) (push_state s) (ok (S k)).
Proof.
  intros k s. apply safe_modify. intros r (H1 & H2 & H3). split; [|split; [exists []; cbn; now rewrite app_nil_r|apply le_n]].
  split; [|split; [exact H2|exact H3]]. cbn [r_states r_envs set_states length]. now rewrite H1.
Qed.

Lemma runs_begin : forall k g, safe_item (RIEvent (EvBegin g)) -> runs k (begin_group g).
Proof.
  intros k g Hg. unfold begin_group. apply runs_then; [apply runs_prev|].
  eapply safe_bind with (Q := ok (S k)).
  - destruct (is_math_env g); [apply runs_push_state|].
    eapply safe_bind with (Q := ok k).
    { intros r H. destruct (inv_state k r H) as (s & l & E). exists s, r. unfold state. rewrite E. split; [reflexivity|]. split; [exact H|apply ext_refl]. }
    intros s. eapply safe_bind; [apply runs_push_state|]. intros [].
    intros r H. unfold bind at 1. rewrite in_length_spec. revert r H.
    intros r H. destruct (runs_leading (S (length (stream (r_in r)))) (S k) r H (Nat.lt_succ_diag_r _)) as (r1 & E1 & H1 & X1).
    unfold bind at 1. rewrite E1.
    assert (T : runs (S k) (do _ <- open_tag (lit "mrow") None ; do _ <- wr (lit ">") ; mod_state (fun s => mkState (t_font s) None None None None))).
    { apply runs_then; [apply runs_open_tag|]. apply runs_then; [apply runs_wr|apply runs_mod_state]. }
    destruct (T r1 H1) as ([] & r2 & E2 & H2 & X2). exists tt, r2. split; [exact E2|]. split; [exact H2|]. eapply ext_trans; eassumption.
  - intros []. eapply safe_bind; [apply (safe_open_group (S k) g Hg)|]. intros e r [H He].
    exact (runs_push k (ENGroup e) He r H).
Qed.

Lemma runs_close_group : forall k g, safe_env (ENGroup g) -> runs k (close_group g).
Proof.
  intros k g Hg. destruct g; cbn [close_group]; try apply runs_wr; [|destruct Hg|].
  - apply runs_then; [apply runs_fence|]. apply runs_then; [apply runs_prev|apply runs_wr].
  - apply runs_then; [apply runs_wr|]. apply runs_then; apply runs_wr.
Qed.

Lemma runs_end : runs O end_group.
Proof.
  intros r H. unfold end_group. unfold bind at 1. unfold get at 1.
  pose proof H as (H1 & H2 & H3).
  destruct (r_envs r) as [|[g|v n|ty ab n fn] E] eqn:Ee; try (apply (runs_recover O); exact H).
  unfold bind at 1. unfold modify at 1. destruct (inv_state O r H) as (s & l & Es). rewrite Es. unfold bind at 1. unfold modify at 1.
  unfold bind at 1. unfold modify at 1.
  inversion H2 as [|e' E' He HE]; subst.
  set (r1 := set_prev (Some AtInner) (set_states l (set_envs E r))).
  assert (I1 : inv O r1).
  { split; [cbn; rewrite Es in H1; unfold groups in H1; cbn in H1; unfold groups; lia|]. split; [exact HE|exact H3]. }
  destruct (runs_close_group O g He r1 I1) as ([] & r2 & E2 & I2 & X2). exists tt, r2. split; [exact E2|]. split; [exact I2|exact X2].
Qed.

Lemma runs_visual : forall k cfg v, runs k (write_visual cfg v).
Proof.
  intros k cfg v.
  assert (G : runs k (do _ <- open_tag (lit "mrow") (Some (lit "mop-negated")) ; do _ <- wr (lit ">") ; push_env (env_of_visual v))).
  { apply runs_then; [apply runs_open_tag|]. apply runs_then; [apply runs_wr|]. apply (runs_push k (env_of_visual v)). exact Logic.I. }
  assert (G2 : forall d, runs k (do _ <- push_env (env_of_visual v) ; do _ <- open_tag (visual_tag v) None ;
     do _ <- (match d with Some d => wr (attr (lit "linethickness") (dim_display d)) | None => ret tt end) ; wr (lit ">"))).
  { intros d. apply runs_then; [exact (runs_push k (env_of_visual v) Logic.I)|]. apply runs_then; [apply runs_open_tag|].
    apply runs_then; [destruct d; [apply runs_wr|apply runs_ret]|apply runs_wr]. }
  destruct v as [| |d|]; cbn [write_visual]; [apply (G2 None)..|apply (G2 d)|].
  eapply safe_bind; [apply safe_in_first|]. intros i r [H S1].
  assert (N : exists x r', (do _ <- open_tag (lit "mrow") (Some (lit "mop-negated")) ; do _ <- wr (lit ">") ; push_env (env_of_visual VNegation)) r = (Ok x, r') /\ ok k x r' /\ ext r r') by exact (G r H).
  destruct i as [[[c| | | | | | | ]|]|]; try exact N. destruct (negatable c); [|exact N].
  destruct S1 as (l & S1). assert (Hc : content_valid c).
  { destruct H as (_ & _ & H3). rewrite S1 in H3. inversion H3; assumption. }
  exact (runs_then k _ _ (runs_content k cfg c true Hc) (runs_skip k) r H).
Qed.

(** ** Rows *)

Lemma runs_set_envs : forall k g E g', safe_env (ENGroup g') ->
  safe (fun r => inv k r /\ r_envs r = ENGroup g :: E) (modify (set_envs (ENGroup g' :: E))) (ok k).
Proof.
  intros k g E g' Hg. apply safe_modify. intros r [(H1 & H2 & H3) He]. split; [|split; [exists []; cbn; now rewrite app_nil_r|apply le_n]].
  rewrite He in H1, H2. inversion H2; subst. split; [exact H1|]. split; [now constructor|exact H3].
Qed.

(** Writing keeps the environments. *)
Lemma safe_wr_envs : forall k E s, safe (fun r => inv k r /\ r_envs r = E) (wr s) (fun _ r => inv k r /\ r_envs r = E).
Proof. intros k E s. apply safe_modify. intros r H. split; [exact H|]. split; [exists s; reflexivity|apply le_n]. Qed.

Lemma runs_newline : forall k sp hl, runs k (write_newline sp hl).
Proof.
  intros k sp hl. unfold write_newline. apply runs_then; [apply runs_mod_state|]. apply runs_then; [apply runs_prev|].
  intros r H. unfold bind at 1. unfold get at 1.
  set (E := r_envs r). assert (HE : Forall safe_env E) by apply H.
  assert (S0 : forall m : R unit, safe (fun r => inv k r /\ r_envs r = E) m (ok k) -> exists x r', m r = (Ok x, r') /\ ok k x r' /\ ext r r').
  { intros m Hm. apply Hm. split; [exact H|reflexivity]. }
  assert (L : forall B (m : R unit) (n : R B) Q, safe (fun r => inv k r /\ r_envs r = E) m (fun _ r => inv k r /\ r_envs r = E) ->
     safe (fun r => inv k r /\ r_envs r = E) n Q -> safe (fun r => inv k r /\ r_envs r = E) (bind m (fun _ => n)) Q).
  { intros B m n Q Hm Hn. eapply safe_bind; [exact Hm|]. intros []. exact Hn. }
  assert (Sp : safe (fun r => inv k r /\ r_envs r = E)
     (match sp with
      | Some d => do _ <- wr (attr (lit "style") (lit "height: " ++ dim_display d) ++ lit ">")%list ; wr (lit "<mtd class=""menv-nonumber""></mtd></mtr><mtr")
      | None => ret tt end) (fun _ r => inv k r /\ r_envs r = E)).
  { destruct sp; [apply L; apply safe_wr_envs|apply safe_ret; auto]. }
  assert (Wr : forall s, safe (fun r => inv k r /\ r_envs r = E) (wr s) (ok k)).
  { intros s. eapply safe_weaken; [apply (runs_wr k s)|intros r0 [X _]; exact X|auto]. }
  assert (A : forall (m : R unit), safe (fun r => inv k r /\ r_envs r = E) m (ok k) -> exists x r',
    (do _ <- wr (lit "</mtd></mtr><mtr") ;
     do _ <- (match sp with
              | Some d => do _ <- wr (attr (lit "style") (lit "height: " ++ dim_display d) ++ lit ">")%list ; wr (lit "<mtd class=""menv-nonumber""></mtd></mtr><mtr")
              | None => ret tt end) ;
     do _ <- wr (env_horizontal_lines hl) ; m) r = (Ok x, r') /\ ok k x r' /\ ext r r').
  { intros m Hm. apply S0. repeat (apply L; [first [apply safe_wr_envs|exact Sp]|]). exact Hm. }
  assert (Rc : safe (fun r => inv k r /\ r_envs r = E) recover (ok k)).
  { eapply safe_weaken; [apply (runs_recover k)|intros r0 [X _]; exact X|auto]. }
  assert (Se : forall g g' E', E = ENGroup g :: E' -> safe_env (ENGroup g') ->
    safe (fun r => inv k r /\ r_envs r = E) (do _ <- modify (set_envs (ENGroup g' :: E')) ; wr (lit "><mtd>")) (ok k)).
  { intros g g' E' Eq Hg. rewrite Eq. eapply safe_bind; [apply runs_set_envs; exact Hg|]. intros []. apply runs_wr. }
  clear S0 L Sp. clearbody E. destruct E as [|[g|v n|ty ab n fn] E']; try (apply A; exact Rc).
  inversion HE as [|e' E0 Hg HE']; subst.
  destruct g; try (apply A; first [exact Rc|exact (Wr _)|eapply Se; [reflexivity|exact Hg || exact Logic.I]]).
  - destruct Hg.
  - exists tt, r. split; [reflexivity|]. split; [exact H|apply ext_refl].
Qed.

Lemma runs_alignment : forall k, runs k write_alignment.
Proof.
  intros k. unfold write_alignment. apply runs_then; [apply runs_mod_state|]. apply runs_then; [apply runs_prev|].
  intros r H. unfold bind at 1. unfold get at 1.
  assert (HE : Forall safe_env (r_envs r)) by apply H.
  assert (Rc : exists x r', recover r = (Ok x, r') /\ ok k x r' /\ ext r r') by exact (runs_recover k r H).
  assert (Wr : exists x r', wr next_cell r = (Ok x, r') /\ ok k x r' /\ ext r r') by exact (runs_wr k _ r H).
  destruct (r_envs r) as [|[g|v n|ty ab n fn] E'] eqn:EE; try exact Rc. inversion HE as [|e' E0 Hg HE']; subst.
  destruct g as [| | | |[] lf| |p used| | | |[]|]; try exact Rc; try exact Wr; [destruct Hg|].
  destruct (used / 2 <=? p) eqn:El; [|exact Rc]. destruct (used =? 65535) eqn:Eu.
  - exfalso. apply N.eqb_eq in Eu. subst used. apply N.leb_le in El. cbn in Hg. change (65535 / 2) with 32767 in El. lia.
  - assert (S1 : safe (fun r => inv k r /\ r_envs r = ENGroup (EGAlignat p used) :: E')
      (do _ <- modify (set_envs (ENGroup (EGAlignat p (used + 1)) :: E')) ; wr next_cell) (ok k)).
    { eapply safe_bind; [apply runs_set_envs; exact Hg|]. intros []. apply runs_wr. }
    apply S1. split; assumption.
Qed.

(** ** Items *)

Lemma runs_event : forall cfg i, safe_item i -> runs O (write_event cfg i).
Proof.
  intros cfg [[c|g| |v|ty pos|w h d|s|[|sp hl|ls]]|msg] Hi; cbn [write_event].
  - now apply runs_content.
  - now apply runs_begin.
  - apply runs_end.
  - apply runs_visual.
  - eapply safe_bind with (Q := ok O).
    { intros r H. destruct (inv_state O r H) as (s & l & E). exists s, r. unfold state. rewrite E. split; [reflexivity|]. split; [exact H|apply ext_refl]. }
    intros s. cbv zeta. apply runs_then; [exact (runs_push O (env_of_script ty _) Logic.I)|]. apply runs_then; [apply runs_open_tag|apply runs_wr].
  - apply runs_wr.
  - apply runs_mod_state.
  - apply runs_alignment.
  - apply runs_newline.
  - apply runs_recover.
  - apply runs_then; [apply runs_recover|apply runs_wr].
Qed.

Lemma runs_close : forall E, safe (fun r => inv O r /\ r_envs r = E) (close_complete E) (ok O).
Proof.
  induction E as [|e E IH]; intros r [H HE].
  - exists tt, r. split; [reflexivity|]. split; [exact H|apply ext_refl].
  - assert (P : is_group e = false -> forall e', is_group e' = false -> safe_env e' -> inv O (set_envs (e' :: E) r) /\ inv O (set_envs E r)).
    { intros He e' He' Hs. destruct H as (H1 & H2 & H3). rewrite HE in H1, H2. inversion H2; subst.
      unfold groups in H1. cbn in H1. rewrite He in H1. split; (split; [|split; [|exact H3]]).
      - cbn. unfold groups. cbn. rewrite He'. exact H1.
      - constructor; assumption.
      - exact H1.
      - assumption. }
    assert (X0 : forall x, ext r (set_envs x r)) by (intro x; split; [exists []; cbn; now rewrite app_nil_r|apply le_n]).
    destruct e as [g|v n|ty ab n fn]; cbn [close_complete].
    + exists tt, r. split; [reflexivity|]. split; [exact H|apply ext_refl].
    + destruct (n =? 0).
      * unfold bind at 1. destruct (runs_wr O (close_str (visual_tag v)) r H) as ([] & r1 & E1 & H1 & X1). rewrite E1. injection E1 as <-.
        set (r1 := set_out (r_out r ++ close_str (visual_tag v)) r) in *. unfold bind at 1.
        destruct (prev_atom_spec AtInner r1) as (p & ->). unfold bind at 1. unfold modify at 1.
        set (r2 := set_envs E _). destruct (IH r2) as ([] & r3 & E3 & H3 & X3).
        { split; [|reflexivity]. exact (proj2 (P eq_refl (ENVisual v n) eq_refl Logic.I)). }
        exists tt, r3. split; [exact E3|]. split; [exact H3|]. eapply ext_trans; [exact X1|]. exact X3.
      * exists tt. eexists. split; [reflexivity|]. split; [exact (proj1 (P eq_refl (ENVisual v (n - 1)) eq_refl Logic.I))|apply X0].
    + destruct (n =? 0).
      * unfold bind at 1. destruct (runs_wr O (close_str (script_tag ty ab)) r H) as ([] & r1 & E1 & H1 & X1). rewrite E1. injection E1 as <-.
        set (r1 := set_out (r_out r ++ close_str (script_tag ty ab)) r) in *. unfold bind at 1.
        destruct (prev_atom_spec AtInner r1) as (p & ->). unfold bind at 1. unfold modify at 1.
        set (r2 := set_envs E _).
        assert (I2 : inv O r2) by exact (proj2 (P eq_refl (ENScript ty ab n fn) eq_refl Logic.I)).
        assert (A : exists r3, when fn fn_apply r2 = (Ok tt, r3) /\ inv O r3 /\ r_envs r3 = E /\ ext r2 r3).
        { destruct fn; [|exists r2; split; [reflexivity|split; [exact I2|split; [reflexivity|apply ext_refl]]]].
          destruct (runs_fn_apply O r2 I2) as ([] & r3 & E3 & H3 & X3). exists r3. split; [exact E3|]. split; [exact H3|]. split; [|exact X3].
          destruct (fn_apply_spec any r2) as (r' & ts & k & F1 & _ & _ & _ & F5 & _). cbn [when] in *. rewrite F1 in E3. injection E3 as <-. rewrite F5. reflexivity. }
        destruct A as (r3 & E3 & H3 & S3 & X3). unfold bind at 1. rewrite E3.
        destruct (IH r3) as ([] & r4 & E4 & H4 & X4); [split; assumption|].
        exists tt, r4. split; [exact E4|]. split; [exact H4|]. eapply ext_trans; [exact X1|]. eapply ext_trans; [|exact X4]. exact X3.
      * exists tt. eexists. split; [reflexivity|]. split; [exact (proj1 (P eq_refl (ENScript ty ab (n - 1) fn) eq_refl Logic.I))|apply X0].
Qed.

Lemma runs_item : forall cfg i, safe_item i -> runs O (render_item cfg i).
Proof.
  intros cfg i Hi. unfold render_item. apply runs_then; [now apply runs_event|].
  intros r H. unfold bind, get. apply runs_close. auto.
Qed.

Lemma runs_loop : forall cfg f r, inv O r -> (length (stream (r_in r)) < f)%nat ->
  exists r', render_loop cfg f r = (Ok tt, r') /\ ext r r'.
Proof.
  intros cfg. induction f as [|f IH]; intros r H L; [lia|]. cbn [render_loop]. unfold bind at 1.
  destruct (next_item O r H) as [[_ E]|(i & r1 & E & H1 & Hi & X1 & L1)]; rewrite E.
  - exists r. split; [reflexivity|apply ext_refl].
  - destruct (runs_item cfg i Hi r1 H1) as ([] & r2 & E2 & H2 & X2). unfold bind at 1. rewrite E2.
    destruct (IH r2 H2) as (r3 & E3 & X3); [destruct X2; lia|].
    exists r3. split; [exact E3|]. eapply ext_trans; [exact X1|]. eapply ext_trans; eassumption.
Qed.

(** Whatever the items, nothing panics and the string is only added to. *)
Lemma push_safe : forall cfg string items, Forall safe_item items ->
  exists out, push_mathml cfg string items = Ok (string ++ out)%list.
Proof.
  intros cfg string items Hi.
  set (r0 := set_out (string ++ prologue cfg)%list (new_writer string items)).
  assert (H0 : inv O r0) by (split; [reflexivity|split; [constructor|exact Hi]]).
  destruct (runs_loop cfg (S (length items)) r0 H0 (Nat.lt_succ_diag_r _)) as (r1 & E1 & (t & O1) & _).
  exists (prologue cfg ++ t ++ flat_map recover_str (r_envs r1) ++ epilogue cfg)%list.
  unfold push_mathml, write. unfold bind at 1. unfold wr at 1, modify at 1. unfold bind at 1. rewrite in_length_spec.
  change (set_out (r_out (new_writer string items) ++ prologue cfg) (new_writer string items)) with r0.
  change (length (stream (r_in r0))) with (length items).
  unfold bind at 1. rewrite E1. unfold bind, recovery, wr, modify. cbn [r_out set_out].
  rewrite O1. change (r_out r0) with (string ++ prologue cfg)%list. now rewrite <- !app_assoc.
Qed.
