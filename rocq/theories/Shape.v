(** * Shape: what the primitives append to the buffer, for any notion of
    element closed under a few rules. *)

From Coq Require Import List NArith ZArith Bool Lia Arith.
From Verif Require Import Base Float32 Event Tables Prim PrimTable Lex Macros Primitives Spans Parser SpecLex SpecEvent
  LexFacts LexMore PrimFacts Keep Order.
Import ListNotations.
Open Scope N_scope.
Open Scope sm_scope.

Lemma firstn_app_l : forall A (a b : list A), firstn (length a) (a ++ b) = a.
Proof. intros. rewrite firstn_app, firstn_all, Nat.sub_diag, firstn_O, app_nil_r. reflexivity. Qed.
Lemma skipn_app_l : forall A (a b : list A), skipn (length a) (a ++ b) = b.
Proof. intros. rewrite skipn_app, skipn_all, Nat.sub_diag. reflexivity. Qed.

(** ** Successful runs *)

Definition wp {A} (m : P A) (st : ist) (R : A -> ist -> Prop) : Prop :=
  match m st with (Ok a, st') => R a st' | _ => True end.

Lemma wp_bind : forall A B (m : P A) (f : A -> P B) st R,
  wp m st (fun a st' => wp (f a) st' R) -> wp (bind m f) st R.
Proof. intros A B m f st R H. unfold wp, bind in *. destruct (m st) as [[a|e|p|] st']; auto. Qed.

Lemma wp_conseq : forall A (m : P A) st (R S : A -> ist -> Prop),
  wp m st R -> (forall a st', R a st' -> S a st') -> wp m st S.
Proof. intros A m st R S H HS. unfold wp in *. destruct (m st) as [[a|e|p|] st']; auto. Qed.

Lemma wp_ret : forall A (a : A) st (R : A -> ist -> Prop), R a st -> wp (ret a) st R.
Proof. intros. exact H. Qed.
Lemma wp_fail : forall A e st (R : A -> ist -> Prop), wp (fail e) st R.
Proof. intros. exact I. Qed.
Lemma wp_panic : forall A e st (R : A -> ist -> Prop), wp (panic_with e) st R.
Proof. intros. exact I. Qed.
Lemma wp_get : forall st (R : ist -> ist -> Prop), R st st -> wp get st R.
Proof. intros. exact H. Qed.
Lemma wp_modify : forall f st (R : unit -> ist -> Prop), R tt (f st) -> wp (modify f) st R.
Proof. intros. exact H. Qed.
Lemma wp_push : forall l st (R : unit -> ist -> Prop),
  R tt (set_buf (i_buf st ++ l)%list st) -> wp (push l) st R.
Proof. intros. exact H. Qed.
Lemma wp_push_ev : forall e st (R : unit -> ist -> Prop),
  R tt (set_buf (i_buf st ++ [IEv e])%list st) -> wp (push_ev e) st R.
Proof. intros. exact H. Qed.
Lemma wp_lift : forall A (r : res A) st (R : A -> ist -> Prop),
  (forall a, r = Ok a -> R a st) -> wp (lift r) st R.
Proof. intros A r st R H. unfold wp, lift. destruct r; auto. Qed.
Lemma wp_ok_or : forall A (o : option A) e st (R : A -> ist -> Prop),
  (forall a, o = Some a -> R a st) -> wp (ok_or o e) st R.
Proof. intros A o e st R H. destruct o; [apply H; reflexivity|exact I]. Qed.
Lemma wp_local : forall A (l : lexer A) t st (R : A * str -> ist -> Prop),
  (forall a r, l t = (Ok a, r) -> R (a, r) st) -> wp (on_local l t) st R.
Proof. intros A l t st R H. unfold wp, on_local. destruct (l t) as [[a|e|p|] r]; auto. Qed.
Lemma wp_buf_len : forall st (R : nat -> ist -> Prop), R (length (i_buf st)) st -> wp buf_len st R.
Proof. intros. exact H. Qed.
Lemma wp_split_off : forall n st (R : list instr -> ist -> Prop),
  R (skipn n (i_buf st)) (set_buf (firstn n (i_buf st)) st) -> wp (split_off n) st R.
Proof. intros. exact H. Qed.

Lemma wp_lexc : forall A (l : lexer A) st (R : A -> ist -> Prop), leaves_suffix l ->
  (forall a r, l (stxt (i_content st)) = (Ok a, r) -> suffix r (stxt (i_content st)) ->
     R a (set_content (suffix_slice (i_content st) r) st)) -> wp (lexc l) st R.
Proof.
  intros A l st R Hl H. unfold wp, lexc. specialize (Hl (stxt (i_content st))).
  destruct (l (stxt (i_content st))) as [[a|e|p|] r] eqn:E; auto.
Qed.

(** What [argc] returns, with the place it was read from. *)
Definition arg_at (c : slice) (a : sarg) (sl : slice) : Prop :=
  match a with
  | SGroup g => sl_sub g c
  | SCs cs => cs <> [] /\ exists b w, blank b /\ forallb is_ws w = true /\
      stxt c = (b ++ 92 :: cs ++ w ++ stxt sl)%list
  | SChr ctx => sl_sub ctx c /\ exists b x, blank b /\ stxt c = (b ++ stxt ctx)%list /\
      stxt ctx = x :: stxt sl /\ is_ws x = false /\ x <> 37 /\ x <> 92
  end.

Lemma arg_slice_at : forall c a sl, arg_slice c = (Ok a, sl) -> sl_sub sl c /\ arg_at c a sl.
Proof.
  intros c a sl H. pose proof (arg_slice_spec c) as Hs. rewrite H in Hs. destruct Hs as [H1 H2].
  split; [exact H1|]. unfold arg_slice in H.
  destruct (lex_argument (stxt c)) as [[[[cs|ctx]|g]|e|p|] r] eqn:E; try discriminate; injection H as <- <-.
  - apply lex_argument_token in E. destruct E as [E _]. apply lex_token_cs in E.
    destruct E as (b & w & H3 & H4 & H5 & E). split; [exact H5|]. exists b, w. auto.
  - split; [apply H2|]. apply lex_argument_token in E. destruct E as [E _]. apply lex_token_chr in E.
    destruct E as (b & x & Hb & -> & E & Hx). exists b, x. cbn. auto 7.
  - apply H2.
Qed.

Lemma wp_argc : forall st (R : sarg -> ist -> Prop),
  (forall a sl, sl_sub sl (i_content st) -> arg_at (i_content st) a sl -> R a (set_content sl st)) ->
  wp argc st R.
Proof.
  intros st R H. unfold wp, argc. destruct (arg_slice (i_content st)) as [[a|e|p|] sl] eqn:E; auto.
  apply arg_slice_at in E. apply H; apply E.
Qed.

Lemma wp_groupc : forall k st (R : slice -> ist -> Prop),
  (forall g sl, sl_sub sl (i_content st) -> sl_sub g (i_content st) -> R g (set_content sl st)) ->
  wp (groupc k) st R.
Proof.
  intros k st R H. unfold wp. destruct (groupc_run k st) as (r & sl & E & H1 & H2). rewrite E.
  destruct r; auto. apply H; [exact H1|apply H2].
Qed.

Lemma wp_bracec : forall st (R : slice -> ist -> Prop),
  (forall g sl, sl_sub sl (i_content st) -> sl_sub g (i_content st) -> R g (set_content sl st)) ->
  wp bracec st R.
Proof.
  intros st R H. unfold wp. destruct (bracec_run st) as (r & sl & E & H1 & H2). rewrite E.
  destruct r; auto. apply H; [exact H1|apply H2].
Qed.

Lemma wp_optc : forall st (R : option slice -> ist -> Prop),
  (forall o sl, sl_sub sl (i_content st) ->
     optional_argument (stxt (i_content st)) = (Ok (option_map stxt o), stxt sl) -> R o (set_content sl st)) ->
  wp optc st R.
Proof.
  intros st R H. unfold wp, optc. pose proof (optional_argument_suffix (stxt (i_content st))) as Hs.
  destruct (optional_argument (stxt (i_content st))) as [[[g|]|e|p|] r] eqn:E; auto;
    (apply H; [apply sl_sub_suffix; exact Hs|reflexivity]).
Qed.

(** ** Flow events *)

Inductive flow_step : option (N * N) -> event -> option (N * N) -> Prop :=
| fs_mark : forall c m, c < m -> flow_step (Some (c, m)) (EvFlow EFAlignment) (Some (c + 1, m))
| fs_line : forall c m sp hl, flow_step (Some (c, m)) (EvFlow (EFNewLine sp hl)) (Some (0, m)).

(** The text [c] follows a flow event whose text starts [t]. *)
Definition after_flow (t c : str) : Prop :=
  t = 38 :: c \/
  exists cs w q o r hl, t = (92 :: cs ++ w ++ q)%list /\ forallb is_ws w = true /\ lookup_prim cs = PNewline /\
    optional_argument q = (Ok o, r) /\ horizontal_lines r = (Ok hl, c).

(** A mark or a new line comes first. *)
Definition flow_first (c : str) : Prop :=
  exists b r, blank b /\ (c = (b ++ 38 :: r)%list \/
    exists cs, lookup_prim cs = PNewline /\ c = (b ++ 92 :: cs ++ r)%list).

(** The commands that emit nothing. *)
Definition is_silent (p : prim) : bool :=
  match p with PDef | PLet | PFuturelet | PNewcommand _ | PRelax => true | _ => false end.

Definition style_list (o : option style) : list instr :=
  match o with Some s => [IEv (EvState (SCStyle s))] | None => [] end.
Definition lines_list (l : list line) : list instr :=
  if is_nil l then [] else [IEv (EvFlow (EFStartLines l))].

Definition overset_ok (p : prim) : bool :=
  match p with POverset t => Nat.eqb (script_arity t) 2 | _ => true end.

Lemma lookup_overset : forall cs t, lookup_prim cs = POverset t -> script_arity t = 2%nat.
Proof.
  assert (Ht : forallb (fun x => overset_ok (snd x)) prim_table = true) by (vm_compute; reflexivity).
  intros cs t H. unfold lookup_prim in H. destruct (assoc_str cs prim_table) eqn:E.
  - apply assoc_str_in in E. pose proof (proj1 (forallb_forall _ _) Ht _ E) as H1.
    cbn in H1. rewrite H in H1. apply Nat.eqb_eq. exact H1.
  - destruct (control_sequence_delimiter_map cs) as [[c ty]|]; [discriminate|].
    destruct (is_nil (trim_start cs)); discriminate.
Qed.

Section Shape.
  Variable G : slice -> Prop.
  Hypothesis HG : forall a b, sl_sub a b -> G b -> G a.

  (** Whether the anomalies below are harmless, so that the text around them
      does not matter. *)
  Variable loose : Prop.

  (** The text has [cs] right before [c]. *)
  Definition seen (cs c : str) : Prop :=
    exists sl w, G sl /\ forallb is_ws w = true /\ stxt sl = (92 :: cs ++ w ++ c)%list.

  (** [cs] was just read. *)
  Definition cs_at (cs : str) (st : ist) : Prop :=
    cs_in G cs /\ (loose \/ seen cs (stxt (i_content st))).

  Lemma seen_in : forall cs c, cs <> [] -> seen cs c -> cs_in G cs.
  Proof.
    intros cs c H (sl & w & H1 & _ & E). split; [exact H|]. exists sl. split; [exact H1|].
    exists [], (w ++ c)%list. rewrite E. reflexivity.
  Qed.

  (** One element; a sequence of elements; when the marks of the row are kept. *)
  Variable U Q : list instr -> Prop.
  Variable AE : option (N * N) -> option (N * N) -> Prop.
  Hypothesis AE_refl : forall a, AE a a.
  Hypothesis AE_trans : forall a b c, AE a b -> AE b c -> AE a c.
  Hypothesis L_leaf : forall e, is_leaf e = true -> U [IEv e].
  Hypothesis L_state : forall s, U [IEv (EvState s)].
  Hypothesis L_group : forall g q, is_math_env g = false -> Q q -> U (IEv (EvBegin g) :: q ++ [IEv EvEnd]).
  Hypothesis L_env : forall g m st hl c, marks g = Some m ->
    U (IEv (EvBegin g) :: style_list st ++ lines_list hl ++ [ISub c (Some (0, m)); IEv EvEnd]).
  Hypothesis L_vis1 : forall v a, visual_arity v = 1%nat -> U a -> U (IEv (EvVisual v) :: a).
  Hypothesis L_vis2 : forall v a b, visual_arity v = 2%nat -> U a -> U b -> U (IEv (EvVisual v) :: a ++ b).
  Hypothesis L_scr2 : forall t p a b, script_arity t = 2%nat -> U a -> U b -> U (IEv (EvScript t p) :: a ++ b).
  Hypothesis L_scr3 : forall p a b c, U a -> U b -> U c -> U (IEv (EvScript STSubSup p) :: a ++ b ++ c).
  Hypothesis Q_nil : Q [].
  Hypothesis Q_app : forall a b, U a -> Q b -> Q (a ++ b).
  Hypothesis Q_sub : forall c, Q [ISub c None].
  (** The cases that break the documented shape. *)
  Hypothesis O_silent : forall cs, cs_in G cs -> is_silent (lookup_prim cs) = true -> U [].
  Hypothesis O_pmod : forall cs q, cs_in G cs -> lookup_prim cs = PPmod -> Q q -> U q.
  Hypothesis O_root : forall cs c idx r a,
    loose \/ seen cs c /\ lookup_prim cs = PSqrt /\ optional_argument c = (Ok (Some (stxt idx)), r) ->
    U a -> U (IEv (EvVisual VRoot) :: a ++ [ISub idx None]).
  Hypothesis O_font : forall cs c f,
    loose \/ seen cs c /\ lookup_prim cs = PFontGroup f /\ flow_first c ->
    forall al e al', flow_step al e al' ->
      U [IEv (EvBegin GNormal); IEv (EvState (SCFont f)); IEv e; IEv EvEnd] /\ AE al al'.
  Hypothesis O_build : forall cs, cs_in G cs -> lookup_prim cs = PBuildrel -> loose.

  (** ** Results of primitives and characters *)

  Definition is_flow (st : ist) (l : list instr) (st' : ist) : Prop :=
    i_handling st = false /\ i_allow st' = i_allow st /\ (exists e, l = [IEv e] /\ flow_step (i_align st) e (i_align st')) /\
    (loose \/ exists sl, G sl /\ after_flow (stxt sl) (stxt (i_content st'))).

  Definition post (flow : Prop) (st st' : ist) : Prop :=
    G (i_content st') /\ exists l, i_buf st' = (i_buf st ++ l)%list /\
      (U l /\ AE (i_align st) (i_align st') \/ flow /\ is_flow st l st').

  Lemma U_normal : forall a, U a -> U (IEv (EvBegin GNormal) :: a ++ [IEv EvEnd]).
  Proof.
    intros a Ha. apply L_group; [reflexivity|]. rewrite <- (app_nil_r a). apply Q_app; [exact Ha|exact Q_nil].
  Qed.

  Lemma U_group_instrs : forall g, U (group_instrs g).
  Proof. intros g. apply (L_group GNormal [ISub g None]); [reflexivity|apply Q_sub]. Qed.

  Lemma Q_one : forall a, U a -> Q a.
  Proof. intros a Ha. rewrite <- (app_nil_r a). apply Q_app; [exact Ha|exact Q_nil]. Qed.

  Lemma Q_state : forall s q, Q q -> Q (IEv (EvState s) :: q).
  Proof. intros s q Hq. apply (Q_app [IEv (EvState s)]); [apply L_state|exact Hq]. Qed.

  Ltac rd := cbn [i_buf i_content i_align i_handling i_skip i_allow i_pos i_macros
                   set_content set_buf set_allow set_pos set_skip set_handling set_align set_macros] in *.

  Ltac give x := exists x; split; [rewrite <- ?app_assoc; reflexivity|].

  (** The state of an argument that has just been read. *)
  Definition arg_ok (a : sarg) (st : ist) : Prop :=
    match a with
    | SGroup g => True
    | SCs cs => cs_at cs st
    | SChr ctx => G ctx /\ exists x r, stxt ctx = x :: r /\ (loose \/ r = stxt (i_content st))
    end.

  Lemma arg_at_ok : forall c a sl st, G c -> arg_at c a sl -> i_content st = sl -> arg_ok a st.
  Proof.
    intros c a sl st Hc Ha E. destruct a as [g|cs|ctx]; cbn in *; [exact I| |].
    - destruct Ha as (H1 & b & w & _ & Hw & Ec).
      assert (Hs : seen cs (stxt sl)).
      { exists (suffix_slice c (92 :: cs ++ w ++ stxt sl)), w. split; [|auto].
        eapply HG; [apply sl_sub_suffix|exact Hc]. rewrite Ec. apply suffix_app. }
      split; [eapply seen_in; eassumption|]. rewrite E. auto.
    - destruct Ha as (H1 & b & x & _ & _ & Ex & Hx). split; [eapply HG; eassumption|]. exists x, (stxt sl). rewrite E. auto.
  Qed.

  Lemma w_handle_char : forall ctx st x r, G (i_content st) -> G ctx -> stxt ctx = x :: r ->
    loose \/ r = stxt (i_content st) ->
    wp (handle_char ctx) st (fun _ st' => post (x = 38) st st').
  Proof.
    intros ctx st x r Hc Hx Ex Hr. unfold handle_char. apply wp_bind, wp_get. rewrite Ex. cbn [ctx_char].
    destruct (x =? 92); [apply wp_panic|]. destruct (x =? 37); [apply wp_panic|].
    destruct ((x =? 95) || _).
    { destruct (i_handling st); [apply wp_fail|]. apply wp_bind, wp_push_ev, wp_bind, wp_modify, wp_push_ev.
      split; [exact Hx|]. rd. give [IEv (EvBegin GNormal); IEv EvEnd]. left. split; [|apply AE_refl].
      apply (L_group GNormal []); [reflexivity|exact Q_nil]. }
    destruct (x =? 36); [apply wp_fail|]. destruct (x =? 35); [apply wp_fail|].
    destruct (N.eqb_spec x 38) as [->|].
    { destruct (i_align st) as [[n m]|] eqn:Ea; [|apply wp_fail].
      destruct (_ && _) eqn:E; [|apply wp_fail]. apply andb_prop in E as [E1 E2]. apply N.ltb_lt in E1.
      apply negb_true_iff in E2.
      apply wp_bind, wp_modify, wp_push_ev. split; [exact Hc|]. rd. give [IEv (EvFlow EFAlignment)].
      right. split; [reflexivity|]. split; [exact E2|]. split; [reflexivity|]. split.
      - eexists. split; [reflexivity|]. rd. rewrite Ea. constructor. exact E1.
      - destruct Hr as [Hr|Hr]; [left; exact Hr|right]. exists ctx. split; [exact Hx|]. left. rewrite Ex, Hr. reflexivity. }
    destruct (x =? 123).
    { apply wp_bind, wp_groupc. intros g sl H1 H2. apply wp_push. split; [rd; eapply HG; eassumption|].
      rd. give (group_instrs g). left. split; [apply U_group_instrs|apply AE_refl]. }
    destruct (x =? 125); [apply wp_fail|].
    destruct (is_digit x) eqn:Ed.
    { apply wp_bind, wp_modify, wp_push_ev. split.
      - rd. eapply HG; [apply sl_sub_suffix|exact Hx]. rewrite <- Ex.
        exists (firstn (length (numeral (i_handling st) (stxt ctx))) (stxt ctx)). rewrite firstn_skipn. reflexivity.
      - rd. eexists. split; [reflexivity|]. left. split; [apply L_leaf; reflexivity|apply AE_refl]. }
    apply wp_push_ev. split; [exact Hc|]. rd. eexists. split; [reflexivity|]. left. split; [|apply AE_refl].
    apply L_leaf. unfold char_event.
    repeat match goal with |- is_leaf (if ?b then _ else _) = _ => destruct b end; try reflexivity.
    destruct (char_delimiter_map _) as [[d []]|]; reflexivity.
  Qed.

  Section Prims.
    Variable rec : str -> P unit.
    Hypothesis Hrec : forall cs st, G (i_content st) -> cs_at cs st ->
      wp (rec cs) st (fun _ st' => post (lookup_prim cs = PNewline) st st').

    Lemma w_handle_arg : forall a st (R : unit -> ist -> Prop), G (i_content st) -> arg_ok a st ->
      (forall st' l, G (i_content st') -> i_buf st' = (i_buf st ++ l)%list -> U l ->
         AE (i_align st) (i_align st') -> R tt st') ->
      wp (handle_arg rec a) st R.
    Proof.
      intros a st R Hc Ha HR. destruct a as [g|cs|ctx]; cbn [handle_arg] in *.
      - apply wp_push. eapply HR; [exact Hc|reflexivity|apply U_group_instrs|apply AE_refl].
      - apply wp_bind, wp_modify. eapply wp_conseq; [apply Hrec; [exact Hc|exact Ha]|].
        intros [] st' (H1 & l & H2 & [[H3 H4]|(_ & H3 & _)]); [|discriminate].
        eapply HR; eassumption.
      - destruct Ha as [Hx (x & r & Ex & Hr)]. apply wp_bind, wp_modify.
        eapply wp_conseq; [apply (w_handle_char ctx (set_handling true st) x r); [exact Hc|exact Hx|exact Ex|exact Hr]|].
        intros [] st' (H1 & l & H2 & [[H3 H4]|(_ & H3 & _)]); [|discriminate].
        eapply HR; eassumption.
    Qed.

    (** Reads an argument and handles it. *)
    Lemma w_arg : forall st (R : unit -> ist -> Prop), G (i_content st) ->
      (forall st' l, G (i_content st') -> i_buf st' = (i_buf st ++ l)%list -> U l ->
         AE (i_align st) (i_align st') -> R tt st') ->
      wp (do a <- argc ; handle_arg rec a) st R.
    Proof.
      intros st R Hc HR. apply wp_bind, wp_argc. intros a sl H1 H2.
      apply w_handle_arg; [rd; eapply HG; eassumption| |exact HR].
      eapply arg_at_ok; [exact Hc|exact H2|reflexivity].
    Qed.

    (** ** Readers that keep the text admissible *)

    Lemma w_argc : forall st (R : sarg -> ist -> Prop), G (i_content st) ->
      (forall a sl, G sl -> arg_at (i_content st) a sl -> arg_ok a (set_content sl st) -> R a (set_content sl st)) ->
      wp argc st R.
    Proof.
      intros st R Hc H. apply wp_argc. intros a sl H1 H2. apply H; [eapply HG; eassumption|exact H2|].
      eapply arg_at_ok; [exact Hc|exact H2|reflexivity].
    Qed.

    Lemma w_groupc : forall k st (R : slice -> ist -> Prop), G (i_content st) ->
      (forall g sl, G sl -> R g (set_content sl st)) -> wp (groupc k) st R.
    Proof. intros k st R Hc H. apply wp_groupc. intros g sl H1 H2. apply H. eapply HG; eassumption. Qed.

    Lemma w_bracec : forall st (R : slice -> ist -> Prop), G (i_content st) ->
      (forall g sl, G sl -> R g (set_content sl st)) -> wp bracec st R.
    Proof. intros st R Hc H. apply wp_bracec. intros g sl H1 H2. apply H. eapply HG; eassumption. Qed.

    Lemma w_optc : forall st (R : option slice -> ist -> Prop), G (i_content st) ->
      (forall o sl, G sl -> optional_argument (stxt (i_content st)) = (Ok (option_map stxt o), stxt sl) ->
         R o (set_content sl st)) -> wp optc st R.
    Proof. intros st R Hc H. apply wp_optc. intros o sl H1 H2. apply H; [eapply HG; eassumption|exact H2]. Qed.

    Lemma w_lexc : forall A (l : lexer A) st (R : A -> ist -> Prop), leaves_suffix l -> G (i_content st) ->
      (forall a sl, G sl -> l (stxt (i_content st)) = (Ok a, stxt sl) -> R a (set_content sl st)) ->
      wp (lexc l) st R.
    Proof.
      intros A l st R Hl Hc H. apply wp_lexc; [exact Hl|]. intros a r E Hr. apply H; [|exact E].
      eapply HG; [apply sl_sub_suffix; exact Hr|exact Hc].
    Qed.

    Lemma w_group_arg : forall e st (R : str -> ist -> Prop), G (i_content st) ->
      (forall t sl, G sl -> R t (set_content sl st)) -> wp (group_arg e) st R.
    Proof.
      intros e st R Hc H. unfold group_arg. apply wp_bind, w_argc; [exact Hc|]. intros [g|cs|ctx] sl H1 _ _;
        [apply wp_ret, H; exact H1|apply wp_fail|apply wp_fail].
    Qed.

    Lemma w_color_of : forall s st (R : rgb -> ist -> Prop), (forall c, R c st) -> wp (color_of s) st R.
    Proof. intros s st R H. unfold color_of. apply wp_bind, wp_lift. intros o _. apply wp_ok_or. intros. apply H. Qed.

    Lemma w_left_delim : forall st (R : option char -> ist -> Prop), G (i_content st) ->
      (forall o sl, G sl -> R o (set_content sl st)) -> wp left_delim st R.
    Proof.
      intros st R Hc H. unfold left_delim. apply wp_bind, wp_get.
      destruct (strip_char 46 (stxt (i_content st))) as [r|] eqn:E.
      - apply strip_char_some in E. apply wp_bind, wp_modify, wp_ret, H.
        eapply HG; [apply sl_sub_suffix|exact Hc]. rewrite E. exists [46]. reflexivity.
      - apply wp_bind, w_lexc; [auto with lexsuf|exact Hc|]. intros d sl H1 _. apply wp_ret, H. exact H1.
    Qed.

    Lemma w_genfrac_delim : forall st (R : option char -> ist -> Prop), G (i_content st) ->
      (forall o sl, G sl -> R o (set_content sl st)) -> wp genfrac_delim st R.
    Proof.
      intros st R Hc H. unfold genfrac_delim. apply wp_bind, w_argc; [exact Hc|]. intros a sl H1 _ _.
      destruct (sarg_token a).
      - apply wp_bind, wp_ok_or. intros d _. apply wp_ret, H. exact H1.
      - destruct a; try apply wp_fail. destruct (is_nil _); [apply wp_ret, H; exact H1|apply wp_fail].
    Qed.

    Definition simple (st st' : ist) : Prop :=
      G (i_content st') /\ exists l, i_buf st' = (i_buf st ++ l)%list /\ U l /\ AE (i_align st) (i_align st').

    Lemma simple_post : forall P st st', simple st st' -> post P st st'.
    Proof.
      intros P st st' (H1 & l & H2 & H3). split; [exact H1|]. exists l. auto.
    Qed.

    Lemma simple_intro : forall st st' l, G (i_content st') -> i_buf st' = (i_buf st ++ l)%list -> U l ->
      AE (i_align st) (i_align st') -> simple st st'.
    Proof. intros st st' l H1 H2 H3 H4. split; [exact H1|]. exists l. auto. Qed.

    (** Closes a goal [simple st st'] where the buffer is written out. *)
    Ltac fin := eapply simple_intro; rd;
      [first [eassumption | eapply HG; eassumption]
      | repeat match goal with H : i_buf ?s = _ |- context [i_buf ?s] => rewrite H; rd end;
        rewrite <- ?app_assoc; reflexivity
      | cbn [app] | first [apply AE_refl | eassumption
        | match goal with H : i_align ?s = _ |- AE _ (i_align ?s) => rewrite H; apply AE_refl end
        | eapply AE_trans; eassumption]].

    Ltac leaf := first [apply L_leaf; reflexivity | apply L_state].

    Lemma w_sized_delim : forall s st, G (i_content st) -> wp (sized_delim s) st (fun _ => simple st).
    Proof.
      intros s st Hc. unfold sized_delim. apply wp_bind, w_lexc; [auto with lexsuf|exact Hc|]. intros d sl H1 _.
      apply wp_push_ev. fin. leaf.
    Qed.

    Lemma w_atom_group : forall k st, G (i_content st) -> wp (atom_group rec k) st (fun _ => simple st).
    Proof.
      intros k st Hc. unfold atom_group. apply wp_bind, w_argc; [exact Hc|]. intros a sl H1 _ Ha.
      destruct (single_char a) as [c|]; [apply wp_push_ev; fin; destruct k; leaf|].
      assert (Hdef : wp (push_ev (EvBegin GNormal) ;; handle_arg rec a ;; push_ev EvEnd) (set_content sl st) (fun _ => simple st)).
      { apply wp_bind, wp_push_ev, wp_bind, w_handle_arg; [exact H1|exact Ha|]. intros st' l H2 H3 H4 H5.
        apply wp_push_ev. fin. apply U_normal. exact H4. }
      destruct k; try exact Hdef. destruct a; try exact Hdef. apply wp_push_ev. fin. leaf.
    Qed.

    Lemma w_accent : forall c b st, G (i_content st) -> wp (accent rec c b) st (fun _ => simple st).
    Proof.
      intros c b st Hc. unfold accent. apply wp_bind, w_argc; [exact Hc|]. intros a sl H1 _ Ha.
      apply wp_bind, wp_push_ev, wp_bind, w_handle_arg; [exact H1|exact Ha|]. intros st' l H2 H3 H4 H5.
      apply wp_push_ev. fin. apply L_scr2; [reflexivity|exact H4|leaf].
    Qed.

    Lemma w_underscript : forall c st, G (i_content st) -> wp (underscript rec c) st (fun _ => simple st).
    Proof.
      intros c st Hc. unfold underscript. apply wp_bind, w_argc; [exact Hc|]. intros a sl H1 _ Ha.
      apply wp_bind, wp_push_ev, wp_bind, w_handle_arg; [exact H1|exact Ha|]. intros st' l H2 H3 H4 H5.
      apply wp_push_ev. fin. apply L_scr2; [reflexivity|exact H4|leaf].
    Qed.

    Lemma w_text_argument : forall f st, G (i_content st) -> wp (text_argument f) st (fun _ => simple st).
    Proof.
      intros f st Hc. unfold text_argument. apply wp_bind, w_argc; [exact Hc|]. intros a sl H1 _ _.
      destruct a as [t|cs|t]; [|apply wp_fail|]; (destruct f as [f|]; [apply wp_push|apply wp_push_ev]; fin;
        [|leaf]; apply (L_group GNormal [IEv (EvState (SCFont (Some f))); IEv (EvContent (CText (stxt t)))]);
        [reflexivity|apply Q_state, Q_one; leaf]).
    Qed.

    Lemma w_fraction_like : forall o c b s st, G (i_content st) ->
      wp (fraction_like rec o c b s) st (fun _ => simple st).
    Proof.
      intros o c b s st Hc. unfold fraction_like. cbv zeta.
      assert (Hfrac : forall pre st1, G (i_content st1) -> AE (i_align st) (i_align st1) ->
        i_buf st1 = (i_buf st ++ pre)%list ->
        forall (m : P unit), (forall st2 l1 l2, G (i_content st2) -> U l1 -> U l2 ->
           i_buf st2 = (i_buf st ++ pre ++ IEv (EvVisual (VFraction b)) :: l1 ++ l2)%list ->
           AE (i_align st) (i_align st2) -> wp m st2 (fun _ => simple st)) ->
        wp (push_ev (EvVisual (VFraction b)) ;; do num <- argc ; handle_arg rec num ;;
            do den <- argc ; handle_arg rec den ;; m) st1 (fun _ => simple st)).
      { intros pre st1 H1 H2 H3 m Hm. apply wp_bind, wp_push_ev.
        apply wp_bind, w_argc; [exact H1|]. intros a1 sl1 G1 _ A1. rd.
        apply wp_bind, w_handle_arg; [exact G1|exact A1|]. intros st2 l1 H4 H5 H6 H7. rd.
        apply wp_bind, w_argc; [exact H4|]. intros a2 sl2 G2 _ A2. rd.
        apply wp_bind, w_handle_arg; [exact G2|exact A2|]. intros st3 l2 H8 H9 H10 H11. rd.
        eapply Hm; [exact H8|exact H6|exact H10| |].
        - rewrite H9, H5, H3, <- !app_assoc. reflexivity.
        - eapply AE_trans; [exact H2|]. eapply AE_trans; eassumption. }
      assert (Hv : forall l1 l2, U l1 -> U l2 -> U (IEv (EvVisual (VFraction b)) :: l1 ++ l2)).
      { intros. apply L_vis2; [reflexivity| |]; assumption. }
      destruct (is_some o || is_some c); cbn [orb].
      - destruct s as [s|].
        + apply wp_bind, wp_push_ev, wp_bind, wp_bind, wp_ret, wp_push_ev.
          apply (Hfrac [IEv (EvBegin (GLeftRight o c)); IEv (EvState (SCStyle s))]);
            [exact Hc|apply AE_refl|rd; rewrite <- app_assoc; reflexivity|].
          intros st2 l1 l2 H1 H2 H3 H4 H5. apply wp_push_ev. fin.
          apply (L_group (GLeftRight o c) (IEv (EvState (SCStyle s)) :: IEv (EvVisual (VFraction b)) :: l1 ++ l2)%list); [reflexivity|].
          apply Q_state, Q_one, Hv; assumption.
        + apply wp_bind, wp_push_ev, wp_bind, wp_ret.
          apply (Hfrac [IEv (EvBegin (GLeftRight o c))]); [exact Hc|apply AE_refl|reflexivity|].
          intros st2 l1 l2 H1 H2 H3 H4 H5. apply wp_push_ev. fin.
          apply (L_group (GLeftRight o c) (IEv (EvVisual (VFraction b)) :: l1 ++ l2)%list); [reflexivity|].
          apply Q_one, Hv; assumption.
      - apply wp_bind, wp_ret. destruct s as [s|]; cbn [is_some].
        + apply wp_bind, wp_bind, wp_push_ev, wp_push_ev.
          apply (Hfrac [IEv (EvBegin GNormal); IEv (EvState (SCStyle s))]);
            [exact Hc|apply AE_refl|rd; rewrite <- app_assoc; reflexivity|].
          intros st2 l1 l2 H1 H2 H3 H4 H5. apply wp_push_ev. fin.
          apply (L_group GNormal (IEv (EvState (SCStyle s)) :: IEv (EvVisual (VFraction b)) :: l1 ++ l2)%list); [reflexivity|].
          apply Q_state, Q_one, Hv; assumption.
        + apply wp_bind, wp_ret.
          apply (Hfrac []); [exact Hc|apply AE_refl|rewrite app_nil_r; reflexivity|].
          intros st2 l1 l2 H1 H2 H3 H4 H5. apply wp_ret. fin. cbn. apply Hv; assumption.
    Qed.

    Lemma w_font_group : forall cs f st, G (i_content st) -> cs_at cs st -> lookup_prim cs = PFontGroup f ->
      wp (font_group rec f) st (fun _ => simple st).
    Proof.
      intros cs f st Hc [_ Hcs] EL. unfold font_group.
      apply wp_bind, w_argc; [exact Hc|]. intros a sl H1 Hat Ha. apply wp_bind, wp_push.
      assert (Hend : forall st1 l, G (i_content st1) -> U l -> AE (i_align st) (i_align st1) ->
        i_buf st1 = ((i_buf st ++ [IEv (EvBegin GNormal); IEv (EvState (SCFont f))]) ++ l)%list ->
        wp (push_ev EvEnd) st1 (fun _ => simple st)).
      { intros st1 l H2 H3 H4 H5. apply wp_push_ev. fin.
        apply (L_group GNormal (IEv (EvState (SCFont f)) :: l)%list); [reflexivity|]. apply Q_state, Q_one. exact H3. }
      assert (Hflow : forall st1 al e al', flow_step al e al' -> al = i_align st -> i_align st1 = al' ->
        flow_first (stxt (i_content st)) -> G (i_content st1) ->
        i_buf st1 = ((i_buf st ++ [IEv (EvBegin GNormal); IEv (EvState (SCFont f))]) ++ [IEv e])%list ->
        wp (push_ev EvEnd) st1 (fun _ => simple st)).
      { intros st1 al e al' Hf -> Eal Hff H2 H5. apply wp_push_ev.
        destruct (O_font cs (stxt (i_content st)) f ltac:(tauto) _ _ _ Hf) as [Hu Hae]. rewrite <- Eal in Hae.
        fin. exact Hu. }
      destruct a as [g|cs'|ctx].
      - apply wp_bind, wp_push, wp_push_ev. fin.
        apply (L_group GNormal [IEv (EvState (SCFont f)); ISub g None]); [reflexivity|]. apply Q_state, Q_sub.
      - apply wp_bind. eapply wp_conseq; [apply Hrec; [exact H1|exact Ha]|].
        intros [] st' (H2 & l & H3 & [[H4 H5]|(H4 & _ & _ & (e & -> & H5) & _)]); rd.
        + eapply Hend; eassumption.
        + eapply Hflow; try eassumption; try reflexivity.
          destruct Hat as (_ & b & w' & Hb & _ & E). exists b, (w' ++ stxt sl)%list. split; [exact Hb|]. right.
          exists cs'. split; [exact H4|exact E].
      - destruct Ha as [Hx (x & r & Ex & Hr)]. apply wp_bind.
        eapply wp_conseq; [apply (w_handle_char ctx _ x r); [exact H1|exact Hx|exact Ex|exact Hr]|].
        intros [] st' (H2 & l & H3 & [[H4 H5]|(-> & _ & _ & (e & -> & H5) & _)]); rd.
        + eapply Hend; eassumption.
        + eapply Hflow; try eassumption; try reflexivity.
          destruct Hat as (_ & b & x' & Hb & E & _). exists b, r. split; [exact Hb|]. left.
          rewrite E, Ex. reflexivity.
    Qed.

    (** ** Environments *)

    Lemma array_columns_count : forall s n l k, array_columns n s = Ok (l, k) ->
      k = n + N.of_nat (length (filter is_col l)).
    Proof.
      induction s as [|c s IH]; intros n l k H; cbn [array_columns] in H.
      - injection H as <- <-. cbn. lia.
      - destruct (65535 <=? n); [discriminate|].
        repeat match type of H with
        | match (if ?b then _ else _) with _ => _ end = _ => destruct b
        end; try discriminate;
        match type of H with
        | match array_columns ?n' s with _ => _ end = _ =>
            destruct (array_columns n' s) as [[l' k']|?|?|] eqn:E; try discriminate
        end; injection H as <- <-; apply IH in E; cbn [filter is_col length]; lia.
    Qed.

    Definition env_fits (st : ist) (e : env_desc) (st' : ist) : Prop :=
      exists sl, G sl /\ st' = set_content sl st /\ marks (e_group e) = Some (e_count e).

    Lemma w_array_environment : forall st (R : grouping * N -> ist -> Prop), G (i_content st) ->
      (forall cols sl, G sl -> R (GArray cols, N.of_nat (length (filter is_col cols)) - 1) (set_content sl st)) ->
      wp array_environment st R.
    Proof.
      intros st R Hc H. unfold array_environment. apply wp_bind, w_group_arg; [exact Hc|]. intros t sl H1.
      apply wp_bind, wp_lift. intros [l n] E. destruct (existsb _ _); [|apply wp_fail]. apply wp_ret.
      apply array_columns_count in E. cbn [fst snd]. subst n. apply H. exact H1.
    Qed.

    Lemma w_alignat_pairs : forall st (R : N -> ist -> Prop), G (i_content st) ->
      (forall p sl, G sl -> R p (set_content sl st)) -> wp alignat_pairs st R.
    Proof.
      intros st R Hc H. unfold alignat_pairs. apply wp_bind, w_argc; [exact Hc|].
      intros [g|cs|ctx] sl H1 _ _; [|apply wp_fail|apply wp_fail].
      apply wp_bind, wp_local. intros n r _. apply wp_ret, H. exact H1.
    Qed.

    Lemma w_pair_count : forall p st (R : N -> ist -> Prop), R (p * 2 - 1) st -> wp (pair_count p) st R.
    Proof. intros p st R H. unfold pair_count. destruct (65535 <? p * 2); [apply wp_panic|apply wp_ret; exact H]. Qed.

    Lemma w_environment : forall name st, G (i_content st) -> wp (environment name) st (env_fits st).
    Proof.
      intros name st Hc. unfold environment.
      repeat match goal with
      | |- wp (if ?b then _ else _) _ _ => destruct b
      end;
      try (apply wp_bind, w_array_environment; [exact Hc|]; intros cols sl H1; apply wp_ret; exists sl; cbn; auto);
      try (apply wp_bind, w_alignat_pairs; [exact Hc|]; intros p sl H1; apply wp_bind, w_pair_count, wp_ret;
           exists sl; cbn; auto).
      - apply wp_bind, w_group_arg; [exact Hc|]. intros t sl H1. apply wp_bind, wp_ok_or. intros a _.
        apply wp_ret. exists sl. cbn. auto.
      - destruct (assoc_str name matrix_table) as [[[[ty starred] sty] wrap]|] eqn:E.
        + apply wp_bind. destruct starred.
          * unfold optional_alignment. apply wp_bind, w_optc; [exact Hc|]. intros [g|] sl H1 _.
            -- apply wp_ok_or. intros a _. apply wp_ret. exists sl. cbn. auto.
            -- apply wp_ret, wp_ret. exists sl. cbn. auto.
          * apply wp_ret, wp_ret. exists (i_content st). destruct st. cbn. auto.
        + destruct (assoc_str name plain_table) as [[[[g n] k] sty]|] eqn:Ep; [|apply wp_fail].
          apply wp_ret. exists (i_content st). destruct st. cbn. split; [exact Hc|]. split; [reflexivity|].
          apply assoc_str_in in Ep.
          repeat (destruct Ep as [Ep|Ep]; [injection Ep; intros; subst; reflexivity|]). destruct Ep.
    Qed.

    Lemma w_begin_env : forall st, G (i_content st) -> wp begin_env st (fun _ => simple st).
    Proof.
      intros st Hc. unfold begin_env. apply wp_bind, w_group_arg; [exact Hc|]. intros name sl H1.
      apply wp_bind. eapply wp_conseq; [apply w_environment; exact H1|].
      intros e st' (sl' & H2 & -> & Em).
      assert (Hbody : forall pre st1 (m : P unit), G (i_content st1) -> i_buf st1 = (i_buf st ++ pre)%list ->
        i_align st1 = i_align st ->
        (forall st2 l, G (i_content st2) -> i_buf st2 = (i_buf st ++ pre ++ l)%list -> U l ->
           i_align st2 = i_align st -> wp m st2 (fun _ => simple st)) ->
        wp (do hl <- lexc horizontal_lines ;
            do g <- groupc (e_kind e) ;
            push_ev (EvBegin (e_group e)) ;;
            match e_style e with Some s => push_ev (EvState (SCStyle s)) | None => ret tt end ;;
            (if is_nil hl then ret tt else push_ev (EvFlow (EFStartLines hl))) ;;
            push [ISub g (Some (0, e_count e)); IEv EvEnd] ;; m) st1 (fun _ => simple st)).
      { intros pre st1 m B1 B2 B3 Hm. apply wp_bind, w_lexc; [auto with lexsuf|exact B1|]. intros hl sl1 B4 _.
        apply wp_bind, w_groupc; [exact B4|]. intros g sl2 B5. apply wp_bind, wp_push_ev.
        pose proof (L_env (e_group e) (e_count e) (e_style e) hl g Em) as HU.
        unfold style_list, lines_list in HU.
        destruct (e_style e) as [s|]; [apply wp_bind, wp_push_ev|apply wp_bind, wp_ret];
          (destruct (is_nil hl); [apply wp_bind, wp_ret|apply wp_bind, wp_push_ev]);
          (apply wp_bind, wp_push; eapply Hm; [exact B5| |exact HU|exact B3]);
          rd; rewrite B2, <- !app_assoc; reflexivity. }
      destruct (e_wrap e) as [[l r]|].
      - apply wp_bind, wp_push_ev. cbn [is_some].
        apply (Hbody [IEv (EvBegin (GLeftRight (Some l) (Some r)))]); [exact H2|reflexivity|reflexivity|].
        intros st2 l2 H3 H4 H5 H6. apply wp_push_ev. fin.
        apply (L_group (GLeftRight (Some l) (Some r)) l2); [reflexivity|]. apply Q_one. exact H5.
      - apply wp_bind, wp_ret. cbn [is_some].
        apply (Hbody []); [exact H2|rd; rewrite app_nil_r; reflexivity|reflexivity|].
        intros st2 l2 H3 H4 H5 H6. apply wp_ret. cbn [app] in H4. fin. exact H5.
    Qed.

    Lemma w_newline : forall cs st, G (i_content st) -> cs_at cs st -> lookup_prim cs = PNewline ->
      wp newline st (fun _ => post (lookup_prim cs = PNewline) st).
    Proof.
      intros cs st Hc [_ Hcs] EL. unfold newline. apply wp_bind, wp_get.
      destruct (i_align st) as [[n m]|] eqn:Ea; [|apply wp_fail].
      destruct (i_handling st) eqn:Eh; [apply wp_fail|]. apply wp_bind, wp_modify.
      apply wp_bind, w_optc; [exact Hc|]. intros o sl H1 Eo. apply wp_bind.
      assert (Hend : forall sp, wp (do hl <- lexc horizontal_lines ; push_ev (EvFlow (EFNewLine sp hl)))
        (set_content sl (set_align (Some (0, m)) st)) (fun _ => post (lookup_prim cs = PNewline) st)).
      { intros sp. apply wp_bind, w_lexc; [auto with lexsuf|exact H1|]. intros hl sl1 H2 E2. apply wp_push_ev.
        split; [exact H2|]. rd. eexists. split; [reflexivity|]. right. split; [exact EL|]. split; [exact Eh|].
        split; [reflexivity|]. split; [eexists; split; [reflexivity|]; rewrite Ea; constructor|].
        destruct Hcs as [Hcs|(sl0 & w & Hsl0 & Hw & Et)]; [left; exact Hcs|right]. exists sl0. split; [exact Hsl0|].
        right. exists cs, w, (stxt (i_content st)), (option_map stxt o), (stxt sl), hl. auto 6. }
      destruct o as [a|].
      - apply wp_bind, wp_local. intros d r _. apply wp_ret, Hend.
      - apply wp_ret, Hend.
    Qed.

    Lemma simple_nil : forall cs st st', cs_in G cs -> is_silent (lookup_prim cs) = true ->
      G (i_content st') -> i_buf st' = i_buf st -> i_align st' = i_align st -> simple st st'.
    Proof.
      intros cs st st' Hcs Hs H1 H2 H3. apply (simple_intro _ _ []); [exact H1|rewrite H2, app_nil_r; reflexivity| |].
      - eapply O_silent; eassumption.
      - rewrite H3. apply AE_refl.
    Qed.

    Lemma w_new_command : forall b cs st, G (i_content st) -> cs_in G cs -> is_silent (lookup_prim cs) = true ->
      wp (new_command b) st (fun _ => simple st).
    Proof.
      intros b cs st Hc Hcs Hs. unfold new_command. apply wp_bind, w_bracec; [exact Hc|]. intros g sl H1.
      apply wp_bind, wp_local. intros name r _. cbn [fst snd]. apply wp_bind, wp_get. apply wp_bind.
      assert (Hrest : wp
        (do o <- optc ; do t <- ok_or o EArgument ; do n <- ok_or (parse_u8 (stxt t)) ENumber ;
         do default <- optc ;
         if (9 <? n) && ((if is_some default then 1 else 0) <=? n) then fail ETooManyParams
         else do rep <- bracec ;
           if ctx_contains (i_macros (set_content sl st)) name && negb (is_some b) then ret tt
           else do d <- lift (make_command n (option_map stxt default) (stxt rep)) ;
             modify (fun st => set_macros (ctx_insert (i_macros st) name d) st))
        (set_content sl st) (fun _ => simple st)).
      { apply wp_bind, w_optc; [exact H1|]. intros o sl1 H2 _. apply wp_bind, wp_ok_or. intros t _.
        apply wp_bind, wp_ok_or. intros n _. apply wp_bind, w_optc; [exact H2|]. intros d sl2 H3 _.
        destruct (_ && (_ <=? n)); [apply wp_fail|]. apply wp_bind, w_bracec; [exact H3|]. intros rep sl3 H4.
        destruct (ctx_contains _ _ && _).
        - apply wp_ret. eapply simple_nil; try eassumption; reflexivity.
        - apply wp_bind, wp_lift. intros m _. apply wp_modify. eapply simple_nil; try eassumption; reflexivity. }
      destruct b as [b|]; [destruct (Bool.eqb _ _); [apply wp_ret|apply wp_fail]|apply wp_ret]; exact Hrest.
    Qed.

    (** An argument over a base: the events of the first go after those of the
        second. *)
    Lemma w_over : forall ty st st0 a n, n = length (i_buf st) -> script_arity ty = 2%nat -> G (i_content st) -> arg_ok a st ->
      i_buf st = (i_buf st0 ++ [IEv (EvScript ty SPAboveBelow)])%list -> i_align st = i_align st0 ->
      wp (handle_arg rec a ;; do evs <- split_off n ;
          do base <- argc ; handle_arg rec base ;; push evs) st (fun _ => simple st0).
    Proof.
      intros ty st st0 a n -> Hty Hc Ha Hb Hal. apply wp_bind, w_handle_arg; [exact Hc|exact Ha|].
      intros st1 l1 H1 H2 H3 H4. apply wp_bind, wp_split_off. rewrite H2.
      replace (skipn (length (i_buf st)) (i_buf st ++ l1)) with l1
        by (rewrite skipn_app, skipn_all, Nat.sub_diag; reflexivity).
      replace (firstn (length (i_buf st)) (i_buf st ++ l1)) with (i_buf st)
        by (rewrite firstn_app, firstn_all, Nat.sub_diag, firstn_O, app_nil_r; reflexivity).
      apply wp_bind, w_argc; [exact H1|]. intros b sl H5 _ Hbk. apply wp_bind, w_handle_arg; [exact H5|exact Hbk|].
      intros st2 l2 H6 H7 H8 H9. apply wp_push. rewrite Hal in H4. rd. rewrite Hb in H7.
      fin. apply L_scr2; assumption.
    Qed.

    Lemma w_hprim_body : forall cs st, G (i_content st) -> cs_at cs st ->
      wp (hprim_body rec cs) st (fun _ => post (lookup_prim cs = PNewline) st).
    Proof.
      intros cs st Hc Hcs. pose proof (proj1 Hcs) as Hin. unfold hprim_body.
      assert (Hss : forall P0 (m : P unit), wp m st (fun _ => simple st) -> wp m st (fun _ => post P0 st)).
      { intros P0 m Hm. eapply wp_conseq; [exact Hm|]. intros a st' H. apply simple_post. exact H. }
      destruct (lookup_prim cs) eqn:EL;
        match goal with
        | |- context [PNewline = PNewline] => idtac
        | |- _ => apply Hss; clear Hss
        end.
      - apply wp_push_ev. fin. apply L_leaf. eapply lookup_leaf. exact EL.
      - apply wp_push_ev. fin. leaf.
      - apply wp_bind, wp_modify, wp_bind, wp_modify, wp_push_ev. fin. leaf.
      - apply wp_bind, wp_modify, wp_bind, wp_modify, wp_push_ev. fin. leaf.
      - apply wp_bind, wp_modify, wp_bind, w_argc; [exact Hc|]. intros [t|c|t] sl H1 _ _;
          [apply wp_push_ev; fin; leaf|apply wp_fail|apply wp_push_ev; fin; leaf].
      - apply wp_bind, w_argc; [exact Hc|]. intros a sl H1 _ Ha. apply wp_bind, wp_push, wp_bind, w_handle_arg;
          [exact H1|exact Ha|]. intros st' l H2 H3 H4 H5. apply wp_push. fin.
        eapply O_pmod; [exact Hin|exact EL|].
        apply (Q_app [IEv (space_w _)]); [leaf|].
        replace (IEv (EvBegin GNormal) :: _)%list with ((IEv (EvBegin GNormal) :: ([IEv (EvContent (CDelimiter 40 None DOpen))] ++
          [IEv (EvContent (CFunction (lit "mod")))] ++ l) ++ [IEv EvEnd]) ++ [IEv (EvContent (CDelimiter 41 None DClose))])%list
          by (cbn [app]; rewrite <- app_assoc; reflexivity).
        apply Q_app; [|apply Q_one; leaf]. apply L_group; [reflexivity|].
        apply Q_app; [leaf|]. apply Q_app; [leaf|]. apply Q_one. exact H4.
      - apply w_atom_group. exact Hc.
      - apply wp_bind, wp_modify, wp_bind, wp_modify. eapply wp_conseq; [apply w_atom_group; exact Hc|].
        intros ? ? H. exact H.
      - apply wp_bind, wp_get. destruct (trim_start _); apply wp_push_ev; fin; leaf.
      - apply wp_bind, wp_modify, wp_push_ev. fin. leaf.
      - eapply w_font_group; eassumption.
      - apply wp_bind, wp_modify, wp_push_ev. fin. leaf.
      - apply wp_bind, w_group_arg; [exact Hc|]. intros t sl H1. apply wp_bind, wp_modify, wp_bind, w_color_of. intros c.
        apply wp_push_ev. fin. leaf.
      - apply wp_bind, w_group_arg; [exact Hc|]. intros t sl H1. apply wp_bind, w_color_of. intros c.
        apply wp_bind, w_argc; [exact H1|]. intros a sl2 H2 _ Ha. apply wp_bind, wp_push, wp_bind, w_handle_arg;
          [exact H2|exact Ha|]. intros st' l H3 H4 H5 H6. apply wp_push_ev. fin.
        apply (L_group GNormal (IEv (EvState (SCColor c CTText)) :: l)%list); [reflexivity|]. apply Q_state, Q_one. exact H5.
      - apply wp_bind, w_group_arg; [exact Hc|]. intros t sl H1. apply wp_bind, w_color_of. intros c.
        apply wp_bind, wp_push, wp_bind. eapply wp_conseq; [apply w_text_argument; exact H1|].
        intros [] st' (H2 & l & H3 & H4 & H5). apply wp_push_ev. fin.
        apply (L_group GNormal (IEv (EvState (SCColor c CTBackground)) :: l)%list); [reflexivity|]. apply Q_state, Q_one. exact H4.
      - apply wp_bind, w_group_arg; [exact Hc|]. intros t sl H1. apply wp_bind, w_group_arg; [exact H1|]. intros u sl2 H2.
        apply wp_bind, w_color_of. intros c. apply wp_bind, w_color_of. intros d.
        apply wp_bind, wp_push, wp_bind. eapply wp_conseq; [apply w_text_argument; exact H2|].
        intros [] st' (H3 & l & H4 & H5 & H6). apply wp_push_ev. fin.
        apply (L_group GNormal (IEv (EvState (SCColor c CTBorder)) :: IEv (EvState (SCColor d CTBackground)) :: l)%list); [reflexivity|].
        apply Q_state, Q_state, Q_one. exact H5.
      - apply w_sized_delim. exact Hc.
      - apply wp_bind, w_left_delim; [exact Hc|]. intros o sl H1. apply wp_bind, w_groupc; [exact H1|]. intros g sl2 H2.
        apply wp_bind, w_left_delim; [exact H2|]. intros c sl3 H3. apply wp_push. fin.
        apply (L_group (GLeftRight o c) [ISub g None]); [reflexivity|apply Q_sub].
      - apply wp_bind, w_lexc; [auto with lexsuf|exact Hc|]. intros d sl H1 _. apply wp_push_ev. fin. leaf.
      - apply wp_fail.
      - unfold large_op. apply wp_bind, wp_modify, wp_bind, wp_modify, wp_push_ev. fin. leaf.
      - apply wp_bind, wp_modify, wp_push_ev. fin. leaf.
      - destruct setpos; [apply wp_bind, wp_modify|apply wp_bind, wp_ret];
          (eapply wp_conseq; [apply w_accent; exact Hc|intros ? ? H; exact H]).
      - destruct setpos; [apply wp_bind, wp_modify|apply wp_bind, wp_ret];
          (eapply wp_conseq; [apply w_underscript; exact Hc|intros ? ? H; exact H]).
      - apply wp_bind, w_lexc; [auto with lexsuf|exact Hc|]. intros d sl H1 _. apply wp_push_ev. fin. leaf.
      - apply wp_bind, w_lexc; [auto with lexsuf|exact Hc|]. intros d sl H1 _. apply wp_push_ev. fin. leaf.
      - apply wp_bind, w_lexc; [auto with lexsuf|exact Hc|]. intros d sl H1 _.
        destruct (is_mu d); [apply wp_push_ev; fin; leaf|apply wp_fail].
      - apply wp_bind, w_lexc; [auto with lexsuf|exact Hc|]. intros d sl H1 _.
        destruct (_ && _); [apply wp_push_ev; fin; leaf|apply wp_fail].
      - apply wp_bind, w_group_arg; [exact Hc|]. intros t sl H1. apply wp_bind, wp_local. intros g r _.
        apply wp_push_ev. fin. leaf.
      - apply wp_bind, w_group_arg; [exact Hc|]. intros t sl H1. apply wp_bind, wp_local. intros g r _.
        apply wp_bind, w_group_arg; [exact H1|]. intros t2 sl2 H2. apply wp_bind, wp_local. intros g2 r2 _.
        apply wp_bind, w_group_arg; [exact H2|]. intros t3 sl3 H3. apply wp_bind, wp_local. intros g3 r3 _.
        apply wp_push_ev. fin. leaf.
      - apply wp_bind, w_optc; [exact Hc|]. intros below sl H1 _. apply wp_bind, w_argc; [exact H1|].
        intros a sl2 H2 _ Ha. apply wp_bind, wp_push. destruct below as [b|]; cbn [handle_arg is_some].
        + apply wp_bind, wp_push, w_handle_arg; [exact H2|exact Ha|]. intros st' l H3 H4 H5 H6. fin.
          apply (L_scr3 SPAboveBelow [IEv (relation c)] (group_instrs b) l); [leaf|apply U_group_instrs|exact H5].
        + apply wp_bind, wp_ret, w_handle_arg; [exact H2|exact Ha|]. intros st' l H3 H4 H5 H6. fin.
          apply (L_scr2 STSup SPAboveBelow [IEv (relation c)] l); [reflexivity|leaf|exact H5].
      - apply w_fraction_like. exact Hc.
      - apply wp_bind, w_genfrac_delim; [exact Hc|]. intros l sl H1. apply wp_bind, w_genfrac_delim; [exact H1|]. intros r sl2 H2.
        apply wp_bind, w_argc; [exact H2|]. intros b sl3 H3 _ _. apply wp_bind.
        assert (Hrest : forall bar, wp (do s <- argc ;
          do sty <- match s with
                | SCs _ => fail EArgument
                | SChr ctx => do s <- ok_or (style_digit (ctx_char (stxt ctx))) EArgument ; ret (Some s)
                | SGroup g =>
                    match stxt g with
                    | [] => ret None
                    | [c] => do s <- ok_or (style_digit c) EArgument ; ret (Some s)
                    | _ => fail EArgument
                    end
                end ;
          fraction_like rec l r bar sty) (set_content sl3 (set_content sl2 (set_content sl st))) (fun _ => simple st)).
        { intros bar. apply wp_bind, w_argc; [exact H3|]. intros s sl4 H4 _ _. apply wp_bind.
          assert (Hf : forall sty, wp (fraction_like rec l r bar sty)
            (set_content sl4 (set_content sl3 (set_content sl2 (set_content sl st)))) (fun _ => simple st)).
          { intros sty. eapply wp_conseq; [apply w_fraction_like; exact H4|intros ? ? H; exact H]. }
          destruct s as [g|c|ctx]; [|apply wp_fail|apply wp_bind, wp_ok_or; intros; apply wp_ret, Hf].
          destruct (stxt g) as [|c [|c' t]]; [apply wp_ret, Hf|apply wp_bind, wp_ok_or; intros; apply wp_ret, Hf|apply wp_fail]. }
        destruct b as [g|c|ctx]; [|apply wp_fail|apply wp_fail]. destruct (is_nil (stxt g)); [apply wp_ret, Hrest|].
        apply wp_bind, wp_local. intros d t _. cbn [fst snd]. destruct (is_nil t); [apply wp_ret, Hrest|apply wp_fail].
      - apply wp_bind, wp_push_ev, wp_bind, wp_buf_len, wp_bind, w_argc; [exact Hc|]. intros a sl H1 _ Ha.
        eapply w_over; [reflexivity|eapply lookup_overset; exact EL|exact H1|exact Ha|reflexivity|reflexivity].
      - pose proof (O_build cs Hin EL) as Hl. apply wp_bind, wp_get, wp_bind.
        apply w_lexc; [apply content_with_suffix_suffix, over_ne|exact Hc|]. intros oc sl H1 Eo.
        assert (Hs : sl_sub (mid_slice (i_content st) oc 5 (stxt sl)) (i_content st)).
        { apply content_with_suffix_iff in Eo; [|exact over_ne]. apply delimited_text in Eo.
          eapply (sl_sub_mid _ _ _ _ [] (lit "\over")); [exact Eo|reflexivity]. }
        apply wp_bind, wp_get, wp_bind, wp_push_ev, wp_bind, wp_buf_len, wp_bind, wp_lift. intros a Ea.
        eapply (w_over STSup); [reflexivity|reflexivity|exact H1| |reflexivity|reflexivity].
        pose proof (arg_slice_spec (mid_slice (i_content st) oc 5 (stxt sl))) as Hsp. rd.
        destruct (arg_slice _) as [res sl2]. cbn [fst] in Ea. subst res. destruct Hsp as [_ Hsp].
        apply (sarg_spec_ok G HG) in Hsp; [|eapply HG; eassumption].
        destruct a as [g|c|ctx]; cbn in Hsp |- *; [exact I|split; [exact Hsp|left; exact Hl]|].
        split; [apply Hsp|]. destruct Hsp as (_ & x & r & E & _). exists x, r. auto.
      - apply wp_bind, w_bracec; [exact Hc|]. intros g sl H1. apply wp_push. fin.
        apply (L_env (GSubArray CACenter) 0 None [] g). reflexivity.
      - apply wp_bind, w_argc; [exact Hc|]. intros a sl H1 _ _. apply wp_bind, w_argc; [exact H1|]. intros a2 sl2 H2 _ _.
        apply wp_bind, w_argc; [exact H2|]. intros a3 sl3 H3 _ Ha. apply w_handle_arg; [exact H3|exact Ha|].
        intros st' l H4 H5 H6 H7. fin. exact H6.
      - destruct Hcs as [_ Hcs]. apply wp_bind, w_optc; [exact Hc|]. intros [idx|] sl H1 Eo.
        + apply wp_bind, wp_push_ev, wp_bind, w_argc; [exact H1|]. intros a sl2 H2 _ Ha.
          apply wp_bind, w_handle_arg; [exact H2|exact Ha|]. intros st' l H3 H4 H5 H6. apply wp_push. fin.
          eapply (O_root cs); [|exact H5]. destruct Hcs as [Hcs|Hcs]; [left; exact Hcs|right].
          split; [exact Hcs|]. split; [exact EL|exact Eo].
        + apply wp_bind, wp_push_ev, wp_bind, w_argc; [exact H1|]. intros a sl2 H2 _ Ha.
          apply w_handle_arg; [exact H2|exact Ha|]. intros st' l H3 H4 H5 H6. fin.
          apply L_vis1; [reflexivity|exact H5].
      - apply wp_push. fin. apply L_vis1; [reflexivity|leaf].
      - apply w_text_argument. exact Hc.
      - apply wp_bind, wp_push_ev, wp_bind, w_argc; [exact Hc|]. intros a sl2 H2 _ Ha.
        apply w_handle_arg; [exact H2|exact Ha|]. intros st' l H3 H4 H5 H6. fin.
        apply L_vis1; [reflexivity|exact H5].
      - apply wp_bind, w_lexc; [auto with lexsuf|exact Hc|]. intros n sl H1 _.
        destruct (255 <? n); [apply wp_fail|]. apply wp_push_ev. fin. leaf.
      - apply wp_bind, wp_get. destruct (i_handling st); [apply wp_fail|]. apply wp_ret.
        eapply simple_nil; [exact Hin|rewrite EL; reflexivity|exact Hc|reflexivity|reflexivity].
      - apply wp_bind, w_groupc; [exact Hc|]. intros g sl H1. apply wp_push. fin. apply U_group_instrs.
      - apply w_begin_env. exact Hc.
      - eapply wp_conseq; [eapply w_newline; eassumption|]. intros ? ? H. rewrite EL in H. exact H.
      - apply wp_bind, w_lexc; [auto with lexsuf|exact Hc|]. intros d sl H1 _. apply wp_bind, wp_modify.
        apply wp_bind, wp_lift. intros m _. apply wp_modify.
        eapply simple_nil; [exact Hin|rewrite EL; reflexivity|exact H1|reflexivity|reflexivity].
      - apply wp_bind, w_lexc; [auto with lexsuf|exact Hc|]. intros d sl H1 _. apply wp_bind, wp_modify, wp_modify.
        eapply simple_nil; [exact Hin|rewrite EL; reflexivity|exact H1|reflexivity|reflexivity].
      - apply wp_bind, wp_get, wp_bind, w_lexc; [auto with lexsuf|exact Hc|]. intros [[nm t] b] sl H1 E.
        apply wp_bind, wp_modify, wp_bind, wp_modify, wp_modify. cbn [fst snd].
        eapply simple_nil; [exact Hin|rewrite EL; reflexivity| |reflexivity|reflexivity].
        rd. eapply HG; [apply sl_sub_suffix; eapply futurelet_before; exact E|exact Hc].
      - eapply w_new_command; [exact Hc|exact Hin|rewrite EL; reflexivity].
      - apply wp_fail.
    Qed.
  End Prims.

  Lemma w_hprim : forall f cs st, G (i_content st) -> cs_at cs st ->
    wp (hprim f cs) st (fun _ => post (lookup_prim cs = PNewline) st).
  Proof.
    induction f as [|f IH]; intros cs st Hc Hcs; [exact I|]. cbn [hprim].
    apply w_hprim_body; assumption.
  Qed.

  (** ** Scripts *)

  (** A mark or a line break followed by a script. *)
  Hypothesis O_script : forall sl c w x r,
    loose \/ G sl /\ after_flow (stxt sl) c /\ c = (w ++ x :: r)%list /\ forallb is_ws w = true /\ (x = 94 \/ x = 95) ->
    forall al e al', flow_step al e al' -> U [IEv e] /\ AE al al'.

  (** What [parse_scripts] returns when the buffer is [b] before it. *)
  Inductive scripts_res (b : list instr) : option script -> list instr -> Prop :=
  | sr_none : scripts_res b None b
  | sr_sub : forall p l1, U l1 ->
      scripts_res b (Some (EvScript STSub p, length b, length (b ++ l1))) (b ++ l1)
  | sr_sup : forall p l1, U l1 ->
      scripts_res b (Some (EvScript STSup p, length (b ++ l1), length b)) (b ++ l1)
  | sr_sub_sup : forall p l1 l2, U l1 -> U l2 ->
      scripts_res b (Some (EvScript STSubSup p, length b, length (b ++ l1))) (b ++ l1 ++ l2)
  | sr_sup_sub : forall p l1 l2, U l1 -> U l2 ->
      scripts_res b (Some (EvScript STSubSup p, length (b ++ l1), length b)) (b ++ l1 ++ l2).

  Lemma w_handle_prim : forall cs st, G (i_content st) -> cs_at cs st ->
    wp (handle_prim cs) st (fun _ => post (lookup_prim cs = PNewline) st).
  Proof. intros cs st Hc Hcs. unfold wp, handle_prim. apply w_hprim; assumption. Qed.

  Lemma wp_peek : forall st (R : option char -> ist -> Prop),
    R (match stxt (i_content st) with c :: _ => Some c | [] => None end) st -> wp peek st R.
  Proof. intros st R H. exact H. Qed.

  Lemma is_char_some : forall c s, is_char c (match s with x :: _ => Some x | [] => None end) = true ->
    exists r, s = c :: r.
  Proof. intros c [|x s] H; [discriminate|]. cbn in H. apply N.eqb_eq in H as ->. eauto. Qed.

  Definition starts_script (c : str) : Prop :=
    exists w x r, c = (w ++ x :: r)%list /\ forallb is_ws w = true /\ (x = 94 \/ x = 95).

  Definition end_scripts (sf : bool) (first second : nat) : P (option script) :=
    do end_ <- buf_len ;
    do st <- get ;
    if Nat.eqb second end_ then
      if sf then ret (Some (EvScript STSub (i_pos st), first, second))
      else ret (Some (EvScript STSup (i_pos st), second, first))
    else
      if sf then ret (Some (EvScript STSubSup (i_pos st), first, second))
      else ret (Some (EvScript STSubSup (i_pos st), second, first)).

  Definition second_script (sf : bool) (nc : option char) : P unit :=
    if (is_char 95 nc && negb sf) || (is_char 94 nc && sf) then
      drop1 ;;
      do a <- argc ;
      handle_arg handle_prim a ;;
      do nc <- peek ;
      if is_char 95 nc then fail EDoubleSubscript
      else if is_char 94 nc then fail EDoubleSuperscript
      else ret tt
    else if is_char 95 nc || is_char 94 nc then
      fail (if sf then EDoubleSubscript else EDoubleSuperscript)
    else ret tt.

  Definition read_scripts (sf : bool) : P (option script) :=
    drop1 ;;
    do first <- buf_len ;
    do a <- argc ;
    handle_arg handle_prim a ;;
    do second <- buf_len ;
    do nc <- peek ;
    second_script sf nc ;;
    end_scripts sf first second.

  Definition maybe_scripts : P (option script) :=
    modify (fun st => set_content (suffix_slice (i_content st) (trim_start (stxt (i_content st)))) st) ;;
    do c <- peek ;
    if is_char 94 c || is_char 95 c then read_scripts (is_char 95 c) else ret None.

  Definition read_limits : P unit :=
    do l <- lexc limit_modifiers ;
    match l with
    | Some true => modify (set_pos SPAboveBelow)
    | Some false => modify (set_pos SPRight)
    | None => ret tt
    end.

  Lemma parse_scripts_eq : parse_scripts =
    (do st0 <- get ; if i_skip st0 then ret None
     else (if i_allow st0 then read_limits else ret tt) ;; maybe_scripts).
  Proof. reflexivity. Qed.

  Lemma w_drop1 : forall st (R : unit -> ist -> Prop), G (i_content st) ->
    (forall sl, G sl -> R tt (set_content sl st)) -> wp drop1 st R.
  Proof.
    intros st R Hc H. apply wp_modify, H. eapply HG; [apply sl_sub_suffix|exact Hc].
    destruct (stxt (i_content st)); [apply suffix_nil|apply suffix_cons, suffix_refl].
  Qed.

  Definition script_post (st : ist) (o : option script) (st' : ist) : Prop :=
    G (i_content st') /\ AE (i_align st) (i_align st') /\ scripts_res (i_buf st) o (i_buf st') /\
    (o = None -> i_align st' = i_align st).

  Lemma w_second_script : forall sf nc st (R : unit -> ist -> Prop), G (i_content st) ->
    (forall st' l, G (i_content st') -> i_buf st' = (i_buf st ++ l)%list -> U l \/ l = [] ->
       AE (i_align st) (i_align st') -> R tt st') ->
    wp (second_script sf nc) st R.
  Proof.
    intros sf nc st R Hc H. unfold second_script. destruct (_ && _ || _).
    - apply wp_bind, w_drop1; [exact Hc|]. intros sl H1. apply wp_bind, w_argc; [exact H1|]. intros a sl2 H2 _ Ha.
      apply wp_bind, (w_handle_arg _ w_handle_prim); [exact H2|exact Ha|]. intros st' l H3 H4 H5 H6.
      apply wp_bind, wp_peek. destruct (is_char 95 _); [apply wp_fail|]. destruct (is_char 94 _); [apply wp_fail|].
      apply wp_ret. eapply H; [exact H3|exact H4|left; exact H5|exact H6].
    - destruct (_ || _); [apply wp_fail|]. apply wp_ret. apply (H st []); [exact Hc|rewrite app_nil_r; reflexivity|auto|apply AE_refl].
  Qed.

  Lemma w_read_scripts : forall sf st, G (i_content st) ->
    wp (read_scripts sf) st (fun o st' => script_post st o st' /\ o <> None).
  Proof.
    intros sf st Hc. unfold read_scripts. apply wp_bind, w_drop1; [exact Hc|]. intros sl H1.
    apply wp_bind, wp_buf_len, wp_bind, w_argc; [exact H1|]. intros a sl2 H2 _ Ha.
    apply wp_bind, (w_handle_arg _ w_handle_prim); [exact H2|exact Ha|]. intros st1 l1 H3 H4 H5 H6. rd.
    apply wp_bind, wp_buf_len, wp_bind, wp_peek, wp_bind, w_second_script; [exact H3|].
    intros st2 l2 H7 H8 H9 H10. unfold end_scripts. apply wp_bind, wp_buf_len, wp_bind, wp_get.
    rewrite H8, H4.
    assert (H11 : AE (i_align st) (i_align st2)) by (eapply AE_trans; eassumption).
    rewrite H4, <- app_assoc in H8.
    destruct (Nat.eqb _ _) eqn:En.
    - apply Nat.eqb_eq in En. rewrite !app_length in En. destruct l2; [|cbn in En; lia]. rewrite app_nil_r in *.
      destruct sf; apply wp_ret; (split; [|discriminate]; split; [exact H7|]; split; [exact H11|]; split; [|discriminate]);
        rewrite H8; constructor; assumption.
    - destruct H9 as [H9| ->]; [|rewrite app_nil_r, Nat.eqb_refl in En; discriminate].
      destruct sf; apply wp_ret; (split; [|discriminate]; split; [exact H7|]; split; [exact H11|]; split; [|discriminate]);
        rewrite H8; constructor; assumption.
  Qed.

  Lemma w_parse_scripts : forall st, G (i_content st) ->
    wp parse_scripts st (fun o st' => script_post st o st' /\
      (o <> None -> i_allow st = false -> starts_script (stxt (i_content st)))).
  Proof.
    intros st Hc. rewrite parse_scripts_eq. apply wp_bind, wp_get.
    assert (Hn : forall st', G (i_content st') -> i_buf st' = i_buf st -> i_align st' = i_align st -> script_post st None st').
    { intros st' H1 H2 H3. split; [exact H1|]. rewrite H2, H3. split; [apply AE_refl|]. split; [constructor|auto]. }
    destruct (i_skip st); [apply wp_ret; split; [apply Hn; auto|congruence]|]. apply wp_bind.
    assert (Hrest : forall st1, G (i_content st1) -> i_buf st1 = i_buf st -> i_align st1 = i_align st ->
      (i_allow st = false -> i_content st1 = i_content st) ->
      wp maybe_scripts st1 (fun o st' => script_post st o st' /\
        (o <> None -> i_allow st = false -> starts_script (stxt (i_content st))))).
    { intros st1 H1 H2 H3 H4. unfold maybe_scripts. apply wp_bind, wp_modify, wp_bind, wp_peek. rd. cbn [stxt suffix_slice].
      assert (Ht : G (suffix_slice (i_content st1) (trim_start (stxt (i_content st1))))).
      { eapply HG; [apply sl_sub_suffix, suffix_trim|exact H1]. }
      destruct (_ || _) eqn:Eor.
      - eapply wp_conseq; [apply w_read_scripts; exact Ht|]. rd. intros o st' [(P1 & P2 & P3 & P4) P5]. rd.
        split; [split; [exact P1|]; split; [rewrite <- H3; exact P2|]; split; [rewrite <- H2; exact P3|rewrite <- H3; exact P4]|].
        intros _ E. rewrite <- (H4 E). destruct (trim_start_suffix (stxt (i_content st1))) as (w & Hw & Ew).
        apply orb_prop in Eor as [E'|E']; apply is_char_some in E' as (r & E'); rewrite E' in Hw; exists w; eexists; exists r; split;
          [exact Hw|split; [exact Ew|auto]|exact Hw|split; [exact Ew|auto]].
      - apply wp_ret. split; [apply Hn; assumption|congruence]. }
    destruct (i_allow st).
    - unfold read_limits. apply wp_bind, w_lexc; [auto with lexsuf|exact Hc|]. intros [[]|] sl H1 _;
        [apply wp_modify|apply wp_modify|apply wp_ret]; (apply Hrest; [exact H1|reflexivity|reflexivity|discriminate]).
    - apply wp_ret, Hrest; auto.
  Qed.

  (** The order in which the scripts are moved to the stack. *)
  Lemma scripts_order : forall b e sub sup buf, U b -> scripts_res b (Some (e, sub, sup)) buf ->
    exists l, order_scripts sub sup buf = Ok l /\ U (IEv e :: firstn (Nat.min sub sup) buf ++ l).
  Proof.
    intros b e sub sup buf Hb H. inversion H as [|p l1 H1|p l1 H1|p l1 l2 H1 H2|p l1 l2 H1 H2]; subst.
    - rewrite order_sub_first by (rewrite app_length; lia). eexists. split; [reflexivity|].
      rewrite Nat.min_l by (rewrite app_length; lia). rewrite firstn_skipn. apply L_scr2; auto.
    - destruct l1 as [|x l1].
      + rewrite app_nil_r in *. rewrite order_sub_first by lia. eexists. split; [reflexivity|].
        rewrite Nat.min_id, firstn_skipn. rewrite <- (app_nil_r b). apply L_scr2; auto.
      + rewrite order_sup_first by (rewrite ?app_length; cbn; lia). eexists. split; [reflexivity|].
        rewrite Nat.min_r by (rewrite app_length; lia).
        rewrite skipn_all, firstn_app_l, skipn_app_l. cbn [app].
        rewrite firstn_all2 by (rewrite app_length; cbn; lia). apply L_scr2; auto.
    - rewrite order_sub_first by (rewrite app_length; lia). eexists. split; [reflexivity|].
      rewrite Nat.min_l by (rewrite app_length; lia). rewrite firstn_skipn. apply L_scr3; auto.
    - destruct l1 as [|x l1].
      + rewrite app_nil_r in *. cbn [app] in *. rewrite order_sub_first by lia. eexists. split; [reflexivity|].
        rewrite Nat.min_id, firstn_skipn. apply (L_scr3 p b [] l2); auto.
      + rewrite order_sup_first by (rewrite ?app_length; cbn; lia). eexists. split; [reflexivity|].
        rewrite Nat.min_r by (rewrite app_length; lia).
        replace (skipn (length (b ++ x :: l1)) (b ++ (x :: l1) ++ l2))%list with l2
          by (rewrite app_assoc, skipn_app_l; reflexivity).
        rewrite firstn_app_l, skipn_app_l.
        replace (length (b ++ x :: l1) - length b)%nat with (length (x :: l1)) by (rewrite app_length; lia).
        rewrite firstn_app_l. apply L_scr3; auto.
  Qed.

  (** ** One call of [parse] *)

  Variable J : macro_ctx -> Prop.
  Hypothesis HX : forall m cs d r txt k n, J m -> ctx_get m cs = Some d ->
    expand_definition d r = Ok (txt, k) -> G (mkSlice n 0 txt).

  (** What one call of [parse] gives for a row [al]. *)
  Inductive piece (al : option (N * N)) (c' : slice) (al' : option (N * N)) : list instr -> Prop :=
  | piece_element : forall l, U l -> AE al al' -> piece al c' al' l
  | piece_flow : forall e, flow_step al e al' -> piece al c' al' [IEv e]
  | piece_end : stxt c' = [] -> al' = al -> piece al c' al' [].

  Definition parse_post (al : option (N * N)) (r : res (option script)) (st' : ist) : Prop :=
    match r with
    | Ok None => piece al (i_content st') (i_align st') (i_buf st')
    | Ok (Some (e, sub, sup)) => exists l, order_scripts sub sup (i_buf st') = Ok l /\
        piece al (i_content st') (i_align st') (IEv e :: firstn (Nat.min sub sup) (i_buf st') ++ l)
    | _ => True
    end.

  Lemma w_parse_atom : forall (F : Prop) (m : P unit) st, i_buf st = [] -> i_allow st = false ->
    wp m st (fun _ => post F st) ->
    wp (parse_atom m) st (fun o st' => parse_post (i_align st) (Ok o) st').
  Proof.
    intros F m st Hb Ha Hm. unfold parse_atom. apply wp_bind. eapply wp_conseq; [exact Hm|].
    intros [] st1 (H1 & l & H2 & H3). rewrite Hb in H2. cbn [app] in H2.
    eapply wp_conseq; [apply w_parse_scripts; exact H1|]. intros o st2 [(H4 & H5 & H6 & H7) H8].
    rewrite H2 in H6. destruct o as [[[e sub] sup]|]; cbn [parse_post].
    - assert (Hbase : U l /\ AE (i_align st) (i_align st1)).
      { destruct H3 as [H3|(_ & _ & Hal & (ev & -> & Hf) & Hc)]; [exact H3|].
        destruct (H8 ltac:(discriminate) ltac:(congruence)) as (w & x & r & E & Hw & Hx).
        destruct Hc as [Hc|(sl & Hs & Haf)].
        - eapply (O_script (i_content st1) [] [] 0 []); [left; exact Hc|exact Hf].
        - eapply (O_script sl _ w x r); [right; split; [exact Hs|]; split; [exact Haf|]; auto|exact Hf]. }
      destruct Hbase as [Hu Hae]. destruct (scripts_order _ _ _ _ _ Hu H6) as (l' & Eo & Hl').
      exists l'. split; [exact Eo|]. apply piece_element; [exact Hl'|eapply AE_trans; eassumption].
    - specialize (H7 eq_refl). inversion H6; subst. rewrite H7.
      destruct H3 as [[H3 H9]|(_ & _ & _ & (ev & E & Hf) & _)].
      + apply piece_element; congruence.
      + rewrite <- H0, E. apply piece_flow. congruence.
  Qed.

  Lemma shape_parse : forall f q, i_buf (q_ist q) = [] -> i_allow (q_ist q) = false ->
    G (i_content (q_ist q)) -> J (i_macros (q_ist q)) ->
    parse_post (i_align (q_ist q)) (fst (parse f q)) (q_ist (snd (parse f q))).
  Proof.
    induction f as [|f IH]; intros q Hb Ha Hc Hj; [exact I|]. cbn [parse].
    destruct (lex_token (stxt (i_content (q_ist q)))) as [[[cs|ctx]|e|p|] r] eqn:El; cbn [fst snd parse_post]; try exact I.
    - destruct (lex_token_cs _ _ _ El) as (b & w & _ & Hw & Hcs & E).
      destruct (ctx_get (i_macros (q_ist q)) cs) as [d|] eqn:Em.
      + destruct (expand_definition d r) as [[txt k]|e|p|] eqn:Ee; cbn [fst snd parse_post]; try exact I.
        destruct (_ || _); cbn [fst snd parse_post]; [exact I|].
        destruct (add_span _ _ _ _) as [[[]|e|p|] sp]; cbn [fst snd parse_post]; try exact I.
        match goal with |- parse_post _ (fst (parse f ?q1)) _ => apply (IH q1) end; [exact Hb|exact Ha| |exact Hj].
        cbn [q_ist i_content set_content]. eapply HX; eassumption.
      + unfold run_inner. cbn [q_ist set_ist].
        set (st1 := set_content (suffix_slice (i_content (q_ist q)) r) (q_ist q)).
        assert (Hp : wp (handle_prim cs) st1 (fun _ => post (lookup_prim cs = PNewline) st1)).
        { apply w_handle_prim.
          - eapply HG; [apply sl_sub_suffix|exact Hc]. rewrite E. exists (b ++ 92 :: cs ++ w)%list.
            rewrite <- app_assoc. cbn [app]. rewrite <- app_assoc. reflexivity.
          - assert (Hs : seen cs (stxt (i_content st1))).
            { exists (suffix_slice (i_content (q_ist q)) (92 :: cs ++ w ++ r)), w. split; [|auto].
              eapply HG; [apply sl_sub_suffix|exact Hc]. rewrite E. apply suffix_app. }
            split; [eapply seen_in; eassumption|right; exact Hs]. }
        pose proof (w_parse_atom _ _ st1 Hb Ha Hp) as Hw'. unfold wp in Hw'.
        destruct (parse_atom (handle_prim cs) st1) as [[o|?|?|] st']; cbn [fst snd q_ist set_ist]; [exact Hw'|exact I..].
    - destruct (lex_token_chr _ _ _ El) as (b & c & _ & -> & E & _).
      unfold run_inner. cbn [q_ist set_ist].
      set (st1 := set_content (suffix_slice (i_content (q_ist q)) r) (q_ist q)).
      assert (Hp : wp (handle_char (suffix_slice (i_content (q_ist q)) (c :: r))) st1 (fun _ => post (c = 38) st1)).
      { apply (w_handle_char _ _ c r).
        - eapply HG; [apply sl_sub_suffix|exact Hc]. rewrite E. exists (b ++ [c])%list. rewrite <- app_assoc. reflexivity.
        - eapply HG; [apply sl_sub_suffix|exact Hc]. rewrite E. apply suffix_app.
        - reflexivity.
        - right. reflexivity. }
      pose proof (w_parse_atom _ _ st1 Hb Ha Hp) as Hw'. unfold wp in Hw'.
      destruct (parse_atom _ st1) as [[o|?|?|] st']; cbn [fst snd q_ist set_ist]; [exact Hw'|exact I..].
    - assert (Hr : e = EToken -> r = []).
      { intros ->. unfold lex_token in El. destruct (skip_blank false _) as [|c s]; [congruence|].
        destruct (c =? 92); [|discriminate]. destruct s as [|x s]; [discriminate|]. cbn [rhs_control_sequence] in El.
        destruct (is_alpha x); [destruct (span_while is_alpha (x :: s))|]; discriminate. }
      destruct e; cbn [fst snd parse_post q_ist set_ist]; try exact I.
      rd. rewrite Hb. apply piece_end; [apply Hr; reflexivity|reflexivity].
  Qed.

  (** ** One step of the iterator, before the first error *)

  Lemma shape_step : forall p, p_buf p = [] -> Forall (instr_ok G) (p_stack p) -> J (p_macros p) ->
    match next_step p with
    | (OItem (ItEvent e), p') => p_stack p = IEv e :: p_stack p' /\ p_buf p' = []
    | (OItem (ItError _), _) => exists c al s, p_stack p = ISub c al :: s
    | (OCont, p') => p_buf p' = [] /\ exists c al s, p_stack p = ISub c al :: s /\
        (p_stack p' = s \/ exists l c' al', p_stack p' = (l ++ ISub c' al' :: s)%list /\ piece al c' al' l)
    | (ODone, p') => p_stack p = [] /\ p' = p
    | (OPanic x, _) => exists c al s, p_stack p = ISub c al :: s
    | (OFuel, _) => True
    end.
  Proof.
    intros p Hb Hs Hj. unfold next_step. destruct (p_stack p) as [|[e|c al] s] eqn:Es; [auto|auto|].
    inversion Hs as [|? ? Hc Hs']; subst. cbn in Hc.
    destruct (is_nil _); [cbn; split; [exact Hb|]; exists c, al, s; auto|].
    pose proof (shape_parse parse_fuel (of_parser p c al) Hb eq_refl Hc Hj) as Hp.
    change (i_align (q_ist (of_parser p c al))) with al in Hp.
    destruct (parse parse_fuel (of_parser p c al)) as [r q]. cbn [fst snd] in *.
    destruct r as [[[[e sub] sup]|]|e|x|]; cbn [parse_post] in Hp.
    - destruct Hp as (l & Eo & Hp). rewrite Eo. cbn [to_parser p_buf p_stack]. split; [reflexivity|].
      exists c, al, s. split; [reflexivity|right]. exists (IEv e :: firstn (Nat.min sub sup) (i_buf (q_ist q)) ++ l)%list.
      eexists. eexists. split; [|exact Hp]. cbn [app]. rewrite <- app_assoc. reflexivity.
    - cbn [to_parser p_buf p_stack]. split; [reflexivity|].
      exists c, al, s. split; [reflexivity|right]. eexists. eexists. eexists. split; [reflexivity|exact Hp].
    - destruct (new_error e (i_content (q_ist q)) (q_spans q)) as [[pe|e'|x|] sp]; eauto.
    - eauto.
    - exact I.
  Qed.
End Shape.
