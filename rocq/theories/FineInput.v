(** * FineInput: the values in the events, from conditions on the input. *)

From Coq Require Import List NArith ZArith Bool Lia Arith.
From Verif Require Import Base Float32 Event Tables Prim PrimTable Lex Macros Primitives Spans Parser Mathml
  SpecLex LexFacts LexMore PrimFacts Keep KeepRun Order Api SpecEvent SpecStream SpecInput SpecClean SpecXml ShapeStrict Terminate NoPanic EvFine FineRun
  RenderPanic RenderProps RenderTree RenderDoc RenderMore Whole.
Import ListNotations.
Open Scope N_scope.

(** ** Valid text *)

Definition sound_defs (m : macro_ctx) : Prop := Forall (fun nd => defn_ok (snd nd) /\ defn_valid (snd nd)) m.

Lemma valid_run : forall input n, valid_str input ->
  Forall (item_fine false None) (items_of (run n (new_parser input))).
Proof.
  intros input n H.
  pose proof (fine_run false None (fun s => valid_str (stxt s)) valid_sub (fun s Hs => Hs) (fun E => False_ind _ (E eq_refl))
    (fun _ _ _ E => False_ind _ (E eq_refl)) (fun _ _ => eq_refl) (fun E => False_ind _ (diff_false_true E)) sound_defs) as R.
  assert (HJ : forall (cs name : str) d m, cs_in (fun s => valid_str (stxt s)) cs -> is_def_prim (lookup_prim cs) = true -> defn_ok d ->
    defn_valid d -> sound_defs m -> sound_defs (ctx_insert m name d)).
  { intros cs name d m _ _ H1 H2 Hm. apply Forall_cons; [split; assumption|exact Hm]. }
  specialize (R HJ).
  assert (HX : forall m cs d r txt k n, sound_defs m -> ctx_get m cs = Some d -> valid_str r ->
    expand_definition d r = Ok (txt, k) -> valid_str (stxt (mkSlice n 0 txt))).
  { intros m cs d r txt k n' Hm Hg Hr E. apply assoc_str_in in Hg. unfold sound_defs in Hm. rewrite Forall_forall in Hm.
    destruct (Hm _ Hg) as [H1 H2]. eapply expansion_valid; eassumption. }
  specialize (R HX n (new_parser input)). unfold items_of. destruct (run n (new_parser input)) as [[l o] p].
  apply R. split; [repeat constructor; exact H|]. split; constructor.
Qed.

Lemma fine_items : forall na md l, Forall (item_fine na md) l -> Forall (fine md) (events l).
Proof. intros na md l H. induction H as [|[e|e] l H1 H IH]; [constructor| |exact IH]. constructor; [eapply lfine_fine; exact H1|assumption]. Qed.

Lemma valid_events : forall input l, valid_str input -> yields input l -> Forall (fine None) (events l).
Proof. intros input l H (n & <-). eapply fine_items, valid_run. exact H. Qed.

Lemma parses_yields : forall input l, parses input l -> yields input l.
Proof. intros input l (n & p & E). exists n. rewrite E. reflexivity. Qed.

(** ** Clean text *)

Definition listed (f : prim -> bool) (l : list str) : bool :=
  forallb (fun x => negb (f (snd x)) || existsb (fun c => starts_with c (92 :: fst x)) l) prim_table.

Definition others_not (f : prim -> bool) : bool :=
  forallb (fun x => negb (f (PSimple (EvContent (CDelimiter (fst (snd x)) None (snd (snd x))))))) cs_delims
  && negb (f (PSimple (EvContent (CText (lit "&nbsp;"))))) && negb (f PUnknown).

Lemma listed_spec : forall f l, listed f l = true -> others_not f = true ->
  forall cs s, f (lookup_prim cs) = true -> contains (92 :: cs) s -> exists c, In c l /\ contains c s.
Proof.
  intros f l Ht Ho cs s H Hs. apply andb_prop in Ho as [Ho H3]. apply andb_prop in Ho as [H1 H2].
  apply negb_true_iff in H2, H3. unfold lookup_prim in H.
  destruct (assoc_str cs prim_table) as [p|] eqn:E.
  - apply assoc_str_in in E. apply (proj1 (forallb_forall _ _) Ht) in E. cbn [fst snd] in E. rewrite H in E.
    apply existsb_exists in E as (c & Hc & Hp). exists c. split; [exact Hc|].
    destruct (strip_prefix c (92 :: cs)) as [r|] eqn:Er; [|apply strip_prefix_none in Er; congruence].
    apply strip_prefix_some in Er. destruct Hs as (p' & q & Hs). rewrite Er in Hs. exists p', (r ++ q)%list. rewrite Hs, <- app_assoc. reflexivity.
  - exfalso. unfold control_sequence_delimiter_map in H. destruct (assoc_str cs cs_delims) as [[c ty]|] eqn:Ed.
    + apply assoc_str_in in Ed. apply (proj1 (forallb_forall _ _) H1) in Ed. cbn [fst snd] in Ed. rewrite H in Ed. discriminate.
    + destruct (is_nil (trim_start cs)); congruence.
Qed.

Definition clean_slice (input : str) (s : slice) : Prop := contains (stxt s) input.

Lemma clean_raw : forall cs s, raw_prim (lookup_prim cs) = true -> contains (92 :: cs) s -> exists c, In c raw_commands /\ contains c s.
Proof. apply listed_spec; vm_compute; reflexivity. Qed.

Lemma clean_bad : forall b cs s, bad_prim (Some b) (lookup_prim cs) = true -> contains (92 :: cs) s ->
  exists c, In c (if b then unescaped_commands ++ html_commands else unescaped_commands)%list /\ contains c s.
Proof. intros [|]; apply listed_spec; vm_compute; reflexivity. Qed.

Lemma contains_trans : forall a b c, contains a b -> contains b c -> contains a c.
Proof. intros a b c (p & q & ->) (p' & q' & ->). exists (p' ++ p)%list, (q ++ q')%list. rewrite <- !app_assoc. reflexivity. Qed.

Lemma clean_run : forall b input n, valid_str input -> defines_nothing input -> clean_input b input ->
  Forall (item_fine false (Some b)) (items_of (run n (new_parser input))).
Proof.
  intros b input n Hv Hd (Hlt & Hun & Hraw & Hx).
  assert (Hcs : forall cs, cs_in (clean_slice input) cs -> contains (92 :: cs) input).
  { intros cs (_ & sl & H1 & H2). eapply contains_trans; eassumption. }
  pose proof (fine_run false (Some b) (clean_slice input)) as R.
  assert (H0 : forall x y, sl_sub x y -> clean_slice input y -> clean_slice input x).
  { intros x y H1 H2. eapply contains_trans; [|exact H2]. eapply contains_sub; [exact H1|apply contains_refl]. }
  assert (H0' : forall s, clean_slice input s -> valid_str (stxt s)).
  { intros s (p & q & E). unfold valid_str in *. rewrite E, !Forall_app in Hv. apply Hv. }
  specialize (R H0 H0').
  assert (H1 : Some b <> None -> forall s, clean_slice input s -> ~ In 60 (stxt s)).
  { intros _ s (p & q & E) Hi. apply Hlt. rewrite E. apply in_or_app. right. apply in_or_app. left. exact Hi. }
  specialize (R H1).
  assert (H2 : forall cs, cs_in (clean_slice input) cs -> raw_prim (lookup_prim cs) = true -> Some b <> None ->
    forall s, clean_slice input s -> ~ In 38 (stxt s)).
  { intros cs Hc Hr _ s (p & q & E) Hi. destruct (clean_raw cs input Hr (Hcs cs Hc)) as (c & Hin & Hct).
    refine (Hraw _ c Hin Hct). rewrite E. apply in_or_app. right. apply in_or_app. left. exact Hi. }
  specialize (R H2).
  assert (H3 : forall cs, cs_in (clean_slice input) cs -> bad_prim (Some b) (lookup_prim cs) = false).
  { intros cs Hc. destruct (bad_prim (Some b) (lookup_prim cs)) eqn:E; [|reflexivity]. exfalso.
    destruct (clean_bad b cs input E (Hcs cs Hc)) as (c & Hin & Hct). destruct b.
    - apply in_app_or in Hin as [Hin|Hin]; [exact (Hun c Hin Hct)|exact (Hx eq_refl c Hin Hct)].
    - exact (Hun c Hin Hct). }
  specialize (R H3 (fun E => False_ind _ (diff_false_true E)) (fun m => m = [])).
  assert (H4 : forall cs name d m, cs_in (clean_slice input) cs -> is_def_prim (lookup_prim cs) = true -> defn_ok d -> defn_valid d ->
    m = [] -> ctx_insert m name d = []).
  { intros cs name d m Hc Hdef _ _ _. exfalso. exact (Hd _ (definition_commands_all cs Hdef) (Hcs cs Hc)). }
  specialize (R H4).
  assert (H5 : forall m cs d r txt k n, m = [] -> ctx_get m cs = Some d -> valid_str r ->
    expand_definition d r = Ok (txt, k) -> clean_slice input (mkSlice n 0 txt)) by (intros m cs d r txt k n' -> E; discriminate).
  specialize (R H5 n (new_parser input)). unfold items_of. destruct (run n (new_parser input)) as [[l o] p].
  apply R. split; [|split; [constructor|reflexivity]]. repeat constructor. exists [], []. rewrite app_nil_r. reflexivity.
Qed.

Lemma clean_events : forall b input l, valid_str input -> defines_nothing input -> clean_input b input -> yields input l ->
  Forall (fine (Some b)) (events l).
Proof. intros b input l H1 H2 H3 (n & <-). eapply fine_items, clean_run; assumption. Qed.

(** ** From text to markup *)

Lemma error_free_items : forall l, error_free l -> map to_ritem l = map RIEvent (events l).
Proof.
  intros l H. unfold error_free in H. induction l as [|[e|e] l IH]; [reflexivity| |discriminate]. cbn in *. rewrite IH; auto.
Qed.

Lemma regular_converts : forall cfg input l, valid_str input -> regular input -> parses input l -> error_free l ->
  exists out, converts cfg input out.
Proof.
  intros cfg input l Hv Hr Hp He. destruct (push_total cfg [] (events l)) as (out & E).
  - eapply regular_well_formed; eassumption.
  - eapply valid_events; [exact Hv|apply parses_yields; exact Hp].
  - exists out. exists l. split; [exact Hp|]. rewrite error_free_items; assumption.
Qed.

Lemma clean_converts : forall b cfg input l, valid_str input -> regular input -> clean_input b input -> note_clean (Some b) cfg = true ->
  parses input l -> error_free l -> exists out, converts cfg input out /\ document (mkOpts b false) out.
Proof.
  intros b cfg input l Hv Hr Hc Hn Hp He. destruct (push_document b cfg (events l)) as (out & E & D); try assumption.
  - eapply regular_well_formed; eassumption.
  - eapply clean_events; [exact Hv|apply regular_defines_nothing; exact Hr|exact Hc|apply parses_yields; exact Hp].
  - exists out. split; [|exact D]. exists l. split; [exact Hp|]. rewrite error_free_items; assumption.
Qed.

Lemma clean_converts_strict : forall b cfg input l, valid_str input -> regular input -> clean_input b input -> note_clean (Some b) cfg = true ->
  parses input l -> error_free l -> steady start_frames (events l) = true ->
  exists out, converts cfg input out /\ document (mkOpts b true) out.
Proof.
  intros b cfg input l Hv Hr Hc Hn Hp He Hs. destruct (push_document_strict b cfg (events l)) as (out & E & D); try assumption.
  - eapply regular_well_formed; eassumption.
  - eapply clean_events; [exact Hv|apply regular_defines_nothing; exact Hr|exact Hc|apply parses_yields; exact Hp].
  - exists out. split; [|exact D]. exists l. split; [exact Hp|]. rewrite error_free_items; assumption.
Qed.

(** ** Texts without arrays *)

Lemma plain_run : forall input n, valid_str input -> defines_nothing input -> no_array_names input ->
  Forall (item_fine true None) (items_of (run n (new_parser input))).
Proof.
  intros input n Hv Hd Ha.
  pose proof (fine_run true None (clean_slice input)) as R.
  assert (H0 : forall x y, sl_sub x y -> clean_slice input y -> clean_slice input x).
  { intros x y H1 H2. eapply contains_trans; [|exact H2]. eapply contains_sub; [exact H1|apply contains_refl]. }
  assert (H0' : forall s, clean_slice input s -> valid_str (stxt s)).
  { intros s (p & q & E). unfold valid_str in *. rewrite E, !Forall_app in Hv. apply Hv. }
  specialize (R H0 H0' (fun E => False_ind _ (E eq_refl)) (fun _ _ _ E => False_ind _ (E eq_refl)) (fun _ _ => eq_refl)).
  assert (H1 : true = true -> forall s, clean_slice input s -> no_array_names (stxt s)).
  { intros _ s Hs. destruct Ha as (A1 & A2 & A3). repeat split; intros Hc; [apply A1|apply A2|apply A3]; eapply contains_trans; eassumption. }
  specialize (R H1 (fun m => m = [])).
  assert (H4 : forall cs name d m, cs_in (clean_slice input) cs -> is_def_prim (lookup_prim cs) = true -> defn_ok d -> defn_valid d ->
    m = [] -> ctx_insert m name d = []).
  { intros cs name d m (_ & sl & Hs & Hc) Hdef _ _ _. exfalso. exact (Hd _ (definition_commands_all cs Hdef) (contains_trans _ _ _ Hc Hs)). }
  specialize (R H4).
  assert (H5 : forall m cs d r txt k n, m = [] -> ctx_get m cs = Some d -> valid_str r ->
    expand_definition d r = Ok (txt, k) -> clean_slice input (mkSlice n 0 txt)) by (intros m cs d r txt k n' -> E; discriminate).
  specialize (R H5 n (new_parser input)). unfold items_of. destruct (run n (new_parser input)) as [[l o] p].
  apply R. split; [|split; [constructor|reflexivity]]. repeat constructor. exists [], []. rewrite app_nil_r. reflexivity.
Qed.

Lemma plain_converts : forall cfg input l, valid_str input -> defines_nothing input -> no_array_names input -> parses input l ->
  exists out, converts cfg input out.
Proof.
  intros cfg input l Hv Hd Ha Hp.
  assert (Hf : Forall (item_fine true None) l).
  { destruct Hp as (n & p & E). pose proof (plain_run input n Hv Hd Ha) as R. rewrite E in R. exact R. }
  destruct (push_safe cfg [] (map to_ritem l)) as (out & E).
  - clear Hp. induction Hf as [|[e|e] l H1 H IH]; [constructor| |]; (constructor; [|exact IH]); [|exact I].
    destruct e as [c|g| | | | | | ]; try exact I; [apply H1|]. destruct g; try exact I; destruct H1; discriminate.
  - exists out. exists l. split; assumption.
Qed.
