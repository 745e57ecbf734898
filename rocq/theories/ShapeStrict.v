(** * ShapeStrict: on regular inputs the event stream keeps the documented
    grammar. *)

From Coq Require Import Ascii String List NArith ZArith Bool Lia Arith.
From Verif Require Import Base Float32 Event Tables Prim PrimTable Lex Macros Primitives Spans Parser
  SpecLex SpecEvent SpecInput LexFacts LexMore PrimFacts Keep Measure Order Terminate KeepRun Api Shape ShapeRun.
Import ListNotations.
Open Scope N_scope.

(** ** The commands *)

Lemma table_names : forall (f : prim -> bool) (names : list str),
  forallb (fun x => negb (f (snd x)) || existsb (str_eqb (92 :: fst x)) names) prim_table = true ->
  f PUnknown = false -> (forall e, f (PSimple e) = false) ->
  forall cs, f (lookup_prim cs) = true -> In (92 :: cs) names.
Proof.
  intros f names Ht Hu Hs cs H. unfold lookup_prim in H. destruct (assoc_str cs prim_table) as [p|] eqn:E.
  - apply assoc_str_in in E. pose proof (proj1 (forallb_forall _ _) Ht _ E) as H1. cbn [fst snd] in H1.
    rewrite H in H1. unfold negb, orb in H1. apply existsb_exists in H1 as (x & H1 & H2). apply str_eqb_eq in H2.
    subst. exact H1.
  - destruct (control_sequence_delimiter_map cs) as [[? ?]|]; [rewrite Hs in H; discriminate|].
    destruct (is_nil (trim_start cs)); [rewrite Hs in H|rewrite Hu in H]; discriminate.
Qed.

Definition is_irregular (p : prim) : bool :=
  is_silent p || match p with PPmod | PBuildrel => true | _ => false end.
Definition is_font (p : prim) : bool := match p with PFontGroup _ => true | _ => false end.
Definition is_newline (p : prim) : bool := match p with PNewline => true | _ => false end.
Definition is_sqrt (p : prim) : bool := match p with PSqrt => true | _ => false end.

Lemma irregular_all : forall cs, is_irregular (lookup_prim cs) = true -> In (92 :: cs) irregular_commands.
Proof. apply table_names; [vm_compute|..]; reflexivity. Qed.
Lemma font_all : forall cs, is_font (lookup_prim cs) = true -> In (92 :: cs) font_commands.
Proof. apply table_names; [vm_compute|..]; reflexivity. Qed.
Lemma newline_all : forall cs, is_newline (lookup_prim cs) = true -> In (92 :: cs) line_breaks.
Proof. apply table_names; [vm_compute|..]; reflexivity. Qed.
Lemma sqrt_all : forall cs, is_sqrt (lookup_prim cs) = true -> In (92 :: cs) [lit "\sqrt"].
Proof. apply table_names; [vm_compute|..]; reflexivity. Qed.

Lemma spaces_forallb : forall w, forallb is_ws w = true <-> spaces w.
Proof. intros w. unfold spaces. rewrite forallb_forall, Forall_forall. reflexivity. Qed.

(** ** Regular slices *)

Definition rslice (s : slice) : Prop := regular (stxt s).

Lemma rslice_sub : forall a b, sl_sub a b -> rslice b -> rslice a.
Proof. intros a b Hs Hb t Ht. apply Hb. eapply contains_sub; eassumption. Qed.

Lemma contains_refl : forall s, contains s s.
Proof. intros s. exists [], []. rewrite app_nil_r. reflexivity. Qed.

Lemma rslice_not : forall s t, rslice s -> stxt s = t -> ~ irregular t.
Proof. intros s t Hs <-. apply Hs, contains_refl. Qed.

Lemma regular_command : forall cs, cs_in rslice cs -> is_irregular (lookup_prim cs) = false.
Proof.
  intros cs (_ & sl & Hsl & (p & q & E)). destruct (is_irregular (lookup_prim cs)) eqn:Ei; [|reflexivity].
  apply irregular_all in Ei. exfalso. apply (Hsl ((92 :: cs) ++ q)%list).
  - exists p, []. rewrite app_nil_r. exact E.
  - apply irr_command. exact Ei.
Qed.

Lemma regular_defines_nothing : forall s, regular s -> defines_nothing s.
Proof.
  intros s Hs c Hc Hin. apply (Hs c Hin). rewrite <- (app_nil_r c). apply irr_command.
  cbn in Hc. cbn. tauto.
Qed.

Lemma rslice_closed : def_closed rslice (fun m => m = []).
Proof.
  intros cs name d m Hcs Hd _ _ _. exfalso. apply regular_command in Hcs. unfold is_irregular in Hcs.
  apply orb_false_iff in Hcs as [Hcs _]. destruct (lookup_prim cs); discriminate.
Qed.

Lemma regular_root : forall cs c i r, seen rslice cs c -> lookup_prim cs = PSqrt ->
  optional_argument c = (Ok (Some i), r) -> one_symbol i \/ ~ one_symbol i -> one_symbol i.
Proof.
  intros cs c i r (sl & w & Hsl & Hw & E) El Eo [H|H]; [exact H|]. exfalso.
  apply optional_argument_some in Eo as (w2 & Hw2 & -> & Hb).
  assert (Hc : In (92 :: cs) [lit "\sqrt"]) by (apply sqrt_all; rewrite El; reflexivity).
  destruct Hc as [Hc|[]]. eapply rslice_not; [exact Hsl|exact E|].
  change (92 :: cs ++ w ++ w2 ++ 91 :: i ++ 93 :: r)%list with ((92 :: cs) ++ w ++ w2 ++ 91 :: i ++ 93 :: r)%list.
  rewrite <- Hc, (app_assoc w). apply irr_root; [|exact Hb|exact H].
  apply spaces_forallb. rewrite forallb_app, Hw, Hw2. reflexivity.
Qed.

Lemma regular_font : forall cs c f, seen rslice cs c -> lookup_prim cs = PFontGroup f -> flow_first c -> False.
Proof.
  intros cs c f (sl & w & Hsl & Hw & E) El (b & r & Hb & Hc).
  assert (Hm : exists m, In m separators /\ exists r', c = (b ++ m ++ r')%list).
  { destruct Hc as [->|(cs' & El' & ->)].
    - exists (lit "&"). split; [left; reflexivity|]. exists r. reflexivity.
    - exists (92 :: cs'). split; [right; apply newline_all; rewrite El'; reflexivity|]. exists r. reflexivity. }
  destruct Hm as (m & Hm & r' & ->). eapply rslice_not; [exact Hsl|exact E|].
  apply (irr_font (92 :: cs) w b m r'); [apply font_all; rewrite El; reflexivity|apply spaces_forallb; exact Hw|exact Hb|exact Hm].
Qed.

Lemma hlines_rules : forall f s l r, hlines_loop f s = (l, r) -> exists h, rules h /\ s = (h ++ r)%list.
Proof.
  induction f as [|f IH]; intros s l r H; cbn [hlines_loop] in H; [injection H as _ <-; exists []; split; [constructor|reflexivity]|].
  destruct (trim_start_suffix s) as (w & Ew & Hw). apply spaces_forallb in Hw.
  destruct (strip_prefix (lit "\hline") (trim_start s)) as [s1|] eqn:E.
  - destruct (hlines_loop f s1) as [l1 r1] eqn:El. injection H as _ <-. apply IH in El as (h & Hh & ->).
    apply strip_prefix_some in E. rewrite Ew, E. exists (w ++ lit "\hline" ++ h)%list. split.
    + constructor; [exact Hw|left; reflexivity|exact Hh].
    + rewrite <- !app_assoc. reflexivity.
  - destruct (strip_prefix (lit "\hdashline") (trim_start s)) as [s1|] eqn:E2.
    + destruct (hlines_loop f s1) as [l1 r1] eqn:El. injection H as _ <-. apply IH in El as (h & Hh & ->).
      apply strip_prefix_some in E2. rewrite Ew, E2. exists (w ++ lit "\hdashline" ++ h)%list. split.
      * constructor; [exact Hw|right; left; reflexivity|exact Hh].
      * rewrite <- !app_assoc. reflexivity.
    + injection H as _ <-. exists []. split; [constructor|reflexivity].
Qed.

Lemma optional_spacing : forall s o r, optional_argument s = (Ok o, r) ->
  r = [] \/ exists p, spacing p /\ s = (p ++ r)%list.
Proof.
  intros s o r H. destruct o as [g|].
  - right. apply optional_argument_some in H as (w & Hw & -> & Hb). exists (w ++ 91 :: g ++ [93])%list. split.
    + constructor; [apply spaces_forallb; exact Hw|exact Hb].
    + rewrite <- !app_assoc. cbn [app]. rewrite <- !app_assoc. reflexivity.
  - unfold optional_argument in H. destruct (strip_char 91 (trim_start s)) as [s1|] eqn:E.
    + apply strip_char_some in E. destruct (trim_start_suffix s) as (w & Ew & Hw).
      destruct (group_content_cases GKOptional s1) as [(a & r' & Eg)|(r' & Eg & Hr)]; rewrite Eg in H; [discriminate|].
      injection H as <-. destruct Hr as [-> | ->]; [left; reflexivity|right].
      exists (w ++ [91])%list. split; [constructor; apply spaces_forallb; exact Hw|].
      rewrite Ew, E, <- app_assoc. reflexivity.
    + injection H as <-. right. exists []. split; [constructor|reflexivity].
Qed.

Lemma regular_script : forall sl c w x r, rslice sl -> after_flow (stxt sl) c -> c = (w ++ x :: r)%list ->
  forallb is_ws w = true -> x = 94 \/ x = 95 -> False.
Proof.
  intros sl c w x r Hsl Ha -> Hw Hx. apply spaces_forallb in Hw.
  assert (Hx' : In x [94; 95]) by (cbn; intuition).
  destruct Ha as [E|(cs & w0 & q & o & r0 & hl & E & Hw0 & El & Eo & Eh)].
  - eapply rslice_not; [exact Hsl|exact E|]. apply irr_mark_script; assumption.
  - unfold horizontal_lines in Eh. destruct (hlines_loop _ r0) as [ls r1] eqn:Ehl. injection Eh as _ Eh. subst r1.
    apply hlines_rules in Ehl as (h & Hh & E0).
    apply optional_spacing in Eo as [-> |(p & Hp & ->)]; [destruct h; [|discriminate]; destruct w; discriminate|].
    subst r0. eapply rslice_not; [exact Hsl|exact E|].
    apply (irr_line_script (92 :: cs) w0 p h w x r); try assumption.
    + apply newline_all. rewrite El. reflexivity.
    + apply spaces_forallb. exact Hw0.
Qed.

Definition one_symbol_b (i : str) : bool :=
  match i with
  | [] => false
  | [c] => is_alpha c || is_digit c
  | _ => forallb is_digit i
  end.

Lemma one_symbol_iff : forall i, one_symbol_b i = true <-> one_symbol i.
Proof.
  intros i. unfold one_symbol. assert (Hd : forallb is_digit i = true <-> Forall (fun c => is_digit c = true) i).
  { rewrite forallb_forall, Forall_forall. reflexivity. }
  destruct i as [|c [|c' i]].
  - cbn. split; [discriminate|]. intros [(c & H & _)|[H _]]; congruence.
  - cbn [one_symbol_b]. rewrite orb_true_iff. rewrite <- Hd. cbn [forallb]. rewrite andb_true_r. split.
    + intros [H|H]; [left; eauto|right; split; [discriminate|exact H]].
    + intros [(x & E & H)|[_ H]]; [injection E as ->|]; auto.
  - unfold one_symbol_b. rewrite Hd. split; [intros H; right; split; [discriminate|exact H]|].
    intros [(x & E & _)|[_ H]]; [discriminate|exact H].
Qed.

(** ** Instructions that can be accepted *)

(** The frames [F] accept the events that the instructions stand for. Pending
    input belongs to the body of a group, or is empty, or is an element of its
    own. *)
Fixpoint acc (s : list instr) (F : list frame) : Prop :=
  match s with
  | [] => exists b, F = [Body b None]
  | IEv e :: s' => exists F1, feed F e = Some F1 /\ acc s' F1
  | ISub c al :: s' =>
      (stxt c = [] /\ acc s' F) \/
      (one_symbol (stxt c) /\ al = None /\ exists F1, done F = Some F1 /\ acc s' F1) \/
      (exists b F0, F = Body b al :: F0 /\
        forall b' al', (al = None <-> al' = None) -> acc s' (Body b' al' :: F0))
  end.

(** More state changes may be seen as the start of a group. *)
Inductive fle : list frame -> list frame -> Prop :=
| fle_nil : fle [] []
| fle_body : forall b b' r F F', implb b b' = true -> fle F F' -> fle (Body b r :: F) (Body b' r :: F')
| fle_need : forall n F F', fle F F' -> fle (Need n :: F) (Need n :: F').

Lemma fle_refl : forall F, fle F F.
Proof. induction F as [|[b r|n] F IH]; constructor; auto. destruct b; reflexivity. Qed.

Lemma done_mono : forall F F' F1, fle F F' -> done F = Some F1 -> exists F1', done F' = Some F1' /\ fle F1 F1'.
Proof.
  intros F F' F1 H. revert F1. induction H as [|b b' r F F' Hb H IH|n F F' H IH]; intros F1 E; [discriminate| |].
  - injection E as <-. eexists. split; [reflexivity|]. constructor; auto.
  - destruct n as [|[|n]]; [discriminate|apply IH; exact E|]. injection E as <-. eexists. split; [reflexivity|].
    constructor. exact H.
Qed.

Lemma open_mono : forall F F' f F1, fle F F' -> open F f = Some F1 -> exists F1', open F' f = Some F1' /\ fle F1 F1'.
Proof.
  intros F F' f F1 H E. unfold open in *. destruct (done F) as [F2|] eqn:Ed; [|discriminate].
  destruct (done_mono _ _ _ H Ed) as (F2' & Ed' & _). rewrite Ed'. injection E as <-. eexists. split; [reflexivity|].
  destruct f; constructor; auto. destruct start; reflexivity.
Qed.

Lemma feed_mono : forall e F F' F1, fle F F' -> feed F e = Some F1 -> exists F1', feed F' e = Some F1' /\ fle F1 F1'.
Proof.
  intros e F F' F1 H E. destruct e as [c|g| |v|t p|w h d|s|f]; cbn [feed] in *;
    try (eapply done_mono; eassumption); try (eapply open_mono; eassumption).
  - destruct H as [|b b' r F F' Hb H|n F F' H]; try discriminate. eapply done_mono; eassumption.
  - destruct H as [|b b' r F F' Hb H|n F F' H]; try discriminate.
    + injection E as <-. eexists. split; [reflexivity|]. constructor; assumption.
    + eapply done_mono; [|exact E]. constructor. exact H.
  - destruct H as [|b b' r F F' Hb H|n F F' H]; try discriminate. destruct r as [[c m]|]; [|discriminate].
    destruct f as [|sp hl|hl].
    + destruct (c <? m); [|discriminate]. injection E as <-. eexists. split; [reflexivity|]. constructor; auto.
    + injection E as <-. eexists. split; [reflexivity|]. constructor; auto.
    + destruct b; [|discriminate]. cbn in Hb. subst b'. injection E as <-. eexists. split; [reflexivity|]. constructor; auto.
Qed.

Lemma acc_mono : forall s F F', fle F F' -> acc s F -> acc s F'.
Proof.
  induction s as [|[e|c al] s IH]; intros F F' H Ha; cbn [acc] in *.
  - destruct Ha as [b ->]. inversion H as [|? b' ? ? F2 _ H2|]; subst. inversion H2; subst. eauto.
  - destruct Ha as (F1 & E & Ha). destruct (feed_mono _ _ _ _ H E) as (F1' & E' & H1). exists F1'. split; [exact E'|].
    eapply IH; eassumption.
  - destruct Ha as [[H1 H2]|[(H1 & H2 & F1 & H3 & H4)|(b & F0 & -> & H1)]].
    + left. split; [exact H1|]. eapply IH; eassumption.
    + right. left. split; [exact H1|]. split; [exact H2|]. destruct (done_mono _ _ _ H H3) as (F1' & E' & H5).
      exists F1'. split; [exact E'|]. eapply IH; eassumption.
    + right. right. inversion H as [|? b' ? ? F2 _ Hf|]; subst. exists b', F2. split; [reflexivity|].
      intros b2 al' Hal. eapply IH; [|apply (H1 b2 al' Hal)]. constructor; [destruct b2; reflexivity|exact Hf].
Qed.

(** ** Elements and sequences *)

Definition elem (l : list instr) : Prop := forall F F1 s, done F = Some F1 -> acc s F1 -> acc (l ++ s) F.
Definition elems (q : list instr) : Prop :=
  forall b F s, (forall b', acc s (Body b' None :: F)) -> acc (q ++ s) (Body b None :: F).

Lemma done_open : forall F F1 f, done F = Some F1 -> open F f = Some (f :: F).
Proof. intros F F1 f H. unfold open. rewrite H. reflexivity. Qed.

Lemma elem_leaf : forall e, is_leaf e = true -> elem [IEv e].
Proof.
  intros e He F F1 s Hd Ha. cbn [app acc]. destruct e; try discriminate; cbn [feed]; eauto.
Qed.

Lemma elem_state : forall s, elem [IEv (EvState s)].
Proof.
  intros st F F1 s Hd Ha. cbn [app acc feed]. destruct F as [|[b r|n] F]; [discriminate| |eauto].
  eexists. split; [reflexivity|]. injection Hd as <-. eapply acc_mono; [|exact Ha]. constructor; [reflexivity|apply fle_refl].
Qed.

Lemma elem_group : forall g q, is_math_env g = false -> elems q -> elem (IEv (EvBegin g) :: q ++ [IEv EvEnd]).
Proof.
  intros g q Hg Hq F F1 s Hd Ha. cbn [app acc feed].
  assert (Hm : marks g = None) by (destruct g; try discriminate; reflexivity).
  rewrite Hm. cbn [option_map]. rewrite (done_open _ _ _ Hd). eexists. split; [reflexivity|].
  rewrite <- app_assoc. apply Hq. intros b'. cbn [app acc feed]. eauto.
Qed.

Lemma elem_env : forall g m st hl c, marks g = Some m ->
  elem (IEv (EvBegin g) :: style_list st ++ lines_list hl ++ [ISub c (Some (0, m)); IEv EvEnd]).
Proof.
  intros g m st hl c Hm F F1 s Hd Ha. cbn [app acc feed]. rewrite Hm. cbn [option_map].
  rewrite (done_open _ _ _ Hd). eexists. split; [reflexivity|].
  assert (Hs : forall b, acc (ISub c (Some (0, m)) :: IEv EvEnd :: s) (Body b (Some (0, m)) :: F)).
  { intros b. cbn [acc]. right. right. exists b, F. split; [reflexivity|]. intros b' al' _. cbn [feed]. eauto. }
  assert (Hl : acc (lines_list hl ++ ISub c (Some (0, m)) :: IEv EvEnd :: s) (Body true (Some (0, m)) :: F)).
  { unfold lines_list. destruct (is_nil hl); [apply Hs|]. cbn [app]. change (acc (IEv (EvFlow (EFStartLines hl)) :: ?s)) with
      (fun F => exists F1, feed F (EvFlow (EFStartLines hl)) = Some F1 /\ acc s F1). cbn [feed].
    eexists. split; [reflexivity|apply Hs]. }
  rewrite <- !app_assoc. cbn [app]. destruct st as [st|]; cbn [style_list app]; [|exact Hl].
  change (exists F2, feed (Body true (Some (0, m)) :: F) (EvState (SCStyle st)) = Some F2 /\
    acc (lines_list hl ++ ISub c (Some (0, m)) :: IEv EvEnd :: s) F2).
  cbn [feed]. eexists. split; [reflexivity|exact Hl].
Qed.

Lemma elem_one : forall F F1 a, done F = Some F1 -> elem a -> forall s, acc s F1 -> acc (a ++ s) (Need 1 :: F).
Proof. intros F F1 a Hd Ha s Hs. apply (Ha (Need 1 :: F) F1); [exact Hd|exact Hs]. Qed.

Lemma elem_more : forall n F a, elem a -> forall s, acc s (Need (S n) :: F) -> acc (a ++ s) (Need (S (S n)) :: F).
Proof. intros n F a Ha s Hs. apply (Ha _ (Need (S n) :: F)); [reflexivity|exact Hs]. Qed.

Lemma elem_need : forall e n, (forall F, feed F e = open F (Need n)) -> forall F F1 l, done F = Some F1 ->
  acc l (Need n :: F) -> acc (IEv e :: l) F.
Proof.
  intros e n He F F1 l Hd Ha. cbn [acc]. rewrite He, (done_open _ _ _ Hd). eauto.
Qed.

Lemma elem_vis1 : forall v a, visual_arity v = 1%nat -> elem a -> elem (IEv (EvVisual v) :: a).
Proof.
  intros v a Hv Ha F F1 s Hd Hs. cbn [app]. apply (elem_need (EvVisual v) (visual_arity v) (fun _ => eq_refl) _ _ _ Hd). rewrite Hv.
  eapply elem_one; eassumption.
Qed.
Lemma elem_two : forall e a b, (forall F, feed F e = open F (Need 2)) -> elem a -> elem b -> elem (IEv e :: a ++ b).
Proof.
  intros e a b He Ha Hb F F1 s Hd Hs. cbn [app]. apply (elem_need _ 2 He _ _ _ Hd). rewrite <- app_assoc.
  apply elem_more; [exact Ha|]. eapply elem_one; eassumption.
Qed.
Lemma elem_vis2 : forall v a b, visual_arity v = 2%nat -> elem a -> elem b -> elem (IEv (EvVisual v) :: a ++ b).
Proof. intros v a b Hv. apply elem_two. intros F. cbn [feed]. rewrite Hv. reflexivity. Qed.
Lemma elem_scr2 : forall t p a b, script_arity t = 2%nat -> elem a -> elem b -> elem (IEv (EvScript t p) :: a ++ b).
Proof. intros t p a b Hv. apply elem_two. intros F. cbn [feed]. rewrite Hv. reflexivity. Qed.
Lemma elem_scr3 : forall p a b c, elem a -> elem b -> elem c -> elem (IEv (EvScript STSubSup p) :: a ++ b ++ c).
Proof.
  intros p a b c Ha Hb Hc F F1 s Hd Hs. cbn [app]. apply (elem_need (EvScript STSubSup p) 3 (fun _ => eq_refl) _ _ _ Hd). rewrite <- !app_assoc.
  apply elem_more; [exact Ha|]. apply elem_more; [exact Hb|]. eapply elem_one; eassumption.
Qed.

Lemma elem_root : forall i a, one_symbol (stxt i) -> elem a -> elem (IEv (EvVisual VRoot) :: a ++ [ISub i None]).
Proof.
  intros i a Hi Ha. apply elem_two; [reflexivity|exact Ha|]. intros F F1 s Hd Hs. cbn [app acc]. right. left. eauto.
Qed.

Lemma elems_nil : elems [].
Proof. intros b F s H. apply H. Qed.
Lemma elems_app : forall a b, elem a -> elems b -> elems (a ++ b).
Proof.
  intros a b Ha Hb x F s H. rewrite <- app_assoc. apply (Ha _ (Body false None :: F)); [reflexivity|]. apply Hb. exact H.
Qed.
Lemma elems_sub : forall c, elems [ISub c None].
Proof.
  intros c b F s H. cbn [app acc]. right. right. exists b, F. split; [reflexivity|]. intros b' al' Hal.
  rewrite (proj1 Hal eq_refl). apply H.
Qed.

(** ** The iterator *)

Lemma strict_step : forall p, p_buf p = [] -> PInv rslice (fun m => m = []) p ->
  match next_step p with
  | (OItem (ItEvent e), p') => p_stack p = IEv e :: p_stack p' /\ p_buf p' = []
  | (OItem (ItError _), _) => exists c al s, p_stack p = ISub c al :: s
  | (OCont, p') => p_buf p' = [] /\ exists c al s, p_stack p = ISub c al :: s /\
      (p_stack p' = s \/ exists l c' al', p_stack p' = (l ++ ISub c' al' :: s)%list /\ piece elem eq al c' al' l)
  | (ODone, p') => p_stack p = [] /\ p' = p
  | (OPanic x, _) => exists c al s, p_stack p = ISub c al :: s
  | (OFuel, _) => True
  end.
Proof.
  intros p Hb (Hs & _ & Hj).
  apply (shape_step rslice rslice_sub False elem elems eq) with (J := fun m => m = []);
    try exact Hb; try exact Hs; try exact Hj; try (intros; congruence).
  - exact elem_leaf.
  - exact elem_state.
  - exact elem_group.
  - exact elem_env.
  - exact elem_vis1.
  - exact elem_vis2.
  - exact elem_scr2.
  - exact elem_scr3.
  - exact elems_nil.
  - exact elems_app.
  - exact elems_sub.
  - intros cs Hc Hsil. apply regular_command in Hc. unfold is_irregular in Hc. rewrite Hsil in Hc. discriminate.
  - intros cs q Hc El. apply regular_command in Hc. rewrite El in Hc. discriminate.
  - intros cs c idx r a [[]|(H1 & H2 & H3)] Ha. apply elem_root; [|exact Ha].
    eapply regular_root; try eassumption. destruct (one_symbol_b (stxt idx)) eqn:E.
    + left. apply one_symbol_iff. exact E.
    + right. intros H. apply one_symbol_iff in H. congruence.
  - intros cs c f [[]|(H1 & H2 & H3)]. exfalso. eapply regular_font; eassumption.
  - intros cs Hc El. apply regular_command in Hc. rewrite El in Hc. discriminate.
  - intros sl c w x r [[]|(H1 & H2 & H3 & H4 & H5)]. exfalso. eapply regular_script; eassumption.
  - intros m cs d r txt k n -> Hg. discriminate.
Qed.

(** An index that is one symbol gives one element. *)
Lemma alpha_digit_not : forall x k, is_alpha x = true \/ is_digit x = true ->
  is_alpha k = false -> is_digit k = false -> (x =? k) = false.
Proof.
  intros x k H Hk Hk'. apply N.eqb_neq. intros ->. destruct H; congruence.
Qed.

Lemma alpha_digit_not_ws : forall x, is_alpha x = true \/ is_digit x = true -> is_ws x = false.
Proof.
  intros x H. unfold is_alpha, is_digit in H. rewrite orb_true_iff, !andb_true_iff, !N.leb_le in H.
  unfold is_ws. rewrite !orb_false_iff, !andb_false_iff, !N.eqb_neq, !N.leb_gt. lia.
Qed.

Lemma span_digits : forall s, forallb is_digit s = true -> span_while is_numeral s = (s, []).
Proof.
  induction s as [|c s IH]; intros H; [reflexivity|]. cbn in H. apply andb_prop in H as [H1 H2].
  cbn [span_while]. unfold is_numeral at 1. rewrite H1, orb_true_r, (IH H2). reflexivity.
Qed.

Lemma digits_no_end : forall k s, is_digit k = false -> forallb is_digit s = true -> ends_with_char k s = false.
Proof.
  intros k s Hk. induction s as [|c s IH]; intros H; [reflexivity|].
  cbn [forallb] in H. apply andb_prop in H as [H1 H2]. destruct s as [|c' s]; [|apply IH; exact H2].
  cbn [ends_with_char]. apply N.eqb_neq. congruence.
Qed.

Lemma numeral_digits : forall s, s <> [] -> forallb is_digit s = true -> numeral false s = s.
Proof.
  intros [|c s] Hn H; [congruence|]. unfold numeral. cbn [forallb] in H. apply andb_prop in H as H'. destruct H' as [H1 H2].
  rewrite (span_digits s H2). cbn [fst]. rewrite !digits_no_end by (reflexivity || exact H). reflexivity.
Qed.

Lemma handle_symbol : forall ctx st x r, one_symbol (stxt ctx) -> stxt ctx = x :: r -> i_handling st = false ->
  stxt (i_content st) = r ->
  exists e c', handle_char ctx st = (Ok tt, set_buf (i_buf st ++ [IEv e]) (set_content c' st)) /\ is_leaf e = true /\ stxt c' = [].
Proof.
  intros ctx st x r Hs Ex Hh Ec.
  assert (Hx : is_alpha x = true \/ is_digit x = true).
  { destruct Hs as [(y & E & Hy)|[_ Hs]]; rewrite Ex in *; [injection E as -> ->; auto|inversion Hs; auto]. }
  unfold handle_char. unfold bind at 1. unfold get at 1. rewrite Ex. cbn [ctx_char].
  rewrite !(alpha_digit_not x) by (exact Hx || reflexivity). cbn [orb].
  destruct (is_digit x) eqn:Ed.
  - assert (Hd : forallb is_digit (stxt ctx) = true).
    { destruct Hs as [(y & E & Hy)|[_ Hs]]; [rewrite E in *; injection Ex as -> <-; cbn; rewrite Ed; reflexivity|].
      rewrite forallb_forall. rewrite Forall_forall in Hs. exact Hs. }
    rewrite Hh. rewrite <- Ex. rewrite numeral_digits; [|congruence|exact Hd].
    eexists. eexists. split; [reflexivity|]. split; [reflexivity|]. cbn. apply skipn_all.
  - destruct Hs as [(y & E & Hy)|[_ Hs]]; [|rewrite Ex in Hs; inversion Hs; congruence].
    rewrite Ex in E. injection E as -> ->. eexists. exists (i_content st). split.
    + unfold push_ev, push, modify. destruct st; reflexivity.
    + split; [|exact Ec]. unfold char_event.
      repeat match goal with |- is_leaf (if ?b then _ else _) = _ => destruct b end; try reflexivity.
      destruct (char_delimiter_map _) as [[d []]|]; reflexivity.
Qed.

Lemma no_scripts : forall st, stxt (i_content st) = [] -> i_allow st = false -> exists c', parse_scripts st = (Ok None, set_content c' st)
  /\ stxt c' = [].
Proof.
  intros st Hc Ha. rewrite parse_scripts_eq. unfold bind at 1. unfold get. destruct (i_skip st).
  - exists (i_content st). split; [destruct st; reflexivity|exact Hc].
  - unfold bind at 1. rewrite Ha. cbn [ret]. unfold maybe_scripts. unfold bind at 1. unfold modify. rewrite Hc.
    unfold bind at 1. unfold peek. eexists. split; [reflexivity|]. reflexivity.
Qed.

Lemma symbol_step : forall p c s, p_stack p = ISub c None :: s -> p_buf p = [] -> p_macros p = [] ->
  one_symbol (stxt c) ->
  exists p' e c', next_step p = (OCont, p') /\ p_stack p' = IEv e :: ISub c' None :: s /\ is_leaf e = true /\ stxt c' = [] /\
    p_buf p' = [].
Proof.
  intros p c s Es Hb Hm Hs. unfold next_step. rewrite Es.
  destruct (stxt c) as [|x r] eqn:Ex; [apply one_symbol_iff in Hs; discriminate|].
  assert (Hx : is_alpha x = true \/ is_digit x = true).
  { destruct Hs as [(y & E & Hy)|[_ Hs]]; [injection E as -> ->; auto|inversion Hs; auto]. }
  assert (Hw := alpha_digit_not_ws x Hx).
  cbn [trim_start]. rewrite Hw. cbn [is_nil].
  assert (Hp : forall f, exists e c', is_leaf e = true /\ stxt c' = [] /\
    parse (S f) (of_parser p c None) = (Ok None, set_ist (set_content c' (set_buf [IEv e] (q_ist (of_parser p c None)))) (of_parser p c None))).
  { intros f. cbn [parse]. change (i_content (q_ist (of_parser p c None))) with c. rewrite Ex.
    unfold lex_token. cbn [skip_blank]. rewrite Hw, !(alpha_digit_not x) by (exact Hx || reflexivity).
    unfold run_inner. cbn [q_ist set_ist].
    destruct (handle_symbol (suffix_slice c (x :: r)) (set_content (suffix_slice c r) (q_ist (of_parser p c None))) x r)
      as (e & c1 & Eh & He & Hc1); [exact Hs|reflexivity|reflexivity|reflexivity|].
    unfold parse_atom. unfold bind at 1. rewrite Eh.
    destruct (no_scripts (set_buf (i_buf (set_content (suffix_slice c r) (q_ist (of_parser p c None))) ++ [IEv e])
             (set_content c1 (set_content (suffix_slice c r) (q_ist (of_parser p c None))))) Hc1 eq_refl) as (c2 & Ep & Hc2).
    rewrite Ep. exists e, c2. split; [exact He|]. split; [exact Hc2|]. unfold of_parser. rewrite Hb. reflexivity. }
  destruct (Hp 65%nat) as (e & c' & He & Hc' & Ep). change (S 65) with parse_fuel in Ep. rewrite Ep.
  eexists. exists e, c'. split; [reflexivity|]. cbn. auto.
Qed.

Lemma empty_step : forall p c al s, p_stack p = ISub c al :: s -> stxt c = [] ->
  exists p', next_step p = (OCont, p') /\ p_stack p' = s /\ p_buf p' = p_buf p.
Proof. intros p c al s Es Hc. unfold next_step. rewrite Es, Hc. eexists. split; [reflexivity|]. auto. Qed.

Lemma flow_feed : forall b al e al' F, flow_step al e al' -> feed (Body b al :: F) e = Some (Body false al' :: F).
Proof.
  intros b al e al' F H. destruct H as [c m Hlt|c m sp hl]; cbn [feed]; [|reflexivity].
  apply N.ltb_lt in Hlt. rewrite Hlt. reflexivity.
Qed.

Lemma flow_some : forall al e al', flow_step al e al' -> al <> None /\ al' <> None.
Proof. intros al e al' H. inversion H; split; discriminate. Qed.

Lemma cont_acc : forall p p' F, p_buf p = [] -> PInv rslice (fun m => m = []) p -> next_step p = (OCont, p') ->
  acc (p_stack p) F -> p_buf p' = [] /\ acc (p_stack p') F.
Proof.
  intros p p' F Hb Hp En Ha. pose proof (strict_step p Hb Hp) as Hs. rewrite En in Hs.
  destruct Hs as (Hb' & c & al & s & Es & Hs). split; [exact Hb'|]. rewrite Es in Ha. cbn [acc] in Ha.
  destruct Ha as [[H1 H2]|[(H1 & -> & F1 & H3 & H4)|(b & F0 & -> & H1)]].
  - destruct (empty_step p c al s Es H1) as (p1 & E1 & E2 & _). rewrite En in E1. injection E1 as <-. rewrite E2. exact H2.
  - destruct Hp as (_ & _ & Hm).
    destruct (symbol_step p c s Es Hb Hm H1) as (p1 & e & c' & E1 & E2 & He & Hc' & _). rewrite En in E1. injection E1 as <-.
    rewrite E2. apply (elem_leaf e He F F1 (ISub c' None :: s)); [exact H3|]. cbn [acc]. left. auto.
  - destruct Hs as [->|(l & c' & al' & -> & Hpc)].
    + apply H1. reflexivity.
    + assert (Hsub : forall b1 al1, (al = None <-> al1 = None) -> acc (ISub c' al1 :: s) (Body b1 al1 :: F0)).
      { intros b1 al1 Hal. cbn [acc]. right. right. exists b1, F0. split; [reflexivity|]. intros b2 al2 Hal2.
        apply H1. rewrite Hal. exact Hal2. }
      inversion Hpc as [l0 Hu Hae|e Hf|Hc' Hae]; subst.
      * apply (Hu _ (Body false al' :: F0)); [reflexivity|]. apply Hsub. reflexivity.
      * cbn [app acc]. eexists. split; [apply flow_feed; exact Hf|]. apply Hsub. apply flow_some in Hf. tauto.
      * apply Hsub. reflexivity.
Qed.

Lemma strict_run : forall n p F, p_buf p = [] -> PInv rslice (fun m => m = []) p -> acc (p_stack p) F ->
  let '(l, o, p') := run n p in
  error_free l -> exists F', feeds F (events l) = Some F' /\ (o = ODone -> exists b, F' = [Body b None]).
Proof.
  induction n as [|n IH]; intros p F Hb Hp Ha; cbn [run]; [intros _; exists F; split; [reflexivity|discriminate]|].
  pose proof (strict_step p Hb Hp) as Hs.
  assert (Hk := keep_step rslice rslice_sub _ rslice_closed
    (fun m cs d r txt k n' sl (E : m = []) Hg => ltac:(subst m; discriminate)) p Hp).
  destruct (next_step p) as [[[e|pe]| | |x| ] p'] eqn:En.
  - destruct Hs as [Es Hb']. rewrite Es in Ha. cbn [acc] in Ha. destruct Ha as (F1 & Ef & Ha). destruct Hk as [Hk _].
    specialize (IH p' F1 Hb' Hk Ha). destruct (run n p') as [[l o] p'']. cbn [events feeds]. rewrite Ef.
    intros He. apply IH. exact He.
  - destruct (run n p') as [[l o] p'']. intros He. discriminate He.
  - destruct (cont_acc p p' F Hb Hp En Ha) as [Hb' Ha']. exact (IH p' F Hb' Hk Ha').
  - destruct Hs as [Es _]. rewrite Es in Ha. destruct Ha as [b ->]. intros _. exists [Body b None]. split; [reflexivity|eauto].
  - intros _. exists F. split; [reflexivity|discriminate].
  - intros _. exists F. split; [reflexivity|discriminate].
Qed.

Lemma regular_start : forall input, regular input ->
  PInv rslice (fun m => m = []) (new_parser input) /\ acc (p_stack (new_parser input)) start_frames.
Proof.
  intros input Hr. split.
  - split; [repeat constructor; exact Hr|]. split; [constructor|reflexivity].
  - cbn [new_parser p_stack acc]. right. right. exists true, []. split; [reflexivity|]. intros b' al' Hal.
    rewrite (proj1 Hal eq_refl). eauto.
Qed.

Lemma regular_well_formed : forall input l, regular input -> parses input l -> error_free l -> well_formed (events l).
Proof.
  intros input l Hr (n & p & H) He. destruct (regular_start input Hr) as [Hp Ha].
  pose proof (strict_run n (new_parser input) _ eq_refl Hp Ha) as Hs. rewrite H in Hs.
  destruct (Hs He) as (F' & E & Hd). destruct (Hd eq_refl) as [b ->]. exists b. exact E.
Qed.

Lemma regular_well_begun : forall input l, regular input -> yields input l -> error_free l -> well_begun (events l).
Proof.
  intros input l Hr [n H] He. destruct (regular_start input Hr) as [Hp Ha].
  pose proof (strict_run n (new_parser input) _ eq_refl Hp Ha) as Hs.
  destruct (run n (new_parser input)) as [[l' o] p]. cbn in H. subst l'.
  destruct (Hs He) as (F' & E & _). exists F'. exact E.
Qed.
