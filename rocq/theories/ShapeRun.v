(** * ShapeRun: the shape of whole event streams, up to the first error. *)

From Coq Require Import List NArith ZArith Bool Lia Arith.
From Verif Require Import Base Float32 Event Tables Prim PrimTable Lex Macros Primitives Spans Parser
  SpecLex LexFacts LexMore PrimFacts Keep Measure Order Terminate KeepRun Api SpecEvent Shape.
Import ListNotations.
Open Scope N_scope.

(** ** Every input: groups nest *)

(** The depth after a list of instructions. *)
Fixpoint idepth (d : nat) (l : list instr) : option nat :=
  match l with
  | [] => Some d
  | IEv (EvBegin _) :: l' => idepth (S d) l'
  | IEv EvEnd :: l' => match d with O => None | S d' => idepth d' l' end
  | _ :: l' => idepth d l'
  end.

Definition level (l : list instr) : Prop := forall d, idepth d l = Some d.

Lemma idepth_app : forall l d l2, idepth d (l ++ l2) = match idepth d l with Some d' => idepth d' l2 | None => None end.
Proof.
  induction l as [|i l IH]; intros d l2; [reflexivity|]. destruct i as [e|c al]; cbn [app idepth]; [|apply IH].
  destruct e; try apply IH. destruct d; [reflexivity|apply IH].
Qed.

Lemma level_app : forall a b, level a -> level b -> level (a ++ b).
Proof. intros a b Ha Hb d. rewrite idepth_app, Ha. apply Hb. Qed.

Lemma level_flat : forall l, forallb (fun i => match i with IEv (EvBegin _) | IEv EvEnd => false | _ => true end) l = true -> level l.
Proof.
  induction l as [|i l IH]; intros H d; [reflexivity|]. cbn in H. apply andb_prop in H as [H1 H2].
  destruct i as [e|c al]; [destruct e; try discriminate|]; cbn; apply IH; exact H2.
Qed.

Lemma level_group : forall g q, level q -> level (IEv (EvBegin g) :: q ++ [IEv EvEnd]).
Proof. intros g q Hq d. cbn [idepth]. rewrite idepth_app, Hq. reflexivity. Qed.

Lemma level_cons : forall i l, forallb (fun i => match i with IEv (EvBegin _) | IEv EvEnd => false | _ => true end) [i] = true ->
  level l -> level (i :: l).
Proof. intros i l Hi Hl. apply (level_app [i] l); [apply level_flat; exact Hi|exact Hl]. Qed.

Lemma level_step : forall p, p_buf p = [] -> PInv (fun _ => True) (fun _ => True) p ->
  match next_step p with
  | (OItem (ItEvent e), p') => p_stack p = IEv e :: p_stack p' /\ p_buf p' = []
  | (OItem (ItError _), _) => exists c al s, p_stack p = ISub c al :: s
  | (OCont, p') => p_buf p' = [] /\ exists c al s, p_stack p = ISub c al :: s /\
      (p_stack p' = s \/ exists l c' al', p_stack p' = (l ++ ISub c' al' :: s)%list /\ piece level (fun _ _ => True) al c' al' l)
  | (ODone, p') => p_stack p = [] /\ p' = p
  | (OPanic x, _) => exists c al s, p_stack p = ISub c al :: s
  | (OFuel, _) => True
  end.
Proof.
  intros p Hb (Hs & _ & Hj).
  apply (shape_step (fun _ => True) (fun _ _ _ _ => I) True level level (fun _ _ => True)) with (J := fun _ => True);
    try exact Hb; try exact Hs; try exact I; try (intros; exact I).
  - intros e He. apply level_flat. destruct e; try discriminate; reflexivity.
  - intros s. apply level_flat. reflexivity.
  - intros g q _ Hq. apply level_group. exact Hq.
  - intros g m st hl c _. rewrite app_assoc. change [ISub c (Some (0, m)); IEv EvEnd] with ([ISub c (Some (0, m))] ++ [IEv EvEnd])%list.
    rewrite app_assoc. apply level_group. apply level_flat.
    destruct st; unfold lines_list; destruct (is_nil hl); reflexivity.
  - intros v a _ Ha. apply level_cons; [reflexivity|exact Ha].
  - intros v a b _ Ha Hb'. apply level_cons; [reflexivity|]. apply level_app; assumption.
  - intros t q a b _ Ha Hb'. apply level_cons; [reflexivity|]. apply level_app; assumption.
  - intros q a b c Ha Hb' Hc. apply level_cons; [reflexivity|]. apply level_app; [assumption|]. apply level_app; assumption.
  - intros d. reflexivity.
  - exact level_app.
  - intros c d. reflexivity.
  - intros cs _ _ d. reflexivity.
  - auto.
  - intros cs c idx r a _ Ha. apply level_cons; [reflexivity|]. apply level_app; [exact Ha|apply level_flat; reflexivity].
  - intros cs c f _ al e al' Hf. split; [|exact I]. apply (level_group GNormal [IEv (EvState (SCFont f)); IEv e]).
    apply level_flat. inversion Hf; reflexivity.
  - intros sl c w x r _ al e al' Hf. split; [|exact I]. apply level_flat. inversion Hf; reflexivity.
Qed.

Lemma level_run : forall n p d, p_buf p = [] -> PInv (fun _ => True) (fun _ => True) p ->
  idepth d (p_stack p) = Some O ->
  let '(l, o, p') := run n p in
  error_free l -> exists d', depth d (events l) = Some d' /\ (o = ODone -> d' = O).
Proof.
  induction n as [|n IH]; intros p d Hb Hp Hd; cbn [run]; [intros _; exists d; split; [reflexivity|discriminate]|].
  pose proof (level_step p Hb Hp) as Hs.
  assert (Hk := keep_step (fun _ => True) (fun _ _ _ _ => I) (fun _ => True)
    ltac:(intros ? ? ? ? ? ? ? ? ?; exact I) ltac:(intros; exact I) p Hp).
  destruct (next_step p) as [[[e|pe]| | |x| ] p'].
  - destruct Hs as [Es Hb']. rewrite Es in Hd. destruct Hk as [Hk _].
    assert (Hn : exists d1, (forall l, depth d (e :: l) = depth d1 l) /\ idepth d1 (p_stack p') = Some O).
    { destruct e; cbn [idepth SpecEvent.depth] in *; try (exists d; split; [reflexivity|exact Hd]).
      - exists (S d). auto.
      - destruct d as [|d]; [discriminate|]. exists d. auto. }
    destruct Hn as (d1 & E1 & Hd1). specialize (IH p' d1 Hb' Hk Hd1). destruct (run n p') as [[l o] p''].
    cbn [events]. rewrite E1. intros He. apply IH. exact He.
  - destruct (run n p') as [[l o] p'']. intros He. discriminate He.
  - destruct Hs as (Hb' & c & al & s & Es & Hs). apply (IH p' d Hb' Hk). rewrite Es in Hd. cbn [idepth] in Hd.
    destruct Hs as [->|(l & c' & al' & -> & Hpc)]; [exact Hd|]. rewrite idepth_app.
    inversion Hpc as [l0 Hu _|e Hf|_ _]; subst.
    + rewrite Hu. exact Hd.
    + inversion Hf; subst; exact Hd.
    + exact Hd.
  - destruct Hs as [Es _]. rewrite Es in Hd. injection Hd as ->. intros _. exists O. auto.
  - intros _. exists d. split; [reflexivity|discriminate].
  - intros _. exists d. split; [reflexivity|discriminate].
Qed.

Lemma any_start : forall input, PInv (fun _ => True) (fun _ => True) (new_parser input).
Proof. intros input. split; [repeat constructor|]. split; [constructor|exact I]. Qed.

Lemma groups_balanced : forall input l, parses input l -> error_free l -> depth 0 (events l) = Some O.
Proof.
  intros input l (n & p & H) He. pose proof (level_run n (new_parser input) 0 eq_refl (any_start _) eq_refl) as Hr.
  rewrite H in Hr. destruct (Hr He) as (d & E & Hd). rewrite E, (Hd eq_refl). reflexivity.
Qed.

Lemma groups_nest : forall input l, yields input l -> error_free l -> depth 0 (events l) <> None.
Proof.
  intros input l [n H] He. pose proof (level_run n (new_parser input) 0 eq_refl (any_start _) eq_refl) as Hr.
  destruct (run n (new_parser input)) as [[l' o] p]. cbn in H. subst l'.
  destruct (Hr He) as (d & E & _). congruence.
Qed.

(** ** The order of scripts, in every state of the parser *)

Lemma any_scripts : forall st, wp parse_scripts st (fun o st' => scripts_res (fun _ => True) (i_buf st) o (i_buf st')).
Proof.
  intros st. eapply wp_conseq.
  - apply (w_parse_scripts (fun _ => True) (fun _ _ _ _ => I) True (fun _ => True) (fun _ => True) (fun _ _ => True));
      intros; try split; exact I.
  - intros o st' [(_ & _ & H & _) _]. exact H.
Qed.

Lemma any_parse : forall f q e sub sup q', parse f q = (Ok (Some (e, sub, sup)), q') ->
  exists b, scripts_res (fun _ => True) b (Some (e, sub, sup)) (i_buf (q_ist q')).
Proof.
  assert (Hr : forall (m : P unit) q e sub sup q', run_inner (parse_atom m) q = (Ok (Some (e, sub, sup)), q') ->
    exists b, scripts_res (fun _ => True) b (Some (e, sub, sup)) (i_buf (q_ist q'))).
  { intros m q e sub sup q' H. unfold run_inner, parse_atom, bind in H.
    destruct (m (q_ist q)) as [[[]|?|?|] st1]; try discriminate.
    pose proof (any_scripts st1) as Hw. unfold wp in Hw. destruct (parse_scripts st1) as [r st2].
    injection H as -> <-. exists (i_buf st1). exact Hw. }
  induction f as [|f IH]; intros q e sub sup q' H; [discriminate|]. cbn [parse] in H.
  destruct (lex_token _) as [[[cs|ctx]|er|p|] r]; try discriminate.
  - destruct (ctx_get _ cs) as [d|]; [|eapply Hr; exact H].
    destruct (expand_definition d r) as [[txt k]|?|?|]; try discriminate.
    destruct (_ || _); [discriminate|]. destruct (add_span _ _ _ _) as [[[]|?|?|] sp]; try discriminate.
    eapply IH. exact H.
  - eapply Hr. exact H.
  - destruct er; discriminate.
Qed.

(** What is in the buffer: what precedes the scripts, then the scripts in the
    order of the source; the subscript is put first. *)
Lemma script_order : forall f q e sub sup q', parse f q = (Ok (Some (e, sub, sup)), q') ->
  exists base s1 s2 l, i_buf (q_ist q') = (base ++ s1 ++ s2)%list /\
    firstn (Nat.min sub sup) (i_buf (q_ist q')) = base /\
    order_scripts sub sup (i_buf (q_ist q')) = Ok l /\
    ((sub <= sup)%nat /\ l = (s1 ++ s2)%list \/ (sup < sub)%nat /\ l = (s2 ++ s1)%list).
Proof.
  intros f q e sub sup q' H. apply any_parse in H as [b H]. set (B := i_buf (q_ist q')) in *. clearbody B.
  inversion H as [|p l1 _ E1 E2|p l1 _ E1 E2|p l1 l2 _ _ E1 E2|p l1 l2 _ _ E1 E2]; subst.
  - exists b, l1, [], l1. rewrite app_nil_r.
    rewrite Nat.min_l by (rewrite app_length; lia). rewrite firstn_app_l, order_sub_first, skipn_app_l by (rewrite app_length; lia).
    split; [reflexivity|]. split; [reflexivity|]. split; [reflexivity|]. left. split; [rewrite app_length; lia|reflexivity].
  - destruct l1 as [|x l1].
    + exists b, [], [], []. rewrite !app_nil_r. rewrite Nat.min_id, firstn_all, order_sub_first, skipn_all by lia.
      split; [reflexivity|]. split; [reflexivity|]. split; [reflexivity|]. left. split; [lia|reflexivity].
    + exists b, (x :: l1), [], (x :: l1). rewrite app_nil_r.
      rewrite Nat.min_r by (rewrite app_length; lia). rewrite firstn_app_l.
      rewrite order_sup_first by (rewrite ?app_length; cbn; lia). rewrite skipn_all, skipn_app_l. cbn [app].
      rewrite firstn_all2 by (rewrite app_length; cbn; lia).
      split; [reflexivity|]. split; [reflexivity|]. split; [reflexivity|]. right. split; [rewrite app_length; cbn; lia|reflexivity].
  - exists b, l1, l2, (l1 ++ l2)%list.
    rewrite Nat.min_l by (rewrite app_length; lia). rewrite firstn_app_l, order_sub_first, skipn_app_l by (rewrite app_length; lia).
    split; [reflexivity|]. split; [reflexivity|]. split; [reflexivity|]. left. split; [rewrite app_length; lia|reflexivity].
  - destruct l1 as [|x l1].
    + exists b, [], l2, l2. rewrite app_nil_r. cbn [app]. rewrite Nat.min_id, firstn_app_l, order_sub_first, skipn_app_l by lia.
      split; [reflexivity|]. split; [reflexivity|]. split; [reflexivity|]. left. split; [lia|reflexivity].
    + exists b, (x :: l1), l2, (l2 ++ x :: l1)%list.
      rewrite Nat.min_r by (rewrite app_length; lia). rewrite firstn_app_l.
      rewrite order_sup_first by (rewrite ?app_length; cbn; lia).
      replace (skipn (length (b ++ x :: l1)) (b ++ (x :: l1) ++ l2))%list with l2
        by (rewrite app_assoc, skipn_app_l; reflexivity).
      rewrite skipn_app_l.
      replace (length (b ++ x :: l1) - length b)%nat with (length (x :: l1)) by (rewrite app_length; lia).
      rewrite firstn_app_l.
      split; [reflexivity|]. split; [reflexivity|]. split; [reflexivity|]. right. split; [rewrite app_length; cbn; lia|reflexivity].
Qed.
